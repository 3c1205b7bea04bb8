(** Model of the reading of options: drmemory/options.c:168-191, 210-320,
    339-382.  Strings are lists of characters without the terminator. *)
From Verif Require Import Base.
Open Scope Z_scope.

Definition DASH : Z := 45.

(** isspace in the C locale *)
Definition isspace (c : Z) : bool := ((9 <=? c) && (c <=? 13)) || (c =? 32).

(** options.c:174 *)
Definition isquote (c : Z) : bool := (c =? 34) || (c =? 39) || (c =? 96).

(** options.c:172-173 *)
Fixpoint skip_spaces (s : list Z) : list Z :=
  match s with
  | c :: r => if isspace c then skip_spaces r else s
  | [] => []
  end.

(** options.c:179-181; [room] counts down from MAX_OPTION_LEN-1. *)
Fixpoint take (room : nat) (quoted : bool) (q : Z) (s : list Z) : list Z * list Z :=
  match s with
  | [] => ([], [])
  | c :: r =>
    if (if quoted then negb (c =? q) else negb (isspace c)) then
      match room with
      | O => ([], s)
      | S room' => let '(w, t) := take room' quoted q r in (c :: w, t)
      end
    else ([], s)
  end.

Section Options.
(** MAX_OPTION_LEN *)
Variable maxlen : nat.
(** how [stri_eq] compares: tolower in the client, nothing in the front end
    (options.c:64) *)
Variable fold : Z -> Z.
(** dr_sscanf of "0x%x" and of "%u" or "%d": the number read, if any *)
Variables hex dec : list Z -> option Z.

(** options.c:168-191 get_option_word: what is left ([None] for NULL) and the
    word. *)
Definition get_option_word (s : list Z) : option (list Z) * list Z :=
  let s := skip_spaces s in
  let '(quoted, q, s) :=
    match s with
    | c :: r => if isquote c then (true, c, r) else (false, 0, s)
    | [] => (false, 0, [])
    end in
  let '(w, s) := take (maxlen - 1) quoted q s in
  let s := if quoted then match s with c :: r => if c =? q then r else s | [] => [] end else s in
  (match w, s with [], [] => None | _, _ => Some s end, w).

(** The bare loop of options.c:347 *)
Fixpoint read_words (fuel : nat) (s : list Z) : res (list (list Z)) :=
  match fuel with
  | O => Fuel
  | S fuel' =>
    match get_option_word s with
    | (None, _) => Ok []
    | (Some t, w) => let* ws := read_words fuel' t in Ok (w :: ws)
    end
  end.

(** The types of options (optionsx.h); uint and uint64 differ in nothing that
    is modelled. *)
Inductive opty := TBool | TUint (min max : Z) | TInt (min max : Z) | TStr | TMulti.

(** An option of optionsx.h.  [e_alt] is [#altname]: where the argument is
    the token [""], it is the string of two quotes. *)
Record entry := { e_name : list Z; e_alt : list Z; e_type : opty }.

Definition NO_ALT : list Z := [34; 34].

Inductive value := VBool (b : bool) | VNum (n : Z) | VStr (s : list Z) | VMulti (buf : list Z).

(** The structs options and option_specified, by the place in optionsx.h. *)
Record state := { vals : nat -> value; specified : nat -> bool }.

Definition set_val (st : state) (k : nat) (v : value) : state :=
  {| vals := fun j => if Nat.eqb j k then v else vals st j;
     specified := fun j => if Nat.eqb j k then true else specified st j |}.

Fixpoint eqs (a b : list Z) : bool :=
  match a, b with
  | [], [] => true
  | x :: a', y :: b' => (fold x =? fold y) && eqs a' b'
  | _, _ => false
  end.

Definition on_word (n : list Z) : list Z := DASH :: n.
Definition off_word (n : list Z) : list Z := DASH :: 110 :: 111 :: 95 :: n.   (* "-no_" *)

(** [#altname[0] != '\0'] *)
Definition has_alt (e : entry) : bool := match e_alt e with [] => false | _ => true end.

Inductive action := ABool (b : bool) | AVal.

(** options.c:349-371, the test of one option *)
Definition match_entry (e : entry) (w : list Z) : option action :=
  match e_type e with
  | TBool =>
    if eqs w (on_word (e_name e)) || (has_alt e && eqs w (on_word (e_alt e))) then Some (ABool true)
    else if eqs w (off_word (e_name e)) || (has_alt e && eqs w (off_word (e_alt e)))
    then Some (ABool false)
    else None
  | _ =>
    if eqs w (on_word (e_name e)) || (has_alt e && eqs w (on_word (e_alt e))) then Some AVal
    else None
  end.

(** options.c:374-375: the options are tried in order. *)
Fixpoint find (tab : list entry) (k : nat) (w : list Z) : option (nat * entry * action) :=
  match tab with
  | [] => None
  | e :: r => match match_entry e w with Some a => Some (k, e, a) | None => find r (S k) w end
  end.

Definition write_at (p : nat) (l buf : list Z) : res (list Z) :=
  if Nat.leb (p + List.length l) (List.length buf)
  then Ok (firstn p buf ++ l ++ skipn (p + List.length l) buf) else UB.

(** options.c:303-307: the value of [c - *var] after the loop *)
Fixpoint find_end (buf : list Z) (c : nat) : nat :=
  match buf with
  | x :: ((y :: _) as r) => if negb (x =? 0) || negb (y =? 0) then find_end r (S c) else c
  | _ => c
  end.

(** options.c:303-310.  dr_snprintf writes at most [n] characters, and the
    terminator only if there is room for it. *)
Definition append (buf w : list Z) : res (list Z) :=
  let c := find_end buf 0 in
  let p := if Nat.eqb c 0 then 0%nat else S c in
  let n := (List.length buf - (c + 1))%nat in
  let out := if Nat.ltb (List.length w) n then w ++ [0] else firstn n w in
  let* buf := write_at p out buf in
  write_at (List.length buf - 1) [0] buf.

(** options.c:210-312; [None]: option_error, which does not return. *)
Definition read_value (ty : opty) (s : list Z) (old : value) : res (option (value * list Z)) :=
  match get_option_word s with
  | (None, _) => Ok None
  | (Some t, w) =>
    let num neg mn mx :=
      match w with
      | [] => Ok None
      | c :: _ =>
        if negb neg && (c =? DASH) then Ok None
        else
          match (match hex w with Some v => Some v | None => dec w end) with
          | None => Ok None
          | Some v => if (v <? mn) || (mx <? v) then Ok None else Ok (Some (VNum v, t))
          end
      end in
    match ty with
    | TBool => UB
    | TUint mn mx => num false mn mx
    | TInt mn mx => num true mn mx
    | TStr =>
      match w with
      | c :: _ => if c =? DASH then Ok (Some (VStr [], s)) else Ok (Some (VStr w, t))
      | [] => Ok (Some (VStr [], t))
      end
    | TMulti =>
      match old with
      | VMulti buf => let* buf' := append buf w in Ok (Some (VMulti buf', t))
      | _ => UB
      end
    end
  end.

Variable tab : list entry.

(** options.c:347-382, the loop of options_init.  [None]: aborted with a usage
    error. *)
Fixpoint parse (fuel : nat) (s : list Z) (st : state) : res (option state) :=
  match fuel with
  | O => Fuel
  | S fuel' =>
    match get_option_word s with
    | (None, _) => Ok (Some st)
    | (Some t, w) =>
      match find tab 0 w with
      | None => Ok None
      | Some (k, e, ABool b) => parse fuel' t (set_val st k (VBool b))
      | Some (k, e, AVal) =>
        let* r := read_value (e_type e) t (vals st k) in
        match r with
        | None => Ok None
        | Some (v, t') => parse fuel' t' (set_val st k v)
        end
      end
    end
  end.

Definition options_init (s : list Z) (st : state) : res (option state) :=
  parse (S (List.length s)) s st.
End Options.
