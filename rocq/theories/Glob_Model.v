(** Model of the wildcard matcher, /repo/common/utils.c:562-651.
    A [char *] into a NUL-terminated string is the list of the characters
    before the terminator; dereferencing [[]] reads the NUL, advancing past
    [[]] is undefined behaviour.  [fold] stands for [(char) tolower(c)]. *)
From Verif Require Import Base.
Open Scope Z_scope.

Definition STAR : Z := 42.   (* '*' *)
Definition QMARK : Z := 63.  (* '?' *)

Definition rd (p : list Z) : Z := match p with [] => 0 | c :: _ => c end.
Definition adv (p : list Z) : res (list Z) := match p with [] => UB | _ :: p' => Ok p' end.

(** utils.c:591-593  [while ( *++pattern == '*') {}], entered with the pointer
    already advanced once; also utils.c:615-616. *)
Fixpoint skip_stars (p : list Z) : list Z :=
  match p with
  | c :: p' => if c =? STAR then skip_stars p' else p
  | [] => []
  end.

Section Matcher.
Variable fold : Z -> Z.

(** utils.c:578-614, one unit of fuel per loop iteration.  [last] is
    (text_last_asterisk, pattern_last_asterisk), [None] for NULL.
    [text_last_asterisk++] may form the one-past-the-terminator pointer, which
    C allows; it is then never dereferenced because cur_text is the
    terminator (List.tl keeps it at [[]] in the model). *)
Fixpoint match_loop (fuel : nat) (ic : bool) (cur pat : list Z)
    (last : option (list Z * list Z)) : res bool :=
  match fuel with
  | O => Fuel
  | S fuel' =>
    if rd cur =? 0 then
      (* utils.c:615-618 *)
      Ok (rd (skip_stars pat) =? 0)
    else
      let cmp_cur := if ic then fold (rd cur) else rd cur in
      let cmp_pat := if ic then fold (rd pat) else rd pat in
      if rd pat =? STAR then
        let* p1 := adv pat in
        let p := skip_stars p1 in
        if rd p =? 0 then Ok true
        else match_loop fuel' ic cur p (Some (cur, p))
      else if (cmp_cur =? cmp_pat) || (rd pat =? QMARK) then
        let* c' := adv cur in
        let* p' := adv pat in
        match_loop fuel' ic c' p' last
      else match last with
           | Some (lt, lp) => match_loop fuel' ic lt lp (Some (tl lt, lp))
           | None => Ok false
           end
  end.

(** utils.c:567-619 *)
Definition text_matches_pattern (fuel : nat) (text pat : list Z) (ic : bool) : res bool :=
  match_loop fuel ic text pat None.

(** A C string inside a larger buffer: the characters before the first NUL;
    running off the buffer is undefined behaviour. *)
Fixpoint cstr (buf : list Z) : res (list Z) :=
  match buf with
  | [] => UB
  | c :: b => if c =? 0 then Ok [] else let* s := cstr b in Ok (c :: s)
  end.

(** utils.c:621-632; the outer loop runs at most once per buffer byte, which
    is the [n] argument. *)
Fixpoint matches_any_loop (n fuel : nat) (text buf : list Z) (ic : bool) : res bool :=
  match n with
  | O => Fuel
  | S n' =>
    match buf with
    | [] => UB
    | c :: _ =>
      if c =? 0 then Ok false
      else
        let* p := cstr buf in
        let* b := text_matches_pattern fuel text p ic in
        if b then Ok true
        else matches_any_loop n' fuel text (skipn (length p + 1) buf) ic
    end
  end.

Definition text_matches_any_pattern (fuel : nat) (text buf : list Z) (ic : bool) : res bool :=
  matches_any_loop (S (length buf)) fuel text buf ic.
End Matcher.

(** libc [tolower] in the C locale. *)
Definition ascii_tolower (c : Z) : Z := if (65 <=? c) && (c <=? 90) then c + 32 else c.
