(** Model of suppression parsing, generation and matching,
    /repo/drmemory/report.c:333-1155 (Linux build).  Strings are the lists of
    characters before the NUL; NULL is [None] and using it is undefined
    behaviour.  ASSERT is a no-op (release build). *)
From Coq Require Import String Ascii.
From Verif Require Import Base Glob_Model.
Open Scope Z_scope.

Fixpoint chars (s : string) : list Z :=
  match s with EmptyString => [] | String c s' => Z.of_nat (nat_of_ascii c) :: chars s' end.

(** a frame of a symbolised call stack, callstack.c:256-283 (the fields the
    matcher reads; all are arrays, hence never NULL) *)
Record frame := Fr { f_ismod : bool; f_modname : list Z; f_modoffs : list Z; f_func : list Z }.

(** report.c:357-365 *)
Record sframe := SF { s_ellipsis : bool; s_star : bool; s_ismod : bool;
                      s_modname : option (list Z); s_modoffs : option (list Z); s_func : option (list Z) }.
(** report.c:367-387, the fields that matter for matching *)
Record spec := Spec { sp_type : nat; sp_name : option (list Z); sp_instr : option (list Z); sp_frames : list sframe }.

(** text_matches_pattern with enough fuel (C05 shows it is enough) *)
Definition tm_fuel (t p : list Z) : nat :=
  let n := List.length t in let m := List.length p in
  S ((S m) * ((n + 2) * (n + 1)) + (n + 1) * (n + 1) + n).
Definition tm (text : list Z) (pat : option (list Z)) (ic : bool) : res bool :=
  let* p := of_option pat in text_matches_pattern ascii_tolower (tm_fuel text p) text p ic.

(** utils.h:263-265 with CLIENT_LIBNAME drmemorylib; report.c:1083, 1095 *)
Definition DRMEMORY_LIBNAME := chars "libdrmemorylib.so*".
Definition REPLACE_PAT := chars "replace_*".
(** utils.h:1027 (not Windows) *)
Definition FILESYS_CASELESS := false.

(** report.c:977-986 *)
Definition frame_matches_modname (fr : frame) (s : sframe) : res bool :=
  tm (f_modname fr) (s_modname s) FILESYS_CASELESS.

(** report.c:988-1038; [idx >= num_frames] cannot happen at the only caller *)
Definition top_frame_matches_suppression_frame (fr : frame) (s : sframe) : res bool :=
  if s_ellipsis s then
    if s_ismod s then frame_matches_modname fr s else Ok true
  else if s_star s then Ok true
  else if negb (s_ismod s) then
    if f_ismod fr then Ok false else tm (f_func fr) (s_func s) false
  else match s_func s with
  | None =>
    if negb (f_ismod fr) then Ok false else
    let* m := frame_matches_modname fr s in
    if m then tm (f_modoffs fr) (s_modoffs s) true else Ok false
  | Some _ =>
    if negb (f_ismod fr) then Ok false else
    let* m := frame_matches_modname fr s in
    if m then tm (f_func fr) (s_func s) false else Ok false
  end.

(** report.c:1056-1107.  [i--] followed by the for's [i++] is "same i" (the
    uint wraps and comes back); [last] is scs_last_ellipsis ([None] = -1) with
    cur_ellipsis_supp. One unit of fuel per iteration. *)
Fixpoint match_frames (fuel : nat) (replace_malloc : bool) (st : list frame) (i : nat)
    (supp : list sframe) (last : option (nat * sframe)) : res bool :=
  match fuel with
  | O => Fuel
  | S fu =>
    match nth_error st i with
    | None => Ok (match supp with [] => true | _ => false end)
    | Some fr =>
      match supp with
      | [] => Ok true
      | s :: rest =>
        let* m := top_frame_matches_suppression_frame fr s in
        if m then
          if s_ellipsis s then match_frames fu replace_malloc st i rest (Some (i, s))
          else match_frames fu replace_malloc st (S i) rest last
        else
        let* open := match last with
                     | Some (_, c) => if s_ismod c then frame_matches_modname fr c else Ok true
                     | None => Ok false
                     end in
        match last, open with
        | Some (l, c), true => match_frames fu replace_malloc st (S l) supp (Some (S l, c))
        | _, _ =>
          let* skip_top :=
            if Nat.eqb i 0 && replace_malloc then
              let* a := tm (f_func fr) (Some REPLACE_PAT) false in
              if a then tm (f_modname fr) (Some DRMEMORY_LIBNAME) FILESYS_CASELESS else Ok false
            else Ok false in
          if skip_top then match_frames fu replace_malloc st (S i) supp last
          else
          let* skip_supp :=
            if Nat.eqb i 0 && negb replace_malloc then
              match s_func s with
              | None => Ok false
              | Some f =>
                let* a := tm f (Some REPLACE_PAT) false in
                if a then let* m := of_option (s_modname s) in tm m (Some DRMEMORY_LIBNAME) FILESYS_CASELESS
                else Ok false
              end
            else Ok false in
          if skip_supp then match_frames fu replace_malloc st i rest last
          else Ok false
        end
      end
    end
  end.

(** report.c:1040-1108 *)
Definition mf_fuel (st : list frame) (supp : list sframe) : nat :=
  S (S ((List.length supp + 1) * (List.length st + 3))).
Definition stack_matches_suppression (replace_malloc : bool) (instr : list Z) (st : list frame) (sp : spec) : res bool :=
  let* ok := match sp_instr sp with None => Ok true | Some p => tm instr (Some p) false end in
  if ok then match_frames (mf_fuel st (sp_frames sp)) replace_malloc st 0 (sp_frames sp) None
  else Ok false.

(** ---- error types, report.c:93-107 (not Windows), 129-141 ---- *)
Definition ERROR_UNADDRESSABLE := 0%nat.
Definition ERROR_UNDEFINED := 1%nat.
Definition ERROR_INVALID_HEAP_ARG := 2%nat.
Definition ERROR_WARNING := 3%nat.
Definition ERROR_LEAK := 4%nat.
Definition ERROR_POSSIBLE_LEAK := 5%nat.
Definition ERROR_REACHABLE_LEAK := 6%nat.
Definition ERROR_MAX_VAL := 7%nat.
Definition suppress_name : list (list Z) :=
  [chars "UNADDRESSABLE ACCESS"; chars "UNINITIALIZED READ"; chars "INVALID HEAP ARGUMENT";
   chars "WARNING"; chars "LEAK"; chars "POSSIBLE LEAK"; chars "REACHABLE LEAK"].
(** report.c:109-113 *)
Definition type_is_leak (ty : nat) : bool := Nat.leb ERROR_LEAK ty && Nat.leb ty ERROR_REACHABLE_LEAK.

(** ---- the list, report.c:1110-1151.  [supp ty] is supp_list[ty] in list
    order.  The counters (count_used, bytes_leaked) of the matched entry are
    its position: at most one entry, the returned one, is counted. ---- *)
Fixpoint on_list (rm : bool) (instr : list Z) (st : list frame) (l : list spec) : res (option spec) :=
  match l with
  | [] => Ok None
  | sp :: l' => let* b := stack_matches_suppression rm instr st sp in
                if b then Ok (Some sp) else on_list rm instr st l'
  end.
Definition on_suppression_list (rm : bool) (supp : nat -> list spec) (ty : nat) (instr : list Z) (st : list frame)
  : res (option spec) :=
  let* r := on_list rm instr st (supp ty) in
  match r with
  | Some sp => Ok (Some sp)
  | None => if type_is_leak ty && negb (Nat.eqb ty ERROR_LEAK)
            then on_list rm instr st (supp ERROR_LEAK) else Ok None
  end.

(** ---- parsing (Dr. Memory format) ---- *)
Definition BANG : Z := 33. Definition PLUS : Z := 43. Definition LT : Z := 60. Definition GT : Z := 62.
Definition EQS : Z := 61. Definition HASH : Z := 35. Definition LBRACE : Z := 123.

(** strchr: the string from the first [c] on *)
Fixpoint strchr (s : list Z) (c : Z) : option (list Z) :=
  match s with [] => None | d :: s' => if d =? c then Some s else strchr s' c end.
(** [strstr(s, p) == s] *)
Fixpoint starts (p s : list Z) : bool :=
  match p, s with
  | [], _ => true
  | c :: p', d :: s' => (c =? d) && starts p' s'
  | _, [] => false
  end.
(** [strstr(s, p) != NULL] *)
Fixpoint contains (p s : list Z) : bool :=
  starts p s || match s with [] => false | _ :: s' => contains p s' end.
Fixpoint list_eqb (a b : list Z) : bool :=
  match a, b with
  | [], [] => true
  | x :: a', y :: b' => (x =? y) && list_eqb a' b'
  | _, _ => false
  end.
(** drmem_strndup(s, p - s) for a pointer [p] into [s] *)
Definition upto (s p : list Z) : list Z := firstn (List.length s - List.length p) s.

(** report.c:402-420; [Some i] for the type [i], [None] for -1.
    [start == line + strlen(DRMEM_VALGRIND_TOOLNAME)+1] additionally needs the
    first occurrence to be there; "Dr.Memory" and ':' contain no type name, so
    this is the prefix test after skipping the 10 characters. *)
Definition TOOLNAME := chars "Dr.Memory".
Fixpoint find_type (line : list Z) (names : list (list Z)) (i : nat) : option nat :=
  match names with
  | [] => None
  | n :: ns => if starts n line || (starts TOOLNAME line && starts n (skipn 10 line) && Nat.leb 10 (List.length line))
               then Some i else find_type line ns (S i)
  end.
Definition get_suppress_type (line : list Z) : option nat :=
  match line with [] => None | _ => find_type line suppress_name 0 end.

(** outcome of parsing one line after the type line; [PBad]/[PUsage] are usage
    errors ([PBad] is only noticed if the frame is not truncated away) *)
Inductive parsed := PName (s : list Z) | PInstr (s : list Z) | PFrame (f : sframe) | PBad | PUsage.

Definition no_frame := SF false false false None None None.

(** report.c:726-778: frames of the Dr. Memory format *)
Definition parse_frame (line : list Z) : parsed :=
  let c0 := rd line in
  match (if c0 =? LT then strchr line PLUS else None), strchr line GT, strchr line BANG with
  | Some plus, Some gt, None =>
    (* '>' before '+' makes the length negative, i.e. a huge size_t *)
    let modoffs := if Nat.ltb (List.length plus) (List.length gt) then tl plus else upto (tl plus) gt in
    match modoffs with
    | a :: b :: _ :: _ =>
      if (a =? 48) && (b =? 120)
      then PFrame (SF false false true (Some (upto (tl line) plus)) (Some modoffs) None)
      else PBad
    | _ => PBad
    end
  | _, _, bang =>
    match bang, negb (c0 =? LT) with
    | Some bg, true =>
      if starts (chars "...") (tl bg)
      then PFrame (SF true false true (Some (upto line bg)) None None)
      else PFrame (SF false false true (Some (upto line bg)) None (Some (tl bg)))
    | _, _ =>
      if list_eqb line (chars "<not in a module>") then PFrame (SF false false false None None (Some line))
      else if list_eqb line (chars "...") then PFrame (SF true false false None None None)
      else if list_eqb line (chars "*") then PFrame (SF false true false None None None)
      else if contains (chars "system call ") line then PFrame (SF false false false None None (Some line))
      else PBad
    end
  end.

(** report.c:593-612 then 680-778 *)
Definition parse_line (ty : nat) (line : list Z) : parsed :=
  match strchr line EQS with
  | Some c =>
    if starts (chars "name=") line then PName (tl c)
    else if starts (chars "instruction=") line then
      if Nat.eqb ty ERROR_UNADDRESSABLE || Nat.eqb ty ERROR_UNDEFINED || Nat.eqb ty ERROR_WARNING
      then PInstr (tl c) else PUsage
    else parse_frame line
  | None => parse_frame line
  end.

(** the specification being built: num_frames counts all frame lines, kept or
    truncated (report.c:684-692) *)
Record building := B { b_type : nat; b_name : option (list Z); b_instr : option (list Z); b_num : nat; b_frames : list sframe }.
Definition add_line (max_frames : nat) (b : building) (line : list Z) : option building :=
  match parse_line (b_type b) line with
  | PName s => Some (B (b_type b) (Some s) (b_instr b) (b_num b) (b_frames b))
  | PInstr s => Some (B (b_type b) (b_name b) (Some s) (b_num b) (b_frames b))
  | PUsage => None
  | r =>
    let n := S (b_num b) in
    if Nat.leb max_frames n then Some (B (b_type b) (b_name b) (b_instr b) n (b_frames b))
    else match r with
         | PFrame f => Some (B (b_type b) (b_name b) (b_instr b) n (b_frames b ++ [f]))
         | _ => None
         end
  end.
(** report.c:524-538: no frame at all, or ending in an ellipsis, is a usage error *)
Definition finish (b : building) : option spec :=
  match List.rev (b_frames b) with
  | [] => None
  | f :: _ => if s_ellipsis f then None else Some (Spec (b_type b) (b_name b) (b_instr b) (b_frames b))
  end.

(** report.c:790-896 on the sequence of trimmed lines; [None] is the usage
    error, which ends the run (or the unmodelled Valgrind format).  The result
    lists the suppressions in file order (supp_list[t] is the reverse of those
    of type t). *)
Fixpoint read_lines (max_frames : nat) (lines : list (list Z)) (cur : option building) (acc : list spec) : option (list spec) :=
  match lines with
  | [] => match cur with
          | None => Some acc
          | Some b => match finish b with Some sp => Some (acc ++ [sp]) | None => None end
          end
  | line :: ls =>
    if Nat.eqb (List.length line) 0 || (rd line =? HASH) then read_lines max_frames ls cur acc
    else match get_suppress_type line with
    | Some ty =>
      match cur with
      | None => read_lines max_frames ls (Some (B ty None None 0 [])) acc
      | Some b => match finish b with
                  | Some sp => read_lines max_frames ls (Some (B ty None None 0 [])) (acc ++ [sp])
                  | None => None
                  end
      end
    | None =>
      if rd line =? LBRACE then None else
      match cur with
      | None => None
      | Some b => match add_line max_frames b line with
                  | Some b' => read_lines max_frames ls (Some b') acc
                  | None => None
                  end
      end
    end
  end.
Definition read_suppressions (max_frames : nat) (lines : list (list Z)) : option (list spec) :=
  read_lines max_frames lines None [].
Definition supp_list_of (l : list spec) (ty : nat) : list spec :=
  List.rev (List.filter (fun sp => Nat.eqb (sp_type sp) ty) l).

(** ---- generation, report.c:922-952: the lines written for one error.
    The decimal id is a parameter (printed by dr_fprintf). ---- *)
Definition frame_line (symbolic : bool) (fr : frame) : list Z :=
  if f_ismod fr then
    if symbolic then
      f_modname fr ++ [BANG] ++ (if list_eqb (f_func fr) (chars "?") then chars "*" else f_func fr)
    else [LT] ++ f_modname fr ++ [PLUS] ++ f_modoffs fr ++ [GT]
  else f_func fr.
Definition write_suppress_pattern (ty : nat) (st : list frame) (symbolic : bool) (id : list Z) : list (list Z) :=
  nth ty suppress_name [] :: (chars "name=Error #" ++ id ++ chars " (update to meaningful name)") ::
  map (frame_line symbolic) st.

(** report.c:954-974: the lines appended to the suppression file for one error *)
Definition report_error_suppression (syms offs : bool) (ty : nat) (st : list frame) (id : list Z) : list (list Z) :=
  if negb syms && negb offs then [] else
  (chars "# Suppression for Error #" ++ id) ::
  (if syms then write_suppress_pattern ty st true id else []) ++
  (if offs then
     (if syms then [[]; chars "## Mod+offs-style suppression for Error #" ++ id ++ chars ":"] else []) ++
     write_suppress_pattern ty st false id
   else []) ++ [[]].
