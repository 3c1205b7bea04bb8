(** Model of how errors are separated as merely potential ones:
    drmemory/report.c:1207-1240, 1256-1311, 1335-1387. *)
From Verif Require Import Base Glob_Model.
Open Scope Z_scope.

Definition COMMA : Z := 44.

Definition len {A} (l : list A) : Z := Z.of_nat (List.length l).

(** [*c = '\0'] in a buffer: outside of it is undefined behaviour. *)
Fixpoint put0 (n : nat) (buf : list Z) : res (list Z) :=
  match buf, n with
  | [], _ => UB
  | _ :: b, O => Ok (0 :: b)
  | x :: b, S n' => let* b' := put0 n' b in Ok (x :: b')
  end.

Definition store0 (c : Z) (buf : list Z) : res (list Z) :=
  if c <? 0 then UB else put0 (Z.to_nat c) buf.

(** report.c:1382-1387: each [strchr] goes on from behind the last comma, so
    together they pass once over the string. *)
Fixpoint commas (buf : list Z) : res (list Z) :=
  match buf with
  | [] => UB
  | c :: b =>
    if c =? 0 then Ok buf
    else let* b' := commas b in Ok ((if c =? COMMA then 0 else c) :: b')
  end.

(** report.c:1371-1387 convert_commas_to_nulls; [bufsz] is the length of the
    buffer.  The assertion of 1377 is not compiled into release builds. *)
Definition convert_commas_to_nulls (buf : list Z) : res (list Z) :=
  let* s := cstr buf in
  let c := len s + 1 in
  let c := if len buf - 1 <=? c then c - 2 else c in
  let* buf := store0 c buf in
  commas buf.

(** The options (optionsx.h:266-286), with the lists as report_init leaves
    them (report.c:1503-1512); [o_tool] is DRMEMORY_LIBNAME and [o_caseless]
    FILESYS_CASELESS. *)
Record opts := {
  o_block : list Z; o_block_default : list Z; o_allow : list Z; o_src : list Z;
  o_uninit : list Z;
  o_block_frames : Z; o_allow_frames : Z; o_src_frames : Z;
  o_replace_malloc : bool;
  o_tool : list Z; o_caseless : bool }.

(** report.c:1207-1212 per_callstack_module_t *)
Record pmod := { m_block : bool; m_allow : bool; m_tool : bool; m_uninit : bool }.

(** The parts of symbolized_frame_t (callstack.c:258-284) that are used. *)
Record frame := { f_is_module : bool; f_data : option pmod; f_file : list Z }.

(** [options.x[0] != '\0'] *)
Definition nonempty (l : list Z) : res bool :=
  match l with [] => UB | c :: _ => Ok (negb (c =? 0)) end.

Definition andr (a : res bool) (b : res bool) : res bool :=
  let* x := a in if x then b else Ok false.
Definition orr (a : res bool) (b : res bool) : res bool :=
  let* x := a in if x then Ok true else b.

Section Sep.
Variable fold : Z -> Z.
Variable fuel : nat.
Variable o : opts.

Definition any (text l : list Z) : res bool :=
  text_matches_any_pattern fold fuel text l (o_caseless o).

(** report.c:1214-1240 callstack_module_load_cb; the name is never NULL
    (callstack.c:2733-2739). *)
Definition module_load_cb (path : option (list Z)) (name : list Z) : res pmod :=
  let* b := match path with
            | None => Ok false
            | Some p => orr (andr (nonempty (o_block o)) (any p (o_block o)))
                            (andr (nonempty (o_block_default o)) (any p (o_block_default o)))
            end in
  let* a := match path with
            | None => Ok false
            | Some p => andr (nonempty (o_allow o)) (any p (o_allow o))
            end in
  let* t := match path with
            | None => Ok false
            | Some _ => text_matches_pattern fold fuel name (o_tool o) (o_caseless o)
            end in
  let* u := andr (nonempty (o_uninit o)) (any name (o_uninit o)) in
  Ok {| m_block := b; m_allow := a; m_tool := t; m_uninit := u |}.

(** A frame as it is found: the module it is in, with its path and its name,
    and the source file ("" if unknown).  callstack.c:925-930 and 2286-2291
    set is_module and user_data together. *)
Record found := { d_mod : option (option (list Z) * list Z); d_file : list Z }.

Definition symbolize (d : found) : res frame :=
  match d_mod d with
  | None => Ok {| f_is_module := false; f_data := None; f_file := d_file d |}
  | Some (p, n) =>
    let* m := module_load_cb p n in
    Ok {| f_is_module := true; f_data := Some m; f_file := d_file d |}
  end.

Fixpoint symbolize_all (ds : list found) : res (list frame) :=
  match ds with
  | [] => Ok []
  | d :: r => let* f := symbolize d in let* fs := symbolize_all r in Ok (f :: fs)
  end.

(** callstack.c:2641-2647, 2698-2714 *)
Definition frame_is_module (fs : list frame) (i : Z) : bool :=
  match nth_error fs (Z.to_nat i) with Some f => f_is_module f | None => false end.
Definition frame_file (fs : list frame) (i : Z) : option (list Z) :=
  match nth_error fs (Z.to_nat i) with Some f => Some (f_file f) | None => None end.
Definition frame_data (fs : list frame) (i : Z) : option pmod :=
  match nth_error fs (Z.to_nat i) with Some f => f_data f | None => None end.

(** report.c:1262-1267: true if the loop returns from the function; [n] is
    the number of frames left to look at, as the frames bound the loop. *)
Fixpoint src_loop (n : nat) (i : Z) (fs : list frame) (start : Z) : res bool :=
  match n with
  | O => Ok false
  | S n' =>
    if i <? o_src_frames o then
      let* b := match frame_file fs (start + i) with
                | None => Ok false
                | Some f => any f (o_src o)
                end in
      if b then Ok true else src_loop n' (i + 1) fs start
    else Ok false
  end.

(** report.c:1257-1272 check_src_allowlist *)
Definition check_src_allowlist (fs : list frame) (start : Z) : res bool :=
  let* e := nonempty (o_src o) in
  if (0 <? o_src_frames o) && e then
    let* hit := src_loop (List.length fs) 0 fs start in
    if hit then Ok false else Ok true
  else Ok false.

(** report.c:1287-1293: true if a frame on the allowlist is found. *)
Fixpoint allow_loop (n : nat) (i : Z) (fs : list frame) (start : Z) : bool :=
  match n with
  | O => false
  | S n' =>
    if i <? o_allow_frames o then
      match frame_data fs (start + i) with
      | Some m => if m_allow m then true else allow_loop n' (i + 1) fs start
      | None => allow_loop n' (i + 1) fs start
      end
    else false
  end.

(** report.c:1301-1306: the value of [i] after the loop. *)
Fixpoint block_loop (n : nat) (i : Z) (fs : list frame) (start : Z) : Z :=
  match n with
  | O => i
  | S n' =>
    if i <? o_block_frames o then
      match frame_data fs (start + i) with
      | Some m => if m_block m then block_loop n' (i + 1) fs start else i
      | None => i
      end
    else i
  end.

(** report.c:1276-1311 check_blocklist_and_allowlist *)
Definition check_lists (fs : list frame) (start : Z) : res bool :=
  let* ea := nonempty (o_allow o) in
  if (0 <? o_allow_frames o) && ea then
    if allow_loop (List.length fs) 0 fs start then check_src_allowlist fs start
    else Ok true
  else
    let* es := nonempty (o_src o) in
    if (0 <? o_src_frames o) && es then check_src_allowlist fs start
    else
      let* eb := nonempty (o_block o) in
      let* ed := nonempty (o_block_default o) in
      if (0 <? o_block_frames o) && (eb || ed) then
        let i := block_loop (List.length fs) 0 fs start in
        Ok ((0 <? i) && (o_block_frames o <=? i))
      else Ok false.

(** report.c:1335-1355 error_is_likely_false_positive *)
Definition error_is_likely_false_positive (potential : bool) (fs : list frame) : res bool :=
  if potential then Ok true
  else
    let start :=
      if negb (frame_is_module fs 0) then 1
      else match frame_data fs 0 with
           | Some m => if m_tool m then 1 else 0
           | None => 0
           end in
    check_lists fs start.

(** report.c:1357-1366 leak_is_likely_false_positive *)
Definition leak_is_likely_false_positive (fs : list frame) : res bool :=
  check_lists fs (if o_replace_malloc o then 1 else 0).
End Sep.
