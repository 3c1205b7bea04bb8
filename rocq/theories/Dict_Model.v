(** Model of the reading of text files line by line, find_next_line in
    /repo/common/utils_shared.c, which suppression files and dictionaries
    share, and of the parser of dictionaries for fuzzing,
    /repo/drfuzz/drfuzz_mutator.c.

    Simplifications.  A pointer into the mapped file is its offset.  The file
    is not empty.  Failures to open, to map and to allocate are left out. *)
From Verif Require Import Base.
Local Open Scope Z_scope.

Definition NUL : Z := 0.
Definition TAB : Z := 9.
Definition LF : Z := 10.
Definition CR : Z := 13.
Definition SP : Z := 32.
Definition QUOTE : Z := 34.
Definition HASH : Z := 35.
Definition BSL : Z := 92.
Definition CHX : Z := 120.

Definition len (l : list Z) : Z := Z.of_nat (List.length l).

(** what dr_map_file maps: the file, then zeroes to the end of the page *)
Record file := mkF { f_bytes : list Z; f_page : Z }.
Definition eof (f : file) : Z := len (f_bytes f).
Definition mapped (f : file) : Z := (eof f + f_page f - 1) / f_page f * f_page f.
Definition rd (f : file) (p : Z) : res Z :=
  if p <? 0 then UB
  else if p <? eof f then Ok (nth (Z.to_nat p) (f_bytes f) 0)
  else if p <? mapped f then Ok 0
  else UB.

(** strnchr for a line feed, utils_shared.c:31-47; [n] is max *)
Fixpoint strnchr (f : file) (n : nat) (s : Z) : res (option Z) :=
  match n with
  | O => Ok None
  | S n' =>
      let* b := rd f s in
      if b =? LF then Ok (Some s)
      else if b =? NUL then Ok None
      else strnchr f n' (s + 1)
  end.

(** the three loops of find_next_line, utils_shared.c:126-128, 132-134,
    138-139 *)
Fixpoint skip_ends (f : file) (fuel : nat) (s : Z) : res Z :=
  match fuel with
  | O => Fuel
  | S fuel' =>
      let* b := rd f s in
      if (b =? CR) || (b =? LF) then skip_ends f fuel' (s + 1) else Ok s
  end.
Fixpoint trim_end (f : file) (fuel : nat) (line nl : Z) : res Z :=
  match fuel with
  | O => Fuel
  | S fuel' =>
      if line <? nl then
        let* b := rd f (nl - 1) in
        if (b =? SP) || (b =? TAB) then trim_end f fuel' line (nl - 1) else Ok nl
      else Ok nl
  end.
Fixpoint trim_start (f : file) (fuel : nat) (line nl : Z) : res Z :=
  match fuel with
  | O => Fuel
  | S fuel' =>
      if line <? nl then
        let* b := rd f line in
        if (b =? SP) || (b =? TAB) then trim_start f fuel' (line + 1) nl else Ok line
      else Ok line
  end.

Definition fuel_of (f : file) : nat := S (S (Z.to_nat (mapped f))).

(** find_next_line with skip_ws, utils_shared.c:112-146: the next line, and
    the start and the end of this one *)
Definition find_next_line (f : file) (start : Z) : res (Z * Z * Z) :=
  let* o := strnchr f (Z.to_nat (eof f - start)) start in
  let* (next, nl) :=
    match o with
    | None => Ok (eof f + 1, eof f)
    | Some p =>
        let* next := skip_ends f (fuel_of f) p in
        let* b := rd f (p - 1) in
        let p := if b =? CR then p - 1 else p in
        let* p := trim_end f (fuel_of f) start p in
        Ok (next, p)
    end in
  let* sol := trim_start f (fuel_of f) start nl in
  Ok (next, sol, nl).

(** the loop over the lines, with its skipping of blank and comment lines:
    drfuzz_mutator.c:239-244, and report.c:830-838 for suppression files *)
Fixpoint loop {A} (f : file) (body : A -> Z -> Z -> Z -> res (A * bool)) (fuel : nat)
    (a : A) (line : Z) : res (A * bool) :=
  match fuel with
  | O => Fuel
  | S fuel' =>
      if line <? eof f then
        let* (next, sol, nl) := find_next_line f line in
        if sol =? nl then loop f body fuel' a next
        else
          let* b := rd f sol in
          if b =? HASH then loop f body fuel' a next
          else
            let* (a1, ok) := body a line sol nl in
            if ok : bool then loop f body fuel' a1 next else Ok (a1, false)
      else Ok (a, true)
  end.

Definition slice (f : file) (a b : Z) : list Z :=
  firstn (Z.to_nat (b - a)) (skipn (Z.to_nat a) (f_bytes f)).

(** the lines a reader is given *)
Definition lines (f : file) : res (list (list Z)) :=
  let* (l, _) := loop f (fun l _ sol nl => Ok (l ++ [slice f sol nl], true))
                      (S (Z.to_nat (eof f))) [] 0 in
  Ok l.

(** * Dictionaries *)

(** drfuzz_mutator.c:247-249, with no bound *)
Fixpoint seek (f : file) (fuel : nat) (c : Z) : res Z :=
  match fuel with
  | O => Fuel
  | S fuel' =>
      let* b := rd f c in
      if b =? QUOTE then Ok (c + 1) else seek f fuel' (c + 1)
  end.

Section Parse.
(** dr_sscanf with "%2x" on what follows *)
Variable scan : list Z -> option Z.
Variable f : file.

(** the loop over the characters, drfuzz_mutator.c:264-286.  None: an
    escape it does not know.  Writing past the token is undefined. *)
Fixpoint chars (fuel : nat) (cap c nl : Z) (tok : list Z) : res (option (list Z)) :=
  match fuel with
  | O => Fuel
  | S fuel' =>
      if c <? nl - 1 then
        let put (v : Z) (c : Z) : res (option (list Z)) :=
          if cap <=? len tok then UB else chars fuel' cap c nl (tok ++ [v]) in
        let* b := rd f c in
        if b =? BSL then
          let* b1 := rd f (c + 1) in
          if b1 =? CHX then
            match scan (skipn (Z.to_nat (c + 2)) (f_bytes f)) with
            | None => Ok None
            | Some v => put (v mod 256) (c + 4)
            end
          else if (b1 =? QUOTE) || (b1 =? BSL) then put b1 (c + 2)
          else Ok None
        else put b (c + 1)
      else Ok (Some tok)
  end.

(** mutator->dictionary, the variable token, and how many tokens have been
    allocated; a token is known by its number *)
Record dict := mkD { d_vec : list (nat * list Z); d_cur : option nat; d_n : nat }.

(** the body of the loop, drfuzz_mutator.c:246-291.  A token of size -1
    (line 260 for a quote that is both the first and the last) is a block
    that ends within its own header. *)
Definition parse_line (d : dict) (line sol nl : Z) : res (dict * bool) :=
  let* c := seek f (fuel_of f) line in
  let* q := rd f (nl - 1) in
  if negb (q =? QUOTE) then Ok (d, false)
  else if negb ((0 <=? nl - c) && (nl - c <=? 65535)) then Ok (d, false)
  else if nl - c - 1 <? 0 then UB
  else
    let t := d_n d in
    let* o := chars (fuel_of f) (nl - c - 1) c nl [] in
    match o with
    | None => Ok (mkD (d_vec d) (Some t) (S t), false)
    | Some tok => Ok (mkD (d_vec d ++ [(t, tok)]) (Some t) (S t), true)
    end.

(** drfuzz_parse_dictionary, drfuzz_mutator.c:207-302: whether it succeeds,
    the dictionary, how many tokens were allocated, and the tokens it frees *)
Definition parse_dict : res (bool * list (nat * list Z) * nat * list nat) :=
  let* (d, ok) := loop f parse_line (S (Z.to_nat (eof f))) (mkD [] None 0) 0 in
  if ok : bool then Ok (true, d_vec d, d_n d, [])
  else Ok (false, d_vec d, d_n d,
           match d_cur d with Some t => [t] | None => [] end).

(** and what has been freed in the end: drfuzz_mutator_start frees the
    dictionary if the options are bad (drfuzz_mutator.c:461-467), and
    drfuzz_mutator_stop (722) otherwise *)
Definition freed : res (list nat) :=
  let* (_, vec, _, fr) := parse_dict in
  Ok (fr ++ map fst vec).
End Parse.
