(** Which words a leak check looks at: drmemory/leak.c [check_reachability_helper],
    and when it takes a word for text.  Queries about the address space, the shadow
    and the heap are given as functions; LeakScan_Spec says what is required of them. *)
From Verif Require Import Base Leak_Model.
Open Scope Z_scope.

Definition PTR := 8.
(** utils.h:183-184 [ALIGN_FORWARD(x, sizeof(void* ))] *)
Definition align8 (x : Z) : Z := (x + (PTR - 1)) / PTR * PTR.

Record machine := Mach {
  have_info : bool;                 (* op_have_defined_info *)
  at_exit : bool;                   (* data->at_exit *)
  query : Z -> option (Z * bool);   (* dr_query_memory_ex: query_end, and the test of leak.c:1078-1119 *)
  next_def : Z -> Z -> option Z;    (* cb_next_defined_ptrsz *)
  end_def : Z -> Z -> Z;            (* cb_end_of_defined_region *)
  heap_end : Z -> option Z;         (* heap_region_bounds *)
  stack_end : Z -> option Z }.      (* rb_in_node on the stack tree, the end of the node *)

Section Words.
Context (m : machine) (skip_heap : bool).
(** leak.c:1165-1195 *)
Fixpoint range_words (fuel : nat) (pc defined_end : Z) : res (list (Z * Z)) :=
  match fuel with
  | O => Fuel
  | S f =>
      if (pc <? defined_end) && (pc + PTR <=? defined_end) then
        match (if skip_heap then heap_end m pc else None) with
        | Some chunk_end => range_words f (chunk_end - PTR + PTR) defined_end
        | None => let* ws := range_words f (pc + PTR) defined_end in Ok ((pc, defined_end) :: ws)
        end
      else Ok []
  end.
(** leak.c:1041-1199 *)
Fixpoint scan_words (fuel : nat) (pc query_end end_ : Z) : res (list (Z * Z)) :=
  match fuel with
  | O => Fuel
  | S f =>
      if end_ <=? pc then Ok [] else
      match (if query_end <=? pc then query m pc else Some (query_end, false)) with
      | None => Ok []
      | Some (query_end, true) => if query_end <? pc then Ok [] else scan_words f query_end query_end end_
      | Some (query_end, false) =>
          let iter_end := if query_end <? end_ then query_end else end_ in
          let range pc defined_end :=
            let* ws := range_words (S (Z.to_nat (defined_end - pc))) (align8 pc) defined_end in
            let* rest := scan_words f (align8 defined_end) query_end end_ in
            Ok (ws ++ rest) in
          if negb (have_info m) then
            match stack_end m pc with
            | Some pc => if iter_end <=? pc then scan_words f pc query_end end_ else range pc iter_end
            | None => range pc iter_end
            end
          else
            match next_def m pc iter_end with
            | None => scan_words f iter_end query_end end_
            | Some pc =>
                match (if at_exit m then stack_end m pc else None) with
                | Some pc => if iter_end <=? pc then scan_words f pc query_end end_ else range pc (end_def m pc iter_end)
                | None => range pc (end_def m pc iter_end)
                end
            end
      end
  end.
Definition visited (start end_ : Z) : res (list (Z * Z)) := scan_words (S (Z.to_nat (end_ - start))) start 0 end_.
End Words.

(** leak.c:805-812 *)
Definition STRING_MIN_LEN := 10.
Definition STRING_MIN_COUNT := 3.
Definition STRING_SINGLE_MAX_LEN := 128.
(** utils.h:750 [IS_ASCII] *)
Definition IS_ASCII (b : Z) : bool := (b <? 128) && negb (b =? 0).
(** leak.c:841-863 [is_part_of_string_ascii] on the bytes from [s] to [stop];
    [run]: s - start *)
Fixpoint part_of_string (bytes : list Z) (count run : Z) : bool :=
  match bytes with
  | [] => STRING_MIN_COUNT <=? count
  | b :: bytes =>
      if b =? 0 then
        if 0 <? run then
          if run <? STRING_MIN_LEN then false
          else if STRING_MIN_COUNT <=? count + 1 then STRING_MIN_COUNT <=? count + 1
          else part_of_string bytes (count + 1) 0
        else part_of_string bytes count 0
      else if negb (IS_ASCII b) then false
      else if STRING_SINGLE_MAX_LEN <=? run then true
      else part_of_string bytes count (run + 1)
  end.

(** leak.c:1460-1488: the scan of blocks and roots with these words; without
    strings_vs_pointers *)
Definition ok_words (r : res (list (Z * Z))) : list (Z * Z) := match r with Ok ws => ws | _ => [] end.
Definition env_of (m : machine) (top : Z) (cs : list chunk) (lo : Z) (mem : Z -> option Z) (lg : Z -> Z -> Z -> bool) (rs : list (Z * Z)) (show : bool) : env :=
  Env cs lo mem (fun _ _ => false) lg (fun s t => ok_words (visited m false s t)) (ok_words (visited m true 0 top)) rs show.
