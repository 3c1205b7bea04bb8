(** Model of the delayed-free queue used when malloc is wrapped, not replaced:
    drmemory/alloc_drmem.c:99-147, 666-767, 768-924, 1024-1089 (Linux, one
    malloc routine set, -delay_frees > 0), on top of the red-black tree model.
    Not modelled: locks, statistics, the pattern-mode and shadow updates, the
    reference counts of the stored call stacks (a label here), the Windows
    auxiliary argument and heap destruction. *)
From Verif Require Import Base Redblack_Model.
Open Scope Z_scope.

(** options.delay_frees, options.delay_frees_maxsz, options.redzone_size. *)
Record conf := Conf { cap : Z; maxsz : Z; rzsz : Z }.
(** alloc_drmem.c:106-118 [delay_free_t]. *)
Record slot := Slot { addr : Z; real_size : Z; has_redzone : bool; pcs : Z }.
(** alloc_drmem.c:121-133 [delay_free_info_t] and the tree; the array is
    uninitialised ([None]) when allocated. *)
Record dstate := DS { arr : Z -> option slot; head : Z; fill : Z; bytes : Z; dtree : tree }.

(** alloc_drmem.c:666-684 [client_add_malloc_routine]. *)
Definition init : dstate := DS (fun _ => None) 0 0 0 rb_tree_create.

Definition rd_slot (c : conf) (s : dstate) (i : Z) : res slot :=
  if (0 <=? i) && (i <? cap c) then of_option (arr s i) else UB.
Definition wr_slot (c : conf) (s : dstate) (i : Z) (v : slot) : res dstate :=
  if (0 <=? i) && (i <? cap c)
  then Ok (DS (fun j => if j =? i then Some v else arr s j) (head s) (fill s) (bytes s) (dtree s))
  else UB.
Definition with_head (s : dstate) (h : Z) := DS (arr s) h (fill s) (bytes s) (dtree s).
Definition with_fill (s : dstate) (f : Z) := DS (arr s) (head s) f (bytes s) (dtree s).
Definition with_bytes (s : dstate) (b : Z) := DS (arr s) (head s) (fill s) (b mod 2 ^ 64) (dtree s).
Definition with_tree (s : dstate) (t : tree) := DS (arr s) (head s) (fill s) (bytes s) t.

(** alloc_drmem.c:720-766 [next_to_free]. *)
Definition next_to_free (c : conf) (s : dstate) (idx : Z) : res (Z * dstate) :=
  let* e := rd_slot c s idx in
  let* s := (if addr e =? 0 then Ok s
             else
               let* node := rb_find (dtree s) (addr e) in
               let* s := match node with
                         | Some x => let* t := rb_delete (dtree s) x in Ok (with_tree s t)
                         | None => Ok s
                         end in
               Ok (with_bytes s (bytes s - real_size e))) in
  let* s := wr_slot c s idx (Slot (addr e) (real_size e) (has_redzone e) 0) in
  Ok (addr e, s).

(** alloc_drmem.c:829-854: the search for a delayed block at least as large. *)
Fixpoint search (fuel : nat) (c : conf) (s : dstate) (head_start idx tot : Z) : res (Z * dstate) :=
  match fuel with
  | O => Fuel
  | S fuel =>
      let* e := rd_slot c s idx in
      if negb (addr e =? 0) && (tot <=? real_size e) then
        let* (p, s) := next_to_free c s idx in
        let* e := rd_slot c s idx in
        let* s := wr_slot c s idx (Slot 0 (real_size e) (has_redzone e) (pcs e)) in
        Ok (p, s)
      else
        let idx := idx + 1 in
        if fill s <=? idx then Ok (0, s)
        else let idx := if cap c <=? idx then 0 else idx in
             if idx =? head_start then Ok (0, s) else search fuel c s head_start idx tot
  end.

(** alloc_drmem.c:772-924 [client_handle_free]: [tofree] is the start of the
    block including its redzone, [tot] its whole size, [stack] the stored call
    stack.  Returns what is passed to the real free routine. *)
Definition client_handle_free (c : conf) (s : dstate) (tofree tot : Z) (rz : bool) (stack : Z) : res (Z * dstate) :=
  if maxsz c <? tot then Ok (tofree, s)
  else
    let s := with_bytes s (bytes s + tot) in
    let* (p, s) := (if maxsz c <? bytes s
                    then search (S (Z.to_nat (cap c))) c s (head s) (head s) tot
                    else Ok (-1, s)) in
    if p =? 0 then Ok (tofree, with_bytes s (bytes s - tot))
    else
      let pass := if p =? -1 then 0 else p in
      let* (pass, idx, s) :=
        (if fill s =? cap c then
           let* (pass, s) := (if pass =? 0 then next_to_free c s (head s) else Ok (pass, s)) in
           let idx := head s in
           let h := head s + 1 in
           Ok (pass, idx, with_head s (if cap c <=? h then 0 else h))
         else Ok (pass, fill s, with_fill s (fill s + 1))) in
      let* (t, _) := rb_insert false (dtree s) tofree tot idx in
      let s := with_tree s t in
      let* s := wr_slot c s idx (Slot tofree tot rz stack) in
      Ok (pass, s).

(** alloc_drmem.c:1024-1089 [overlaps_delayed_free] in wrap mode: the bounds
    without redzones and the call stack of the free. *)
Definition overlaps_delayed_free (c : conf) (s : dstate) (start end_ : Z) : res (option (Z * Z * Z)) :=
  let* node := rb_overlaps_node (dtree s) start end_ in
  match node with
  | None => Ok None
  | Some x =>
      let* (b, sz, client) := rb_node_fields (dtree s) x in
      let* e := rd_slot c s client in
      let redsz := if has_redzone e then rzsz c else 0 in
      Ok (Some (b + redsz, b + sz - redsz, pcs e))
  end.

(** A history of calls to [client_handle_free]: address, whole size, redzone, stack. *)
Fixpoint frees (c : conf) (s : dstate) (l : list (Z * Z * bool * Z)) : res (list Z * dstate) :=
  match l with
  | [] => Ok ([], s)
  | (a, z, rz, st) :: l =>
      let* (r, s) := client_handle_free c s a z rz st in
      let* (rs, s) := frees c s l in
      Ok (r :: rs, s)
  end.
