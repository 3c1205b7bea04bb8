(** Model of the heap-region table (common/heap.c:725-1036, Linux build) and of the
    table of anonymous mappings (drmemory/alloc_drmem.c:266-341) on the interval
    index.  [dbg] is the DEBUG build, where a failed ASSERT stops the process (an
    undefined outcome here).  Not modelled: the locks, logging, statistics. *)
From Verif Require Import Base Redblack_Model.
Open Scope Z_scope.

Definition sub64 (a b : Z) : Z := (a - b) mod 2 ^ 64.
Definition assert (dbg c : bool) : res unit := if dbg && negb c then UB else Ok tt.

(** Calls of the client's callbacks. *)
Inductive event := Added (s e : Z) | Removed (s e : Z).
(** heap.c:726-731 [heap_info_t]: the payload blocks are numbered; block [i] holds
    [flags_of i]; blocks the index has released are in [freed tree]. *)
Record table := T { tr : tree; flags_of : Z -> Z; next_info : Z; log : list event }.
Definition put_flags (h : table) (i f : Z) : Z -> Z := fun j => if j =? i then f else flags_of h j.
Definition read_info (h : table) (i : Z) : res Z :=
  if (0 <=? i) && (i <? next_info h) && negb (existsb (Z.eqb i) (freed (tr h))) then Ok (flags_of h i) else UB.
(** heap.c:758-764 [heap_region_init] *)
Definition heap_region_init : table := T rb_tree_create (fun _ => 0) 0 [].

(** heap.c:781-799 [heap_region_add] *)
Definition heap_region_add (dbg : bool) (h : table) (s e f : Z) : res table :=
  let i := next_info h in
  let h := T (tr h) (flags_of h) (i + 1) (log h ++ [Added s e]) in
  let h := T (tr h) (put_flags h i f) (next_info h) (log h) in
  let* (t, existing) := rb_insert dbg (tr h) s (sub64 e s) i in
  let* _ := assert dbg (match existing with None => true | Some _ => false end) in
  Ok (T t (flags_of h) (next_info h) (log h)).
(** heap.c:801-808 [heap_info_clone] *)
Definition heap_info_clone (h : table) (i : Z) : res (table * Z) :=
  let* f := read_info h i in
  Ok (T (tr h) (put_flags h (next_info h) f) (next_info h + 1) (log h), next_info h).
Definition with_tree (h : table) (t : tree) : table := T t (flags_of h) (next_info h) (log h).
Definition with_event (h : table) (e : event) : table := T (tr h) (flags_of h) (next_info h) (log h ++ [e]).

(** heap.c:810-852 [heap_region_remove]; a null clone pointer is [None]. *)
Definition the_clone (c : option Z) : res Z := of_option c.
Definition heap_region_remove (dbg : bool) (h : table) (s e : Z) : res (table * bool) :=
  let* node := rb_overlaps_node (tr h) s e in
  match node with
  | None => Ok (h, false)
  | Some x =>
      let* (nb, ns, info) := rb_node_fields (tr h) x in
      let ne := add64 nb ns in
      let* _ := assert dbg (e <=? ne) in
      let h := with_event h (Removed s e) in
      let* (h, clone) :=
        (if (nb <? s) || (e <? ne) then let* (h, c) := heap_info_clone h info in Ok (h, Some c) else Ok (h, None)) in
      let* t := rb_delete (tr h) x in
      let h := with_tree h t in
      let* (h, clone) :=
        (if nb <? s then
           let* c := the_clone clone in
           let* (t, _) := rb_insert dbg (tr h) nb (sub64 s nb) c in
           let h := with_tree h t in
           if e <? ne then let* (h, c) := heap_info_clone h c in Ok (h, Some c) else Ok (h, None)
         else Ok (h, clone)) in
      let* (h, clone) :=
        (if e <? ne then
           let* c := the_clone clone in
           let* (t, _) := rb_insert dbg (tr h) e (sub64 ne e) c in
           Ok (with_tree h t, None)
         else Ok (h, clone)) in
      let* _ := assert dbg (match clone with None => true | Some _ => false end) in
      Ok (h, true)
  end.
(** heap.c:854-879 [heap_region_adjust] *)
Definition heap_region_adjust (dbg : bool) (h : table) (s new_end : Z) : res (table * bool) :=
  let* node := rb_in_node (tr h) s in
  match node with
  | None => Ok (h, false)
  | Some x =>
      let* (nb, ns, info) := rb_node_fields (tr h) x in
      let* _ := assert dbg (s =? nb) in
      let h := with_event h (Added nb new_end) in
      let* (h, c) := heap_info_clone h info in
      let* t := rb_delete (tr h) x in
      let* (t, _) := rb_insert dbg t nb (sub64 new_end nb) c in
      Ok (with_tree h t, true)
  end.

(** heap.c:881-905 [heap_region_bounds]: start, end, flags. *)
Definition heap_region_bounds (h : table) (pc : Z) : res (option (Z * Z * Z)) :=
  let* node := rb_in_node (tr h) pc in
  match node with
  | None => Ok None
  | Some x => let* (nb, ns, info) := rb_node_fields (tr h) x in
              let* f := read_info h info in Ok (Some (nb, add64 nb ns, f))
  end.
(** heap.c:907-915 [is_in_heap_region] *)
Definition is_in_heap_region (h : table) (pc : Z) : res bool :=
  let* node := rb_in_node (tr h) pc in Ok (match node with Some _ => true | None => false end).
(** heap.c:917-937 [is_entirely_in_heap_region] *)
Definition is_entirely_in_heap_region (h : table) (s e : Z) : res bool :=
  let* node := rb_overlaps_node (tr h) s e in
  match node with
  | None => Ok false
  | Some x => let* (nb, ns, _) := rb_node_fields (tr h) x in Ok ((nb <=? s) && (e <=? add64 nb ns))
  end.
(** heap.c:939-953 [get_heap_region_flags] *)
Definition get_heap_region_flags (h : table) (pc : Z) : res Z :=
  let* node := rb_in_node (tr h) pc in
  match node with
  | None => Ok 0
  | Some x => let* (_, _, info) := rb_node_fields (tr h) x in read_info h info
  end.
(** heap.c:1011-1036 [heap_region_iterate]: what the callback is given. *)
Definition heap_region_iterate (h : table) : res (list (Z * Z * res Z)) :=
  rb_iterate (fun l en => (l ++ [(fst (fst en), add64 (fst (fst en)) (snd (fst en)), read_info h (snd en))], true)) (tr h) [].

(** A history of calls and their answers. *)
Inductive call := Add (s e f : Z) | Remove (s e : Z) | Adjust (s e : Z).
Definition step (dbg : bool) (h : table) (c : call) : res (table * list bool) :=
  match c with
  | Add s e f => let* h := heap_region_add dbg h s e f in Ok (h, [])
  | Remove s e => let* (h, r) := heap_region_remove dbg h s e in Ok (h, [r])
  | Adjust s e => let* (h, r) := heap_region_adjust dbg h s e in Ok (h, [r])
  end.
Fixpoint run (dbg : bool) (h : table) (l : list call) : res (table * list bool) :=
  match l with
  | [] => Ok (h, [])
  | c :: l => let* (h, r) := step dbg h c in let* (h, r') := run dbg h l in Ok (h, r ++ r')
  end.

(** * Anonymous mappings *)

(** alloc_drmem.c:273-294 [mmap_tree_add] *)
Definition mmap_tree_add (dbg : bool) (t : tree) (b s : Z) : res tree :=
  let* (t, node) := rb_insert dbg t b s 0 in
  match node with
  | None => Ok t
  | Some x =>
      let* (mb, ms, _) := rb_node_fields t x in
      let* t := rb_delete t x in
      let me := if add64 mb ms <? add64 b s then add64 b s else add64 mb ms in
      let mb := if b <? mb then b else mb in
      let* (t, node) := rb_insert dbg t mb (sub64 me mb) 0 in
      let* _ := assert dbg (match node with None => true | Some _ => false end) in
      Ok t
  end.
(** alloc_drmem.c:295-327 [mmap_tree_remove] *)
Definition none (dbg : bool) (n : option nat) : res unit := assert dbg (match n with None => true | Some _ => false end).
Fixpoint remove_loop (fuel : nat) (dbg : bool) (t : tree) (b s : Z) (node : option nat) (found : bool) : res (tree * bool) :=
  match fuel with
  | O => Fuel
  | S fuel =>
      match node with
      | None => Ok (t, found)
      | Some x =>
          let* (nb, ns, _) := rb_node_fields t x in
          let* t := rb_delete t x in
          let* t := (if nb <? b then let* (t, n) := rb_insert dbg t nb (sub64 b nb) 0 in let* _ := none dbg n in Ok t else Ok t) in
          let* t := (if add64 b s <? add64 nb ns
                     then let* (t, n) := rb_insert dbg t (add64 b s) (sub64 (add64 nb ns) (add64 b s)) 0 in let* _ := none dbg n in Ok t
                     else Ok t) in
          let* node := rb_overlaps_node t b (add64 b s) in
          remove_loop fuel dbg t b s node true
      end
  end.
Definition mmap_tree_remove (dbg : bool) (t : tree) (b s : Z) : res (tree * bool) :=
  let* node := rb_overlaps_node t b (add64 b s) in
  remove_loop (S (fresh t)) dbg t b s node false.
(** alloc_drmem.c:329-341 [mmap_anon_lookup] *)
Definition mmap_anon_lookup (t : tree) (a : Z) : res (option (Z * Z)) :=
  let* node := rb_in_node t a in
  match node with
  | None => Ok None
  | Some x => let* (nb, ns, _) := rb_node_fields t x in Ok (Some (nb, ns))
  end.
(** The callers: a successful mmap, a munmap, and mremap (alloc_drmem.c:1119-1205). *)
Inductive mcall := Map (b s : Z) | Unmap (b s : Z) | Remap (ob os nb ns : Z).
Definition mstep (dbg : bool) (t : tree) (c : mcall) : res (tree * list bool) :=
  match c with
  | Map b s => let* t := mmap_tree_add dbg t b s in Ok (t, [])
  | Unmap b s => let* (t, r) := mmap_tree_remove dbg t b s in Ok (t, [r])
  | Remap ob os nb ns =>
      let* (t, found) := mmap_tree_remove dbg t ob os in
      if found then let* t := mmap_tree_add dbg t nb ns in Ok (t, []) else Ok (t, [])
  end.
Fixpoint mrun (dbg : bool) (t : tree) (l : list mcall) : res (tree * list bool) :=
  match l with
  | [] => Ok (t, [])
  | c :: l => let* (t, r) := mstep dbg t c in let* (t, r') := mrun dbg t l in Ok (t, r ++ r')
  end.
