(** The leak scan: drmemory/leak.c (Linux).  The interval tree built at its start is
    a list searched in order (C06 is about the tree itself); flags and entries are
    functions of the block's start.  Which words of a region are scanned is given
    (LeakScan_Model is about that), as are the two tests applied to a word that
    points into a block.  MALLOC_IGNORE_LEAK is only ever set on Windows
    (leak.c:276-290).  Byte sums do not wrap, blocks being disjoint. *)
From Verif Require Import Base.
Open Scope Z_scope.

Definition PAGE_SIZE := 4096.
(** A live block: start and requested size. *)
Record chunk := C { base : Z; len : Z }.
Record env := Env {
  chunks : list chunk;               (* in the order of malloc_iterate *)
  low : Z;                           (* data->low_ptr *)
  rd : Z -> option Z;                (* leak_safe_read_heap *)
  is_string : Z -> Z -> bool;        (* options.strings_vs_pointers && is_part_of_string *)
  legit : Z -> Z -> Z -> bool;       (* is_midchunk_pointer_legitimate *)
  words : Z -> Z -> list (Z * Z);    (* scanned words of a block, each with the end of its defined range *)
  root_words : list (Z * Z);         (* the same for all memory outside the heap *)
  regs : list (Z * Z);               (* register number and value, all threads *)
  show_reachable : bool }.

(** leak.c:390-397 [unreach_entry_t]: bytes and parent, entries named by their block *)
Record state := St {
  reach : Z -> bool; maybe : Z -> bool; indirect : Z -> bool;
  entries : Z -> option (Z * option Z);
  reachq : list (Z * Z); midq : list (Z * Z) }.
Definition set {A} (f : Z -> A) (x : Z) (v : A) : Z -> A := fun y => if y =? x then v else f y.
Definition init : state := St (fun _ => false) (fun _ => false) (fun _ => false) (fun _ => None) [] [].

Section Scan.
Context (e : env).
(** [rb_in_node] and [malloc_end] *)
Definition in_node (a : Z) : option chunk := find (fun c => (base c <=? a) && (a <? base c + len c)) (chunks e).
Definition malloc_end (a : Z) : option Z := option_map (fun c => base c + len c) (find (fun c => base c =? a) (chunks e)).

Definition entry_of (s : state) (n : Z) : Z * option Z := match entries s n with Some x => x | None => (0, None) end.
Definition with_entries (s : state) f := St (reach s) (maybe s) (indirect s) f (reachq s) (midq s).
(** leak.c:499-502, the climb to the top of the group *)
Fixpoint climb (fuel : nat) (s : state) (top : Z) : res Z :=
  match fuel with
  | O => Fuel
  | S f => match snd (entry_of s top) with
           | Some p => if p =? top then Ok top else climb f s p
           | None => Ok top
           end
  end.
(** leak.c:453-527 [mark_indirect]; [node] is the block pointed into.  A parent
    outside every block would be a null dereference. *)
Definition mark_indirect (s : state) (ptr_parent child_start child_end : Z) : res state :=
  if reach s child_start then Ok s else
  match in_node ptr_parent with
  | None => UB
  | Some np =>
    let s := with_entries s (set (entries s) child_start (Some (entry_of s child_start))) in
    let s := with_entries s (set (entries s) (base np) (Some (entry_of s (base np)))) in
    if indirect s child_start then Ok s else
    let* top := climb (S (length (chunks e))) s (base np) in
    let same := top =? child_start in
    let s := if same then s
             else with_entries s (set (entries s) top (Some (fst (entry_of s top) + (fst (entry_of s child_start) + (child_end - child_start)), snd (entry_of s top)))) in
    let s := with_entries s (set (entries s) child_start (Some (fst (entry_of s child_start), Some top))) in
    Ok (if same then s else St (reach s) (maybe s) (set (indirect s) child_start true) (entries s) (reachq s) (midq s))
  end.

(** leak.c:877-1039 [check_reachability_pointer] *)
Definition check_pointer (primary : bool) (s : state) (pointer ptr_addr defined_end : Z) : res state :=
  if pointer =? 0 then Ok s else
  if pointer <? low e then Ok s else
  match in_node pointer with
  | None => Ok s
  | Some n =>
    if (PAGE_SIZE <? ptr_addr) && is_string e ptr_addr defined_end then Ok s else
    let '(reachable, may, cs, ce) :=
      match malloc_end pointer with
      | Some ce => (negb ((pointer <=? ptr_addr) && (ptr_addr <? ce)), false, pointer, ce)
      | None =>
          let cs := base n in
          let ce := base n + len n in
          if (cs <=? ptr_addr) && (ptr_addr <? ce) then (false, false, cs, ce)
          else if legit e pointer cs ce then (true, false, cs, ce)
          else (false, negb (maybe s cs || reach s cs || indirect s cs), cs, ce)
      end in
    let* s := (if reachable && negb primary then mark_indirect s ptr_addr cs ce else Ok s) in
    let add_reachable := reachable && primary && negb (reach s cs) in
    if add_reachable then Ok (St (set (reach s) cs true) (maybe s) (indirect s) (entries s) (reachq s ++ [(cs, ce)]) (midq s))
    else if may then Ok (St (reach s) (set (maybe s) cs true) (indirect s) (entries s) (reachq s) (midq s ++ [(cs, ce)]))
    else Ok s
  end.

(** leak.c:1165-1195: the words of a region *)
Fixpoint scan (primary : bool) (s : state) (ws : list (Z * Z)) : res state :=
  match ws with
  | [] => Ok s
  | (a, de) :: ws =>
      let* s := match rd e a with Some v => check_pointer primary s v a de | None => Ok s end in
      scan primary s ws
  end.
(** leak.c:1225-1236 *)
Fixpoint scan_regs (s : state) (rs : list (Z * Z)) : res state :=
  match rs with
  | [] => Ok s
  | (r, v) :: rs => let* s := check_pointer true s v r 0 in scan_regs s rs
  end.
(** leak.c:1461-1466 *)
Fixpoint walk_reach (fuel : nat) (s : state) : res state :=
  match fuel with
  | O => Fuel
  | S f => match reachq s with
           | [] => Ok s
           | (a, b) :: q =>
               let* s := scan true (St (reach s) (maybe s) (indirect s) (entries s) q (midq s)) (words e a b) in
               walk_reach f s
           end
  end.
(** leak.c:1240-1252, 1473 *)
Fixpoint walk_unreach (s : state) (cs : list chunk) : res state :=
  match cs with
  | [] => Ok s
  | c :: cs =>
      let* s := (if reach s (base c) || maybe s (base c) then Ok s else scan false s (words e (base c) (base c + len c))) in
      walk_unreach s cs
  end.
(** leak.c:1475-1492 *)
Fixpoint walk_maybe (fuel : nat) (s : state) : res state :=
  match fuel with
  | O => Fuel
  | S f => match midq s with
           | [] => Ok s
           | (a, b) :: q =>
               let s := St (reach s) (maybe s) (indirect s) (entries s) (reachq s) q in
               let* s := (if reach s a then Ok s else if indirect s a then Ok s else scan false s (words e a b)) in
               walk_maybe f s
           end
  end.
(** leak.c:1449-1492 *)
Definition classify : res state :=
  let* s := scan_regs init (regs e) in
  let* s := scan true s (root_words e) in
  let* s := walk_reach (S (length (chunks e))) s in
  let* s := walk_unreach s (chunks e) in
  walk_maybe (S (length (chunks e))) s.

(** leak.c:1254-1293 [malloc_iterate_cb]: what is reported, [last]: the second pass.
    Arguments of client_found_leak: start, size, indirect bytes, reachable, maybe,
    count, show. *)
Record found := F { f_start : Z; f_size : Z; f_indirect : Z; f_reach : bool; f_maybe : bool; f_count : bool; f_show : bool }.
Definition report (s : state) (last : bool) (c : chunk) : list found :=
  if negb (indirect s (base c)) && (negb last || reach s (base c))
  then [F (base c) (len c) (fst (entry_of s (base c))) (reach s (base c)) (maybe s (base c)) (negb last) last]
  else [].
(** leak.c:1363-1534 [leak_scan_for_leaks] *)
Definition leak_scan : res (list found) :=
  let* s := classify in
  Ok (flat_map (report s false) (chunks e) ++ (if show_reachable e then flat_map (report s true) (chunks e) else [])).
End Scan.
