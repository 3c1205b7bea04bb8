(** C09 and C10: the heap-region table and the mapped-memory table. *)
From Coq Require Import Permutation.
From Verif Require Import Base Redblack_Model Redblack_Spec Regions_Model Regions_Spec Regions_Proofs Regions_Proofs2 Regions_Proofs3.
Open Scope Z_scope.

(** After any proper history of add, remove and adjust calls, in either build: no
    undefined behaviour, the calls' answers are right, and every query about any
    address gives what the list of regions gives. *)
Theorem C09_history dbg cs : proper_all dbg [] cs ->
  exists h, run dbg heap_region_init (map of_change cs) = Ok (h, answers [] cs) /\
    (forall a, heap_region_bounds h a = Ok (find (fun r => contains r a) (result [] cs))) /\
    (forall a, is_in_heap_region h a = Ok (existsb (fun r => contains r a) (result [] cs))) /\
    (forall a, get_heap_region_flags h a = Ok (match find (fun r => contains r a) (result [] cs) with Some r => r_flags r | None => 0 end)) /\
    (forall s e, s < e -> is_entirely_in_heap_region h s e = Ok (existsb (fun r => (r_start r <=? s) && (e <=? r_end r)) (result [] cs))).
Proof. intros P. destruct (region_history dbg cs P) as (h & E & [X1 X2 X3 X4 _ _] & _). exists h. auto. Qed.

(** The iterator visits each region once, in address order. *)
Theorem C09_iterate dbg cs : proper_all dbg [] cs ->
  exists h S, run dbg heap_region_init (map of_change cs) = Ok (h, answers [] cs) /\ Permutation S (result [] cs) /\
    (forall r r' a b c, S = a ++ r :: b ++ r' :: c -> r_end r <= r_start r') /\
    heap_region_iterate h = Ok (map (fun r => (r_start r, r_end r, Ok (r_flags r))) S).
Proof. intros P. destruct (region_history dbg cs P) as (h & E & [_ _ _ _ (S & X1 & _ & X2 & X3) _] & _). exists h, S. auto. Qed.

(** The client is told of exactly the additions and removals, in order; no
    per-region record is freed twice and every one not freed belongs to a region. *)
Theorem C09_records dbg cs : proper_all dbg [] cs ->
  exists h, run dbg heap_region_init (map of_change cs) = Ok (h, answers [] cs) /\ log h = map of_notice (notices [] cs) /\
    NoDup (freed (tr h)) /\ (forall i, In i (freed (tr h)) -> 0 <= i < next_info h) /\
    next_info h = Z.of_nat (length (freed (tr h))) + Z.of_nat (length (result [] cs)).
Proof. intros P. destruct (region_history dbg cs P) as (h & E & [_ _ _ _ _ (X1 & X2 & X3)] & G). exists h. auto 10. Qed.

(** A region added, cut in the middle, grown, and cut to its end. *)
Definition trail : list change := [Grow 4096 8192 16; Grow 16384 20480 33; Shrink 5000 6000; Resize 6000 12288; Shrink 16000 20480; Shrink 100 200].
Lemma trail_proper dbg : proper_all dbg [] trail.
Proof.
  cbn [proper_all trail proper after flat_map without touches contains app r_start r_end r_flags fst snd Z.ltb Z.leb Z.compare Pos.compare Pos.compare_cont andb map In].
  repeat match goal with |- _ /\ _ => split end; try lia; try exact I; intros;
  repeat match goal with H : _ \/ _ |- _ => destruct H | H : False |- _ => destruct H end; subst; cbn in *; try congruence; try lia; auto;
  repeat match goal with |- _ /\ _ => split end; intros; try lia; try (destruct dbg; congruence); try reflexivity;
  repeat match goal with H : _ \/ _ |- _ => destruct H | H : False |- _ => destruct H end; subst; cbn in *; try congruence; try lia; auto.
Qed.
Example C09_trail_result : result [] trail = [(4096, 5000, 16); (6000, 12288, 16)].
Proof. vm_compute. reflexivity. Qed.
Example C09_trail_answers : answers [] trail = [true; true; true; false].
Proof. vm_compute. reflexivity. Qed.

(** Removing a range that spans two regions removes it from only one of them: an
    address of the removed range is still in a heap region. *)
Theorem C09_spanning_removal_refuted : exists dbg h ans, 
  run dbg heap_region_init [Add 0 10 1; Add 10 20 1; Remove 5 15] = Ok (h, ans) /\
  (is_in_heap_region h 7 = Ok true \/ is_in_heap_region h 12 = Ok true).
Proof. exists false. eexists. eexists. split; [vm_compute; reflexivity|]. vm_compute. auto. Qed.

(** After any proper history of map, unmap and remap calls, looking an address up
    succeeds exactly if it is mapped, and the interval found is mapped throughout. *)
Theorem C10_history dbg cs : mproper_all dbg [] cs ->
  exists t r, mrun dbg rb_tree_create (map of_m cs) = Ok (t, r) /\ replies [] cs r /\
    forall a, exists x, mmap_anon_lookup t a = Ok x /\
      match x with
      | None => ~ held (rev cs) a
      | Some (b, s) => within b s a /\ In (b, b + s) (kept cs) /\ forall y, within b s y -> held (rev cs) y
      end.
Proof. exact (map_history dbg cs). Qed.

(** Three mappings, an unmapping across all three, a remapping and a merge. *)
Definition mtrail : list mchange := [MAdd 100 50; MAdd 200 50; MAdd 300 50; MDrop 120 200; MMove 330 10 500 40; MMove 0 10 700 5; MAdd 500 80].
Example C10_trail_proper : mproper_all true [] mtrail /\ mproper_all false [] mtrail.
Proof.
  vm_compute. repeat match goal with |- _ /\ _ => split end; try lia; try exact I; try (intros; exfalso; congruence); try discriminate; intros;
  repeat match goal with |- _ /\ _ => split end; try lia; intros;
  repeat match goal with H : _ \/ _ |- _ => destruct H | H : False |- _ => destruct H end; subst; try discriminate; try reflexivity; try lia.
Qed.
Example C10_trail_kept : kept mtrail = [(500, 580); (320, 330); (340, 350); (100, 120)].
Proof. vm_compute. reflexivity. Qed.

(** A mapping placed over two mapped intervals is not recorded: the debug build
    stops at an assertion. *)
Theorem C10_debug_two_refuted : mrun true rb_tree_create [Map 100 50; Map 150 50; Map 120 60] = UB.
Proof. vm_compute. reflexivity. Qed.
(** The release build compares start addresses only.  Of a mapping placed over a
    mapped interval with another start, addresses are not found. *)
Theorem C10_release_overlap_refuted : exists t,
  mrun false rb_tree_create [Map 50 10; Map 10 90] = Ok (t, []) /\ held [MAdd 10 90; MAdd 50 10] 70 /\ mmap_anon_lookup t 70 = Ok None.
Proof. eexists. split; [vm_compute; reflexivity|]. split; [cbn; unfold within; lia|vm_compute; reflexivity]. Qed.

Print Assumptions C09_history.
Print Assumptions C09_iterate.
Print Assumptions C09_records.
Print Assumptions C09_spanning_removal_refuted.
Print Assumptions C10_history.
Print Assumptions C10_debug_two_refuted.
Print Assumptions C10_release_overlap_refuted.
