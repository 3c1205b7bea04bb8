(** Properties C06, C07, C08: the address-interval index. *)
From Coq Require Import Permutation.
From Verif Require Import Base Redblack_Model Redblack_Spec Redblack_Client Redblack_Proofs12.
Open Scope Z_scope.

(** A history used by the examples: it inserts, removes (both by start and by
    contained address, including a node with two children), re-labels and is
    refused one overlapping insertion. *)
Definition demo : list op :=
  [Insert (40, 5, 1); Insert (20, 10, 2); Insert (60, 5, 3); Insert (10, 5, 4); Insert (30, 5, 5);
   Insert (50, 5, 6); Insert (70, 5, 7); Insert (80, 5, 8); Insert (90, 5, 9);
   RemoveAt 63; SetClient 50 66; RemoveStart 40; Insert (62, 20, 10)].
Definition demo_contents : list entry :=
  [(10,5,4); (20,10,2); (30,5,5); (50,5,66); (70,5,7); (80,5,8); (90,5,9)].
(* the same without the overlapping insertion, for the release build *)
Definition demo_rel : list op := firstn 12 demo.
Example demo_legal : legal true demo /\ legal false demo_rel /\ sp_run ovl demo = demo_contents.
Proof.
  unfold legal. repeat split; try (repeat constructor; vm_compute; intuition congruence); auto.
Qed.

(** ** C06 *)

(** Any history of valid operations runs to completion (no undefined
    behaviour: no access through a freed node, no endless loop) and iteration
    afterwards reports exactly the intervals of the specification, ascending and
    pairwise disjoint.  [dbg] is the DEBUG build, which itself refuses
    overlapping insertions; the release build needs callers not to insert an
    interval overlapping one with a different start. *)
Theorem C06_history_exact : forall dbg os, legal dbg os ->
  exists t, run dbg os = Ok t /\ contents t = Ok (sp_run ovl os) /\
            ascending (sp_run ovl os) /\ disjoint (sp_run ovl os).
Proof. exact history. Qed.
Print Assumptions C06_history_exact.
Example C06_history_exact_case :
  (let* t := run true demo in contents t) = Ok demo_contents /\
  (let* t := run false demo_rel in contents t) = Ok demo_contents.
Proof. vm_compute. auto. Qed.

(** Looking up an address returns the interval containing it, with its data. *)
Theorem C06_lookup_address_exact : forall dbg os t a, legal dbg os -> run dbg os = Ok t ->
  (let* h := rb_in_node t a in view t h) = Ok (List.find (inside a) (sp_run ovl os)).
Proof. exact lookup_at. Qed.
Print Assumptions C06_lookup_address_exact.
Example C06_lookup_address_case :
  (let* t := run true demo in let* h := rb_in_node t 29 in view t h) = Ok (Some (20, 10, 2)) /\
  (let* t := run true demo in let* h := rb_in_node t 54 in view t h) = Ok (Some (50, 5, 66)) /\
  (let* t := run true demo in let* h := rb_in_node t 55 in view t h) = Ok None.
Proof. vm_compute. auto. Qed.

Theorem C06_lookup_start_exact : forall dbg os t b, legal dbg os -> run dbg os = Ok t ->
  (let* h := rb_find t b in view t h) = Ok (List.find (fun e => e_base e =? b) (sp_run ovl os)).
Proof. exact lookup_start. Qed.
Print Assumptions C06_lookup_start_exact.
Example C06_lookup_start_case :
  (let* t := run true demo in let* h := rb_find t 70 in view t h) = Ok (Some (70, 5, 7)) /\
  (let* t := run true demo in let* h := rb_find t 71 in view t h) = Ok None.
Proof. vm_compute. auto. Qed.

(** An overlap query finds an overlapping interval whenever there is one. *)
Theorem C06_lookup_overlap_exact : forall dbg os t s e, legal dbg os -> run dbg os = Ok t ->
  exists r, (let* h := rb_overlaps_node t s e in view t h) = Ok r /\
    match r with
    | Some x => In x (sp_run ovl os) /\ meets s e x = true
    | None => forall x, In x (sp_run ovl os) -> meets s e x = false
    end.
Proof. exact lookup_overlap. Qed.
Print Assumptions C06_lookup_overlap_exact.
Example C06_lookup_overlap_case :
  (let* t := run true demo in let* h := rb_overlaps_node t 94 100 in view t h) = Ok (Some (90, 5, 9)) /\
  (let* t := run true demo in let* h := rb_overlaps_node t 35 50 in view t h) = Ok None.
Proof. vm_compute. auto. Qed.

Theorem C06_lookup_client_exact : forall dbg os t c, legal dbg os -> run dbg os = Ok t ->
  exists r, (let* h := rb_find_client_node t c in view t h) = Ok r /\
    match r with
    | Some x => In x (sp_run ovl os) /\ e_client x = c
    | None => forall x, In x (sp_run ovl os) -> e_client x <> c
    end.
Proof. exact lookup_client. Qed.
Print Assumptions C06_lookup_client_exact.
Example C06_lookup_client_case :
  (let* t := run true demo in let* h := rb_find_client_node t 66 in view t h) = Ok (Some (50, 5, 66)) /\
  (let* t := run true demo in let* h := rb_find_client_node t 6 in view t h) = Ok None.
Proof. vm_compute. auto. Qed.

(** Iteration calls back on every interval in ascending order and stops when
    the callback answers false. *)
Theorem C06_iterate_exact : forall dbg os t (S0 : Type) (cb : S0 -> entry -> S0 * bool) s,
  legal dbg os -> run dbg os = Ok t -> rb_iterate cb t s = Ok (walk cb s (sp_run ovl os)).
Proof. exact iterate_hist. Qed.
Print Assumptions C06_iterate_exact.
Example C06_iterate_case : (* stop at the first start above 45 *)
  (let* t := run true demo in rb_iterate (fun acc e => (acc ++ [e_base e], e_base e <=? 45)) t []) = Ok [10; 20; 30; 50].
Proof. vm_compute. auto. Qed.

(** Minimum and maximum; on an empty index both return the sentinel node
    (not NULL). *)
Theorem C06_extremes_exact : forall dbg os t, legal dbg os -> run dbg os = Ok t ->
  match sp_run ovl os with
  | [] => rb_min_node t = Ok NIL /\ rb_max_node t = Ok NIL
  | e :: l => (let* h := rb_min_node t in view t (Some h)) = Ok (Some e) /\
              (let* h := rb_max_node t in view t (Some h)) = Ok (Some (last (e :: l) e))
  end.
Proof. exact extremes. Qed.
Print Assumptions C06_extremes_exact.
Example C06_extremes_case :
  (let* t := run true demo in let* h := rb_min_node t in view t (Some h)) = Ok (Some (10, 5, 4)) /\
  (let* t := run true demo in let* h := rb_max_node t in view t (Some h)) = Ok (Some (90, 5, 9)) /\
  (let* t := run true (demo ++ [Clear]) in rb_max_node t) = Ok NIL.
Proof. vm_compute. auto. Qed.

(** An insertion is refused exactly if it overlaps a stored interval, and then
    returns such an interval and changes nothing. *)
Theorem C06_insert_result_exact : forall dbg os t b s c,
  legal dbg os -> run dbg os = Ok t -> valid (b, s, c) ->
  (dbg = true \/ existsb (ovl (b, s, c)) (sp_run ovl os) = existsb (same_start (b, s, c)) (sp_run ovl os)) ->
  exists t' h r, rb_insert dbg t b s c = Ok (t', h) /\ view t' h = Ok r /\
    match r with
    | Some e => In e (sp_run ovl os) /\ ovl (b, s, c) e = true /\ contents t' = Ok (sp_run ovl os)
    | None => (forall e, In e (sp_run ovl os) -> ovl (b, s, c) e = false) /\
              contents t' = Ok (put (b, s, c) (sp_run ovl os))
    end.
Proof. exact insert_result. Qed.
Print Assumptions C06_insert_result_exact.
Example C06_insert_result_case :
  valid (62, 20, 10) /\
  (let* t := run true demo in let* (t', h) := rb_insert true t 62 20 10 in view t' h) = Ok (Some (80, 5, 8)) /\
  (let* t := run true demo in let* (t', h) := rb_insert true t 75 5 10 in view t' h) = Ok None /\
  (let* t := run true demo in let* (t', h) := rb_insert true t 75 5 10 in contents t') =
    Ok [(10,5,4); (20,10,2); (30,5,5); (50,5,66); (70,5,7); (75,5,10); (80,5,8); (90,5,9)].
Proof. split; [vm_compute; intuition congruence|]. vm_compute. auto. Qed.

(** The payload of every removed interval, and of no other, is released once. *)
Theorem C06_payload_released_once : forall dbg os, legal dbg os ->
  exists t, run dbg os = Ok t /\ Permutation (freed t) (sp_freed ovl [] os).
Proof. intros dbg os L. destruct (legal_run dbg os L) as (t&_&E&_&_&_&P). eauto. Qed.
Print Assumptions C06_payload_released_once.
Example C06_payload_case :
  (let* t := run true demo in Ok (freed t)) = Ok [3; 1] /\
  (let* t := run true (demo ++ [Clear]) in Ok (length (freed t))) = Ok 9%nat.
Proof. vm_compute. auto. Qed.

(** No node leaks: besides the sentinel exactly one allocated node per stored
    interval, for any history whatsoever. *)
Theorem C06_no_node_leak : forall dbg os t l, run dbg os = Ok t -> contents t = Ok l ->
  exists hs, NoDup hs /\ length hs = length l /\ forall x, heap t x <> None <-> x = NIL \/ In x hs.
Proof. exact no_leak. Qed.
Print Assumptions C06_no_node_leak.
Example C06_no_node_leak_case : (* the sentinel and 7 live nodes *)
  (let* t := run true demo in
   Ok (length (filter (fun x => match heap t x with Some _ => true | None => false end) (seq 0 (fresh t))))) = Ok 8%nat.
Proof. vm_compute. auto. Qed.

(** The release build without the callers' discipline: contents are exact with
    "same start" in place of "overlaps". *)
Theorem C06_release_any_history : forall os, Forall no_remove_at os ->
  exists t, run false os = Ok t /\ contents t = Ok (sp_run same_start os).
Proof. exact rel_history. Qed.
Print Assumptions C06_release_any_history.
Example C06_release_any_case :
  (let* t := run false [Insert (10, 20, 1); Insert (15, 20, 2); Insert (10, 1, 3)] in contents t) = Ok [(10,20,1); (15,20,2)].
Proof. vm_compute. auto. Qed.

(** Decided exceptions. *)

(** redblack.h:64-66 promises that rb_insert returns an overlapping node; the
    release build stores an overlapping interval silently. *)
Theorem C06_release_insert_overlap_refuted : exists os t b s c e t', legal false os /\ run false os = Ok t /\
  valid (b, s, c) /\ In e (sp_run ovl os) /\ ovl (b, s, c) e = true /\ rb_insert false t b s c = Ok (t', None).
Proof.
  exists [Insert (10, 20, 1)]. eexists. exists 15, 20, 2, (10, 20, 1). eexists.
  split. { split; [repeat constructor; vm_compute; congruence|right; vm_compute; auto]. }
  split; [vm_compute; reflexivity|]. split; [vm_compute; intuition congruence|].
  split; [vm_compute; auto|]. split; vm_compute; reflexivity.
Qed.
Print Assumptions C06_release_insert_overlap_refuted.

(** An interval ending exactly at the top of the address space is stored but
    can never be found by address (its end wraps to 0). *)
Theorem C06_top_of_memory_refuted : exists os t a, run true os = Ok t /\
  contents t = Ok [(2 ^ 64 - 4096, 4096, 7)] /\ inside a (2 ^ 64 - 4096, 4096, 7) = true /\ a < 2 ^ 64 /\
  rb_in_node t a = Ok None.
Proof.
  exists [Insert (2 ^ 64 - 4096, 4096, 7)]. eexists. exists (2 ^ 64 - 1).
  split; [vm_compute; reflexivity|]. vm_compute. auto.
Qed.
Print Assumptions C06_top_of_memory_refuted.

(** A node handle does not survive the deletion of another node: deleting the
    node at 20 frees the node that was returned for 30 (its contents move). *)
Theorem C06_handle_stability_refuted : exists os t h z t', legal true os /\ run true os = Ok t /\
  rb_find t 30 = Ok (Some h) /\ rb_find t 20 = Ok (Some z) /\ rb_delete t z = Ok t' /\ rb_node_fields t' h = UB.
Proof.
  exists [Insert (20, 5, 1); Insert (10, 5, 2); Insert (30, 5, 3)]. do 4 eexists.
  split. { split; [repeat constructor; vm_compute; congruence|auto]. }
  split; [vm_compute; reflexivity|]. split; [vm_compute; reflexivity|].
  split; [vm_compute; reflexivity|]. split; vm_compute; reflexivity.
Qed.
Print Assumptions C06_handle_stability_refuted.

(** ** C07 *)

(** Every history of any operations - intervals may overlap or wrap -
    terminates normally. *)
Theorem C07_operations_terminate : forall dbg os, exists t, run dbg os = Ok t.
Proof. exact any_reach. Qed.
Print Assumptions C07_operations_terminate.
Example C07_operations_terminate_case :
  (let* t := run false [Insert (5, -3, 1); Insert (2 ^ 64, 2 ^ 70, 2); RemoveAt 7; Insert (5, 1, 1); RemoveStart 5; Clear] in contents t) = Ok [].
Proof. vm_compute. auto. Qed.

(** Afterwards: the root is black, no red node has a red child, all paths to
    the sentinel have equally many black nodes and at most 2*log2(n+1) nodes. *)
Theorem C07_balanced : forall dbg os t l, run dbg os = Ok t -> contents t = Ok l ->
  is_red t (root t) = false /\
  (forall x n, inside_tree t x -> rd t x = Ok n -> red n = true ->
     is_red t (lft n) = false /\ is_red t (rgt n) = false) /\
  (exists bh, forall k m, path t (root t) k m -> k = bh /\ (m <= 2 * Nat.log2 (S (length l)))%nat).
Proof. exact balance. Qed.
Print Assumptions C07_balanced.
(* ascending insertions, the worst case of an unbalanced tree: 15 nodes *)
Definition asc (n : nat) : list op := map (fun i => Insert (16 * Z.of_nat i, 16, 0)) (seq 1 n).
Fixpoint depth (fuel : nat) (t : tree) (x : nat) : nat :=
  match fuel with
  | O => O
  | S f => if Nat.eqb x NIL then O else
           match rd t x with Ok n => S (Nat.max (depth f t (lft n)) (depth f t (rgt n))) | _ => O end
  end.
Example C07_balanced_case :
  (let* t := run true (asc 15) in let* l := contents t in Ok (length l, depth 99 t (root t))) = Ok (15, 6)%nat /\
  (let* t := run true (asc 30 ++ map (fun i => RemoveStart (16 * Z.of_nat i)) (seq 1 15)) in
   let* l := contents t in Ok (length l, depth 99 t (root t))) = Ok (15, 6)%nat.
Proof. vm_compute. auto. Qed.

(** Lookups take at most 2*log2(n+1)+1 loop tests: the loops with that fuel
    already give the answer. *)
Theorem C07_lookup_steps_logarithmic : forall dbg os t l, run dbg os = Ok t -> contents t = Ok l ->
  let n := S (2 * Nat.log2 (S (length l))) in
  (forall b, find_loop n t b (root t) = rb_find t b) /\
  (forall a, in_node_loop n t a (root t) = rb_in_node t a) /\
  (forall s e, overlaps_loop n t s e (root t) = rb_overlaps_node t s e).
Proof. exact log_steps. Qed.
Print Assumptions C07_lookup_steps_logarithmic.
Example C07_lookup_steps_case : (* 60 intervals: at most 11 tests *)
  (let* t := run true (asc 60) in find_loop 11 t 960 (root t)) = Ok (Some 60%nat) /\
  (let* t := run true (asc 60) in find_loop 11 t 961 (root t)) = Ok None.
Proof. vm_compute. auto. Qed.

(** ** C08 *)

(** What rb_next_lower_node does guarantee: it answers "none" exactly if no
    stored interval starts at or below the address, and an answer starts at or
    below it. *)
Theorem C08_next_lower_sound : forall dbg os t a, legal dbg os -> run dbg os = Ok t ->
  exists r, (let* h := rb_next_lower_node t a in view t h) = Ok r /\
    match r with
    | Some e => In e (sp_run ovl os) /\ e_base e <= a
    | None => forall e, In e (sp_run ovl os) -> a < e_base e
    end.
Proof. exact nearest_lower. Qed.
Print Assumptions C08_next_lower_sound.
Example C08_next_lower_case :
  (let* t := run true demo in let* h := rb_next_lower_node t 95 in view t h) = Ok (Some (90, 5, 9)) /\
  (let* t := run true demo in let* h := rb_next_lower_node t 9 in view t h) = Ok None.
Proof. vm_compute. auto. Qed.

(** But it need not be the greatest such start. *)
Theorem C08_next_lower_refuted : exists os t a r, legal true os /\ run true os = Ok t /\
  (let* h := rb_next_lower_node t a in view t h) = Ok r /\ ~ is_next_lower a (sp_run ovl os) r.
Proof.
  exists [Insert (10, 5, 1); Insert (5, 1, 2); Insert (30, 5, 3); Insert (20, 5, 4)]. eexists. exists 25, (Some (10, 5, 1)).
  split. { split; [repeat constructor; vm_compute; congruence|auto]. }
  split; [vm_compute; reflexivity|]. split; [vm_compute; reflexivity|].
  intros (_&_&H). specialize (H (20, 5, 4)). vm_compute in H. apply H; auto; congruence.
Qed.
Print Assumptions C08_next_lower_refuted.

(** rb_next_higher_node only ever looks at the root (the per-node maximum it
    relies on is never filled in). *)
Theorem C08_next_higher_characterised : forall dbg os t a, legal dbg os -> run dbg os = Ok t -> 0 <= a ->
  rb_next_higher_node t a =
    (if Nat.eqb (root t) NIL then Ok None else
     let* e := rb_node_fields t (root t) in
     Ok (if a <? e_base e + e_size e then Some (root t) else None)).
Proof. exact nearest_higher. Qed.
Print Assumptions C08_next_higher_characterised.
Example C08_next_higher_case :
  (let* t := run true demo in let* h := rb_next_higher_node t 21 in view t h) = Ok (Some (50, 5, 66)).
Proof. vm_compute. auto. Qed.

Theorem C08_next_higher_refuted : exists os t a r, legal true os /\ run true os = Ok t /\
  (let* h := rb_next_higher_node t a in view t h) = Ok r /\ ~ is_next_higher a (sp_run ovl os) r.
Proof.
  exists [Insert (10, 5, 1); Insert (20, 5, 2)]. eexists. exists 16, None.
  split. { split; [repeat constructor; vm_compute; congruence|auto]. }
  split; [vm_compute; reflexivity|]. split; [vm_compute; reflexivity|].
  intros H. specialize (H (20, 5, 2)). vm_compute in H. specialize (H (or_intror (or_introl eq_refl))). congruence.
Qed.
Print Assumptions C08_next_higher_refuted.
