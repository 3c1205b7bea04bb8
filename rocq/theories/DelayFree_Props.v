(** C16: the delayed-free queue of the wrapping mode. *)
From Verif Require Import Base DelayFree_Model DelayFree_Spec DelayFree_Proofs DelayFree_Proofs2.
From Coq Require Import Permutation.
Open Scope Z_scope.

(** For every history of legal frees the calls answer what the list description
    answers, the counter is the number of bytes delayed, and never above the limit. *)
Theorem C16_history_exact : forall c bs, conf_ok c -> legal (cap c) (maxsz c) 0 [] bs ->
  let '(rs, q, _) := history (cap c) (maxsz c) 0 [] bs in
  exists s, frees c init (map call bs) = Ok (rs, s) /\ bytes s = total (blocks q) /\ total (blocks q) <= maxsz c.
Proof. exact history_exact. Qed.
Print Assumptions C16_history_exact.

(** After every history a further free hands back nothing and delays the block, or
    hands back the block itself and delays nothing new, or hands back exactly one block
    that was delayed, which then no longer is: nothing is released early or twice. *)
Theorem C16_release_sound : forall c bs b, conf_ok c -> legal (cap c) (maxsz c) 0 [] (bs ++ [b]) ->
  let q := blocks (snd (fst (history (cap c) (maxsz c) 0 [] bs))) in
  exists rs s r s', frees c init (map call bs) = Ok (rs, s) /\
    client_handle_free c s (b_addr b) (b_size b) (b_rz b) (b_stack b) = Ok (r, s') /\
    let q' := blocks (snd (fst (history (cap c) (maxsz c) 0 [] (bs ++ [b])))) in
    ((r = 0 /\ Permutation q' (b :: q)) \/ (r = b_addr b /\ q' = q) \/
     exists x q0, r = b_addr x /\ Permutation q (x :: q0) /\ Permutation q' (b :: q0)).
Proof. exact answer_ok. Qed.
Print Assumptions C16_release_sound.

(** The overlap query says yes exactly when the range touches a delayed block, and
    describes one it touches (unless that block was passed over, see below). *)
Theorem C16_overlap_exact : forall c bs st en, conf_ok c -> legal (cap c) (maxsz c) 0 [] bs ->
  let '(rs, q, k) := history (cap c) (maxsz c) 0 [] bs in
  exists s o, frees c init (map call bs) = Ok (rs, s) /\ overlaps_delayed_free c s st en = Ok o /\
    match o with
    | None => forall x, In x (blocks q) -> ~ touches st en x
    | Some d => exists j x, In (j, x) q /\ touches st en x /\ (k - cap c <= j -> d = described (rzsz c) x)
    end.
Proof. exact overlap_exact. Qed.
Print Assumptions C16_overlap_exact.

(** As long as the byte limit forces out only the oldest block of a full queue, at
    most [n] blocks are delayed, each for at most [n] further delayed frees. *)
Theorem C16_bounded : forall n max bs, 0 < n -> gentle n max 0 [] bs ->
  let '(_, q, k) := history n max 0 [] bs in
  Z.of_nat (length q) <= n /\ forall j x, In (j, x) q -> k - n <= j < k.
Proof. exact bounded. Qed.
Print Assumptions C16_bounded.

(** A block older than that is never released, whatever is freed later. *)
Theorem C16_never_released : forall n max bs more, 0 < n -> let '(_, q, k) := history n max 0 [] bs in
  forall j x, In (j, x) q -> 0 <= j < k - n -> let '(_, q', _) := history n max 0 [] (bs ++ more) in In (j, x) q'.
Proof. exact never_released. Qed.
Print Assumptions C16_never_released.

(** Non-vacuity: a queue of 3 blocks and 100 bytes; the fourth free releases the first
    block, the fifth is over the limit and larger than every delayed block, the sixth
    larger than the limit itself. *)
Definition ex_conf := Conf 3 100 16.
Definition ex_blocks := [Block 1000 40 true 1; Block 2000 20 true 2; Block 3000 30 true 3; Block 4000 10 true 4; Block 5000 41 true 5; Block 6000 101 true 6].
Example C16_nonvacuous_legal : legal (cap ex_conf) (maxsz ex_conf) 0 [] ex_blocks /\ conf_ok ex_conf.
Proof.
  split; [|unfold conf_ok; cbn; lia]. unfold ex_blocks, ex_conf. cbn [cap maxsz].
  repeat (cbn [legal]; split; [unfold proper; cbn; lia|];
    split; [intros x H; cbn in H; repeat match goal with H : _ \/ _ |- _ => destruct H as [<-|H] end; try tauto; unfold apart; cbn [b_addr b_size]; lia|];
    match goal with |- context [next ?a ?b ?c ?d ?e] => let v := eval vm_compute in (next a b c d e) in change (next a b c d e) with v; cbv beta iota end).
  exact I.
Qed.
Example C16_nonvacuous :
  history 3 100 0 [] ex_blocks =
    ([0; 0; 0; 1000; 5000; 6000], [(1, Block 2000 20 true 2); (2, Block 3000 30 true 3); (3, Block 4000 10 true 4)], 4) /\
  (let* (rs, s) := frees ex_conf init (map call ex_blocks) in
   let* o := overlaps_delayed_free ex_conf s 3010 3020 in
   let* o' := overlaps_delayed_free ex_conf s 1000 1010 in Ok (rs, bytes s, o, o')) =
  Ok ([0; 0; 0; 1000; 5000; 6000], 60, Some (3016, 3014, 3), None).
Proof. vm_compute. auto. Qed.
Example C16_nonvacuous_gentle : gentle 3 100 0 [] ex_blocks.
Proof.
  unfold ex_blocks.
  repeat (cbn [gentle]; split; [first [left; cbn; lia|right; left; cbn; lia|right; right; left; cbn; lia|idtac]|
    match goal with |- context [next ?a ?b ?c ?d ?e] => let v := eval vm_compute in (next a b c d e) in change (next a b c d e) with v; cbv beta iota end]).
  - right. right. right. left. intros p H. cbn in H. repeat match goal with H : _ \/ _ |- _ => destruct H as [<-|H] end; try tauto; cbn; lia.
  - exact I.
Qed.

(** With a full queue over its byte limit, swapping out a block other than the oldest
    overwrites the oldest block's slot: that block is never released, more than
    [delay_frees] blocks stay delayed, and the overlap query describes the lost
    block with the call stack of another one. *)
Definition bad_conf := Conf 2 100 0.
Definition bad_blocks := [Block 1000 10 false 1; Block 2000 50 false 2; Block 3000 45 false 3].
Theorem C16_lost_block_refuted :
  (let* (rs, s) := frees bad_conf init (map call (bad_blocks ++ [Block 4000 5 false 4])) in
   let* o := overlaps_delayed_free bad_conf s 1000 1001 in Ok (rs, bytes s, o)) =
    Ok ([0; 0; 2000; 0], 60, Some (1000, 1010, 3)) /\
  length (snd (fst (history 2 100 0 [] (bad_blocks ++ [Block 4000 5 false 4])))) = 3%nat /\
  forall more, In (0, Block 1000 10 false 1) (snd (fst (history 2 100 0 [] (bad_blocks ++ more)))).
Proof.
  split; [vm_compute; reflexivity|]. split; [vm_compute; reflexivity|].
  intros more. pose proof (never_released 2 100 bad_blocks more ltac:(lia)) as H.
  remember (history 2 100 0 [] (bad_blocks ++ more)) as X eqn:EX. destruct X as ((rs, q'), k).
  specialize (H 0 (Block 1000 10 false 1)). apply H; [left; reflexivity|lia].
Qed.
Print Assumptions C16_lost_block_refuted.
