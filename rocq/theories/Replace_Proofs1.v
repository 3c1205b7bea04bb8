(** memset / memcpy / memmove *)
From Verif Require Import Base Mem Replace_Model Replace_Spec.
Open Scope Z_scope.
Arguments Z.mul : simpl never.
Arguments Z.add : simpl never.
Arguments Z.sub : simpl never.

Lemma loadn_spec w : forall m s v, mem_ok m -> loadn w m s = Ok v ->
  (forall i, 0 <= i < Z.of_nat w -> m (s + i) = Some ((v / 256 ^ i) mod 256)) /\
  0 <= v < 256 ^ Z.of_nat w.
Proof.
  induction w as [|w IH]; intros m s v MO H; cbn [loadn] in H.
  - injection H as <-. split; [lia|]. cbn. lia.
  - destruct (m s) as [b|] eqn:E; [|discriminate].
    apply bind_ok in H. destruct H as (r&Hr&H). injection H as <-.
    pose proof (MO _ _ E) as Bb.
    destruct (IH _ _ _ MO Hr) as [A B].
    rewrite Nat2Z.inj_succ, Z.pow_succ_r by lia.
    split; [|nia].
    intros i Hi. destruct (Z.eq_dec i 0) as [->|N].
    + rewrite Z.add_0_r, E. cbn [Z.pow Z.pow_pos]. change (256^0) with 1.
      rewrite Z.div_1_r. rewrite Z.mul_comm, Z.mod_add by lia. rewrite Z.mod_small by lia. auto.
    + replace (s + i) with (s + 1 + (i - 1)) by lia. rewrite A by lia.
      replace i with (Z.succ (i - 1)) at 2 by lia.
      rewrite Z.pow_succ_r by lia. rewrite <- Z.div_div by lia.
      replace ((b + 256 * r) / 256) with r; auto.
      rewrite Z.mul_comm, Z.div_add by lia. rewrite Z.div_small by lia. lia.
Qed.

Lemma loadn_mapped w : forall m s, mapped m s (Z.of_nat w) -> exists v, loadn w m s = Ok v.
Proof.
  induction w as [|w IH]; intros m s H; cbn [loadn]; eauto.
  destruct (m s) eqn:E. 2:{ exfalso. apply (H s); auto. lia. }
  destruct (IH m (s+1)) as [v ->].
  - intros x Hx. apply H. lia.
  - cbn. eauto.
Qed.

Lemma storen_spec w : forall m d v, mapped m d (Z.of_nat w) ->
  exists m', storen w m d v = Ok m' /\
    forall x, m' x = if (d <=? x) && (x <? d + Z.of_nat w)
                     then Some ((v / 256 ^ (x - d)) mod 256) else m x.
Proof.
  induction w as [|w IH]; intros m d v H; cbn [storen].
  - exists m. split; auto. intros x.
    destruct (Z.leb_spec d x); destruct (Z.ltb_spec x (d + Z.of_nat 0)); cbn; auto; lia.
  - destruct (m d) eqn:E. 2:{ exfalso. apply (H d); auto. lia. }
    destruct (IH (upd m d (v mod 256)) (d+1) (v/256)) as (m'&E1&E2).
    + intros x Hx. unfold upd. destruct (x =? d); [discriminate|]. apply H. lia.
    + exists m'. split; auto. intros x. rewrite E2. unfold upd.
      destruct (Z.leb_spec (d+1) x); destruct (Z.ltb_spec x (d + 1 + Z.of_nat w));
      destruct (Z.leb_spec d x); destruct (Z.ltb_spec x (d + Z.of_nat (S w)));
      destruct (Z.eqb_spec x d); cbn [andb]; auto; try lia.
      * replace (x - d) with (Z.succ (x - (d + 1))) by lia.
        rewrite Z.pow_succ_r, <- Z.div_div by lia. auto.
      * subst. rewrite Z.sub_diag. change (256^0) with 1. rewrite Z.div_1_r; auto.
Qed.

Lemma copied_ok m m' d s n : mem_ok m -> copied m m' d s n -> mem_ok m'.
Proof. intros A B x b. rewrite B. destruct (_ && _); apply A. Qed.

Lemma copied_0 m d s : copied m m d s 0.
Proof.
  intros x. destruct (Z.leb_spec d x); destruct (Z.ltb_spec x (d + 0)); cbn; auto; lia.
Qed.

Ltac zcases :=
  repeat match goal with
  | |- context [Z.leb ?a ?b] => destruct (Z.leb_spec a b); cbn [andb]
  | |- context [Z.ltb ?a ?b] => destruct (Z.ltb_spec a b); cbn [andb]
  end.

(** the [w] bytes at [s] are copied to [d], reading memory [m], whatever the overlap *)
Lemma copy_unit w m d s : mem_ok m -> mapped m s (Z.of_nat w) -> mapped m d (Z.of_nat w) ->
  exists v m', loadn w m s = Ok v /\ storen w m d v = Ok m' /\ copied m m' d s (Z.of_nat w).
Proof.
  intros MO Ms Md. destruct (loadn_mapped w m s Ms) as [v E].
  destruct (storen_spec w m d v Md) as (m'&E1&E2).
  exists v, m'. repeat split; auto. intros x. rewrite E2.
  destruct (loadn_spec w m s v MO E) as [L _].
  zcases; auto. rewrite L by lia. auto.
Qed.

Lemma copied_mapped m m' d s n a k : copied m m' d s n ->
  mapped m a k -> mapped m s n -> mapped m' a k.
Proof.
  intros C A B x Hx. rewrite C. zcases; try (apply A; lia). apply B; lia.
Qed.

Lemma copy_step w m0 m dst src k n :
  mem_ok m0 -> copied m0 m dst src k -> 0 <= k -> k + Z.of_nat w <= n ->
  (dst <= src \/ src + n <= dst) -> mapped m0 src n -> mapped m0 dst n ->
  exists v m', loadn w m (src + k) = Ok v /\ storen w m (dst + k) v = Ok m' /\
    copied m0 m' dst src (k + Z.of_nat w).
Proof.
  intros MO C K0 Kn HD Ms Md.
  destruct (copy_unit w m (dst+k) (src+k)) as (v&m'&E1&E2&E3).
  - eapply copied_ok; eauto.
  - eapply copied_mapped; eauto.
    + intros x Hx. apply Ms. lia.
    + intros x Hx. apply Ms. lia.
  - eapply copied_mapped; eauto.
    + intros x Hx. apply Md. lia.
    + intros x Hx. apply Ms. lia.
  - exists v, m'. repeat split; auto. intros x. rewrite E3.
    rewrite (C x), (C (src + k + (x - (dst + k)))).
    zcases; try lia; auto; f_equal; lia.
Qed.

Lemma fwd_loop m0 dst src n : mem_ok m0 -> (dst <= src \/ src + n <= dst) ->
  mapped m0 src n -> mapped m0 dst n ->
  forall size m k, copied m0 m dst src k -> 0 <= k -> k + Z.of_nat size = n ->
  exists m', copy_tail size m (dst + k) (src + k) = Ok m' /\ copied m0 m' dst src n.
Proof.
  intros MO HD Ms Md. induction size as [|size IH]; intros m k C K0 Kn; cbn [copy_tail].
  - exists m. split; auto. replace n with k by lia. auto.
  - destruct (copy_step 1 m0 m dst src k n MO C) as (v&m'&->&E2&E3); auto; try lia.
    cbn [bind]. rewrite E2. cbn [bind].
    destruct (IH m' (k+1)) as (m2&F1&F2); auto; try lia.
    exists m2. split; auto. rewrite <- F1. f_equal; lia.
Qed.

Lemma fwd_head m0 dst src n : mem_ok m0 -> (dst <= src \/ src + n <= dst) ->
  mapped m0 src n -> mapped m0 dst n ->
  forall size m k, copied m0 m dst src k -> 0 <= k -> k + Z.of_nat size = n ->
  exists m' k' size', copy_head size m (dst + k) (src + k) = Ok (m', dst + k', src + k', size') /\
    copied m0 m' dst src k' /\ 0 <= k' /\ k' + Z.of_nat size' = n.
Proof.
  intros MO HD Ms Md. induction size as [|size IH]; intros m k C K0 Kn; cbn [copy_head].
  - exists m, k, 0%nat. destruct (ALIGNED4 _); auto.
  - destruct (ALIGNED4 _). { exists m, k, (S size). auto. }
    destruct (copy_step 1 m0 m dst src k n MO C) as (v&m'&->&E2&E3); auto; try lia.
    cbn [bind]. rewrite E2. cbn [bind].
    destruct (IH m' (k+1)) as (m2&k2&s2&F1&F2&F3&F4); auto; try lia.
    exists m2, k2, s2. split; auto. rewrite <- F1. f_equal; lia.
Qed.

Lemma fwd_quads m0 dst src n : mem_ok m0 -> (dst <= src \/ src + n <= dst) ->
  mapped m0 src n -> mapped m0 dst n ->
  forall size m k, copied m0 m dst src k -> 0 <= k -> k + Z.of_nat size = n ->
  exists m' k' size', copy_quads size m (dst + k) (src + k) = Ok (m', dst + k', src + k', size') /\
    copied m0 m' dst src k' /\ 0 <= k' /\ k' + Z.of_nat size' = n.
Proof.
  intros MO HD Ms Md size. induction size as [size IH] using lt_wf_ind; intros m k C K0 Kn.
  destruct size as [|[|[|[|size]]]]; cbn [copy_quads]; try (exists m, k; eexists; eauto; fail).
  destruct (copy_step 4 m0 m dst src k n MO C) as (v&m'&->&E2&E3); auto; try lia.
  cbn [bind]. rewrite E2. cbn [bind].
  destruct (IH size ltac:(lia) m' (k+4)) as (m2&k2&s2&F1&F2&F3&F4); auto; try lia.
  exists m2, k2, s2. split; auto. rewrite <- F1. f_equal; lia.
Qed.

Lemma copy_forward_ok m dst src size : mem_ok m ->
  (dst <= src \/ src + Z.of_nat size <= dst) ->
  mapped m src (Z.of_nat size) -> mapped m dst (Z.of_nat size) ->
  exists m', copy_forward m dst src size = Ok m' /\ copied m m' dst src (Z.of_nat size).
Proof.
  intros MO HD Ms Md. unfold copy_forward.
  set (n := Z.of_nat size).
  destruct (_ =? _).
  - destruct (fwd_head m dst src n MO HD Ms Md size m 0) as (m1&k1&s1&E1&C1&K1&L1);
      auto using copied_0; try (unfold n; lia).
    rewrite !Z.add_0_r in E1. rewrite E1. cbn [bind].
    destruct (fwd_quads m dst src n MO HD Ms Md s1 m1 k1) as (m2&k2&s2&E2&C2&K2&L2); auto.
    rewrite E2. cbn [bind].
    apply (fwd_loop m dst src n MO HD Ms Md); auto.
  - destruct (fwd_loop m dst src n MO HD Ms Md size m 0) as (m1&E1&C1);
      auto using copied_0; try (unfold n; lia).
    rewrite !Z.add_0_r in E1. eauto.
Qed.

(** backward *)
Lemma copyb_step w m0 m dst src k n :
  mem_ok m0 -> copied m0 m (dst + k) (src + k) (n - k) -> k <= n -> Z.of_nat w <= k ->
  src <= dst -> mapped m0 src n -> mapped m0 dst n ->
  exists v m', loadn w m (src + k - Z.of_nat w) = Ok v /\
    storen w m (dst + k - Z.of_nat w) v = Ok m' /\
    copied m0 m' (dst + (k - Z.of_nat w)) (src + (k - Z.of_nat w)) (n - (k - Z.of_nat w)).
Proof.
  intros MO C K0 Kn HD Ms Md.
  destruct (copy_unit w m (dst+k - Z.of_nat w) (src+k - Z.of_nat w)) as (v&m'&E1&E2&E3).
  - eapply copied_ok; eauto.
  - eapply copied_mapped; eauto; intros x Hx; apply Ms; lia.
  - eapply copied_mapped; eauto; intros x Hx; [apply Md|apply Ms]; lia.
  - exists v, m'. repeat split; auto. intros x. rewrite E3.
    rewrite (C x), (C (src + k - Z.of_nat w + (x - (dst + k - Z.of_nat w)))).
    zcases; try lia; auto; f_equal; lia.
Qed.

Lemma bwd_loop m0 dst src n : mem_ok m0 -> src <= dst ->
  mapped m0 src n -> mapped m0 dst n ->
  forall size m, copied m0 m (dst + Z.of_nat size) (src + Z.of_nat size) (n - Z.of_nat size) ->
  Z.of_nat size <= n ->
  exists m', copyb_tail size m (dst + Z.of_nat size) (src + Z.of_nat size) = Ok m' /\
    copied m0 m' dst src n.
Proof.
  intros MO HD Ms Md. induction size as [|size IH]; intros m C Kn; cbn [copyb_tail].
  - exists m. split; auto. cbn in C. rewrite !Z.add_0_r, Z.sub_0_r in C. auto.
  - destruct (copyb_step 1 m0 m dst src (Z.of_nat (S size)) n MO C) as (v&m'&E1&E2&E3); auto; try lia.
    change (Z.of_nat 1) with 1 in *. rewrite E1. cbn [bind]. rewrite E2. cbn [bind].
    replace (Z.of_nat (S size) - 1) with (Z.of_nat size) in E3 by lia.
    destruct (IH m') as (m2&F1&F2); auto; try lia.
    exists m2. split; auto. rewrite <- F1. f_equal; lia.
Qed.

Lemma bwd_head m0 dst src n : mem_ok m0 -> src <= dst ->
  mapped m0 src n -> mapped m0 dst n ->
  forall size m, copied m0 m (dst + Z.of_nat size) (src + Z.of_nat size) (n - Z.of_nat size) ->
  Z.of_nat size <= n ->
  exists m' size', copyb_head size m (dst + Z.of_nat size) (src + Z.of_nat size) =
      Ok (m', dst + Z.of_nat size', src + Z.of_nat size', size') /\
    copied m0 m' (dst + Z.of_nat size') (src + Z.of_nat size') (n - Z.of_nat size') /\
    Z.of_nat size' <= n.
Proof.
  intros MO HD Ms Md. induction size as [|size IH]; intros m C Kn; cbn [copyb_head].
  - exists m, 0%nat. destruct (ALIGNED4 _); auto.
  - destruct (ALIGNED4 _). { exists m, (S size). auto. }
    destruct (copyb_step 1 m0 m dst src (Z.of_nat (S size)) n MO C) as (v&m'&E1&E2&E3); auto; try lia.
    change (Z.of_nat 1) with 1 in *. rewrite E1. cbn [bind]. rewrite E2. cbn [bind].
    replace (Z.of_nat (S size) - 1) with (Z.of_nat size) in E3 by lia.
    destruct (IH m') as (m2&s2&F1&F2&F3); auto; try lia.
    exists m2, s2. split; auto. rewrite <- F1. f_equal; lia.
Qed.

Lemma bwd_quads m0 dst src n : mem_ok m0 -> src <= dst ->
  mapped m0 src n -> mapped m0 dst n ->
  forall size m, copied m0 m (dst + Z.of_nat size) (src + Z.of_nat size) (n - Z.of_nat size) ->
  Z.of_nat size <= n ->
  exists m' size', copyb_quads size m (dst + Z.of_nat size) (src + Z.of_nat size) =
      Ok (m', dst + Z.of_nat size', src + Z.of_nat size', size') /\
    copied m0 m' (dst + Z.of_nat size') (src + Z.of_nat size') (n - Z.of_nat size') /\
    Z.of_nat size' <= n.
Proof.
  intros MO HD Ms Md size. induction size as [size IH] using lt_wf_ind; intros m C Kn.
  destruct size as [|[|[|[|size]]]]; cbn [copyb_quads]; try (exists m; eexists; eauto; fail).
  destruct (copyb_step 4 m0 m dst src (Z.of_nat (S (S (S (S size))))) n MO C) as (v&m'&E1&E2&E3); auto; try lia.
  change (Z.of_nat 4) with 4 in *. rewrite E1. cbn [bind]. rewrite E2. cbn [bind].
  replace (Z.of_nat (S (S (S (S size)))) - 4) with (Z.of_nat size) in E3 by lia.
  destruct (IH size ltac:(lia) m') as (m2&s2&F1&F2&F3); auto; try lia.
  exists m2, s2. split; auto. rewrite <- F1. f_equal; lia.
Qed.

Lemma copied_nothing m d s : copied m m d s (Z.of_nat 0) . Proof. apply copied_0. Qed.

Lemma copy_backward_ok m dst src size : mem_ok m -> src <= dst ->
  mapped m src (Z.of_nat size) -> mapped m dst (Z.of_nat size) ->
  exists m', copy_backward m dst src size = Ok m' /\ copied m m' dst src (Z.of_nat size).
Proof.
  intros MO HD Ms Md. unfold copy_backward.
  pose (n := Z.of_nat size).
  assert (C0 : copied m m (dst + Z.of_nat size) (src + Z.of_nat size) (n - Z.of_nat size)).
  { replace (n - Z.of_nat size) with 0 by (unfold n; lia). apply copied_0. }
  destruct (_ =? _).
  - destruct (bwd_head m dst src n MO HD Ms Md size m) as (m1&s1&E1&C1&K1);
      auto; try (unfold n; lia).
    rewrite E1. cbn [bind].
    destruct (bwd_quads m dst src n MO HD Ms Md s1 m1) as (m2&s2&E2&C2&K2); auto.
    rewrite E2. cbn [bind].
    apply (bwd_loop m dst src n MO HD Ms Md); auto.
  - apply (bwd_loop m dst src n MO HD Ms Md size m); auto; unfold n; lia.
Qed.

Lemma memmove_ok m dst src size : mem_ok m ->
  0 <= dst -> 0 <= src -> dst + Z.of_nat size <= 2 ^ 64 -> src + Z.of_nat size <= 2 ^ 64 ->
  mapped m src (Z.of_nat size) -> mapped m dst (Z.of_nat size) ->
  exists m', replace_memmove m dst src size = Ok (m', dst) /\ copied m m' dst src (Z.of_nat size).
Proof.
  intros MO D0 S0 D1 S1 Ms Md. unfold replace_memmove.
  destruct (Z.eq_dec (Z.of_nat size) 0) as [Z0|NZ].
  { destruct size; [|lia]. 
    assert (copy_forward m dst src 0 = Ok m) as E.
    { unfold copy_forward. destruct (_ =? _); cbn [copy_head copy_quads copy_tail bind]; auto.
      destruct (ALIGNED4 dst); cbn [bind copy_quads copy_tail]; auto. }
    destruct (Z.leb_spec (Z.of_nat 0) ((dst - src) mod W64)).
    - rewrite E. cbn [bind]. exists m. split; auto. apply copied_0.
    - exfalso. pose proof (Z.mod_pos_bound (dst-src) W64). unfold W64 in *. lia. }
  destruct (Z.leb_spec (Z.of_nat size) ((dst - src) mod W64)) as [H|H].
  - destruct (copy_forward_ok m dst src size) as (m'&->&C); auto.
    + destruct (Z.le_gt_cases dst src); auto. right.
      rewrite Z.mod_small in H by (unfold W64; lia). lia.
    + cbn. eauto.
  - destruct (copy_backward_ok m dst src size) as (m'&->&C); auto.
    + destruct (Z.le_gt_cases src dst); auto. exfalso.
      replace ((dst - src) mod W64) with (dst - src + W64) in H.
      * unfold W64 in *. lia.
      * symmetry. unfold W64 in *. rewrite <- (Z.mod_add _ 1) by lia. apply Z.mod_small. lia.
    + cbn. eauto.
Qed.

Lemma memcpy_ok m dst src size : mem_ok m ->
  dst <= src \/ src + Z.of_nat size <= dst ->
  mapped m src (Z.of_nat size) -> mapped m dst (Z.of_nat size) ->
  exists m', replace_memcpy m dst src size = Ok (m', dst) /\ copied m m' dst src (Z.of_nat size).
Proof.
  intros MO HD Ms Md. unfold replace_memcpy.
  destruct (copy_forward_ok m dst src size) as (m'&->&C); auto. cbn. eauto.
Qed.

Lemma wmemcpy_ok m dst src count : mem_ok m -> 4 * Z.of_nat count < 2 ^ 64 ->
  dst <= src \/ src + 4 * Z.of_nat count <= dst ->
  mapped m src (4 * Z.of_nat count) -> mapped m dst (4 * Z.of_nat count) ->
  exists m', replace_wmemcpy m dst src count = Ok (m', dst) /\
    copied m m' dst src (4 * Z.of_nat count).
Proof.
  intros MO B HD Ms Md. unfold replace_wmemcpy.
  rewrite Z.mod_small by (unfold W64; lia).
  destruct (memcpy_ok m dst src (Z.to_nat (4 * Z.of_nat count)) MO) as (m'&E&C);
    rewrite ?Z2Nat.id in * by lia; eauto.
Qed.

(** memset *)
Lemma filled_0 m d v : filled m m d v 0.
Proof. intros x. zcases; auto; lia. Qed.

Lemma filled_mapped m m' d v n a k : filled m m' d v n -> mapped m a k -> mapped m' a k.
Proof. intros C A x Hx. rewrite C. zcases; try (apply A; lia). discriminate. Qed.

Lemma fill_step w m0 m dst val v k n :
  filled m0 m dst val k -> 0 <= k -> k + Z.of_nat w <= n -> mapped m0 dst n ->
  (forall i, 0 <= i < Z.of_nat w -> (v / 256 ^ i) mod 256 = val) ->
  exists m', storen w m (dst + k) v = Ok m' /\ filled m0 m' dst val (k + Z.of_nat w).
Proof.
  intros F K0 Kn Md HV.
  destruct (storen_spec w m (dst + k) v) as (m'&E1&E2).
  - eapply filled_mapped; eauto. intros x Hx; apply Md; lia.
  - exists m'. split; auto. intros x. rewrite E2, F. zcases; try lia; auto.
    rewrite HV by lia. auto.
Qed.

Lemma byte_only v : 0 <= v < 256 -> forall i, 0 <= i < Z.of_nat 1 -> (v / 256 ^ i) mod 256 = v.
Proof. intros B i Hi. replace i with 0 by lia. change (256^0) with 1. rewrite Z.div_1_r, Z.mod_small; lia. Qed.

Definition val4_of (val : Z) :=
  Z.lor (Z.lor (Z.lor (Z.shiftl val 24) (Z.shiftl val 16)) (Z.shiftl val 8)) val.

Lemma val4_bytes : forall v, 0 <= v < 256 ->
  forall i, 0 <= i < Z.of_nat 4 -> (val4_of v / 256 ^ i) mod 256 = v.
Proof.
  assert (H: forallb (fun n => let v := Z.of_nat n in
            forallb (fun i => (val4_of v / 256 ^ (Z.of_nat i)) mod 256 =? v) (seq 0 4)) (seq 0 256) = true)
    by (vm_compute; reflexivity).
  intros v Hv i Hi. rewrite forallb_forall in H.
  specialize (H (Z.to_nat v)). cbv zeta in H. rewrite Z2Nat.id in H by lia.
  rewrite forallb_forall in H.
  specialize (H ltac:(apply in_seq; lia) (Z.to_nat i) ltac:(apply in_seq; lia)).
  rewrite Z2Nat.id in H by lia. lia.
Qed.

Section Memset.
Variables (m0 : mem) (dst val n : Z).
Hypothesis (HV : 0 <= val < 256) (Md : mapped m0 dst n).
Lemma fill_tail : forall size m k, filled m0 m dst val k -> 0 <= k -> k + Z.of_nat size = n ->
  exists m', memset_tail size m (dst + k) val = Ok m' /\ filled m0 m' dst val n.
Proof.
  induction size as [|size IH]; intros m k F K0 Kn; cbn [memset_tail].
  - exists m. split; auto. replace n with k by lia. auto.
  - destruct (fill_step 1 m0 m dst val val k n) as (m'&->&E); auto using byte_only; try lia.
    cbn [bind]. destruct (IH m' (k+1)) as (m2&F1&F2); auto; try lia.
    exists m2. split; auto. rewrite <- F1. f_equal; lia.
Qed.
Lemma fill_head : forall size m k, filled m0 m dst val k -> 0 <= k -> k + Z.of_nat size = n ->
  exists m' k' size', memset_head size m (dst + k) val = Ok (m', dst + k', size') /\
   filled m0 m' dst val k' /\ 0 <= k' /\ k' + Z.of_nat size' = n.
Proof.
  induction size as [|size IH]; intros m k F K0 Kn; cbn [memset_head].
  - exists m, k, 0%nat. destruct (ALIGNED4 _); auto.
  - destruct (ALIGNED4 _). { exists m, k, (S size); auto. }
    destruct (fill_step 1 m0 m dst val val k n) as (m'&->&E); auto using byte_only; try lia.
    cbn [bind]. destruct (IH m' (k+1)) as (m2&k2&s2&F1&F2&F3&F4); auto; try lia.
    exists m2, k2, s2. split; auto. rewrite <- F1. f_equal; lia.
Qed.
Lemma fill_quads : forall size m k, filled m0 m dst val k -> 0 <= k -> k + Z.of_nat size = n ->
  exists m' k' size', memset_quads size m (dst + k) (val4_of val) = Ok (m', dst + k', size') /\
   filled m0 m' dst val k' /\ 0 <= k' /\ k' + Z.of_nat size' = n.
Proof.
  intros size. induction size as [size IH] using lt_wf_ind; intros m k F K0 Kn.
  destruct size as [|[|[|[|size]]]]; cbn [memset_quads]; try (exists m, k; eexists; eauto; fail).
  destruct (fill_step 4 m0 m dst val (val4_of val) k n) as (m'&->&E); auto using val4_bytes; try lia.
  cbn [bind]. destruct (IH size ltac:(lia) m' (k+4)) as (m2&k2&s2&F1&F2&F3&F4); auto; try lia.
  exists m2, k2, s2. split; auto. rewrite <- F1. f_equal; lia.
Qed.
End Memset.

Lemma memset_ok m dst val size : mapped m dst (Z.of_nat size) ->
  exists m', replace_memset m dst val size = Ok (m', dst) /\
    filled m m' dst (val mod 256) (Z.of_nat size).
Proof.
  intros Md. unfold replace_memset. fold (val4_of (val mod 256)).
  assert (B : 0 <= val mod 256 < 256) by (apply Z.mod_pos_bound; lia).
  destruct (fill_head m dst (val mod 256) (Z.of_nat size) B Md size m 0) as (m1&k1&s1&E1&F1&K1&L1);
    auto using filled_0; try lia.
  rewrite Z.add_0_r in E1. rewrite E1. cbn [bind].
  destruct (fill_quads m dst (val mod 256) (Z.of_nat size) B Md s1 m1 k1) as (m2&k2&s2&E2&F2&K2&L2); auto.
  rewrite E2. cbn [bind].
  destruct (fill_tail m dst (val mod 256) (Z.of_nat size) B Md s2 m2 k2) as (m3&E3&F3); auto.
  rewrite E3. cbn [bind]. eauto.
Qed.

Lemma bzero_ok m dst size : mapped m dst (Z.of_nat size) ->
  exists m', replace_bzero m dst size = Ok m' /\ filled m m' dst 0 (Z.of_nat size).
Proof.
  intros Md. unfold replace_bzero. destruct (memset_ok m dst 0 size Md) as (m'&->&F). cbn. eauto.
Qed.

(** wmemset: every element of the range reads back as [val] *)
Lemma wmemset_ok_gen m0 dst val n : mapped m0 dst (4 * n) ->
  forall size m k,
  (forall x, m x = if (dst <=? x) && (x <? dst + 4 * k)
                   then Some ((val / 256 ^ ((x - dst) mod 4)) mod 256) else m0 x) ->
  0 <= k -> k + Z.of_nat size = n ->
  exists m', wmemset_loop size m (dst + 4 * k) val = Ok m' /\
    (forall x, m' x = if (dst <=? x) && (x <? dst + 4 * n)
                   then Some ((val / 256 ^ ((x - dst) mod 4)) mod 256) else m0 x).
Proof.
  intros Md. induction size as [|size IH]; intros m k F K0 Kn; cbn [wmemset_loop].
  - exists m. split; auto. replace n with k by lia. auto.
  - destruct (storen_spec 4 m (dst + 4*k) val) as (m'&->&E).
    { intros x Hx. rewrite F. zcases; try discriminate; apply Md; lia. }
    cbn [bind]. destruct (IH m' (k+1)) as (m2&F1&F2); auto; try lia.
    + intros x. rewrite E, F. change (Z.of_nat 4) with 4. zcases; try lia; auto.
      do 4 f_equal. apply Z.mod_unique with k; lia.
    + exists m2. split; auto. rewrite <- F1. f_equal; lia.
Qed.

Lemma wmemset_ok m dst val count : mapped m dst (4 * Z.of_nat count) ->
  exists m', replace_wmemset m dst val count = Ok (m', dst) /\
    (forall x, m' x = if (dst <=? x) && (x <? dst + 4 * Z.of_nat count)
                   then Some ((val / 256 ^ ((x - dst) mod 4)) mod 256) else m x).
Proof.
  intros Md. unfold replace_wmemset.
  destruct (wmemset_ok_gen m dst val (Z.of_nat count) Md count m 0) as (m'&E&F); try lia.
  - intros x. zcases; auto; lia.
  - rewrite Z.mul_0_r, Z.add_0_r in E. rewrite E. cbn. eauto.
Qed.
