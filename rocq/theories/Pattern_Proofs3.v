(** Proofs about elision. *)
From Verif Require Import Base Pattern_Model Pattern_Spec.
Require Import Lia.
Local Open Scope Z_scope.

Section E.
Variable rzs : Z.
Hypothesis RZ : 0 < rzs.
Variable l : list instr.
Variable v : nat -> Z -> Z.
Hypothesis VO : values_ok l v.
Hypothesis KB : keeps_base l.

(** a check that stands for a displacement *)
Definition has (ks : list (nat * Z * Z)) (b val e : Z) : Prop :=
  exists m, In (m, b, e) ks /\ v m b = val.
Definition cov (ks : list (nat * Z * Z)) (b val d : Z) : Prop :=
  exists e1 e2, has ks b val e1 /\ has ks b val e2 /\ e1 <= d <= e2 /\ e2 - e1 <= rzs.
Definition good (n : nat) (ks : list (nat * Z * Z)) (b : Z) (x : info) : Prop :=
  (at_ x < n)%nat /\ In (at_ x, b, disp x) ks /\ v (at_ x) b = v n b /\
  forall t, In t ks -> fst (fst t) = at_ x -> t = (at_ x, b, disp x).
Definition cinv (n : nat) (ks : list (nat * Z * Z)) (b : Z) (cv : cover) : Prop :=
  match cv with
  | CNone => True
  | CLeft x => good n ks b x
  | CBoth x y => good n ks b x /\ good n ks b y /\ disp x < disp y
  end.
Definition inv (n : nat) (k : block) : Prop :=
  (forall b, cinv n (kept k) b (covers k b)) /\
  (forall m b e, In (m, b, e) (kept k) -> (m < n)%nat) /\
  (forall j i b d, (j < n)%nat -> nth_error l j = Some i -> In (Simple b d) (refs i) ->
     cov (kept k) b (v j b) d).

Lemma has_incl : forall ks ks' b val e, incl ks ks' -> has ks b val e -> has ks' b val e.
Proof. intros ks ks' b val e I0 (m & H1 & H2). exists m; auto. Qed.
Lemma cov_incl : forall ks ks' b val d, incl ks ks' -> cov ks b val d -> cov ks' b val d.
Proof.
  intros ks ks' b val d I0 (e1 & e2 & H1 & H2 & H3). exists e1, e2.
  repeat split; try lia; eapply has_incl; eauto.
Qed.
Lemma cov_self : forall ks b val d, has ks b val d -> cov ks b val d.
Proof. intros ks b val d H. exists d, d. repeat split; auto; lia. Qed.

Lemma in_remove : forall ks x t,
  In t (remove_check ks x) <-> In t ks /\ fst (fst t) <> at_ x.
Proof.
  intros. unfold remove_check. rewrite filter_In, negb_true_iff, Nat.eqb_neq. tauto.
Qed.

(** checks after one is taken out *)
Lemma has_remove : forall n ks b x b' val e,
  good n ks b x -> has ks b' val e ->
  (b' = b /\ e = disp x /\ val = v n b) \/ has (remove_check ks x) b' val e.
Proof.
  intros n ks b x b' val e (A & B & C0 & D) (m & H1 & H2).
  destruct (Nat.eq_dec m (at_ x)) as [E|E].
  - left. pose proof (D _ H1 E) as T. inversion T; subst. auto.
  - right. exists m. split; auto. apply in_remove. auto.
Qed.

(** the new check [d] takes the place of [x], with [y] on the other side *)
Lemma cov_replace : forall n ks b x y d b' val e ks',
  good n ks b x -> good n ks b y -> disp x <> disp y ->
  incl (remove_check ks x) ks' -> has ks' b (v n b) d ->
  ((d < disp x < disp y /\ disp y - d <= rzs) \/ (disp y < disp x < d /\ d - disp y <= rzs)) ->
  cov ks b' val e -> cov ks' b' val e.
Proof.
  intros n ks b x y d b' val e ks' GX GY NE IN HD SH (e1 & e2 & H1 & H2 & H3 & H4).
  assert (HY : has ks' b (v n b) (disp y)).
  { destruct GY as (A & B & C0 & D). exists (at_ y). split; auto. apply IN, in_remove.
    split; auto. cbn. intros E. destruct GX as (_ & _ & _ & DX).
    pose proof (DX _ B E) as T. inversion T. congruence. }
  assert (K : forall f, has ks b' val f ->
     (b' = b /\ f = disp x /\ val = v n b) \/ has ks' b' val f).
  { intros f Hf. destruct (has_remove _ _ _ _ _ _ _ GX Hf) as [?|Q]; auto.
    right. eapply has_incl; eauto. }
  destruct (K _ H1) as [(E1 & F1 & G1)|N1]; destruct (K _ H2) as [(E2 & F2 & G2)|N2].
  - subst. destruct SH as [SH|SH].
    + exists d, (disp y). repeat split; auto; lia.
    + exists (disp y), d. repeat split; auto; lia.
  - subst. destruct SH as [SH|SH].
    + destruct (Z_le_gt_dec e (disp y)).
      * exists d, (disp y). repeat split; auto; lia.
      * exists (disp y), e2. repeat split; auto; lia.
    + destruct (Z_le_gt_dec e d).
      * exists (disp y), d. repeat split; auto; lia.
      * exists d, e2. repeat split; auto; lia.
  - subst. destruct SH as [SH|SH].
    + destruct (Z_le_gt_dec d e).
      * exists d, (disp y). repeat split; auto; lia.
      * exists e1, d. repeat split; auto; lia.
    + destruct (Z_le_gt_dec (disp y) e).
      * exists (disp y), d. repeat split; auto; lia.
      * exists e1, (disp y). repeat split; auto; lia.
  - exists e1, e2. repeat split; auto; lia.
Qed.

Lemma good_keep : forall n ks ks' b x,
  good n ks b x -> v (S n) b = v n b ->
  (forall t, In t ks' -> In t ks \/ fst (fst t) = n) -> In (at_ x, b, disp x) ks' ->
  good (S n) ks' b x.
Proof.
  intros n ks ks' b x (A & B & C0 & D) V I1 I2. repeat split; auto; try congruence; try lia.
  intros t T E. destruct (I1 t T) as [T'|T']; auto. lia.
Qed.

Lemma add_in : forall n r ks t,
  In t (add_checks n r ks) -> In t ks \/ fst (fst t) = n.
Proof.
  intros n r ks t H. unfold add_checks in H. apply in_app_or in H as [H|H]; auto.
  right. apply in_flat_map in H as (q & _ & H). destruct q; cbn in H; [|contradiction].
  destruct H as [H|[]]. subst. reflexivity.
Qed.
Lemma add_incl : forall n r ks, incl ks (add_checks n r ks).
Proof. intros n r ks t H. unfold add_checks. apply in_or_app; auto. Qed.
Lemma add_own : forall n r ks b d, In (Simple b d) r -> In (n, b, d) (add_checks n r ks).
Proof.
  intros. unfold add_checks. apply in_or_app. right. apply in_flat_map.
  exists (Simple b d). split; auto. cbn. auto.
Qed.

Lemma upd_regs : forall n i k b,
  inv n k -> nth_error l n = Some i ->
  cinv n (kept k) b (update_regs (covers k) (writes i) b) /\
  (update_regs (covers k) (writes i) b <> CNone -> v (S n) b = v n b).
Proof.
  intros n i k b (A & _) N. unfold update_regs.
  destruct (existsb (Z.eqb b) (writes i)) eqn:E; cbn.
  - split; auto. congruence.
  - split; auto. intros _. apply (VO n i); auto. intros Q.
    assert (existsb (Z.eqb b) (writes i) = true) by (apply existsb_exists; exists b; split; auto; lia).
    congruence.
Qed.

Lemma in_remove_other : forall n ks b x y,
  good n ks b x -> good n ks b y -> disp x <> disp y ->
  In (at_ y, b, disp y) (remove_check ks x).
Proof.
  intros n ks b x y (_ & _ & _ & DX) (_ & B & _) NE. apply in_remove. split; auto. cbn.
  intros E. pose proof (DX _ B E) as T. inversion T. congruence.
Qed.
Lemma in_remove_reg : forall n ks b x b' y,
  good n ks b x -> good n ks b' y -> b <> b' ->
  In (at_ y, b', disp y) (remove_check ks x).
Proof.
  intros n ks b x b' y (_ & _ & _ & DX) (_ & B & _) NE. apply in_remove. split; auto. cbn.
  intros E. pose proof (DX _ B E) as T. inversion T. congruence.
Qed.

(** the last step of an instruction with checks: [ks] is what is left of the
    earlier ones *)
Lemma finish : forall n i k ks cv,
  inv n k -> nth_error l n = Some i -> incl ks (kept k) ->
  (forall b val d, cov (kept k) b val d -> cov (add_checks n (refs i) ks) b val d) ->
  (forall b, cinv (S n) (add_checks n (refs i) ks) b (cv b)) ->
  inv (S n) (Block cv (add_checks n (refs i) ks)).
Proof.
  intros n i k ks cv (A & B & C0) N IN COV CI. split; [|split]; cbn [kept covers].
  - exact CI.
  - intros m b e H. apply add_in in H as [H|H].
    + apply IN in H. apply B in H. lia.
    + cbn in H. lia.
  - intros j i' b d J N' R. destruct (Nat.eq_dec j n) as [->|NE].
    + rewrite N in N'. inversion N'; subst i'. apply cov_self. exists n. split; auto.
      apply add_own; auto.
    + apply COV. eapply C0; eauto. lia.
Qed.

Lemma inv_step : forall n i k, inv n k -> nth_error l n = Some i -> inv (S n) (instrument rzs n i k).
Proof.
  intros n i k II N. unfold instrument.
  set (cv := update_regs (covers k) (writes i)).
  assert (CV : forall b, cinv n (kept k) b (cv b) /\ (cv b <> CNone -> v (S n) b = v n b))
    by (intros b; apply upd_regs; auto).
  (* nothing added *)
  assert (SAME : forall b, cinv (S n) (kept k) b (cv b)).
  { intros b. destruct (CV b) as [A B]. destruct (cv b) as [|x|x y]; cbn in *; auto.
    - eapply good_keep; eauto; [apply B; congruence | apply A].
    - destruct A as (A1 & A2 & A3). split; [|split]; auto;
      eapply good_keep; eauto; try (apply B; congruence); [apply A1 | apply A2]. }
  (* nothing taken out *)
  assert (MORE : forall b, cinv (S n) (add_checks n (refs i) (kept k)) b (cv b)).
  { intros b. destruct (CV b) as [A B]. destruct (cv b) as [|x|x y]; cbn in *; auto.
    - eapply good_keep; eauto; [apply B; congruence | apply add_in | apply add_incl, A].
    - destruct A as (A1 & A2 & A3). split; [|split]; auto;
      (eapply good_keep; eauto; [apply B; congruence | apply add_in | apply add_incl];
       [apply A1 || apply A2]). }
  assert (EMPTY : forall r, refs i = r -> (forall b d, In (Simple b d) r -> cov (kept k) b (v n b) d) ->
     inv (S n) (Block cv (kept k))).
  { intros r R C. destruct II as (A & B & C0). split; [|split]; cbn [covers kept]; auto.
    - intros m b e H. apply B in H. lia.
    - intros j i' b d J N' Q. destruct (Nat.eq_dec j n) as [->|NE].
      + rewrite N in N'. inversion N'; subst i'. apply C. congruence.
      + eapply C0; eauto. lia. }
  assert (MULTI : inv (S n) (Block cv (add_checks n (refs i) (kept k)))).
  { apply finish with k; auto; [apply incl_refl|]. intros. eapply cov_incl; eauto. apply add_incl. }
  destruct (refs i) as [|r0 rest] eqn:R.
  { apply EMPTY with []; auto. intros b d []. }
  rewrite <- R in *.
  destruct (ignored rzs cv (refs i)) eqn:IG.
  { (* covered by the checks that are there *)
    apply EMPTY with (refs i); auto. intros b d H. rewrite R in IG, H. unfold ignored in IG.
    destruct r0 as [b0 d0|]; [|discriminate]. destruct rest; [|discriminate].
    destruct H as [H|[]]. inversion H; subst b0 d0; clear H.
    destruct (CV b) as [A _]. destruct (cv b) as [|x|x y]; cbn in A; try discriminate.
    - apply Z.eqb_eq in IG. subst d. apply cov_self. exists (at_ x). destruct A as (_ & A & E & _); auto.
    - destruct A as ((_ & X1 & X2 & _) & (_ & Y1 & Y2 & _) & _).
      apply orb_true_iff in IG as [IG|IG]; [apply orb_true_iff in IG as [IG|IG]|].
      + apply Z.eqb_eq in IG. subst d. apply cov_self. exists (at_ x). auto.
      + apply Z.eqb_eq in IG. subst d. apply cov_self. exists (at_ y). auto.
      + rewrite !andb_true_iff in IG. destruct IG as ((I1 & I2) & I3).
        exists (disp x), (disp y). repeat split; try lia; [exists (at_ x)|exists (at_ y)]; auto. }
  destruct r0 as [b d|]; [destruct rest as [|r1 rest]|].
  2: { rewrite R. cbn [covers kept]. rewrite <- R. exact MULTI. }
  2: { rewrite R. cbn [covers kept]. rewrite <- R. exact MULTI. }
  rewrite R. cbn [covers kept]. rewrite <- R.
  assert (NW : v (S n) b = v n b).
  { apply (VO n i); auto. apply (KB i b d); auto. eapply nth_error_In; eauto. }
  assert (OWN : forall ks, In (n, b, d) (add_checks n (refs i) ks)).
  { intros ks. apply add_own. rewrite R. cbn; auto. }
  assert (ME : forall ks, incl ks (kept k) -> good (S n) (add_checks n (refs i) ks) b (Info d n)).
  { intros ks IN. repeat split; cbn [at_ disp]; auto.
    intros t T E. unfold add_checks in T. apply in_app_or in T as [T|T].
    - apply IN in T. destruct II as (_ & B & _). destruct t as ((m & b1) & e1). apply B in T. cbn in E. lia.
    - rewrite R in T. cbn in T. destruct T as [T|[]]. auto. }
  assert (OLD : forall b' x, good n (kept k) b' x -> v (S n) b' = v n b' ->
     good (S n) (add_checks n (refs i) (kept k)) b' x).
  { intros b' x G V. eapply good_keep; eauto; [apply add_in|]. apply add_incl, G. }
  assert (OLDR : forall b' x z, good n (kept k) b z -> good n (kept k) b' x ->
     (b <> b' \/ (b = b' /\ disp z <> disp x)) -> v (S n) b' = v n b' ->
     good (S n) (add_checks n (refs i) (remove_check (kept k) z)) b' x).
  { intros b' x z GZ G NE V. eapply good_keep; eauto.
    - intros t T. apply add_in in T as [T|T]; auto. apply in_remove in T as [T _]. auto.
    - apply add_incl. destruct NE as [NE|[-> NE]].
      + eapply in_remove_reg; eauto.
      + eapply in_remove_other; eauto. }
  assert (RI : forall z, incl (remove_check (kept k) z) (kept k)).
  { intros z t T. apply in_remove in T. apply T. }
  (* with a new cover for [b] and nothing taken out *)
  assert (PLAIN : forall x, cinv (S n) (add_checks n (refs i) (kept k)) b x ->
    inv (S n) (Block (fun r => if r =? b then x else cv r) (add_checks n (refs i) (kept k)))).
  { intros x X. apply finish with k; auto; [apply incl_refl| |].
    - intros. eapply cov_incl; eauto. apply add_incl.
    - intros b'. destruct (Z.eqb_spec b' b) as [->|NB]; auto. }
  (* with one taken out *)
  assert (OUT : forall z y x, good n (kept k) b z -> good n (kept k) b y -> disp z <> disp y ->
    ((d < disp z < disp y /\ disp y - d <= rzs) \/ (disp y < disp z < d /\ d - disp y <= rzs)) ->
    cinv (S n) (add_checks n (refs i) (remove_check (kept k) z)) b x ->
    inv (S n) (Block (fun r => if r =? b then x else cv r)
                     (add_checks n (refs i) (remove_check (kept k) z)))).
  { intros z y x GZ GY NE SH X. apply finish with k; auto.
    - intros b' val e C. eapply (cov_replace n (kept k) b z y d); eauto.
      + apply add_incl.
      + exists n. auto.
    - intros b'. destruct (Z.eqb_spec b' b) as [->|NB]; auto.
      destruct (CV b') as [A B]. destruct (cv b') as [|p|p q]; cbn in *; auto.
      + apply OLDR; auto. apply B; congruence.
      + destruct A as (A1 & A2 & A3).
        split; [|split]; auto; apply OLDR; auto; apply B; congruence. }
  unfold update_checks. cbn [covers kept].
  destruct (CV b) as [A B].
  destruct (cv b) as [|x|x y] eqn:CB; cbn in A.
  - cbn [covers kept]. apply PLAIN. cbn. apply ME, incl_refl.
  - assert (NE : disp x <> d).
    { rewrite R in IG. cbn in IG. rewrite CB in IG. apply Z.eqb_neq in IG. auto. }
    destruct (Z.ltb_spec (disp x) d); cbn [covers kept]; apply PLAIN; cbn.
    + split; [|split]; auto. apply ME, incl_refl.
    + split; [|split]; auto; [apply ME, incl_refl|cbn; lia].
  - destruct A as (GX & GY & LT).
    assert (NE : disp x <> d /\ disp y <> d /\ (disp y - disp x > rzs \/ d < disp x \/ disp y < d)).
    { rewrite R in IG. cbn in IG. rewrite CB in IG.
      apply orb_false_iff in IG as [IG I3]. apply orb_false_iff in IG as [I1 I2].
      split; [lia|]. split; [lia|].
      destruct (Z_le_gt_dec (disp y - disp x) rzs); [|lia].
      destruct (Z_lt_ge_dec (disp x) d); [|lia]. destruct (Z_lt_ge_dec d (disp y)); [|lia].
      exfalso. assert (T : (disp y - disp x <=? rzs) && (disp x <? d) && (d <? disp y) = true)
        by (rewrite !andb_true_iff; lia). congruence. }
    assert (MK : good (S n) (add_checks n (refs i) (kept k)) b (Info d n)) by (apply ME, incl_refl).
    destruct (Z.ltb_spec d (disp x)).
    { destruct (Z.leb_spec (disp y - d) rzs); cbn [covers kept].
      - apply OUT with y; auto; try lia. cbn. split; [|split]; [apply ME, RI|apply OLDR; auto; right; split; auto; lia|cbn; lia].
      - apply PLAIN. cbn. split; [|split]; auto. }
    destruct (Z.ltb_spec (disp y) d).
    { destruct (Z.leb_spec (d - disp x) rzs); cbn [covers kept].
      - apply OUT with x; auto; try lia. cbn. split; [|split]; [apply OLDR; auto; right; split; auto; lia|apply ME, RI|cbn; lia].
      - apply PLAIN. cbn. split; [|split]; auto. }
    destruct (Z.leb_spec (disp y - d) (d - disp x)).
    + destruct (Z.leb_spec (d - disp x) rzs); cbn [covers kept]; apply PLAIN; cbn; split; [|split| |split]; auto; cbn; lia.
    + destruct (Z.leb_spec (disp y - d) rzs); cbn [covers kept]; apply PLAIN; cbn; split; [|split| |split]; auto; cbn; lia.
Qed.

Lemma inv_all : forall r n k, inv n k -> (forall j, nth_error r j = nth_error l (n + j)) ->
  inv (n + List.length r) (instrument_all rzs n r k).
Proof.
  induction r as [|i r IH]; intros n k H E; cbn [instrument_all List.length].
  - rewrite Nat.add_0_r. exact H.
  - replace (n + S (List.length r))%nat with (S n + List.length r)%nat by lia.
    apply IH.
    + apply inv_step; auto. specialize (E 0%nat). cbn in E. rewrite Nat.add_0_r in E. auto.
    + intros j. specialize (E (S j)). cbn in E. rewrite E. f_equal. lia.
Qed.

Lemma elide_guarded : guarded rzs l v (elide rzs l).
Proof.
  intros n i b d lo hi N R SZ LO.
  assert (I0 : inv 0 (Block (fun _ => CNone) [])).
  { split; [|split]; cbn; auto; intros; try contradiction; lia. }
  destruct (inv_all l 0 _ I0 (fun j => eq_refl)) as (_ & _ & C).
  cbn [Nat.add] in C.
  assert (L : (n < List.length l)%nat) by (apply nth_error_Some; congruence).
  destruct (C n i b d L N R) as (e1 & e2 & (m1 & M1 & V1) & (m2 & M2 & V2) & D1 & D2).
  fold (elide rzs l) in M1, M2.
  destruct (Z_le_gt_dec lo (v n b + e1)).
  - exists m1, e1. split; auto. lia.
  - destruct (Z_lt_ge_dec (v n b + e2) hi).
    + exists m2, e2. split; auto. lia.
    + exfalso. lia.
Qed.
End E.

(** the checks that remain are those of references of the block *)
Lemma kept_incl : forall rzs n i k t,
  In t (kept (instrument rzs n i k)) ->
  In t (kept k) \/ (exists b d, t = (n, b, d) /\ In (Simple b d) (refs i)).
Proof.
  intros rzs n i k t. unfold instrument.
  assert (ADD : forall ks, incl ks (kept k) -> In t (add_checks n (refs i) ks) ->
    In t (kept k) \/ (exists b d, t = (n, b, d) /\ In (Simple b d) (refs i))).
  { intros ks IN H. unfold add_checks in H. apply in_app_or in H as [H|H]; auto.
    right. apply in_flat_map in H as (q & Q & H). destruct q as [b d|]; cbn in H; [|contradiction].
    destruct H as [H|[]]. eauto. }
  assert (RI : forall z, incl (remove_check (kept k) z) (kept k)).
  { intros z u T. unfold remove_check in T. apply filter_In in T. apply T. }
  destruct (refs i) as [|r0 rest] eqn:R; [cbn; auto|]. rewrite <- R in *.
  destruct (ignored _ _ _); [cbn; auto|]. cbn [covers kept]. apply ADD.
  destruct r0 as [b d|]; [destruct rest|]; try apply incl_refl.
  unfold update_checks. cbn [covers kept].
  destruct (update_regs (covers k) (writes i) b); try apply incl_refl.
  - destruct (_ <? _); apply incl_refl.
  - repeat match goal with |- context [if ?x then _ else _] => destruct x end;
      cbn [kept]; try apply incl_refl; apply RI.
Qed.
Lemma kept_all : forall rzs r n k t,
  In t (kept (instrument_all rzs n r k)) ->
  In t (kept k) \/ (exists j i b d, nth_error r j = Some i /\ t = ((n + j)%nat, b, d) /\ In (Simple b d) (refs i)).
Proof.
  induction r as [|i r IH]; intros n k t H; cbn [instrument_all] in H; auto.
  apply IH in H as [H|(j & i' & b & d & A & B & C)].
  - apply kept_incl in H as [H|(b & d & A & B)]; auto.
    right. exists 0%nat, i, b, d. rewrite Nat.add_0_r. auto.
  - right. exists (S j), i', b, d. split; auto. split; auto. rewrite B. replace (n + S j)%nat with (S n + j)%nat by lia. reflexivity.
Qed.
Lemma elide_real : forall rzs l m b d,
  In (m, b, d) (elide rzs l) -> exists i, nth_error l m = Some i /\ In (Simple b d) (refs i).
Proof.
  intros rzs l m b d H. apply kept_all in H as [H|(j & i & b' & d' & A & B & C)].
  - contradiction.
  - cbn in B. inversion B; subst. eauto.
Qed.
