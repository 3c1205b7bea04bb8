(** rotations on represented configurations *)
From Verif Require Import Base Redblack_Model Redblack_Proofs1 Redblack_Proofs2.
Open Scope Z_scope.

Lemma rid_cases t : rid t = NIL \/ In (rid t) (ids t).
Proof. destruct t; [left; auto|right; left; auto]. Qed.
Lemma pid_cases K : pid K = NIL \/ In (pid K) (idsK K).
Proof. destruct K as [|f K]; [left; auto|right; apply pid_in; discriminate]. Qed.

Lemma rep_get h p t n0 : rep h p t -> h NIL = Some n0 -> mx n0 = 0 -> exists n, h (rid t) = Some n /\ mx n = 0.
Proof. destruct t; cbn; intros H1 H2 H3; [eauto|]. destruct H1 as [H1 _]. rewrite H1. eexists; split; [reflexivity|reflexivity]. Qed.
Lemma repK_get h i K n0 : repK h i K -> h NIL = Some n0 -> exists n, h (pid K) = Some n.
Proof. destruct K as [|[] K]; cbn; intros H1 H2; [eauto|destruct H1 as [H1 _]; eauto..]. Qed.

(** all the separation facts of a node with one inner node *)
Ltac dis := let EQ := fresh in intros EQ;
  repeat match goal with
  | H : context [rid ?t] |- _ => idtac
  end;
  repeat match type of EQ with
  | context [rid ?t] => lazymatch goal with
       | H : rid t = NIL |- _ => fail
       | H : In (rid t) (ids t) |- _ => fail
       | _ => destruct (rid_cases t) end
  | context [pid ?t] => lazymatch goal with
       | H : pid t = NIL |- _ => fail
       | H : In (pid t) (idsK t) |- _ => fail
       | _ => destruct (pid_cases t) end
  end;
  solve [ congruence | exfalso; rewrite ?EQ in *; eauto ; congruence | exfalso; rewrite <- ?EQ in *; eauto; congruence | exfalso; eauto ].

Lemma rot_left t np K x c d a y c2 d2 b e : Rep t np K (N x c d a (N y c2 d2 b e)) ->
  exists t', rb_left_rotate t x = Ok t' /\ Rep t' np K (N y c2 d2 (N x c d a b) e) /\
    fresh t' = fresh t /\ freed t' = freed t.
Proof.
  intros [R1 R2 R3 R4 R5 R6]. cbn [rid pid rep] in *.
  destruct R2 as (Hx&Ra&Hy&Rb&Re).
  assert (ND : NoDup (x :: y :: ids a ++ ids b ++ ids e ++ idsK K)).
  { eapply NoDup_perm; [|exact R5]. cnt. }
  assert (NZ : forall j, In j (x :: y :: ids a ++ ids b ++ ids e ++ idsK K) -> j <> NIL /\ (j < fresh t)%nat).
  { intros j J. apply R6. eapply In_perm; [|exact J]. cnt. }
  inversion ND as [|? ? X0 ND1]; subst. inversion ND1 as [|? ? Y0 ND2]; subst.
  apply nd_app in ND2. destruct ND2 as (NDa&ND3&Da). apply nd_app in ND3. destruct ND3 as (NDb&ND4&Db).
  apply nd_app in ND4. destruct ND4 as (NDe&NDK&De).
  assert (xy : x <> y) by (intros ->; apply X0; left; auto).
  assert (xz : x <> NIL) by (apply NZ; left; auto).
  assert (yz : y <> NIL) by (apply NZ; right; left; auto).
  assert (xa : ~ In x (ids a)) by (intros J; apply X0; right; rewrite !in_app_iff; auto).
  assert (xb : ~ In x (ids b)) by (intros J; apply X0; right; rewrite !in_app_iff; auto).
  assert (xe : ~ In x (ids e)) by (intros J; apply X0; right; rewrite !in_app_iff; auto).
  assert (xK : ~ In x (idsK K)) by (intros J; apply X0; right; rewrite !in_app_iff; auto).
  assert (ya : ~ In y (ids a)) by (intros J; apply Y0; rewrite !in_app_iff; auto).
  assert (yb : ~ In y (ids b)) by (intros J; apply Y0; rewrite !in_app_iff; auto).
  assert (ye : ~ In y (ids e)) by (intros J; apply Y0; rewrite !in_app_iff; auto).
  assert (yK : ~ In y (idsK K)) by (intros J; apply Y0; rewrite !in_app_iff; auto).
  assert (za : ~ In NIL (ids a)) by (intros J; apply (NZ NIL); auto; right; right; rewrite !in_app_iff; auto).
  assert (zb : ~ In NIL (ids b)) by (intros J; apply (NZ NIL); auto; right; right; rewrite !in_app_iff; auto).
  assert (ze : ~ In NIL (ids e)) by (intros J; apply (NZ NIL); auto; right; right; rewrite !in_app_iff; auto).
  assert (zK : ~ In NIL (idsK K)) by (intros J; apply (NZ NIL); auto; right; right; rewrite !in_app_iff; auto).
  assert (ab : forall j, In j (ids a) -> In j (ids b) -> False) by (intros j A B; apply (Da j A); rewrite !in_app_iff; auto).
  assert (ae : forall j, In j (ids a) -> In j (ids e) -> False) by (intros j A B; apply (Da j A); rewrite !in_app_iff; auto).
  assert (aK : forall j, In j (ids a) -> In j (idsK K) -> False) by (intros j A B; apply (Da j A); rewrite !in_app_iff; auto).
  assert (be : forall j, In j (ids b) -> In j (ids e) -> False) by (intros j A B; apply (Db j A); rewrite !in_app_iff; auto).
  assert (bK : forall j, In j (ids b) -> In j (idsK K) -> False) by (intros j A B; apply (Db j A); rewrite !in_app_iff; auto).
  assert (eK : forall j, In j (ids e) -> In j (idsK K) -> False) by (intros j A B; apply (De j A); auto).
  destruct (rep_get _ _ _ _ Ra R4 eq_refl) as (na&Ha&Ma).
  destruct (rep_get _ _ _ _ Rb R4 eq_refl) as (nb&Hb&Mb).
  destruct (rep_get _ _ _ _ Re R4 eq_refl) as (ne&He&Me).
  destruct (repK_get _ _ _ _ R3 R4) as (npp&Hp).
  destruct (left_rotate_raw t x y (pid K) c d c2 d2 (rid a) (rid b) (rid e) na nb ne npp) as (t'&Et&HH&RR&FF&GG); auto;
    try dis.
  { intros NB. split; dis. }
  { intros NB. repeat split; dis. }
  exists t'. split; auto. split; [|auto].
  constructor; cbn [rid rep].
  - rewrite RR. destruct K as [|f K]; cbn [pid]; [reflexivity|].
    assert (fid f <> NIL) by (intros Z0; apply zK; rewrite <- Z0; apply (pid_in (f :: K)); discriminate).
    destruct (Nat.eqb_spec (fid f) NIL); [congruence|]. auto.
  - assert (Oth : forall j, j <> x -> j <> y -> j <> rid b \/ rid b = NIL -> j <> pid K \/ pid K = NIL -> heap t' j = heap t j).
    { intros j J1 J2 J3 J4. rewrite HH. unfold rot_heap.
      destruct (Nat.eqb_spec j x); [congruence|]. destruct (Nat.eqb_spec j y); [congruence|].
      destruct (Nat.eqb_spec j (rid b)); destruct (Nat.eqb_spec (rid b) NIL); cbn [andb negb]; try tauto;
      destruct (Nat.eqb_spec j (pid K)); destruct (Nat.eqb_spec (pid K) NIL); cbn [andb negb]; tauto. }
    repeat split.
    + rewrite HH. unfold rot_heap. destruct (Nat.eqb_spec y x); [congruence|]. rewrite Nat.eqb_refl. reflexivity.
    + rewrite HH. unfold rot_heap. rewrite Nat.eqb_refl. reflexivity.
    + eapply rep_frame; [|exact Ra]. intros j J. apply Oth.
      * congruence. * congruence.
      * destruct (rid_cases b); auto. left. intros ->. eauto.
      * destruct (pid_cases K); auto. left. intros ->. eauto.
    + eapply rep_par; [exact Rb| | |auto|auto].
      * intros j J Jn. apply Oth; try congruence; auto.
        destruct (pid_cases K); auto. left. intros ->. eauto.
      * destruct (Nat.eqb_spec (rid b) NIL); auto. rewrite HH. unfold rot_heap.
        destruct (rid_cases b); [congruence|].
        destruct (Nat.eqb_spec (rid b) x); [congruence|]. destruct (Nat.eqb_spec (rid b) y); [congruence|].
        rewrite Nat.eqb_refl. destruct (Nat.eqb_spec (rid b) NIL); [congruence|]. reflexivity.
    + eapply rep_frame; [|exact Re]. intros j J. apply Oth.
      * congruence. * congruence.
      * destruct (rid_cases b); auto. left. intros ->. eauto.
      * destruct (pid_cases K); auto. left. intros ->. eauto.
  - eapply repK_relink; [exact R3|auto| | | |auto|auto].
    + intros j J Jn. rewrite HH. unfold rot_heap.
      destruct (Nat.eqb_spec j x); [congruence|]. destruct (Nat.eqb_spec j y); [congruence|].
      destruct (Nat.eqb_spec j (rid b)) as [->|]; cbn [andb].
      { destruct (rid_cases b) as [Z0|Z0]; [rewrite Z0 in J; tauto|]. exfalso; eauto. }
      destruct (Nat.eqb_spec j (pid K)); [congruence|]. reflexivity.
    + destruct (Nat.eqb_spec (pid K) NIL); auto. destruct (pid_cases K); [congruence|].
      rewrite HH. unfold rot_heap.
      destruct (Nat.eqb_spec (pid K) x); [congruence|]. destruct (Nat.eqb_spec (pid K) y); [congruence|].
      destruct (Nat.eqb_spec (pid K) (rid b)) as [EQ|]; cbn [andb].
      { destruct (rid_cases b) as [Z0|Z0]; [congruence|]. exfalso. rewrite <- EQ in Z0. eauto. }
      rewrite Nat.eqb_refl. destruct (Nat.eqb_spec (pid K) NIL); [congruence|]. reflexivity.
    + intros f K' -> i c0 d0 l -> EQ. destruct (rid_cases l) as [Z0|Z0]; [congruence|].
      apply xK. rewrite <- EQ. cbn. right. apply in_or_app; auto.
  - rewrite HH. unfold rot_heap.
    destruct (Nat.eqb_spec NIL x); [congruence|]. destruct (Nat.eqb_spec NIL y); [congruence|].
    assert (A1 : Nat.eqb NIL (rid b) && negb (Nat.eqb (rid b) NIL) = false).
    { destruct (Nat.eqb_spec NIL (rid b)) as [<-|]; reflexivity. }
    assert (A2 : Nat.eqb NIL (pid K) && negb (Nat.eqb (pid K) NIL) = false).
    { destruct (Nat.eqb_spec NIL (pid K)) as [<-|]; reflexivity. }
    rewrite A1, A2. auto.
  - eapply NoDup_perm; [|exact R5]. cnt.
  - rewrite FF. intros j J. apply R6. eapply In_perm; [|exact J]. cnt.
Qed.

Lemma rot_right t np K x c d a y c2 d2 b e : Rep t np K (N x c d (N y c2 d2 e b) a) ->
  exists t', rb_right_rotate t x = Ok t' /\ Rep t' np K (N y c2 d2 e (N x c d b a)) /\
    fresh t' = fresh t /\ freed t' = freed t.
Proof.
  intros [R1 R2 R3 R4 R5 R6]. cbn [rid pid rep] in *.
  destruct R2 as (Hx&(Hy&Re&Rb)&Ra).
  assert (ND : NoDup (x :: y :: ids a ++ ids b ++ ids e ++ idsK K)).
  { eapply NoDup_perm; [|exact R5]. cnt. }
  assert (NZ : forall j, In j (x :: y :: ids a ++ ids b ++ ids e ++ idsK K) -> j <> NIL /\ (j < fresh t)%nat).
  { intros j J. apply R6. eapply In_perm; [|exact J]. cnt. }
  inversion ND as [|? ? X0 ND1]; subst. inversion ND1 as [|? ? Y0 ND2]; subst.
  apply nd_app in ND2. destruct ND2 as (NDa&ND3&Da). apply nd_app in ND3. destruct ND3 as (NDb&ND4&Db).
  apply nd_app in ND4. destruct ND4 as (NDe&NDK&De).
  assert (xy : x <> y) by (intros ->; apply X0; left; auto).
  assert (xz : x <> NIL) by (apply NZ; left; auto).
  assert (yz : y <> NIL) by (apply NZ; right; left; auto).
  assert (xa : ~ In x (ids a)) by (intros J; apply X0; right; rewrite !in_app_iff; auto).
  assert (xb : ~ In x (ids b)) by (intros J; apply X0; right; rewrite !in_app_iff; auto).
  assert (xe : ~ In x (ids e)) by (intros J; apply X0; right; rewrite !in_app_iff; auto).
  assert (xK : ~ In x (idsK K)) by (intros J; apply X0; right; rewrite !in_app_iff; auto).
  assert (ya : ~ In y (ids a)) by (intros J; apply Y0; rewrite !in_app_iff; auto).
  assert (yb : ~ In y (ids b)) by (intros J; apply Y0; rewrite !in_app_iff; auto).
  assert (ye : ~ In y (ids e)) by (intros J; apply Y0; rewrite !in_app_iff; auto).
  assert (yK : ~ In y (idsK K)) by (intros J; apply Y0; rewrite !in_app_iff; auto).
  assert (za : ~ In NIL (ids a)) by (intros J; apply (NZ NIL); auto; right; right; rewrite !in_app_iff; auto).
  assert (zb : ~ In NIL (ids b)) by (intros J; apply (NZ NIL); auto; right; right; rewrite !in_app_iff; auto).
  assert (ze : ~ In NIL (ids e)) by (intros J; apply (NZ NIL); auto; right; right; rewrite !in_app_iff; auto).
  assert (zK : ~ In NIL (idsK K)) by (intros J; apply (NZ NIL); auto; right; right; rewrite !in_app_iff; auto).
  assert (ab : forall j, In j (ids a) -> In j (ids b) -> False) by (intros j A B; apply (Da j A); rewrite !in_app_iff; auto).
  assert (ae : forall j, In j (ids a) -> In j (ids e) -> False) by (intros j A B; apply (Da j A); rewrite !in_app_iff; auto).
  assert (aK : forall j, In j (ids a) -> In j (idsK K) -> False) by (intros j A B; apply (Da j A); rewrite !in_app_iff; auto).
  assert (be : forall j, In j (ids b) -> In j (ids e) -> False) by (intros j A B; apply (Db j A); rewrite !in_app_iff; auto).
  assert (bK : forall j, In j (ids b) -> In j (idsK K) -> False) by (intros j A B; apply (Db j A); rewrite !in_app_iff; auto).
  assert (eK : forall j, In j (ids e) -> In j (idsK K) -> False) by (intros j A B; apply (De j A); auto).
  destruct (rep_get _ _ _ _ Ra R4 eq_refl) as (na&Ha&Ma).
  destruct (rep_get _ _ _ _ Rb R4 eq_refl) as (nb&Hb&Mb).
  destruct (rep_get _ _ _ _ Re R4 eq_refl) as (ne&He&Me).
  destruct (repK_get _ _ _ _ R3 R4) as (npp&Hp).
  destruct (right_rotate_raw t x y (pid K) c d c2 d2 (rid a) (rid b) (rid e) na nb ne npp) as (t'&Et&HH&RR&FF&GG); auto;
    try dis.
  { intros NB. split; dis. }
  { intros NB. repeat split; dis. }
  exists t'. split; auto. split; [|auto].
  constructor; cbn [rid rep].
  - rewrite RR. destruct K as [|f K]; cbn [pid]; [reflexivity|].
    assert (fid f <> NIL) by (intros Z0; apply zK; rewrite <- Z0; apply (pid_in (f :: K)); discriminate).
    destruct (Nat.eqb_spec (fid f) NIL); [congruence|]. auto.
  - assert (Oth : forall j, j <> x -> j <> y -> j <> rid b \/ rid b = NIL -> j <> pid K \/ pid K = NIL -> heap t' j = heap t j).
    { intros j J1 J2 J3 J4. rewrite HH. unfold rot_heap.
      destruct (Nat.eqb_spec j x); [congruence|]. destruct (Nat.eqb_spec j y); [congruence|].
      destruct (Nat.eqb_spec j (rid b)); destruct (Nat.eqb_spec (rid b) NIL); cbn [andb negb]; try tauto;
      destruct (Nat.eqb_spec j (pid K)); destruct (Nat.eqb_spec (pid K) NIL); cbn [andb negb]; tauto. }
    repeat split.
    + rewrite HH. unfold rot_heap. destruct (Nat.eqb_spec y x); [congruence|]. rewrite Nat.eqb_refl. reflexivity.
    + eapply rep_frame; [|exact Re]. intros j J. apply Oth.
      * congruence. * congruence.
      * destruct (rid_cases b); auto. left. intros ->. eauto.
      * destruct (pid_cases K); auto. left. intros ->. eauto.
    + rewrite HH. unfold rot_heap. rewrite Nat.eqb_refl. reflexivity.
    + eapply rep_par; [exact Rb| | |auto|auto].
      * intros j J Jn. apply Oth; try congruence; auto.
        destruct (pid_cases K); auto. left. intros ->. eauto.
      * destruct (Nat.eqb_spec (rid b) NIL); auto. rewrite HH. unfold rot_heap.
        destruct (rid_cases b); [congruence|].
        destruct (Nat.eqb_spec (rid b) x); [congruence|]. destruct (Nat.eqb_spec (rid b) y); [congruence|].
        rewrite Nat.eqb_refl. destruct (Nat.eqb_spec (rid b) NIL); [congruence|]. reflexivity.
    + eapply rep_frame; [|exact Ra]. intros j J. apply Oth.
      * congruence. * congruence.
      * destruct (rid_cases b); auto. left. intros ->. eauto.
      * destruct (pid_cases K); auto. left. intros ->. eauto.
  - eapply repK_relink; [exact R3|auto| | | |auto|auto].
    + intros j J Jn. rewrite HH. unfold rot_heap.
      destruct (Nat.eqb_spec j x); [congruence|]. destruct (Nat.eqb_spec j y); [congruence|].
      destruct (Nat.eqb_spec j (rid b)) as [->|]; cbn [andb].
      { destruct (rid_cases b) as [Z0|Z0]; [rewrite Z0 in J; tauto|]. exfalso; eauto. }
      destruct (Nat.eqb_spec j (pid K)); [congruence|]. reflexivity.
    + destruct (Nat.eqb_spec (pid K) NIL); auto. destruct (pid_cases K); [congruence|].
      rewrite HH. unfold rot_heap.
      destruct (Nat.eqb_spec (pid K) x); [congruence|]. destruct (Nat.eqb_spec (pid K) y); [congruence|].
      destruct (Nat.eqb_spec (pid K) (rid b)) as [EQ|]; cbn [andb].
      { destruct (rid_cases b) as [Z0|Z0]; [congruence|]. exfalso. rewrite <- EQ in Z0. eauto. }
      rewrite Nat.eqb_refl. destruct (Nat.eqb_spec (pid K) NIL); [congruence|]. reflexivity.
    + intros f K' -> i c0 d0 l -> EQ. destruct (rid_cases l) as [Z0|Z0]; [congruence|].
      apply xK. rewrite <- EQ. cbn. right. apply in_or_app; auto.
  - rewrite HH. unfold rot_heap.
    destruct (Nat.eqb_spec NIL x); [congruence|]. destruct (Nat.eqb_spec NIL y); [congruence|].
    assert (A1 : Nat.eqb NIL (rid b) && negb (Nat.eqb (rid b) NIL) = false).
    { destruct (Nat.eqb_spec NIL (rid b)) as [<-|]; reflexivity. }
    assert (A2 : Nat.eqb NIL (pid K) && negb (Nat.eqb (pid K) NIL) = false).
    { destruct (Nat.eqb_spec NIL (pid K)) as [<-|]; reflexivity. }
    rewrite A1, A2. auto.
  - eapply NoDup_perm; [|exact R5]. cnt.
  - rewrite FF. intros j J. apply R6. eapply In_perm; [|exact J]. cnt.
Qed.
