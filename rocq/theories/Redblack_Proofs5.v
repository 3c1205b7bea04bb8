(** The deletion fix-up loop *)
From Verif Require Import Base Redblack_Model Redblack_Proofs1 Redblack_Proofs2 Redblack_Proofs3 Redblack_Proofs4.
Open Scope Z_scope.

(** the doubly black (or red) node: what its parent link and colour read as *)
Lemma Rep_rdx t np K s : Rep t np K s -> (s = E -> np = pid K) ->
  exists n, rd t (rid s) = Ok n /\ red n = isred s /\ par n = pid K.
Proof.
  intros R H. destruct (Rep_rd_any _ _ _ _ R) as (n&E1&C&_&P1&P2). exists n. sp; auto.
  destruct s; [|apply P1; discriminate]. rewrite P2; auto.
Qed.

Lemma Rep_write_black t np K s : Rep t np K s ->
  exists t', wr t (rid s) (w_red false) = Ok t' /\ Rep t' np K (blacken s) /\ same_ctl t t'.
Proof.
  intros R. destruct s as [|i c d l r]; cbn [rid blacken].
  - unfold wr. rewrite (Rep_nil _ _ _ _ R). cbn [bind]. eexists. split; [reflexivity|].
    split; [|ctl]. destruct R as [R1 R2 R3 R4 R5 R6].
    constructor; cbn [heap fresh freed root] in *; auto.
    + eapply repK_frame; [|exact R3]. intros j J. unfold upd_node. destruct (Nat.eqb_spec j NIL); auto.
      subst. rewrite R4. auto.
  - destruct (Rep_color t np K i c d l r false R) as (t'&E1&R1&F1&_). exists t'. sp; auto.
Qed.

(** what the focus must satisfy: a red one is about to be blackened *)
Definition wfB (s : T) (n : nat) : Prop := if isred s then wf (blacken s) (S n) else wf s n.
Definition need (c : bool) : nat := if c then 0%nat else 1%nat.

Lemma fix_exit t np K s n : Rep t np K s -> wfB s n -> (isred s = true \/ K = []) -> wfK K (S n) -> topblack K ->
  exists t' F, wr t (rid s) (w_red false) = Ok t' /\ Rep t' np [] F /\ RBinv F /\ el F = el (plug K s) /\ same_ctl t t'.
Proof.
  intros R W H WK TB. destruct (Rep_write_black _ _ _ _ R) as (t'&E1&R1&S1).
  exists t', (plug K (blacken s)). sp; auto.
  - apply (proj1 (nav_top _ _ _ _)); auto.
  - assert (IB : isred (blacken s) = false) by (destruct s; auto). split.
    + apply isred_plug; auto.
    + unfold wfB in W. destruct (isred s) eqn:IS.
      * apply (wf_plug K _ (S n)); auto.
      * destruct H as [H|H]; [discriminate|]. subst K. exists n. cbn [plug].
        destruct s as [|i c d l r]; auto. cbn in IS; subst c. auto.
  - rewrite !el_plug, el_blacken; auto.
Qed.

(** rb_delete_fixup called on the root *)
Lemma fix_root fuel t np F : (0 < fuel)%nat -> Rep t np [] F -> F <> E -> (exists n, wf F n) \/ (exists n, isred F = true /\ wf (blacken F) n) ->
  exists t' F', rb_delete_fixup fuel t (root t) = Ok t' /\ Rep t' np [] F' /\ RBinv F' /\ el F' = el F /\ same_ctl t t'.
Proof.
  intros L R NE W. destruct fuel as [|fuel]; [lia|]. cbn [rb_delete_fixup].
  destruct (Rep_rd_any _ _ _ _ R) as (n&E1&_). pose proof (R_root _ _ _ _ R) as Q. cbn [rootK] in Q.
  rewrite Q, E1. cbn [bind]. rewrite Nat.eqb_refl. cbn [negb andb].
  destruct (Rep_write_black _ _ _ _ R) as (t'&E2&R2&S2). exists t', (blacken F). sp; auto.
  - split; [destruct F; auto|]. destruct F as [|i c d l r]; [congruence|]. cbn [blacken] in *.
    destruct W as [(m&W)|(m&_&W)]; [|eauto]. destruct c; [exists (S m); cbn in *; tauto|eauto].
  - apply el_blacken.
Qed.

Section DeleteFix.
Variable np : nat.

Lemma tail3_L fuel t K p cp dp wi dw wn ri dr c e s n :
  Rep t np (FL p cp dp (N wi false dw wn (N ri true dr c e)) :: K) s -> (s = E -> np = p) ->
  wf s n -> isred s = false -> wf (N wi false dw wn (N ri true dr c e)) (S n) ->
  (if cp then headred K = false /\ wfK K (S n) else wfK K (S (S n))) -> topblack (FL p cp dp (N wi false dw wn (N ri true dr c e)) :: K) -> (0 < fuel)%nat ->
  exists t' F, (let* nx := rd t (rid s) in
          let* np := rd t (par nx) in
          let* t := wr t wi (w_red (red np)) in
          let* t := wr t (par nx) (w_red false) in
          let* nw := rd t wi in
          let* t := wr t (rgt nw) (w_red false) in
          let* t := rb_left_rotate t (par nx) in
          rb_delete_fixup fuel t (root t)) = Ok t' /\ Rep t' np [] F /\ RBinv F /\
    el F = el (plug (FL p cp dp (N wi false dw wn (N ri true dr c e)) :: K) s) /\ same_ctl t t'.
Proof.
  intros R SN WS IS WW WK TB FU.
  destruct (Rep_rdx _ _ _ _ R) as (nx&E1&C1&P1); [cbn; auto|]. rewrite E1. cbn [bind]. rewrite P1. cbn [pid fid].
  pose proof (up_L _ _ _ _ _ _ _ _ R) as R1. rewrite (Rep_rd _ _ _ _ _ _ _ _ R1). cbn [bind mk red].
  pose proof (dn_R _ _ _ _ _ _ _ _ R1) as R2. recolor R2. apply up_R in R0. recolor R0.
  apply dn_R in R3. rewrite (Rep_rd _ _ _ _ _ _ _ _ R3). cbn [bind mk rgt rid].
  apply dn_R in R3. recolor R3. apply up_R, up_R in R4.
  destruct (rot_left _ _ _ _ _ _ _ _ _ _ _ _ R4) as (t3&E3&R5&F5&G5). rewrite E3. cbn [bind].
  apply (proj1 (nav_top _ _ _ _)) in R5.
  destruct (fix_root fuel t3 np _ FU R5) as (t'&F'&I1&I2&I3&I4&I5).
  { apply plug_not_E. }
  { cbn [wf] in WW. destruct WW as [W1 W2]. cbn [topblack fred] in TB. destruct TB as [TB1 TB2].
    left. destruct cp.
    - destruct WK as [HK WK]. eapply wf_plug; [|exact WK|congruence]. cbn [wf isred]. tauto.
    - eapply wf_plug; [|exact WK|reflexivity]. cbn [wf isred]. tauto. }
  exists t', F'. sp; auto; [|ctl]. rewrite I4. elsolve.
Qed.

Lemma tail3_R fuel t K p cp dp wi dw wn ri dr c e s n :
  Rep t np (FR p cp dp (N wi false dw (N ri true dr c e) wn) :: K) s -> (s = E -> np = p) ->
  wf s n -> isred s = false -> wf (N wi false dw (N ri true dr c e) wn) (S n) ->
  (if cp then headred K = false /\ wfK K (S n) else wfK K (S (S n))) -> topblack (FR p cp dp (N wi false dw (N ri true dr c e) wn) :: K) -> (0 < fuel)%nat ->
  exists t' F, (let* nx := rd t (rid s) in
          let* np := rd t (par nx) in
          let* t := wr t wi (w_red (red np)) in
          let* t := wr t (par nx) (w_red false) in
          let* nw := rd t wi in
          let* t := wr t (lft nw) (w_red false) in
          let* t := rb_right_rotate t (par nx) in
          rb_delete_fixup fuel t (root t)) = Ok t' /\ Rep t' np [] F /\ RBinv F /\
    el F = el (plug (FR p cp dp (N wi false dw (N ri true dr c e) wn) :: K) s) /\ same_ctl t t'.
Proof.
  intros R SN WS IS WW WK TB FU.
  destruct (Rep_rdx _ _ _ _ R) as (nx&E1&C1&P1); [cbn; auto|]. rewrite E1. cbn [bind]. rewrite P1. cbn [pid fid].
  pose proof (up_R _ _ _ _ _ _ _ _ R) as R1. rewrite (Rep_rd _ _ _ _ _ _ _ _ R1). cbn [bind mk red].
  pose proof (dn_L _ _ _ _ _ _ _ _ R1) as R2. recolor R2. apply up_L in R0. recolor R0.
  apply dn_L in R3. rewrite (Rep_rd _ _ _ _ _ _ _ _ R3). cbn [bind mk lft rid].
  apply dn_L in R3. recolor R3. apply up_L, up_L in R4.
  destruct (rot_right _ _ _ _ _ _ _ _ _ _ _ _ R4) as (t3&E3&R5&F5&G5). rewrite E3. cbn [bind].
  apply (proj1 (nav_top _ _ _ _)) in R5.
  destruct (fix_root fuel t3 np _ FU R5) as (t'&F'&I1&I2&I3&I4&I5).
  { apply plug_not_E. }
  { cbn [wf] in WW. destruct WW as [W1 W2]. cbn [topblack fred] in TB. destruct TB as [TB1 TB2].
    left. destruct cp.
    - destruct WK as [HK WK]. eapply wf_plug; [|exact WK|congruence]. cbn [wf isred]. tauto.
    - eapply wf_plug; [|exact WK|reflexivity]. cbn [wf isred]. tauto. }
  exists t', F'. sp; auto; [|ctl]. rewrite I4. elsolve.
Qed.

Lemma tail2_L fuel t K p cp dp wi dw wl wr0 s n :
  (forall K t s n, (length K + need (isred s) < fuel)%nat -> Rep t np K s -> (s = E -> np = pid K) -> wfB s n -> wfK K (S n) -> topblack K ->
    exists t' F, rb_delete_fixup fuel t (rid s) = Ok t' /\ Rep t' np [] F /\ RBinv F /\ el F = el (plug K s) /\ same_ctl t t') ->
  Rep t np (FL p cp dp (N wi false dw wl wr0) :: K) s -> (s = E -> np = p) ->
  wf s n -> isred s = false -> wf (N wi false dw wl wr0) (S n) ->
  (if cp then headred K = false /\ wfK K (S n) else wfK K (S (S n))) -> topblack (FL p cp dp (N wi false dw wl wr0) :: K) ->
  (length K + need cp < fuel)%nat ->
  exists t' F, (
        let* nw := rd t wi in
        let* nl := rd t (lft nw) in
        let* nr := rd t (rgt nw) in
        if negb (red nl) && negb (red nr) then
          let* t := wr t wi (w_red true) in
          let* nx := rd t (rid s) in
          rb_delete_fixup fuel t (par nx)
        else
          let* (t, w) :=
            (if negb (red nr) then
               let* t := wr t (lft nw) (w_red false) in
               let* t := wr t wi (w_red true) in
               let* t := rb_right_rotate t wi in
               let* nx := rd t (rid s) in
               let* np := rd t (par nx) in
               Ok (t, rgt np)
             else Ok (t, wi)) in
          let* nx := rd t (rid s) in
          let* np := rd t (par nx) in
          let* t := wr t w (w_red (red np)) in
          let* t := wr t (par nx) (w_red false) in
          let* nw := rd t w in
          let* t := wr t (rgt nw) (w_red false) in
          let* t := rb_left_rotate t (par nx) in
          rb_delete_fixup fuel t (root t)) = Ok t' /\ Rep t' np [] F /\ RBinv F /\
    el F = el (plug (FL p cp dp (N wi false dw wl wr0) :: K) s) /\ same_ctl t t'.
Proof.
  intros IH R SN WS IS WW WK TB FU.
  pose proof (dn_R _ _ _ _ _ _ _ _ (up_L _ _ _ _ _ _ _ _ R)) as RW.
  rewrite (Rep_rd _ _ _ _ _ _ _ _ RW). cbn [bind mk lft rgt].
  pose proof (dn_L _ _ _ _ _ _ _ _ RW) as RL. pose proof (dn_R _ _ _ _ _ _ _ _ RW) as RR.
  destruct (Rep_rd_any _ _ _ _ RL) as (nl&EL&CL&_). rewrite EL. cbn [bind].
  destruct (Rep_rd_any _ _ _ _ RR) as (nr&ER&CR&_). rewrite ER. cbn [bind]. rewrite CL, CR.
  cbn [wf] in WW. destruct WW as [WL WR].
  destruct (isred wr0) eqn:IF; cbn [negb andb].
  - (* far child red *)
    rewrite ?andb_false_r. cbn [bind].
    destruct wr0 as [|ri cr dr c e]; [discriminate|]. cbn in IF. subst cr.
    apply (tail3_L fuel t K p cp dp wi dw wl ri dr c e s n); auto; try lia. cbn [wf] in *. auto.
  - destruct (isred wl) eqn:IN; cbn [negb andb].
    + (* near child red: rotate at w *)
      destruct wl as [|li cl dl c e]; [discriminate|]. cbn in IN. subst cl. cbn [rid].
      recolor RL. apply up_L in R0. recolor R0.
      destruct (rot_right _ _ _ _ _ _ _ _ _ _ _ _ R1) as (t3&E3&R5&F5&G5). rewrite E3. cbn [bind]. clear E3.
      apply up_R, dn_L in R5.
      destruct (Rep_rdx _ _ _ _ R5) as (nx&E1&C1&P1); [cbn; auto|]. rewrite E1. cbn [bind]. rewrite P1. cbn [pid fid].
      pose proof (up_L _ _ _ _ _ _ _ _ R5) as R6. rewrite (Rep_rd _ _ _ _ _ _ _ _ R6). cbn [bind mk rgt rid].
      destruct (tail3_L fuel t3 K p cp dp li dl c wi dw e wr0 s n) as (t'&F'&I1&I2&I3&I4&I5); auto; try lia.
      { cbn [wf isred] in *. tauto. }
      rewrite E1 in I1. cbn [bind] in I1. rewrite P1 in I1. cbn [pid fid] in I1. 
      rewrite (Rep_rd _ _ _ _ _ _ _ _ R6) in I1. cbn [bind mk red] in I1.
      rewrite E1. cbn [bind]. rewrite P1. cbn [pid fid]. rewrite (Rep_rd _ _ _ _ _ _ _ _ R6). cbn [bind mk red].
      exists t', F'. sp; auto; [|ctl]. rewrite I4. elsolve.
    + (* both black *)
      recolor RW. apply up_R, dn_L in R0.
      destruct (Rep_rdx _ _ _ _ R0) as (nx&E1&C1&P1); [cbn; auto|]. rewrite E1. cbn [bind]. rewrite P1. cbn [pid fid].
      apply up_L in R0.
      cbn [topblack fred] in TB. destruct TB as [TB1 TB2].
      destruct (IH K t0 (N p cp dp s (N wi true dw wl wr0)) (if cp then n else S n)) as (t'&F'&I1&I2&I3&I4&I5); auto; try discriminate.
      { unfold wfB. cbn [isred blacken]. destruct cp; cbn [wf isred]; tauto. }
      { destruct cp; tauto. }
      cbn [rid] in I1. exists t', F'. sp; auto; [|ctl]. rewrite I4. elsolve.
Qed.

Lemma tail2_R fuel t K p cp dp wi dw wl wr0 s n :
  (forall K t s n, (length K + need (isred s) < fuel)%nat -> Rep t np K s -> (s = E -> np = pid K) -> wfB s n -> wfK K (S n) -> topblack K ->
    exists t' F, rb_delete_fixup fuel t (rid s) = Ok t' /\ Rep t' np [] F /\ RBinv F /\ el F = el (plug K s) /\ same_ctl t t') ->
  Rep t np (FR p cp dp (N wi false dw wl wr0) :: K) s -> (s = E -> np = p) ->
  wf s n -> isred s = false -> wf (N wi false dw wl wr0) (S n) ->
  (if cp then headred K = false /\ wfK K (S n) else wfK K (S (S n))) -> topblack (FR p cp dp (N wi false dw wl wr0) :: K) ->
  (length K + need cp < fuel)%nat ->
  exists t' F, (
        let* nw := rd t wi in
        let* nr := rd t (rgt nw) in
        let* nl := rd t (lft nw) in
        if negb (red nr) && negb (red nl) then
          let* t := wr t wi (w_red true) in
          let* nx := rd t (rid s) in
          rb_delete_fixup fuel t (par nx)
        else
          let* (t, w) :=
            (if negb (red nl) then
               let* t := wr t (rgt nw) (w_red false) in
               let* t := wr t wi (w_red true) in
               let* t := rb_left_rotate t wi in
               let* nx := rd t (rid s) in
               let* np := rd t (par nx) in
               Ok (t, lft np)
             else Ok (t, wi)) in
          let* nx := rd t (rid s) in
          let* np := rd t (par nx) in
          let* t := wr t w (w_red (red np)) in
          let* t := wr t (par nx) (w_red false) in
          let* nw := rd t w in
          let* t := wr t (lft nw) (w_red false) in
          let* t := rb_right_rotate t (par nx) in
          rb_delete_fixup fuel t (root t)) = Ok t' /\ Rep t' np [] F /\ RBinv F /\
    el F = el (plug (FR p cp dp (N wi false dw wl wr0) :: K) s) /\ same_ctl t t'.
Proof.
  intros IH R SN WS IS WW WK TB FU.
  pose proof (dn_L _ _ _ _ _ _ _ _ (up_R _ _ _ _ _ _ _ _ R)) as RW.
  rewrite (Rep_rd _ _ _ _ _ _ _ _ RW). cbn [bind mk lft rgt].
  pose proof (dn_L _ _ _ _ _ _ _ _ RW) as RL. pose proof (dn_R _ _ _ _ _ _ _ _ RW) as RR.
  destruct (Rep_rd_any _ _ _ _ RR) as (nr&ER&CR&_). rewrite ER. cbn [bind].
  destruct (Rep_rd_any _ _ _ _ RL) as (nl&EL&CL&_). rewrite EL. cbn [bind]. rewrite CL, CR.
  cbn [wf] in WW. destruct WW as [WL WR].
  destruct (isred wl) eqn:IF; cbn [negb andb].
  - (* far child red *)
    rewrite ?andb_false_r. cbn [bind].
    destruct wl as [|ri cr dr c e]; [discriminate|]. cbn in IF. subst cr.
    apply (tail3_R fuel t K p cp dp wi dw wr0 ri dr c e s n); auto; try lia. cbn [wf] in *. auto.
  - destruct (isred wr0) eqn:IN; cbn [negb andb].
    + (* near child red: rotate at w *)
      destruct wr0 as [|li cl dl c e]; [discriminate|]. cbn in IN. subst cl. cbn [rid].
      recolor RR. apply up_R in R0. recolor R0.
      destruct (rot_left _ _ _ _ _ _ _ _ _ _ _ _ R1) as (t3&E3&R5&F5&G5). rewrite E3. cbn [bind]. clear E3.
      apply up_L, dn_R in R5.
      destruct (Rep_rdx _ _ _ _ R5) as (nx&E1&C1&P1); [cbn; auto|]. rewrite E1. cbn [bind]. rewrite P1. cbn [pid fid].
      pose proof (up_R _ _ _ _ _ _ _ _ R5) as R6. rewrite (Rep_rd _ _ _ _ _ _ _ _ R6). cbn [bind mk lft rid].
      destruct (tail3_R fuel t3 K p cp dp li dl e wi dw wl c s n) as (t'&F'&I1&I2&I3&I4&I5); auto; try lia.
      { cbn [wf isred] in *. tauto. }
      rewrite E1 in I1. cbn [bind] in I1. rewrite P1 in I1. cbn [pid fid] in I1. 
      rewrite (Rep_rd _ _ _ _ _ _ _ _ R6) in I1. cbn [bind mk red] in I1.
      rewrite E1. cbn [bind]. rewrite P1. cbn [pid fid]. rewrite (Rep_rd _ _ _ _ _ _ _ _ R6). cbn [bind mk red].
      exists t', F'. sp; auto; [|ctl]. rewrite I4. elsolve.
    + (* both black *)
      recolor RW. apply up_L, dn_R in R0.
      destruct (Rep_rdx _ _ _ _ R0) as (nx&E1&C1&P1); [cbn; auto|]. rewrite E1. cbn [bind]. rewrite P1. cbn [pid fid].
      apply up_R in R0.
      cbn [topblack fred] in TB. destruct TB as [TB1 TB2].
      destruct (IH K t0 (N p cp dp (N wi true dw wl wr0) s) (if cp then n else S n)) as (t'&F'&I1&I2&I3&I4&I5); auto; try discriminate.
      { unfold wfB. cbn [isred blacken]. destruct cp; cbn [wf isred]; tauto. }
      { destruct cp; tauto. }
      cbn [rid] in I1. exists t', F'. sp; auto; [|ctl]. rewrite I4. elsolve.
Qed.

Lemma delete_fixup_ok : forall fuel K t s n,
  (length K + need (isred s) < fuel)%nat -> Rep t np K s -> (s = E -> np = pid K) ->
  wfB s n -> wfK K (S n) -> topblack K ->
  exists t' F, rb_delete_fixup fuel t (rid s) = Ok t' /\ Rep t' np [] F /\ RBinv F /\
    el F = el (plug K s) /\ same_ctl t t'.
Proof.
  induction fuel as [|fuel IH]; intros K t s n L R SN W WK TB; [lia|].
  cbn [rb_delete_fixup]. destruct (Rep_rdx _ _ _ _ R SN) as (nx&E1&C1&P1). rewrite E1. cbn [bind]. rewrite C1.
  destruct (isred s) eqn:IS.
  { rewrite andb_false_r. eapply fix_exit; eauto. }
  destruct K as [|f K].
  { pose proof (Rep_isroot _ _ _ R) as Q. rewrite Q. cbn [negb andb]. eapply fix_exit; eauto. }
  pose proof (Rep_notroot _ _ _ _ _ R) as Q. rewrite Q. cbn [negb andb]. rewrite P1. cbn [pid].
  unfold wfB in W. rewrite IS in W. cbn [length need] in L.
  cbn [wfK] in WK. destruct WK as [WS WK].
  destruct f as [p cp dp w|p cp dp w]; cbn [sib fred fid pid] in *.
  - destruct w as [|wi cw dw wl wr0]; [cbn in WS; lia|].
    pose proof (up_L _ _ _ _ _ _ _ _ R) as RP. rewrite (Rep_rd _ _ _ _ _ _ _ _ RP). cbn [bind mk lft rgt rid].
    rewrite Nat.eqb_refl.
    pose proof (dn_R _ _ _ _ _ _ _ _ RP) as RW. rewrite (Rep_rd _ _ _ _ _ _ _ _ RW). cbn [bind mk red].
    destruct cw.
    + (* red sibling *)
      destruct cp. { destruct WK as (WK&_). cbn in WK. discriminate. }
      recolor RW. apply up_R in R0. recolor R0.
      destruct (rot_left _ _ _ _ _ _ _ _ _ _ _ _ R1) as (t3&E3&R5&F5&G5). rewrite E3. cbn [bind]. clear E3.
      apply dn_L, dn_L in R5.
      destruct (Rep_rdx _ _ _ _ R5) as (nx2&E2&C2&P2); [cbn; auto|]. rewrite E2. cbn [bind]. rewrite P2. cbn [pid fid].
      pose proof (up_L _ _ _ _ _ _ _ _ R5) as R6. rewrite (Rep_rd _ _ _ _ _ _ _ _ R6). cbn [bind mk rgt].
      cbn [wf] in WS. destruct WS as (IL&IR&WL&WR).
      destruct wl as [|vi cv dv vl vr]; [cbn in WL; lia|]. cbn [isred] in IL. subst cv. cbn [rid].
      destruct (tail2_L fuel t3 (FL wi false dw wr0 :: K) p true dp vi dv vl vr s n) as (t'&F'&I1&I2&I3&I4&I5); auto.
      { cbn [headred fred wfK sib]. auto. }
      { cbn [topblack fred] in *. sp; try tauto; try congruence. }
      { cbn [length need]. lia. }
      exists t', F'. sp; auto; [|ctl]. rewrite I4. elsolve.
    + cbn [bind].
      apply (tail2_L fuel t K p cp dp wi dw wl wr0 s n); auto.
      { destruct cp; tauto. }
      { destruct cp; cbn [need]; lia. }
  - destruct w as [|wi cw dw wl wr0]; [cbn in WS; lia|].
    pose proof (up_R _ _ _ _ _ _ _ _ R) as RP. rewrite (Rep_rd _ _ _ _ _ _ _ _ RP). cbn [bind mk lft rgt rid].
    assert (XN : Nat.eqb (rid s) wi = false).
    { apply Nat.eqb_neq. intros HQ. apply (Rep_sib _ _ _ _ _ _ _ _ RP); [left; discriminate|auto]. }
    rewrite XN.
    pose proof (dn_L _ _ _ _ _ _ _ _ RP) as RW. rewrite (Rep_rd _ _ _ _ _ _ _ _ RW). cbn [bind mk red].
    destruct cw.
    + (* red sibling *)
      destruct cp. { destruct WK as (WK&_). cbn in WK. discriminate. }
      recolor RW. apply up_L in R0. recolor R0.
      destruct (rot_right _ _ _ _ _ _ _ _ _ _ _ _ R1) as (t3&E3&R5&F5&G5). rewrite E3. cbn [bind]. clear E3.
      apply dn_R, dn_R in R5.
      destruct (Rep_rdx _ _ _ _ R5) as (nx2&E2&C2&P2); [cbn; auto|]. rewrite E2. cbn [bind]. rewrite P2. cbn [pid fid].
      pose proof (up_R _ _ _ _ _ _ _ _ R5) as R6. rewrite (Rep_rd _ _ _ _ _ _ _ _ R6). cbn [bind mk lft].
      cbn [wf] in WS. destruct WS as (IL&IR&WL&WR).
      destruct wr0 as [|vi cv dv vl vr]; [cbn in WR; lia|]. cbn [isred] in IR. subst cv. cbn [rid].
      destruct (tail2_R fuel t3 (FR wi false dw wl :: K) p true dp vi dv vl vr s n) as (t'&F'&I1&I2&I3&I4&I5); auto.
      { cbn [headred fred wfK sib]. auto. }
      { cbn [topblack fred] in *. sp; try tauto; try congruence. }
      { cbn [length need]. lia. }
      exists t', F'. sp; auto; [|ctl]. rewrite I4. elsolve.
    + cbn [bind].
      apply (tail2_R fuel t K p cp dp wi dw wl wr0 s n); auto.
      { destruct cp; tauto. }
      { destruct cp; cbn [need]; lia. }
Qed.
End DeleteFix.
