(** colour invariants and the insertion fix-up loop *)
From Verif Require Import Base Redblack_Model Redblack_Proofs1 Redblack_Proofs2 Redblack_Proofs3.
Open Scope Z_scope.

(** black height [n], no red node with a red child *)
Fixpoint wf (t : T) (n : nat) : Prop :=
  match t with
  | E => n = O
  | N _ c _ l r =>
      if c then isred l = false /\ isred r = false /\ wf l n /\ wf r n
      else match n with O => False | S m => wf l m /\ wf r m end
  end.
Definition fred (f : frame) : bool := match f with FL _ c _ _ => c | FR _ c _ _ => c end.
Definition headred (K : list frame) : bool := match K with [] => false | f :: _ => fred f end.
Definition sib (f : frame) : T := match f with FL _ _ _ r => r | FR _ _ _ l => l end.
(** context that accepts a hole of black height [n] *)
Fixpoint wfK (K : list frame) (n : nat) : Prop :=
  match K with
  | [] => True
  | f :: K' => wf (sib f) n /\
      (if fred f then isred (sib f) = false /\ headred K' = false /\ wfK K' n else wfK K' (S n))
  end.
Fixpoint topblack (K : list frame) : Prop :=
  match K with [] => True | f :: K' => (K' = [] -> fred f = false) /\ topblack K' end.

Definition RBinv (t : T) : Prop := isred t = false /\ exists n, wf t n.

(** in-order list of (address, data) *)
Fixpoint el (t : T) : list (nat * data) :=
  match t with E => [] | N i _ d l r => el l ++ (i, d) :: el r end.
Fixpoint elL (K : list frame) : list (nat * data) :=
  match K with [] => [] | FL _ _ _ _ :: K => elL K | FR i _ d l :: K => elL K ++ el l ++ [(i, d)] end.
Fixpoint elR (K : list frame) : list (nat * data) :=
  match K with [] => [] | FL i _ d r :: K => (i, d) :: el r ++ elR K | FR _ _ _ _ :: K => elR K end.
Lemma el_plug K : forall s, el (plug K s) = elL K ++ el s ++ elR K.
Proof.
  induction K as [|f K IH]; intros s; cbn [plug elL elR]; [rewrite app_nil_r; auto|].
  destruct f; rewrite IH; cbn [el]; rewrite <- ?app_assoc; cbn; rewrite <- ?app_assoc; auto.
Qed.

Lemma wf_plug K : forall s n, wf s n -> wfK K n -> (headred K = true -> isred s = false) ->
  exists n', wf (plug K s) n'.
Proof.
  induction K as [|f K IH]; intros s n W C H; cbn [plug]; [eauto|].
  cbn [wfK] in C. destruct C as [C1 C2]. destruct f as [i c d r|i c d l]; cbn [sib fred headred] in *;
  destruct c; (destruct C2 as (C2&C3&C4)|| idtac).
  - apply (IH _ n); cbn [wf isred]; auto; try congruence; try tauto.
  - apply (IH _ (S n)); cbn [wf isred]; auto; try congruence; try tauto.
  - apply (IH _ n); cbn [wf isred]; auto; try congruence; try tauto.
  - apply (IH _ (S n)); cbn [wf isred]; auto; try congruence; try tauto.
Qed.
Lemma isred_plug K : forall s, topblack K -> (K = [] -> isred s = false) -> isred (plug K s) = false.
Proof.
  induction K as [|f K IH]; intros s B H; cbn [plug]; auto.
  destruct B as [B1 B2]. destruct f; apply IH; auto.
Qed.
(** decompose a well-formed tree at any position *)
Lemma plug_wf K : forall s n', wf (plug K s) n' -> isred (plug K s) = false ->
  exists n, wf s n /\ wfK K n /\ (headred K = true -> isred s = false) /\ topblack K /\ (K = [] -> isred s = false).
Proof.
  induction K as [|f K IH]; intros s n' W B; cbn [plug wfK headred topblack] in *.
  - exists n'. repeat split; auto; discriminate.
  - destruct f as [i c d r|i c d l]; destruct (IH _ _ W B) as (n&W1&W2&W3&W4&W5); cbn [wf isred sib fred] in *.
    + destruct c.
      * destruct W1 as (A1&A2&A3&A4). exists n. repeat split; auto; try discriminate.
        destruct (headred K); auto; discriminate W3; auto.
      * destruct n as [|n]; [contradiction|]. destruct W1. exists n. repeat split; auto; discriminate.
    + destruct c.
      * destruct W1 as (A1&A2&A3&A4). exists n. repeat split; auto; try discriminate.
        destruct (headred K); auto; discriminate W3; auto.
      * destruct n as [|n]; [contradiction|]. destruct W1. exists n. repeat split; auto; discriminate.
Qed.

(** ---- pointer comparisons ---- *)
Lemma rootK_in K : forall i, K <> [] -> In (rootK i K) (idsK K).
Proof.
  induction K as [|f K IH]; intros i H; [congruence|]. cbn [rootK idsK]. destruct K as [|g K].
  - cbn. destruct f; left; auto.
  - apply in_or_app. right. apply IH. discriminate.
Qed.
Lemma Rep_notroot t np f K s : Rep t np (f :: K) s -> Nat.eqb (rid s) (root t) = false.
Proof.
  intros R. apply Nat.eqb_neq. rewrite (R_root _ _ _ _ R). intros Q.
  assert (I : In (rootK (rid s) (f :: K)) (idsK (f :: K))) by (apply rootK_in; discriminate).
  rewrite <- Q in I. destruct (rid_cases s) as [Z0|Z0].
  - rewrite Z0 in I. apply (R_lt _ _ _ _ R NIL); auto. apply in_or_app; auto.
  - pose proof (R_nd _ _ _ _ R) as ND. apply nd_app in ND. destruct ND as (_&_&D). eauto.
Qed.
Lemma Rep_isroot t np s : Rep t np [] s -> Nat.eqb (rid s) (root t) = true.
Proof. intros R. apply Nat.eqb_eq. symmetry. apply (R_root _ _ _ _ R). Qed.
Lemma Rep_sib t np K i c d l r : Rep t np K (N i c d l r) -> (l <> E \/ r <> E) -> rid l <> rid r.
Proof.
  intros R H Q. pose proof (R_nd _ _ _ _ R) as ND. cbn [ids app] in ND. inversion ND; subst.
  rewrite <- app_assoc in H3. apply nd_app in H3. destruct H3 as (_&_&D).
  assert (NZ : forall j, In j (ids l ++ ids r) -> j <> NIL).
  { intros j J. apply (R_lt _ _ _ _ R j). right. cbn. apply in_or_app. auto. }
  destruct (rid_cases l) as [A|A]; destruct (rid_cases r) as [B|B].
  - destruct H; [destruct l|destruct r]; try congruence; cbn in *; eapply NZ; eauto; rewrite ?in_app_iff; cbn; eauto.
  - eapply (NZ (rid r)); rewrite ?in_app_iff; auto. congruence.
  - eapply (NZ (rid l)); rewrite ?in_app_iff; auto. congruence.
  - apply (D (rid l) A). apply in_or_app. left. congruence.
Qed.

Ltac sp := repeat match goal with |- _ /\ _ => split end.
Lemma up_L t np K i c d l r : Rep t np (FL i c d r :: K) l -> Rep t np K (N i c d l r).
Proof. apply nav_L. Qed.
Lemma up_R t np K i c d l r : Rep t np (FR i c d l :: K) r -> Rep t np K (N i c d l r).
Proof. apply nav_R. Qed.
Lemma dn_L t np K i c d l r : Rep t np K (N i c d l r) -> Rep t np (FL i c d r :: K) l.
Proof. apply nav_L. Qed.
Lemma dn_R t np K i c d l r : Rep t np K (N i c d l r) -> Rep t np (FR i c d l :: K) r.
Proof. apply nav_R. Qed.

Definition same_ctl (t t' : tree) : Prop := fresh t' = fresh t /\ freed t' = freed t.
Ltac ctl := unfold same_ctl in *; sp; intuition congruence.

Definition blacken (t : T) : T := match t with E => E | N i _ d l r => N i false d l r end.
Lemma el_blacken t : el (blacken t) = el t. Proof. destruct t; auto. Qed.
Lemma wf_blacken t n : isred t = true -> wf t n -> wf (blacken t) (S n).
Proof. destruct t; cbn; [discriminate|]. intros ->. tauto. Qed.

(** the loop exit: tree->root->color = BLACK *)
Lemma root_blacken t np F : Rep t np [] F -> F <> E ->
  exists t', wr t (root t) (w_red false) = Ok t' /\ Rep t' np [] (blacken F) /\ same_ctl t t'.
Proof.
  intros R NE. rewrite (R_root _ _ _ _ R). cbn [rootK]. destruct F as [|i c d l r]; [congruence|].
  destruct (Rep_write t np [] i c d l r false d (w_red false) R) as (t'&E1&R1&F1&F2&_); [reflexivity|].
  exists t'. sp; auto. ctl.
Qed.

Lemma plug_not_E K : forall i c d l r, plug K (N i c d l r) <> E.
Proof. induction K as [|f K IH]; intros; cbn; [discriminate|]. destruct f; apply IH. Qed.

Lemma Rep_color t np K i c d l r c' : Rep t np K (N i c d l r) ->
  exists t', wr t i (w_red c') = Ok t' /\ Rep t' np K (N i c' d l r) /\ same_ctl t t' /\ root t' = root t.
Proof.
  intros R. destruct (Rep_write t np K i c d l r c' d (w_red c') R) as (t'&E1&R1&F1&F2&F3); [reflexivity|].
  exists t'. sp; auto. ctl.
Qed.

(** recolour the focus [R], rewriting the goal *)
Ltac recolor R := 
  let t' := fresh "t" in let E1 := fresh "E" in let R' := fresh "R" in let F1 := fresh "SC" in
  match goal with |- context [wr ?t ?i (w_red ?c)] =>
    destruct (Rep_color t _ _ i _ _ _ _ c R) as (t'&E1&R'&F1&_); rewrite E1; cbn [bind]; clear E1 end.
Ltac elsolve := rewrite ?el_plug; cbn [el elL elR app]; rewrite <- ?app_assoc; cbn [app]; rewrite <- ?app_assoc; cbn [app]; rewrite <- ?app_assoc; reflexivity.

Section InsertFix.
Variable np0 : nat.
Lemma insert_fix_ok : forall fuel K t x dx a b n,
  (length K < fuel)%nat ->
  Rep t np0 K (N x true dx a b) -> wf (N x true dx a b) n -> wfK K n -> topblack K ->
  exists t' F, insert_fix fuel t x = Ok t' /\ Rep t' np0 [] F /\ RBinv F /\
    el F = el (plug K (N x true dx a b)) /\ same_ctl t t'.
Proof.
  induction fuel as [|fuel IH]; intros K t x dx a b n L R W WK TB; [lia|].
  cbn [insert_fix]. rewrite (Rep_rd _ _ _ _ _ _ _ _ R). cbn [bind mk par].
  destruct K as [|f K].
  { (* x is the root *)
    cbn [pid]. rewrite (Rep_nil _ _ _ _ R). cbn [bind].
    pose proof (Rep_isroot _ _ _ R) as Q. cbn [rid] in Q. rewrite Q. cbn [negb andb].
    destruct (root_blacken t np0 _ R) as (t'&E1&R1&S1); [discriminate|].
    exists t', (blacken (N x true dx a b)). sp; auto. split; auto.
    exists (S n). apply (wf_blacken (N x true dx a b)); auto. }
  pose proof (Rep_notroot _ _ _ _ _ R) as Q. cbn [rid] in Q. rewrite Q. cbn [negb andb].
  destruct (fred f) eqn:FR.
  2:{ (* black parent *)
    assert (exists npn, rd t (pid (f :: K)) = Ok npn /\ red npn = false) as (npn&E0&C0).
    { destruct f as [p cp dp pr|p cp dp pl]; cbn in FR; subst cp; cbn [pid fid].
      - rewrite (Rep_rd _ _ _ _ _ _ _ _ (up_L _ _ _ _ _ _ _ _ R)). eexists; split; reflexivity.
      - rewrite (Rep_rd _ _ _ _ _ _ _ _ (up_R _ _ _ _ _ _ _ _ R)). eexists; split; reflexivity. }
    rewrite E0. cbn [bind]. rewrite C0.
    apply nav_top in R.
    assert (NE : plug (f :: K) (N x true dx a b) <> E) by apply plug_not_E.
    destruct (root_blacken t np0 _ R NE) as (t'&E1&R1&S1).
    exists t', (blacken (plug (f :: K) (N x true dx a b))).
    assert (IB : isred (plug (f :: K) (N x true dx a b)) = false) by (apply isred_plug; auto; discriminate).
    destruct (wf_plug (f :: K) _ _ W WK) as (n'&Wn); [cbn [headred]; congruence|].
    rewrite el_blacken. sp; auto. split.
    - destruct (plug _ _); auto.
    - exists n'. destruct (plug (f :: K) (N x true dx a b)) as [|j cj dj lj rj]; auto.
      cbn in IB. subst cj. auto. }
  (* red parent: there is a black grandparent *)
  destruct K as [|g K]. { destruct TB as [TB _]. rewrite TB in FR; auto. discriminate. }
  cbn [wfK] in WK. rewrite FR in WK. destruct WK as (WS&SB&HR&WG&WK).
  cbn [headred] in HR. rewrite HR in WK. destruct TB as [_ TB]. destruct TB as [_ TB].
  cbn [wf] in W. destruct W as (Ra&Rb&Wa&Wb).
  destruct f as [p cp dp pr|p cp dp pl]; cbn in FR; subst cp;
  destruct g as [g cg dg u|g cg dg u]; cbn [fred sib] in *; subst cg.
  - (* x L of p, p L of g *)
    pose proof (up_L _ _ _ _ _ _ _ _ R) as R1. pose proof (up_L _ _ _ _ _ _ _ _ R1) as R2.
    pose proof (dn_R _ _ _ _ _ _ _ _ R2) as RU.
    cbn [pid fid]. rewrite (Rep_rd _ _ _ _ _ _ _ _ R1). cbn [bind mk par red pid fid].
    rewrite (Rep_rd _ _ _ _ _ _ _ _ R2). cbn [bind mk lft rgt rid].
    rewrite Nat.eqb_refl.
    destruct (Rep_rd_any _ _ _ _ RU) as (nu&EU&CU&_). rewrite EU. cbn [bind]. rewrite CU.
    destruct (isred u) eqn:IU.
    + destruct u as [|u cu du ul ur]; [discriminate|]. cbn in IU. subst cu. cbn [rid].
      destruct (Nat.eqb_spec u NIL) as [U0|U0]; [exfalso; eapply (Rep_nz _ _ _ _ _ _ _ _ RU); auto|]. cbn [negb andb].
      recolor R1. apply up_L, dn_R in R0. recolor R0. apply up_R in R3. recolor R3.
      destruct (IH K t2 g dg (N p false dp (N x true dx a b) pr) (N u false du ul ur) (S n)) as (t'&F'&I1&I2&I3&I4&I5);
        cbn [length] in L; try lia; auto.
      { cbn [wf isred] in *. tauto. }
      exists t', F'. sp; auto; [|ctl]. rewrite I4. elsolve.
    + rewrite andb_false_r.
      assert (XN : Nat.eqb x (rid pr) = false).
      { apply Nat.eqb_neq. apply (Rep_sib _ _ _ _ _ _ _ _ R1). left; discriminate. }
      rewrite XN. cbn [bind]. rewrite (Rep_rd _ _ _ _ _ _ _ _ R). cbn [bind mk par pid fid].
      recolor R1. rewrite (Rep_rd _ _ _ _ _ _ _ _ R0). cbn [bind mk par pid fid].
      apply up_L in R0. recolor R0.
      destruct (rot_right _ _ _ _ _ _ _ _ _ _ _ _ R3) as (t2&E2&R4&F4&F5). rewrite E2. cbn [bind].
      apply dn_L in R4.
      destruct (IH (FL p false dp (N g true dg pr u) :: K) t2 x dx a b n) as (t'&F'&I1&I2&I3&I4&I5); cbn [length] in *; auto; try lia.
      { cbn [wf]. auto. }
      { cbn [wfK sib fred wf isred]. auto. }
      { cbn [topblack fred]. auto. }
      exists t', F'. sp; auto; [|ctl]. rewrite I4. elsolve.
  - (* x L of p, p R of g *)
    pose proof (up_L _ _ _ _ _ _ _ _ R) as R1. pose proof (up_R _ _ _ _ _ _ _ _ R1) as R2.
    pose proof (dn_L _ _ _ _ _ _ _ _ R2) as RU.
    cbn [pid fid]. rewrite (Rep_rd _ _ _ _ _ _ _ _ R1). cbn [bind mk par red pid fid].
    rewrite (Rep_rd _ _ _ _ _ _ _ _ R2). cbn [bind mk lft rgt rid].
    assert (PN : Nat.eqb p (rid u) = false).
    { apply Nat.eqb_neq. intros HQ. apply (Rep_sib _ _ _ _ _ _ _ _ R2); [right; discriminate|auto]. }
    rewrite PN.
    destruct (Rep_rd_any _ _ _ _ RU) as (nu&EU&CU&_). rewrite EU. cbn [bind]. rewrite CU.
    destruct (isred u) eqn:IU.
    + destruct u as [|u cu du ul ur]; [discriminate|]. cbn in IU. subst cu. cbn [rid].
      destruct (Nat.eqb_spec u NIL) as [U0|U0]; [exfalso; eapply (Rep_nz _ _ _ _ _ _ _ _ RU); auto|]. cbn [negb andb].
      recolor R1. apply up_R, dn_L in R0. recolor R0. apply up_L in R3. recolor R3.
      destruct (IH K t2 g dg (N u false du ul ur) (N p false dp (N x true dx a b) pr) (S n)) as (t'&F'&I1&I2&I3&I4&I5);
        cbn [length] in L; try lia; auto.
      { cbn [wf isred] in *. tauto. }
      exists t', F'. sp; auto; [|ctl]. rewrite I4. elsolve.
    + rewrite andb_false_r. rewrite Nat.eqb_refl.
      destruct (rot_right _ _ _ _ _ _ _ _ _ _ _ _ R1) as (t1&E1&R3&F3&G3). rewrite E1. cbn [bind]. clear E1.
      pose proof (dn_R _ _ _ _ _ _ _ _ R3) as R5. rewrite (Rep_rd _ _ _ _ _ _ _ _ R5). cbn [bind mk par pid fid].
      recolor R3. rewrite (Rep_rd _ _ _ _ _ _ _ _ R0). cbn [bind mk par pid fid].
      apply up_R in R0. recolor R0.
      destruct (rot_left _ _ _ _ _ _ _ _ _ _ _ _ R4) as (t3&E2&R6&F6&G6). rewrite E2. cbn [bind].
      apply dn_R in R6.
      destruct (IH (FR x false dx (N g true dg u a) :: K) t3 p dp b pr n) as (t'&F'&I1&I2&I3&I4&I5); cbn [length] in *; auto; try lia.
      { cbn [wf]. auto. }
      { cbn [wfK sib fred wf isred]. auto. }
      { cbn [topblack fred]. auto. }
      exists t', F'. sp; auto; [|ctl]. rewrite I4. elsolve.
  - (* x R of p, p L of g *)
    pose proof (up_R _ _ _ _ _ _ _ _ R) as R1. pose proof (up_L _ _ _ _ _ _ _ _ R1) as R2.
    pose proof (dn_R _ _ _ _ _ _ _ _ R2) as RU.
    cbn [pid fid]. rewrite (Rep_rd _ _ _ _ _ _ _ _ R1). cbn [bind mk par red pid fid].
    rewrite (Rep_rd _ _ _ _ _ _ _ _ R2). cbn [bind mk lft rgt rid].
    rewrite Nat.eqb_refl.
    destruct (Rep_rd_any _ _ _ _ RU) as (nu&EU&CU&_). rewrite EU. cbn [bind]. rewrite CU.
    destruct (isred u) eqn:IU.
    + destruct u as [|u cu du ul ur]; [discriminate|]. cbn in IU. subst cu. cbn [rid].
      destruct (Nat.eqb_spec u NIL) as [U0|U0]; [exfalso; eapply (Rep_nz _ _ _ _ _ _ _ _ RU); auto|]. cbn [negb andb].
      recolor R1. apply up_L, dn_R in R0. recolor R0. apply up_R in R3. recolor R3.
      destruct (IH K t2 g dg (N p false dp pl (N x true dx a b)) (N u false du ul ur) (S n)) as (t'&F'&I1&I2&I3&I4&I5);
        cbn [length] in L; try lia; auto.
      { cbn [wf isred] in *. tauto. }
      exists t', F'. sp; auto; [|ctl]. rewrite I4. elsolve.
    + rewrite andb_false_r. rewrite Nat.eqb_refl.
      destruct (rot_left _ _ _ _ _ _ _ _ _ _ _ _ R1) as (t1&E1&R3&F3&G3). rewrite E1. cbn [bind]. clear E1.
      pose proof (dn_L _ _ _ _ _ _ _ _ R3) as R5. rewrite (Rep_rd _ _ _ _ _ _ _ _ R5). cbn [bind mk par pid fid].
      recolor R3. rewrite (Rep_rd _ _ _ _ _ _ _ _ R0). cbn [bind mk par pid fid].
      apply up_L in R0. recolor R0.
      destruct (rot_right _ _ _ _ _ _ _ _ _ _ _ _ R4) as (t3&E2&R6&F6&G6). rewrite E2. cbn [bind].
      apply dn_L in R6.
      destruct (IH (FL x false dx (N g true dg b u) :: K) t3 p dp pl a n) as (t'&F'&I1&I2&I3&I4&I5); cbn [length] in *; auto; try lia.
      { cbn [wf]. auto. }
      { cbn [wfK sib fred wf isred]. auto. }
      { cbn [topblack fred]. auto. }
      exists t', F'. sp; auto; [|ctl]. rewrite I4. elsolve.
  - (* x R of p, p R of g *)
    pose proof (up_R _ _ _ _ _ _ _ _ R) as R1. pose proof (up_R _ _ _ _ _ _ _ _ R1) as R2.
    pose proof (dn_L _ _ _ _ _ _ _ _ R2) as RU.
    cbn [pid fid]. rewrite (Rep_rd _ _ _ _ _ _ _ _ R1). cbn [bind mk par red pid fid].
    rewrite (Rep_rd _ _ _ _ _ _ _ _ R2). cbn [bind mk lft rgt rid].
    assert (PN : Nat.eqb p (rid u) = false).
    { apply Nat.eqb_neq. intros HQ. apply (Rep_sib _ _ _ _ _ _ _ _ R2); [right; discriminate|auto]. }
    rewrite PN.
    destruct (Rep_rd_any _ _ _ _ RU) as (nu&EU&CU&_). rewrite EU. cbn [bind]. rewrite CU.
    destruct (isred u) eqn:IU.
    + destruct u as [|u cu du ul ur]; [discriminate|]. cbn in IU. subst cu. cbn [rid].
      destruct (Nat.eqb_spec u NIL) as [U0|U0]; [exfalso; eapply (Rep_nz _ _ _ _ _ _ _ _ RU); auto|]. cbn [negb andb].
      recolor R1. apply up_R, dn_L in R0. recolor R0. apply up_L in R3. recolor R3.
      destruct (IH K t2 g dg (N u false du ul ur) (N p false dp pl (N x true dx a b)) (S n)) as (t'&F'&I1&I2&I3&I4&I5);
        cbn [length] in L; try lia; auto.
      { cbn [wf isred] in *. tauto. }
      exists t', F'. sp; auto; [|ctl]. rewrite I4. elsolve.
    + rewrite andb_false_r.
      assert (XN : Nat.eqb x (rid pl) = false).
      { apply Nat.eqb_neq. intros HQ. apply (Rep_sib _ _ _ _ _ _ _ _ R1); [right; discriminate|auto]. }
      rewrite XN. cbn [bind]. rewrite (Rep_rd _ _ _ _ _ _ _ _ R). cbn [bind mk par pid fid].
      recolor R1. rewrite (Rep_rd _ _ _ _ _ _ _ _ R0). cbn [bind mk par pid fid].
      apply up_R in R0. recolor R0.
      destruct (rot_left _ _ _ _ _ _ _ _ _ _ _ _ R3) as (t2&E2&R4&F4&F5). rewrite E2. cbn [bind].
      apply dn_R in R4.
      destruct (IH (FR p false dp (N g true dg u pl) :: K) t2 x dx a b n) as (t'&F'&I1&I2&I3&I4&I5); cbn [length] in *; auto; try lia.
      { cbn [wf]. auto. }
      { cbn [wfK sib fred wf isred]. auto. }
      { cbn [topblack fred]. auto. }
      exists t', F'. sp; auto; [|ctl]. rewrite I4. elsolve.
Qed.
End InsertFix.
