(** rb_delete on represented trees *)
From Coq Require Import Sorting.Sorted.
From Verif Require Import Base Redblack_Model Redblack_Proofs1 Redblack_Proofs2 Redblack_Proofs3 Redblack_Proofs4 Redblack_Proofs5 Redblack_Proofs6 Redblack_Proofs7 Redblack_Proofs8.
Open Scope Z_scope.

Lemma plug_app K1 : forall K2 s, plug (K1 ++ K2) s = plug K2 (plug K1 s).
Proof. induction K1 as [|f K1 IH]; intros K2 s; cbn; auto. destruct f; auto. Qed.
Lemma nav_app t np K1 : forall K2 s, Rep t np (K1 ++ K2) s <-> Rep t np K2 (plug K1 s).
Proof. induction K1 as [|f K1 IH]; intros K2 s; cbn [app plug]; [tauto|]. destruct f; rewrite <- IH; [apply nav_L|apply nav_R]. Qed.

Lemma el_split z : forall F d, In (z, d) (el F) -> exists K c l r, F = plug K (N z c d l r).
Proof.
  assert (G : forall F d K0, In (z, d) (el F) -> exists K c l r, plug K0 F = plug K (N z c d l r)).
  { induction F as [|i c0 d0 l IHl r IHr]; intros d K0 H; cbn in H; [tauto|].
    apply in_app_or in H. destruct H as [H|[H|H]].
    - apply (IHl d (FL i c0 d0 r :: K0)); auto.
    - injection H as -> ->. exists K0, c0, l, r. auto.
    - apply (IHr d (FR i c0 d0 l :: K0)); auto. }
  intros F d H. apply (G F d [] H).
Qed.

Lemma leftmost_ok t np : forall s K i c d l r fuel, s = N i c d l r -> Rep t np K s -> (hgt s <= fuel)%nat ->
  exists K' y cy dy r', leftmost fuel t i = Ok y /\ s = plug K' (N y cy dy E r') /\ elL K' = [].
Proof.
  induction s as [|i0 c0 d0 l0 IHl r0 IHr]; intros K i c d l r fuel Q R L; [discriminate|].
  injection Q as <- <- <- <- <-. destruct fuel as [|fuel]; [cbn in L; lia|]. cbn [leftmost].
  rewrite (Rep_rd _ _ _ _ _ _ _ _ R). cbn [bind mk lft].
  destruct l0 as [|j cj dj lj rj]; cbn [rid].
  - cbn. exists [], i0, c0, d0, r0. auto.
  - destruct (Nat.eqb_spec j NIL) as [Z0|Z0]; [exfalso; eapply (Rep_nz _ _ _ _ _ _ _ _ (dn_L _ _ _ _ _ _ _ _ R)); eauto|].
    destruct (IHl (FL i0 c0 d0 r0 :: K) j cj dj lj rj fuel eq_refl (dn_L _ _ _ _ _ _ _ _ R)) as (K'&y&cy&dy&r'&E1&E2&E3).
    { cbn [hgt] in *. lia. }
    exists (K' ++ [FL i0 c0 d0 r0]), y, cy, dy, r'. sp; auto.
    + rewrite E2, plug_app. reflexivity.
    + clear - E3. revert E3. generalize K'. clear. intros K'.
      induction K' as [|f K' IH]; cbn; auto. destruct f; cbn; auto. intros X. apply app_eq_nil in X. destruct X as [X Y]. destruct (el l); discriminate.
Qed.

(** splicing out a node with at most one child *)
Definition only (l r : T) : T := match l with E => r | _ => l end.
Lemma unlink_ok t np K y c d l r : Rep t np K (N y c d l r) -> (l = E \/ r = E) ->
  exists t', (let* t := wr t (rid (only l r)) (w_par (pid K)) in
    (if Nat.eqb (pid K) NIL then Ok (set_root t (rid (only l r)))
             else let* np := rd t (pid K) in
                  if Nat.eqb y (lft np) then wr t (pid K) (w_lft (rid (only l r)))
                  else wr t (pid K) (w_rgt (rid (only l r))))) = Ok t' /\
    Rep t' (if Nat.eqb (rid (only l r)) NIL then pid K else np) K (only l r) /\ heap t' y = heap t y /\ same_ctl t t' /\ keeps t t'.
Proof.
  intros R O. set (s := only l r).
  assert (RS : rep (heap t) y s /\ exists n, heap t (rid s) = Some n).
  { destruct R as [R1 R2 R3 R4 R5 R6]. cbn [rep] in R2. destruct R2 as (H1&H2&H3).
    assert (RS : rep (heap t) y s) by (unfold s; destruct l; cbn [only]; auto).
    split; auto. destruct s; cbn [rid]; [eauto|]. cbn in RS. destruct RS as [RS _]. eauto. }
  destruct RS as (RS&n0&HS).
  assert (SI : forall j, In j (ids s) -> In j (ids l ++ ids r)).
  { intros j J. unfold s in J. destruct O; subst; [|destruct l; cbn [only] in J]; apply in_or_app; auto. }
  destruct R as [R1 R2 R3 R4 R5 R6]. cbn [rep rid ids app] in *. destruct R2 as (Hy&_&_).
  inversion R5 as [|? ? Y0 ND]; subst.
  assert (NDs : NoDup (ids s ++ idsK K)).
  { destruct O as [->| ->]; cbn [ids app] in ND; unfold s; cbn [only]; auto.
    rewrite app_nil_r in ND. destruct l; cbn [only ids app] in *; auto. }
  assert (LTs : forall i, In i (ids s ++ idsK K) -> i <> NIL /\ (i < fresh t)%nat).
  { intros i I. apply R6. right. apply in_or_app. apply in_app_or in I. destruct I; auto. }
  assert (YS : ~ In y (ids s)) by (intros X; apply Y0; apply in_or_app; auto).
  assert (YK : ~ In y (idsK K)) by (intros X; apply Y0; apply in_or_app; auto).
  assert (YZ : y <> NIL) by (apply R6; left; auto).
  destruct (nd_app _ _ NDs) as (ND1&ND2&ND3).
  assert (sy : rid s <> y). { destruct (rid_cases s) as [Q|Q]; congruence. }
  assert (zS : ~ In NIL (ids s)) by (intros X; apply (LTs NIL); auto; apply in_or_app; auto).
  assert (zK : ~ In NIL (idsK K)) by (intros X; apply (LTs NIL); auto; apply in_or_app; auto).
  assert (H1n : wr t (rid s) (w_par (pid K)) = Ok (RB (root t) (upd_node (heap t) (rid s) (w_par (pid K) n0)) (fresh t) (freed t))).
  { unfold wr, rd. rewrite HS. reflexivity. }
  rewrite H1n. cbn [bind]. clear H1n.
  set (h1 := upd_node (heap t) (rid s) (w_par (pid K) n0)).
  assert (h1s : h1 (rid s) = Some (w_par (pid K) n0)) by (unfold h1, upd_node; rewrite Nat.eqb_refl; auto).
  assert (h1o : forall j, j <> rid s -> h1 j = heap t j) by (intros j J; unfold h1, upd_node; destruct (Nat.eqb_spec j (rid s)); congruence).
  assert (kp1 : keeps t (RB (root t) h1 (fresh t) (freed t))).
  { intros j. cbn. unfold h1, upd_node. destruct (Nat.eqb_spec j (rid s)); auto. subst. rewrite HS. auto. }
  destruct K as [|f K].
  { cbn [pid] in *. rewrite Nat.eqb_refl. eexists; split; [reflexivity|]. sp; [|cbn; auto|ctl|exact kp1].
    constructor; cbn [set_root root heap fresh rootK rid idsK repK pid] in *; auto.
    - eapply rep_par; [exact RS| | |auto|auto].
      + intros j J1 J2. auto.
      + destruct (Nat.eqb_spec (rid s) NIL); auto. rewrite h1s, HS. reflexivity.
    - destruct (Nat.eqb_spec (rid s) NIL) as [Q|Q].
      + replace (h1 NIL) with (h1 (rid s)) by (rewrite Q; auto). rewrite h1s. rewrite Q, R4 in HS. injection HS as <-. reflexivity.
      + rewrite h1o; auto. }
  assert (PI : In (pid (f :: K)) (idsK (f :: K))) by (apply pid_in; discriminate).
  assert (PZ : pid (f :: K) <> NIL) by (apply LTs; apply in_or_app; auto).
  assert (PS : pid (f :: K) <> rid s). { destruct (rid_cases s) as [Q|Q]; [congruence|]. intros X. rewrite <- X in Q. eauto. }
  destruct (Nat.eqb_spec (pid (f :: K)) NIL); [congruence|].
  destruct (repK_get _ _ _ _ R3 R4) as (nn&Hn).
  unfold rd at 1. cbn [heap]. rewrite h1o by auto. rewrite Hn. cbn [of_option bind].
  set (g := fun n => if Nat.eqb y (lft n) then w_lft (rid s) n else w_rgt (rid s) n).
  exists (RB (root t) (upd_node h1 (pid (f :: K)) (g nn)) (fresh t) (freed t)). split.
  { destruct (Nat.eqb y (lft nn)) eqn:Q; unfold wr, rd; cbn [heap]; rewrite h1o by auto; rewrite Hn; cbn [of_option bind];
    unfold g; rewrite Q; reflexivity. }
  set (h2 := upd_node h1 (pid (f :: K)) (g nn)).
  assert (h2p : h2 (pid (f :: K)) = Some (g nn)) by (unfold h2, upd_node; rewrite Nat.eqb_refl; auto).
  assert (h2o : forall j, j <> pid (f :: K) -> h2 j = h1 j) by (intros j J; unfold h2, upd_node; destruct (Nat.eqb_spec j (pid (f :: K))); congruence).
  sp.
  - constructor; cbn [root heap fresh]; auto.
    + eapply rep_par; [exact RS| | |auto|auto].
      * intros j J1 J2. rewrite h2o, h1o; auto. intros ->. eauto.
      * destruct (Nat.eqb_spec (rid s) NIL); auto. rewrite h2o, h1s, HS; auto.
    + eapply repK_relink; [exact R3|auto| | | |auto|auto].
      * intros j J1 J2. rewrite h2o, h1o; auto. intros ->. destruct (rid_cases s) as [Q|Q]; [|eauto].
        rewrite Q in J1. auto.
      * destruct (Nat.eqb_spec (pid (f :: K)) NIL); auto. rewrite h2p, Hn. reflexivity.
      * intros f0 K0 Q i0 c0 d0 l0 Q2. subst f0. injection Q as -> <-.
        intros X. apply YK. cbn. destruct (rid_cases l0) as [W|W]; [congruence|]. rewrite X in W. right. apply in_or_app; auto.
    + rewrite h2o by auto. destruct (Nat.eqb_spec (rid s) NIL) as [Q|Q].
      * replace (h1 NIL) with (h1 (rid s)) by (rewrite Q; auto). rewrite h1s. rewrite Q, R4 in HS. injection HS as <-. reflexivity.
      * rewrite h1o; auto.
  - cbn [heap]. rewrite h2o, h1o; auto. intros ->. auto.
  - ctl.
  - eapply keeps_trans; [exact kp1|]. intros j. cbn [heap]. unfold h2, upd_node. destruct (Nat.eqb_spec j (pid (f :: K))); auto.
    subst j. rewrite h1o by auto. rewrite Hn. unfold g. cbn. destruct (Nat.eqb y (lft nn)); auto.
Qed.

(** re-balancing after the splice *)
Lemma rebalance_ok t np K y cy dy l r : RBinv (plug K (N y cy dy l r)) -> (l = E \/ r = E) ->
  Rep t np K (only l r) -> (only l r = E -> np = pid K) -> (0 < fresh t)%nat ->
  exists t' F', (if negb cy then rb_delete_fixup (S (fresh t)) t (rid (only l r)) else Ok t) = Ok t' /\
    Rep t' np [] F' /\ RBinv F' /\ el F' = elL K ++ el (only l r) ++ elR K /\ same_ctl t t' /\ keeps t t'.
Proof.
  intros [B1 (n&B2)] O R NP FP. destruct (plug_wf K _ n B2 B1) as (m&W1&W2&W3&W4&W5).
  destruct cy; cbn [negb].
  - cbn [wf] in W1. destruct W1 as (I1&I2&V1&V2).
    assert (IS : isred (only l r) = false) by (destruct l; auto).
    assert (WS : wf (only l r) m) by (destruct l; auto).
    exists t, (plug K (only l r)). sp; auto.
    + apply (proj1 (nav_top _ _ _ _)); auto.
    + split; [apply isred_plug; auto|]. eapply wf_plug; eauto.
    + apply el_plug.
    + ctl.
    + apply keeps_refl.
  - cbn [wf] in W1. destruct m as [|m]; [contradiction|]. destruct W1 as (V1&V2).
    assert (WS : wf (only l r) m) by (destruct l; auto).
    destruct (delete_fixup_ok np (S (fresh t)) K t (only l r) m) as (t'&F'&I1&I2&I3&I4&I5); auto.
    { pose proof (idsK_len K). destruct (Rep_size _ _ _ _ R) as [Q|Q]; [|lia]. rewrite app_length in Q. unfold need. destruct (isred (only l r)); lia. }
    { unfold wfB. destruct (isred (only l r)) eqn:Q; auto. apply wf_blacken; auto. }
    exists t', F'. sp; auto. { rewrite I4. apply el_plug. } eapply keeps_delete_fixup; eauto.
Qed.

Lemma Rep_write_out t np K s x f t' : Rep t np K s -> ~ In x (ids s ++ idsK K) -> x <> NIL -> wr t x f = Ok t' ->
  Rep t' np K s.
Proof.
  intros R N0 XZ H. unfold wr in H. apply bind_ok in H. destruct H as (n&_&H). injection H as <-.
  eapply Rep_frame; [exact R|reflexivity|reflexivity| |]; cbn [heap]; unfold upd_node; intros.
  - destruct (Nat.eqb_spec j x); congruence.
  - destruct (Nat.eqb_spec NIL x); congruence.
Qed.

(** the final free *)
Lemma free_ok t np F y n dz lv : Rep t np [] F -> RBinv F -> ~ In y (ids F) -> y <> NIL -> heap t y = Some n -> client n = dz ->
  (0 < fresh t)%nat -> (forall j, heap t j <> None -> j = NIL \/ j = y \/ In j lv) -> (forall j, In j lv -> j <> y -> In j (ids F)) ->
  exists t', rb_free_node t y true = Ok t' /\ Inv t' F /\ freed t' = freed t ++ [dz].
Proof.
  intros R B YF YZ HY CL FP LV LV2. unfold rb_free_node, rd. rewrite HY. cbn [of_option bind]. rewrite CL.
  eexists; split; [reflexivity|]. split; auto. exists np. sp; auto.
  - eapply Rep_frame; [exact R|reflexivity|reflexivity| |]; cbn [heap].
    + intros j J. rewrite app_nil_r in J. destruct (Nat.eqb_spec j y); congruence.
    + destruct (Nat.eqb_spec NIL y); congruence.
  - intros j. cbn [heap]. destruct (Nat.eqb_spec j y); [congruence|]. intros H. destruct (LV j H) as [Q|[Q|Q]]; auto. congruence.
Qed.

Lemma keeps_rd t t' x n : keeps t t' -> heap t x = Some n -> exists n', heap t' x = Some n' /\ payl n' = payl n.
Proof. intros K H. specialize (K x). rewrite H in K. destruct (heap t' x); cbn in K; [|discriminate]. exists n0. split; congruence. Qed.

Lemma idsK_el K j : In j (idsK K) <-> In j (map fst (elL K)) \/ In j (map fst (elR K)).
Proof.
  induction K as [|f K IH]; cbn [idsK elL elR map]; [cbn; tauto|]. rewrite in_app_iff, IH.
  destruct f as [k ? ? s|k ? ? s]; cbn [elL elR idsF map fst In]; rewrite ?map_app, ?in_app_iff; cbn [map fst In];
  rewrite ?map_app, ?in_app_iff; cbn [map fst In]; rewrite <- ?ids_in_el; tauto.
Qed.
Lemma ids_plug K s j : In j (ids (plug K s)) <-> In j (ids s) \/ In j (idsK K).
Proof. rewrite !ids_in_el, el_plug, !map_app, !in_app_iff, idsK_el. tauto. Qed.
Lemma idsK_app K1 K2 j : In j (idsK (K1 ++ K2)) <-> In j (idsK K1) \/ In j (idsK K2).
Proof. induction K1 as [|f K1 IH]; cbn; [tauto|]. rewrite !in_app_iff, IH. tauto. Qed.
Lemma elL_app K1 : forall K2, elL (K1 ++ K2) = elL K2 ++ elL K1.
Proof. induction K1 as [|f K1 IH]; intros K2; cbn; [rewrite app_nil_r; auto|]. destruct f; rewrite IH; auto. rewrite <- app_assoc. auto. Qed.
Lemma elR_app K1 : forall K2, elR (K1 ++ K2) = elR K1 ++ elR K2.
Proof. induction K1 as [|f K1 IH]; intros K2; cbn; auto. destruct f; rewrite IH; auto. cbn. rewrite <- app_assoc. auto. Qed.
Lemma wr_other t x f t' y : wr t x f = Ok t' -> y <> x -> heap t' y = heap t y.
Proof. unfold wr. intros H N0. apply bind_ok in H. destruct H as (n&_&H). injection H as <-. cbn. unfold upd_node.
  destruct (Nat.eqb_spec y x); congruence. Qed.
Lemma wr_dom t x f t' y : wr t x f = Ok t' -> heap t' y <> None -> heap t y <> None.
Proof. unfold wr, rd. destruct (heap t x) eqn:Q; cbn; [|discriminate]. intros H. injection H as <-. cbn. unfold upd_node.
  destruct (Nat.eqb_spec y x); congruence. Qed.
Lemma keeps_dom t t' y : keeps t t' -> heap t' y <> None -> heap t y <> None.
Proof. intros K H Q. specialize (K y). rewrite Q in K. destruct (heap t' y); cbn in *; congruence. Qed.
Lemma wr_ok t x f n : heap t x = Some n -> exists t', wr t x f = Ok t' /\ heap t' x = Some (f n) /\ same_ctl t t'.
Proof. intros H. unfold wr, rd. rewrite H. eexists. split; [reflexivity|]. cbn. unfold upd_node. rewrite Nat.eqb_refl. split; auto. ctl. Qed.

Lemma delete_ok t F z d : Inv t F -> In (z, d) (el F) ->
  exists t' F' l1 l2, rb_delete t z = Ok t' /\ Inv t' F' /\ freed t' = freed t ++ [d_client d] /\
    el F = l1 ++ (z, d) :: l2 /\
    (el F' = l1 ++ l2 \/ exists y dy l2', l2 = (y, dy) :: l2' /\ el F' = l1 ++ (z, dy) :: l2').
Proof.
  intros (np&R&B&LV&FP) I. destruct (el_split z F d I) as (K&c&l&r&->).
  pose proof (proj2 (nav_top _ _ _ _) R) as RZ.
  assert (IDS : forall j, In j (ids (plug K (N z c d l r))) <-> In j (ids (N z c d l r) ++ idsK K)).
  { intros j. rewrite ids_plug, in_app_iff. tauto. }
  unfold rb_delete. rewrite (Rep_rd _ _ _ _ _ _ _ _ RZ). cbn [bind mk lft rgt].
  assert (ZZ : z <> NIL) by (eapply Rep_nz; eauto).
  assert (LZ : Nat.eqb (rid l) NIL = true <-> l = E).
  { split; [|intros ->; reflexivity]. intros Q. apply Nat.eqb_eq in Q. apply rid_nil; auto.
    intros X. apply (R_lt _ _ _ _ RZ NIL); auto. cbn. rewrite !in_app_iff. auto. }
  assert (RZ' : Nat.eqb (rid r) NIL = true <-> r = E).
  { split; [|intros ->; reflexivity]. intros Q. apply Nat.eqb_eq in Q. apply rid_nil; auto.
    intros X. apply (R_lt _ _ _ _ RZ NIL); auto. cbn. rewrite !in_app_iff. auto. }
  assert (NDz : ~ In z (ids l ++ ids r ++ idsK K)).
  { pose proof (R_nd _ _ _ _ RZ) as ND. cbn in ND. inversion ND; subst. rewrite <- app_assoc in H1. auto. }
  destruct (Nat.eqb (rid l) NIL || Nat.eqb (rid r) NIL) eqn:ONE.
  - (* z itself is spliced out *)
    assert (O : l = E \/ r = E) by (apply orb_true_iff in ONE; destruct ONE; [left; apply LZ|right; apply RZ']; auto).
    clear ONE. cbn [bind]. rewrite (Rep_rd _ _ _ _ _ _ _ _ RZ). cbn [bind mk lft rgt par].
    assert (XE : (if negb (Nat.eqb (rid l) NIL) then rid l else rid r) = rid (only l r)).
    { destruct l; cbn [only rid]; [reflexivity|]. cbn [rid] in LZ. destruct (Nat.eqb i NIL); cbn [negb]; auto.
      destruct LZ as [LZ _]; discriminate LZ; auto. }
    rewrite XE.
    destruct (unlink_ok t np K z c d l r RZ O) as (t1&E1&R1&HY&C1&K1).
    apply bind_ok in E1. destruct E1 as (t0&E0&E1). rewrite E0. cbn [bind]. rewrite E1. cbn [bind].
    rewrite Nat.eqb_refl. cbn [negb bind].
    assert (HZ : heap t z = Some (mk (pid K) c d (rid l) (rid r))) by (apply (R_rep _ _ _ _ RZ)).
    unfold rd at 1. rewrite HY, HZ. cbn [of_option bind mk red].
    destruct (rebalance_ok t1 _ K z c d l r B O R1) as (t2&F'&E2&R2&B2&EL2&C2&K2).
    { intros ->. reflexivity. }
    { destruct C1 as [-> _]; auto. }
    replace (rid (only l r)) with (rid (only l r)) by auto. rewrite E2. cbn [bind].
    rewrite HZ in HY.
    destruct (keeps_rd _ _ _ _ K2 HY) as (n2&H2&P2).
    assert (IDF : forall j, In j (ids F') <-> In j (ids l ++ ids r ++ idsK K)).
    { intros j. rewrite ids_in_el, EL2, !map_app, !in_app_iff, idsK_el.
      assert (Q : el (only l r) = el l ++ el r) by (destruct O; subst; cbn; auto; destruct l; cbn; rewrite ?app_nil_r; auto).
      rewrite Q, map_app, in_app_iff, <- !ids_in_el. tauto. }
    destruct (free_ok t2 _ F' z n2 (d_client d) (ids l ++ ids r ++ idsK K) R2 B2) as (t3&E3&I3&FR3); auto.
    { rewrite IDF. auto. }
    { injection P2 as P2a P2b P2c. rewrite P2c. destruct d; reflexivity. }
    { destruct C1 as [C1 _], C2 as [C2 _]. rewrite C2, C1; auto. }
    { intros j HJ. assert (heap t j <> None).
      { intros Q. specialize (K1 j). specialize (K2 j). rewrite Q in K1. destruct (heap t1 j), (heap t2 j); cbn in *; congruence. }
      destruct (LV j H) as [Q|Q]; auto. rewrite IDS in Q. cbn in Q. rewrite !in_app_iff in *. intuition. }
    { intros j J _. apply IDF; auto. }
    exists t3, F', (elL K ++ el l), (el r ++ elR K). sp; auto.
    + rewrite FR3. destruct C1 as [_ C1], C2 as [_ C2]. rewrite C2, C1; auto.
    + rewrite el_plug. cbn [el]. rewrite <- !app_assoc. reflexivity.
    + left. rewrite EL2. destruct O; subst; cbn [only el app]; rewrite ?app_nil_r, <- ?app_assoc; auto.
      destruct l; cbn [only el app]; rewrite ?app_nil_r, <- ?app_assoc; auto.
  - (* the successor y is spliced out and z takes over its payload *)
    apply orb_false_iff in ONE. destruct ONE as [LN RN].
    unfold rb_successor. rewrite (Rep_rd _ _ _ _ _ _ _ _ RZ). cbn [bind mk rgt]. rewrite RN. cbn [negb].
    destruct r as [|ri rc rd0 rl rr] eqn:RQ; [discriminate|]. rewrite <- RQ in *. 
    pose proof (dn_R _ _ _ _ _ _ _ _ RZ) as RR.
    destruct (leftmost_ok t np r (FR z c d l :: K) ri rc rd0 rl rr (S (fresh t)) RQ RR) as (K'&y&cy&dy&r'&E1&E2&E3).
    { pose proof (Rep_hgt _ _ _ R) as HH. pose proof (hgt_ids r) as H1. destruct (Rep_size _ _ _ _ RR) as [Q|Q]; [|lia].
      rewrite app_length in Q. lia. }
    assert (RID : rid r = ri) by (rewrite RQ; reflexivity). rewrite RID, E1. cbn [bind].
    clear RQ RID E1 ri rc rd0 rl rr LZ RZ' LN RN.
    set (KK := K' ++ FR z c d l :: K).
    assert (RY : Rep t np KK (N y cy dy E r')). { apply nav_app. rewrite <- E2. auto. }
    rewrite (Rep_rd _ _ _ _ _ _ _ _ RY). cbn [bind mk lft rgt par rid]. rewrite Nat.eqb_refl. cbn [negb].
    destruct (unlink_ok t np KK y cy dy E r' RY (or_introl eq_refl)) as (t1&U1&R1&HY&C1&K1). cbn [only] in *.
    apply bind_ok in U1. destruct U1 as (t0&U0&U1). rewrite U0. cbn [bind]. rewrite U1. cbn [bind].
    pose proof (R_nd _ _ _ _ RY) as NDY. cbn [ids app] in NDY. inversion NDY as [|? ? Y0 _]; subst x l0.
    assert (YZ : y <> NIL) by (eapply Rep_nz; eauto).
    assert (yz : y <> z).
    { intros Q. apply Y0. apply in_or_app. right. unfold KK. apply idsK_app. right. left. auto. }
    destruct (Nat.eqb_spec y z); [congruence|]. cbn [negb].
    set (np1 := if Nat.eqb (rid r') NIL then pid KK else np) in *.
    assert (RZ1 : Rep t1 np1 K (N z c d l (plug K' r'))). { apply up_R. apply nav_app. auto. }
    rewrite (Rep_rd _ _ _ _ _ _ _ _ RZ1). cbn [bind].
    assert (HY1 : heap t1 y = Some (mk (pid KK) cy dy NIL (rid r'))). { rewrite HY. apply (R_rep _ _ _ _ RY). }
    unfold rd at 1. rewrite HY1. cbn [of_option bind mk base size mx client].
    destruct (Rep_write t1 np1 K z c d l (plug K' r') c dy (w_data (d_base dy) (d_size dy) 0 (d_client dy)) RZ1 eq_refl)
      as (t2&E4&R4&F4&F5&_). rewrite E4. cbn [bind].
    destruct (wr_ok t2 y (w_client (d_client d)) (mk (pid KK) cy dy NIL (rid r'))) as (t3&E5&HY3&C3).
    { rewrite (wr_other _ _ _ _ y E4); auto. }
    rewrite E5. cbn [bind]. unfold rd at 1. rewrite HY3. cbn [of_option bind w_client mk red].
    assert (R5 : Rep t3 np1 K (N z c dy l (plug K' r'))).
    { eapply (Rep_write_out t2 np1 K _ y); [exact R4| |exact YZ|exact E5]. intros X. apply Y0. unfold KK. cbn in X.
      rewrite !in_app_iff, idsK_app in *. cbn. rewrite ?in_app_iff. rewrite ids_plug in X. tauto. }
    set (KK2 := K' ++ FR z c dy l :: K).
    assert (R6 : Rep t3 np1 KK2 r'). { apply nav_app. apply dn_R. auto. }
    assert (B2 : RBinv (plug KK2 (N y cy dy E r'))).
    { unfold KK2. rewrite plug_app. cbn [plug]. rewrite <- E2. destruct B as [B1 (n0&B3)].
      destruct (plug_wf K _ n0 B3 B1) as (m&W1&W2&W3&W4&W5). split.
      - apply isred_plug; auto.
      - eapply wf_plug; [|exact W2|auto]. exact W1. }
    assert (PK : pid KK2 = pid KK) by (unfold KK, KK2; destruct K'; reflexivity).
    destruct (rebalance_ok t3 np1 KK2 y cy dy E r' B2 (or_introl eq_refl) R6) as (t4&F'&E6&R7&B7&EL7&C7&K7).
    { cbn [only]. intros ->. unfold np1. cbn. auto. }
    { destruct C3 as [C3 _], C1 as [C1 _]. rewrite C3, F4, C1; auto. }
    cbn [only] in *. rewrite E6. cbn [bind].
    destruct (keeps_rd _ _ _ _ K7 HY3) as (n4&H4&P4).
    assert (IDF : forall j, In j (ids F') <-> In j (ids r') \/ In j (idsK KK)).
    { intros j. rewrite ids_in_el, EL7, !map_app, !in_app_iff. rewrite <- !ids_in_el.
      assert (Q : In j (idsK KK2) <-> In j (idsK KK)) by (unfold KK, KK2; rewrite !idsK_app; cbn; tauto).
      rewrite <- Q, idsK_el. tauto. }
    assert (IDr : forall j, In j (ids r) <-> j = y \/ In j (ids r') \/ In j (idsK K')).
    { intros j. rewrite E2, ids_plug. cbn. intuition. }
    destruct (free_ok t4 _ F' y n4 (d_client d) (ids (N z c d l r) ++ idsK K) R7 B7) as (t5&E8&I8&FR8); auto.
    { rewrite IDF, <- in_app_iff. auto. }
    { injection P4 as P2a P2b P2c. rewrite P2c. reflexivity. }
    { destruct C3 as [C3 _], C1 as [C1 _], C7 as [C7 _]. rewrite C7, C3, F4, C1; auto. }
    { intros j HJ. assert (H : heap t j <> None).
      { eapply keeps_dom; [exact K1|]. eapply wr_dom; [exact E4|]. eapply wr_dom; [exact E5|]. eapply keeps_dom; eauto. }
      destruct (LV j H) as [Q|Q]; auto. rewrite IDS in Q. auto. }
    { intros j J N0. rewrite IDF. unfold KK. rewrite idsK_app. cbn [ids app idsK idsF] in *. cbn [In] in *. rewrite !in_app_iff, IDr in J. cbn [In]. rewrite !in_app_iff. tauto. }
    exists t5, F', (elL K ++ el l), (el r ++ elR K). sp; auto.
    + rewrite FR8. destruct C3 as [_ C3], C1 as [_ C1], C7 as [_ C7]. rewrite C7, C3, F5, C1; auto.
    + rewrite el_plug. cbn [el]. rewrite <- !app_assoc. reflexivity.
    + right. exists y, dy, (el r' ++ elR K' ++ elR K). split.
      * rewrite E2, el_plug, E3. cbn [el app]. rewrite <- !app_assoc. reflexivity.
      * rewrite EL7. unfold KK2. rewrite elL_app, elR_app, E3. cbn [elL elR]. rewrite <- !app_assoc. cbn [app]. reflexivity.
Qed.
