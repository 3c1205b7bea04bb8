(** rb_insert on represented trees *)
From Coq Require Import Sorting.Sorted.
From Verif Require Import Base Redblack_Model Redblack_Proofs1 Redblack_Proofs2 Redblack_Proofs3 Redblack_Proofs4 Redblack_Proofs5 Redblack_Proofs6 Redblack_Proofs7.
Open Scope Z_scope.

Lemma Rep_frame t t' np K s : Rep t np K s -> root t' = root t -> (fresh t <= fresh t')%nat ->
  (forall j, In j (ids s ++ idsK K) -> heap t' j = heap t j) -> heap t' NIL = heap t NIL -> Rep t' np K s.
Proof.
  intros [R1 R2 R3 R4 R5 R6] HR HF HH HN. constructor; auto; try congruence.
  - eapply rep_frame; [|exact R2]. intros j J. apply HH. apply in_or_app; auto.
  - eapply repK_frame; [|exact R3]. intros j J. apply HH. apply in_or_app; auto.
  - intros j J. destruct (R6 j J). split; auto. lia.
Qed.

Lemma link_K h h' K i y ls : repK h i K -> side_ok K ls -> NoDup (idsK K) ->
  (forall j, In j (idsK K) -> j <> pid K -> h' j = h j) ->
  (K <> [] -> h' (pid K) = option_map (if ls then w_lft y else w_rgt y) (h (pid K))) -> repK h' y K.
Proof.
  destruct K as [|f K]; cbn [repK]; auto. intros H S0 ND F G. specialize (G ltac:(discriminate)). cbn [pid idsK] in *.
  destruct f as [j c d r|j c d r]; cbn [side_ok fid idsF app] in *; subst ls; destruct H as (H1&H2&H3); rewrite H1 in G; inversion ND; subst;
  (split; [rewrite G; reflexivity|]); split.
  - eapply rep_frame; [|exact H2]. intros k Q. apply F; [right; apply in_or_app; auto|]. intros ->. apply H4. apply in_or_app; auto.
  - eapply repK_frame; [|exact H3]. intros k Q. apply F; [right; apply in_or_app; auto|]. intros ->. apply H4. apply in_or_app; auto.
  - eapply rep_frame; [|exact H2]. intros k Q. apply F; [right; apply in_or_app; auto|]. intros ->. apply H4. apply in_or_app; auto.
  - eapply repK_frame; [|exact H3]. intros k Q. apply F; [right; apply in_or_app; auto|]. intros ->. apply H4. apply in_or_app; auto.
Qed.

(** linking a detached red leaf at the hole of the context *)
Lemma link_ok t np K x d ls :
  Rep t np K E -> side_ok K ls -> heap t x = Some (mk NIL true d NIL NIL) -> x <> NIL -> ~ In x (idsK K) -> (x < fresh t)%nat ->
  exists t', (let* t := (if Nat.eqb (pid K) NIL then Ok (set_root t x)
               else if ls then wr t (pid K) (w_lft x) else wr t (pid K) (w_rgt x)) in
    wr t x (w_par (pid K))) = Ok t' /\
    Rep t' np K (N x true d E E) /\ same_ctl t t' /\ keeps t t'.
Proof.
  intros R S0 HX XZ XK XF. destruct R as [R1 R2 R3 R4 R5 R6]. cbn [rid ids app rep] in *.
  destruct K as [|f K].
  { cbn [pid]. rewrite Nat.eqb_refl. cbn [bind]. unfold wr, rd. cbn [heap set_root]. rewrite HX. cbn [of_option bind].
    eexists; split; [reflexivity|]. sp.
    - constructor; cbn; auto.
      + unfold upd_node. rewrite Nat.eqb_refl. auto.
      + unfold upd_node. destruct (Nat.eqb_spec NIL x); congruence.
      + constructor; [intros []|constructor].
      + intros i [<-|[]]. auto.
    - ctl.
    - intros j. cbn. unfold upd_node. destruct (Nat.eqb_spec j x); auto. subst. rewrite HX. auto. }
  assert (PI : In (pid (f :: K)) (idsK (f :: K))) by (apply pid_in; discriminate).
  assert (PX : pid (f :: K) <> x) by congruence.
  assert (PZ : pid (f :: K) <> NIL) by (apply R6; auto).
  destruct (Nat.eqb_spec (pid (f :: K)) NIL); [congruence|].
  destruct (repK_get _ _ _ _ R3 R4) as (nn&Hn).
  set (g := if ls then w_lft x else w_rgt x).
  assert (G : (if ls then wr t (pid (f :: K)) (w_lft x) else wr t (pid (f :: K)) (w_rgt x)) =
     Ok (RB (root t) (upd_node (heap t) (pid (f :: K)) (g nn)) (fresh t) (freed t))).
  { unfold wr, rd, g. rewrite Hn. destruct ls; reflexivity. }
  rewrite G. cbn [bind].
  erewrite wr_here; [|rewrite rd_upd_diff by auto; apply rd_here; exact HX].
  eexists; split; [reflexivity|]. sp.
  - assert (XO : forall m h, upd_node h x m x = Some m) by (intros; unfold upd_node; rewrite Nat.eqb_refl; auto).
    assert (XD : forall m h k, k <> x -> upd_node h x m k = h k) by (intros ? ? ? ?; unfold upd_node; destruct (Nat.eqb_spec k x); congruence).
    constructor; cbn [root heap fresh freed ids app rid rep]; auto.
    + eapply link_K with (ls := ls); [exact R3|exact S0|exact R5| |].
      * intros j J1 J2. rewrite XD by congruence. unfold upd_node. destruct (Nat.eqb_spec j (pid (f :: K))); congruence.
      * intros _. rewrite XD by auto. unfold upd_node. rewrite Nat.eqb_refl, Hn. subst g. destruct ls; reflexivity.
    + rewrite XD by auto. unfold upd_node. destruct (Nat.eqb_spec NIL (pid (f :: K))); congruence.
    + constructor; auto.
    + intros i [<-|I]; auto.
  - ctl.
  - intros j. cbn [heap]. unfold upd_node. destruct (Nat.eqb_spec j x).
    + subst. rewrite HX. auto.
    + destruct (Nat.eqb_spec j (pid (f :: K))); auto. subst j. rewrite Hn. unfold g. destruct ls; auto.
Qed.

Section Insert.
Variables (dbg : bool) (nb ns nc : Z) (lt : data -> data -> Prop) (PL PR : data -> Prop).
Hypothesis PL_here : forall d, hitb dbg nb ns d = false -> (nb <? d_base d) = false -> PL d.
Hypothesis PR_here : forall d, hitb dbg nb ns d = false -> (nb <? d_base d) = true -> PR d.
Hypothesis PL_down : forall d d', lt d' d -> PL d -> PL d'.
Hypothesis PR_up : forall d d', lt d d' -> PR d -> PR d'.

Lemma insert_gen t F : Inv t F -> StronglySorted lt (map snd (el F)) ->
  exists t' r, rb_insert dbg t nb ns nc = Ok (t', r) /\ freed t' = freed t /\
    match r with
    | Some h => (exists d, In (h, d) (el F) /\ hitb dbg nb ns d = true) /\ Inv t' F
    | None => exists F' l1 l2, Inv t' F' /\ el F = l1 ++ l2 /\ el F' = l1 ++ (fresh t, Dt nb ns nc) :: l2 /\
        Forall PL (map snd l1) /\ Forall PR (map snd l2)
    end.
Proof.
  intros (np&R&B&LV&FP) SS. unfold rb_insert, rb_new_node.
  set (x := fresh t). set (t1 := RB _ _ _ _).
  assert (XN : ~ In x (ids F)). { intros X. destruct (R_lt _ _ _ _ R x); [apply in_or_app; auto|]. unfold x in *; lia. }
  assert (XZ : x <> NIL) by (unfold x, NIL in *; lia).
  assert (R1 : Rep t1 np [] F).
  { eapply Rep_frame; [exact R|reflexivity|cbn; subst x; lia| |].
    - intros j J. cbn [heap t1]. unfold upd_node. destruct (Nat.eqb_spec j x); auto. subst. rewrite app_nil_r in J. contradiction.
    - cbn. unfold upd_node. destruct (Nat.eqb_spec NIL x); congruence. }
  assert (HX : heap t1 x = Some (mk NIL true (Dt nb ns nc) NIL NIL)).
  { cbn. unfold upd_node. rewrite Nat.eqb_refl. reflexivity. }
  assert (HN0 : heap t x = None).
  { destruct (heap t x) eqn:Q; auto. exfalso. destruct (LV x); [congruence|auto|auto]. }
  unfold rb_insert_helper, bt_insert, rd at 1. rewrite HX. cbn [of_option bind mk base size].
  cbn [d_base d_size].
  destruct (bt_loop_ok dbg nb ns lt PL PR PL_here PR_here PL_down PR_up t1 np F [] (S (fresh t1)) true) as (h&it&ls'&E1&H1); cbn [side_ok elL elR map]; auto.
  { eapply Rep_hgt; eauto. }
  rewrite (R_root _ _ _ _ R1). cbn [rootK pid] in *. rewrite E1. cbn [bind].
  destruct h as [i|].
  - cbn [bind]. unfold rb_free_node, rd. rewrite HX. cbn [of_option bind]. eexists _, (Some i). split; [reflexivity|].
    cbn [freed]. split; [reflexivity|]. split; auto.
    exists np. sp; auto.
    + eapply Rep_frame; [exact R|reflexivity|cbn; subst x; lia| |]; intros; cbn [heap t1]; unfold upd_node.
      * rewrite app_nil_r in H. destruct (Nat.eqb_spec j x); auto. subst. contradiction.
      * destruct (Nat.eqb_spec NIL x); congruence.
    + intros j. cbn [heap t1]. unfold upd_node. destruct (Nat.eqb_spec j x); [congruence|]. apply LV.
    + cbn. lia.
  - destruct H1 as (K'&->&S1&P1&FL1&FR1). cbn [plug] in P1.
    assert (RK : Rep t1 np K' E).
    { apply nav_top. rewrite P1. auto. }
    assert (XK : ~ In x (idsK K')).
    { intros X. assert (X2 : In x (ids E ++ idsK K')) by (apply in_or_app; auto).
      assert (I2 : In x (ids F ++ idsK [])).
      { destruct (in_dec Nat.eq_dec x (ids F)); [apply in_or_app; auto|].
        exfalso. (* x is among the ids of plug K' E = F *)
        apply n. rewrite <- P1. rewrite ids_in_el, el_plug, !map_app, !in_app_iff. cbn [el map].
        clear - X. induction K' as [|f K' IH]; cbn in *; [tauto|]. apply in_app_or in X.
        destruct f as [k ? ? s|k ? ? s]; cbn [elL elR idsF map fst] in *; destruct X as [[X|X]|X];
        rewrite ?map_app, ?in_app_iff in *; cbn [map fst In] in *; rewrite <- ?ids_in_el in *; rewrite ?map_app, ?in_app_iff in *; rewrite <- ?ids_in_el in *; tauto. }
      rewrite app_nil_r in I2. contradiction. }
    destruct (link_ok t1 np K' x (Dt nb ns nc) ls' RK S1 HX XZ XK) as (t2&E2&R2&C2&K2). { cbn. unfold x. lia. }
    apply bind_ok in E2. destruct E2 as (t3&E2&E3). rewrite E2. cbn [bind]. rewrite E3. cbn [bind].
    destruct B as [B1 (n&B2)]. rewrite <- P1 in B1, B2.
    destruct (plug_wf K' E n B2 B1) as (m&W1&W2&W3&W4&_). cbn in W1. subst m.
    destruct (insert_fix_ok np (S (fresh t2)) K' t2 x (Dt nb ns nc) E E 0) as (t'&F'&I1&I2&I3&I4&I5); auto.
    { pose proof (idsK_len K'). destruct (Rep_size _ _ _ _ RK) as [Q|Q]; cbn [ids app] in Q; destruct C2 as [C2 _]; rewrite C2.
      - lia.
      - cbn in Q. discriminate. }
    { cbn. auto. }
    rewrite I1. cbn [bind]. eexists _, None. split; [reflexivity|].
    split. { destruct I5 as [_ I5]. destruct C2 as [_ C2]. rewrite I5, C2. reflexivity. }
    exists F', (elL K'), (elR K'). 
    assert (EF : el F = elL K' ++ elR K') by (rewrite <- P1, el_plug; auto).
    assert (EF' : el F' = elL K' ++ (x, Dt nb ns nc) :: elR K') by (rewrite I4, el_plug; auto).
    sp; auto. exists np. sp; auto.
    + intros j HJ. pose proof (keeps_insert_fix _ _ _ _ I1 j) as KP. pose proof (K2 j) as KP2.
      assert (heap t1 j <> None). { intros Q. rewrite Q in KP2. destruct (heap t2 j), (heap t' j); cbn in *; congruence. }
      cbn [heap t1] in H. unfold upd_node in H. rewrite ids_in_el, EF'. rewrite map_app. cbn [map fst]. rewrite in_app_iff. cbn.
      destruct (Nat.eqb_spec j x); [auto|]. destruct (LV j H) as [L|L]; [auto|].
      rewrite ids_in_el, EF, map_app, in_app_iff in L. tauto.
    + destruct I5 as [I5 _]. destruct C2 as [C2 _]. rewrite I5, C2. cbn. lia.
Qed.
End Insert.
