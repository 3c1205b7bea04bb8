(** Whole histories: module lookup, names. *)
From Verif Require Import Base Redblack_Model Redblack_Spec Redblack_Facts Callstack_Model Callstack_Spec Callstack_Proofs1.
Open Scope Z_scope.

Record NI (nm : names) (sp : Z -> option Z) : Prop := {
  n_len : (length (arr nm) <= 254)%nat;
  n_uniq : forall i j m m', nth_error (infos nm) i = Some m -> nth_error (infos nm) j = Some m' -> mi_path m = mi_path m' -> i = j;
  n_has : forall p s, sp p = Some s -> exists i m, nth_error (infos nm) i = Some m /\ mi_path m = p;
  n_ent : forall i m, nth_error (infos nm) i = Some m -> exists s, sp (mi_path m) = Some s /\
    ((length (arr nm) < 254)%nat -> exists k, (1 <= k)%nat /\ s <= Z.of_nat k * MAX_MODOFFS_STORED /\ 1 <= mi_index m /\
       forall j, (j < k)%nat -> nth_error (arr nm) (Z.to_nat (mi_index m - 1) + j) = Some i) }.

Lemma first_span_app p b : forall a, first_span p (a ++ b) = match first_span p a with Some s => Some s | None => first_span p b end.
Proof. induction a as [|[m|m|pc|pc] a IH]; cbn [app first_span]; auto. destruct (m_path m =? p); auto. Qed.
Lemma nth_error_repeat {A} (x : A) k j : (j < k)%nat -> nth_error (repeat x k) j = Some x.
Proof. revert j. induction k as [|k IH]; intros j L; [lia|]. destruct j; cbn; auto. apply IH. lia. Qed.
Lemma NI_load nm sp p sz nm' i : NI nm sp -> add_new_module nm p sz = Ok (nm', i) ->
  NI nm' (fun q => match sp q with Some s => Some s | None => if p =? q then Some sz else None end).
Proof.
  intros N E. unfold add_new_module in E. pose proof (find_path_ok p (infos nm) 0) as F. destruct (find_path p (infos nm) 0) as [i0|].
  - injection E as <- <-. destruct F as (j&m&->&H1&H2). destruct N as [N1 N2 N3 N4]. constructor; auto.
    + intros q s Q. destruct (sp q) as [s0|] eqn:SQ; [eapply N3; eauto|]. destruct (Z.eqb_spec p q); [|discriminate]. subst q. eauto.
    + intros k m0 K. destruct (N4 k m0 K) as (s&S1&S2). exists s. rewrite S1. auto.
  - destruct (fill_ok (length (infos nm)) 256 (arr nm) sz) as (b&k&E1&K1&K2&K3); try lia; [apply N|]. rewrite E1 in E. cbn [bind] in E.
    injection E as <- <-. destruct N as [N1 N2 N3 N4]. constructor; cbn [infos arr].
    + rewrite app_length, repeat_length. lia.
    + intros a c m m' A C Q.
      assert (G : forall a m, nth_error (infos nm ++ [MI p (if b then array_end nm else -1)]) a = Some m ->
         (a = length (infos nm) /\ mi_path m = p) \/ (nth_error (infos nm) a = Some m /\ mi_path m <> p)).
      { intros a0 m0 H. destruct (Nat.lt_ge_cases a0 (length (infos nm))).
        - rewrite nth_error_app1 in H by auto. right. split; auto. apply F. eapply nth_error_In; eauto.
        - rewrite nth_error_app2 in H by auto. left. destruct (a0 - length (infos nm))%nat as [|[|]] eqn:Q0; cbn in H; try discriminate.
          injection H as <-. split; [lia|auto]. }
      destruct (G _ _ A) as [(->&Q1)|(A1&Q1)], (G _ _ C) as [(->&Q2)|(C1&Q2)]; auto; try congruence. eapply N2; eauto.
    + intros q s Q. destruct (sp q) as [s0|] eqn:SQ.
      * destruct (N3 _ _ SQ) as (j&m&H1&H2). exists j, m. split; auto. rewrite nth_error_app1; auto. apply nth_error_Some. congruence.
      * destruct (Z.eqb_spec p q); [|discriminate]. subst q. exists (length (infos nm)). eexists. split; [rewrite nth_error_app2, Nat.sub_diag by lia; reflexivity|reflexivity].
    + intros j m H. rewrite app_length, repeat_length. destruct (Nat.lt_ge_cases j (length (infos nm))).
      * rewrite nth_error_app1 in H by auto. destruct (N4 _ _ H) as (s&S1&S2). exists s. rewrite S1. split; auto. intros L.
        destruct S2 as (k0&P1&P2&P3&P4); [lia|]. exists k0. split; [auto|]. split; [auto|]. split; [auto|]. intros j0 J0. rewrite nth_error_app1; auto.
        apply nth_error_Some. rewrite (P4 j0 J0). discriminate.
      * rewrite nth_error_app2 in H by auto. destruct (j - length (infos nm))%nat as [|[|]] eqn:Q0; cbn [nth_error] in H; try discriminate.
        injection H as <-. cbn [mi_path mi_index]. destruct (sp p) as [s0|] eqn:SQ.
        { destruct (N3 _ _ SQ) as (j0&m&H1&H2). exfalso. eapply F; [eapply nth_error_In; eauto|auto]. }
        exists sz. rewrite Z.eqb_refl. split; auto. intros L. destruct b; [|specialize (K3 eq_refl); lia].
        destruct (K2 eq_refl) as (K4&K5). exists k. unfold array_end. split; [auto|]. split; [auto|]. split; [lia|]. intros j0 J0.
        rewrite nth_error_app2 by lia. replace (_ + j0 - _)%nat with j0 by lia. rewrite nth_error_repeat by auto. f_equal. lia.
Qed.
Lemma NI_eq nm sp sp' : (forall p, sp p = sp' p) -> NI nm sp -> NI nm sp'.
Proof.
  intros H [N1 N2 N3 N4]. constructor; auto.
  - intros p s Q. rewrite <- H in Q. eauto.
  - intros i m Q. destruct (N4 i m Q) as (s&S1&S2). exists s. rewrite <- H. auto.
Qed.

Record INV (done : list event) (st : mods) (l : list entry) : Prop := {
  v_core : Core st l (loaded done);
  v_ni : NI (nms st) (fun p => first_span p done);
  v_span : no_growth done -> forall r, In r (loaded done) -> exists s, first_span (r_path r) done = Some s /\ r_end r - r_start r <= s;
  v_pages : Forall paged done -> Pages st l /\ forall r, In r (loaded done) -> r_start r mod 4096 = 0 /\ r_end r mod 4096 = 0 }.

Lemma loaded_snoc done ev : loaded (done ++ [ev]) = after (loaded done) ev.
Proof. unfold loaded. rewrite fold_left_app. reflexivity. Qed.
Lemma ng_prefix a b : no_growth (a ++ b) -> no_growth a.
Proof. intros H x m y Q. apply (H x m (y ++ b)). rewrite Q, <- app_assoc. reflexivity. Qed.
Lemma pages_fresh st l ms : Core st l ms -> (forall r, In r ms -> r_start r mod 4096 = 0 /\ r_end r mod 4096 = 0) ->
  last_hit st = 0 -> last_miss st = 0 -> Pages st l.
Proof.
  intros C A H M. constructor; try congruence. intros e I. destruct (proj2 (c_lr _ _ _ C) e I) as (r&J&E1&E2&_).
  specialize (A r J). rewrite E1, E2. replace (r_start r + (r_end r - r_start r)) with (r_end r) by lia. auto.
Qed.
Lemma module_region_in m r : module_ok m -> In r (module_regions m) -> r_path r = m_path m /\ r_end r - r_start r <= m_stop m - m_start m.
Proof.
  intros OK I. destruct (runs_regions m OK) as (R1&R2&R3). rewrite R1 in I. apply in_map_iff in I. destruct I as ([s e]&<-&I).
  unfold r_path, r_start, r_end. cbn. split; auto. pose proof (R3 _ _ I). pose proof (asc_in _ _ _ _ R2 I). lia.
Qed.
Lemma first_span_load p done m : first_span p (done ++ [Load m]) =
  match first_span p done with Some s => Some s | None => if m_path m =? p then Some (m_stop m - m_start m) else None end.
Proof. rewrite first_span_app. reflexivity. Qed.
Lemma first_span_other p done ev : (forall m, ev <> Load m) -> first_span p (done ++ [ev]) = first_span p done.
Proof. intros H. rewrite first_span_app. destruct (first_span p done); auto. destruct ev; auto. exfalso. eapply H; eauto. Qed.

Lemma step_inv dbg done st l ev : INV done st l -> allowed (loaded done) ev ->
  exists st' l', do_event dbg st ev = Ok st' /\ INV (done ++ [ev]) st' l' /\ ext (nms st) (nms st').
Proof.
  intros [C N S P] A. destruct ev as [m|m|pc|pc]; cbn [do_event].
  - destruct (load_ok dbg st l _ m C (n_len _ _ N) A) as (st'&l'&E1&C'&X&L'&H1&H2&i&E2). exists st', l'. split; auto. split; auto.
    constructor.
    + rewrite loaded_snoc. auto.
    + eapply NI_eq; [|eapply NI_load; eauto]. intros p. cbn. rewrite first_span_load. reflexivity.
    + intros NG r I. rewrite loaded_snoc in I. cbn [after] in I. apply in_app_or in I. rewrite first_span_load. destruct I as [I|I].
      * destruct (S (ng_prefix _ _ NG) r I) as (s&S1&S2). exists s. rewrite S1. auto.
      * destruct A as (OK&_). destruct (module_region_in m r OK I) as (Q1&Q2). rewrite Q1, Z.eqb_refl.
        specialize (NG done m [] eq_refl). destruct (first_span (m_path m) done); eexists; (split; [reflexivity|lia]).
    + intros PG. apply Forall_app in PG. destruct PG as (PG1&PG2). inversion PG2; subst. destruct (P PG1) as (P1&P2). rewrite loaded_snoc. cbn [after].
      assert (AL : forall r, In r (loaded done ++ module_regions m) -> r_start r mod 4096 = 0 /\ r_end r mod 4096 = 0).
      { intros r I. apply in_app_or in I. destruct I as [I|I]; auto. }
      split; auto. eapply pages_fresh; eauto.
  - destruct (unload_ok st l _ m C A) as (st'&l'&E1&C'&X&H1&H2). exists st', l'. split; auto. rewrite X. split; [|apply ext_refl].
    constructor.
    + rewrite loaded_snoc. auto.
    + rewrite X. eapply NI_eq; [|exact N]. intros p. cbn. rewrite first_span_other; auto. discriminate.
    + intros NG r I. rewrite loaded_snoc in I. cbn [after] in I. apply filter_In in I. rewrite first_span_other by discriminate.
      apply S; [eapply ng_prefix; eauto|tauto].
    + intros PG. apply Forall_app in PG. destruct PG as (PG1&PG2). destruct (P PG1) as (P1&P2). rewrite loaded_snoc.
      assert (AL : forall r, In r (after (loaded done) (Unload m)) -> r_start r mod 4096 = 0 /\ r_end r mod 4096 = 0).
      { intros r I. cbn [after] in I. apply filter_In in I. apply P2. tauto. }
      split; auto. eapply pages_fresh; eauto.
  - destruct (lookup_ok st l _ pc C) as (st'&r&E1&C'&X&T&H1&H2&_). rewrite E1. cbn [bind]. exists st', l. split; auto. rewrite X. split; [|apply ext_refl].
    constructor.
    + rewrite loaded_snoc. auto.
    + rewrite X. eapply NI_eq; [|exact N]. intros p. cbn. rewrite first_span_other; auto. discriminate.
    + intros NG. rewrite loaded_snoc. intros r0 I. rewrite first_span_other by discriminate. apply S; auto. eapply ng_prefix; eauto.
    + intros PG. apply Forall_app in PG. destruct PG as (PG1&PG2). destruct (P PG1) as ([G1 G2 G3]&P2). rewrite loaded_snoc. cbn [after].
      split; auto. constructor; rewrite ?H1, ?H2; auto.
  - destruct (is_in_ok st l _ pc C) as (st'&r&E1&C'&X&H). rewrite E1. cbn [bind]. exists st', l. split; auto. rewrite X. split; [|apply ext_refl].
    constructor.
    + rewrite loaded_snoc. auto.
    + rewrite X. eapply NI_eq; [|exact N]. intros p. cbn. rewrite first_span_other; auto. discriminate.
    + intros NG. rewrite loaded_snoc. intros r0 I. rewrite first_span_other by discriminate. apply S; auto. eapply ng_prefix; eauto.
    + intros PG. apply Forall_app in PG. destruct PG as (PG1&PG2). destruct (P PG1) as (P1&P2). rewrite loaded_snoc. cbn [after].
      split; auto. apply H; auto.
Qed.
Lemma run_inv dbg : forall evs done st l, INV done st l -> allowed_all (loaded done) evs ->
  exists st' l', do_events dbg st evs = Ok st' /\ INV (done ++ evs) st' l' /\ ext (nms st) (nms st').
Proof.
  induction evs as [|ev evs IH]; intros done st l V A; cbn [do_events].
  - rewrite app_nil_r. exists st, l. split; auto. split; auto. apply ext_refl.
  - destruct A as (A1&A2). destruct (step_inv dbg done st l ev V A1) as (st1&l1&E1&V1&X1). rewrite E1. cbn [bind].
    rewrite <- loaded_snoc in A2. destruct (IH _ _ _ V1 A2) as (st2&l2&E2&V2&X2). exists st2, l2. split; auto.
    rewrite <- app_assoc in V2. split; auto. eapply ext_trans; eauto.
Qed.
Lemma init_inv : INV [] init_mods [].
Proof.
  constructor; [apply init_core| | |].
  - constructor; cbn; [lia| | |]; intros; try discriminate; destruct i; discriminate.
  - intros _ r [].
  - intros _. split; [|intros r []]. constructor; cbn; try tauto.
Qed.
Lemma start_inv dbg evs : allowed_all [] evs -> exists st l, do_events dbg init_mods evs = Ok st /\ INV evs st l.
Proof. intros A. destruct (run_inv dbg evs [] init_mods [] init_inv A) as (st&l&E1&V&_). eauto. Qed.
Lemma start_inv' dbg evs st : allowed_all [] evs -> do_events dbg init_mods evs = Ok st -> exists l, INV evs st l.
Proof. intros A E. destruct (start_inv dbg evs A) as (st'&l&E1&V). rewrite E in E1. injection E1 as <-. eauto. Qed.

(** ---- C32 ---- *)
Lemma lookup_exact dbg evs : allowed_all [] evs -> exists st, do_events dbg init_mods evs = Ok st /\
  forall pc, exists st' r, module_lookup st pc = Ok (st', r) /\
    match r, where_is (loaded evs) pc with
    | Some (b, s, i), Some rg => b = r_start rg /\ s = r_end rg - r_start rg /\ exists m, nth_error (infos (nms st')) i = Some m /\ mi_path m = r_path rg
    | None, None => True
    | _, _ => False
    end.
Proof.
  intros A. destruct (start_inv dbg evs A) as (st&l&E1&V). exists st. split; auto. intros pc. destruct V as [C _ _ _].
  destruct (lookup_ok st l _ pc C) as (st'&r&E2&C'&X&_&_&_&H). exists st', r. split; auto. destruct r as [[[b s] i]|].
  - destruct H as (rg&I&CV&->&->&P). rewrite (where_some _ _ _ C pc rg I CV). repeat (split; auto). rewrite X.
    unfold path_of in P. destruct (nth_error (infos (nms st)) i) as [m|]; [|discriminate]. injection P as P. eauto.
  - rewrite where_none; auto.
Qed.
Lemma in_module_exact dbg evs : allowed_all [] evs -> Forall paged evs -> exists st, do_events dbg init_mods evs = Ok st /\
  forall pc, 0 <= pc -> exists st', is_in_module st pc = Ok (st', match where_is (loaded evs) pc with Some _ => true | None => false end).
Proof.
  intros A PG. destruct (start_inv dbg evs A) as (st&l&E1&V). exists st. split; auto. intros pc P0. destruct V as [C _ _ P].
  destruct (is_in_ok st l _ pc C) as (st'&r&E2&C'&X&H). destruct (H P0 (proj1 (P PG))) as (_&R). exists st'. rewrite E2. do 2 f_equal.
  destruct (where_is (loaded evs) pc) as [rg|] eqn:W.
  - apply find_some in W. destruct W as (W1&W2). apply R. destruct (proj1 (c_lr _ _ _ C) rg W1) as (e&I&Q). exists e. split; auto.
    rewrite <- (ent_covers _ _ _ pc Q). auto.
  - destruct r; auto. destruct (proj1 R eq_refl) as (e&I&Q). destruct (proj2 (c_lr _ _ _ C) e I) as (rg&J&K).
    rewrite <- (ent_covers _ _ _ pc K) in Q. pose proof (find_none _ _ W rg J). congruence.
Qed.
