(** Runs: the cache against the ideal one, and against the versions of the
    modules. *)
From Coq Require Import Permutation.
From Verif Require Import Base Symcache_Model Symcache_Spec Symcache_Proofs Symcache_Proofs2
  Symcache_Proofs3.
Open Scope Z_scope.

Lemma assoc_remove {A} (l : list (bytes * A)) k x :
  assoc (remove l k) x = if str_eqb x k then None else assoc l x.
Proof.
  unfold remove. induction l as [|[y v] l IH]; cbn.
  - now destruct (str_eqb x k).
  - destruct (str_eqb_spec y k) as [->|N]; cbn [negb assoc].
    + rewrite IH. destruct (str_eqb_spec x k); [auto|]. destruct (str_eqb_spec k x); congruence.
    + rewrite IH. destruct (str_eqb_spec y x) as [->|]; [|auto].
      destruct (str_eqb_spec x k); congruence.
Qed.
Lemma assoc_update {A} (l : list (bytes * A)) k v x :
  assoc (update l k v) x = if str_eqb x k then Some v else assoc l x.
Proof.
  unfold update. cbn [assoc]. rewrite assoc_remove.
  destruct (str_eqb_spec k x), (str_eqb_spec x k); congruence.
Qed.
Lemma assoc_in {A} (l : list (bytes * A)) k v : assoc l k = Some v -> In (k, v) l.
Proof.
  induction l as [|[y w] l IH]; cbn; [discriminate|].
  destruct (str_eqb_spec y k) as [->|]; [intros [= ->]; auto|auto].
Qed.
Lemma assoc_none {A} (l : list (bytes * A)) k : assoc l k = None -> ~ In k (map fst l).
Proof.
  induction l as [|[y w] l IH]; cbn; [tauto|].
  destruct (str_eqb_spec y k) as [->|]; [discriminate|]. intros H [E|E]; [congruence|].
  exact (IH H E).
Qed.
Lemma assoc_nodup {A} (l : list (bytes * A)) k v :
  NoDup (map fst l) -> In (k, v) l -> assoc l k = Some v.
Proof.
  induction l as [|[y w] l IH]; cbn; [tauto|]. intros N [E|E]; inversion N; subst.
  - injection E as -> ->. now rewrite str_eqb_refl.
  - destruct (str_eqb_spec y k) as [->|]; auto. exfalso. apply H1.
    change k with (fst (k, v)). now apply in_map.
Qed.
Lemma remove_keys {A} (l : list (bytes * A)) k : NoDup (map fst l) -> NoDup (map fst (remove l k)).
Proof.
  unfold remove. induction l as [|[y w] l IH]; cbn; intros N; [constructor|].
  inversion N; subst. destruct (str_eqb y k); cbn; [auto|]. constructor; [|auto].
  intros I0. apply H1. apply in_map_iff in I0 as ([a b] & E & I0). apply filter_In in I0.
  apply in_map_iff. exists (a, b). tauto.
Qed.
Lemma remove_notin {A} (l : list (bytes * A)) k : ~ In k (map fst (remove l k)).
Proof.
  intros I0. apply in_map_iff in I0 as ([a b] & E & I0). apply filter_In in I0 as [_ I0].
  cbn in *. subst a. rewrite str_eqb_refl in I0. discriminate.
Qed.
Lemma update_keys {A} (l : list (bytes * A)) k v :
  NoDup (map fst l) -> NoDup (map fst (update l k v)).
Proof.
  intros N. unfold update. cbn [map fst]. constructor; [apply remove_notin|now apply remove_keys].
Qed.

Definition mcid (mc : modcache) : Z * Z * bytes := (c_size mc, c_time mc, c_md5 mc).
Lemma same_version_spec a b : reflect (mcid a = mcid b) (same_version a b).
Proof.
  unfold same_version, mcid. destruct (Z.eqb_spec (c_size a) (c_size b)); cbn [andb];
    [|constructor; congruence].
  destruct (Z.eqb_spec (c_time a) (c_time b)); cbn [andb]; [|constructor; congruence].
  destruct (str_eqb_spec (c_md5 a) (c_md5 b)); constructor; congruence.
Qed.
Lemma ok_mc_of mc m : mcid mc = ident m -> ok_image m -> ok_mc mc.
Proof. intros [= E1 E2 E3]. unfold ok_image, ok_mc. now rewrite E1, E2, E3. Qed.

(** what a save puts in place of the file *)
Definition out (ord : table -> table) (mc : modcache) : option bytes :=
  if c_from_file mc && negb (c_appended mc) then None
  else match c_table mc with [] => None | _ => Some (text mc (ord (c_table mc))) end.

Lemma iadd_in l o l' x : iadd l o = Some l' -> In x l' -> x = o \/ In x l.
Proof.
  unfold iadd. intros E I0. destruct l as [|a [|b r]].
  - injection E as <-. cbn in *. intuition.
  - destruct (a =? 0); [injection E as <-; cbn in *; intuition|].
    destruct (o =? 0); [discriminate|]. destruct (a =? o); injection E as <-; [auto|].
    cbn in *. intuition.
  - destruct (in_dec Z.eq_dec o (a :: b :: r)); injection E as <-; [auto|].
    apply (in_app_iff (a :: b :: r) [o]) in I0. cbn in *. intuition.
Qed.
Lemma iadd_nonempty l o l' : iadd l o = Some l' -> l' <> [].
Proof.
  unfold iadd. destruct l as [|a [|b r]]; intros E.
  - injection E as <-; discriminate.
  - destruct (a =? 0); [injection E as <-; discriminate|]. destruct (o =? 0); [discriminate|].
    destruct (a =? o); injection E as <-; discriminate.
  - destruct (in_dec Z.eq_dec o (a :: b :: r)); injection E as <-; discriminate.
Qed.
Lemma lst_find tb sym : wf_tb tb ->
  match sym_find tb sym with
  | Some o => ol_list o <> [] /\ ol_num o = len (ol_list o)
  | None => lst tb sym = []
  end.
Proof.
  intros W. unfold lst. destruct (sym_find tb sym) as [o|] eqn:E; [|auto].
  apply sym_find_in in E. destruct (proj2 W _ _ E) as [_ ((N & _) & En & _)]. auto.
Qed.

Section Runs.
Variable ord : table -> table.
Hypothesis Hord : forall t, Permutation t (ord t).

(** ---- against the ideal cache ---- *)
Variable U : list image.
Hypothesis HU : ok_images U.

Lemma U_path m m' : In m U -> In m' U -> m_path m = m_path m' -> m = m'.
Proof.
  destruct HU as (_ & N & _). clear -N. induction U as [|a l IH]; cbn in *; [tauto|].
  inversion N; subst. intros [->|I1] [->|I2] E; auto.
  - exfalso. apply H1. rewrite E. now apply in_map.
  - exfalso. apply H1. rewrite <- E. now apply in_map.
Qed.
Lemma U_name m m' : In m U -> In m' U -> m_name m = m_name m' -> m = m'.
Proof.
  destruct HU as (_ & _ & N). clear -N. induction U as [|a l IH]; cbn in *; [tauto|].
  inversion N; subst. intros [->|I1] [->|I2] E; auto.
  - exfalso. apply H1. rewrite E. now apply in_map.
  - exfalso. apply H1. rewrite <- E. now apply in_map.
Qed.
Lemma U_ok m : In m U -> ok_image m.
Proof. destruct HU as (F & _). rewrite Forall_forall in F. auto. Qed.

Definition file_ok (m : image) (f : option bytes) (t : omap) : Prop :=
  match f with
  | None => forall sym, t sym = []
  | Some f => exists mc es, f = text mc es /\ ok_mc mc /\ mcid mc = ident m /\
      c_dbg mc = m_syms m /\ wf_tb es /\ forall sym, lst es sym = t sym
  end.
Definition live_ok (m : image) (x : option (bytes * modcache)) (y : option omap) (saved : omap)
  : Prop :=
  match x, y with
  | None, None => True
  | Some (n, mc), Some t =>
      n = m_name m /\ mcid mc = ident m /\ c_dbg mc = m_syms m /\ wf_tb (c_table mc) /\
      (forall sym, lst (c_table mc) sym = t sym) /\
      (forall sym, t sym = [] -> saved sym = []) /\
      (c_from_file mc && negb (c_appended mc) = true -> forall sym, saved sym = t sym)
  | _, _ => False
  end.
Definition inv (s : state) (i : ideal) : Prop :=
  NoDup (map fst (s_mods s)) /\
  (forall p n mc, In (p, (n, mc)) (s_mods s) -> exists m, In m U /\ p = m_path m /\ n = m_name m) /\
  forall m, In m U ->
    live_ok m (assoc (s_mods s) (m_path m)) (i_live i (m_path m)) (i_saved i (m_path m)) /\
    file_ok m (assoc (s_files s) (m_name m)) (i_saved i (m_path m)).

Lemma file_ext m f t t' : (forall sym, t sym = t' sym) -> file_ok m f t -> file_ok m f t'.
Proof.
  intros E. unfold file_ok. destruct f as [f|].
  - intros (mc & es & A & B & C & D & F & G). exists mc, es. repeat (split; [assumption|]).
    intros sym. now rewrite G, E.
  - intros H sym. now rewrite <- E.
Qed.

(** the file after a save *)
Lemma out_ok m mc t saved f :
  In m U -> live_ok m (Some (m_name m, mc)) (Some t) saved -> file_ok m f saved ->
  write_symfile ord true None mc = Ok (out ord mc) /\
  file_ok m (match out ord mc with Some g => Some g | None => f end) t.
Proof.
  intros Im (_ & Hid & Hd & W & L & Mo & Sv) Hf.
  pose proof (ok_mc_of _ _ Hid (U_ok _ Im)) as Om.
  split; [now apply write_text|]. unfold out.
  destruct (c_from_file mc && negb (c_appended mc)) eqn:Ea.
  - eapply file_ext; [|exact Hf]. apply Sv. reflexivity.
  - destruct (c_table mc) as [|e r] eqn:Et.
    + eapply file_ext; [|exact Hf]. intros sym. rewrite Mo; rewrite <- L; reflexivity.
    + rewrite <- Et in *. exists mc, (ord (c_table mc)). split; [reflexivity|].
      split; [exact Om|]. split; [exact Hid|]. split; [exact Hd|].
      split; [apply (wf_perm (c_table mc)); auto|].
      intros sym. rewrite (lst_perm (c_table mc)); auto.
Qed.

Lemma exit_all_spec l : forall files i,
  NoDup (map fst l) ->
  (forall p n mc, In (p, (n, mc)) l -> exists m, In m U /\ p = m_path m /\ n = m_name m) ->
  (forall m, In m U -> file_ok m (assoc files (m_name m)) (i_saved i (m_path m)) /\
     forall n mc, In (m_path m, (n, mc)) l ->
       exists t, i_live i (m_path m) = Some t /\
         live_ok m (Some (n, mc)) (Some t) (i_saved i (m_path m))) ->
  exists files', exit_all ord l files = Ok files' /\
    forall m, In m U ->
      match assoc l (m_path m) with
      | None => assoc files' (m_name m) = assoc files (m_name m)
      | Some (_, mc) =>
          assoc files' (m_name m) =
          match out ord mc with Some g => Some g | None => assoc files (m_name m) end
      end.
Proof.
  induction l as [|[p [n mc]] l IH]; intros files i N Src Ok0.
  - exists files. split; [reflexivity|]. intros m Im. reflexivity.
  - cbn [map fst] in N. inversion N; subst.
    destruct (Src p n mc (or_introl eq_refl)) as (m0 & I0 & Ep & En). subst p n.
    destruct (Ok0 m0 I0) as [Hf0 Hl0]. destruct (Hl0 _ mc (or_introl eq_refl)) as (t0 & _ & Lo).
    destruct (out_ok m0 mc t0 _ _ I0 Lo Hf0) as [Ew _].
    cbn [exit_all]. rewrite Ew. cbn [bind].
    set (files1 := match out ord mc with Some f => update files (m_name m0) f | None => files end).
    assert (A1 : forall m, In m U -> m <> m0 -> assoc files1 (m_name m) = assoc files (m_name m)).
    { intros m Im Nm. unfold files1. destruct (out ord mc); [|auto]. rewrite assoc_update.
      destruct (str_eqb_spec (m_name m) (m_name m0)) as [E|]; [|auto].
      exfalso. apply Nm. now apply U_name. }
    destruct (IH files1 (mkI (fun p => if str_eqb p (m_path m0) then None else i_live i p)
                (fun p => if str_eqb p (m_path m0) then t0 else i_saved i p)))
      as (files' & E & H); auto.
    { intros p n mc' I'. apply (Src p n mc'). now right. }
    { intros m Im. cbn [i_live i_saved].
      destruct (str_eqb_spec (m_path m) (m_path m0)) as [Em|Em].
      - apply U_path in Em; auto. subst m. split.
        + destruct (out_ok m0 mc t0 _ _ I0 Lo Hf0) as [_ Hn]. unfold files1.
          destruct (out ord mc); [|exact Hn]. rewrite assoc_update, str_eqb_refl. exact Hn.
        + intros n mc' I'. exfalso. apply H1. change (m_path m0) with (fst (m_path m0, (n, mc'))).
          now apply in_map.
      - destruct (Ok0 m Im) as [Hf Hl]. split.
        + rewrite A1; auto. congruence.
        + intros n mc' I'. apply Hl. now right. }
    exists files'. split; [exact E|]. intros m Im. specialize (H m Im). cbn [assoc].
    destruct (str_eqb_spec (m_path m0) (m_path m)) as [Em|Em].
    + apply U_path in Em; auto. subst m.
      assert (En0 : assoc l (m_path m0) = None).
      { destruct (assoc l (m_path m0)) as [v|] eqn:Ea; [|auto]. exfalso. apply H1.
        apply assoc_in in Ea. change (m_path m0) with (fst (m_path m0, v)). now apply in_map. }
      rewrite En0 in H. rewrite H. unfold files1. destruct (out ord mc); [|auto].
      now rewrite assoc_update, str_eqb_refl.
    + assert (m <> m0) by congruence. destruct (assoc l (m_path m)) as [[n' mc']|].
      * rewrite H, A1; auto.
      * rewrite H, A1; auto.
Qed.

Lemma assoc_src s i m n mc : inv s i -> In m U ->
  assoc (s_mods s) (m_path m) = Some (n, mc) -> n = m_name m.
Proof. intros (_ & _ & H) Im E. destruct (H m Im) as [L _]. rewrite E in L.
  unfold live_ok in L. destruct (i_live i (m_path m)); [|tauto]. tauto. Qed.

Lemma step_inv s i o :
  inv s i -> ok_op o -> (forall m, op_image o = Some m -> In m U) ->
  match istep i o with
  | None => step ord s o = Ok Aborted
  | Some i' => exists s', step ord s o = Ok (Running s') /\ inv s' i'
  end.
Proof.
  intros Iv Oo Om. pose proof Iv as (N & Src & H).
  destruct o as [m|m|m|m sym offs| |]; cbn [op_image] in Om; cbn [istep step].
  - (* Load *)
    specialize (Om m eq_refl). destruct (H m Om) as [Lm Fm]. unfold module_load.
    destruct (m_big m); cbn [negb]; [|eauto].
    unfold live_ok in Lm.
    destruct (assoc (s_mods s) (m_path m)) as [[n mc]|] eqn:Ea;
      destruct (i_live i (m_path m)) as [t|] eqn:El; try tauto; [eauto|].
    set (mc0 := mkMC false false [] (m_size m) (m_time m) (m_md5 m) false).
    assert (Fin : forall ok tb, wf_tb tb ->
       (forall sy, lst tb sy = i_saved i (m_path m) sy) ->
       inv (mkSt (update (s_mods s) (m_path m)
              (m_name m, mkMC ok false tb (m_size m) (m_time m) (m_md5 m) (m_syms m))) (s_files s))
           (mkI (upd (i_live i) (m_path m) (Some (i_saved i (m_path m)))) (i_saved i))).
    { intros ok tb W L. split; [now apply update_keys|]. split.
      - intros p n mc I0. cbn [s_mods] in I0. unfold update in I0. destruct I0 as [I0|I0].
        + injection I0 as <- <- <-. eauto.
        + unfold remove in I0. apply filter_In in I0 as [I0 _]. eauto.
      - intros m' Im'. destruct (H m' Im') as [Lm' Fm'].
        cbn [s_mods s_files i_live i_saved]. split; [|exact Fm'].
        rewrite assoc_update. unfold upd.
        destruct (str_eqb_spec (m_path m') (m_path m)) as [E|]; [|exact Lm'].
        apply U_path in E; auto. subst m'. unfold live_ok. cbn [c_table c_dbg c_from_file c_appended].
        split; [reflexivity|]. split; [reflexivity|]. split; [reflexivity|].
        split; [exact W|]. split; [exact L|]. split; auto. }
    unfold file_ok in Fm. destruct (assoc (s_files s) (m_name m)) as [f|].
    + destruct Fm as (mc & es & -> & Okm & Hid & Hd & We & Le).
      pose proof (read_text mc es mc0 (m_syms m) Okm We eq_refl eq_refl) as R.
      destruct (same_version_spec mc mc0) as [_|Nv]; [|exfalso; apply Nv; exact Hid].
      rewrite Hd in R. replace (true && (m_syms m || negb (m_syms m))) with true in R
        by (now destruct (m_syms m)).
      destruct R as (tb & Er & W & L). rewrite Er. cbn [bind]. eexists. split; [reflexivity|].
      apply Fin; auto. intros sy. now rewrite L.
    + cbn [read_symfile bind read_fail c_table]. eexists. split; [reflexivity|].
      apply (Fin false []); [split; [constructor|intros ? ? []]|]. intros sy. now rewrite Fm.
  - (* Save *)
    specialize (Om m eq_refl). destruct (H m Om) as [Lm Fm]. unfold module_save.
    destruct (assoc (s_mods s) (m_path m)) as [[n mc]|] eqn:Ea;
      destruct (i_live i (m_path m)) as [t|] eqn:El; try (exfalso; exact Lm).
    2:{ cbn [bind]. eauto. }
    assert (n = m_name m) as -> by (unfold live_ok in Lm; tauto).
    destruct (out_ok m mc t _ _ Om Lm Fm) as [Ew Fn]. rewrite Ew. cbn [bind].
    eexists. split; [reflexivity|]. split; [exact N|]. split; [exact Src|].
    intros m' Im'. destruct (H m' Im') as [Lm' Fm']. cbn [s_mods s_files i_live i_saved].
    unfold upd at 1 2. destruct (str_eqb_spec (m_path m') (m_path m)) as [E|Ne].
    + apply U_path in E; auto. subst m'. split.
      * rewrite Ea, El. unfold live_ok in Lm |- *. intuition.
      * destruct (out ord mc); [rewrite assoc_update, str_eqb_refl|]; exact Fn.
    + split; [exact Lm'|]. destruct (out ord mc); [|exact Fm']. rewrite assoc_update.
      destruct (str_eqb_spec (m_name m') (m_name m)) as [E|]; [|exact Fm'].
      apply U_name in E; auto. congruence.
  - (* Unload *)
    specialize (Om m eq_refl). destruct (H m Om) as [Lm Fm]. unfold module_save.
    destruct (assoc (s_mods s) (m_path m)) as [[n mc]|] eqn:Ea;
      destruct (i_live i (m_path m)) as [t|] eqn:El; try (exfalso; exact Lm).
    2:{ cbn [bind]. eauto. }
    assert (n = m_name m) as -> by (unfold live_ok in Lm; tauto).
    destruct (out_ok m mc t _ _ Om Lm Fm) as [Ew Fn]. rewrite Ew. cbn [bind].
    eexists. split; [reflexivity|]. split; [now apply remove_keys|]. split.
    { intros p n mc' I0. cbn [s_mods] in I0. unfold remove in I0. apply filter_In in I0 as [I0 _].
      eauto. }
    intros m' Im'. destruct (H m' Im') as [Lm' Fm']. cbn [s_mods s_files i_live i_saved].
    rewrite assoc_remove. unfold upd.
    destruct (str_eqb_spec (m_path m') (m_path m)) as [E|Ne].
    + apply U_path in E; auto. subst m'. split; [exact I|].
      destruct (out ord mc); [rewrite assoc_update, str_eqb_refl|]; exact Fn.
    + split; [exact Lm'|]. destruct (out ord mc); [|exact Fm']. rewrite assoc_update.
      destruct (str_eqb_spec (m_name m') (m_name m)) as [E|]; [|exact Fm'].
      apply U_name in E; auto. congruence.
  - (* Add *)
    specialize (Om m eq_refl). destruct (H m Om) as [Lm Fm]. destruct Oo as [Hs Ho].
    unfold cache_add.
    destruct (assoc (s_mods s) (m_path m)) as [[n mc]|] eqn:Ea;
      destruct (i_live i (m_path m)) as [t|] eqn:El; try (exfalso; exact Lm).
    2:{ eauto. }
    unfold live_ok in Lm. destruct Lm as (-> & Hid & Hd & W & L & Mo & Sv).
    pose proof (symbol_add_spec _ _ _ W Hs Ho) as Sp. rewrite L in Sp.
    destruct (iadd (t sym) offs) as [l|] eqn:Ei; [|now rewrite Sp].
    destruct Sp as (tb' & ch & -> & W' & Ch & L').
    eexists. split; [reflexivity|]. split; [now apply update_keys|]. split.
    { intros p n mc' I0. cbn [s_mods] in I0. unfold update in I0. destruct I0 as [I0|I0].
      - injection I0 as <- <- <-. eauto.
      - unfold remove in I0. apply filter_In in I0 as [I0 _]. eauto. }
    intros m' Im'. destruct (H m' Im') as [Lm' Fm']. cbn [s_mods s_files i_live i_saved].
    split; [|exact Fm']. rewrite assoc_update. unfold upd.
    destruct (str_eqb_spec (m_path m') (m_path m)) as [E|]; [|exact Lm'].
    apply U_path in E; auto. subst m'. unfold live_ok.
    cbn [c_table c_dbg c_from_file c_appended].
    split; [reflexivity|]. split; [exact Hid|]. split; [exact Hd|]. split; [exact W'|].
    split. { intros sy. rewrite L'. unfold oset. destruct (str_eqb sy sym); auto. }
    split.
    { intros sy. unfold oset. destruct (str_eqb_spec sy sym) as [->|]; [|apply Mo].
      intros E0. apply iadd_nonempty in Ei. congruence. }
    { intros Hf sy.
      assert (Hc : ch = false /\ c_from_file mc && negb (c_appended mc) = true).
      { destruct ch, (c_from_file mc), (c_appended mc); cbn in *; auto; discriminate. }
      destruct Hc as [-> Hc]. specialize (Ch eq_refl). subst tb'. rewrite (Sv Hc).
      unfold oset. rewrite <- L, L'. now destruct (str_eqb sy sym). }
  - (* Exit *)
    unfold cache_exit.
    destruct (exit_all_spec (s_mods s) (s_files s) i N Src) as (files' & E & Hf).
    { intros m Im. destruct (H m Im) as [Lm Fm]. split; [exact Fm|].
      intros n mc I0. rewrite (assoc_nodup _ _ _ N I0) in Lm. unfold live_ok in Lm at 1.
      destruct (i_live i (m_path m)) as [t|]; [|tauto]. eauto. }
    rewrite E. cbn [bind]. eexists. split; [reflexivity|].
    split; [constructor|]. split; [intros ? ? ? []|].
    intros m Im. destruct (H m Im) as [Lm Fm]. specialize (Hf m Im).
    cbn [s_mods s_files i_live i_saved]. split; [exact I|].
    destruct (assoc (s_mods s) (m_path m)) as [[n mc]|] eqn:Ea;
      destruct (i_live i (m_path m)) as [t|] eqn:El; try (exfalso; exact Lm).
    + rewrite Hf. assert (n = m_name m) as -> by (unfold live_ok in Lm; tauto).
      apply (out_ok m mc t _ _ Im Lm Fm).
    + rewrite Hf. exact Fm.
  - (* Crash *)
    eexists. split; [reflexivity|]. split; [constructor|]. split; [intros ? ? ? []|].
    intros m Im. destruct (H m Im) as [Lm Fm]. split; [exact I|exact Fm].
Qed.

Lemma run_inv l : forall s i, inv s i -> ok_ops U l ->
  match irun i l with
  | None => run ord s l = Ok Aborted
  | Some i' => exists s', run ord s l = Ok (Running s') /\ inv s' i'
  end.
Proof.
  induction l as [|o l IH]; intros s i Iv F; cbn [irun run]; [eauto|].
  inversion F as [|? ? [Ho Hi] F']; subst.
  pose proof (step_inv s i o Iv Ho Hi) as St. destruct (istep i o) as [i'|].
  - destruct St as (s' & -> & Iv'). cbn [bind]. now apply IH.
  - rewrite St. reflexivity.
Qed.

Theorem persist l : ok_ops U l ->
  match irun i_init l with
  | None => run ord (mkSt [] []) l = Ok Aborted
  | Some i => exists s, run ord (mkSt [] []) l = Ok (Running s) /\
      forall m, In m U -> forall sym, cache_lookup s m sym = Ok (ilookup i m sym)
  end.
Proof.
  intros F. assert (I0 : inv (mkSt [] []) i_init).
  { split; [constructor|]. split; [intros ? ? ? []|]. intros m Im. cbn. auto. }
  pose proof (run_inv l _ _ I0 F) as R. destruct (irun i_init l) as [i|]; [|exact R].
  destruct R as (s & E & (_ & _ & H)). exists s. split; [exact E|].
  intros m Im sym. destruct (H m Im) as [Lm _]. unfold cache_lookup, ilookup.
  unfold live_ok in Lm.
  destruct (assoc (s_mods s) (m_path m)) as [[n mc]|];
    destruct (i_live i (m_path m)) as [t|]; try tauto.
  destruct Lm as (_ & _ & _ & W & L & _). specialize (L sym).
  pose proof (lst_find _ sym W) as Fd. unfold lst in L.
  destruct (sym_find (c_table mc) sym) as [o|].
  - destruct Fd as [Nn En]. rewrite En, Z.ltb_irrefl, L.
    destruct (t sym); [congruence|reflexivity].
  - rewrite <- L. reflexivity.
Qed.
End Runs.
