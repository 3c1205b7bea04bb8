(** Releasing a loose chunk: coalescing, giving memory back, the free list. *)
From Coq Require Import Permutation.
From Verif Require Import Base Alloc_Model Alloc_Inv Alloc_Proofs Alloc_Proofs2 Alloc_Proofs3 Alloc_Proofs4.
Open Scope Z_scope.

Definition NL (l : list tile) : Prop := forall t, In t l -> tk t <> KLoose.
Lemma NL_app l l' : NL (l ++ l') <-> NL l /\ NL l'.
Proof.
  unfold NL. split.
  - intros H. split; intros t I; apply H, in_or_app; auto.
  - intros [A B] t I. apply in_app_or in I as [I|I]; auto.
Qed.
Lemma NL_cons t l : NL (t :: l) <-> tk t <> KLoose /\ NL l.
Proof.
  unfold NL. split.
  - intros H. split; [apply H; left; auto | intros u I; apply H; right; auto].
  - intros [A B] u [<-|I]; auto.
Qed.
Lemma lastpv_cases l : NL l -> lastpv PN l = PN \/ exists l' p z, l = l' ++ [Tile p z KFree] /\ lastpv PN l = PF z.
Proof.
  intros N. destruct l as [|t0 l0]; [left; reflexivity|].
  destruct (@exists_last _ (t0 :: l0)) as (l' & t & E); [discriminate|]. rewrite E in *. rewrite lastpv_app. cbn.
  destruct t as [p z k]. destruct k; cbn; auto.
  - right. exists l', p, z. auto.
  - exfalso. apply (N (Tile p z KLoose)); [apply in_or_app; cbn; auto | reflexivity].
Qed.

Section Release.
Context (c : cfg) (W : wfc c).
Notation g := (inter c).
Notation INV := (INV c).

Lemma LB_solid Ts Ts' M x : solid Ts = solid Ts' -> LB Ts M x -> LB Ts' M x.
Proof.
  intros E [(t & I & L & B)|B]; [left | right; exact B].
  assert (J : In t (solid Ts)).
  { apply filter_In. split; auto. unfold live, solidk in *. destruct (tk t); auto; discriminate. }
  rewrite E in J. apply filter_In in J as [J _]. eauto.
Qed.

(** One arena's extent, tiles and headers changed. *)
Lemma CH_arena s s' X a l a' l' Y M :
  CH c s (X ++ (a, l) :: Y) M ->
  geom c a' -> a_base a' = a_base a -> laid c (a_start a') l' (a_next a') -> Forall num l' ->
  heads s' PN l' -> fin a' (lastpv PN l') ->
  arenas s' = map fst X ++ a' :: map fst Y ->
  disj_all (ranges (X ++ (a', l') :: Y) M) ->
  (forall x t, In x (X ++ Y) -> In t (snd x) -> hd s' (tp t) = hd s (tp t)) ->
  (forall m, In m M -> hd s' (mp m) = hd s (mp m)) -> mhead s' = mhead s ->
  Permutation (regions s') (regs (X ++ (a', l') :: Y) M) ->
  (X = [] -> cur_brk s' = a_commit a') -> (X <> [] -> cur_brk s' = cur_brk s) ->
  (forall p h, hd s' p = Some h -> h_freed h = false ->
     (hd s p = Some h /\ (forall t, In t l -> live t = true -> tp t = p -> exists d ty sk, In (Tile p (tsz t) (KLive d ty sk)) l')) \/
     (exists z d ty sk, In (Tile p z (KLive d ty sk)) l')) ->
  CH c s' (X ++ (a', l') :: Y) M.
Proof.
  intros H Gm Eb La Nm Hh Hf Ea Dj Ho Hm Em Er Eb1 Eb2 St. split; auto.
  - rewrite Ea, map_app. reflexivity.
  - pose proof (ch_ok _ _ _ _ H) as O. rewrite Forall_app, Forall_cons_iff in *. destruct O as (OX & OA & OY).
    assert (Fr : forall Z0, incl Z0 (X ++ Y) ->
       Forall (fun x => arena_ok c s (fst x) (snd x)) Z0 -> Forall (fun x => arena_ok c s' (fst x) (snd x)) Z0).
    { intros Z0 HZ FZ. rewrite Forall_forall in *. intros x Ix. destruct (FZ x Ix) as [F1 F2 F3 F4 F5]. split; auto.
      eapply heads_frame; [|exact F4]. intros t It. eapply Ho; eauto. }
    split; [|split].
    + apply Fr; auto. apply incl_appl, incl_refl.
    + split; auto.
    + apply Fr; auto. apply incl_appr, incl_refl.
  - destruct X as [|[b lb] X].
    + eexists _, _, _. split; [reflexivity|]. symmetry. apply Eb1. reflexivity.
    + destruct (ch_main _ _ _ _ H) as (b' & l0 & Z0 & E & B). cbn [app] in E. injection E as <- <- E.
      eexists _, _, _. split; [reflexivity|]. rewrite Eb2 by discriminate. exact B.
  - pose proof (ch_mm _ _ _ _ H) as O. rewrite Forall_forall in *. intros m Im. destruct (O m Im) as [O1 O2 O3 O4 O5 O6 O7 O8].
    split; auto; [rewrite Hm by auto; exact O1 | rewrite Em; exact O2].
  - intros p h E Fd. rewrite tiles_app, tiles_cons. destruct (St p h E Fd) as [[E' Q]|(z & d & ty & sk & I)].
    + destruct (ch_stale _ _ _ _ H p h E' Fd) as [(z & d & ty & sk & J)|J]; [left|right; exact J].
      rewrite tiles_app, tiles_cons, !in_app_iff in J. destruct J as [J|[J|J]].
      * exists z, d, ty, sk. rewrite !in_app_iff. auto.
      * destruct (Q _ J eq_refl eq_refl) as (d' & ty' & sk' & I). exists z, d', ty', sk'. rewrite !in_app_iff. auto.
      * exists z, d, ty, sk. rewrite !in_app_iff. auto.
    + left. exists z, d, ty, sk. rewrite !in_app_iff. auto.
Qed.

Lemma disj_shrink X a l a' l' Y M : disj_all (ranges (X ++ (a, l) :: Y) M) -> a_base a' = a_base a -> a_commit a' <= a_commit a ->
  disj_all (ranges (X ++ (a', l') :: Y) M).
Proof.
  intros D E1 E2. rewrite ranges_mid in *. apply disj_all_mid in D as [D1 D2]. apply disj_all_mid. split; auto.
  eapply Forall_impl; [|exact D1]. intros r. unfold disj. cbn [fst snd]. rewrite E1. lia.
Qed.
Lemma disj_other X a l Y M x : disj_all (ranges (X ++ (a, l) :: Y) M) -> In x (X ++ Y) ->
  a_commit a <= a_base (fst x) \/ a_commit (fst x) <= a_base a.
Proof.
  intros D I. rewrite ranges_mid in D. apply disj_all_mid in D as [D _]. rewrite Forall_forall in D.
  apply (D (rng_a x)). rewrite !in_app_iff in *. destruct I; [left | right; left]; apply in_map; auto.
Qed.
Lemma disj_other_m X a l Y M m : disj_all (ranges (X ++ (a, l) :: Y) M) -> In m M ->
  a_commit a <= mb m \/ mb m + msz m <= a_base a.
Proof.
  intros D I. rewrite ranges_mid in D. apply disj_all_mid in D as [D _]. rewrite Forall_forall in D.
  apply (D (rng_m m)). rewrite !in_app_iff in *. right; right; apply in_map; auto.
Qed.
Lemma ch_geom s X a l Y M : CH c s (X ++ (a, l) :: Y) M -> geom c a.
Proof. intros H. apply (arena_in_GEO c _ _ _ _ _ (CH_GEO _ _ _ _ H)). Qed.
(** the header of any other arena's tile, or of a mapping, is outside this arena *)
Lemma far_tile s X a l Y M x t : CH c s (X ++ (a, l) :: Y) M -> In x (X ++ Y) -> In t (snd x) ->
  header_at c (tp t) + 32 <= a_base a \/ a_commit a <= header_at c (tp t).
Proof.
  intros H I J. pose proof (disj_other _ _ _ _ _ _ (ch_disj _ _ _ _ H) I) as D.
  assert (Gx : gok c x).
  { pose proof (CH_GEO _ _ _ _ H) as [G _]. rewrite Forall_forall in G. apply G. rewrite in_app_iff in *. cbn. tauto. }
  pose proof (gok_in c W x t Gx J). pose proof (header_rng c W (tp t)). lia.
Qed.
Lemma far_mm s X a l Y M m : CH c s (X ++ (a, l) :: Y) M -> In m M ->
  header_at c (mp m) + 32 <= a_base a \/ a_commit a <= header_at c (mp m).
Proof.
  intros H I. pose proof (disj_other_m _ _ _ _ _ _ (ch_disj _ _ _ _ H) I) as D.
  pose proof (ch_mm _ _ _ _ H) as O. rewrite Forall_forall in O. specialize (O m I).
  pose proof (m_lo _ _ _ O). pose proof (m_hi _ _ _ O). pose proof (m_diff _ _ _ O). pose proof (header_mm c W (mp m)).
  pose proof (wf_rz c W). lia.
Qed.

Lemma whole_arena_some l i lo hi j b : whole_arena l i lo hi = Some (j, b) ->
  exists A1 A2, l = A1 ++ b :: A2 /\ j = (i + length A1)%nat /\ a_start b = lo /\ a_next b = hi.
Proof.
  revert i; induction l as [|x l IH]; intros i E; cbn in E; [discriminate|].
  destruct (_ && _) eqn:Q.
  - injection E as <- <-. exists [], l. cbn. repeat split; lia.
  - destruct (IH _ E) as (A1 & A2 & -> & -> & R). exists (x :: A1), A2. cbn. split; [reflexivity|]. split; [lia | exact R].
Qed.
Lemma map_fst_split (Ts : ats) A1 b A2 : map fst Ts = A1 ++ b :: A2 ->
  exists X l Y, Ts = X ++ (b, l) :: Y /\ map fst X = A1 /\ map fst Y = A2.
Proof.
  revert A1; induction Ts as [|[a l] Ts IH]; intros A1 E; [destruct A1; discriminate|].
  destruct A1 as [|a0 A1]; cbn in E; injection E as -> E.
  - exists [], l, Ts. auto.
  - destruct (IH _ E) as (X & l' & Y & -> & <- & <-). exists ((a0, l) :: X), l', Y. auto.
Qed.
Lemma mid_order {A} (X : list A) x Y X' x' Y' : X ++ x :: Y = X' ++ x' :: Y' ->
  (X = X' /\ x = x' /\ Y = Y') \/ In x' (X ++ Y).
Proof.
  revert X'; induction X as [|y X IH]; intros X' E.
  - destruct X' as [|y' X']; cbn in E; injection E as E1 E2; [left; auto|]. right. cbn. rewrite E2. apply in_elt.
  - destruct X' as [|y' X']; cbn in E; injection E as E1 E2; [right; left; auto|].
    destruct (IH _ E2) as [(Q1 & Q2 & Q3)|I]; [left; subst; auto | right; right; auto].
Qed.

(** alloc_replace.c [consider_giving_back_memory] *)
Lemma give_back o s X a l1 p z l2 Y M D F i :
  INV s (X ++ (a, l1 ++ Tile p z KLoose :: l2) :: Y) M D F -> (i <= length X)%nat -> lastpv PN l1 = PN ->
  exists s' kept, consider_giving_back c o s i p = Ok (s', kept) /\
    if kept then s' = s else
    exists Ts', INV s' Ts' M D F /\ tiles Ts' = others X l1 l2 Y /\ (length Ts' <= length (X ++ (a, l1 ++ Tile p z KLoose :: l2) :: Y))%nat /\ mem s' = mem s /\ large s' = large s.
Proof.
  intros (H & L & K) Hi Pv. set (Ts := X ++ (a, l1 ++ Tile p z KLoose :: l2) :: Y) in *.
  pose proof (CH_GEO _ _ _ _ H) as G. pose proof (arena_in_GEO _ _ _ _ _ _ G) as Ga.
  destruct (ch_hok _ _ _ _ _ _ _ _ _ H) as ((h & Hh & Hal & Hmm & Hk & Hpv) & Hl1 & H2 & Hf). cbn [tp tsz tk pvof] in *.
  pose proof (gok_in c W _ (Tile p z KLoose) Ga ltac:(cbn [snd]; apply in_elt)) as Tp. cbn [fst tp tsz] in Tp.
  pose proof (ch_geom _ _ _ _ _ _ H) as Gm. pose proof Gm as Gm'. unfold geom in Gm'.
  pose proof (g_rng c W) as Gr.
  unfold consider_giving_back, geth. rewrite Hh. cbn [of_option bind].
  destruct (ARENA_INITIAL_SIZE / 2 <=? h_alloc h); [|eexists _, true; split; reflexivity].
  assert (Li : (i < length Ts)%nat) by (unfold Ts; rewrite app_length; cbn; lia).
  destruct (nth_error (arenas s) i) as [ai|] eqn:Ei.
  2:{ apply nth_error_None in Ei. rewrite (ch_arenas _ _ _ _ H), map_length in Ei. lia. }
  cbn [of_option bind]. rewrite Hal.
  set (want := ALIGN_FORWARD p PAGE_SIZE).
  set (nb := if o_brk o want then want else cur_brk s).
  destruct (ch_main _ _ _ _ H) as (m0 & lm & Ym & EM & CM).
  assert (Gmain : geom c m0).
  { apply (ch_geom s [] m0 lm Ym M). cbn. unfold Ts in EM. rewrite <- EM. exact H. }
  destruct ((a_commit ai =? cur_brk s) && (p + z + g =? a_next ai) && (nb <=? cur_brk s)) eqn:Ec.
  - (* the end of the main arena *)
    assert (C1 : a_commit ai = cur_brk s) by lia. assert (C2 : p + z + g = a_next ai) by lia. assert (C3 : nb <= cur_brk s) by lia. clear Ec.
    assert (ai = m0).
    { rewrite (ch_arenas _ _ _ _ H), EM in Ei. destruct i as [|i]; cbn in Ei; [congruence|].
      exfalso. apply nth_error_In in Ei. apply in_map_iff in Ei as (x & <- & Ix).
      unfold Ts in EM. assert (H' : CH c s ([] ++ (m0, lm) :: Ym) M) by (cbn; rewrite <- EM; exact H).
      pose proof (disj_other _ _ _ _ _ x (ch_disj _ _ _ _ H') Ix) as Dx.
      assert (geom c (fst x)). { pose proof (ch_ok _ _ _ _ H') as O. rewrite Forall_forall in O. destruct (O x) as [O1 _ _ _ _]; auto. right; auto. }
      unfold geom in *. lia. }
    subst ai.
    assert (X = [] /\ m0 = a /\ Ym = Y /\ lm = l1 ++ Tile p z KLoose :: l2) as (-> & -> & -> & ->).
    { unfold Ts in EM. destruct X as [|x X]; [injection EM; auto|]. exfalso.
      cbn in EM. injection EM as -> EM.
      assert (Ix : In (m0, lm) (((m0, lm) :: X) ++ Y)) by (left; auto).
      pose proof (disj_other _ _ _ _ _ _ (ch_disj _ _ _ _ H) Ix) as Dx. cbn [fst] in Dx. unfold geom in Gmain. lia. }
    assert (l2 = []).
    { destruct Ga as (_ & La & Nm). cbn [fst snd] in La, Nm. apply laid_mid in La as [_ La]. cbn [tp tsz] in La. rewrite <- C2 in La.
      destruct l2 as [|n l2]; auto. cbn in La. destruct La as [_ La]. rewrite Forall_app in Nm. destruct Nm as [_ Nm].
      apply Forall_cons_iff in Nm as [_ Nm]. apply Forall_cons_iff in Nm as [[N1 _] Nm]. apply (laid_le c W) in La; auto. lia. }
    subst l2. cbn [app] in *.
    assert (Hw : p <= want /\ want mod 4096 = 0 /\ want < p + 4096).
    { unfold want, ALIGN_FORWARD, PAGE_SIZE. split; [lia|]. split; [|lia]. rewrite Z.mod_mul; lia. }
    assert (Hnb : p <= nb /\ nb mod 4096 = 0).
    { unfold nb. destruct (o_brk o want); [lia|]. rewrite <- CM. lia. }
    assert (i = O) by (cbn in Hi; lia). subst i.
    eexists _, false. split; [reflexivity|].
    match goal with |- exists _, INV ?x _ _ _ _ /\ _ => set (s' := x) end.
    set (a' := Arena (a_base a) (a_start a) p nb 0).
    assert (Ea : arenas s' = a' :: map fst Y).
    { unfold s'. cbn. rewrite (ch_arenas _ _ _ _ H). unfold Ts. cbn. reflexivity. }
    assert (Hd1 : forall q, header_at c q + 32 <= nb \/ cur_brk s <= header_at c q -> hd s' q = hd s q).
    { intros q A. unfold s'. cbn. apply (hd_unmap c s nb (cur_brk s) q A). }
    exists ((a', l1) :: Y). split; [|split; [|split; [|split]]].
    + split; [|split].
      * destruct Ga as (_ & La & Nm). cbn [fst snd] in La, Nm. apply laid_mid in La as [La _]. cbn [tp] in La.
        rewrite Forall_app in Nm. destruct Nm as [Nm _].
        apply (CH_arena s s' [] a (l1 ++ [Tile p z KLoose]) a' l1 Y M); auto.
        -- unfold geom. cbn [a' a_base a_start a_next a_commit]. lia.
        -- eapply heads_frame; [|exact Hl1]. intros t It. apply Hd1. left.
           pose proof (laid_in c W _ _ _ t La Nm It). pose proof (header_rng c W (tp t)). lia.
        -- rewrite Pv. reflexivity.
        -- cbn [app]. apply (disj_shrink [] a (l1 ++ [Tile p z KLoose]) a' l1 Y M); auto; [apply (ch_disj _ _ _ _ H)|]. cbn. lia.
        -- intros x t Ix It. apply Hd1. destruct (far_tile s [] a _ Y M x t H Ix It) as [E|E]; lia.
        -- intros m Im. apply Hd1. destruct (far_mm s [] a _ Y M m H Im) as [E|E]; lia.
        -- cbn [app]. pose proof (regs_set c W s [] a (l1 ++ [Tile p z KLoose]) Y M a' l1 H eq_refl) as R. cbn [app] in R. rewrite <- R.
           unfold s'. cbn [regions upd_arena with_arenas with_brk set_region with_regions unmap with_hd].
           apply Permutation_map. apply (ch_regs _ _ _ _ H).
        -- intros N. contradiction.
        -- intros q hq E Fd. left. apply hd_unmap_sub in E. split; auto. intros t It Lt E'. apply in_app_or in It as [It|[<-|[]]]; [|discriminate].
           destruct t as [tp0 tsz0 tk0]. cbn in *. subst tp0. destruct tk0; try discriminate. eauto.
      * eapply LS_pres; [exact L | repeat split |]. intros q hq Iq E.
        assert (It : exists t, In t (others [] l1 [] Y) /\ tp t = q).
        { destruct Iq as [[b Iq]|Iq].
          - apply (lk_free _ _ _ K) in Iq as (z0 & Iq & _). apply (in_mid [] a l1 _ [] Y) in Iq as [Iq|Iq]; [discriminate|]. eauto.
          - apply in_map_iff in Iq as ([q0 z0] & Eq & Iq). cbn in Eq; subst q0. apply (lk_delay _ _ _ K) in Iq. apply (in_mid [] a l1 _ [] Y) in Iq as [Iq|Iq]; [discriminate|]. eauto. }
        destruct It as (t & It & <-). exists hq. repeat split; auto. rewrite Hd1; auto.
        unfold others in It. cbn in It. rewrite app_nil_r in It. apply in_app_or in It as [It|It].
        -- left. destruct Ga as (_ & La & Nm). cbn [fst snd] in La, Nm. apply laid_mid in La as [La _]. cbn [tp] in La.
           rewrite Forall_app in Nm. pose proof (laid_in c W _ _ _ t La (proj1 Nm) It). pose proof (header_rng c W (tp t)). lia.
        -- unfold tiles in It. apply in_concat in It as (l & I1 & I2). apply in_map_iff in I1 as (x & <- & I1).
           destruct (far_tile s [] a _ Y M x t H I1 I2) as [E0|E0]; lia.
      * eapply LK_ext; [exact K|]. intros t Lt. unfold Ts. rewrite !tiles_cons, !in_app_iff. cbn [In].
        split; [intros [[A|[<-|[]]]|A]; auto; discriminate | intros [A|A]; auto].
    + unfold others. cbn. rewrite app_nil_r. reflexivity.
    + cbn. lia.
    + reflexivity.
    + reflexivity.
  - clear Ec. destruct (whole_arena (skipn (S i) (arenas s)) (S i) p (p + z + g)) as [[j b]|] eqn:Ew; [|eexists _, true; split; reflexivity].
    apply whole_arena_some in Ew as (A1 & A2 & Es & -> & B1 & B2).
    assert (Ear : arenas s = (firstn (S i) (arenas s) ++ A1) ++ b :: A2) by (rewrite <- app_assoc, <- Es, firstn_skipn; reflexivity).
    assert (Lj : length (firstn (S i) (arenas s) ++ A1) = (S i + length A1)%nat).
    { rewrite app_length, firstn_length, (ch_arenas _ _ _ _ H), map_length. lia. }
    set (A0 := firstn (S i) (arenas s) ++ A1) in *. clearbody A0. rewrite (ch_arenas _ _ _ _ H) in Ear.
    destruct (map_fst_split _ _ _ _ Ear) as (X' & lb & Y' & ET & <- & <-). rewrite map_length in Lj.
    assert (X = X' /\ (a, l1 ++ Tile p z KLoose :: l2) = (b, lb) /\ Y = Y') as (<- & Eb & <-).
    { destruct (mid_order _ _ _ _ _ _ ET) as [Q|Q]; auto. exfalso.
      pose proof (disj_other _ _ _ _ _ _ (ch_disj _ _ _ _ H) Q) as Dx. cbn [fst] in Dx.
      assert (geom c b). { pose proof (ch_ok _ _ _ _ H) as O. rewrite Forall_forall in O. destruct (O (b, lb)) as [O1 _ _ _ _]; auto. rewrite ET. apply in_elt. }
      unfold geom in *. lia. }
    injection Eb as <- <-. clear ET Ear.
    assert (NX : X <> []) by (intros ->; cbn in Lj; lia).
    destruct Ga as (_ & La & Nm). cbn [fst snd] in La, Nm. apply laid_mid in La as [La1 La2]. cbn [tp tsz] in La1, La2.
    rewrite Forall_app, Forall_cons_iff in Nm. destruct Nm as (Nm1 & _ & Nm2).
    assert (l1 = []).
    { destruct l1 as [|n l1]; auto. cbn in La1. destruct La1 as [E La1]. apply Forall_cons_iff in Nm1 as [[N1 _] Nm1]. apply (laid_le c W) in La1; auto. lia. }
    assert (l2 = []).
    { rewrite B2 in La2. destruct l2 as [|n l2]; auto. cbn in La2. destruct La2 as [E La2]. apply Forall_cons_iff in Nm2 as [[N1 _] Nm2]. apply (laid_le c W) in La2; auto. lia. }
    subst l1 l2. cbn [app] in *.
    assert (Hc : a_commit a <> cur_brk s).
    { unfold Ts in EM. destruct X as [|x X]; [contradiction|]. cbn in EM. injection EM as -> EM.
      assert (Ix : In (m0, lm) (((m0, lm) :: X) ++ Y)) by (left; auto).
      pose proof (disj_other _ _ _ _ _ _ (ch_disj _ _ _ _ H) Ix) as Dx. cbn [fst] in Dx. unfold geom in Gmain. rewrite <- CM. lia. }
    eexists _, false. split; [reflexivity|].
    cbn [cur_brk del_region with_regions with_arenas]. apply Z.eqb_neq in Hc. rewrite Hc.
    match goal with |- exists _, INV ?x _ _ _ _ /\ _ => set (s' := x) end.
    assert (Hd1 : forall q, header_at c q + 32 <= a_base a \/ a_commit a <= header_at c q -> hd s' q = hd s q).
    { intros q A. unfold s'. cbn. apply (hd_unmap c s (a_base a) (a_commit a) q A). }
    assert (Ear : arenas s' = map fst (X ++ Y)).
    { unfold s'. cbn [arenas unmap with_hd del_region with_regions with_arenas]. rewrite (ch_arenas _ _ _ _ H). unfold Ts. rewrite !map_app. cbn [map fst].
      replace (S i + length A1)%nat with (length (map fst X)) by (rewrite map_length; lia). generalize (map fst X). clear. induction l; cbn; [reflexivity|]. rewrite IHl. reflexivity. }
    exists (X ++ Y). split; [|split; [|split; [|split]]].
    + split; [|split].
      * split.
        -- exact Ear.
        -- pose proof (ch_ok _ _ _ _ H) as O. rewrite Forall_forall in *. intros x Ix.
           destruct (O x) as [F1 F2 F3 F4 F5]; [unfold Ts; rewrite in_app_iff in *; cbn; tauto|]. split; auto.
           eapply heads_frame; [|exact F4]. intros t It. apply Hd1. eapply far_tile; eauto.
        -- unfold Ts in EM. destruct X as [|x X]; [contradiction|]. cbn in EM |- *. injection EM as -> EM. eexists _, _, _. split; [reflexivity|]. exact CM.
        -- pose proof (ch_disj _ _ _ _ H) as Dj. unfold Ts in Dj. rewrite ranges_mid in Dj. apply disj_all_mid in Dj as [_ Dj].
           unfold ranges. rewrite map_app, <- app_assoc. exact Dj.
        -- rewrite <- (regs_del c W s X a [Tile p z KLoose] Y M H). unfold s'. cbn [regions unmap with_hd del_region with_regions].
           apply Permutation_filter'. apply (ch_regs _ _ _ _ H).
        -- pose proof (ch_mm _ _ _ _ H) as O. rewrite Forall_forall in *. intros m Im. destruct (O m Im) as [O1 O2 O3 O4 O5 O6 O7 O8].
           split; auto. rewrite Hd1; auto. eapply far_mm; eauto.
        -- intros q hq E Fd. apply hd_unmap_sub in E. destruct (ch_stale _ _ _ _ H q hq E Fd) as [(z0 & d & ty & sk & J)|J]; [left|right; exact J].
           exists z0, d, ty, sk. apply (in_mid X a [] _ [] Y) in J as [J|J]; [discriminate|]. unfold others in J. cbn in J. rewrite tiles_app. exact J.
      * eapply LS_pres; [exact L | repeat split |]. intros q hq Iq E.
        assert (It : exists t, In t (others X [] [] Y) /\ tp t = q).
        { destruct Iq as [[b0 Iq]|Iq].
          - apply (lk_free _ _ _ K) in Iq as (z0 & Iq & _). apply (in_mid X a [] _ [] Y) in Iq as [Iq|Iq]; [discriminate|]. eauto.
          - apply in_map_iff in Iq as ([q0 z0] & Eq & Iq). cbn in Eq; subst q0. apply (lk_delay _ _ _ K) in Iq. apply (in_mid X a [] _ [] Y) in Iq as [Iq|Iq]; [discriminate|]. eauto. }
        destruct It as (t & It & <-). exists hq. repeat split; auto. rewrite Hd1; auto.
        unfold others in It. cbn [app] in It. rewrite <- tiles_app in It.
        unfold tiles in It. apply in_concat in It as (l & I1 & I2). apply in_map_iff in I1 as (x & <- & I1).
        eapply far_tile; eauto.
      * eapply LK_ext; [exact K|]. intros t Lt. unfold Ts. rewrite !tiles_app, tiles_cons, !in_app_iff. cbn [In].
        split; [intros [A|[[<-|[]]|A]]; auto; discriminate | intros [A|A]; auto].
    + unfold others. cbn. apply tiles_app.
    + unfold Ts. rewrite !app_length. cbn. lia.
    + reflexivity.
    + reflexivity.
Qed.
End Release.
