(** The module tree and caches. *)
From Verif Require Import Base Redblack_Model Redblack_Spec Redblack_Facts Callstack_Model Callstack_Spec.
Open Scope Z_scope.

Definition path_of (nm : names) (i : nat) : option Z := option_map mi_path (nth_error (infos nm) i).
Definition ent_of (nm : names) (r : region) (e : entry) : Prop :=
  e_base e = r_start r /\ e_size e = r_end r - r_start r /\ exists i, e_client e = info_ptr i /\ path_of nm i = Some (r_path r).
Definition LR (nm : names) (l : list entry) (ms : list region) : Prop :=
  (forall r, In r ms -> exists e, In e l /\ ent_of nm r e) /\ (forall e, In e l -> exists r, In r ms /\ ent_of nm r e).
Record Core (st : mods) (l : list entry) (ms : list region) : Prop := {
  c_idx : Idx (mtree st) l;
  c_lr : LR (nms st) l ms;
  c_pos : forall e, In e l -> 0 < e_base e;
  c_bnd : forall e, In e l -> min_start st <= e_base e /\ e_base e + e_size e <= max_end st;
  c_min : (l = [] /\ min_start st = 0) \/ exists e, In e l /\ e_base e = min_start st;
  c_max : 0 <= max_end st;
  c_emp : l = [] -> max_end st <= 0;
  c_last : last_start st <> 0 -> In (last_start st, last_size st, last_info st) l }.

Definition rok (r : region) : Prop := 0 < r_start r < r_end r /\ r_end r < 2 ^ 64.

Lemma ptr_info_ptr i : ptr_info (info_ptr i) = i.
Proof. unfold ptr_info, info_ptr. lia. Qed.
Lemma ent_region nm r r' e : ent_of nm r e -> ent_of nm r' e -> r = r'.
Proof.
  intros (A1&A2&i&A3&A4) (B1&B2&j&B3&B4). assert (i = j) by (unfold info_ptr in *; lia). subst j.
  destruct r as [[a b] c], r' as [[a' b'] c']. unfold r_start, r_end, r_path in *. cbn in *. f_equal; [f_equal; lia|congruence].
Qed.
Lemma ent_covers nm r e pc : ent_of nm r e -> covers pc r = inside pc e.
Proof. intros (A1&A2&_). unfold covers, inside. rewrite A1, A2. f_equal. f_equal. lia. Qed.

Section Uniq.
Variables (st : mods) (l : list entry) (ms : list region).
Hypothesis C : Core st l ms.
Lemma core_uniq pc r r' : In r ms -> In r' ms -> covers pc r = true -> covers pc r' = true -> r = r'.
Proof.
  intros I J A B. destruct (proj1 (c_lr _ _ _ C) r I) as (e&Ie&E1). destruct (proj1 (c_lr _ _ _ C) r' J) as (e'&Ie'&E2).
  rewrite (ent_covers _ _ _ _ E1) in A. rewrite (ent_covers _ _ _ _ E2) in B.
  assert (e = e') by (eapply idx_inside_uniq; eauto using c_idx). subst e'. eapply ent_region; eauto.
Qed.
Lemma core_rok r : In r ms -> rok r.
Proof.
  intros I. destruct (proj1 (c_lr _ _ _ C) r I) as (e&Ie&E1&E2&_). pose proof (idx_valid _ _ _ (c_idx _ _ _ C) Ie) as V.
  pose proof (c_pos _ _ _ C e Ie). unfold rok, valid in *. lia.
Qed.
Lemma core_start r r' : In r ms -> In r' ms -> r_start r = r_start r' -> r = r'.
Proof.
  intros I J Q. pose proof (core_rok r I). pose proof (core_rok r' J). apply (core_uniq (r_start r)); auto; unfold covers, rok in *; lia.
Qed.
Lemma where_some pc r : In r ms -> covers pc r = true -> where_is ms pc = Some r.
Proof.
  intros I A. unfold where_is. destruct (List.find (covers pc) ms) as [r'|] eqn:Q.
  - apply find_some in Q. destruct Q as (Q1&Q2). f_equal. eapply core_uniq; eauto.
  - pose proof (find_none _ _ Q r I). congruence.
Qed.
Lemma where_none pc : (forall r, In r ms -> covers pc r = false) -> where_is ms pc = None.
Proof.
  intros H. unfold where_is. destruct (List.find (covers pc) ms) as [r'|] eqn:Q; auto.
  apply find_some in Q. destruct Q as (Q1&Q2). rewrite H in Q2; auto. discriminate.
Qed.
End Uniq.

Lemma core_same st l ms ms' : (forall r, In r ms <-> In r ms') -> Core st l ms -> Core st l ms'.
Proof.
  intros H C. destruct C as [A1 [A2 A2'] A3 A4 A5 A6 A7 A8]. constructor; auto. split.
  - intros r I. apply A2. apply H; auto.
  - intros e I. destruct (A2' e I) as (r&J&K). exists r. rewrite <- H. auto.
Qed.

Definition set_info st c1 c2 c3 c4 c5 := MD (nms st) (mtree st) (min_start st) (max_end st) c1 c2 c3 c4 c5.
Lemma core_caches st l ms h m : Core st l ms -> Core (MD (nms st) (mtree st) (min_start st) (max_end st) (last_start st) (last_size st) (last_info st) h m) l ms.
Proof. intros [A1 A2 A3 A4 A5 A6 A7 A8]. constructor; auto. Qed.

(** ---- lookup ---- *)
Lemma lookup_ok st l ms pc : Core st l ms -> exists st' r, module_lookup st pc = Ok (st', r) /\ Core st' l ms /\
  nms st' = nms st /\ mtree st' = mtree st /\ last_hit st' = last_hit st /\ last_miss st' = last_miss st /\
  match r with
  | Some (b, s, i) => exists rg, In rg ms /\ covers pc rg = true /\ b = r_start rg /\ s = r_end rg - r_start rg /\ path_of (nms st) i = Some (r_path rg)
  | None => forall rg, In rg ms -> covers pc rg = false
  end.
Proof.
  intros C. unfold module_lookup.
  assert (HIT : forall e, In e l -> inside pc e = true -> exists rg, In rg ms /\ covers pc rg = true /\ e_base e = r_start rg /\
     e_size e = r_end rg - r_start rg /\ path_of (nms st) (ptr_info (e_client e)) = Some (r_path rg)).
  { intros e I A. destruct (proj2 (c_lr _ _ _ C) e I) as (r&J&E1). exists r. split; auto.
    split; [rewrite (ent_covers _ _ _ _ E1); auto|]. destruct E1 as (H1&H2&i&H3&H4). rewrite H3, ptr_info_ptr. auto. }
  destruct (negb (last_start st =? 0) && (last_start st <=? pc) && (pc <? add64 (last_start st) (last_size st))) eqn:Q.
  - apply andb_true_iff in Q. destruct Q as (Q&Q3). apply andb_true_iff in Q. destruct Q as (Q1&Q2).
    assert (NZ : last_start st <> 0) by lia. pose proof (c_last _ _ _ C NZ) as I.
    pose proof (idx_valid _ _ _ (c_idx _ _ _ C) I) as V. unfold valid in V. cbn [e_base e_size fst snd] in V.
    do 2 eexists. split; [reflexivity|]. split; auto. repeat (split; [reflexivity|]).
    apply (HIT _ I). unfold inside. cbn [e_base e_size fst snd]. unfold add64 in Q3. rewrite Z.mod_small in Q3 by lia. lia.
  - destruct (idx_in_node _ _ pc (c_idx _ _ _ C)) as (h&E1&H). rewrite E1. cbn [bind]. destruct h as [x|].
    + destruct H as (e&HD&A). rewrite (idx_fields _ _ _ _ HD). cbn [bind]. destruct e as [[b s] c].
      do 2 eexists. split; [reflexivity|]. split; [|repeat (split; [reflexivity|])].
      * destruct C as [A1 A2 A3 A4 A5 A6 A7 A8]. constructor; auto. intros _. cbn. eapply handle_in; eauto.
      * apply (HIT (b, s, c)); auto. eapply handle_in; eauto.
    + do 2 eexists. split; [reflexivity|]. split; auto. repeat (split; [reflexivity|]).
      intros rg I. destruct (proj1 (c_lr _ _ _ C) rg I) as (e&Ie&E2). rewrite (ent_covers _ _ _ _ E2). auto.
Qed.

(** ---- adding and removing regions ---- *)
Lemma add_region_ok dbg st l ms s e p i : Core st l ms -> rok (s, e, p) -> (forall r, In r ms -> apart r (s, e, p)) ->
  path_of (nms st) i = Some p ->
  exists st', add_region dbg st s e i = Ok st' /\ Core st' (put (s, e - s, info_ptr i) l) (ms ++ [(s, e, p)]) /\ nms st' = nms st.
Proof.
  intros C R A P. unfold rok, r_start, r_end in R. cbn in R. unfold add_region.
  assert (V : valid (s, e - s, info_ptr i)) by (unfold valid; cbn; lia).
  assert (NO : forall en, In en l -> ovl (s, e - s, info_ptr i) en = false).
  { intros en I. destruct (proj2 (c_lr _ _ _ C) en I) as (r&J&E1&E2&_). specialize (A r J).
    pose proof (core_rok _ _ _ C r J). unfold apart, rok, r_start, r_end in *. unfold ovl, meets. cbn [e_base e_size fst snd] in *. lia. }
  destruct (idx_insert dbg _ _ s (e - s) (info_ptr i) (c_idx _ _ _ C) V NO) as (t'&E1&I'&_). rewrite E1. cbn [bind].
  eexists. split; [reflexivity|]. split; [|reflexivity].
  destruct C as [A1 [A2 A2'] A3 A4 A5 A6 A7 A8]. constructor; cbn [mtree nms min_start max_end last_start last_size last_info]; auto.
  - split.
    + intros r I. apply in_app_or in I. destruct I as [I|[<-|[]]].
      * destruct (A2 r I) as (en&J&K). exists en. rewrite in_put. auto.
      * exists (s, e - s, info_ptr i). rewrite in_put. split; auto. repeat (split; [reflexivity|]). exists i. split; [reflexivity|auto].
    + intros en I. apply in_put in I. destruct I as [->|I].
      * exists (s, e, p). split; [apply in_or_app; right; left; auto|]. repeat (split; [reflexivity|]). exists i. split; [reflexivity|auto].
      * destruct (A2' en I) as (r&J&K). exists r. rewrite in_app_iff. auto.
  - intros en I. apply in_put in I. destruct I as [->|I]; [cbn; lia|auto].
  - intros en I. apply in_put in I. destruct (Z.ltb_spec s (min_start st)), (Z.eqb_spec (min_start st) 0), (Z.ltb_spec (max_end st) e); cbn [orb];
      (destruct I as [->|I]; [cbn [e_base e_size fst snd]; lia|specialize (A4 en I); destruct A5 as [(->&_)|(e5&I5&A5)]; [destruct I|specialize (A3 e5 I5); lia]]).
  - right. destruct ((s <? min_start st) || (min_start st =? 0)) eqn:Q; [exists (s, e - s, info_ptr i); rewrite in_put; auto|].
    destruct A5 as [(_&A5)|(e5&I5&A5)]; [lia|]. exists e5. rewrite in_put. auto.
  - destruct (Z.ltb_spec (max_end st) e); lia.
  - intros Q. exfalso. assert (In (s, e - s, info_ptr i) (put (s, e - s, info_ptr i) l)) by (rewrite in_put; auto). rewrite Q in H. destruct H.
  - intros NZ. rewrite in_put. auto.
Qed.

(** ascending, separated regions *)
Fixpoint asc_regions (lo : Z) (l : list (Z * Z)) : Prop :=
  match l with
  | [] => True
  | (s, e) :: l' => lo <= s < e /\ asc_regions e l'
  end.
Lemma asc_lo l : forall lo lo', lo <= lo' -> asc_regions lo' l -> asc_regions lo l.
Proof. destruct l as [|[s e] l]; cbn; auto. intros lo lo' L (H&K). split; auto. lia. Qed.
Lemma asc_in l : forall lo s e, asc_regions lo l -> In (s, e) l -> lo <= s < e.
Proof. induction l as [|[a b] l IH]; cbn; [tauto|]. intros lo s e (H&K) [Q|I]; [injection Q as <- <-; lia|]. specialize (IH _ _ _ K I). lia. Qed.

Lemma add_regions_ok dbg p i : forall rs st l ms lo, Core st l ms -> 0 < lo -> asc_regions lo rs ->
  (forall s e, In (s, e) rs -> e < 2 ^ 64) ->
  (forall r s e, In r ms -> In (s, e) rs -> apart r (s, e, p)) -> path_of (nms st) i = Some p ->
  exists st' l', add_regions dbg st rs i = Ok st' /\ Core st' l' (ms ++ map (fun x => (fst x, snd x, p)) rs) /\ nms st' = nms st /\
    (forall e, In e l -> In e l').
Proof.
  induction rs as [|[s e] rs IH]; intros st l ms lo C LO AS UP AP P; cbn [add_regions map].
  - rewrite app_nil_r. exists st, l. split; auto.
  - destruct AS as (A1&A2).
    destruct (add_region_ok dbg st l ms s e p i C) as (st1&E1&C1&N1); auto.
    { unfold rok, r_start, r_end. cbn. specialize (UP s e (or_introl eq_refl)). lia. }
    { intros r I. apply (AP r s e); auto. left; auto. }
    rewrite E1. cbn [bind]. destruct (IH st1 _ _ e C1) as (st2&l2&E2&C2&N2&L2); auto; try lia.
    { intros s' e' I. apply (UP s' e'). right; auto. }
    { intros r s' e' I J. apply in_app_or in I. destruct I as [I|[<-|[]]]; [apply (AP r s' e'); auto; right; auto|].
      pose proof (asc_in _ _ _ _ A2 J). unfold apart, r_start, r_end. cbn. lia. }
    { congruence. }
    exists st2, l2. cbn [fst snd]. rewrite <- app_assoc in C2. split; auto. split; auto. split; [congruence|].
    intros en I. apply L2. rewrite in_put. auto.
Qed.

Definition Core0 st l ms := Core (MD (nms st) (mtree st) 0 0 0 0 0 0 0) l ms.
(** on removal the bounds are stale until the end *)
Record Pre (st : mods) (l : list entry) (ms : list region) : Prop := {
  q_idx : Idx (mtree st) l; q_lr : LR (nms st) l ms; q_pos : forall e, In e l -> 0 < e_base e }.
Lemma remove_region_ok st l ms s e p : Pre st l ms -> In (s, e, p) ms ->
  exists st', remove_region st s e = Ok st' /\
    Pre st' (filter (fun y => negb (e_base y =? s)) l) (filter (fun r => negb (r_start r =? s)) ms) /\ nms st' = nms st.
Proof.
  intros C I. unfold remove_region. destruct (proj1 (q_lr _ _ _ C) _ I) as (en&J&E0). destruct E0 as (B1&B2&B3).
  unfold r_start, r_end in B1, B2. cbn in B1, B2.
  destruct (idx_find _ _ s (q_idx _ _ _ C)) as (h&E1&H). rewrite E1. cbn [bind]. destruct h as [x|].
  - destruct H as (e1&HD&Q). rewrite (idx_fields _ _ _ _ HD). cbn [bind].
    destruct (idx_delete _ _ _ _ HD) as (t'&E2&I2&_). rewrite E2. cbn [bind]. rewrite Q in I2.
    eexists. split; [reflexivity|]. split; [|reflexivity]. constructor; cbn [set_tree mtree nms]; auto.
    + split.
      * intros r K. apply filter_In in K. destruct K as (K1&K2). destruct (proj1 (q_lr _ _ _ C) r K1) as (e2&L1&L2).
        exists e2. split; auto. apply filter_In. split; auto. destruct L2 as (L2&_). rewrite L2. auto.
      * intros e2 K. apply filter_In in K. destruct K as (K1&K2). destruct (proj2 (q_lr _ _ _ C) e2 K1) as (r&L1&L2).
        exists r. split; auto. apply filter_In. split; auto. destruct L2 as (L2&_). rewrite <- L2. auto.
    + intros e2 K. apply filter_In in K. apply (q_pos _ _ _ C). tauto.
  - exfalso. apply (H en J). auto.
Qed.
Lemma remove_regions_ok p : forall rs st l ms lo, Pre st l ms -> asc_regions lo rs -> (forall s e, In (s, e) rs -> In (s, e, p) ms) ->
  exists st' l', remove_regions st rs = Ok st' /\ nms st' = nms st /\
    Pre st' l' (filter (fun r => negb (existsb (fun x => fst x =? r_start r) rs)) ms).
Proof.
  induction rs as [|[s e] rs IH]; intros st l ms lo C AS IN; cbn [remove_regions existsb].
  - exists st, l. split; auto. split; auto. replace (filter _ ms) with ms; auto.
    induction ms as [|r ms]; cbn; auto. f_equal. symmetry. clear. induction ms as [|x ms IH]; cbn; auto. f_equal; auto.
  - destruct AS as (A1&A2). destruct (remove_region_ok st l ms s e p C) as (st1&E1&C1&N1); [apply IN; left; auto|].
    rewrite E1. cbn [bind]. destruct (IH st1 _ _ e C1 A2) as (st2&l2&E2&N2&C2).
    { intros s' e' I. apply filter_In. split; [apply IN; right; auto|]. pose proof (asc_in _ _ _ _ A2 I). unfold r_start. cbn. lia. }
    exists st2, l2. split; auto. split; [congruence|]. replace (filter _ ms) with (filter (fun r => negb (existsb (fun x => fst x =? r_start r) rs)) (filter (fun r => negb (r_start r =? s)) ms)); auto.
    clear. induction ms as [|r ms IH]; cbn [filter existsb fst]; auto. rewrite (Z.eqb_sym s (r_start r)).
    destruct (r_start r =? s); cbn [negb orb filter]; [auto|]. destruct (existsb _ rs); cbn [negb]; [auto|]. f_equal; auto.
Qed.

Lemma runs_regions m : module_ok m -> module_regions m = map (fun x => (fst x, snd x, m_path m)) (regions m) /\
  asc_regions (m_start m) (regions m) /\ (forall s e, In (s, e) (regions m) -> e <= m_stop m /\ e < 2 ^ 64).
Proof.
  intros (B1&B2&S). unfold module_regions, regions. destruct (m_segs m) as [|[s e] l].
  - cbn. split; auto. split; [lia|]. intros s e [Q|[]]. injection Q as <- <-. lia.
  - destruct S as (S1&S2).
    assert (G : forall l b e lo, lo <= b < e -> sorted_segs e (m_stop m) l -> runs b e l = seg_regions b e l /\ asc_regions lo (seg_regions b e l) /\
       (forall s' e', In (s', e') (seg_regions b e l) -> e' <= m_stop m)).
    { clear. induction l as [|[s t] l IH]; intros b e lo L S.
      - cbn in *. split; auto. split; [lia|]. intros s' e' [Q|[]]. injection Q as <- <-. auto.
      - destruct S as (S1&S2). cbn [runs seg_regions]. destruct (Z.ltb_spec e s).
        + destruct (Z.eqb_spec s e); [lia|]. destruct (IH s t e) as (R1&R2&R3); auto; try lia. rewrite R1. split; auto.
          cbn [asc_regions]. split; [split; auto|]. intros s' e' [Q|I]; [|eauto]. injection Q as <- <-.
          assert (forall l lo, sorted_segs lo (m_stop m) l -> lo <= m_stop m). { clear. induction l as [|[s e] l IH]; cbn; auto. intros lo (A&B). specialize (IH _ B). lia. }
          specialize (H0 _ _ S2). lia.
        + destruct (Z.eqb_spec s e); [|lia]. subst s. apply IH; auto. lia. }
    destruct (G l s e (m_start m)) as (G1&G2&G3); auto. rewrite G1. split; auto. split; auto. intros s' e' I. specialize (G3 _ _ I). lia.
Qed.

(** names survive *)
Definition ext (a b : names) : Prop := (exists x, infos b = infos a ++ x) /\ (exists y, arr b = arr a ++ y).
Lemma ext_refl a : ext a a.
Proof. split; exists []; rewrite app_nil_r; auto. Qed.
Lemma ext_trans a b c : ext a b -> ext b c -> ext a c.
Proof. intros [(x&H1) (y&H2)] [(x'&K1) (y'&K2)]. split; [exists (x ++ x')|exists (y ++ y')]; rewrite ?K1, ?K2, ?H1, ?H2, app_assoc; auto. Qed.
Lemma ext_path a b i p : ext a b -> path_of a i = Some p -> path_of b i = Some p.
Proof.
  intros [(x&H) _]. unfold path_of. destruct (nth_error (infos a) i) eqn:Q; [|discriminate]. rewrite H, nth_error_app1; [rewrite Q; auto|].
  apply nth_error_Some. congruence.
Qed.
Lemma ext_nth a b i m : ext a b -> nth_error (infos a) i = Some m -> nth_error (infos b) i = Some m.
Proof. intros [(x&H) _] Q. rewrite H, nth_error_app1; auto. apply nth_error_Some. congruence. Qed.
Lemma ext_arr a b i m : ext a b -> nth_error (arr a) i = Some m -> nth_error (arr b) i = Some m.
Proof. intros [_ (x&H)] Q. rewrite H, nth_error_app1; auto. apply nth_error_Some. congruence. Qed.

Lemma find_path_ok p : forall l k, match find_path p l k with
  | Some i => exists j m, i = (k + j)%nat /\ nth_error l j = Some m /\ mi_path m = p
  | None => forall m, In m l -> mi_path m <> p end.
Proof.
  induction l as [|m l IH]; intros k; cbn [find_path]; [intros m []|]. destruct (Z.eqb_spec (mi_path m) p).
  - exists O, m. split; [lia|auto].
  - specialize (IH (S k)). destruct (find_path p l (S k)).
    + destruct IH as (j&m'&->&H). exists (S j), m'. split; [lia|auto].
    + intros m' [<-|I]; auto.
Qed.
Lemma fill_ok i : forall fuel a sz, (Z.of_nat fuel + Z.of_nat (length a) >= 255) -> (length a <= 254)%nat -> (0 < fuel)%nat ->
  exists b k, fill fuel a i sz = Ok (a ++ repeat i k, b) /\ (length a + k <= 254)%nat /\
    (b = true -> (1 <= k)%nat /\ sz <= Z.of_nat k * MAX_MODOFFS_STORED) /\ (b = false -> (length a + k = 254)%nat).
Proof.
  induction fuel as [|fuel IH]; intros a sz F L FP; [lia|]. cbn [fill]. unfold MAX_MODNAMES_STORED.
  destruct (Z.leb_spec 255 (1 + Z.of_nat (length a))).
  - exists false, O. cbn. rewrite app_nil_r. repeat split; try discriminate; lia.
  - destruct (Z.leb_spec sz MAX_MODOFFS_STORED).
    + exists true, 1%nat. cbn [repeat]. repeat split; try discriminate; lia.
    + destruct (IH (a ++ [i]) (sz - MAX_MODOFFS_STORED)) as (b&k&E1&K1&K2&K3); try (rewrite app_length; cbn [length]; lia); try lia.
      rewrite E1. exists b, (S k). rewrite <- app_assoc. cbn [repeat app]. split; auto. rewrite app_length in K1, K3. cbn [length] in *.
      split; [lia|]. split; [intros ->; specialize (K2 eq_refl); unfold MAX_MODOFFS_STORED in *; lia|]. intros ->. specialize (K3 eq_refl). lia.
Qed.
Lemma add_new_ok nm p sz : (length (arr nm) <= 254)%nat -> exists nm' i, add_new_module nm p sz = Ok (nm', i) /\ ext nm nm' /\
  path_of nm' i = Some p /\ (length (arr nm') <= 254)%nat.
Proof.
  intros L. unfold add_new_module. pose proof (find_path_ok p (infos nm) 0) as F. destruct (find_path p (infos nm) 0) as [i|].
  - destruct F as (j&m&->&H1&H2). do 2 eexists. split; [reflexivity|]. split; [apply ext_refl|]. split; auto. unfold path_of. rewrite Nat.add_0_l, H1. cbn. congruence.
  - destruct (fill_ok (length (infos nm)) 256 (arr nm) sz) as (b&k&E1&K1&_); try lia. rewrite E1. cbn [bind].
    do 2 eexists. split; [reflexivity|]. split; [split; eexists; reflexivity|]. unfold path_of. cbn [infos arr].
    rewrite nth_error_app2, Nat.sub_diag by lia. cbn. split; auto. rewrite app_length, repeat_length. lia.
Qed.
Lemma LR_ext a b l ms : ext a b -> LR a l ms -> LR b l ms.
Proof.
  intros X [H1 H2]. split.
  - intros r I. destruct (H1 r I) as (e&J&K1&K2&i&K3&K4). exists e. split; auto. repeat (split; auto). exists i. split; auto. eapply ext_path; eauto.
  - intros e I. destruct (H2 e I) as (r&J&K1&K2&i&K3&K4). exists r. split; auto. repeat (split; auto). exists i. split; auto. eapply ext_path; eauto.
Qed.

Lemma load_ok dbg st l ms m : Core st l ms -> (length (arr (nms st)) <= 254)%nat -> allowed ms (Load m) ->
  exists st' l', callstack_module_load dbg st m = Ok st' /\ Core st' l' (after ms (Load m)) /\
    ext (nms st) (nms st') /\ (length (arr (nms st')) <= 254)%nat /\ last_hit st' = 0 /\ last_miss st' = 0 /\
    (exists i, add_new_module (nms st) (m_path m) (m_stop m - m_start m) = Ok (nms st', i)).
Proof.
  intros C L (OK&AP). unfold callstack_module_load. destruct (add_new_ok (nms st) (m_path m) (m_stop m - m_start m) L) as (nm'&i&E1&X&P&L').
  rewrite E1. cbn [bind]. destruct (runs_regions m OK) as (R1&R2&R3). destruct OK as (B1&_&_).
  set (st1 := MD nm' (mtree st) (min_start st) (max_end st) (last_start st) (last_size st) (last_info st) (last_hit st) (last_miss st)).
  assert (C1 : Core st1 l ms). { destruct C as [A1 A2 A3 A4 A5 A6 A7 A8]. constructor; auto. cbn. eapply LR_ext; eauto. }
  destruct (add_regions_ok dbg (m_path m) i (regions m) st1 l ms (m_start m) C1) as (st2&l2&E2&C2&N2&_); auto; try lia.
  { intros s e I. apply R3 in I. lia. }
  { intros r s e I J. apply AP; auto. rewrite R1. apply (in_map (fun x => (fst x, snd x, m_path m)) _ (s, e)). auto. }
  rewrite E2. cbn [bind]. do 2 eexists. split; [reflexivity|]. cbn [after]. rewrite R1. cbn [nms last_hit last_miss].
  split; [apply core_caches with (h := 0) (m := 0) in C2; exact C2|]. rewrite N2. cbn [st1 nms]. repeat (split; auto). eauto.
Qed.

Lemma filter_ext_in' {A} (f g : A -> bool) l : (forall x, f x = g x) -> filter f l = filter g l.
Proof. intros H. induction l; cbn; auto. rewrite H, IHl. auto. Qed.
Lemma unload_ok st l ms m : Core st l ms -> allowed ms (Unload m) ->
  exists st' l', callstack_module_unload st m = Ok st' /\ Core st' l' (after ms (Unload m)) /\ nms st' = nms st /\
    last_hit st' = 0 /\ last_miss st' = 0.
Proof.
  intros C (OK&AP). unfold callstack_module_unload. destruct (runs_regions m OK) as (R1&R2&R3).
  assert (C1 : Pre st l ms) by (destruct C; constructor; auto).
  destruct (remove_regions_ok (m_path m) (regions m) st l ms (m_start m) C1 R2) as (st2&l2&E2&N2&C2).
  { intros s e I. apply AP. rewrite R1. apply (in_map (fun x => (fst x, snd x, m_path m)) _ (s, e)). auto. }
  rewrite E2. cbn [bind].
  assert (AF : filter (fun r => negb (existsb (fun x => fst x =? r_start r) (regions m))) ms = after ms (Unload m)).
  { cbn [after]. apply filter_ext_in'. intros r. f_equal. rewrite R1. clear. induction (regions m); cbn; auto. rewrite IHl. f_equal. }
  rewrite AF in C2. clear AF.
  destruct (idx_max _ _ (q_idx _ _ _ C2)) as (x&X1&X2). destruct (idx_min _ _ (q_idx _ _ _ C2)) as (y&Y1&Y2).
  rewrite X1, Y1. cbn [bind].
  destruct X2 as [(->&->)|(ex&lx&QX&HX)].
  - destruct Y2 as [(_&->)|(ey&ly&QY&_)]; [|discriminate]. rewrite (idx_nil_fields _ _ (q_idx _ _ _ C2)). cbn [bind].
    do 2 eexists. split; [reflexivity|]. split; [|auto]. destruct C2 as [A1 A2 A3]. constructor; cbn [nms mtree min_start max_end last_start last_size last_info]; eauto; try (intros; cbn in *; tauto); try (cbn; lia); try congruence; auto.
  - destruct Y2 as [(->&_)|(ey&ly&QY&HY)]; [destruct lx; discriminate|]. rewrite (idx_fields _ _ _ _ HX), (idx_fields _ _ _ _ HY). cbn [bind].
    destruct ex as [[bx sx] cx], ey as [[by_ sy] cy]. do 2 eexists. split; [reflexivity|]. split; [|auto].
    pose proof (handle_in _ _ _ _ HX) as IX. pose proof (handle_in _ _ _ _ HY) as IY. pose proof (idx_valid _ _ _ (q_idx _ _ _ C2) IX) as VX.
    unfold valid in VX. cbn [e_base e_size fst snd] in VX. pose proof (q_pos _ _ _ C2 _ IY) as PY. cbn in PY.
    assert (AD : add64 bx sx = bx + sx) by (unfold add64; apply Z.mod_small; lia).
    pose proof (idx_asc _ _ (q_idx _ _ _ C2)) as ASC.
    destruct C2 as [A1 A2 A3]. constructor; cbn [nms mtree min_start max_end last_start last_size last_info]; eauto; try congruence; try lia.
    + intros e I. rewrite AD. split.
      * rewrite QY in I, ASC. destruct I as [<-|I]; [cbn; lia|]. destruct ASC as (H&_). specialize (H e I). cbn in H. lia.
      * pose proof (idx_valid _ _ _ A1 I) as V. unfold valid in V. rewrite QX in I. apply in_app_or in I. destruct I as [I|[<-|[]]]; [|cbn; lia].
        assert (LT : e_base e < bx). { rewrite QX in ASC. clear - ASC I. induction lx as [|z lx IH]; [destruct I|]. destruct ASC as (H&ASC). destruct I as [<-|I]; [|auto]. apply (H (bx, sx, cx)). apply in_or_app. right; left; auto. }
        assert (J : In e l2) by (rewrite QX; apply in_or_app; auto). pose proof (idx_sep _ _ _ _ A1 J IX LT). cbn in *. lia.
Qed.

(** ---- whole histories ---- *)
Lemma init_core : Core init_mods [] [].
Proof.
  constructor; cbn; try tauto; try lia; try (intros; lia).
  - apply idx_create.
  - split; intros ? [].
Qed.
(** page cache of is_in_module *)
Record Pages (st : mods) (l : list entry) : Prop := {
  g_al : forall e, In e l -> e_base e mod 4096 = 0 /\ (e_base e + e_size e) mod 4096 = 0;
  g_hit : last_hit st <> 0 -> exists e, In e l /\ inside (last_hit st) e = true /\ last_hit st mod 4096 = 0;
  g_miss : last_miss st <> 0 -> last_miss st mod 4096 = 0 /\ forall e, In e l -> inside (last_miss st) e = false }.

Lemma is_in_ok st l ms pc : Core st l ms -> exists st' r, is_in_module st pc = Ok (st', r) /\ Core st' l ms /\ nms st' = nms st /\
  (0 <= pc -> Pages st l -> Pages st' l /\ (r = true <-> exists e, In e l /\ inside pc e = true)).
Proof.
  intros C. unfold is_in_module. destruct ((pc <? min_start st) || (max_end st <=? pc)) eqn:Q.
  - do 2 eexists. split; [reflexivity|]. split; auto. split; auto. intros _ G. split; auto. split; [discriminate|].
    intros (e&I&A). pose proof (c_bnd _ _ _ C e I). unfold inside in A. lia.
  - assert (PG : 0 <= pc -> Pages st l -> forall e p, In e l -> p mod 4096 = 0 -> align_back pc = p -> inside pc e = inside p e).
    { intros P0 [G1 _ _] e p I MP AB. destruct (G1 e I) as (B1&B2). unfold align_back, PAGE_SIZE in AB.
      unfold inside. pose proof (Z.div_mod (e_base e) 4096 ltac:(lia)). pose proof (Z.div_mod (e_base e + e_size e) 4096 ltac:(lia)).
      pose proof (Z.div_mod pc 4096 ltac:(lia)). pose proof (Z.mod_pos_bound pc 4096 ltac:(lia)).
      assert (p = 4096 * (pc / 4096)) by lia. f_equal; [apply Bool.eq_true_iff_eq; rewrite !Z.leb_le|apply Bool.eq_true_iff_eq; rewrite !Z.ltb_lt]; lia. }
    assert (AM : align_back pc mod 4096 = 0).
    { unfold align_back, PAGE_SIZE. rewrite Zminus_mod_idemp_r, Z.sub_diag. reflexivity. }
    assert (NZ : 0 <= pc -> Pages st l -> l <> [] -> align_back pc <> 0).
    { intros P0 [G1 _ _] NL E0. destruct l as [|e l']; [congruence|]. destruct (G1 e (or_introl eq_refl)) as (B1&_).
      pose proof (c_pos _ _ _ C e (or_introl eq_refl)). unfold align_back, PAGE_SIZE in E0.
      pose proof (Z.mod_pos_bound pc 4096 ltac:(lia)). assert (pc < 4096) by lia.
      destruct (c_min _ _ _ C) as [(Q0&_)|(e0&I0&Q0)]; [discriminate|]. destruct (G1 e0 I0) as (B0&_). pose proof (c_pos _ _ _ C e0 I0).
      pose proof (Z.div_mod (e_base e0) 4096 ltac:(lia)). lia. }
    assert (NL : 0 <= pc -> l <> []).
    { intros P0 ->. pose proof (c_emp _ _ _ C eq_refl). lia. }
    destruct (Z.eqb_spec (align_back pc) (last_miss st)) as [M|M].
    + do 2 eexists. split; [reflexivity|]. split; auto. split; auto. intros P0 G. split; auto. split; [discriminate|].
      intros (e&I&A). assert (Z0 : last_miss st <> 0) by (rewrite <- M; auto).
      destruct (g_miss _ _ G Z0) as (H1&H2). rewrite (PG P0 G e _ I H1 M), H2 in A; auto. 
    + destruct (Z.eqb_spec (align_back pc) (last_hit st)) as [H|H].
      * do 2 eexists. split; [reflexivity|]. split; auto. split; auto. intros P0 G. split; auto. split; auto. intros _.
        assert (Z0 : last_hit st <> 0) by (rewrite <- H; auto). destruct (g_hit _ _ G Z0) as (e&I&A&B). exists e. split; auto.
        rewrite (PG P0 G e _ I B H); auto.
      * destruct (idx_in_node _ _ pc (c_idx _ _ _ C)) as (h&E1&HH). rewrite E1. cbn [bind].
        do 2 eexists. split; [reflexivity|]. split; [destruct C as [A1 A2 A3 A4 A5 A6 A7 A8]; constructor; auto|]. split; [reflexivity|].
        intros P0 G. destruct h as [x|].
        -- destruct HH as (e&HD&A). pose proof (handle_in _ _ _ _ HD) as I. split; [|split; auto; intros _; eauto].
           pose proof (PG P0 G e _ I AM eq_refl) as PE. destruct G as [G1 G2 G3]. constructor; cbn; auto. intros _. exists e. rewrite <- PE. auto.
        -- split; [|split; [discriminate|]; intros (e&I&A); rewrite HH in A; auto].
           pose proof (fun e I => PG P0 G e _ I AM eq_refl) as PE. destruct G as [G1 G2 G3]. constructor; cbn; auto. intros _. split; auto.
           intros e I. rewrite <- PE; auto.
Qed.
