(** Telling live pointers apart, unmapping, and [replace_free_common]. *)
From Coq Require Import Permutation.
From Verif Require Import Base Alloc_Model Alloc_Inv Alloc_Proofs Alloc_Proofs2 Alloc_Proofs3 Alloc_Proofs4 Alloc_Proofs5 Alloc_Proofs6 Alloc_Proofs7 Alloc_Proofs8 Alloc_Proofs9 Alloc_Proofs10 Alloc_Proofs11 Alloc_Proofs12 Alloc_Proofs13 Alloc_Proofs14.
Open Scope Z_scope.

Section Free.
Context (c : cfg) (W : wfc c).
Notation g := (inter c).
Notation INV := (INV c).
Notation WF := (WF c).

Lemma live_ok s Ts M p : CH c s Ts M -> is_live_alloc s p = true <-> In p (map tp (rb Ts M)).
Proof.
  intros H. pose proof (CH_GEO _ _ _ _ H) as G. split.
  - unfold is_live_alloc. destruct (hd s p) as [h|] eqn:E; [|rewrite andb_false_r; discriminate]. intros A. apply andb_true_iff in A as [_ A]. apply andb_true_iff in A as [A _]. apply negb_true_iff in A.
    destruct (ch_stale _ _ _ _ H p h E A) as [(z & d & ty & sk & J)|(m & Im & <-)].
    + apply in_map_iff. exists (Tile p z (KLive d ty sk)). split; [reflexivity|]. apply in_or_app. left. apply filter_In. auto.
    + apply in_map_iff. exists (mtile m). split; [reflexivity|]. apply in_or_app. right. apply in_map. exact Im.
  - intros I. apply in_map_iff in I as (t & <- & It). destruct (rb_facts c W _ _ _ _ H It) as (P & A & _). destruct (rb_head c _ _ _ _ H It) as (h & d & ty & sk & Ek & Hh & _ & Fr & _).
    unfold is_live_alloc. rewrite Hh, Fr. unfold ALIGNED, CHUNK_ALIGNMENT. rewrite A. replace (tp t =? 0) with false by lia. cbn [negb andb Z.eqb].
    unfold rb in It. apply in_app_or in It as [It|It].
    + apply filter_In in It as [It _]. destruct (tiles_split _ _ It) as (X & a & l1 & l2 & Y & ->). rewrite (container_at c W s X a l1 t l2 Y M 0 (ch_arenas _ _ _ _ H) G (Nat.le_0_l _)). apply orb_true_r.
    + apply in_map_iff in It as (m & <- & Im). pose proof (ch_mm _ _ _ _ H) as O. rewrite Forall_forall in O. destruct (O m Im) as [(h0 & Q1 & _ & Q2 & _) _ _ _ _ _ _ _].
      cbn [mtile tp] in Hh. assert (h0 = h) as -> by congruence. rewrite Q2. reflexivity.
Qed.

Lemma regs_del_m s Ts M1 m M2 : CH c s Ts (M1 ++ m :: M2) ->
  filter (fun r => negb (r_lo r =? mb m)) (regs Ts (M1 ++ m :: M2)) = regs Ts (M1 ++ M2).
Proof.
  intros H.
  assert (U : forall r, In r (map rng_a Ts ++ map rng_m M1 ++ map rng_m M2) -> fst r <> mb m).
  { intros r I. apply (lo_unique c W s Ts (M1 ++ m :: M2) (map rng_a Ts ++ map rng_m M1) (rng_m m) (map rng_m M2) r H).
    - unfold ranges. rewrite map_app, app_assoc. reflexivity.
    - rewrite <- app_assoc. exact I. }
  unfold regs. rewrite !map_app, !filter_app. cbn [map filter r_lo]. rewrite Z.eqb_refl. cbn [negb].
  rewrite !filter_all; [reflexivity | | |].
  - intros r I. apply in_map_iff in I as (x & <- & I). cbn [r_lo]. specialize (U (rng_m x)). cbn in U. rewrite (proj2 (Z.eqb_neq _ _)); [reflexivity|]. apply U. rewrite !in_app_iff. right; right. apply in_map. exact I.
  - intros r I. apply in_map_iff in I as (x & <- & I). cbn [r_lo]. specialize (U (rng_m x)). cbn in U. rewrite (proj2 (Z.eqb_neq _ _)); [reflexivity|]. apply U. rewrite !in_app_iff. right; left. apply in_map. exact I.
  - intros r I. apply in_map_iff in I as (x & <- & I). cbn [r_lo]. specialize (U (rng_a x)). cbn in U. rewrite (proj2 (Z.eqb_neq _ _)); [reflexivity|]. apply U. rewrite !in_app_iff. left. apply in_map. exact I.
Qed.

Lemma unmap_ok s Ts M1 m M2 D F h' lg : INV s Ts (M1 ++ m :: M2) D F ->
  let s1 := del_region (with_large (seth c s (mp m) h') lg) (mb m) in
  let s' := unmap c (with_mhead s1 (upd (mhead s1) (mb m) None)) (mb m) (mb m + msz m) in
  INV s' Ts (M1 ++ M2) D F /\ keep (bytes (rb Ts (M1 ++ M2))) s s' /\ large s' = lg.
Proof.
  intros (H & L & K) s1 s'. pose proof (CH_GEO _ _ _ _ H) as G.
  pose proof (ch_mm _ _ _ _ H) as O. rewrite Forall_forall in O. pose proof (hbr_pos c W) as Hb. pose proof (wf_rz c W) as Rz. pose proof (g_rng c W) as Gr.
  destruct (O m (in_elt _ _ _)) as [O1 O2 O3 O4 O5 O6 O7 O8].
  pose proof (header_mm c W (mp m)) as [Hm1 Hm2].
  assert (Off : forall t, In t (tiles Ts) -> tp t <> mp m /\ (header_at c (tp t) + 32 <= mb m \/ mb m + msz m <= header_at c (tp t)) /\ (tp t + tsz t <= mb m \/ mb m + msz m <= tp t)).
  { intros t It. pose proof (apart_mm c W _ _ _ _ G It (in_elt _ _ _)) as A. pose proof (tile_facts c W _ _ _ G It). pose proof (header_rng c W (tp t)). lia. }
  assert (Offm : forall m', In m' (M1 ++ M2) -> In m' (M1 ++ m :: M2) /\ mp m' <> mp m /\ (header_at c (mp m') + 32 <= mb m \/ mb m + msz m <= header_at c (mp m')) /\ mb m' <> mb m /\ (mp m' + mal m' <= mb m \/ mb m + msz m <= mp m')).
  { intros m' I. assert (J : In m' (M1 ++ m :: M2)) by (rewrite in_app_iff in *; cbn; tauto). destruct (O m' J) as [_ _ P3 P4 _ _ P7 _].
    assert (m <> m'). { intros <-. pose proof (M_nodup c W _ _ _ H) as N. apply NoDup_remove_2 in N. auto. }
    pose proof (rngm_apart c _ _ _ _ G (in_elt _ _ _) J H0). pose proof (header_mm c W (mp m')). split; [exact J|]. lia. }
  assert (Hd : forall q, q <> mp m -> header_at c q + 32 <= mb m \/ mb m + msz m <= header_at c q -> hd s' q = hd s q).
  { intros q N A. unfold s'. rewrite hd_unmap by exact A. unfold s1. cbn [with_mhead del_region with_regions with_large hd]. apply hd_seth_ne. exact N. }
  assert (HS : forall t, In t (tiles Ts) -> hd s' (tp t) = hd s (tp t)) by (intros t It; apply Hd; apply Off; exact It).
  split; [|split; [|reflexivity]].
  - split; [|split].
    + split.
      * exact (ch_arenas _ _ _ _ H).
      * pose proof (ch_ok _ _ _ _ H) as Q. rewrite Forall_forall in *. intros x Ix. destruct (Q x Ix) as [Q1 Q2 Q3 Q4 Q5]. split; auto. eapply heads_frame; [|exact Q4].
        intros t It. apply HS. eapply in_ats_tiles; eauto.
      * exact (ch_main _ _ _ _ H).
      * pose proof (ch_disj _ _ _ _ H) as Dj. unfold ranges in *. rewrite map_app in *. cbn [map] in Dj. rewrite app_assoc in *. apply disj_all_mid in Dj as [_ Dj]. exact Dj.
      * rewrite <- (regs_del_m _ _ _ _ _ H). apply Permutation_filter'. exact (ch_regs _ _ _ _ H).
      * apply Forall_forall. intros m' I. destruct (Offm m' I) as (J & A1 & A2 & A3 & _). destruct (O m' J) as [P1 P2 P3 P4 P5 P6 P7 P8]. split; auto.
        -- rewrite Hd; auto.
        -- unfold s', s1. cbn [unmap with_hd with_mhead mhead del_region with_regions with_large]. unfold upd. rewrite (proj2 (Z.eqb_neq _ _) A3). exact P2.
      * intros q h E Fr. unfold s' in E. pose proof (hd_unmap_sub c _ _ _ _ _ E) as E'.
        assert (Nq : q <> mp m).
        { intros ->. unfold unmap in E. cbn [hd with_hd] in E. replace (_ && _) with true in E by lia. discriminate. }
        unfold s1 in E'. cbn [with_mhead del_region with_regions with_large hd] in E'. change (hd (seth c s (mp m) h') q = Some h) in E'. rewrite hd_seth_ne in E' by exact Nq.
        destruct (ch_stale _ _ _ _ H q h E' Fr) as [S1|(m0 & Im & E0)]; [left; exact S1|]. right. exists m0. split; [|exact E0].
        rewrite in_app_iff in *. destruct Im as [Im|[->|Im]]; auto. congruence.
    + eapply LS_pres; [exact L | repeat split |]. intros q h I Hq. exists h. split; [|auto]. destruct I as [[b I]|I].
      * apply (lk_free _ _ _ K) in I as (z & I & _). rewrite <- Hq. exact (HS _ I).
      * apply in_map_iff in I as ([q0 z] & E0 & I). cbn in E0; subst q0. apply (lk_delay _ _ _ K) in I. rewrite <- Hq. exact (HS _ I).
    + exact K.
  - intros x (u & Iu & Bu). change (mem s' x) with (mem (seth c s (mp m) h') x). unfold seth, scribble. cbn [mem with_mem with_hd].
    assert (Z1 : (header_at c (mp m) <=? x) && (x <? header_at c (mp m) + 32) = false); [|rewrite Z1; reflexivity].
    unfold rb in Iu. apply in_app_or in Iu as [Iu|Iu].
    + apply filter_In in Iu as [Iu _]. destruct (Off u Iu) as (_ & _ & A). lia.
    + apply in_map_iff in Iu as (m0 & <- & Im). cbn [mtile tp tsz] in Bu. destruct (Offm m0 Im) as (_ & _ & _ & _ & A). lia.
Qed.

Definition mism (t : tile) (ty : Z) (ign : bool) : list report :=
  let a := snd (blk t) in if negb ign && negb (a =? 0) && negb (ty =? 0) && negb (a =? ty) then [Mismatch (tp t) a ty] else [].
Lemma mism_ok s Ts M t d ta sk ty ign : CH c s Ts M -> In t (rb Ts M) -> tk t = KLive (Some d) ta sk -> check_type_match s (tp t) ty ign = Ok (mism t ty ign).
Proof.
  intros H It Ek. destruct (rb_head c _ _ _ _ H It) as (h & d' & ty' & sk' & Ek' & Hh & _ & _ & _ & Ht & _). unfold check_type_match, geth. rewrite Hh. cbn [of_option bind].
  rewrite Ek in Ek'. injection Ek' as <- <- <-. unfold mism, blk. rewrite Ek. cbn [snd]. rewrite Ht. reflexivity.
Qed.
Definition isl (n : Z) : bool := LARGE_MALLOC_MIN_SIZE <=? n.
Definition cut (lg : list (Z * Z)) (p n : Z) : list (Z * Z) := if isl n then filter (fun x => negb (fst x =? p)) lg else lg.

(** quarantine after a free: a chunk of an arena joins it, a mapping does not *)
Definition queue_after (D D' : list (Z * Z)) (t : tile) (M : list mm) : Prop :=
  (D' = trim c (D ++ [(tp t, tsz t)]) /\ ~ In t (map mtile M)) \/ (D' = D /\ In t (map mtile M)).
Lemma free_inv o s Ts M D F t d ta ty ign : INV s Ts M D F -> settled Ts -> In t (rb Ts M) -> tk t = KLive (Some d) ta false -> 0 <= d <= tsz t ->
  exists s' Ts' M' D' F', free_common c o s (tp t) ty ign = Ok (s', mism t ty ign) /\ INV s' Ts' M' D' F' /\ settled Ts' /\
    Permutation (rb Ts M) (t :: rb Ts' M') /\ keep (bytes (rb Ts' M')) s s' /\ large s' = cut (large s) (tp t) (tsz t - d) /\ queue_after D D' t M /\ incl M' M.
Proof.
  intros I Se It Ek Hd. pose proof I as (H & L & K). pose proof (CH_GEO _ _ _ _ H) as G.
  unfold free_common. rewrite (proj2 (live_ok s Ts M (tp t) H)) by (apply in_map; exact It). cbn [negb].
  rewrite (mism_ok s Ts M t d ta false ty ign H It Ek). cbn [bind].
  destruct (rb_head c _ _ _ _ H It) as (h & d' & ty' & sk' & Ek' & Hh & Hal & _ & Hdf & Ht & Hsk). rewrite Ek in Ek'. injection Ek' as <- <- <-.
  destruct (rb_facts c W _ _ _ _ H It) as (_ & _ & Hz & _).
  unfold geth at 1. rewrite Hh. cbn [of_option bind]. unfold chunk_request_size at 1. rewrite Hdf. cbn [of_option bind]. rewrite Hal.
  replace (u32 (tsz t - d)) with (tsz t - d) by (symmetry; apply Z.mod_small; lia). fold (isl (tsz t - d)).
  set (s1 := seth c s (tp t) (set_freed h true)).
  assert (Es : (if isl (tsz t - d) then large_remove s1 (tp t) else s1) = with_large s1 (cut (large s) (tp t) (tsz t - d))).
  { unfold cut. destruct (isl _); reflexivity. }
  rewrite Es. clear Es. cbv zeta. unfold rb in It. apply in_app_or in It as [It|It].
  - apply filter_In in It as [It Lt]. destruct (tiles_split _ _ It) as (X & a & l1 & l2 & Y & ET). subst Ts.
    destruct t as [p z k]. cbn [tp tsz tk] in *. subst k.
    destruct (ch_hok _ _ _ _ _ _ _ _ _ H) as ((h0 & Hh0 & Hal0 & Hmm & (K1 & K2 & K3 & K4 & K5) & Hpv) & _). cbn [tp tsz tk] in *. assert (h0 = h) as -> by congruence.
    rewrite Hmm.
    assert (I1 : INV s1 (X ++ (a, l1 ++ Tile p z KHeld :: l2) :: Y) M D F).
    { split; [|split].
      - apply (CH_seth_same c W s X a l1 (Tile p z (KLive (Some d) ta false)) l2 Y M (set_freed h true) KHeld H); [|reflexivity].
        exists (set_freed h true). cbn [tp tsz tk]. split; [reflexivity|]. split; [exact Hal|]. split; [exact Hmm|]. split; [cbn; auto|].
        destruct (lastpv PN l1); cbn in *; try congruence. destruct Hpv as (_ & P2 & P3). split; [discriminate|]. split; [exact P2 | exact P3].
      - apply LS_seth; auto. intros h0 E. assert (h0 = h) as -> by congruence. split; [reflexivity|]. left. intros b. apply (lk_off_free c W _ _ _ _ b _ G K It). discriminate.
      - eapply (LK_seg_same c W X a a l1 [Tile p z (KLive (Some d) ta false)] [Tile p z KHeld]); try exact G; try exact K; intros u [<-|[]]; reflexivity. }
    destruct (settled_others _ _ _ _ _ _ Se) as [SL SH].
    destruct (delay_ok c W o (with_large s1 (cut (large s) p (z - d))) X a l1 p z l2 Y M D F (INV_with_large c _ _ _ _ _ _ I1) SL SH) as (s' & Ts' & F' & E1 & I2 & Se2 & Lv & Qt & _).
    rewrite E1. cbn [bind]. exists s', Ts', M, (trim c (D ++ [(p, z)])), F'. split; [reflexivity|]. split; [exact I2|]. split; [exact Se2|].
    assert (ER : rb Ts' M = filter live (others X l1 l2 Y) ++ map mtile M).
    { unfold rb at 1. rewrite Lv. rewrite <- (rb_dead X a l1 (Tile p z KHeld) l2 Y M eq_refl). reflexivity. }
    split; [rewrite ER; apply rb_mid; reflexivity|].
    destruct Qt as [Q1 Q2]. split; [|split; [exact Q2|split; [|intros x Ix; exact Ix]]].
    + rewrite ER, <- (rb_dead X a l1 (Tile p z KHeld) l2 Y M eq_refl). eapply keep_trans; [|intros x Bx; apply Q1; apply LB_rb; exact Bx].
      eapply (keep_sub (bytes (rb (X ++ (a, l1 ++ Tile p z (KLive (Some d) ta false) :: l2) :: Y) M))).
      * intros x Bx. rewrite rb_dead in Bx by reflexivity. eapply bytes_perm; [symmetry; apply rb_mid; reflexivity|]. eapply bytes_incl; [|exact Bx]. intros u Iu; right; exact Iu.
      * pose proof (quiet_seth c W _ _ _ (Tile p z (KLive (Some d) ta false)) (set_freed h true) H It) as Q3. apply keep_bytes in Q3 as [Q3 _]. intros x Bx. exact (Q3 x Bx).
    + left. split; [reflexivity|]. intros J. apply in_map_iff in J as (m & E & Im). pose proof (apart_mm c W _ _ _ _ G It Im) as A. injection E as E _ _. cbn [tp tsz] in A.
      pose proof (ch_mm _ _ _ _ H) as O. rewrite Forall_forall in O. destruct (O m Im) as [_ _ O3 O4 _ _ O7 _]. pose proof (hbr_pos c W). pose proof (wf_rz c W). pose proof (g_rng c W). pose proof (tile_facts c W _ _ _ G It) as Ft. cbn [tp tsz] in Ft. lia.
  - apply in_map_iff in It as (m & <- & Im). cbn [mtile tp tsz tk] in *. injection Ek as <- <- Esk.
    pose proof (ch_mm _ _ _ _ H) as O. rewrite Forall_forall in O. destruct (O m Im) as [(h0 & Q1 & _ & Q2 & _ & _ & _ & _ & Q3) Q4 _ _ _ _ _ _]. assert (h0 = h) as -> by congruence.
    rewrite Q2, Q3. cbn [of_option bind]. replace (header_at c (mp m) - (header_at c (mp m) - mb m)) with (mb m) by lia.
    change (mhead (with_large s1 (cut (large s) (mp m) (mal m - md m))) (mb m)) with (mhead s (mb m)). rewrite Q4. cbn [of_option bind].
    apply in_split in Im as (M1 & M2 & ->).
    destruct (unmap_ok s Ts M1 m M2 D F (set_freed h true) (cut (large s) (mp m) (mal m - md m)) I) as (I1 & K1 & L1).
    eexists _, Ts, (M1 ++ M2), D, F. split; [reflexivity|]. split; [exact I1|]. split; [exact Se|]. split; [|split; [exact K1|split; [exact L1|split]]].
    + unfold rb. rewrite !map_app. cbn [map]. rewrite !app_assoc. symmetry. apply Permutation_middle.
    + right. split; [reflexivity|]. apply in_map. apply in_elt.
    + intros x Ix. rewrite in_app_iff in *. cbn. tauto.
Qed.
End Free.
