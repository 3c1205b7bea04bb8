(** Returning a loose chunk: the size field, merging, giving memory back. *)
From Coq Require Import Permutation.
From Verif Require Import Base Alloc_Model Alloc_Inv Alloc_Proofs Alloc_Proofs2 Alloc_Proofs3.
Open Scope Z_scope.

Section Back.
Context (c : cfg) (W : wfc c).
Notation g := (inter c).
Notation INV := (INV c).

Lemma CH_with_mem s m Ts M : CH c s Ts M -> CH c (with_mem s m) Ts M.
Proof.
  intros [A1 A2 A3 A4 A5 A6 A7]. split; auto.
  - eapply Forall_impl; [|exact A2]. intros x [B1 B2 B3 B4 B5]. split; auto. eapply heads_frame; [|exact B4]. reflexivity.
  - eapply Forall_impl; [|exact A6]. intros x [B1 B2 B3 B4 B5 B6 B7 B8]. split; auto.
Qed.
Lemma INV_with_mem s m Ts M D F : INV s Ts M D F -> INV (with_mem s m) Ts M D F.
Proof.
  intros (A & B & E). split; [apply CH_with_mem; auto|]. split; auto.
  eapply LS_same; eauto. repeat split.
Qed.
Lemma INV_with_large s m Ts M D F : INV s Ts M D F -> INV (with_large s m) Ts M D F.
Proof.
  intros ([A1 A2 A3 A4 A5 A6 A7] & B & E). split; [split; auto|].
  - eapply Forall_impl; [|exact A2]. intros x [B1 B2 B3 B4 B5]. split; auto. eapply heads_frame; [|exact B4]. reflexivity.
  - eapply Forall_impl; [|exact A6]. intros x [B1 B2 B3 B4 B5 B6 B7 B8]. split; auto.
  - split; auto. eapply LS_same; eauto. repeat split.
Qed.
Lemma LK_ext Ts Ts' D F : LK Ts D F ->
  (forall t, listed (tk t) = true -> (In t (tiles Ts) <-> In t (tiles Ts'))) -> LK Ts' D F.
Proof.
  intros [A1 A2 A3 A4] E. split; auto.
  - intros b p. rewrite A1. split; intros (z & I & B); exists z; split; auto; apply (E (Tile p z KFree)); auto.
  - intros p z. rewrite A3. apply (E (Tile p z KDelay)); auto.
Qed.

Lemma arena_in_GEO X a l Y M : GEO c (X ++ (a, l) :: Y) M -> gok c (a, l).
Proof. intros [G _]. rewrite Forall_app, Forall_cons_iff in G. tauto. Qed.
Lemma tile_num s X a l1 t l2 Y M : CH c s (X ++ (a, l1 ++ t :: l2) :: Y) M -> num t.
Proof.
  intros H. destruct (arena_in_GEO _ _ _ _ _ (CH_GEO _ _ _ _ H)) as (_ & _ & N). cbn [snd] in N.
  rewrite Forall_app, Forall_cons_iff in N. tauto.
Qed.

Lemma next_at s X a l1 t l2 Y M i : CH c s (X ++ (a, l1 ++ t :: l2) :: Y) M -> (i <= length X)%nat ->
  next_chunk_forward c s i (tp t) = Ok (match l2 with [] => Ends (length X) | n :: _ => Next (tp n) end).
Proof.
  intros H Hi. destruct (ch_hok _ _ _ _ _ _ _ _ _ H) as ((h & A & B & _) & _).
  unfold next_chunk_forward, geth. rewrite A. cbn [of_option bind].
  pose proof (CH_GEO _ _ _ _ H) as G. rewrite (container_at c W s X a l1 t l2 Y M i (ch_arenas _ _ _ _ H) G Hi).
  destruct (arena_in_GEO _ _ _ _ _ G) as (_ & L & N). cbn [fst snd] in L, N. apply laid_mid in L as [_ L].
  rewrite Forall_app, Forall_cons_iff in N. destruct N as (_ & _ & N). rewrite B.
  destruct l2 as [|n l2].
  - cbn in L. rewrite <- L, Z.ltb_irrefl. reflexivity.
  - destruct L as [E L]. apply Forall_cons_iff in N as [[N1 N2] N]. apply (laid_le c W) in L; auto. pose proof (g_rng c W).
    rewrite E. replace (_ <? _) with true by lia. reflexivity.
Qed.

Lemma upd_arena_mid s (X : ats) a (Y : ats) f : arenas s = map fst X ++ a :: map fst Y ->
  arenas (upd_arena s (length X) f) = map fst X ++ f a :: map fst Y.
Proof.
  intros E. unfold upd_arena. cbn [arenas with_arenas]. rewrite E.
  rewrite nth_error_app2, map_length, Nat.sub_diag by (rewrite map_length; lia). cbn [nth_error].
  clear E. induction X as [|x X IH]; cbn; [reflexivity|]. rewrite IH. reflexivity.
Qed.
Lemma nth_error_mid s (X : ats) a (l : list tile) Y : arenas s = map fst (X ++ (a, l) :: Y) -> nth_error (arenas s) (length X) = Some a.
Proof.
  intros E. rewrite E, map_app. rewrite nth_error_app2, map_length, Nat.sub_diag by (rewrite map_length; lia). reflexivity.
Qed.

(** A change of one arena's [prev_free_sz] *)
Lemma CH_pfsz s X a l Y M z : CH c s (X ++ (a, l) :: Y) M -> fin (set_a_pfsz a z) (lastpv PN l) ->
  CH c (upd_arena s (length X) (fun a => set_a_pfsz a z)) (X ++ (set_a_pfsz a z, l) :: Y) M.
Proof.
  intros H Hf. pose proof (CH_seg c W s (upd_arena s (length X) (fun a => set_a_pfsz a z)) X a (set_a_pfsz a z) l [] [] [] Y M) as Q.
  cbn [app] in Q. rewrite !app_nil_r in Q. apply Q; auto.
  - rewrite (upd_arena_mid s X a Y); [reflexivity|]. rewrite (ch_arenas _ _ _ _ H), map_app. reflexivity.
  - repeat split.
  - exact I.
  - exact I.
Qed.

Lemma LS_upd_arena s D F i f : LS s D F -> LS (upd_arena s i f) D F.
Proof. intros L. eapply LS_same; eauto. repeat split. Qed.

(** alloc_replace.c [set_prev_size_field] *)
Lemma set_prev s X a l1 p z l2 Y M D F i :
  INV s (X ++ (a, l1 ++ Tile p z KLoose :: l2) :: Y) M D F -> (i <= length X)%nat ->
  (forall n l', l2 = n :: l' -> tk n <> KFree) ->
  exists s' a', set_prev_size_field c s i p = Ok s' /\ same_place a a' /\
    INV s' (X ++ (a', l1 ++ Tile p z KLoose :: l2) :: Y) M D F /\
    heads s' (PF z) l2 /\ fin a' (lastpv (PF z) l2) /\
    quiet (X ++ (a, l1 ++ Tile p z KLoose :: l2) :: Y) M s s'.
Proof.
  intros (H & L & K) Hi Hn. set (Ts := X ++ (a, l1 ++ Tile p z KLoose :: l2) :: Y) in *.
  pose proof (CH_GEO _ _ _ _ H) as G.
  pose proof (next_at _ _ _ _ _ _ _ _ _ H Hi) as Nx. cbn [tp] in Nx.
  destruct (ch_hok _ _ _ _ _ _ _ _ _ H) as ((h & Hh & Hal & _) & _ & H2 & Hf). cbn [tp tsz tk pvof] in *.
  pose proof (tile_num _ _ _ _ _ _ _ _ H) as Nz. unfold num in Nz. cbn [tsz] in Nz.
  unfold set_prev_size_field. unfold geth at 1. rewrite Hh. cbn [of_option bind]. rewrite Nx. cbn [bind].
  destruct l2 as [|n l2].
  - exists (upd_arena s (length X) (fun a => set_a_pfsz a z)), (set_a_pfsz a z). rewrite Hal. split; [reflexivity|].
    split; [repeat split|]. split; [|split; [exact I|split; [reflexivity|apply quiet_mem; reflexivity]]].
    split; [|split; [apply LS_upd_arena; auto|]].
    + apply (CH_pfsz s X a _ Y M z H). rewrite lastpv_mid. exact I.
    + eapply LK_ext; eauto. intros t _. unfold Ts. rewrite !in_mid. reflexivity.
  - assert (ET : Ts = X ++ (a, (l1 ++ [Tile p z KLoose]) ++ n :: l2) :: Y) by (unfold Ts; rewrite <- app_assoc; reflexivity).
    clearbody Ts. subst Ts. set (Ts := X ++ (a, (l1 ++ [Tile p z KLoose]) ++ n :: l2) :: Y) in *.
    replace (l1 ++ Tile p z KLoose :: n :: l2) with ((l1 ++ [Tile p z KLoose]) ++ n :: l2) by (rewrite <- app_assoc; reflexivity). fold Ts.
    destruct (ch_hok _ _ X a (l1 ++ [Tile p z KLoose]) n l2 Y M H) as ((hn & Hhn & An & Mn & Kn & Pn) & _ & H3 & Hf3).
    unfold geth. rewrite Hhn. cbn [of_option bind]. rewrite Hal.
    assert (In_ : In n (tiles Ts)) by (apply in_mid; auto).
    assert (Nfree : tk n <> KFree) by (eapply Hn; eauto).
    assert (Main : forall hn', h_alloc hn' = h_alloc hn -> h_mmap hn' = h_mmap hn -> h_freed hn' = h_freed hn ->
        h_delay hn' = h_delay hn -> h_skip hn' = h_skip hn -> h_diff hn' = h_diff hn -> h_type hn' = h_type hn ->
        h_pfree hn' = true -> h_nxt hn' = h_nxt hn -> size_field hn' z ->
        INV (seth c s (tp n) hn') Ts M D F /\ heads (seth c s (tp n) hn') (PF z) (n :: l2)).
    { intros hn' C1 C2 C3 C4 C5 C6 C7 C8 C9 C10.
      assert (Kn' : kind_ok hn' (tk n)) by (unfold kind_ok in *; rewrite C3, C4, C5, C6, C7; exact Kn).
      split.
      - split; [|split; [|exact K]].
        + replace n with (Tile (tp n) (tsz n) (tk n)) at 2 by (destruct n; reflexivity).
          unfold Ts. replace n with (Tile (tp n) (tsz n) (tk n)) at 2 by (destruct n; reflexivity).
          apply CH_seth_same; auto. exists hn'. split; [reflexivity|]. cbn [tk tsz]. rewrite C1, C2. repeat split; auto.
          rewrite lastpv_app. cbn. intros; contradiction.
        + apply LS_seth; auto. intros h0 E. assert (h0 = hn) as -> by congruence. split; auto. left. intros b.
          eapply lk_off_free; eauto.
      - cbn [heads]. split.
        + unfold hok. rewrite hd_seth_eq. exists hn'. rewrite C1, C2. repeat split; auto; cbn; auto; try (split; auto).
        + eapply heads_frame; [|exact H3]. intros t It. apply hd_seth_ne. eapply apart_ptr; eauto.
          unfold others. rewrite !in_app_iff. auto. }
    assert (Qs : forall hn', quiet Ts M s (seth c s (tp n) hn')) by (intros; apply (quiet_seth c W); auto).
    assert (Ff : fin a (lastpv (PF z) (n :: l2))) by exact Hf3.
    destruct (z / CHUNK_MIN_SIZE <=? USHRT_MAX) eqn:Es.
    + eexists _, a. split; [reflexivity|]. split; [repeat split|].
      edestruct (Main (set_shr (set_pfree hn true) (z / CHUNK_MIN_SIZE))) as [M1 M2]; try reflexivity.
      { left. split; [reflexivity|]. apply Z.leb_le in Es. exact Es. }
      split; [exact M1|]. split; [exact M2|]. split; [exact Ff|]. apply Qs.
    + eexists _, a. split; [reflexivity|]. split; [repeat split|].
      edestruct (Main (set_far (set_shr (set_pfree hn true) 0) z)) as [M1 M2]; try reflexivity.
      { right. split; reflexivity. }
      split; [apply INV_with_mem; exact M1|]. split; [eapply heads_frame; [|exact M2]; reflexivity|]. split; [exact Ff|].
      eapply quiet_trans1; [apply Qs|]. split; [|reflexivity]. apply keep_scribble.
      intros x Lx Hx.
      assert (Ip : In (Tile p z KLoose) (tiles Ts)).
      { unfold Ts. rewrite <- app_assoc. cbn [app]. apply in_mid. auto. }
      destruct (LB_clear c W s Ts M _ x H Ip Lx) as [_ Lc]. apply (Lc eq_refl). cbn [tp tsz].
      pose proof (header_rng c W (tp n)) as Hr. pose proof (g_rng c W) as Gr.
      assert (tp n = p + z + g).
      { destruct (arena_in_GEO _ _ _ _ _ G) as (_ & La & _). cbn [fst snd] in La. rewrite <- app_assoc in La. cbn [app] in La.
        apply laid_mid in La as [_ La]. cbn in La. destruct La as [La _]. exact La. }
      apply Z.leb_gt in Es. unfold CHUNK_MIN_SIZE, USHRT_MAX in Es. assert (1048576 <= z) by lia. lia.
Qed.

Lemma get_prev_size h z : size_field h z -> 16 <= z < 2 ^ 32 -> z mod 16 = 0 -> get_prev_size_field h = Ok z.
Proof.
  intros [[A B]|[A B]] R Md; unfold get_prev_size_field; rewrite A; cbn [of_option bind].
  - replace (z / 16 =? 0) with false by lia. unfold u32, CHUNK_MIN_SIZE. f_equal. rewrite Z.mod_small; lia.
  - change (0 =? 0) with true. rewrite B. reflexivity.
Qed.

(** two loose chunks become one *)
Lemma merge s X a l1 p z q y l2 Y M D F h :
  INV s (X ++ (a, l1 ++ Tile p z KLoose :: Tile q y KLoose :: l2) :: Y) M D F -> hd s p = Some h ->
  u32 (z + (y + g)) = z + (y + g) /\
  INV (seth c s p (set_alloc h (z + (y + g)))) (X ++ (a, l1 ++ Tile p (z + (y + g)) KLoose :: l2) :: Y) M D F /\
  quiet (X ++ (a, l1 ++ Tile p z KLoose :: Tile q y KLoose :: l2) :: Y) M s (seth c s p (set_alloc h (z + (y + g)))).
Proof.
  intros (H & L & K) Hh. set (Ts := X ++ (a, l1 ++ Tile p z KLoose :: Tile q y KLoose :: l2) :: Y) in *.
  pose proof (CH_GEO _ _ _ _ H) as G. pose proof (arena_in_GEO _ _ _ _ _ G) as Ga.
  assert (Ip : In (Tile p z KLoose) (tiles Ts)) by (apply in_mid; auto).
  assert (Eq : q = p + z + g).
  { destruct Ga as (_ & La & _). cbn [fst snd] in La. apply laid_mid in La as [_ La]. cbn in La. tauto. }
  assert (Sm : z + (y + g) < 2 ^ 32).
  { pose proof (gok_in c W _ (Tile p z KLoose) Ga ltac:(cbn [snd]; apply in_elt)) as A.
    pose proof (gok_in c W _ (Tile q y KLoose) Ga ltac:(cbn [snd]; apply in_or_app; right; right; left; reflexivity)) as B.
    cbn [fst tp tsz] in *. destruct Ga as (Gm & _). unfold geom in Gm. cbn [fst] in Gm.
 pose proof (g_rng c W); lia. }
  pose proof (tile_num _ _ _ _ _ _ _ _ H) as [N1 N2]. cbn [tsz] in *.
  assert (num (Tile q y KLoose)) as [N3 N4].
  { apply (tile_num s X a (l1 ++ [Tile p z KLoose]) _ l2 Y M). rewrite <- app_assoc. exact H. }
  cbn [tsz] in *. pose proof (g_rng c W) as Gr.
  split; [apply Z.mod_small; lia|]. split; [|apply (quiet_seth c W s Ts M (Tile p z KLoose)); auto].
  destruct (ch_hok _ _ _ _ _ _ _ _ _ H) as ((h0 & Hh0 & Hal & Hmm & Hk & Hpv) & _ & (_ & H2) & Hf). cbn [tp tsz tk pvof] in *.
  assert (h0 = h) as -> by congruence.
  split; [|split].
  - change (l1 ++ Tile p (z + (y + g)) KLoose :: l2) with (l1 ++ [Tile p (z + (y + g)) KLoose] ++ l2).
    apply (CH_seg c W s _ X a a l1 [Tile p z KLoose; Tile q y KLoose] [Tile p (z + (y + g)) KLoose] l2 Y M); try reflexivity.
    + exact H.
    + cbn. rewrite (ch_arenas _ _ _ _ H); unfold Ts; rewrite map_app. reflexivity.
    + repeat split.
    + intros p0 q0. cbn. intros (-> & A & <-). split; auto. lia.
    + constructor; [|constructor]. split; cbn [tsz]; [lia|]. apply mod16_add; auto. apply mod16_add; auto. apply (g_mod c W).
    + intros p0 N. apply hd_seth_ne. intros ->. apply N. left; reflexivity.
    + cbn [heads]. split; [|exact I]. unfold hok. cbn [tp]. rewrite hd_seth_eq. exists (set_alloc h (z + (y + g))). repeat split; auto; try apply Hk.
    + exact H2.
    + exact Hf.
    + intros t d ty sk [<-|[<-|[]]]; discriminate.
  - apply LS_seth; auto. intros h1 E. assert (h1 = h) as -> by congruence. split; [reflexivity | right; reflexivity].
  - eapply (LK_seg_same c W X a a l1 [Tile p z KLoose; Tile q y KLoose] [Tile p (z + (y + g)) KLoose]).
    + exact G. + exact K.
    + intros t [<-|[<-|[]]]; reflexivity.
    + intros t [<-|[]]; reflexivity.
Qed.

(** *** regions *)
Lemma range_pos s Ts M r : CH c s Ts M -> In r (ranges Ts M) -> fst r < snd r.
Proof.
  intros H I. unfold ranges in I. apply in_app_or in I as [I|I]; apply in_map_iff in I as (x & <- & I).
  - pose proof (ch_ok _ _ _ _ H) as O. rewrite Forall_forall in O. destruct (O x I) as [Gm _ _ _ _]. unfold rng_a, geom in *. cbn. pose proof (g_rng c W). lia.
  - pose proof (ch_mm _ _ _ _ H) as O. rewrite Forall_forall in O. specialize (O x I). pose proof (m_lo _ _ _ O). pose proof (m_hi _ _ _ O). pose proof (m_diff _ _ _ O).
    pose proof (wf_rz c W). pose proof (hbr_pos c W). unfold rng_m. cbn. lia.
Qed.
Lemma lo_unique s Ts M l1 r l2 r' : CH c s Ts M -> ranges Ts M = l1 ++ r :: l2 -> In r' (l1 ++ l2) -> fst r' <> fst r.
Proof.
  intros H E I. pose proof (ch_disj _ _ _ _ H) as D.
  assert (P1 : fst r < snd r) by (eapply range_pos; eauto; rewrite E; apply in_elt).
  assert (P2 : fst r' < snd r').
  { eapply range_pos; eauto. rewrite E. apply in_app_or in I. apply in_or_app. cbn. tauto. }
  rewrite E in D. apply disj_all_mid in D as [D _]. rewrite Forall_forall in D. specialize (D _ I). unfold disj in D. lia.
Qed.
Lemma ranges_mid X a l Y M : ranges (X ++ (a, l) :: Y) M = map rng_a X ++ (a_base a, a_commit a) :: (map rng_a Y ++ map rng_m M).
Proof. unfold ranges. rewrite map_app, <- app_assoc. reflexivity. Qed.
Lemma base_unique s X a l Y M : CH c s (X ++ (a, l) :: Y) M ->
  (forall x, In x (X ++ Y) -> a_base (fst x) <> a_base a) /\ (forall m, In m M -> mb m <> a_base a).
Proof.
  intros H. split.
  - intros x I. apply (lo_unique s _ M _ _ _ (rng_a x) H (ranges_mid X a l Y M)).
    apply in_app_or in I. rewrite !in_app_iff. destruct I; [left | right; left]; apply in_map; auto.
  - intros m I. apply (lo_unique s _ M _ _ _ (rng_m m) H (ranges_mid X a l Y M)).
    rewrite !in_app_iff. right; right. apply in_map; auto.
Qed.
Lemma regs_set s X a l Y M a' l' : CH c s (X ++ (a, l) :: Y) M -> a_base a' = a_base a ->
  map (fun r => if r_lo r =? a_base a then Region (a_base a) (a_commit a') (r_mmap r) else r) (regs (X ++ (a, l) :: Y) M)
  = regs (X ++ (a', l') :: Y) M.
Proof.
  intros H E. destruct (base_unique _ _ _ _ _ _ H) as [U1 U2]. unfold regs. rewrite !map_app. cbn [map fst].
  assert (Q : forall Z0 : ats, (forall x, In x Z0 -> a_base (fst x) <> a_base a) ->
    map (fun r => if r_lo r =? a_base a then Region (a_base a) (a_commit a') (r_mmap r) else r)
        (map (fun x => Region (a_base (fst x)) (a_commit (fst x)) false) Z0) = map (fun x => Region (a_base (fst x)) (a_commit (fst x)) false) Z0).
  { intros Z0 HZ. rewrite map_map. apply map_ext_in. intros x I. cbn [r_lo]. specialize (HZ x I). apply Z.eqb_neq in HZ. rewrite HZ. reflexivity. }
  rewrite (Q X), (Q Y) by (intros; apply U1; apply in_or_app; auto). f_equal.
  - cbn [r_lo r_mmap]. rewrite Z.eqb_refl, E. reflexivity.
  - rewrite map_map. apply map_ext_in. intros m I. cbn [r_lo]. specialize (U2 m I). apply Z.eqb_neq in U2. rewrite U2. reflexivity.
Qed.
Lemma filter_all {A} (f : A -> bool) l : (forall x, In x l -> f x = true) -> filter f l = l.
Proof. induction l; cbn; intros H; auto. rewrite H by auto. f_equal. auto. Qed.
Lemma regs_del s X a l Y M : CH c s (X ++ (a, l) :: Y) M ->
  filter (fun r => negb (r_lo r =? a_base a)) (regs (X ++ (a, l) :: Y) M) = regs (X ++ Y) M.
Proof.
  intros H. destruct (base_unique _ _ _ _ _ _ H) as [U1 U2]. unfold regs. rewrite !map_app, !filter_app. cbn [map filter fst r_lo].
  rewrite Z.eqb_refl. cbn [negb].
  assert (Q : forall Z0 : ats, (forall x, In x Z0 -> a_base (fst x) <> a_base a) ->
    filter (fun r => negb (r_lo r =? a_base a)) (map (fun x => Region (a_base (fst x)) (a_commit (fst x)) false) Z0) = map (fun x => Region (a_base (fst x)) (a_commit (fst x)) false) Z0).
  { intros Z0 HZ. apply filter_all. intros r I. apply in_map_iff in I as (x & <- & I). cbn [r_lo]. specialize (HZ x I). apply Z.eqb_neq in HZ. rewrite HZ. reflexivity. }
  rewrite (Q X), (Q Y) by (intros; apply U1; apply in_or_app; auto). f_equal.
  apply filter_all. intros r I. apply in_map_iff in I as (m & <- & I). cbn [r_lo]. specialize (U2 m I). apply Z.eqb_neq in U2. rewrite U2. reflexivity.
Qed.
Lemma Permutation_filter' {A} (f : A -> bool) l l' : Permutation l l' -> Permutation (filter f l) (filter f l').
Proof.
  induction 1; cbn; auto.
  - destruct (f x); auto.
  - destruct (f x), (f y); auto. apply perm_swap.
  - eapply perm_trans; eauto.
Qed.

(** *** headers that an unmapping leaves *)
Lemma header_mm p : p - (redzone c + header_beyond_redzone c) <= header_at c p /\ header_at c p + 32 <= p.
Proof.
  pose proof (wf_rz c W) as R. unfold header_at, redzone_beyond_header, header_beyond_redzone, header_size.
  destruct (shared c); cbn [negb]; [destruct (redzone c <? 32) eqn:E|]; lia.
Qed.
Lemma hd_unmap s lo hi q : header_at c q + 32 <= lo \/ hi <= header_at c q -> hd (unmap c s lo hi) q = hd s q.
Proof. intros A. unfold unmap. cbn. destruct (_ && _) eqn:E; [exfalso; lia | reflexivity]. Qed.
Lemma hd_unmap_sub s lo hi q h : hd (unmap c s lo hi) q = Some h -> hd s q = Some h.
Proof. unfold unmap. cbn. destruct (_ && _); [discriminate | auto]. Qed.
End Back.
