(** A new chunk at the end of an arena, and getting more memory. *)
From Coq Require Import Permutation.
From Verif Require Import Base Alloc_Model Alloc_Inv Alloc_Proofs Alloc_Proofs2 Alloc_Proofs3 Alloc_Proofs4 Alloc_Proofs5 Alloc_Proofs6 Alloc_Proofs7 Alloc_Proofs8.
Open Scope Z_scope.

(** What the kernel's answers to one call must satisfy, given the regions held. *)
Definition os_ok (o : os) (s : state) : Prop :=
  (forall n b, o_map o n = Some b -> 0 < b /\ b mod 4096 = 0 /\ Forall (fun r => disj (b, b + n) (r_lo r, r_hi r)) (regions s)) /\
  (forall base n, o_grow o base n = true -> n < 2 ^ 32 /\
     forall r, In r (regions s) -> r_lo r <> base -> disj (base, base + n) (r_lo r, r_hi r)) /\
  (forall b a, o_brk o b = true -> List.head (arenas s) = Some a -> b - a_base a < 2 ^ 32 /\
     forall r, In r (regions s) -> r_lo r <> a_base a -> disj (a_base a, b) (r_lo r, r_hi r)).

Section Carve.
Context (c : cfg) (W : wfc c).
Notation g := (inter c).
Notation INV := (INV c).

Lemma in_ats_tiles (X : ats) x t : In x X -> In t (snd x) -> In t (tiles X).
Proof. intros I J. unfold tiles. apply in_concat. exists (snd x). split; auto. apply in_map; auto. Qed.
Lemma tiles_ats (X : ats) t : In t (tiles X) -> exists x, In x X /\ In t (snd x).
Proof. unfold tiles. intros I. apply in_concat in I as (l & I & J). apply in_map_iff in I as (x & <- & I). eauto. Qed.

(** where the end of an arena is *)
Lemma end_off Ts M X a l Y : GEO c Ts M -> Ts = X ++ (a, l) :: Y -> a_next a < a_commit a ->
  (forall t, In t (tiles Ts) -> tp t + tsz t + g <= a_next a \/ a_next a < tp t - g \/ tp t + tsz t <= a_next a - g) /\
  (forall m, In m M -> a_next a < mb m \/ mb m + msz m <= a_next a - g).
Proof.
  intros [Gk Dj] -> Hc. pose proof (g_rng c W) as Gr. rewrite Forall_forall in Gk.
  assert (Ga : gok c (a, l)) by (apply Gk, in_elt). destruct Ga as (Gm & La & Nm). cbn [fst snd] in *. unfold geom in Gm.
  split.
  - intros t It. destruct (tiles_ats _ _ It) as (x & Ix & Jx). pose proof (gok_in c W x t (Gk x Ix) Jx) as Ft.
    apply in_app_or in Ix as [Ix|[<-|Ix]].
    + pose proof (disj_other _ _ _ _ _ x Dj ltac:(apply in_or_app; auto)). lia.
    + cbn [fst] in Ft. left. lia.
    + pose proof (disj_other _ _ _ _ _ x Dj ltac:(apply in_or_app; auto)). lia.
  - intros m Im. pose proof (disj_other_m _ _ _ _ _ m Dj Im). lia.
Qed.
Lemma LB_end s X a l Y M x : CH c s (X ++ (a, l) :: Y) M -> a_next a < a_commit a -> LB (X ++ (a, l) :: Y) M x -> ~ (a_next a - g <= x < a_next a).
Proof.
  intros H Hc Lx Hx. pose proof (g_rng c W) as Gr. destruct (end_off _ M X a l Y (CH_GEO _ _ _ _ H) eq_refl Hc) as [A B].
  pose proof (ch_mm _ _ _ _ H) as O. rewrite Forall_forall in O. pose proof (hbr_pos c W). pose proof (wf_rz c W).
  destruct Lx as [(t & It & Lt & Bt)|(m & Im & Bm)].
  - specialize (A t It). pose proof (tile_facts c W _ _ _ (CH_GEO _ _ _ _ H) It). lia.
  - specialize (B m Im). destruct (O m Im) as [_ _ O3 O4 _ _ _ _]. lia.
Qed.

Lemma carve_core s s' X a l Y M D F aligned hn :
  INV s (X ++ (a, l) :: Y) M D F -> 16 <= aligned -> aligned mod 16 = 0 -> a_next a + aligned <= a_commit a ->
  (384 + g <= 4096 -> a_next a + aligned + g <= a_commit a) ->
  h_alloc hn = aligned -> h_freed hn = false -> h_mmap hn = false -> h_delay hn = false -> h_skip hn = false -> h_type hn = 0 -> h_diff hn = None ->
  prev_ok hn (KLive None 0 false) (lastpv PN l) ->
  (forall q, hd s' q = if q =? a_next a then Some hn else hd s q) ->
  arenas s' = map fst X ++ Arena (a_base a) (a_start a) (a_next a + (aligned + g)) (a_commit a) 0 :: map fst Y ->
  same_lists s s' -> mhead s' = mhead s -> regions s' = regions s -> cur_brk s' = cur_brk s ->
  INV s' (X ++ (Arena (a_base a) (a_start a) (a_next a + (aligned + g)) (a_commit a) 0, l ++ [Tile (a_next a) aligned (KLive None 0 false)]) :: Y) M D F.
Proof.
  intros (H & L & K) Ha Hm Hc Hc' B1 B2 B3 B4 B5 B6 B7 Bp Eh Ea El Em Er Eb.
  set (T := Tile (a_next a) aligned (KLive None 0 false)). pose proof (g_rng c W) as Gr. pose proof (CH_GEO _ _ _ _ H) as G.
  destruct (end_off _ M X a l Y G eq_refl ltac:(lia)) as [Eo Em']. pose proof (ch_geom c _ _ _ _ _ _ H) as Gm. unfold geom in Gm.
  destruct (arena_in_GEO _ _ _ _ _ _ G) as (_ & La & Nm). cbn [fst snd] in La, Nm.
  assert (Off : forall t, In t (tiles (X ++ (a, l) :: Y)) -> tp t <> a_next a).
  { intros t It. specialize (Eo t It). pose proof (tile_facts c W _ _ _ G It). lia. }
  assert (Hsame : forall t, In t (tiles (X ++ (a, l) :: Y)) -> hd s' (tp t) = hd s (tp t)).
  { intros t It. rewrite Eh. replace (_ =? _) with false by (symmetry; apply Z.eqb_neq, Off, It). reflexivity. }
  assert (Inl : forall t, In t l -> In t (tiles (X ++ (a, l) :: Y))).
  { intros t It. rewrite tiles_app, tiles_cons, !in_app_iff. auto. }
  split; [|split].
  - apply (CH_arena c s s' X a l _ _ Y M H); cbn [a_base a_start a_next a_commit a_pfsz]; auto.
    + unfold geom. cbn [a_base a_start a_next a_commit a_pfsz]. repeat (split; [tauto || lia|]). intros Q. specialize (Hc' Q). lia.
    + apply (laid_app c). exists (a_next a). split; [exact La|]. cbn [laid tp tsz T]. split; [reflexivity | lia].
    + apply Forall_app. split; auto. constructor; [split; auto | constructor].
    + apply heads_app. split.
      * pose proof (ch_ok _ _ _ _ H) as O. rewrite Forall_app, Forall_cons_iff in O. destruct O as (_ & [_ _ _ O _] & _). cbn [snd] in O.
        eapply heads_frame; [|exact O]. intros t It. apply Hsame; auto.
      * cbn [heads]. split; [|exact I]. unfold hok. cbn [tp T]. rewrite Eh, Z.eqb_refl. exists hn. cbn [tk tsz T]. repeat split; auto.
    + rewrite lastpv_app. cbn. reflexivity.
    + eapply disj_shrink; [exact (ch_disj _ _ _ _ H) | reflexivity | cbn; lia].
    + intros x t Ix It. apply Hsame. eapply in_ats_tiles; [|exact It]. rewrite in_app_iff in *. cbn. tauto.
    + intros m Im. rewrite Eh. pose proof (ch_mm _ _ _ _ H) as O. rewrite Forall_forall in O. destruct (O m Im) as [_ _ O3 O4 _ _ O7 _].
      specialize (Em' m Im). pose proof (hbr_pos c W). pose proof (wf_rz c W). replace (_ =? _) with false by lia. reflexivity.
    + rewrite Er. etransitivity; [exact (ch_regs _ _ _ _ H)|]. unfold regs. rewrite !map_app. cbn [map fst a_base a_commit]. reflexivity.
    + intros ->. destruct (ch_main _ _ _ _ H) as (b & lb & Z0 & E & B). cbn in E. injection E as <- _ _. congruence.
    + intros q h E Fr. rewrite Eh in E. destruct (q =? a_next a) eqn:Q.
      * right. apply Z.eqb_eq in Q. subst q. exists aligned, None, 0, false. apply in_or_app; right; left; reflexivity.
      * left. split; auto. intros t It Lt <-. unfold live in Lt. destruct t as [q z k]. cbn [tk tp tsz] in *. destruct k; try discriminate. eexists _, _, _. apply in_or_app; left; eauto.
  - eapply LS_pres; [exact L | exact El |]. intros q h I Hq. exists h. split; [|auto]. rewrite Eh.
    assert (q <> a_next a).
    { destruct I as [[b I]|I].
      - apply (lk_free _ _ _ K) in I as (z & I & _). exact (Off _ I).
      - apply in_map_iff in I as ([q0 z] & E0 & I). cbn in E0; subst q0. apply (lk_delay _ _ _ K) in I. exact (Off _ I). }
    replace (_ =? _) with false by lia. exact Hq.
  - pose proof (LK_seg_same c W X a (Arena (a_base a) (a_start a) (a_next a + (aligned + g)) (a_commit a) 0) l [] [T] [] Y M D F) as Q.
    cbn [app] in Q. rewrite !app_nil_r in Q. apply Q; auto; intros t; [intros [] | intros [<-|[]]; reflexivity].
Qed.

Definition carved (a : arena) (z : Z) : arena := Arena (a_base a) (a_start a) (a_next a + (z + g)) (a_commit a) 0.
(** alloc_replace.c:1806-1831 *)
Lemma carve_ok s X a l Y M D F aligned :
  INV s (X ++ (a, l) :: Y) M D F -> settled (X ++ (a, l) :: Y) -> 16 <= aligned -> aligned mod 16 = 0 -> aligned < 2 ^ 20 -> a_next a + aligned <= a_commit a ->
  (384 + g <= 4096 -> a_next a + aligned + g <= a_commit a) ->
  exists s', carve c s (length X) aligned (aligned + g) = Ok (s', a_next a) /\
    INV s' (X ++ (carved a aligned, l ++ [Tile (a_next a) aligned (KLive None 0 false)]) :: Y) M D F /\
    quiet (X ++ (a, l) :: Y) M s s'.
Proof.
  intros I S Ha Hm Hs Hc Hc'. pose proof I as (H & L & K). pose proof (g_rng c W) as Gr. pose proof (CH_GEO _ _ _ _ H) as G.
  pose proof (ch_geom c _ _ _ _ _ _ H) as Gm. unfold geom in Gm.
  destruct (arena_in_GEO _ _ _ _ _ _ G) as (_ & La & Nm). cbn [fst snd] in La, Nm.
  pose proof (ch_ok _ _ _ _ H) as O. rewrite Forall_app, Forall_cons_iff in O. destruct O as (_ & [_ _ _ Oh Of] & _). cbn [fst snd] in *.
  assert (SL : NL l) by (intros t It; apply (S t); rewrite tiles_app, tiles_cons, !in_app_iff; auto).
  unfold carve. rewrite (nth_error_mid s X a l Y (ch_arenas _ _ _ _ H)). cbn [of_option bind].
  set (p := a_next a). set (hp := Hdr aligned false false false false false 0 None None None _ _).
  set (s1 := seth c s p hp). set (s2 := upd_arena s1 (length X) _).
  assert (Ea2 : arenas s2 = map fst X ++ Arena (a_base a) (a_start a) (p + (aligned + g)) (a_commit a) (a_pfsz a) :: map fst Y).
  { apply (upd_arena_mid s1 X a Y). unfold s1. rewrite seth_arenas, (ch_arenas _ _ _ _ H), map_app. reflexivity. }
  assert (Q1 : forall h, quiet (X ++ (a, l) :: Y) M s (seth c s p h)).
  { intros h. split; [|reflexivity]. apply keep_seth; [exact W|]. intros x Lx. exact (LB_end s X a l Y M x H ltac:(lia) Lx). }
  destruct (lastpv_cases l SL) as [Ev|(l0 & fp & fz & El & Ev)]; rewrite Ev in Of; cbn in Of.
  - (* the last chunk is not free *)
    rewrite Of. change (0 =? 0) with true. exists s2. split; [reflexivity|]. split; [|eapply quiet_trans1; [apply (Q1 hp) | apply quiet_mem; reflexivity]].
    eapply carve_core with (hn := hp); eauto; try reflexivity.
    + rewrite Ev. reflexivity.
    + rewrite Ea2. unfold carved, p. rewrite Of. reflexivity.
    + repeat split.
  - assert (Nf : num (Tile fp fz KFree)).
    { rewrite El, Forall_app in Nm. destruct Nm as [_ Nm]. apply Forall_cons_iff in Nm. tauto. }
    destruct Nf as [Nf1 Nf2]. cbn [tsz] in *.
    rewrite Of. replace (fz =? 0) with false by lia.
    assert (Ep : fp + fz + g = p).
    { rewrite El in La. apply (laid_app c) in La as (m & _ & La). cbn [laid tp tsz] in La. unfold p. lia. }
    assert (Ifp : In (Tile fp fz KFree) (tiles (X ++ (a, l) :: Y))).
    { rewrite tiles_app, tiles_cons, El, !in_app_iff. cbn. auto 10. }
    pose proof (tile_facts c W _ _ _ G Ifp) as Ft. cbn [tp tsz] in Ft.
    destruct (ch_tile _ _ _ _ _ H Ifp) as (w & hf & Hf & Af & _). cbn [tp tsz] in *.
    replace (p - g - fz) with fp by lia.
    unfold set_prev_size_field. assert (Hf2 : hd s2 fp = Some hf).
    { change (hd s2 fp) with (hd s1 fp). unfold s1. rewrite hd_seth_ne by lia. exact Hf. }
    unfold geth at 1. rewrite Hf2. cbn [of_option bind].
    set (T := Tile p aligned (KLive None 0 false)). set (a2 := Arena (a_base a) (a_start a) (p + (aligned + g)) (a_commit a) (a_pfsz a)) in *.
    assert (Nx : next_chunk_forward c s2 (length X) fp = Ok (Next p)).
    { pose proof (next_gen c W s2 X a2 l0 (Tile fp fz KFree) [T] Y M (length X) hf) as Q. cbn [tp tsz T] in Q. apply Q; auto.
      - rewrite Ea2, map_app. reflexivity.
      - split.
        + rewrite Forall_app, Forall_cons_iff. destruct G as [Gk _]. rewrite Forall_app, Forall_cons_iff in Gk. destruct Gk as (G1 & _ & G3).
          split; [exact G1|]. split; [|exact G3]. split; [|split]; cbn [fst snd].
          * unfold geom, a2, p. cbn [a_base a_start a_next a_commit a_pfsz]. repeat (split; [tauto || lia|]). intros Q'. specialize (Hc' Q'). lia.
          * change (l0 ++ [Tile fp fz KFree; T]) with (l0 ++ [Tile fp fz KFree] ++ [T]). rewrite app_assoc, <- El. apply (laid_app c). exists p. split; [exact La|].
            cbn. split; [reflexivity | lia].
          * change (l0 ++ [Tile fp fz KFree; T]) with (l0 ++ [Tile fp fz KFree] ++ [T]). rewrite app_assoc, <- El. apply Forall_app. split; auto. constructor; [split; auto | constructor].
        + eapply disj_shrink; [exact (ch_disj _ _ _ _ H) | reflexivity | cbn; lia]. }
    rewrite Nx. cbn [bind]. unfold geth. assert (Hp2 : hd s2 p = Some hp) by (change (hd s2 p) with (hd s1 p); apply hd_seth_eq). rewrite Hp2. cbn [of_option bind]. rewrite Af.
    assert (Main : forall s3 hn, h_alloc hn = aligned -> h_freed hn = false -> h_mmap hn = false -> h_delay hn = false -> h_skip hn = false -> h_type hn = 0 -> h_diff hn = None ->
       h_pfree hn = true -> size_field hn fz -> hd s3 = hd (seth c s2 p hn) -> arenas s3 = arenas s2 -> same_lists s s3 -> mhead s3 = mhead s -> regions s3 = regions s -> cur_brk s3 = cur_brk s ->
       INV (upd_arena s3 (length X) (fun a => set_a_pfsz a 0)) (X ++ (carved a aligned, l ++ [T]) :: Y) M D F).
    { intros s3 hn C1 C2 C3 C4 C5 C6 C7 C8 C9 C10 C11 C12 C13 C14 C15.
      eapply carve_core with (hn := hn); eauto.
      - rewrite Ev. cbn. split; [discriminate | auto].
      - intros q. change (hd (upd_arena s3 (length X) (fun a => set_a_pfsz a 0)) q) with (hd s3 q). rewrite C10, hd_seth. fold p. destruct (q =? p) eqn:Q; auto. change (hd s2 q) with (hd s1 q). unfold s1. rewrite hd_seth, Q. reflexivity.
      - rewrite (upd_arena_mid s3 X a2 Y); [reflexivity|]. rewrite C11. exact Ea2. }
    destruct (fz / CHUNK_MIN_SIZE <=? USHRT_MAX) eqn:Es; cbn [bind].
    + eexists. split; [reflexivity|]. split.
      * apply (Main _ (set_shr (set_pfree hp true) (fz / CHUNK_MIN_SIZE))); try reflexivity; [|repeat split].
        left. split; [reflexivity|]. apply Z.leb_le in Es. exact Es.
      * assert (Q2 : quiet (X ++ (a, l) :: Y) M s s2) by (eapply quiet_trans1; [apply (Q1 hp) | apply quiet_mem; reflexivity]).
        exact (quiet_again c (X ++ (a, l) :: Y) M s s2 p (set_shr (set_pfree hp true) (fz / CHUNK_MIN_SIZE)) Q2 (Q1 _)).
    + eexists. split; [reflexivity|]. split.
      * apply (Main _ (set_far (set_shr (set_pfree hp true) 0) fz)); try reflexivity; [|repeat split].
        right. split; reflexivity.
      * assert (Q2 : quiet (X ++ (a, l) :: Y) M s s2) by (eapply quiet_trans1; [apply (Q1 hp) | apply quiet_mem; reflexivity]).
        eapply quiet_trans1; [exact (quiet_again c (X ++ (a, l) :: Y) M s s2 p (set_far (set_shr (set_pfree hp true) 0) fz) Q2 (Q1 _))|].
        split; [|reflexivity]. apply keep_scribble. intros x Lx Hx.
        destruct (LB_clear c W s (X ++ (a, l) :: Y) M _ x H Ifp Lx) as [_ Lc]. apply (Lc eq_refl). cbn [tp tsz].
        pose proof (header_rng c W p) as Hr. apply Z.leb_gt in Es. unfold CHUNK_MIN_SIZE, USHRT_MAX in Es. assert (1048576 <= fz) by lia. lia.
Qed.

(** *** more memory *)
Lemma regs_in (Ts : ats) M r : In r (regs Ts M) <-> (exists x, In x Ts /\ r = Region (a_base (fst x)) (a_commit (fst x)) false) \/ (exists m, In m M /\ r = Region (mb m) (mb m + msz m) true).
Proof.
  unfold regs. rewrite in_app_iff, !in_map_iff. split.
  - intros [(x & <- & I)|(m & <- & I)]; [left | right]; eauto.
  - intros [(x & I & ->)|(m & I & ->)]; [left | right]; eauto.
Qed.
Lemma ranges_regs Ts M : ranges Ts M = map (fun r => (r_lo r, r_hi r)) (regs Ts M).
Proof. unfold ranges, regs. rewrite map_app, !map_map. reflexivity. Qed.
(** an arena's end is moved *)
Lemma grow_ok s s' X a l Y M D F hi :
  INV s (X ++ (a, l) :: Y) M D F -> a_commit a <= hi -> hi mod 4096 = 0 -> hi - a_base a < 2 ^ 32 ->
  (forall r, In r (regions s) -> r_lo r <> a_base a -> disj (a_base a, hi) (r_lo r, r_hi r)) ->
  hd s' = hd s -> mhead s' = mhead s -> same_lists s s' ->
  arenas s' = map fst X ++ Arena (a_base a) (a_start a) (a_next a) hi (a_pfsz a) :: map fst Y ->
  regions s' = regions (set_region s (a_base a) hi) ->
  (X = [] -> cur_brk s' = hi) -> (X <> [] -> cur_brk s' = cur_brk s) ->
  INV s' (X ++ (Arena (a_base a) (a_start a) (a_next a) hi (a_pfsz a), l) :: Y) M D F.
Proof.
  intros (H & L & K) Hhi Hpg H32 Dj Eh Em Es Ea Er B1 B2. set (a' := Arena (a_base a) (a_start a) (a_next a) hi (a_pfsz a)).
  pose proof (ch_geom c _ _ _ _ _ _ H) as Gm. unfold geom in Gm. pose proof (CH_GEO _ _ _ _ H) as G.
  destruct (arena_in_GEO _ _ _ _ _ _ G) as (_ & La & Nm). cbn [fst snd] in La, Nm.
  pose proof (ch_ok _ _ _ _ H) as O. rewrite Forall_app, Forall_cons_iff in O. destruct O as (_ & [_ _ _ Oh Of] & _). cbn [fst snd] in *.
  destruct (base_unique c W _ _ _ _ _ _ H) as [U1 U2].
  split; [|split].
  - apply (CH_arena c s s' X a l a' l Y M H); auto.
    + unfold geom, a'. cbn [a_base a_start a_next a_commit]. repeat (split; [tauto || lia|]). intros Q. lia.
    + eapply heads_frame; [|exact Oh]. intros t It. rewrite Eh. reflexivity.
    + rewrite ranges_mid. pose proof (ch_disj _ _ _ _ H) as Dd. rewrite ranges_mid in Dd. apply disj_all_mid in Dd as [_ Dd]. apply disj_all_mid. split; auto.
      apply Forall_forall. intros r Ir. cbn [a_base a_commit a'].
      assert (J : exists r0, In r0 (regions s) /\ r_lo r0 <> a_base a /\ r = (r_lo r0, r_hi r0)).
      { rewrite !in_app_iff in Ir. destruct Ir as [Ir|[Ir|Ir]]; apply in_map_iff in Ir as (x & <- & Ix).
        - exists (Region (a_base (fst x)) (a_commit (fst x)) false). split; [|split; [apply U1; apply in_or_app; auto | reflexivity]].
          eapply Permutation_in; [apply Permutation_sym, (ch_regs _ _ _ _ H)|]. apply regs_in. left. exists x. split; auto. apply in_or_app; auto.
        - exists (Region (a_base (fst x)) (a_commit (fst x)) false). split; [|split; [apply U1; apply in_or_app; auto | reflexivity]].
          eapply Permutation_in; [apply Permutation_sym, (ch_regs _ _ _ _ H)|]. apply regs_in. left. exists x. split; auto. apply in_or_app; right; right; auto.
        - exists (Region (mb x) (mb x + msz x) true). split; [|split; [apply U2; auto | reflexivity]].
          eapply Permutation_in; [apply Permutation_sym, (ch_regs _ _ _ _ H)|]. apply regs_in. right. exists x. auto. }
      destruct J as (r0 & J1 & J2 & ->). apply Dj; auto.
    + intros x t _ _. rewrite Eh. reflexivity.
    + intros m _. rewrite Eh. reflexivity.
    + rewrite Er. unfold set_region. cbn [regions with_regions].
      pose proof (regs_set c W s X a l Y M a' l H eq_refl) as Q. cbn [a_commit a'] in Q. rewrite <- Q. apply Permutation_map. exact (ch_regs _ _ _ _ H).
    + intros p h E Fr. rewrite Eh in E. left. split; auto. intros t It Lt <-. destruct t as [q z k]. unfold live in Lt. cbn [tk tp tsz] in *. destruct k; try discriminate. eauto.
  - eapply LS_same; eauto.
  - eapply (LK_ext (X ++ (a, l) :: Y)); [exact K|]. intros t _. rewrite !tiles_app, !tiles_cons. reflexivity.
Qed.
(** a new arena *)
Lemma create_ok s o Ts M D F b : INV s Ts M D F -> o_map o ARENA_INITIAL_SIZE = Some b -> os_ok o s ->
  exists s' a, arena_create c o s = (s', Some (length Ts)) /\ a = arena_init c b ARENA_INITIAL_SIZE 72 /\
    INV s' (Ts ++ [(a, [])]) M D F /\ quiet Ts M s s'.
Proof.
  intros (H & L & K) Eo (Om & _ & _). destruct (Om _ _ Eo) as (O1 & O2 & O3). pose proof (g_rng c W) as Gr. pose proof (g_mod c W) as Gmod.
  set (a := arena_init c b ARENA_INITIAL_SIZE 72). unfold arena_create. rewrite Eo.
  eexists _, a. split; [f_equal; f_equal; cbn; rewrite (ch_arenas _ _ _ _ H), map_length; reflexivity|]. split; [reflexivity|].
  split; [|apply quiet_mem; reflexivity].
  assert (Tl : tiles (Ts ++ [(a, [])]) = tiles Ts) by (rewrite tiles_app, tiles_cons; cbn; rewrite app_nil_r; reflexivity).
  assert (Rg : regs (Ts ++ [(a, [])]) M = map (fun x => Region (a_base (fst x)) (a_commit (fst x)) false) Ts ++ Region b (b + ARENA_INITIAL_SIZE) false :: map (fun m => Region (mb m) (mb m + msz m) true) M).
  { unfold regs. rewrite map_app, <- app_assoc. reflexivity. }
  assert (Ast : a_start a = b + 80 + g) by reflexivity.
  split; [|split].
  - split.
    + cbn. rewrite (ch_arenas _ _ _ _ H), map_app. reflexivity.
    + apply Forall_app. split.
      * eapply Forall_impl; [|exact (ch_ok _ _ _ _ H)]. intros x [A1 A2 A3 A4 A5]. split; auto. eapply heads_frame; [|exact A4]. reflexivity.
      * constructor; [|constructor]. split; cbn [fst snd]; [|reflexivity|constructor|exact I|reflexivity].
        unfold geom, a, arena_init. cbn [a_base a_start a_next a_commit]. unfold ARENA_INITIAL_SIZE, CHUNK_ALIGNMENT.
        change (ALIGN_FORWARD 72 16) with 80. split; [lia|]. split; [lia|]. split; [lia|]. split; [apply mod16_add; auto; apply mod16_add; [apply mod16_4096; auto | reflexivity]|].
        split; [lia|]. split; [lia|]. split; [|lia]. rewrite Z.add_mod, O2 by lia. reflexivity.
    + destruct (ch_main _ _ _ _ H) as (b0 & l0 & Z0 & -> & B). eexists _, _, _. split; [reflexivity | exact B].
    + rewrite ranges_regs, Rg, map_app. cbn [map r_lo r_hi]. apply disj_all_mid. split.
      * rewrite <- map_app. change (map _ Ts ++ map _ M) with (regs Ts M). rewrite Forall_map.
        apply (Permutation_Forall (ch_regs _ _ _ _ H)). exact O3.
      * rewrite <- map_app. change (map _ Ts ++ map _ M) with (regs Ts M). rewrite <- ranges_regs. exact (ch_disj _ _ _ _ H).
    + cbn. rewrite Rg. apply Permutation_cons_app. exact (ch_regs _ _ _ _ H).
    + eapply Forall_impl; [|exact (ch_mm _ _ _ _ H)]. intros m [A1 A2 A3 A4 A5 A6 A7 A8]. split; auto.
    + intros p h E Fr. rewrite Tl. exact (ch_stale _ _ _ _ H p h E Fr).
  - eapply LS_same; [exact L | repeat split | reflexivity].
  - eapply LK_ext; [exact K|]. intros t _. rewrite Tl. reflexivity.
Qed.
End Carve.
