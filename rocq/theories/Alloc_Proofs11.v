(** [replace_alloc_common] as a whole. *)
From Coq Require Import Permutation.
From Verif Require Import Base Alloc_Model Alloc_Inv Alloc_Proofs Alloc_Proofs2 Alloc_Proofs3 Alloc_Proofs4 Alloc_Proofs5 Alloc_Proofs6 Alloc_Proofs7 Alloc_Proofs8 Alloc_Proofs9 Alloc_Proofs10.
Open Scope Z_scope.

(** everything handed out *)
Definition mtile (m : mm) : tile := Tile (mp m) (mal m) (KLive (Some (md m)) (mty m) (msk m)).
Definition rb (Ts : ats) (M : list mm) : list tile := lives Ts ++ map mtile M.
Definition bytes (L : list tile) (x : Z) : Prop := exists t, In t L /\ tp t <= x < tp t + tsz t.
Lemma LB_rb Ts M x : LB Ts M x <-> bytes (rb Ts M) x.
Proof.
  unfold LB, bytes, rb. split.
  - intros [(t & I & L & B)|(m & I & B)].
    + exists t. split; auto. apply in_or_app. left. apply filter_In. auto.
    + exists (mtile m). split; auto. apply in_or_app. right. apply in_map. auto.
  - intros (t & I & B). apply in_app_or in I as [I|I].
    + apply filter_In in I as [I L]. left. eauto.
    + apply in_map_iff in I as (m & <- & I). right. exists m. auto.
Qed.
Lemma bytes_perm L L' x : Permutation L L' -> bytes L x -> bytes L' x.
Proof. intros P (t & I & B). exists t. split; auto. eapply Permutation_in; eauto. Qed.
Lemma bytes_incl L L' x : incl L L' -> bytes L x -> bytes L' x.
Proof. intros P (t & I & B). exists t. split; auto. Qed.

Lemma pow2 x : IS_POWER_OF_2 x = true -> 0 < x -> exists n, 0 <= n /\ x = 2 ^ n.
Proof.
  unfold IS_POWER_OF_2. intros P Hx. apply andb_true_iff in P as [_ P]. apply Z.eqb_eq in P.
  exists (Z.log2 x). split; [apply Z.log2_nonneg|].
  destruct (Z.log2_spec x Hx) as [A B]. destruct (Z.eq_dec x (2 ^ Z.log2 x)) as [E|N]; [exact E|exfalso].
  pose proof (Z.log2_nonneg x) as NN.
  assert (L1 : Z.log2 (x - 1) = Z.log2 x) by (apply Z.log2_unique; lia).
  assert (T : Z.testbit (Z.land x (x - 1)) (Z.log2 x) = true).
  { rewrite Z.land_spec, Z.bit_log2 by lia. rewrite <- L1, Z.bit_log2; [reflexivity|].
    pose proof (Z.pow_pos_nonneg 2 (Z.log2 x) ltac:(lia) NN). lia. }
  rewrite P, Z.bits_0 in T. discriminate.
Qed.
Lemma pow2_16 x : IS_POWER_OF_2 x = true -> 16 <= x -> x mod 16 = 0.
Proof.
  intros P Hx. destruct (pow2 x P ltac:(lia)) as (n & Hn & ->).
  assert (4 <= n). { destruct (Z_lt_le_dec n 4); auto. exfalso. assert (2 ^ n < 2 ^ 4) by (apply Z.pow_lt_mono_r; lia). lia. }
  replace n with (4 + (n - 4)) by lia. rewrite Z.pow_add_r by lia. rewrite Z.mul_comm. change (2 ^ 4) with 16. apply Z_mod_mult.
Qed.
Lemma mod_trans x a : x mod a = 0 -> a mod 16 = 0 -> 0 < a -> x mod 16 = 0.
Proof.
  intros A B H. apply Z.mod_divide in A; [|lia]. apply Z.mod_divide in B; [|lia]. apply Z.mod_divide; [lia|]. eapply Z.divide_trans; eauto.
Qed.

Section Common.
Context (c : cfg) (W : wfc c).
Notation g := (inter c).
Notation INV := (INV c).

Definition okb (t : tile) : Prop := exists d ty, tk t = KLive (Some d) ty false /\ 0 <= d <= tsz t.
Definition blk (t : tile) : Z * Z * Z := match tk t with KLive (Some d) ty _ => (tp t, tsz t - d, ty) | _ => (tp t, 0, 0) end.
Definition big (t : tile) : bool := LARGE_MALLOC_MIN_SIZE <=? snd (fst (blk t)).
Record WF (s : state) (Ts : ats) (M : list mm) (D : list (Z * Z)) (F : nat -> list Z) : Prop := {
  wf_inv : INV s Ts M D F;
  wf_settled : settled Ts;
  wf_rb : Forall okb (rb Ts M);
  wf_large : Permutation (large s) (map (fun t => fst (blk t)) (filter big (rb Ts M))) }.

(** *** geometry of what is handed out *)
Lemma NoDup_split {A B} (f : A -> B) l : (forall l1 t l2, l = l1 ++ t :: l2 -> forall u, In u (l1 ++ l2) -> f u <> f t) -> NoDup (map f l).
Proof.
  induction l as [|x l IH]; intros H; [constructor|]. cbn. constructor.
  - intros I. apply in_map_iff in I as (u & E & I). apply (H [] x l eq_refl u I E).
  - apply IH. intros l1 t l2 -> u I. apply (H (x :: l1) t l2 eq_refl u). right. exact I.
Qed.
Lemma tiles_split_at Ts : forall l1 t l2, tiles Ts = l1 ++ t :: l2 ->
  exists X a m1 m2 Y, Ts = X ++ (a, m1 ++ t :: m2) :: Y /\ l1 = tiles X ++ m1 /\ l2 = m2 ++ tiles Y.
Proof.
  induction Ts as [|[a l] Ts IH]; intros l1 t l2; [destruct l1; discriminate|]. rewrite tiles_cons. intros E.
  apply app_eq_app in E as (m & [[E1 E2]|[E1 E2]]).
  - destruct m as [|x m].
    + cbn in E2. rewrite app_nil_r in E1. subst l. symmetry in E2. apply (IH [] t l2) in E2 as (X & b & m1 & m2 & Y & -> & E3 & ->).
      exists ((a, l1) :: X), b, m1, m2, Y. split; [reflexivity|]. rewrite tiles_cons, <- app_assoc, <- E3, app_nil_r. auto.
    + cbn in E2. injection E2 as <- ->. exists [], a, l1, m, Ts. subst l. auto.
  - apply IH in E2 as (X & b & m1 & m2 & Y & -> & -> & ->). exists ((a, l) :: X), b, m1, m2, Y. split; [reflexivity|]. rewrite tiles_cons, E1, app_assoc. auto.
Qed.
Lemma tiles_nodup Ts M : GEO c Ts M -> NoDup (map tp (tiles Ts)).
Proof.
  intros G. apply NoDup_split. intros l1 t l2 E u I. destruct (tiles_split_at _ _ _ _ E) as (X & a & m1 & m2 & Y & -> & -> & ->).
  eapply (apart_ptr c W); [exact G|]. unfold others. rewrite !in_app_iff in *. tauto.
Qed.
Lemma apart_tiles Ts M t u : GEO c Ts M -> In t (tiles Ts) -> In u (tiles Ts) -> tp t <> tp u -> tp u + tsz u + g <= tp t \/ tp t + tsz t + g <= tp u.
Proof.
  intros G It Iu N. destruct (tiles_split _ _ It) as (X & a & l1 & l2 & Y & ->). apply in_mid in Iu as [->|Iu]; [congruence|].
  eapply (apart c W); eauto.
Qed.
Lemma rngm_apart Ts M m m' : GEO c Ts M -> In m M -> In m' M -> m <> m' -> mb m + msz m <= mb m' \/ mb m' + msz m' <= mb m.
Proof.
  intros [_ Dj] I I' N. unfold ranges in Dj. apply in_split in I as (M1 & M2 & ->).
  assert (J : In m' (M1 ++ M2)). { rewrite in_app_iff in *. destruct I' as [?|[?|?]]; auto. congruence. }
  rewrite map_app in Dj. cbn [map] in Dj. rewrite app_assoc in Dj. apply disj_all_mid in Dj as [Dj _]. rewrite Forall_forall in Dj.
  apply (Dj (rng_m m')). rewrite <- app_assoc, <- map_app. apply in_or_app. right. apply in_map. exact J.
Qed.
Lemma nodup_fst {A B} (f : A -> B) l : (forall x y, In x l -> In y l -> x <> y -> f x <> f y) -> NoDup l -> NoDup (map f l).
Proof.
  intros H N. induction l as [|x l IH]; [constructor|]. apply NoDup_cons_iff in N as [N1 N2]. cbn. constructor.
  - intros I. apply in_map_iff in I as (y & E & I). apply (H x y); cbn; auto. intros ->. contradiction.
  - apply IH; auto. intros u v Iu Iv. apply H; right; auto.
Qed.
Lemma M_nodup s Ts M : CH c s Ts M -> NoDup M.
Proof.
  intros H. pose proof (CH_GEO _ _ _ _ H) as [_ Dj]. unfold ranges in Dj. pose proof (ch_mm _ _ _ _ H) as O. rewrite Forall_forall in O.
  apply NoDup_map_inv with (f := rng_m). apply NoDup_split. intros l1 m l2 -> u I E.
  rewrite map_app in Dj. cbn [map] in Dj. rewrite app_assoc in Dj. apply disj_all_mid in Dj as [Dj _]. rewrite Forall_forall in Dj.
  assert (Q : disj (rng_m m) (rng_m u)) by (apply Dj; rewrite <- app_assoc, <- map_app; apply in_or_app; right; apply in_map; exact I).
  rewrite E in Q. unfold disj, rng_m in Q. cbn in Q. destruct (O m (in_elt _ _ _)) as [_ _ O3 O4 _ _ O7 _]. pose proof (hbr_pos c W). pose proof (wf_rz c W). lia.
Qed.
(** any two blocks are a redzone apart, and usually two *)
Lemma rb_apart s Ts M t u : CH c s Ts M -> In t (rb Ts M) -> In u (rb Ts M) -> tp t <> tp u ->
  (tp u + tsz u + redzone c <= tp t \/ tp t + tsz t + redzone c <= tp u) /\
  (shared c = false -> 384 + g <= 4096 -> tp u + tsz u + 2 * redzone c <= tp t \/ tp t + tsz t + 2 * redzone c <= tp u).
Proof.
  intros H It Iu N. pose proof (CH_GEO _ _ _ _ H) as G. pose proof (g_rng c W) as (G1 & G2 & G3). pose proof (wf_rz c W) as Rz. pose proof (hbr_pos c W) as Hb.
  pose proof (ch_mm _ _ _ _ H) as O. rewrite Forall_forall in O.
  assert (TM : forall t m, In t (tiles Ts) -> In m M ->
    (tp t + tsz t + redzone c <= mp m \/ mp m + mal m + redzone c <= tp t) /\
    (shared c = false -> 384 + g <= 4096 -> tp t + tsz t + 2 * redzone c <= mp m \/ mp m + mal m + 2 * redzone c <= tp t)).
  { intros t0 m It0 Im. pose proof (apart_mm c W _ _ _ _ G It0 Im) as A. destruct (O m Im) as [_ _ O3 O4 _ _ O7 _]. split; [lia|].
    intros Sh Sm. specialize (G3 Sh). destruct A as [A|A]; [left|right; lia].
    destruct (tiles_ats _ _ It0) as (x & Ix & Jx). pose proof (geo_ok _ _ _ G) as Gk. rewrite Forall_forall in Gk. pose proof (Gk x Ix) as Gx.
    pose proof (gok_in c W x t0 Gx Jx) as Ft. destruct Gx as (Gm & _). unfold geom in Gm.
    destruct (in_split _ _ Ix) as (X & Y & ET). subst Ts. destruct x as [b lb]. cbn [fst snd] in *.
    pose proof (disj_other_m _ _ _ _ _ m (ch_disj _ _ _ _ H) Im) as Dj. lia. }
  unfold rb in It, Iu. apply in_app_or in It as [It|It]; apply in_app_or in Iu as [Iu|Iu].
  - apply filter_In in It as [It _]. apply filter_In in Iu as [Iu _]. pose proof (apart_tiles _ _ _ _ G It Iu N). split; [lia|]. intros Sh _. specialize (G3 Sh). lia.
  - apply filter_In in It as [It _]. apply in_map_iff in Iu as (m & <- & Im). cbn [mtile tp tsz]. destruct (TM t m It Im) as [A B]. split; [lia|]. intros Sh Sm. specialize (B Sh Sm). lia.
  - apply filter_In in Iu as [Iu _]. apply in_map_iff in It as (m & <- & Im). cbn [mtile tp tsz]. destruct (TM u m Iu Im) as [A B]. split; [lia|]. intros Sh Sm. specialize (B Sh Sm). lia.
  - apply in_map_iff in It as (m & <- & Im). apply in_map_iff in Iu as (m' & <- & Im'). cbn [mtile tp tsz] in *.
    assert (Nm : m <> m') by congruence. pose proof (rngm_apart _ _ _ _ G Im Im' Nm) as A.
    destruct (O m Im) as [_ _ O3 O4 _ _ O7 _]. destruct (O m' Im') as [_ _ O3' O4' _ _ O7' _]. split; [|intros _ _]; lia.
Qed.
Lemma rb_ptr s Ts M : CH c s Ts M -> NoDup (map tp (rb Ts M)).
Proof.
  intros H. pose proof (CH_GEO _ _ _ _ H) as G. pose proof (ch_mm _ _ _ _ H) as O. rewrite Forall_forall in O. pose proof (hbr_pos c W). pose proof (wf_rz c W). pose proof (g_rng c W).
  assert (N1 : NoDup (map tp (lives Ts))).
  { unfold lives. pose proof (tiles_nodup _ _ G) as N. induction (tiles Ts) as [|t l IH]; [constructor|]. cbn in N. apply NoDup_cons_iff in N as [N1 N2]. cbn [filter].
    destruct (live t); auto. cbn. constructor; auto. intros I. apply N1. apply in_map_iff in I as (u & E & I). apply filter_In in I as [I _]. apply in_map_iff. eauto. }
  assert (N2 : NoDup (map tp (map mtile M))).
  { rewrite map_map. cbn [mtile tp]. apply nodup_fst; [|eapply M_nodup; eauto]. intros m m' Im Im' N. pose proof (rngm_apart _ _ _ _ G Im Im' N).
    destruct (O m Im) as [_ _ O3 O4 _ _ O7 _]. destruct (O m' Im') as [_ _ O3' O4' _ _ O7' _]. lia. }
  unfold rb. rewrite map_app.
  assert (Dj : forall p, In p (map tp (lives Ts)) -> ~ In p (map tp (map mtile M))).
  { intros p I J. apply in_map_iff in I as (t & <- & I). apply filter_In in I as [I _]. rewrite map_map in J. apply in_map_iff in J as (m & E & Im). cbn in E.
    pose proof (apart_mm c W _ _ _ _ G I Im). pose proof (tile_facts c W _ _ _ G I). destruct (O m Im) as [_ _ O3 O4 _ _ O7 _]. lia. }
  revert N1 Dj. generalize (map tp (lives Ts)) as l. induction l as [|p l IH]; intros N1 Dj; [exact N2|]. cbn. apply NoDup_cons_iff in N1 as [Na Nb].
  constructor; [|apply IH; auto; intros q I; apply Dj; right; auto]. rewrite in_app_iff. intros [I|I]; [auto|]. apply (Dj p); auto. left; auto.
Qed.
Lemma rb_unique s Ts M t u : CH c s Ts M -> In t (rb Ts M) -> In u (rb Ts M) -> tp t = tp u -> t = u.
Proof.
  intros H It Iu E. pose proof (rb_ptr _ _ _ H) as N. apply in_split in It as (L1 & L2 & EL). rewrite EL in *. rewrite map_app in N. cbn in N.
  apply NoDup_remove_2 in N. rewrite <- map_app in N. rewrite in_app_iff in Iu. destruct Iu as [Iu|[Iu|Iu]]; auto; exfalso; apply N; rewrite E; apply in_map, in_or_app; auto.
Qed.
Lemma rb_facts s Ts M t : CH c s Ts M -> In t (rb Ts M) -> 0 < tp t /\ tp t mod 16 = 0 /\ 0 <= tsz t < 2 ^ 32 /\
  exists r, In r (regions s) /\ r_lo r + 16 + redzone c <= tp t /\ tp t + tsz t <= r_hi r /\
    (r_mmap r = true \/ 384 + g <= 4096 -> tp t + tsz t + redzone c <= r_hi r).
Proof.
  intros H It. pose proof (CH_GEO _ _ _ _ H) as G. pose proof (g_rng c W) as (G1 & G2 & G3). pose proof (wf_rz c W) as Rz. pose proof (hbr_pos c W) as Hb.
  unfold rb in It. apply in_app_or in It as [It|It].
  - apply filter_In in It as [It _]. pose proof (tile_facts c W _ _ _ G It) as Ft. split; [lia|]. split; [tauto|]. split; [lia|].
    destruct (tiles_ats _ _ It) as (x & Ix & Jx). pose proof (geo_ok _ _ _ G) as Gk. rewrite Forall_forall in Gk. pose proof (Gk x Ix) as Gx.
    pose proof (gok_in c W x t Gx Jx) as Fx. destruct Gx as (Gm & _). unfold geom in Gm.
    exists (Region (a_base (fst x)) (a_commit (fst x)) false). cbn [r_lo r_hi r_mmap]. split; [|split; [lia|split; [lia|intros [Q|Q]; [discriminate|lia]]]].
    eapply Permutation_in; [apply Permutation_sym, (ch_regs _ _ _ _ H)|]. apply regs_in. left. eauto.
  - apply in_map_iff in It as (m & <- & Im). pose proof (ch_mm _ _ _ _ H) as O. rewrite Forall_forall in O. destruct (O m Im) as [_ _ O3 O4 O5 O6 O7 O8]. cbn [mtile tp tsz].
    split; [lia|]. split; [exact O5|]. split; [lia|]. exists (Region (mb m) (mb m + msz m) true). cbn [r_lo r_hi]. split; [|lia].
    eapply Permutation_in; [apply Permutation_sym, (ch_regs _ _ _ _ H)|]. apply regs_in. right. eauto.
Qed.
(** a byte handed out is in a region *)
Lemma bytes_region s Ts M x : CH c s Ts M -> LB Ts M x -> exists r, In r (regions s) /\ r_lo r <= x < r_hi r.
Proof.
  intros H B. apply LB_rb in B as (t & It & B). destruct (rb_facts _ _ _ _ H It) as (_ & _ & _ & r & Ir & A1 & A2 & _). exists r. split; auto.
  pose proof (wf_rz c W). lia.
Qed.

(** *** a mapping of its own *)
Lemma map_ok s s' Ts M D F m map_size r al req ty hn : INV s Ts M D F -> 
  let mm0 := Mm m map_size r al (al - req) ty false in
  0 < m -> m mod 4096 = 0 -> Forall (fun r => disj (m, m + map_size) (r_lo r, r_hi r)) (regions s) ->
  m + 16 + redzone c + header_beyond_redzone c <= r -> r + al + redzone c <= m + map_size -> r mod 16 = 0 -> 0 <= req <= al -> al < 2 ^ 32 ->
  h_freed hn = false -> h_mmap hn = true -> h_alloc hn = al -> h_diff hn = Some (al - req) -> h_type hn = ty -> h_skip hn = false -> h_shr hn = Some (header_at c r - m) ->
  (forall q, hd s' q = if q =? r then Some hn else hd s q) -> (forall q, mhead s' q = if q =? m then Some (r, map_size) else mhead s q) ->
  arenas s' = arenas s -> same_lists s s' -> cur_brk s' = cur_brk s -> regions s' = Region m (m + map_size) true :: regions s ->
  INV s' Ts (mm0 :: M) D F.
Proof.
  intros (H & L & K) mm0 Hm Hm4 Dj Hlo Hhi Hr Hq Hal B1 B2 B3 B4 B5 B6 B7 Eh Em Ea El Eb Er.
  pose proof (CH_GEO _ _ _ _ H) as G. pose proof (g_rng c W) as (G1 & G2 & G3). pose proof (wf_rz c W) as Rz. pose proof (hbr_pos c W) as Hb.
  assert (Rin : forall r0, In r0 (regs Ts M) -> disj (m, m + map_size) (r_lo r0, r_hi r0)).
  { rewrite <- Forall_forall. apply (Permutation_Forall (ch_regs _ _ _ _ H)). exact Dj. }
  assert (Off : forall t, In t (tiles Ts) -> tp t <> r).
  { intros t It. destruct (tiles_ats _ _ It) as (x & Ix & Jx). pose proof (geo_ok _ _ _ G) as Gk. rewrite Forall_forall in Gk. pose proof (gok_in c W x t (Gk x Ix) Jx) as Fx.
    pose proof (Rin (Region (a_base (fst x)) (a_commit (fst x)) false)) as Q. unfold disj in Q. cbn in Q. specialize (Q ltac:(apply regs_in; eauto)). lia. }
  assert (Offm : forall m0, In m0 M -> mp m0 <> r /\ mb m0 <> m).
  { intros m0 Im. pose proof (ch_mm _ _ _ _ H) as O. rewrite Forall_forall in O. destruct (O m0 Im) as [_ _ O3 O4 _ _ O7 _].
    pose proof (Rin (Region (mb m0) (mb m0 + msz m0) true)) as Q. unfold disj in Q. cbn in Q. specialize (Q ltac:(apply regs_in; eauto)). lia. }
  assert (Same : forall t, In t (tiles Ts) -> hd s' (tp t) = hd s (tp t)).
  { intros t It. rewrite Eh. replace (_ =? _) with false by (symmetry; apply Z.eqb_neq, Off, It). reflexivity. }
  split; [|split].
  - split.
    + rewrite Ea. exact (ch_arenas _ _ _ _ H).
    + pose proof (ch_ok _ _ _ _ H) as O. rewrite Forall_forall in *. intros x Ix. destruct (O x Ix) as [O1 O2 O3 O4 O5]. split; auto.
      eapply heads_frame; [|exact O4]. intros t It. apply Same. eapply in_ats_tiles; eauto.
    + rewrite Eb. exact (ch_main _ _ _ _ H).
    + rewrite ranges_regs. unfold regs. cbn [map]. rewrite map_app. cbn [map]. apply disj_all_mid. rewrite <- map_app.
      change (map _ Ts ++ map _ M) with (regs Ts M). split; [|rewrite <- ranges_regs; exact (ch_disj _ _ _ _ H)].
      apply Forall_forall. intros x Ix. apply in_map_iff in Ix as (r0 & <- & Ir). apply Rin. exact Ir.
    + rewrite Er. unfold regs. cbn [map]. apply Permutation_cons_app. exact (ch_regs _ _ _ _ H).
    + constructor.
      * split; cbn; auto; try lia.
        -- exists hn. rewrite Eh, Z.eqb_refl. auto 10.
        -- rewrite Em, Z.eqb_refl. reflexivity.
      * pose proof (ch_mm _ _ _ _ H) as O. rewrite Forall_forall in *. intros m0 Im. destruct (O m0 Im) as [O1 O2 O3 O4 O5 O6 O7 O8]. destruct (Offm m0 Im) as [N1 N2]. split; auto.
        -- rewrite Eh. replace (_ =? _) with false by lia. exact O1.
        -- rewrite Em. replace (_ =? _) with false by lia. exact O2.
    + intros p h E Fr. rewrite Eh in E. destruct (p =? r) eqn:Q.
      * right. exists mm0. split; [left; reflexivity | cbn; lia].
      * destruct (ch_stale _ _ _ _ H p h E Fr) as [S1|(m0 & Im & E0)]; [left; exact S1 | right; exists m0; split; [right|]; auto].
  - eapply LS_pres; [exact L | exact El |]. intros q h I Hq'. exists h. split; [|auto]. rewrite Eh.
    assert (q <> r).
    { destruct I as [[b I]|I].
      - apply (lk_free _ _ _ K) in I as (z & I & _). exact (Off _ I).
      - apply in_map_iff in I as ([q0 z] & E0 & I). cbn in E0; subst q0. apply (lk_delay _ _ _ K) in I. exact (Off _ I). }
    replace (_ =? _) with false by lia. exact Hq'.
  - exact K.
Qed.
End Common.
