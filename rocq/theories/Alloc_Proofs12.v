(** [replace_alloc_common] as a whole, continued. *)
From Coq Require Import Permutation.
From Verif Require Import Base Alloc_Model Alloc_Inv Alloc_Proofs Alloc_Proofs2 Alloc_Proofs3 Alloc_Proofs4 Alloc_Proofs5 Alloc_Proofs6 Alloc_Proofs7 Alloc_Proofs8 Alloc_Proofs9 Alloc_Proofs10 Alloc_Proofs11.
Open Scope Z_scope.

Section Common.
Context (c : cfg) (W : wfc c).
Notation g := (inter c).
Notation INV := (INV c).

Lemma hbr_16 : (16 + redzone c + header_beyond_redzone c) mod 16 = 0 /\ header_beyond_redzone c <= 48.
Proof.
  pose proof (wf_rz c W) as R. pose proof (wf_rz16 c W) as R16. unfold header_beyond_redzone, header_size.
  destruct (shared c); cbn [negb]; [destruct (redzone c <? 32) eqn:E|].
  - replace (16 + redzone c + (32 - redzone c)) with 48 by lia. split; [reflexivity | lia].
  - split; [|lia]. rewrite Z.add_0_r. apply mod16_add; auto.
  - split; [|lia]. apply mod16_add; auto. apply mod16_add; auto.
Qed.

Lemma large_ok o s Ts M D F aligned al req : INV s Ts M D F -> os_ok o s ->
  0 <= req -> 0 < al -> al mod 16 = 0 -> (al = 16 /\ req <= aligned) \/ req + al <= aligned -> 16 <= aligned -> aligned + 2 ^ 18 <= 2 ^ 32 -> al + 2 ^ 18 <= 2 ^ 32 ->
  (large_chunk c o s aligned al = Ok (s, 0) /\ exists n, o_map o n = None) \/
  exists s1 r h al0 m msz, large_chunk c o s aligned al = Ok (s1, r) /\ r <> 0 /\ hd s1 r = Some h /\ h_alloc h = al0 /\ req <= al0 < 2 ^ 32 /\ r mod al = 0 /\
    forall ty, INV (seth c s1 r (set_type (set_diff h (u32 (al0 - req))) ty)) Ts (Mm m msz r al0 (al0 - req) ty false :: M) D F /\
               quiet Ts M s (seth c s1 r (set_type (set_diff h (u32 (al0 - req))) ty)).
Proof.
  intros I (Om & _ & _) Hreq Hal Hal16 Hfit Ha Hb1 Hb2. change (2 ^ 18) with 262144 in *. change (2 ^ 32) with 4294967296 in *.
  destruct hbr_16 as [H16 Hbr]. pose proof (hbr_pos c W) as Hb0. pose proof (wf_rz c W) as Rz. pose proof (wf_rz16 c W) as Rz16.
  unfold large_chunk. pose proof (align_le (aligned + 16 + redzone c * 2 + header_beyond_redzone c) 4096 ltac:(lia)) as Ams. fold PAGE_SIZE in Ams.
  set (msz := ALIGN_FORWARD (aligned + 16 + redzone c * 2 + header_beyond_redzone c) PAGE_SIZE) in *. change PAGE_SIZE with 4096 in Ams.
  destruct (o_map o msz) as [m|] eqn:Eo; [right | left; split; [reflexivity | eauto]].
  destruct (Om _ _ Eo) as (O1 & O2 & O3). cbv zeta.
  set (r0 := m + 16 + redzone c + header_beyond_redzone c). set (r := if ALIGNED r0 al then r0 else ALIGN_FORWARD r0 al).
  assert (R0 : r0 mod 16 = 0).
  { unfold r0. replace (m + 16 + redzone c + header_beyond_redzone c) with (m + (16 + redzone c + header_beyond_redzone c)) by lia. apply mod16_add; auto. apply mod16_4096; auto. }
  assert (Rr : r0 <= r /\ r mod al = 0 /\ (al = 16 -> r = r0) /\ r < r0 + al).
  { unfold r, ALIGNED. destruct (r0 mod al =? 0) eqn:E.
    - split; [lia|]. split; [lia|]. split; auto. lia.
    - pose proof (align_le r0 al Hal) as A. split; [lia|]. split; [tauto|]. split; [|lia]. intros ->. lia. }
  destruct Rr as (Rr1 & Rr2 & Rr3 & Rr4). pose proof (mod_trans r al Rr2 Hal16 Hal) as Rr16.
  pose proof (header_mm c W r) as [Hd1 Hd2].
  replace (UINT_MAX <? header_at c r - m) with false by (unfold UINT_MAX, r0 in *; lia).
  set (al0 := m + msz - redzone c - r).
  assert (Hal0 : req <= al0 < 4294967296).
  { destruct Hfit as [[E F1]|F1]; [specialize (Rr3 E)|]; unfold al0, r0 in *; lia. }
  assert (U : u32 al0 = al0) by (apply Z.mod_small; lia). rewrite U.
  assert (U2 : u32 (al0 - req) = al0 - req) by (apply Z.mod_small; lia).
  set (h := Hdr al0 false true false false false 0 None (Some (header_at c r - m)) None (junk c r) (junk c r)).
  eexists _, r, h, al0, m, msz. split; [reflexivity|]. split; [unfold r0 in *; lia|].
  assert (Eh : forall q, hd (with_regions (seth c (scribble c (with_mhead s (upd (mhead s) m (Some (r, msz)))) m (m + 16)) r h)
      (Region m (m + msz) true :: regions (seth c (scribble c (with_mhead s (upd (mhead s) m (Some (r, msz)))) m (m + 16)) r h))) q = if q =? r then Some h else hd s q).
  { intros q. match goal with |- hd (with_regions ?x _) q = _ => change (hd x q = if q =? r then Some h else hd s q) end. rewrite hd_seth. reflexivity. }
  split; [rewrite Eh, Z.eqb_refl; reflexivity|]. split; [reflexivity|]. split; [exact Hal0|]. split; [exact Rr2|].
  intros ty. rewrite U2. split.
  - eapply (map_ok c W s _ Ts M D F m msz r al0 req ty (set_type (set_diff h (al0 - req)) ty) I); try reflexivity; auto; try (unfold al0, r0 in *; lia).
    + intros q. rewrite hd_seth. destruct (q =? r) eqn:Q; auto. rewrite Eh, Q. reflexivity.
    + repeat split.
  - split; [|reflexivity]. intros x Lx. destruct (bytes_region c W s Ts M x (proj1 I) Lx) as (r1 & Ir & Br).
    rewrite Forall_forall in O3. specialize (O3 r1 Ir). unfold disj in O3. cbn [fst snd] in O3.
    assert (Out : x < m \/ m + msz <= x) by lia.
    unfold seth, scribble. cbn [mem with_mem with_hd with_regions with_mhead].
    assert (Z1 : (header_at c r <=? x) && (x <? header_at c r + 32) = false) by (unfold r0, al0 in *; lia).
    assert (Z2 : (m <=? x) && (x <? m + 16) = false) by (unfold r0, al0 in *; lia).
    rewrite Z1, Z2. reflexivity.
Qed.

(** the alignment: what precedes the aligned address is split off and released *)
Lemma presplit_ok o s X a l1 p z d ty l2 Y M D F i q h : let Tp := X ++ (a, l1 ++ Tile p z (KLive d ty false) :: l2) :: Y in
  INV s Tp M D F -> settled Tp -> (i <= length X)%nat -> p + 16 + g <= q -> q mod 16 = 0 -> q + 16 <= p + z -> hd s p = Some h ->
  let nq := match hd s q with Some x => x | None => blank_hdr c q end in
  exists s' X' a' l1' l2' Y' F', split_piece c o (seth c s q (set_far (set_nxt h (h_nxt nq)) (h_far nq))) i q p (q - p - g) (z - (q - p)) = Ok s' /\
    INV s' (X' ++ (a', l1' ++ Tile q (z - (q - p)) (KLive d ty false) :: l2') :: Y') M D F' /\
    settled (X' ++ (a', l1' ++ Tile q (z - (q - p)) (KLive d ty false) :: l2') :: Y') /\
    filter live (others X' l1' l2' Y') = filter live (others X l1 l2 Y) /\
    quiet (X ++ (a, l1 ++ Tile p z KHeld :: l2) :: Y) M s s'.
Proof.
  intros Tp (H & L & K) Se Hi Hq Hqm Hqz Hh nq. pose proof (CH_GEO _ _ _ _ H) as G. pose proof (g_rng c W) as Gr.
  assert (It : In (Tile p z (KLive d ty false)) (tiles Tp)) by (apply in_mid; auto).
  pose proof (tile_facts c W _ _ _ G It) as Ft. cbn [tp tsz] in Ft.
  destruct (ch_hok _ _ _ _ _ _ _ _ _ H) as ((h0 & Hh0 & Hal & Hmm & (K1 & K2 & K3 & K4 & K5) & Hpv) & Hl1 & H2 & Hf). cbn [tp tsz tk pvof] in *.
  assert (h0 = h) as -> by congruence. clear Hh0.
  destruct (settled_others _ _ _ _ _ _ Se) as [SL SH].
  set (hq0 := set_far (set_nxt h (h_nxt nq)) (h_far nq)). set (s1 := seth c s q hq0).
  set (fz := q - p - g). set (qz := z - (q - p)).
  unfold split_piece, geth. unfold s1 at 1. rewrite hd_seth_eq. cbn [of_option bind].
  assert (Uq : u32 qz = qz) by (apply Z.mod_small; unfold qz; lia). assert (Uf : u32 fz = fz) by (apply Z.mod_small; unfold fz; lia). rewrite Uq, Uf.
  set (s2 := seth c s1 q (set_alloc hq0 qz)).
  assert (Ep2 : hd s2 p = Some h) by (unfold s2, s1; rewrite !hd_seth_ne by lia; exact Hh). rewrite Ep2.
  set (nh := Hdr fz true (h_mmap hq0) (h_pfree hq0) (h_delay hq0) (h_skip hq0) (h_type hq0) (h_diff (set_diff h 0)) (h_shr (set_diff h 0)) (h_prv (set_diff h 0)) (h_nxt (set_diff h 0)) (h_far (set_diff h 0))).
  set (s3 := seth c s2 p nh). set (T1 := Tile p fz KLoose). set (T2 := Tile q qz (KLive d ty false)).
  set (Ts3 := X ++ (a, l1 ++ T1 :: T2 :: l2) :: Y).
  assert (Off : (forall b, ~ In q (F b)) /\ ~ In q (map fst D)) by (eapply (off_lists c W Tp M D F (Tile p z (KLive d ty false))); eauto; cbn [tp tsz]; lia).
  assert (Offp : forall b, ~ In p (F b)) by (intros b; apply (lk_off_free c W Tp M D F b _ G K It); discriminate).
  assert (E3 : forall x, x <> p -> x <> q -> hd s3 x = hd s x) by (intros x N1 N2; unfold s3, s2, s1; rewrite !hd_seth_ne by auto; reflexivity).
  assert (E3p : hd s3 p = Some nh) by (unfold s3; apply hd_seth_eq).
  assert (E3q : hd s3 q = Some (set_alloc hq0 qz)) by (unfold s3, s2; rewrite hd_seth_ne by lia; apply hd_seth_eq).
  assert (I3 : INV s3 Ts3 M D F).
  { split; [|split].
    - change (l1 ++ T1 :: T2 :: l2) with (l1 ++ [T1; T2] ++ l2) in Ts3.
      apply (CH_seg c W s s3 X a a l1 [Tile p z (KLive d ty false)] [T1; T2] l2 Y M); try reflexivity.
      + exact H.
      + unfold s3, s2, s1. rewrite !seth_arenas, (ch_arenas _ _ _ _ H). unfold Tp. rewrite map_app. reflexivity.
      + repeat split.
      + intros p0 q0. cbn [laid tp tsz T1 T2]. intros (-> & <-). unfold fz, qz. repeat split; lia.
      + constructor; [|constructor; [|constructor]]; split; cbn [tsz T1 T2].
        * unfold fz; lia.
        * unfold fz. apply mod16_sub; [apply mod16_sub; tauto | apply (g_mod c W)].
        * unfold qz; lia.
        * unfold qz. apply mod16_sub; [tauto | apply mod16_sub; tauto].
      + intros p0 N. cbn [map tp T1 T2 In] in N. apply E3; auto.
      + cbn [heads pvof tk T1]. split; [|split; [|exact I]].
        * unfold hok. cbn [tp T1]. rewrite E3p. exists nh. split; [reflexivity|]. split; [reflexivity|]. split; [exact Hmm|]. split; [cbn; auto|].
          cbn [tk T1]. destruct (lastpv PN l1) as [| |]; [exact Hpv | split; [discriminate | exact (proj2 Hpv)] | discriminate].
        * unfold hok. cbn [tp T2]. rewrite E3q. exists (set_alloc hq0 qz). split; [reflexivity|]. split; [reflexivity|]. split; [exact Hmm|]. split; [cbn; auto 10|]. cbn. discriminate.
      + exact H2.
      + exact Hf.
      + intros t d0 ty0 sk0 [<-|[]] _. left; reflexivity.
    - eapply LS_pres; [exact L | repeat split |]. intros x h0 Ix Hx. destruct (Z.eq_dec x p) as [->|N1].
      + exists nh. split; [exact E3p|]. assert (h0 = h) as -> by congruence. split; [reflexivity|]. intros [b Ib]. exfalso; eapply Offp; eauto.
      + assert (x <> q). { intros ->. destruct Ix as [[b Ib]|Ib]; [apply (proj1 Off b Ib) | apply (proj2 Off Ib)]. }
        exists h0. rewrite E3 by auto. auto.
    - change (l1 ++ T1 :: T2 :: l2) with (l1 ++ [T1; T2] ++ l2) in Ts3.
      eapply (LK_seg_same c W X a a l1 [Tile p z (KLive d ty false)]); try exact G; try exact K; [intros t [<-|[]]; reflexivity|].
      intros t [<-|[<-|[]]]; reflexivity. }
  assert (Hn : forall n l', T2 :: l2 = n :: l' -> tk n <> KHeld) by (intros n l' [= <- _]; discriminate).
  assert (SL2 : NL (others X l1 (T2 :: l2) Y)).
  { unfold others in *. rewrite !NL_app in *. rewrite NL_cons. split; [tauto|]. split; [|tauto]. split; [tauto|]. split; [discriminate | tauto]. }
  destruct (release c W o s3 X a l1 p fz (T2 :: l2) Y M D F i I3 SL2 Hi Hn) as (s' & rr & Ts' & F' & R1 & R2 & R3 & R4 & R5 & R6 & R7).
  assert (Iq : In T2 (tiles Ts')).
  { assert (J : In T2 (solid Ts')).
    { rewrite R6. apply filter_In. split; [apply in_mid; right; unfold others; rewrite !in_app_iff; cbn; auto 10 | reflexivity]. }
    apply filter_In in J. tauto. }
  destruct (tiles_split _ _ Iq) as (X' & a' & l1' & l2' & Y' & ET). subst Ts'.
  exists s', X', a', l1', l2', Y', F'. split; [|split; [exact R3|split; [|split]]].
  - match goal with |- context [coalesce c o ?x i p] => change x with s3 end. rewrite R1. cbn [bind]. destruct rr as [s4 [w|]]; [|subst s4; reflexivity].
    destruct R2 as (s5 & E1 & E2). rewrite E1. cbn [bind]. exact E2.
  - eapply settled_solid; [exact R4 | | exact R6]. intros t J. apply filter_In in J as [J _]. apply in_mid in J as [->|J]; [discriminate|].
    unfold others in J. rewrite !in_app_iff in J. cbn [In] in J.
    destruct J as [J|[[J|[<-|J]]|J]]; try discriminate; apply SH; unfold others; rewrite !in_app_iff; auto.
  - pose proof (lives_eq _ _ R6) as LE. rewrite !lives_at in LE. cbn [filter] in LE. change (live T2) with true in LE. change (live T1) with false in LE. cbv iota in LE. cbn [app] in LE.
    assert (Q : forall l1 l2 (t : tile) m1 m2, l1 ++ t :: l2 = m1 ++ t :: m2 -> ~ In t (l1 ++ l2) -> l1 = m1 /\ l2 = m2).
    { clear. induction l1 as [|x l1 IH]; intros l2 t m1 m2 E N.
      - destruct m1 as [|y m1]; cbn in E; injection E; intros; subst; auto. exfalso. apply N. apply in_elt.
      - destruct m1 as [|y m1]; cbn in E; injection E; intros E2 E3; subst; [exfalso; apply N; left; auto|].
        destruct (IH _ _ _ _ E2) as [-> ->]; [intros J; apply N; right; auto | auto]. }
    assert (LE' : (filter live (tiles X') ++ filter live l1') ++ T2 :: (filter live l2' ++ filter live (tiles Y')) =
                  (filter live (tiles X) ++ filter live l1) ++ T2 :: (filter live l2 ++ filter live (tiles Y))).
    { repeat rewrite <- app_assoc in LE. cbn [app] in LE. repeat rewrite <- app_assoc. repeat rewrite <- app_assoc in LE. cbn [app] in LE. exact LE. }
    apply Q in LE' as [Q1 Q2].
    + unfold others. rewrite !filter_app. rewrite <- !app_assoc. rewrite app_assoc, Q1, Q2, <- !app_assoc. reflexivity.
    + rewrite <- !app_assoc. intros J.
      assert (J' : In T2 (others X' l1' l2' Y')) by (unfold others; rewrite !in_app_iff in *; rewrite !filter_In in J; tauto).
      exact (apart_ptr c W _ _ _ _ _ _ _ _ (CH_GEO _ _ _ _ (proj1 R3)) J' eq_refl).
  - set (Th := X ++ (a, l1 ++ Tile p z KHeld :: l2) :: Y).
    assert (Sub : forall x, LB Th M x -> LB Ts3 M x).
    { intros x. rewrite !LB_rb. apply bytes_incl. unfold rb, Th, Ts3. rewrite !lives_at. cbn [filter]. change (live T2) with true. intros u. rewrite !in_app_iff. cbn. rewrite ?in_app_iff. cbn. tauto. }
    assert (Sub2 : forall x, LB Th M x -> LB Tp M x).
    { intros x. rewrite !LB_rb. apply bytes_incl. unfold rb, Th, Tp. rewrite !lives_at. intros u. rewrite !in_app_iff. cbn. rewrite ?in_app_iff. cbn. tauto. }
    eapply (quiet_trans Th M Ts3 M s s3 s'); [exact Sub | | exact R7].
    (* the three headers *)
    assert (Clr : forall x, LB Th M x -> ~ (p - g <= x < p + z)).
    { intros x Lx Hx. apply LB_rb in Lx as (u & Iu & Bu). unfold rb in Iu. apply in_app_or in Iu as [Iu|Iu].
      - apply filter_In in Iu as [Iu Lu]. apply in_mid in Iu as [->|Iu]; [discriminate|]. pose proof (apart c W _ _ _ _ _ _ _ _ G Iu) as A. cbn [tp tsz] in A. lia.
      - apply in_map_iff in Iu as (m & <- & Im). cbn [mtile tp tsz] in Bu. pose proof (apart_mm c W _ _ _ _ G It Im) as A. cbn [tp tsz] in A.
        pose proof (ch_mm _ _ _ _ H) as O. rewrite Forall_forall in O. destruct (O m Im) as [_ _ O3 O4 _ _ O7 _]. pose proof (hbr_pos c W). pose proof (wf_rz c W). lia. }
    split; [|reflexivity]. intros x Lx. specialize (Clr x Lx). pose proof (header_rng c W p) as Hp1. pose proof (header_rng c W q) as Hq1.
    unfold s3, s2, s1, seth, scribble. cbn [mem with_mem with_hd].
    assert (Z1 : (header_at c p <=? x) && (x <? header_at c p + 32) = false) by lia.
    assert (Z2 : (header_at c q <=? x) && (x <? header_at c q + 32) = false) by lia.
    rewrite Z1, Z2. reflexivity.
Qed.
End Common.
