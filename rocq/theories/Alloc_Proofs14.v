(** [replace_alloc_common] as a whole. *)
From Coq Require Import Permutation.
From Verif Require Import Base Alloc_Model Alloc_Inv Alloc_Proofs Alloc_Proofs2 Alloc_Proofs3 Alloc_Proofs4 Alloc_Proofs5 Alloc_Proofs6 Alloc_Proofs7 Alloc_Proofs8 Alloc_Proofs9 Alloc_Proofs10 Alloc_Proofs11 Alloc_Proofs12 Alloc_Proofs13.
Open Scope Z_scope.

Section Alloc.
Context (c : cfg) (W : wfc c).
Notation g := (inter c).
Notation INV := (INV c).
Notation WF := (WF c).

Lemma filter_perm {A} (f : A -> bool) l l' : Permutation l l' -> Permutation (filter f l) (filter f l').
Proof. apply Permutation_filter'. Qed.
Lemma keep_bytes Ts M s s' : quiet Ts M s s' <-> keep (bytes (rb Ts M)) s s' /\ large s' = large s.
Proof. unfold quiet, keep. split; intros [A B]; split; auto; intros x I; apply A, LB_rb; auto. Qed.
Lemma keep_sub (P Q : Z -> Prop) s s' : (forall x, Q x -> P x) -> keep P s s' -> keep Q s s'.
Proof. intros H A x I. apply A; auto. Qed.

Definition got (s0 s : state) (Ts0 : ats) (M0 : list mm) (D : list (Z * Z)) (p req ty : Z) (Ts : ats) (M : list mm) (F : nat -> list Z) : Prop :=
  exists z, INV s Ts M D F /\ settled Ts /\ Permutation (rb Ts M) (Tile p z (KLive (Some (z - req)) ty false) :: rb Ts0 M0) /\
    0 <= req <= z /\ keep (bytes (rb Ts0 M0)) s0 s /\ large s = large s0.
(** the end of [replace_alloc_common] *)
Definition alloc_tail (zero : bool) (s : state) (p req : Z) : res (state * Z) :=
  let s := if zero then memset0 s p req else s in
  let* h := geth s p in
  let* n := chunk_request_size h in
  Ok (if LARGE_MALLOC_MIN_SIZE <=? n then large_add s p req else s, p).
Lemma tail_ok s0 s Ts0 M0 D D0 F0 p req ty Ts M F zero : WF s0 Ts0 M0 D0 F0 -> got s0 s Ts0 M0 D p req ty Ts M F ->
  exists s' z, alloc_tail zero s p req = Ok (s', p) /\ WF s' Ts M D F /\ 0 <= req <= z /\
    Permutation (rb Ts M) (Tile p z (KLive (Some (z - req)) ty false) :: rb Ts0 M0) /\ keep (bytes (rb Ts0 M0)) s0 s' /\
    (zero = true -> forall x, p <= x < p + req -> mem s' x = 0).
Proof.
  intros Wf0 (z & I & Se & P & Hr & Kp & Lg). set (t := Tile p z (KLive (Some (z - req)) ty false)) in *.
  assert (It : In t (rb Ts M)) by (eapply Permutation_in; [symmetry; exact P | left; reflexivity]).
  set (s1 := if zero then memset0 s p req else s).
  assert (I1 : INV s1 Ts M D F) by (unfold s1; destruct zero; [apply (INV_with_mem c); exact I | exact I]).
  destruct (rb_head c _ _ _ _ (proj1 I1) It) as (h & d & ty' & sk & Ek & Hh & Hal & _ & Hd & _). cbn [tp tsz tk t] in *. injection Ek as <- <- <-.
  destruct (rb_facts c W _ _ _ _ (proj1 I) It) as (_ & _ & Hz & _). cbn [tsz t] in Hz.
  unfold alloc_tail. fold s1. unfold geth. rewrite Hh. cbn [of_option bind]. unfold chunk_request_size. rewrite Hd. cbn [of_option bind]. rewrite Hal.
  replace (z - (z - req)) with req by lia. replace (u32 req) with req by (symmetry; apply Z.mod_small; lia).
  assert (K1 : keep (bytes (rb Ts0 M0)) s0 s1 /\ (zero = true -> forall x, p <= x < p + req -> mem s1 x = 0) /\ large s1 = large s0).
  { unfold s1. destruct zero; [|split; [exact Kp | split; [discriminate | exact Lg]]]. split; [|split; [|exact Lg]].
    - intros x Bx. unfold memset0. cbn [mem with_mem]. replace (_ && _) with false; [apply Kp; exact Bx|]. symmetry.
      destruct Bx as (u & Iu & Bu). assert (Iu' : In u (rb Ts M)) by (eapply Permutation_in; [symmetry; exact P | right; exact Iu]).
      assert (N : tp t <> tp u).
      { intros E. pose proof (rb_ptr c W _ _ _ (proj1 I)) as Nd. pose proof (Permutation_map tp P) as P'. apply (Permutation_NoDup P') in Nd. cbn [map] in Nd. apply NoDup_cons_iff in Nd as [Nd _].
        apply Nd. rewrite E. apply in_map. exact Iu. }
      destruct (rb_apart c W _ _ _ _ _ (proj1 I) It Iu' N) as [A _]. cbn [tp tsz t] in A. pose proof (wf_rz c W). lia.
    - intros _ x Bx. unfold memset0. cbn [mem with_mem]. replace (_ && _) with true by lia. reflexivity. }
  destruct K1 as (K1 & K2 & K3).
  exists (if LARGE_MALLOC_MIN_SIZE <=? req then large_add s1 p req else s1), z. split; [reflexivity|].
  split; [|split; [exact Hr|split; [exact P|split]]].
  - split.
    + destruct (_ <=? _); [apply (INV_with_large c); exact I1 | exact I1].
    + exact Se.
    + eapply Permutation_Forall; [symmetry; exact P|]. constructor; [|exact (wf_rb _ _ _ _ _ _ Wf0)]. exists (z - req), ty. cbn. split; auto. lia.
    + assert (Eb : blk t = (p, req, ty)) by (unfold blk, t; cbn [tk tp tsz]; do 2 f_equal; lia).
      etransitivity; [|apply Permutation_map, filter_perm; symmetry; exact P]. cbn [filter]. unfold big at 1. rewrite Eb. cbn [fst snd].
      pose proof (wf_large _ _ _ _ _ _ Wf0) as Wl. destruct (LARGE_MALLOC_MIN_SIZE <=? req).
      * cbn [map]. rewrite Eb. cbn [fst]. unfold large_add. cbn [large with_large]. rewrite K3. constructor. exact Wl.
      * rewrite K3. exact Wl.
  - intros x Bx. destruct (_ <=? _); apply K1; exact Bx.
  - intros Zr x Bx. destruct (_ <=? _); apply K2; auto.
Qed.

(** the blocks that are mappings of their own stay that, except perhaps the one at [p] *)
Definition same_maps (p : Z) (M M' : list mm) : Prop := forall u, tp u <> p -> In u (map mtile M') <-> In u (map mtile M).
Lemma same_maps_refl p M : same_maps p M M.
Proof. intros u _. reflexivity. Qed.
Lemma same_maps_trans p M M' M'' : same_maps p M M' -> same_maps p M' M'' -> same_maps p M M''.
Proof. intros A B u N. rewrite (B u N). apply A. exact N. Qed.
Lemma same_maps_cons m M : same_maps (mp m) M (m :: M).
Proof. intros u N. cbn [map In]. split; [|tauto]. intros [<-|I]; [exfalso; apply N; reflexivity | exact I]. Qed.
(** what a call of [replace_alloc_common] does *)
Definition alloc_out (o : os) (s : state) (Ts : ats) (M : list mm) (D : list (Z * Z)) (req al : Z) (zero : bool) (ty : Z) (r : res (state * Z)) : Prop :=
  exists s' p Ts' M' F' k, r = Ok (s', p) /\ WF s' Ts' M' (skipn k D) F' /\ (k <> 0%nat -> o_map o ARENA_INITIAL_SIZE = None) /\ same_maps p M M' /\
    ((p = 0 /\ refused o req al /\ Permutation (rb Ts' M') (rb Ts M) /\ keep (bytes (rb Ts M)) s s') \/
     (p <> 0 /\ exists z, Permutation (rb Ts' M') (Tile p z (KLive (Some (z - req)) ty false) :: rb Ts M) /\ 0 <= req <= z /\
        keep (bytes (rb Ts M)) s s' /\ (al <> 0 -> p mod al = 0) /\ ~ (2 ^ 32 <= req \/ (al <> 0 /\ IS_POWER_OF_2 al = false)) /\
        (zero = true -> forall x, p <= x < p + req -> mem s' x = 0))).
Lemma alloc_ok o s Ts M D F req al zero ty : WF s Ts M D F -> os_ok o s -> oom_ok o s -> 0 <= req -> 0 <= al -> moderate req al ->
  alloc_out o s Ts M D req al zero ty (alloc_common c o s req al zero ty).
Proof.
  intros Wf Os Om Hreq Hal Mod. pose proof (wf_inv _ _ _ _ _ _ Wf) as I. pose proof (wf_settled _ _ _ _ _ _ Wf) as Se. pose proof (g_rng c W) as Gr. pose proof (g_mod c W) as Gm.
  unfold alloc_common.
  assert (Stop : refused o req al -> alloc_out o s Ts M D req al zero ty (Ok (s, 0))).
  { intros Rf. exists s, 0, Ts, M, F, O. split; [reflexivity|]. split; [exact Wf|]. split; [congruence|]. split; [apply same_maps_refl|]. left. split; [reflexivity|]. split; [exact Rf|]. split; [reflexivity | apply keep_refl]. }
  pose proof (align_le req 4096 ltac:(lia)) as Ap. fold PAGE_SIZE in Ap.
  replace (ALIGN_FORWARD req PAGE_SIZE <? req) with false by lia. rewrite orb_false_r. unfold UINT_MAX.
  destruct (2 ^ 32 - 1 <? req) eqn:E1; [apply Stop; left; clear - E1; lia|].
  destruct (negb (al =? 0) && negb (IS_POWER_OF_2 al)) eqn:E2.
  { apply Stop. right. left. apply andb_true_iff in E2 as [E2 E3]. apply negb_true_iff in E2, E3. split; [lia | exact E3]. }
  assert (Good : ~ (2 ^ 32 <= req \/ (al <> 0 /\ IS_POWER_OF_2 al = false))).
  { intros [Q|[Q1 Q2]]; [lia|]. rewrite Q2 in E2. apply Z.eqb_neq in Q1. rewrite Q1 in E2. discriminate. }
  assert (Sm : req + al + 2 ^ 19 <= 2 ^ 32) by (destruct Mod as [Q|[Q|Q]]; [lia | destruct Q; exfalso; apply Good; auto | exact Q]).
  change (2 ^ 19) with 524288 in Sm. change (2 ^ 32) with 4294967296 in Sm.
  cbv zeta.
  set (al1 := if al <? CHUNK_ALIGNMENT then CHUNK_ALIGNMENT else al).
  assert (Al1 : 16 <= al1 /\ al1 mod 16 = 0 /\ (al <> 0 -> forall p, p mod al1 = 0 -> p mod al = 0) /\ (al1 = 16 \/ al1 = al)).
  { unfold al1, CHUNK_ALIGNMENT. destruct (al <? 16) eqn:E.
    - split; [lia|]. split; [reflexivity|]. split; [|auto]. intros Na p Hp.
      assert (Pw : IS_POWER_OF_2 al = true). { destruct (IS_POWER_OF_2 al) eqn:Q; [reflexivity|]. exfalso. apply Good. right. split; [exact Na | reflexivity]. }
      destruct (pow2 al Pw ltac:(lia)) as (n & Hn & ->). assert (n < 4). { destruct (Z_lt_le_dec n 4); auto. assert (2 ^ 4 <= 2 ^ n) by (apply Z.pow_le_mono_r; lia). lia. }
      apply Z.mod_divide in Hp; [|lia]. apply Z.mod_divide; [pose proof (Z.pow_pos_nonneg 2 n ltac:(lia) Hn); lia|]. eapply Z.divide_trans; [|exact Hp].
      exists (2 ^ (4 - n)). rewrite <- Z.pow_add_r by lia. replace (4 - n + n) with 4 by lia. reflexivity.
    - split; [lia|]. split; [|auto]. apply pow2_16; [|lia]. destruct (IS_POWER_OF_2 al) eqn:Q; [reflexivity|]. exfalso. apply Good. right. split; [clear - E; lia | reflexivity]. }
  destruct Al1 as (Al1 & Al16 & Aldiv & Alc). clearbody al1.
  pose proof (align_le req 16 ltac:(lia)) as Aq. fold CHUNK_ALIGNMENT in Aq. set (a16 := ALIGN_FORWARD req CHUNK_ALIGNMENT) in *. change CHUNK_ALIGNMENT with 16 in *.
  assert (Ua : u32 a16 = a16) by (apply Z.mod_small; lia). rewrite Ua.
  set (al2 := if 16 <? al1 then u32 (a16 + (al1 + CHUNK_MIN_SIZE + g)) else a16). set (aligned := if al2 <? CHUNK_MIN_SIZE then CHUNK_MIN_SIZE else al2).
  assert (Ha : 16 <= aligned /\ aligned mod 16 = 0 /\ ((al1 = 16 /\ req <= aligned) \/ (16 < al1 /\ a16 + al1 + 16 + g <= aligned)) /\ aligned <= req + 15 + al1 + 16 + g).
  { unfold aligned, al2, CHUNK_MIN_SIZE. destruct (16 <? al1) eqn:E.
    - assert (U : u32 (a16 + (al1 + 16 + g)) = a16 + (al1 + 16 + g)) by (apply Z.mod_small; lia). rewrite U. replace (_ <? 16) with false by lia.
      split; [lia|]. split; [|split; [right; lia | lia]]. apply mod16_add; [tauto|]. apply mod16_add; auto. apply mod16_add; auto.
    - destruct (a16 <? 16) eqn:E'; (split; [lia|]); (split; [tauto || reflexivity|]); (split; [left; lia | lia]). }
  destruct Ha as (Ha & Ha16 & Hfit & Hub). clearbody aligned al2.
  assert (Hs : header_size c <= 48) by (unfold header_size; destruct (shared c); lia). assert (Hs' : 32 <= header_size c) by (unfold header_size; destruct (shared c); lia).
  assert (Uh : u32 (aligned + header_size c) = aligned + header_size c) by (apply Z.mod_small; lia). rewrite Uh.
  assert (Tail : forall s1 p k Ts' M' F', p <> 0 -> p mod al1 = 0 -> (k <> 0%nat -> o_map o ARENA_INITIAL_SIZE = None) -> same_maps p M M' -> got s s1 Ts M (skipn k D) p req ty Ts' M' F' ->
    alloc_out o s Ts M D req al zero ty (alloc_tail zero s1 p req)).
  { intros s1 p k Ts' M' F' Np Hp Hk Sm' Gt. destruct (tail_ok s s1 Ts M (skipn k D) D F p req ty Ts' M' F' zero Wf Gt) as (s' & z & A1 & A2 & A3 & A4 & A5 & A6).
    exists s', p, Ts', M', F', k. split; [exact A1|]. split; [exact A2|]. split; [exact Hk|]. split; [exact Sm'|]. right. split; [exact Np|]. exists z. split; [exact A4|]. split; [exact A3|]. split; [exact A5|].
    split; [intros Na; apply Aldiv; auto|]. split; [exact Good | exact A6]. }
  unfold CHUNK_MIN_MMAP. destruct (128 * 1024 <=? aligned + header_size c) eqn:Eb.
  - (* a mapping *)
    assert (L : (large_chunk c o s aligned al1 = Ok (s, 0) /\ exists n, o_map o n = None) \/
      exists s1 r h al0 m msz, large_chunk c o s aligned al1 = Ok (s1, r) /\ r <> 0 /\ hd s1 r = Some h /\ h_alloc h = al0 /\ req <= al0 < 2 ^ 32 /\ r mod al1 = 0 /\
      forall ty, INV (seth c s1 r (set_type (set_diff h (u32 (al0 - req))) ty)) Ts (Mm m msz r al0 (al0 - req) ty false :: M) D F /\
               quiet Ts M s (seth c s1 r (set_type (set_diff h (u32 (al0 - req))) ty))).
    { apply (large_ok c W); auto; try lia. }
    destruct L as [[L1 L2]|(s1 & r & h & al0 & m & msz & L1 & Nr & Hh & Hal0 & Hr & Rm & L2)]; rewrite L1; cbn [bind].
    + change (0 =? 0) with true. cbv iota. apply Stop. right. right. exact L2.
    + replace (r =? 0) with false by lia. unfold geth at 1. rewrite Hh. cbn [of_option bind]. rewrite Hal0.
      unfold ALIGNED. replace (r mod al1 =? 0) with true by lia. cbn [bind].
      destruct (L2 ty) as [L3 L4]. apply (Tail _ r O Ts (Mm m msz r al0 (al0 - req) ty false :: M) F Nr Rm); [congruence|apply (same_maps_cons (Mm m msz r al0 (al0 - req) ty false))|].
      exists al0. cbn [skipn]. split; [exact L3|]. split; [exact Se|]. split; [|split; [lia|]].
      * unfold rb. cbn [map]. symmetry. apply Permutation_middle.
      * apply keep_bytes in L4. tauto.
  - (* a chunk of an arena *)
    destruct (small_ok c W o s Ts M D F aligned I Se Os Om ltac:(lia) Ha16) as (s1 & p & i & k & Sm1 & Sm2 & R). rewrite Sm1. cbn [bind].
    destruct R as [(-> & On & Ts' & F' & A1 & A2 & A3 & A4)|(X & a & l1 & z & d & l2 & Y & F' & Np & I1 & Se1 & Hz & Fr & Q1 & Hi)].
    + change (0 =? 0) with true. cbv iota. exists s1, 0, Ts', M, F', k. split; [reflexivity|].
      assert (ER : rb Ts' M = rb Ts M) by (unfold rb; rewrite A3; reflexivity). apply keep_bytes in A4 as [A4 A5].
      split; [|split; [exact Sm2|split; [apply same_maps_refl|]; left; split; auto; split; [right; right; eauto|split; [rewrite ER; auto | exact A4]]]].
      destruct Wf as [_ _ W3 W4]. split; auto; rewrite ER; auto. rewrite A5. exact W4.
    + replace (p =? 0) with false by lia. pose proof (CH_GEO _ _ _ _ (proj1 I1)) as G1.
      assert (It : In (Tile p z (KLive d 0 false)) (tiles (X ++ (a, l1 ++ Tile p z (KLive d 0 false) :: l2) :: Y))) by (apply in_mid; auto).
      pose proof (tile_facts c W _ _ _ G1 It) as Ft. cbn [tp tsz] in Ft. assert (Hz32 : 0 <= z < 2 ^ 32) by (clear - Ft; lia). assert (Hp0 : 0 < p) by (clear - Ft Gr; lia). assert (Hrz : 0 <= req <= z) by (clear - Hfit Hz Hreq Aq Hz32 Gr; lia).
      destruct (ch_hok _ _ _ _ _ _ _ _ _ (proj1 I1)) as ((h & Hh & Hah & Hmm & (K1 & K2 & K3 & K4 & K5) & _) & _). cbn [tp tsz tk] in *.
      unfold geth at 1. rewrite Hh. cbn [of_option bind]. rewrite Hah.
      assert (U : u32 (z - req) = z - req) by (apply Z.mod_small; clear - Hrz Hz32; lia). rewrite U.
      set (h1 := set_type (set_diff h (z - req)) ty). set (s2 := seth c s1 p h1).
      destruct (relive c W s1 X a l1 p z d 0 false l2 Y M (skipn k D) F' h h1 I1 Hh) as [I2 Q2]; try reflexivity; auto. fold s2 in I2, Q2.
      change (h_diff h1) with (Some (z - req)) in I2. change (h_type h1) with ty in I2. change (h_skip h1) with (h_skip h) in I2. rewrite K5 in I2.
      set (Ts2 := X ++ (a, l1 ++ Tile p z (KLive (Some (z - req)) ty false) :: l2) :: Y) in *.
      assert (RB : forall t, live t = true -> forall X' a' l1' l2' Y', filter live (others X' l1' l2' Y') = filter live (others X l1 l2 Y) ->
         Permutation (rb (X' ++ (a', l1' ++ t :: l2') :: Y') M) (t :: rb Ts M)).
      { intros t Lt X' a' l1' l2' Y' E. etransitivity; [apply rb_mid; exact Lt|]. rewrite E, Fr. reflexivity. }
      assert (Q12 : keep (bytes (rb Ts M)) s s2 /\ large s2 = large s).
      { apply keep_bytes. apply (quiet_trans Ts M (X ++ (a, l1 ++ Tile p z (KLive d 0 false) :: l2) :: Y) M s s1 s2); [|exact Q1|exact Q2].
        intros x Lx. apply LB_rb. apply LB_rb in Lx. eapply bytes_perm; [symmetry; apply (RB (Tile p z (KLive d 0 false)) eq_refl); reflexivity|]. eapply bytes_incl; [|exact Lx]. intros u Iu; right; exact Iu. }
      assert (Se2 : settled Ts2).
      { intros t J. apply in_mid in J as [->|J]; [split; discriminate | apply Se1, in_mid; auto]. }
      unfold ALIGNED. destruct (p mod al1 =? 0) eqn:Ep; cbn [bind].
      * apply (Tail s2 p k Ts2 M F' Np); [lia | exact Sm2 | apply same_maps_refl |]. exists z. split; [exact I2|]. split; [exact Se2|]. split; [apply (RB (Tile p z (KLive (Some (z - req)) ty false)) eq_refl); reflexivity|]. split; [lia | exact Q12].
      * assert (Hal16 : 16 < al1).
        { destruct Hfit as [[E _]|[E _]]; auto. exfalso. rewrite E in Ep. clear - Ep Ft; lia. }
        destruct Hfit as [[E _]|[_ Hfit]]; [clear - E Hal16; lia|].
        pose proof (align_le (p + (CHUNK_MIN_SIZE + g)) al1 ltac:(clear - Hal16; lia)) as [Aq1 Aq2]. set (q := ALIGN_FORWARD (p + (CHUNK_MIN_SIZE + g)) al1) in *. unfold CHUNK_MIN_SIZE in Aq1.
        pose proof (mod_trans q al1 Aq2 Al16 ltac:(lia)) as Hq16.
        assert (Hqz : q - p <= 16 + g + al1 - 16).
        { assert (Md : (16 + g + al1 - (q - p)) mod 16 = 0). { apply mod16_sub; [apply mod16_add; auto; apply mod16_add; auto | apply mod16_sub; tauto]. }
          apply Z.mod_divide in Md; [|lia]. destruct Md as [w Ew]. clear - Ew Aq1 Al1; lia. }
        assert (Hh2 : hd s2 p = Some h1) by (unfold s2; apply hd_seth_eq).
        destruct (presplit_ok c W o s2 X a l1 p z (Some (z - req)) ty l2 Y M (skipn k D) F' i q h1 I2 Se2 Hi ltac:(clear - Aq1 Gr; lia) Hq16 ltac:(clear - Hfit Hz Hqz Hreq Aq Aq1 Gr; lia) Hh2) as (s3 & X3 & a3 & l13 & l23 & Y3 & F3 & P1 & I3 & Se3 & Lv3 & Q3).
        unfold geth at 1. rewrite Hh2. cbn [of_option bind]. change (h_alloc h1) with (h_alloc h). rewrite Hah.
        cbv zeta in P1. rewrite P1. cbn [bind].
        destruct (ch_hok _ _ _ _ _ _ _ _ _ (proj1 I3)) as ((h3 & Hh3 & Hah3 & Hmm3 & (J1 & J2 & J3 & J4 & J5) & _) & _). cbn [tp tsz tk] in *.
        unfold geth at 1. rewrite Hh3. cbn [of_option bind]. rewrite Hah3.
        set (qz := z - (q - p)) in *. assert (Hqr : 0 <= req <= qz /\ qz <= z) by (unfold qz; clear - Hfit Hz Hqz Hreq Aq Aq1 Gr; lia).
        assert (U3 : u32 (qz - req) = qz - req) by (apply Z.mod_small; clear - Hqr Hz32; lia). rewrite U3.
        set (h4 := set_diff h3 (qz - req)).
        destruct (relive c W s3 X3 a3 l13 q qz (Some (z - req)) ty false l23 Y3 M (skipn k D) F3 h3 h4 I3 Hh3) as [I4 Q4]; try reflexivity; auto.
        change (h_diff h4) with (Some (qz - req)) in I4. change (h_type h4) with (h_type h3) in I4. change (h_skip h4) with (h_skip h3) in I4. rewrite J4, J5 in I4.
        apply (Tail (seth c s3 q h4) q k (X3 ++ (a3, l13 ++ Tile q qz (KLive (Some (qz - req)) ty false) :: l23) :: Y3) M F3 ltac:(clear - Hp0 Aq1 Gr; lia) Aq2 Sm2 (same_maps_refl q M)).
        exists qz. split; [exact I4|].
        assert (LQ : filter live (others X3 l13 l23 Y3) = lives Ts) by (rewrite Lv3; exact Fr).
        split; [|split; [|split; [tauto|]]].
        -- intros t J. apply in_mid in J as [->|J]; [split; discriminate | apply Se3, in_mid; auto].
        -- apply (RB (Tile q qz (KLive (Some (qz - req)) ty false)) eq_refl). exact Lv3.
        -- destruct Q12 as [Qa Qb].
           assert (Qt : quiet Ts M s2 (seth c s3 q h4)).
           { apply (quiet_trans Ts M (X3 ++ (a3, l13 ++ Tile q qz (KLive (Some (z - req)) ty false) :: l23) :: Y3) M s2 s3); [| |exact Q4].
             - intros x Lx. apply LB_rb. apply LB_rb in Lx. eapply bytes_perm; [symmetry; apply (RB (Tile q qz (KLive (Some (z - req)) ty false)) eq_refl); exact Lv3|]. eapply bytes_incl; [|exact Lx]. intros u Iu; right; exact Iu.
             - eapply quiet_sub; [|exact Q3]. intros x Lx. apply LB_rb. apply LB_rb in Lx. rewrite rb_dead by reflexivity. unfold fresh_live in Fr. rewrite Fr. exact Lx. }
           apply keep_bytes in Qt as [Qc Qd]. split; [eapply keep_trans; eauto | congruence].
Qed.
End Alloc.
