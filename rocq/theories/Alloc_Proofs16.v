(** [replace_free_common], [replace_realloc_common] and [replace_size_common] on a
    well-formed state. *)
From Coq Require Import Permutation.
From Verif Require Import Base Alloc_Model Alloc_Inv Alloc_Proofs Alloc_Proofs2 Alloc_Proofs3 Alloc_Proofs4 Alloc_Proofs5 Alloc_Proofs6 Alloc_Proofs7 Alloc_Proofs8 Alloc_Proofs9 Alloc_Proofs10 Alloc_Proofs11 Alloc_Proofs12 Alloc_Proofs13 Alloc_Proofs14 Alloc_Proofs15.
Open Scope Z_scope.

Section Realloc.
Context (c : cfg) (W : wfc c).
Notation g := (inter c).
Notation INV := (INV c).
Notation WF := (WF c).

(** rewriting the header of a block *)
Lemma rehead s Ts M D F t d ty sk h h' d' : INV s Ts M D F -> settled Ts -> In t (rb Ts M) -> tk t = KLive (Some d) ty sk -> hd s (tp t) = Some h ->
  h_alloc h' = h_alloc h -> h_mmap h' = h_mmap h -> h_freed h' = false -> h_delay h' = h_delay h -> h_pfree h' = h_pfree h -> h_shr h' = h_shr h -> h_far h' = h_far h -> h_nxt h' = h_nxt h ->
  h_diff h' = Some d' -> 0 <= d' <= tsz t ->
  exists Ts' M' rest, INV (seth c s (tp t) h') Ts' M' D F /\ settled Ts' /\ Permutation (rb Ts M) (t :: rest) /\
    Permutation (rb Ts' M') (Tile (tp t) (tsz t) (KLive (Some d') (h_type h') (h_skip h')) :: rest) /\ keep (bytes (rb Ts M)) s (seth c s (tp t) h') /\ same_maps (tp t) M M' /\ large (seth c s (tp t) h') = large s.
Proof.
  intros I Se It Ek Hh A1 A2 A3 A4 A5 A6 A7 A8 A9 A10. unfold rb in It. apply in_app_or in It as [It|It].
  - apply filter_In in It as [It Lt]. destruct (tiles_split _ _ It) as (X & a & l1 & l2 & Y & ET). subst Ts. destruct t as [p z k]. cbn [tp tsz tk] in *. subst k.
    destruct (relive c W s X a l1 p z (Some d) ty sk l2 Y M D F h h' I Hh A1 A2 A3 A4 A5 A6 A7 A8) as [I1 Q1]. rewrite A9 in I1.
    exists (X ++ (a, l1 ++ Tile p z (KLive (Some d') (h_type h') (h_skip h')) :: l2) :: Y), M, (filter live (others X l1 l2 Y) ++ map mtile M).
    split; [exact I1|]. split; [|split; [apply rb_mid; reflexivity|split; [apply rb_mid; reflexivity|split; [apply keep_bytes; exact Q1|split; [apply same_maps_refl | reflexivity]]]]].
    intros t J. apply in_mid in J as [->|J]; [split; discriminate | apply Se, in_mid; auto].
  - apply in_map_iff in It as (m & <- & Im). cbn [mtile tp tsz tk] in *. apply in_split in Im as (M1 & M2 & ->).
    destruct (remap c W s Ts M1 m M2 D F h h' I Hh A1 A2 A3 A6 d' A9 A10) as [I1 Q1].
    exists Ts, (M1 ++ Mm (mb m) (msz m) (mp m) (mal m) d' (h_type h') (h_skip h') :: M2), (lives Ts ++ map mtile (M1 ++ M2)).
    assert (P : forall m0, Permutation (rb Ts (M1 ++ m0 :: M2)) (mtile m0 :: lives Ts ++ map mtile (M1 ++ M2))).
    { intros m0. unfold rb. rewrite !map_app. cbn [map]. rewrite !app_assoc. symmetry. apply Permutation_middle. }
    split; [exact I1|]. split; [exact Se|]. split; [apply P|]. split; [apply (P (Mm (mb m) (msz m) (mp m) (mal m) d' (h_type h') (h_skip h')))|]. split; [apply keep_bytes; exact Q1|]. split; [|reflexivity].
    intros u N. rewrite !map_app. cbn [map]. rewrite !in_app_iff. cbn [In]. split; (intros [J|[J|J]]; [tauto | exfalso; apply N; rewrite <- J; reflexivity | tauto]).
Qed.

Notation key := (fun t => fst (blk t)).
Lemma key_tp t : fst (fst (blk t)) = tp t.
Proof. unfold blk. destruct (tk t) as [[d|] ty sk| | | |]; reflexivity. Qed.
Lemma cut_perm lg t L : Permutation lg (map key (filter big (t :: L))) -> NoDup (map tp (t :: L)) ->
  Permutation (cut lg (tp t) (snd (fst (blk t)))) (map key (filter big L)).
Proof.
  intros P N. cbn [filter map] in *. unfold cut. fold (big t). unfold isl. fold (big t).
  apply NoDup_cons_iff in N as [N _].
  change (LARGE_MALLOC_MIN_SIZE <=? snd (fst (blk t))) with (big t). destruct (big t); [|exact P]. cbn [map] in P.
  eapply perm_trans; [apply Permutation_filter'; exact P|]. cbn [filter]. rewrite key_tp, Z.eqb_refl. cbn [negb].
  rewrite filter_all; [reflexivity|]. intros x Ix. apply in_map_iff in Ix as (u & <- & Iu). apply filter_In in Iu as [Iu _]. rewrite key_tp.
  rewrite (proj2 (Z.eqb_neq _ _)); [reflexivity|]. intros E. apply N. rewrite <- E. apply in_map. exact Iu.
Qed.
Lemma okb_blk t : okb t -> exists d ty, tk t = KLive (Some d) ty false /\ 0 <= d <= tsz t /\ blk t = (tp t, tsz t - d, ty).
Proof. intros (d & ty & E & Hd). exists d, ty. split; auto. split; auto. unfold blk. rewrite E. reflexivity. Qed.

Lemma free_ok o s Ts M D F t ty ign : WF s Ts M D F -> In t (rb Ts M) ->
  exists s' Ts' M' D' F', free_common c o s (tp t) ty ign = Ok (s', mism t ty ign) /\ WF s' Ts' M' D' F' /\
    Permutation (rb Ts M) (t :: rb Ts' M') /\ keep (bytes (rb Ts' M')) s s' /\ queue_after c D D' t M.
Proof.
  intros [I Se Rb Lg] It. rewrite Forall_forall in Rb. destruct (okb_blk t (Rb t It)) as (d & ta & Ek & Hd & Eb).
  destruct (free_inv c W o s Ts M D F t d ta ty ign I Se It Ek Hd) as (s' & Ts' & M' & D' & F' & E & I' & Se' & P & Kp & L' & Q & _).
  exists s', Ts', M', D', F'. split; [exact E|]. split; [|auto]. split; auto.
  - apply Forall_forall. intros u Iu. apply Rb. eapply Permutation_in; [symmetry; exact P | right; exact Iu].
  - rewrite L'. replace (tsz t - d) with (snd (fst (blk t))) by (rewrite Eb; reflexivity). apply cut_perm.
    + etransitivity; [exact Lg|]. apply Permutation_map, Permutation_filter', P.
    + eapply Permutation_NoDup; [apply Permutation_map; exact P|]. apply (rb_ptr c W s Ts M (proj1 I)).
Qed.
Lemma free_bad o s Ts M D F p ty ign : WF s Ts M D F -> ~ In p (map tp (rb Ts M)) ->
  exists r, free_common c o s p ty ign = Ok (s, r) /\
    ((exists x, pre_us c p = Some x) /\ r = [] \/ pre_us c p = None /\ exists r0, r = r0 ++ [Invalid p] /\
       (r0 = [] \/ p <> 0 /\ exists t, In t (rb Ts M) /\ (tp t = p - 8 \/ tp t = p + 8) /\ r0 = mism t ty ign)).
Proof.
  intros [I Se Rb Lg] N. pose proof I as (H & _ & _). unfold free_common. destruct (is_live_alloc s p) eqn:E; [exfalso; apply N; apply (live_ok c W s Ts M p H); exact E|]. cbn [negb].
  destruct (pre_us c p) as [x|]; [exists []; split; [reflexivity|]; left; split; eauto|].
  assert (Q : forall q, is_live_alloc s q = true -> exists t, In t (rb Ts M) /\ tp t = q /\ check_type_match s q ty ign = Ok (mism t ty ign)).
  { intros q Lq. apply (live_ok c W s Ts M q H) in Lq. apply in_map_iff in Lq as (t & <- & It). exists t. split; auto. split; auto.
    rewrite Forall_forall in Rb. destruct (Rb t It) as (d & ta & Ek & _). eapply mism_ok; eauto. }
  destruct (p =? 0) eqn:Ep; [exists [Invalid p]; split; [reflexivity|]; right; split; auto; exists []; auto|].
  destruct (is_live_alloc s (p - 8)) eqn:E1.
  { destruct (Q _ E1) as (t & It & Et & Ec). rewrite Ec. cbn [bind]. eexists. split; [reflexivity|]. right. split; auto. eexists. split; [reflexivity|]. right. split; [lia|]. exists t. split; auto. }
  destruct (is_live_alloc s (p + 8)) eqn:E2.
  { destruct (Q _ E2) as (t & It & Et & Ec). rewrite Ec. cbn [bind]. eexists. split; [reflexivity|]. right. split; auto. eexists. split; [reflexivity|]. right. split; [lia|]. exists t. split; auto. }
  cbn [bind]. exists [Invalid p]. split; [reflexivity|]. right. split; auto. exists []. auto.
Qed.
Lemma size_ok s Ts M D F p : WF s Ts M D F ->
  (forall t, In t (rb Ts M) -> tp t = p -> size_common c s p = Ok (Some (snd (fst (blk t))), [])) /\
  (~ In p (map tp (rb Ts M)) -> size_common c s p = Ok (match pre_us c p with Some (n, _) => (Some n, []) | None => (None, [Invalid p]) end)).
Proof.
  intros [I Se Rb Lg]. pose proof I as (H & _ & _). unfold size_common. split.
  - intros t It <-. rewrite (proj2 (live_ok c W s Ts M (tp t) H)) by (apply in_map; exact It). rewrite Forall_forall in Rb. destruct (okb_blk t (Rb t It)) as (d & ta & Ek & Hd & Eb).
    destruct (rb_head c _ _ _ _ H It) as (h & d' & ty' & sk' & Ek' & Hh & Hal & _ & Hdf & _). rewrite Ek in Ek'. injection Ek' as <- <- <-. destruct (rb_facts c W _ _ _ _ H It) as (_ & _ & Hz & _).
    unfold geth. rewrite Hh. cbn [of_option bind]. unfold chunk_request_size. rewrite Hdf. cbn [of_option bind]. rewrite Hal, Eb. cbn [fst snd]. do 4 f_equal. apply Z.mod_small. lia.
  - intros N. destruct (is_live_alloc s p) eqn:E; [exfalso; apply N; apply (live_ok c W s Ts M p H); exact E|]. destruct (pre_us c p) as [[n z]|]; reflexivity.
Qed.

(** a realloc that stays where it is *)
Lemma stay_ok o s Ts M D F t size ty : WF s Ts M D F -> In t (rb Ts M) -> 0 < size <= tsz t ->
  exists s' Ts' M' rest, realloc_common c o s (tp t) size ty = Ok (s', tp t, []) /\ WF s' Ts' M' D F /\ Permutation (rb Ts M) (t :: rest) /\
    Permutation (rb Ts' M') (Tile (tp t) (tsz t) (KLive (Some (tsz t - size)) (snd (blk t)) false) :: rest) /\ keep (bytes (rb Ts M)) s s'.
Proof.
  intros [I Se Rb Lg] It Hs. pose proof I as (H & _ & _). rewrite Forall_forall in Rb. destruct (okb_blk t (Rb t It)) as (d & ta & Ek & Hd & Eb).
  destruct (rb_head c _ _ _ _ H It) as (h & d' & ty' & sk' & Ek' & Hh & Hal & Hfr & Hdf & Ht & Hsk). rewrite Ek in Ek'. injection Ek' as <- <- <-. destruct (rb_facts c W _ _ _ _ H It) as (Hp & _ & Hz & _).
  unfold realloc_common. replace (tp t =? 0) with false by lia. replace (size =? 0) with false by lia. rewrite (proj2 (live_ok c W s Ts M (tp t) H)) by (apply in_map; exact It).
  unfold geth at 1. rewrite Hh. cbn [of_option bind]. unfold chunk_request_size at 1. rewrite Hdf. cbn [of_option bind]. rewrite Hal. replace (size <=? tsz t) with true by lia.
  replace (u32 (tsz t - d)) with (tsz t - d) by (symmetry; apply Z.mod_small; lia). replace (u32 (tsz t - size)) with (tsz t - size) by (symmetry; apply Z.mod_small; lia).
  cbv zeta. unfold chunk_request_size. cbn [set_diff h_diff h_alloc of_option bind]. rewrite Hal.
  replace (u32 (tsz t - (tsz t - size))) with size by (symmetry; replace (tsz t - (tsz t - size)) with size by lia; apply Z.mod_small; lia).
  fold (isl (tsz t - d)). fold (isl size).
  destruct (rehead s Ts M D F t d ta false h (set_diff h (tsz t - size)) (tsz t - size) I Se It Ek Hh eq_refl eq_refl Hfr eq_refl eq_refl eq_refl eq_refl eq_refl eq_refl ltac:(lia)) as (Ts' & M' & rest & I1 & Se1 & P1 & P2 & K1 & Sm & _).
  change (h_type (set_diff h (tsz t - size))) with (h_type h) in P2. change (h_skip (set_diff h (tsz t - size))) with (h_skip h) in P2. rewrite Ht, Hsk in P2.
  set (lg := cut (large s) (tp t) (tsz t - d)). set (lg' := if isl size then (tp t, size) :: lg else lg).
  exists (with_large (seth c s (tp t) (set_diff h (tsz t - size))) lg'), Ts', M', rest.
  split; [|split; [|split; [exact P1|split; [rewrite Eb; exact P2|intros x Bx; exact (K1 x Bx)]]]].
  - unfold lg', lg, cut. destruct (isl (tsz t - d)), (isl size); reflexivity.
  - assert (PL : Permutation lg (map key (filter big rest))).
    { unfold lg. replace (tsz t - d) with (snd (fst (blk t))) by (rewrite Eb; reflexivity). apply cut_perm.
      - etransitivity; [exact Lg|]. apply Permutation_map, Permutation_filter', P1.
      - eapply Permutation_NoDup; [apply Permutation_map; exact P1|]. apply (rb_ptr c W s Ts M (proj1 I)). }
    split; [apply INV_with_large; exact I1 | exact Se1 | |].
    + eapply Permutation_Forall; [symmetry; exact P2|]. constructor; [exists (tsz t - size), ta; cbn; split; auto; lia|]. apply Forall_forall. intros u Iu. apply Rb. eapply Permutation_in; [symmetry; exact P1 | right; exact Iu].
    + etransitivity; [|apply Permutation_map, Permutation_filter'; symmetry; exact P2]. cbn [large with_large filter].
      set (t' := Tile _ _ _). assert (Eb' : blk t' = (tp t, size, ta)) by (unfold blk, t'; cbn [tk tp tsz]; do 2 f_equal; lia).
      unfold lg', isl. unfold big at 1. rewrite Eb'. cbn [fst snd]. destruct (LARGE_MALLOC_MIN_SIZE <=? size); [|exact PL]. cbn [map]. rewrite Eb'. cbn [fst]. constructor. exact PL.
Qed.

(** a realloc that moves *)
Definition moved (s s' : state) (Ts Ts' : ats) (M M' : list mm) (t : tile) (q size ty : Z) : Prop :=
  exists z rest, Permutation (rb Ts M) (t :: rest) /\ Permutation (rb Ts' M') (Tile q z (KLive (Some (z - size)) ty false) :: rest) /\
    0 <= size <= z /\ keep (bytes rest) s s' /\ (forall i, 0 <= i < Z.min size (snd (fst (blk t))) -> mem s' (q + i) = mem s (tp t + i)).
Lemma move_ok o s Ts M D F t size ty : WF s Ts M D F -> os_ok o s -> oom_ok o s -> moderate size 0 -> In t (rb Ts M) -> tsz t < size ->
  exists s' q Ts' M' D' F' k, realloc_common c o s (tp t) size ty = Ok (s', q, []) /\ WF s' Ts' M' D' F' /\ (k <> 0%nat -> o_map o ARENA_INITIAL_SIZE = None) /\
    ((q = 0 /\ refused o size 0 /\ Permutation (rb Ts' M') (rb Ts M) /\ keep (bytes (rb Ts M)) s s' /\ D' = skipn k D) \/
     (q <> 0 /\ q <> tp t /\ moved s s' Ts Ts' M M' t q size ty /\ queue_after c (skipn k D) D' t M)).
Proof.
  intros Wf Os Om Mod It Hs. pose proof Wf as [I Se Rb Lg]. pose proof I as (H & _ & _). rewrite Forall_forall in Rb. destruct (okb_blk t (Rb t It)) as (d & ta & Ek & Hd & Eb).
  destruct (rb_head c _ _ _ _ H It) as (h & d' & ty' & sk' & Ek' & Hh & Hal & Hfr & Hdf & Ht & Hsk). rewrite Ek in Ek'. injection Ek' as <- <- <-. destruct (rb_facts c W _ _ _ _ H It) as (Hp & _ & Hz & _).
  unfold realloc_common. replace (tp t =? 0) with false by lia. replace (size =? 0) with false by lia. rewrite (proj2 (live_ok c W s Ts M (tp t) H)) by (apply in_map; exact It).
  unfold geth at 1. rewrite Hh. cbn [of_option bind]. unfold chunk_request_size at 1. rewrite Hdf. cbn [of_option bind]. rewrite Hal. replace (size <=? tsz t) with false by lia.
  replace (u32 (tsz t - d)) with (tsz t - d) by (symmetry; apply Z.mod_small; lia).
  destruct (alloc_ok c W o s Ts M D F size 0 false ty Wf Os Om ltac:(lia) ltac:(lia) Mod) as (s1 & q & Ts1 & M1 & F1 & k & E1 & Wf1 & Hk & Sm1 & R). rewrite E1. cbn [bind].
  destruct R as [(-> & Rf & P1 & K1)|(Nq & z & P1 & Hz1 & K1 & _ & _ & _)].
  { change (0 =? 0) with true. cbv iota. exists s1, 0, Ts1, M1, (skipn k D), F1, k. split; [reflexivity|]. split; [exact Wf1|]. split; [exact Hk|]. left. auto 10. }
  replace (q =? 0) with false by lia.
  set (tq := Tile q z (KLive (Some (z - size)) ty false)) in *. set (tq' := Tile q z (KLive (Some (z - size)) ty true)).
  pose proof (wf_inv _ _ _ _ _ _ Wf1) as I1. pose proof (wf_settled _ _ _ _ _ _ Wf1) as Se1. pose proof (proj1 I1) as H1.
  assert (Iq : In tq (rb Ts1 M1)) by (eapply Permutation_in; [symmetry; exact P1 | left; reflexivity]).
  assert (Nd1 : NoDup (q :: map tp (rb Ts M))).
  { change (q :: map tp (rb Ts M)) with (map tp (tq :: rb Ts M)). eapply Permutation_NoDup; [apply Permutation_map; exact P1|]. apply (rb_ptr c W _ _ _ H1). }
  apply NoDup_cons_iff in Nd1 as [Nq1 Nd].
  assert (Ntq : forall u, In u (rb Ts M) -> tp u <> q) by (intros u Iu Eu; apply Nq1; rewrite <- Eu; apply in_map; exact Iu).
  set (n := Z.min size (tsz t - d)). set (s2 := memcpy s1 q (tp t) n).
  assert (I2 : INV s2 Ts1 M1 (skipn k D) F1) by (apply INV_with_mem; exact I1).
  assert (Apart : forall u x, In u (rb Ts M) -> tp u <= x < tp u + tsz u -> ~ (q <= x < q + z)).
  { intros u x Iu Bu. assert (Iu' : In u (rb Ts1 M1)) by (eapply Permutation_in; [symmetry; exact P1 | right; exact Iu]).
    destruct (rb_apart c W _ _ _ tq u H1 Iq Iu' (fun E => Ntq u Iu (eq_sym E))) as [A _]. cbn [tp tsz tq] in A. pose proof (wf_rz c W). lia. }
  assert (K2 : keep (bytes (rb Ts M)) s1 s2).
  { intros x (u & Iu & Bu). unfold s2, memcpy. cbn [mem with_mem]. pose proof (Apart u x Iu Bu). replace (_ && _) with false; [reflexivity|]. symmetry. unfold n. lia. }
  destruct (rb_head c _ _ _ _ (proj1 I2) Iq) as (hq & dq & tyq & skq & Ekq & Hhq & Halq & Hfrq & Hdfq & Htq & Hskq). cbn [tk tp tsz tq] in *. injection Ekq as <- <- <-.
  unfold geth at 1. rewrite Hhq. cbn [of_option bind].
  destruct (rehead s2 Ts1 M1 (skipn k D) F1 tq (z - size) ty false hq (set_skip hq true) (z - size) I2 Se1 Iq eq_refl Hhq eq_refl eq_refl Hfrq eq_refl eq_refl eq_refl eq_refl eq_refl Hdfq ltac:(cbn [tsz tq]; lia))
    as (Ts3 & M3 & rest3 & I3 & Se3 & P3 & P3' & K3 & Sm3 & Lg3).
  change (h_type (set_skip hq true)) with (h_type hq) in P3'. change (h_skip (set_skip hq true)) with true in P3'. rewrite Htq in P3'. cbn [tp tsz tq] in P3', I3, K3, Lg3, Sm3. fold tq' in P3'.
  set (s3 := seth c s2 q (set_skip hq true)) in *.
  assert (Pr3 : Permutation rest3 (rb Ts M)).
  { apply (Permutation_cons_inv (a := tq)). etransitivity; [symmetry; exact P3 | exact P1]. }
  assert (It3 : In t (rb Ts3 M3)). { eapply Permutation_in; [symmetry; exact P3'|]. right. eapply Permutation_in; [symmetry; exact Pr3 | exact It]. }
  destruct (free_inv c W o s3 Ts3 M3 (skipn k D) F1 t d ta ty true I3 Se3 It3 Ek Hd) as (s4 & Ts4 & M4 & D4 & F4 & E4 & I4 & Se4 & P4 & K4 & L4 & Q4 & _).
  rewrite E4. cbn [bind]. change (mism t ty true) with (@nil report).
  assert (Pr : exists rest, Permutation (rb Ts M) (t :: rest)).
  { apply in_split in It as (L1 & L2 & ->). exists (L1 ++ L2). symmetry. apply Permutation_middle. }
  destruct Pr as (rest & Pr).
  assert (P34 : Permutation (rb Ts4 M4) (tq' :: rest)).
  { apply (Permutation_cons_inv (a := t)). etransitivity; [symmetry; exact P4|]. etransitivity; [exact P3'|]. etransitivity; [|apply perm_swap]. constructor. etransitivity; [exact Pr3 | exact Pr]. }
  assert (Iq4 : In tq' (rb Ts4 M4)) by (eapply Permutation_in; [symmetry; exact P34 | left; reflexivity]).
  destruct (rb_head c _ _ _ _ (proj1 I4) Iq4) as (h4 & d4 & ty4 & sk4 & Ek4 & Hh4 & Hal4 & Hfr4 & Hdf4 & Ht4 & Hsk4). cbn [tk tp tsz tq'] in *. injection Ek4 as <- <- <-.
  unfold geth at 1. rewrite Hh4. cbn [of_option bind].
  destruct (rehead s4 Ts4 M4 D4 F4 tq' (z - size) ty true h4 (set_skip h4 false) (z - size) I4 Se4 Iq4 eq_refl Hh4 eq_refl eq_refl Hfr4 eq_refl eq_refl eq_refl eq_refl eq_refl Hdf4 ltac:(cbn [tsz tq']; lia))
    as (Ts5 & M5 & rest5 & I5 & Se5 & P5 & P5' & K5 & Sm5 & Lg5).
  change (h_type (set_skip h4 false)) with (h_type h4) in P5'. change (h_skip (set_skip h4 false)) with false in P5'. rewrite Ht4 in P5'. cbn [tp tsz tq'] in P5', I5, K5, Lg5. fold tq in P5'.
  set (s5 := seth c s4 q (set_skip h4 false)) in *.
  assert (Pr5 : Permutation rest5 rest). { apply (Permutation_cons_inv (a := tq')). etransitivity; [symmetry; exact P5 | exact P34]. }
  assert (PF : Permutation (rb Ts5 M5) (tq :: rest)) by (etransitivity; [exact P5' | constructor; exact Pr5]).
  assert (Inr : forall u, In u rest -> In u (rb Ts M)) by (intros u Iu; eapply Permutation_in; [symmetry; exact Pr | right; exact Iu]).
  exists s5, q, Ts5, M5, D4, F4, k. split; [reflexivity|]. split; [|split; [exact Hk|right; split; [exact Nq|split; [intros E; exact (Ntq t It (eq_sym E))|split]]]].
  - split; [exact I5 | exact Se5 | |].
    + eapply Permutation_Forall; [symmetry; exact PF|]. constructor; [exists (z - size), ty; cbn; split; auto; lia|]. apply Forall_forall. intros u Iu. apply Rb. auto.
    + rewrite Lg5, L4, Lg3. change (large s2) with (large s1).
      replace (tsz t - d) with (snd (fst (blk t))) by (rewrite Eb; reflexivity).
      etransitivity; [|apply Permutation_map, Permutation_filter'; symmetry; exact PF].
      assert (PX : Permutation (rb Ts1 M1) (t :: tq :: rest)).
      { etransitivity; [exact P1|]. etransitivity; [constructor; exact Pr|]. apply perm_swap. }
      apply cut_perm.
      * etransitivity; [exact (wf_large _ _ _ _ _ _ Wf1)|]. apply Permutation_map, Permutation_filter', PX.
      * eapply Permutation_NoDup; [apply Permutation_map; exact PX|]. apply (rb_ptr c W _ _ _ H1).
  - exists z, rest. split; [exact Pr|]. split; [exact PF|]. split; [exact Hz1|].
    assert (K35 : keep (bytes (tq' :: rest)) s2 s5).
    { eapply keep_trans; [|eapply keep_trans; [|exact (keep_sub _ _ s4 s5 (fun x => bytes_perm _ _ x (Permutation_sym P34)) K5)]].
      - eapply (keep_sub (bytes (rb Ts1 M1))); [|exact K3]. intros x (u & [<-|Iu] & Bu); [exists tq; split; auto|]. exists u. split; [|exact Bu]. eapply Permutation_in; [symmetry; exact P1|]. right. auto.
      - exact (keep_sub _ _ s3 s4 (fun x => bytes_perm _ _ x (Permutation_sym P34)) K4). }
    split.
    + assert (Br : forall x, bytes rest x -> bytes (rb Ts M) x) by (intros x; apply bytes_incl; exact Inr).
      eapply keep_trans; [exact (keep_sub _ _ s s1 Br K1)|]. eapply keep_trans; [exact (keep_sub _ _ s1 s2 Br K2)|].
      eapply keep_sub; [|exact K35]. intros x. apply bytes_incl. intros u Iu; right; exact Iu.
    + rewrite Eb. cbn [fst snd]. fold n. intros i Hi. assert (Hi' : i < z /\ i < tsz t - d) by (unfold n in Hi; lia).
      rewrite (K35 (q + i)) by (exists tq'; split; [left; reflexivity | cbn [tp tsz tq']; lia]).
      unfold s2, memcpy. cbn [mem with_mem]. replace (_ && _) with true by lia. replace (q + i - q + tp t) with (tp t + i) by lia.
      apply K1. exists t. split; [exact It | lia].
  - assert (EM : In t (map mtile M3) <-> In t (map mtile M)).
    { rewrite (Sm3 t (Ntq t It)). apply (Sm1 t (Ntq t It)). }
    unfold queue_after in *. rewrite <- EM. exact Q4.
Qed.
End Realloc.
