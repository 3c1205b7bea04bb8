(** Freeing blocks; what memory shows; histories. *)
From Verif Require Import Base Umbra32_Model Umbra32_Spec Umbra32_Proofs Umbra32_Proofs2 Umbra32_Proofs3
  Umbra32_Proofs4 Umbra32_Proofs5 Umbra32_Proofs6.
Open Scope Z_scope.

Section More.
Variable m : umap.
Hypothesis Hm : map_ok m.
Notation SL := (SLOTS (sc m)).

(** * Freeing *)
Lemma is_heap_refl h : is_heap h h = true.
Proof. destruct h; reflexivity. Qed.
Lemma drop_ok l : ForallOrdPairs (fun r s => apart m (r_at r) (r_at s)) l -> forall r, In r l ->
  exists l', drop (r_at r) (r_heap r) l = Ret l' /\ (forall s, In s l' <-> In s l /\ s <> r) /\
    ForallOrdPairs (fun r s => apart m (r_at r) (r_at s)) l' /\ S (length l') = length l.
Proof.
  pose proof (asz_pos m Hm) as AP.
  induction 1 as [|c l HF HO IH]; intros r Hr; [destruct Hr|]. cbn [drop].
  rewrite Forall_forall in HF.
  destruct Hr as [->|Hr].
  - rewrite Z.eqb_refl, is_heap_refl. exists l. split; [reflexivity|]. split; [|split; [exact HO|reflexivity]].
    intros s. split.
    + intros X. split; [right; exact X|]. intros ->. pose proof (HF r X) as Y. unfold apart in Y. lia.
    + intros [[->|X] Y]; [contradiction|exact X].
  - pose proof (HF r Hr) as Y. destruct (Z.eqb_spec (r_at c) (r_at r)) as [E|NE]; [unfold apart in Y; lia|].
    destruct (IH r Hr) as (l' & -> & IN & FO & LN). cbn [obind]. exists (c :: l'). split; [reflexivity|].
    split; [|split; [|cbn; lia]].
    + intros s. cbn [In]. rewrite IN. split; [|tauto].
      intros [->|[X1 X2]]; [|tauto]. split; [left; reflexivity|]. intros ->. apply NE. reflexivity.
    + constructor; [|exact FO]. apply Forall_forall. intros s X. apply HF. apply IN. exact X.
Qed.

Lemma delete_ok st A V b : inv m st A V -> In (norm_region m b) (live st) ->
  exists l', delete_block m st b = Ret (with_live st l') /\
    (forall s, In s l' <-> In s (live st) /\ s <> norm_region m b) /\
    ForallOrdPairs (fun r s => apart m (r_at r) (r_at s)) l' /\ S (length l') = length (live st).
Proof.
  intros I R. destruct (drop_ok (live st) (i_apart _ _ _ _ I) _ R) as (l' & D & X).
  unfold delete_block, free_region. cbn [norm_region r_at r_heap] in D. rewrite D. cbn [obind].
  exists l'. split; [reflexivity|exact X].
Qed.

Lemma inv_unpoint st A V i s v l' : inv m st A V -> idx i -> is_kind m st A i KNorm ->
  In (s, v) (specials st) -> (forall o, off m o -> V (i * SL + o) = v) ->
  (forall r, In r l' <-> In r (live st) /\ r <> norm_region m (get_block m st i)) ->
  ForallOrdPairs (fun r s => apart m (r_at r) (r_at s)) l' ->
  inv m (set_block m (with_live st l') i s) A V.
Proof.
  intros I Hi K S HV IN FO. destruct (i_spec _ _ _ _ I s v S) as (Hv & R & M).
  pose proof (region_bounds m st A V I s _ R eq_refl) as BB.
  pose proof (rz_range m Hm) as RZ. pose proof (slots_range (sc m)) as SLR.
  destruct K as (Ai & Rn & NS & ND & U).
  set (st' := set_block m (with_live st l') i s).
  assert (Gi : get_block m st' i = s) by (unfold st'; rewrite get_set by lia; rewrite Z.eqb_refl; reflexivity).
  assert (Gj : forall j, j <> i -> get_block m st' j = get_block m st j).
  { intros j Hj. unfold st'. rewrite get_set by lia. destruct (Z.eqb_spec j i); [contradiction|]. reflexivity. }
  assert (EL : live st' = l') by reflexivity. assert (ES : specials st' = specials st) by reflexivity.
  assert (ED : dblock st' = dblock st) by reflexivity. assert (EM : smem st' = smem st) by reflexivity.
  clearbody st'.
  assert (RO : forall b, In (ro_region m b) (live st) -> In (ro_region m b) l').
  { intros b X. apply IN. split; [exact X|discriminate]. }
  constructor; rewrite ?EL, ?ES, ?ED, ?EM.
  - intros r X. apply (i_live _ _ _ _ I). apply IN. exact X.
  - exact FO.
  - intros b w X. destruct (i_spec _ _ _ _ I b w X) as (X1 & X2 & X3). auto.
  - exact (i_nodup _ _ _ _ I).
  - intros T. destruct (i_def _ _ _ _ I T) as (X1 & X2 & X3). auto.
  - exact (i_touch _ _ _ _ I).
  - intros j Hj. destruct (Z.eq_dec j i) as [->|Hne].
    + right; left. split; [exact Ai|]. rewrite Gi. exists v. exact S.
    + rewrite (Gj j Hne). destruct (i_blk _ _ _ _ I j Hj) as [X|[X|(Aj & X & Uj)]]; [left; exact X|right; left; exact X|].
      right; right. split; [exact Aj|]. split.
      * apply IN. split; [exact X|]. intros E. injection E as E. apply (U j Hj Hne). lia.
      * intros k Hk Hkj. destruct (Z.eq_dec k i) as [->|Hki]; [|rewrite (Gj k Hki); exact (Uj k Hk Hkj)].
        rewrite Gi. exact (ro_not_norm m Hm st A V I _ _ R X).
  - intros r X. apply IN in X. destruct X as [X1 X2].
    destruct (i_own _ _ _ _ I r X1) as [Y|[Y|(j & Hj & Y)]]; [left; exact Y|right; left; exact Y|].
    right; right. exists j. split; [exact Hj|]. destruct (Z.eq_dec j i) as [->|Hne]; [contradiction|].
    rewrite (Gj j Hne). exact Y.
  - intros j o Hj Ho. destruct (Z.eq_dec j i) as [->|Hne].
    + rewrite Gi, (M o Ho). symmetry. apply HV. exact Ho.
    + rewrite (Gj j Hne). apply (i_val _ _ _ _ I); assumption.
  - intros F r a X. apply (i_red _ _ _ _ I F). apply IN. exact X.
Qed.

Lemma all_default_ok k : forall f a v, all_default k f a v = true <-> forall c, a <= c < a + Z.of_nat k -> f c = v.
Proof.
  induction k as [|k IH]; intros f a v; cbn [all_default].
  - split; [intros _ c; lia|reflexivity].
  - destruct (Z.eqb_spec (f a) v) as [E|E].
    + rewrite IH. split.
      * intros H c X. destruct (Z.eq_dec c a) as [->|]; [exact E|apply H; lia].
      * intros H c X. apply H. lia.
    + split; [discriminate|]. intros H. exfalso. apply E. apply H. lia.
Qed.

(** A private block all of whose values are the default. *)
Definition plain (st : ustate) (A : Z -> Prop) (V : Z -> Z) (i : Z) : Prop :=
  is_kind m st A i KNorm /\ forall o, off m o -> V (i * SL + o) = dflt m.

Lemma in_normal_iff st A V i : inv m st A V -> idx i ->
  is_in_normal m st (get_block m st i) = true <-> is_kind m st A i KNorm.
Proof.
  intros I Hi. pose proof (rz_range m Hm) as RZ. pose proof (slots_range (sc m)) as SLR.
  assert (NR : near m (get_block m st i) (get_block m st i)) by (unfold near; lia).
  destruct (kind_of m Hm st A V I i Hi) as [k K].
  pose proof (kind_tests m Hm st A V I i k _ Hi K NR) as KT. unfold is_in_normal.
  destruct k as [|w|].
  - destruct KT as (-> & ->). split; [discriminate|]. intros (X & _). destruct K as (N & _). contradiction.
  - destruct KT as (-> & w' & -> & S). split; [discriminate|]. intros (_ & X & _). exfalso.
    destruct K as (_ & _ & R & _). exact (kinds_differ m Hm st A V _ I (conj R X)).
  - destruct KT as (-> & ->). split; [intros _; exact K|reflexivity].
Qed.

Lemma lookup_some v l b : In (b, v) l -> exists c, lookup v l = Some c.
Proof.
  induction l as [|(c, w) l IH]; intros H; [destruct H|]. cbn [lookup].
  destruct (Z.eqb_spec w v); [eauto|]. destruct H as [X|X]; [injection X as -> ->; contradiction|auto].
Qed.

Lemma clear_loop_ok n : forall i st A V count, inv m st A V -> on_touch m = true ->
  0 <= i -> i + Z.of_nat n <= 65536 ->
  holds m (clear_loop n i m st count) (fun r => inv m (fst r) A V /\
    exists l, snd r = count + Z.of_nat (length l) /\ NoDup l /\
      Z.of_nat (length (live (fst r))) + Z.of_nat (length l) = Z.of_nat (length (live st)) /\
      specials (fst r) = specials st /\
      (forall j, In j l <-> i <= j < i + Z.of_nat n /\ plain st A V j) /\
      (forall j, In j l -> exists s, In (s, dflt m) (specials st) /\ get_block m (fst r) j = s) /\
      (forall j, ~ In j l -> get_block m (fst r) j = get_block m st j) /\
      forall j, i <= j < i + Z.of_nat n -> ~ plain (fst r) A V j).
Proof.
  induction n as [|n IH]; intros i st A V count I T Hi0 Hin; cbn [clear_loop].
  - cbn [holds fst snd]. split; [exact I|]. exists []. cbn [length In]. split; [lia|]. split; [constructor|].
    split; [lia|]. split; [reflexivity|]. split; [intros j; split; [intros []|intros [X _]; lia]|].
    split; [intros j []|]. split; [reflexivity|intros; lia].
  - assert (Hi : idx i) by (unfold idx; lia).
    assert (SKIP : ~ plain st A V i ->
      holds m (clear_loop n (i + 1) m st count) (fun r => inv m (fst r) A V /\
        exists l, snd r = count + Z.of_nat (length l) /\ NoDup l /\
          Z.of_nat (length (live (fst r))) + Z.of_nat (length l) = Z.of_nat (length (live st)) /\
          specials (fst r) = specials st /\
          (forall j, In j l <-> i <= j < i + Z.of_nat (S n) /\ plain st A V j) /\
          (forall j, In j l -> exists s, In (s, dflt m) (specials st) /\ get_block m (fst r) j = s) /\
          (forall j, ~ In j l -> get_block m (fst r) j = get_block m st j) /\
          forall j, i <= j < i + Z.of_nat (S n) -> ~ plain (fst r) A V j)).
    { intros NP. eapply holds_mono; [apply (IH (i + 1) st A V count I T); lia|].
      intros r (I' & l & E1 & E2 & E3 & E4 & E5 & E6 & E7 & E8). split; [exact I'|]. exists l.
      do 4 (split; [assumption|]). split; [|split; [exact E6|split; [exact E7|]]].
      - intros j. rewrite E5. split; [intros [X Y]; split; [lia|exact Y]|].
        intros [X Y]. split; [|exact Y]. destruct (Z.eq_dec j i) as [->|]; [contradiction|lia].
      - intros j X. destruct (Z.eq_dec j i) as [->|]; [|apply E8; lia].
        intros (P1 & P2). apply NP. split; [|exact P2].
        assert (NI : ~ In i l) by (rewrite E5; intros [Y _]; lia).
        pose proof (E7 i NI) as GE.
        destruct P1 as (Ai & Rn & _). apply (knorm_of m Hm st A V i I Hi Ai).
        destruct (i_blk _ _ _ _ I i Hi) as [(NA & _)|[(_ & w & X2)|(_ & X2 & _)]]; [contradiction| |exact X2].
        exfalso. rewrite GE in Rn. rewrite <- E4 in X2.
        destruct (i_spec _ _ _ _ I' _ _ X2) as (_ & X3 & _).
        exact (ro_not_norm m Hm _ A V I' _ _ X3 Rn eq_refl). }
    destruct (is_in_normal m st (get_block m st i)) eqn:NB; cbn [negb].
    2:{ apply SKIP. intros (K & _). apply (in_normal_iff st A V i I Hi) in K. congruence. }
    apply (in_normal_iff st A V i I Hi) in NB. rewrite slots_bs.
    pose proof (slots_range (sc m)) as SLR.
    assert (C : can m st false (get_block m st i) SL = true).
    { replace (get_block m st i) with (get_block m st i + 0) by lia.
      apply (can_read m Hm st A V I); [exact Hi|lia..]. }
    rewrite C. cbn [negb]. pose proof (mo_dflt m Hm) as DR. rewrite (Z.mod_small (dflt m) 256) by lia.
    assert (AD : all_default (Z.to_nat SL) (smem st) (get_block m st i) (dflt m) = true <->
                 forall o, off m o -> V (i * SL + o) = dflt m).
    { rewrite all_default_ok. split.
      - intros H o Ho. rewrite <- (i_val _ _ _ _ I i o Hi Ho). apply H. unfold off in Ho. lia.
      - intros H c X. replace c with (get_block m st i + (c - get_block m st i)) by lia.
        rewrite (i_val _ _ _ _ I) by (assumption || (unfold off; lia)). apply H. unfold off. lia. }
    destruct (all_default _ _ _ _) eqn:E; cbn [negb].
    2:{ apply SKIP. intros (_ & X). apply AD in X. discriminate X. }
    pose proof (proj1 AD eq_refl) as HV. clear AD SKIP.
    destruct (i_touch _ _ _ _ I T) as (_ & b0 & X). destruct (lookup_some _ _ _ X) as (s & LK). rewrite LK.
    apply lookup_in in LK. pose proof NB as (Ai & Rn & _).
    destruct (delete_ok st A V _ I Rn) as (l' & -> & IN & FO & LN). cbn [obind].
    set (st1 := set_block m (with_live st l') i s).
    pose proof (inv_unpoint st A V i s (dflt m) l' I Hi NB LK HV IN FO) as I1. fold st1 in I1.
    destruct (i_spec _ _ _ _ I s _ LK) as (_ & Rs & _).
    pose proof (region_bounds m st A V I s _ Rs eq_refl) as BB. pose proof (rz_range m Hm) as RZ.
    assert (Gi : get_block m st1 i = s) by (unfold st1; rewrite get_set by lia; rewrite Z.eqb_refl; reflexivity).
    assert (Gj : forall j, j <> i -> get_block m st1 j = get_block m st j).
    { intros j Hj. unfold st1. rewrite get_set by lia. destruct (Z.eqb_spec j i); [contradiction|]. reflexivity. }
    assert (PJ : forall j, idx j -> j <> i -> plain st1 A V j <-> plain st A V j).
    { intros j Hj Hne. unfold plain. split; intros ((Aj & Rj & _) & Y); (split; [|exact Y]).
      - apply (knorm_of m Hm st A V j I Hj Aj). rewrite Gj in Rj by exact Hne. apply IN. exact Rj.
      - apply (knorm_of m Hm st1 A V j I1 Hj Aj). rewrite Gj by exact Hne.
        apply IN. split; [exact Rj|]. intros Q. injection Q as Q.
        destruct NB as (_ & _ & _ & _ & U). apply (U j Hj Hne). lia. }
    eapply holds_mono; [apply (IH (i + 1) st1 A V (count + 1) I1 T); lia|].
    intros r (I' & l & E1 & E2 & E3 & E4 & E5 & E6 & E7 & E8). split; [exact I'|]. exists (i :: l).
    assert (NI : ~ In i l) by (rewrite E5; intros [Y _]; lia).
    change (live st1) with l' in E3. change (specials st1) with (specials st) in E4.
    split; [rewrite E1; cbn [length]; lia|]. split; [constructor; assumption|].
    split; [cbn [length]; lia|]. split; [exact E4|].
    split; [|split; [|split]].
    + intros j. cbn [In]. rewrite E5. split.
      * intros [<-|[Y1 Y2]]; [split; [lia|split; assumption]|]. split; [lia|]. apply PJ; [unfold idx; lia|lia|exact Y2].
      * intros [Y1 Y2]. destruct (Z.eq_dec j i) as [->|]; [left; reflexivity|]. right. split; [lia|].
        apply PJ; [unfold idx; lia|assumption|exact Y2].
    + intros j [<-|Y]; [|apply E6; exact Y]. exists s. split; [exact LK|]. rewrite (E7 i NI). exact Gi.
    + intros j Y. rewrite (E7 j) by (intros Q; apply Y; right; exact Q). apply Gj. intros ->. apply Y. left. reflexivity.
    + intros j Y. destruct (Z.eq_dec j i) as [->|]; [|apply E8; lia].
      intros ((_ & Rj & _) & _). rewrite (E7 i NI), Gi in Rj.
      assert (Rs' : In (ro_region m s) (live (fst r))).
      { rewrite <- E4 in LK. apply (i_spec _ _ _ _ I' s _ LK). }
      exact (ro_not_norm m Hm _ A V I' _ _ Rs' Rj eq_refl).
Qed.

(** * What memory shows *)
Lemma base_eq st A V i : inv m st A V -> idx i -> base m st i = get_block m st i.
Proof.
  intros I Hi. unfold base. unfold idx in Hi. rewrite (xl_eq m Hm st A V I) by lia.
  rewrite Z.div_mul, Z.mod_mul, slot_0 by lia. lia.
Qed.

Lemma x86_eq st x : 0 <= x < 2 ^ 32 ->
  w32 (to_shadow (sc m) x + table st (table_index x)) = app_to_shadow m st x.
Proof.
  intros Hx. unfold app_to_shadow, get_block. rewrite offset_slot, index_div.
  assert (Hi : 0 <= x / 65536 < 65536) by (split; [apply Z.div_pos; lia|apply Z.div_lt_upper_bound; lia]).
  rewrite app_base_mul by exact Hi. rewrite w32_add_l.
  rewrite <- w32_add_l, to_shadow_mod, w32_add_l by exact Hx.
  transitivity (w32 (w32 (to_shadow (sc m) (x / 65536 * 65536)) + (table st (x / 65536) + slot (sc m) (x mod 65536)))).
  - rewrite to_shadow_mod by lia. rewrite w32_add_l. f_equal.
    rewrite (slot_dm m x) by lia. rewrite (proj1 (slot_ends m (x / 65536))). ring.
  - rewrite w32_add_l. f_equal. ring.
Qed.

Lemma land_4 p : 0 <= p < 2 ^ 32 -> Z.land p (2 ^ 32 - 1 - 3) = p / 4 * 4.
Proof.
  intros H. change (2 ^ 32 - 1 - 3) with (Z.ldiff (2 ^ 32 - 1) (Z.ones 2)).
  rewrite Z.ldiff_land, Z.land_assoc.
  change (2 ^ 32 - 1) with (Z.ones 32). rewrite Z.land_ones by lia. rewrite Z.mod_small by lia.
  rewrite <- Z.ldiff_land, Z.ldiff_ones_r by lia.
  rewrite Z.shiftl_mul_pow2, Z.shiftr_div_pow2 by lia. reflexivity.
Qed.

Lemma inv_shows st A V : inv m st A V -> shows m st A V.
Proof.
  intros I. pose proof (slots_range (sc m)) as SLR. pose proof (rz_range m Hm) as RZ. constructor.
  - intros x Hx j Hj. destruct (xl_off m Hm st A V x I Hx) as (Hi & Ho & E). rewrite E.
    rewrite <- Z.add_assoc.
    pose proof (slot_small (sc m) (x mod 65536) (Z.mod_pos_bound x 65536 eq_refl)) as SS.
    rewrite (i_val _ _ _ _ I) by (assumption || (unfold off in *; remember (slot (sc m) (x mod 65536)) as o; slia)).
    f_equal. rewrite (slot_dm m x) by lia. ring.
  - intros x Hx. rewrite <- x86_eq by exact Hx. unfold inline_x86, to_shadow, table_index. reflexivity.
  - intros x tbl Hx T0 T1 T4. rewrite <- x86_eq by exact Hx. unfold inline_arm, to_shadow.
    assert (E : (Z.land (w32 (tbl + Z.shiftr x 14)) (2 ^ 32 - 1 - 3) - tbl) / 4 = table_index x).
    { rewrite index_div, Z.shiftr_div_pow2 by lia. change (2 ^ 14) with 16384.
      assert (X1 : 0 <= x / 16384 < 262144) by (split; [apply Z.div_pos; lia|apply Z.div_lt_upper_bound; lia]).
      rewrite w32_small by lia. rewrite land_4 by lia.
      apply Z.div_exact in T4; [|lia]. set (t := tbl / 4) in *. clearbody t. subst tbl.
      replace (4 * t + x / 16384) with (x / 16384 + t * 4) by lia. rewrite Z.div_add by lia.
      replace ((x / 16384 / 4 + t) * 4 - 4 * t) with (x / 16384 / 4 * 4) by ring. rewrite Z.div_mul by lia.
      rewrite Z.div_div by lia. reflexivity. }
    rewrite E. destruct (sc m); cbn [is_down is_up]; f_equal; ring.
  - intros x Hx. cbv zeta. destruct (xl_off m Hm st A V x I Hx) as (Hi & _ & _).
    unfold get_shadow, use_default, use_special. rewrite align_sub by exact Hx.
    change (app_to_shadow m st (x / 65536 * 65536)) with (base m st (x / 65536)).
    rewrite slots_bs. change APP_BLOCK_SIZE with 65536.
    rewrite (base_eq st A V _ I Hi).
    destruct (kind_eq m Hm st A V x I Hx) as ([|w|] & K & KT).
    + destruct KT as (-> & _). exists NotAlloc. split; [reflexivity|]. destruct K as (NA & _ & _ & R & _).
      split; [exact NA|]. eexists. split; [exact R|]. cbn. split; [ring|reflexivity].
    + destruct KT as (-> & w' & -> & _). exists Shared. split; [reflexivity|]. destruct K as (Ax & _ & R & _).
      split; [exact Ax|]. eexists. split; [exact R|]. cbn. split; [ring|reflexivity].
    + destruct KT as (-> & ->). exists Normal. split; [reflexivity|]. destruct K as (Ax & R & _ & _ & U).
      split; [exact Ax|]. split; [eexists; split; [exact R|]; cbn; split; [ring|reflexivity]|].
      intros j Hj Hne. rewrite (base_eq st A V j I Hj). apply U; assumption.
  - intros i j Hi Hj. rewrite (base_eq st A V i I Hi), (base_eq st A V j I Hj). intros NE.
    assert (R : forall i, idx i -> exists r, In r (live st) /\ r_at r = get_block m st i - rz m).
    { intros k Hk. destruct (kind_of m Hm st A V I k Hk) as [[|w|] K]; cbn in K.
      - destruct K as (_ & _ & _ & R & _). eexists. split; [exact R|reflexivity].
      - destruct K as (_ & _ & R & _). eexists. split; [exact R|reflexivity].
      - destruct K as (_ & R & _). eexists. split; [exact R|reflexivity]. }
    destruct (R i Hi) as (r & R1 & R2). destruct (R j Hj) as (s & S1 & S2).
    destruct (two_regions m st A V I r s R1 S1) as [->|X]; [lia|].
    unfold apart in X. rewrite asz_eq in X. lia.
Qed.

Lemma inv_redzones st A V : inv m st A V -> redzones m st.
Proof.
  intros I i Hi. cbv zeta. rewrite (base_eq st A V i I Hi).
  assert (X : exists r, In r (live st) /\ r_at r = get_block m st i - rz m /\
    (faulty m = true -> r_red r = match r_body r with ReadWrite => NoAccess | _ => ReadOnly end)).
  { destruct (kind_of m Hm st A V I i Hi) as [[|w|] K]; cbn in K.
    - destruct K as (_ & _ & _ & R & _). eexists. split; [exact R|]. split; [reflexivity|]. reflexivity.
    - destruct K as (_ & _ & R & _). eexists. split; [exact R|]. split; [reflexivity|]. reflexivity.
    - destruct K as (_ & R & _). eexists. split; [exact R|]. split; [reflexivity|]. intros F. cbn. rewrite F. reflexivity. }
  destruct X as (r & R1 & R2 & R3). exists r. split; [exact R1|]. split; [lia|]. split; [exact R3|].
  intros F a Ha. apply (i_red _ _ _ _ I F r a R1). rewrite R2, asz_eq. lia.
Qed.

(** * Histories *)
Lemma replace_step st A V x : inv m st A V -> 0 <= x < 2 ^ 32 ->
  holds m (replace_shared m st x) (fun r =>
    inv m (fst r) (fun j => A j \/ j = x / 65536) V /\
    is_kind m (fst r) (fun j => A j \/ j = x / 65536) (x / 65536) KNorm /\ snd r = app_to_shadow m (fst r) x).
Proof.
  intros I Hx. unfold replace_shared. eapply holds_bind; [exact (replace_ok m Hm st A V x I Hx)|].
  intros st' (I' & K' & _). cbn [holds fst snd]. auto.
Qed.

Lemma do_op_ok st A V op : inv m st A V -> op_ok m op ->
  holds m (do_op m st op) (fun r => let '(st', s, a) := r in
    exists A' V', step m A V op (s, a) A' V' /\ inv m st' A' V').
Proof.
  intros I OK. destruct op as [sh x n v|x n|x n v|x n l|x n|s d n|x n v|x|v|]; cbn [do_op op_ok] in *.
  - destruct OK as [R Hv]. unfold umbra_create. rewrite (proj2 (Z.eqb_neq n 0)) by (destruct R; lia).
    eapply holds_bind; [exact (create_ok m Hm st A V sh x n v I R Hv)|].
    intros (st', s) (E & A' & V' & I' & U & HA). cbn [fst snd] in *. subst s. cbn [holds].
    exists A', V'. split; [|exact I']. split; [reflexivity|]. split; assumption.
  - unfold umbra_delete, delete. rewrite (proj2 (Z.eqb_neq n 0)) by (destruct OK; lia).
    eapply holds_bind with (P := fun r => exists y V', reach A x n y /\ ok_iff (snd r) (y = x + n) /\
      inv m (fst r) A V' /\ updated (sc m) V V' x y (fun _ => dflt m)).
    + eapply holds_bind; [exact (set_range_ok m Hm st A V x n (dflt m) I OK (mo_dflt m Hm))|].
      intros ((st', e), q) (y & V' & H1 & H2 & H3 & H4 & _). cbn [holds fst snd]. exists y, V'. auto.
    + intros (st', e) (y & V' & H1 & H2 & H3 & H4). cbn [holds fst snd] in *. exists A, V'.
      split; [|exact H3]. exists y. split; [exact H1|]. split; [exact H2|]. split; [reflexivity|]. split; [exact H4|tauto].
  - destruct OK as (R & HT & Hv). unfold umbra_set_range. rewrite w32_small by (destruct R; lia).
    rewrite (proj2 (Z.ltb_ge (x + n) x)) by (destruct R; lia).
    rewrite (proj2 (Z.eqb_neq n 0)) by (destruct R; lia).
    eapply holds_bind; [exact (set_range_ok m Hm st A V x n v I R Hv)|].
    intros ((st', e), q) (y & V' & H1 & H2 & H3 & H4 & _ & H5). cbn [holds fst snd]. exists A, V'.
    split; [|exact H3]. exists y. split; [exact H1|]. split; [exact H2|].
    split; [exists q; split; [reflexivity|exact H5]|]. split; [exact H4|tauto].
  - destruct OK as (R & HL & Hv). unfold umbra_write. rewrite (proj2 (Z.eqb_neq n 0)) by (destruct R; lia).
    assert (ET : Z.of_nat (length l) = slot (sc m) (x + n) - slot (sc m) x).
    { rewrite HL. fold (slot (sc m) n). rewrite slot_whole_add by (destruct R; assumption). ring. }
    eapply holds_bind.
    + refine (write_ok m Hm st A V x n (Bytes l) (fun i => nth (Z.to_nat i) l 0) _ I R ET _).
      cbn [src]. split; [lia|reflexivity].
    + intros ((st', e), q) (y & V' & H1 & H2 & H3 & H4 & _ & H5). cbn [holds fst snd]. exists A, V'.
      split; [|exact H3]. exists y. split; [exact H1|]. split; [exact H2|].
      split; [exists (Some q); split; [reflexivity|intros X; rewrite (H5 X), ET; reflexivity]|]. split; [exact H4|tauto].
  - unfold umbra_read. rewrite (proj2 (Z.eqb_neq n 0)) by (destruct OK; lia).
    eapply holds_bind; [exact (read_ok m Hm st A V x n I OK)|].
    intros (s, l) (e & H1 & H2 & H3 & H4). cbn [holds fst snd] in *. exists A, V. split; [|exact I].
    exists e, l. split; [exact H1|]. split; [exact H2|]. split; [reflexivity|]. split; [exact H3|]. split; [exact H4|].
    split; [intros k; reflexivity|tauto].
  - destruct OK as (Rs & Rd & NE & NO & N1). unfold umbra_copy_range.
    rewrite (proj2 (Z.eqb_neq n 0)) by (destruct Rs; lia). rewrite (proj2 (Z.eqb_neq s d)) by exact NE. cbn [orb].
    eapply holds_bind; [exact (copy_ok m Hm st A V s d n I Rs Rd NE NO N1)|].
    intros ((st', e), q) (es & ed & p & V' & H1 & H2 & H3 & H4 & H5 & H6 & H7). cbn [holds fst snd]. exists A, V'.
    split; [|exact H5]. exists es, ed, p. split; [exact H1|]. split; [exact H2|]. split; [exact H3|]. split; [exact H4|].
    split; [exists (Some q); split; [reflexivity|intros X; rewrite (H7 X); reflexivity]|]. split; [exact H6|tauto].
  - destruct OK as [R Hv]. unfold umbra_value_in. rewrite (proj2 (Z.eqb_neq n 0)) by (destruct R; lia).
    eapply holds_bind; [exact (value_in_ok m Hm st A V x n v I R Hv)|].
    intros (s, f) (e & H1 & H2). cbn [holds fst snd] in *. exists A, V. split; [|exact I].
    exists e, f. split; [exact H1|]. split; [reflexivity|]. split; [exact H2|].
    split; [intros k; reflexivity|tauto].
  - eapply holds_bind; [exact (replace_step st A V x I OK)|].
    intros (st', a) (I' & _). cbn [holds fst snd] in *. eexists _, V. split; [|exact I'].
    split; [reflexivity|]. split; [intros k; reflexivity|tauto].
  - unfold create_shared. eapply holds_bind with (P := fun r => inv m (fst (fst r)) A V /\
        (snd (fst r) = S_ok \/ snd (fst r) = S_nomem)).
    + eapply holds_bind; [exact (create_special_ok m Hm st A V v I OK)|].
      intros (st', [b|]) (I' & _); cbn [holds fst snd]; auto.
    + intros ((st', s), o) [I' E]. cbn [holds fst snd] in *. exists A, V. split; [|exact I'].
      split; [exact E|]. split; [intros k; reflexivity|tauto].
  - unfold clear_redundant. destruct (on_touch m) eqn:T; cbn [negb].
    + eapply holds_bind with (P := fun r => inv m (fst (fst r)) A V /\ snd (fst r) = S_ok).
      * eapply holds_bind; [apply (clear_loop_ok (Z.to_nat ENTRIES) 0 st A V 0 I T); [lia|]|].
        { rewrite Z2Nat.id; vm_compute; congruence. }
        intros (st', c) (I' & _). cbn [holds fst snd] in *. auto.
      * intros ((st', s), c) [I' E]. cbn [holds fst snd] in *. exists A, V. split; [|exact I'].
        split; [cbn; rewrite T; exact E|]. split; [intros k; reflexivity|tauto].
    + cbn [holds obind fst snd]. exists A, V. split; [|exact I]. split; [cbn; rewrite T; reflexivity|].
      split; [intros k; reflexivity|tauto].
Qed.

Lemma do_ops_ok ops : forall st A V, inv m st A V -> Forall (op_ok m) ops ->
  holds m (do_ops m st ops) (fun r => exists A' V', history m A V ops (snd r) A' V' /\ inv m (fst r) A' V').
Proof.
  induction ops as [|op ops IH]; intros st A V I F; cbn [do_ops].
  - cbn [holds fst snd]. exists A, V. split; [constructor|exact I].
  - inversion F as [|? ? F1 F2]. subst.
    eapply holds_bind; [exact (do_op_ok st A V op I F1)|].
    intros ((st1, s), a) (A1 & V1 & S1 & I1).
    eapply holds_bind; [exact (IH st1 A1 V1 I1 F2)|].
    intros (st2, outs) (A2 & V2 & H2 & I2). cbn [holds fst snd] in *. exists A2, V2.
    split; [econstructor; eassumption|exact I2].
Qed.

(** Every state reached from the start of a map. *)
Lemma reached_ok f ops : Forall (op_ok m) ops ->
  holds m (let! r := map_init m f in do_ops m (fst r) ops) (fun r =>
    exists A V, history m (A0 m) (V0 m) ops (snd r) A V /\ inv m (fst r) A V).
Proof.
  intros F. eapply holds_bind; [exact (init_ok m Hm f)|].
  intros (st, s) [_ I]. exact (do_ops_ok ops st _ _ I F).
Qed.

End More.
