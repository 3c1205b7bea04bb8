(** Replacing a shared block, special blocks, starting a map. *)
From Verif Require Import Base Umbra32_Model Umbra32_Spec Umbra32_Proofs Umbra32_Proofs2.
Open Scope Z_scope.

Section Steps.
Variable m : umap.
Hypothesis Hm : map_ok m.

Lemma inv_ext st (A A' : Z -> Prop) (V V' : Z -> Z) :
  (forall b, idx b -> (A b <-> A' b)) -> (forall k, V k = V' k) -> inv m st A V -> inv m st A' V'.
Proof.
  intros HA HV I. constructor; try (destruct I; assumption).
  - intros i Hi. destruct (i_blk _ _ _ _ I i Hi) as [(N & X)|[(Ai & X)|(Ai & X)]].
    + left. split; [|exact X]. rewrite <- (HA i Hi). exact N.
    + right; left. split; [|exact X]. apply HA; assumption.
    + right; right. split; [|exact X]. apply HA; assumption.
  - intros i o Hi Ho. rewrite <- HV. apply (i_val _ _ _ _ I); assumption.
Qed.
Lemma kind_ext st (A A' : Z -> Prop) i k : (A i <-> A' i) -> is_kind m st A i k -> is_kind m st A' i k.
Proof. intros H. destruct k; cbn; tauto. Qed.

(** The values of a special block. *)
Lemma special_values st A V i v : inv m st A V -> idx i -> In (get_block m st i, v) (specials st) ->
  forall o, off m o -> V (i * SLOTS (sc m) + o) = v.
Proof.
  intros I Hi S o Ho. rewrite <- (i_val _ _ _ _ I i o Hi Ho).
  apply (i_spec _ _ _ _ I _ _ S). exact Ho.
Qed.
Lemma default_values st A V i : inv m st A V -> idx i -> is_kind m st A i KDef ->
  forall o, off m o -> V (i * SLOTS (sc m) + o) = dflt m.
Proof.
  intros I Hi (_ & T & E & _) o Ho. rewrite <- (i_val _ _ _ _ I i o Hi Ho), E.
  apply (i_def _ _ _ _ I T). exact Ho.
Qed.

Lemma apart_ext r a x : apart m a (r_at r) -> ext m r x -> ~ (a <= x < a + alloc_size m).
Proof. unfold apart, ext. lia. Qed.

(** Blocks that are private stay so and where they are. *)
Lemma knorm_of st A V j : inv m st A V -> idx j -> A j -> In (norm_region m (get_block m st j)) (live st) ->
  is_kind m st A j KNorm.
Proof.
  intros I Hj Aj R. destruct (kind_of m Hm st A V I j Hj) as [[|w|] K]; [| |exact K]; cbn in K; exfalso.
  - destruct K as (N & _). exact (N Aj).
  - destruct K as (_ & _ & R' & _). exact (ro_not_norm m Hm st A V I _ _ R' R eq_refl).
Qed.
Definition keeps (st st' : ustate) : Prop :=
  dblock st' = dblock st /\ (forall x, In x (specials st) -> In x (specials st')) /\
  forall j, In (norm_region m (get_block m st j)) (live st) ->
    idx j -> get_block m st' j = get_block m st j /\ In (norm_region m (get_block m st' j)) (live st').
Lemma keeps_refl st : keeps st st.
Proof. unfold keeps. auto. Qed.
Lemma keeps_trans a b c : keeps a b -> keeps b c -> keeps a c.
Proof.
  intros (D1 & S1 & H1) (D2 & S2 & H2). split; [congruence|]. split; [auto|].
  intros j R Hj. destruct (H1 j R Hj) as [E R']. destruct (H2 j R' Hj) as [E2 R2]. split; [congruence|exact R2].
Qed.

(** A new private block for [i]. *)
Lemma inv_fresh st A V i v st2 b :
  inv m st A V -> idx i -> (forall k, is_kind m st A i k -> k <> KNorm) -> 0 <= v <= 255 ->
  (forall o, off m o -> V (i * SLOTS (sc m) + o) = v) ->
  table st2 = table st -> specials st2 = specials st -> dblock st2 = dblock st ->
  live st2 = norm_region m b :: live st ->
  SLOTS (sc m) <= b - rz m -> b - rz m + alloc_size m < 2 ^ 32 ->
  (forall r, In r (live st) -> apart m (b - rz m) (r_at r)) ->
  (forall x, ~ (b - rz m <= x < b - rz m + alloc_size m) -> smem st2 x = smem st x) ->
  (forall o, off m o -> smem st2 (b + o) = v) ->
  (faulty m = false -> forall x, b - rz m <= x < b \/ b + SLOTS (sc m) <= x < b - rz m + alloc_size m ->
       smem st2 x = o_rzv m) ->
  let st3 := set_block m st2 i b in
  let A' := fun j => A j \/ j = i in
  inv m st3 A' V /\ is_kind m st3 A' i KNorm /\ specials st3 = specials st /\ dblock st3 = dblock st /\
  get_block m st3 i = b /\ (forall j, j <> i -> get_block m st3 j = get_block m st j) /\
  live st3 = norm_region m b :: live st.
Proof.
  intros I Hi NK Hv HV T S D L B1 B2 AP M1 M2 M3 st3 A'.
  pose proof (rz_range m Hm) as RZ. pose proof (slots_range (sc m)) as SL. pose proof (asz_eq m) as AZ.
  assert (Gi : get_block m st3 i = b) by (unfold st3; rewrite get_set by lia; rewrite Z.eqb_refl; reflexivity).
  assert (Gj : forall j, j <> i -> get_block m st3 j = get_block m st j).
  { intros j Hj. unfold st3. rewrite get_set by lia. destruct (Z.eqb_spec j i); [contradiction|].
    unfold get_block. rewrite T. reflexivity. }
  assert (old : forall r x, In r (live st) -> ext m r x -> smem st2 x = smem st x).
  { intros r x Hr Hx. apply M1. exact (apart_ext r _ _ (AP r Hr) Hx). }
  assert (bn : forall r c, In r (live st) -> r_at r = c - rz m -> c <> b).
  { intros r c Hr Er ->. specialize (AP r Hr). unfold apart in AP. pose proof (asz_pos m Hm). lia. }
  assert (blk_old : forall j, idx j -> exists r, In r (live st) /\ r_at r = get_block m st j - rz m).
  { intros j Hj. destruct (kind_of m Hm st A V I j Hj) as [[|w|] K]; cbn in K.
    - destruct K as (_ & _ & _ & R & _). eexists. split; [exact R|reflexivity].
    - destruct K as (_ & _ & R & _). eexists. split; [exact R|reflexivity].
    - destruct K as (_ & R & _). eexists. split; [exact R|reflexivity]. }
  assert (I3 : inv m st3 A' V).
  { constructor.
    - change (live st3) with (live st2). rewrite L. intros r [<-|Hr]; [unfold norm_region; cbn [r_at]; lia|].
      exact (i_live _ _ _ _ I r Hr).
    - change (live st3) with (live st2). rewrite L. constructor; [|exact (i_apart _ _ _ _ I)].
      apply Forall_forall. intros r Hr. unfold norm_region at 1. cbn [r_at]. exact (AP r Hr).
    - change (live st3) with (live st2). change (specials st3) with (specials st2). change (smem st3) with (smem st2).
      rewrite S, L. intros c w Hc. destruct (i_spec _ _ _ _ I c w Hc) as (W & R & M).
      split; [exact W|]. split; [right; exact R|]. intros o Ho. rewrite <- (M o Ho).
      apply (old _ _ R). apply ext_body; [exact Hm|reflexivity|exact Ho].
    - change (specials st3) with (specials st2). rewrite S. exact (i_nodup _ _ _ _ I).
    - change (live st3) with (live st2). change (specials st3) with (specials st2). change (smem st3) with (smem st2).
      change (dblock st3) with (dblock st2). rewrite S, L, D. intros TT.
      destruct (i_def _ _ _ _ I TT) as (R & N & M). split; [right; exact R|]. split; [exact N|].
      intros o Ho. rewrite <- (M o Ho). apply (old _ _ R). apply ext_body; [exact Hm|reflexivity|exact Ho].
    - change (specials st3) with (specials st2). change (dblock st3) with (dblock st2). rewrite S, D.
      exact (i_touch _ _ _ _ I).
    - intros j Hj. change (live st3) with (live st2). change (specials st3) with (specials st2).
      change (dblock st3) with (dblock st2). rewrite S, L, D.
      destruct (Z.eq_dec j i) as [->|Hne].
      + right; right. split; [right; reflexivity|]. rewrite Gi. split; [left; reflexivity|].
        intros j Hj' Hne. rewrite (Gj j Hne). destruct (blk_old j Hj') as (r & R1 & R2). exact (bn r _ R1 R2).
      + rewrite (Gj j Hne). destruct (i_blk _ _ _ _ I j Hj) as [(N & X)|[(Aj & X)|(Aj & X & U)]].
        * left. split; [|exact X]. intros [Y|Y]; [exact (N Y)|exact (Hne Y)].
        * right; left. split; [left; exact Aj|exact X].
        * right; right. split; [left; exact Aj|]. split; [right; exact X|].
          intros k Hk Hkj. destruct (Z.eq_dec k i) as [->|Hki].
          { rewrite Gi. destruct (blk_old j Hj) as (r & R1 & R2). intros E. exact (bn r _ R1 R2 (eq_sym E)). }
          { rewrite (Gj k Hki). exact (U k Hk Hkj). }
    - change (live st3) with (live st2). change (specials st3) with (specials st2). change (dblock st3) with (dblock st2).
      rewrite S, L, D. intros r [<-|Hr].
      + right; right. exists i. split; [exact Hi|]. rewrite Gi. reflexivity.
      + destruct (i_own _ _ _ _ I r Hr) as [X|[X|(j & Hj & X)]]; [left; exact X|right; left; exact X|].
        right; right. exists j. split; [exact Hj|].
        destruct (Z.eq_dec j i) as [->|Hne]; [|rewrite (Gj j Hne); exact X].
        exfalso. destruct (kind_of m Hm st A V I i Hi) as [k K]. pose proof (NK k K) as NKk.
        destruct k as [|w|]; cbn in K; [| |exact (NKk eq_refl)].
        * destruct K as (_ & _ & _ & R & _). subst r. exact (ro_not_norm m Hm st A V I _ _ R Hr eq_refl).
        * destruct K as (_ & _ & R & _). subst r. exact (ro_not_norm m Hm st A V I _ _ R Hr eq_refl).
    - intros j o Hj Ho. change (smem st3) with (smem st2). destruct (Z.eq_dec j i) as [->|Hne].
      + rewrite Gi, (M2 o Ho). symmetry. exact (HV o Ho).
      + rewrite (Gj j Hne). rewrite <- (i_val _ _ _ _ I j o Hj Ho).
        destruct (blk_old j Hj) as (r & R1 & R2). apply (old r _ R1). apply ext_body; assumption.
    - intros F r a. change (live st3) with (live st2). change (smem st3) with (smem st2). rewrite L.
      intros [<-|Hr] Ha.
      + apply (M3 F). unfold norm_region in Ha. cbn [r_at] in Ha. lia.
      + rewrite (old r a Hr); [exact (i_red _ _ _ _ I F r a Hr Ha)|]. unfold ext. lia. }
  split; [exact I3|]. split; [|split; [exact S|split; [exact D|split; [exact Gi|split; [exact Gj|exact L]]]]].
  destruct (kind_of m Hm st3 A' V I3 i Hi) as [k K].
  assert (R : In (norm_region m (get_block m st3 i)) (live st3)).
  { rewrite Gi. change (live st3) with (live st2). rewrite L. left. reflexivity. }
  destruct k as [|w|]; [| |exact K]; cbn in K; exfalso.
  - destruct K as (_ & _ & _ & R' & _). exact (ro_not_norm m Hm st3 A' V I3 _ _ R' R eq_refl).
  - destruct K as (_ & _ & R' & _). exact (ro_not_norm m Hm st3 A' V I3 _ _ R' R eq_refl).
Qed.

Lemma kinds_differ st A V i : inv m st A V -> ~ (In (ro_region m (get_block m st i)) (live st) /\
  In (norm_region m (get_block m st i)) (live st)).
Proof. intros I (H1 & H2). exact (ro_not_norm m Hm st A V I _ _ H1 H2 eq_refl). Qed.

Lemma near_body b o : off m o -> near m b (b + o).
Proof. unfold off, near. pose proof (rz_range m Hm). lia. Qed.

Lemma xl_off st A V x : inv m st A V -> 0 <= x < 2 ^ 32 ->
  idx (x / 65536) /\ off m (slot (sc m) (x mod 65536)) /\
  app_to_shadow m st x = get_block m st (x / 65536) + slot (sc m) (x mod 65536).
Proof.
  intros I Hx. split; [unfold idx; split; [apply Z.div_pos; lia|apply Z.div_lt_upper_bound; lia]|].
  split; [|exact (xl_eq m Hm st A V I x Hx)].
  pose proof (slot_small (sc m) (x mod 65536) (Z.mod_pos_bound x 65536 eq_refl)).
  pose proof (numden (sc m)). unfold off. lia.
Qed.

(** The common part of [shadow_table_replace_block]. *)
Lemma fresh_ok st A V i v : inv m st A V -> idx i -> (forall k, is_kind m st A i k -> k <> KNorm) ->
  0 <= v <= 255 -> (forall o, off m o -> V (i * SLOTS (sc m) + o) = v) ->
  holds m (let! r := create_block m st in
           let '(st, b) := r in
           let! st := m_set m st b v (sh_bs m) in
           Ret (set_block m st i b))
    (fun st3 => let A' := fun j => A j \/ j = i in
       inv m st3 A' V /\ is_kind m st3 A' i KNorm /\ specials st3 = specials st /\
       (forall j, j <> i -> get_block m st3 j = get_block m st j) /\ keeps st st3).
Proof.
  intros I Hi NK Hv HV. eapply holds_bind; [exact (create_block_ok m Hm st)|].
  intros (st2, b) (T & S & D & L & B1 & B2 & AP & M1 & M2).
  pose proof (rz_range m Hm) as RZ. pose proof (slots_range (sc m)) as SL. pose proof (asz_eq m) as AZ.
  unfold m_set.
  assert (C : can m st2 true b (sh_bs m) = true).
  { apply (can_in m st2 true (norm_region m b)); [rewrite L; left; reflexivity|].
    rewrite slots_bs. apply (inside_body m Hm _ _ _ _ ReadWrite); [reflexivity|reflexivity|lia|..];
      unfold norm_region; cbn [r_at]; lia. }
  rewrite C. cbn [obind holds]. rewrite slots_bs.
  match goal with |- inv m (set_block m ?s i b) _ _ /\ _ => set (st2' := s) end.
  destruct (inv_fresh st A V i v st2' b I Hi NK Hv HV) as (J1 & J2 & J3 & J4 & J5 & J6 & J7);
    try assumption.
  - intros x X. unfold st2'. cbn [smem with_smem]. rewrite (proj2 (andb_false_iff _ _)) by lia. apply M1; lia.
  - intros o Ho. unfold st2', off in *. cbn [smem with_smem]. rewrite (proj2 (andb_true_iff _ _)) by lia.
    apply Z.mod_small. lia.
  - intros F x X. unfold st2'. cbn [smem with_smem]. rewrite (proj2 (andb_false_iff _ _)) by lia.
    apply (M2 F). lia.
  - do 4 (split; [assumption|]). split; [exact J4|]. split; [rewrite J3; auto|].
    intros j R Hj. assert (j <> i).
    { intros ->. destruct (i_blk _ _ _ _ I i Hi) as [(_ & T0 & E)|[(_ & w & X)|(Ai & _)]].
      - destruct (i_def _ _ _ _ I T0) as (Rd & _). rewrite <- E in Rd.
        exact (kinds_differ st A V _ I (conj Rd R)).
      - destruct (i_spec _ _ _ _ I _ _ X) as (_ & Rd & _). exact (kinds_differ st A V _ I (conj Rd R)).
      - exact (NK KNorm (knorm_of st A V i I Hi Ai R) eq_refl). }
    rewrite (J6 j) by assumption. split; [reflexivity|]. rewrite J7. right. exact R.
Qed.

Lemma replace_ok st A V x : inv m st A V -> 0 <= x < 2 ^ 32 ->
  holds m (replace_block m st x) (fun st' =>
    let i := x / 65536 in let A' := fun j => A j \/ j = i in
    inv m st' A' V /\ is_kind m st' A' i KNorm /\ specials st' = specials st /\
    (forall j, j <> i -> get_block m st' j = get_block m st j) /\ keeps st st').
Proof.
  intros I Hx. destruct (xl_off st A V x I Hx) as (Hi & Ho & E).
  unfold replace_block, use_default, use_special. rewrite E, index_div.
  destruct (kind_of m Hm st A V I _ Hi) as [k K].
  pose proof (kind_tests m Hm st A V I _ k _ Hi K (near_body _ _ Ho)) as KT.
  destruct k as [|v|].
  - destruct KT as (-> & _). apply fresh_ok; auto.
    + intros k K' ->. destruct K as (_ & _ & _ & R & _). destruct K' as (_ & R' & _).
      exact (kinds_differ st A V _ I (conj R R')).
    + apply (mo_dflt m Hm).
    + exact (default_values st A V _ I Hi K).
  - destruct KT as (-> & w & -> & S). apply fresh_ok; auto.
    + intros k K' ->. destruct K as (_ & _ & R & _). destruct K' as (_ & R' & _).
      exact (kinds_differ st A V _ I (conj R R')).
    + exact (proj1 (i_spec _ _ _ _ I _ _ S)).
    + exact (special_values st A V _ w I Hi S).
  - destruct KT as (-> & ->). cbn [holds]. pose proof K as (Ai & _).
    split; [|split; [|auto using keeps_refl]].
    + apply (inv_ext st A _ V V); auto. intros b _. split; [auto|intros [X|X]; [exact X|subst; exact Ai]].
    + apply (kind_ext st A); auto. split; auto.
Qed.

(** * Special blocks *)
Lemma lookup_in v l b : lookup v l = Some b -> In (b, v) l.
Proof.
  induction l as [|(c, w) l IH]; cbn; [discriminate|]. destruct (Z.eqb_spec w v) as [->|].
  - intros E. injection E as ->. left. reflexivity.
  - intros E. right. apply IH. exact E.
Qed.
Lemma lookup_none v l b : lookup v l = None -> ~ In (b, v) l.
Proof.
  induction l as [|(c, w) l IH]; cbn; [auto|]. destruct (Z.eqb_spec w v) as [->|]; [discriminate|].
  intros E [X|X]; [injection X; auto|exact (IH E X)].
Qed.

Lemma inv_special st A V v st2 b :
  inv m st A V -> 0 <= v <= 255 ->
  table st2 = table st -> specials st2 = specials st -> dblock st2 = dblock st ->
  live st2 = ro_region m b :: live st ->
  SLOTS (sc m) <= b - rz m -> b - rz m + alloc_size m < 2 ^ 32 ->
  (forall r, In r (live st) -> apart m (b - rz m) (r_at r)) ->
  (forall x, ~ (b - rz m <= x < b - rz m + alloc_size m) -> smem st2 x = smem st x) ->
  (forall o, off m o -> smem st2 (b + o) = v) ->
  (faulty m = false -> forall x, b - rz m <= x < b \/ b + SLOTS (sc m) <= x < b - rz m + alloc_size m ->
       smem st2 x = o_rzv m) ->
  inv m (with_specials st2 (specials st2 ++ [(b, v)])) A V.
Proof.
  intros I Hv T S D L B1 B2 AP M1 M2 M3. set (st3 := with_specials st2 _).
  pose proof (rz_range m Hm) as RZ. pose proof (slots_range (sc m)) as SL. pose proof (asz_eq m) as AZ.
  assert (G : forall j, get_block m st3 j = get_block m st j)
    by (intros j; unfold get_block, st3; cbn [table with_specials]; rewrite T; reflexivity).
  assert (old : forall r x, In r (live st) -> ext m r x -> smem st2 x = smem st x).
  { intros r x Hr Hx. apply M1. exact (apart_ext r _ _ (AP r Hr) Hx). }
  assert (bn : forall r c, In r (live st) -> r_at r = c - rz m -> c <> b).
  { intros r c Hr Er ->. specialize (AP r Hr). unfold apart in AP. pose proof (asz_pos m Hm). lia. }
  assert (EL : live st3 = ro_region m b :: live st) by exact L.
  assert (ES : specials st3 = specials st ++ [(b, v)]) by (rewrite <- S; reflexivity).
  assert (ED : dblock st3 = dblock st) by exact D.
  assert (EM : smem st3 = smem st2) by reflexivity.
  clearbody st3. constructor; rewrite ?EL, ?ES, ?ED, ?EM.
  - intros r [<-|Hr]; [unfold ro_region; cbn [r_at]; lia|]. exact (i_live _ _ _ _ I r Hr).
  - constructor; [|exact (i_apart _ _ _ _ I)]. apply Forall_forall. intros r Hr.
    unfold ro_region at 1. cbn [r_at]. exact (AP r Hr).
  - intros c w Hc. apply in_app_or in Hc. destruct Hc as [Hc|[Hc|[]]].
    + destruct (i_spec _ _ _ _ I c w Hc) as (W & R & M). split; [exact W|]. split; [right; exact R|].
      intros o Ho. rewrite <- (M o Ho). apply (old _ _ R). apply ext_body; [exact Hm|reflexivity|exact Ho].
    + injection Hc as <- <-. split; [exact Hv|]. split; [left; reflexivity|exact M2].
  - rewrite map_app. cbn [map fst].
    apply NoDup_Add with (a := b) (l := map fst (specials st)).
    + rewrite <- (app_nil_r (map fst (specials st))) at 1. apply Add_app.
    + split; [exact (i_nodup _ _ _ _ I)|]. intros X. apply in_map_iff in X. destruct X as ((c & w) & E & X).
      cbn in E. subst c. destruct (i_spec _ _ _ _ I b w X) as (_ & R & _). exact (bn _ b R eq_refl eq_refl).
  - intros TT.
    destruct (i_def _ _ _ _ I TT) as (R & N & M). split; [right; exact R|]. split.
    + rewrite map_app. intros X. apply in_app_or in X. destruct X as [X|[X|[]]]; [exact (N X)|].
      cbn in X. exact (bn _ _ R eq_refl (eq_sym X)).
    + intros o Ho. rewrite <- (M o Ho). apply (old _ _ R). apply ext_body; [exact Hm|reflexivity|exact Ho].
  - intros TT.
    destruct (i_touch _ _ _ _ I TT) as (X & c & Y). split; [exact X|]. exists c. apply in_or_app. left. exact Y.
  - intros j Hj. rewrite G.
    destruct (i_blk _ _ _ _ I j Hj) as [X|[(Aj & w & X)|(Aj & X & U)]].
    + left. exact X.
    + right; left. split; [exact Aj|]. exists w. apply in_or_app. left. exact X.
    + right; right. split; [exact Aj|]. split; [right; exact X|].
      intros k Hk Hkj. rewrite G. exact (U k Hk Hkj).
  - intros r [<-|Hr].
    + right; left. exists b, v. split; [|reflexivity].
      apply in_or_app. right. left. reflexivity.
    +
      destruct (i_own _ _ _ _ I r Hr) as [X|[(c & w & X & Y)|(j & Hj & X)]]; [left; exact X| |].
      * right; left. exists c, w. split; [apply in_or_app; left; exact X|exact Y].
      * right; right. exists j. split; [exact Hj|]. rewrite G. exact X.
  - intros j o Hj Ho. rewrite G, <- (i_val _ _ _ _ I j o Hj Ho).
    destruct (kind_of m Hm st A V I j Hj) as [[|w|] K]; cbn in K.
    + destruct K as (_ & _ & _ & R & _). apply (old _ _ R). apply ext_body; [exact Hm|reflexivity|exact Ho].
    + destruct K as (_ & _ & R & _). apply (old _ _ R). apply ext_body; [exact Hm|reflexivity|exact Ho].
    + destruct K as (_ & R & _). apply (old _ _ R). apply ext_body; [exact Hm|reflexivity|exact Ho].
  - intros F r a [<-|Hr] Ha.
    + apply (M3 F). unfold ro_region in Ha. cbn [r_at] in Ha. lia.
    + rewrite (old r a Hr); [exact (i_red _ _ _ _ I F r a Hr Ha)|]. unfold ext. lia.
Qed.

Lemma create_special_ok st A V v : inv m st A V -> 0 <= v <= 255 ->
  holds m (create_special m st v) (fun r => let '(st', ob) := r in
    inv m st' A V /\ (forall j, get_block m st' j = get_block m st j) /\ dblock st' = dblock st /\
    (forall x, In x (specials st) -> In x (specials st')) /\
    match ob with Some b => In (b, v) (specials st') | None => st' = st end).
Proof.
  intros I Hv. unfold create_special. destruct (lookup v (specials st)) as [b|] eqn:E.
  - cbn [holds]. split; [exact I|]. split; [reflexivity|]. split; [reflexivity|]. split; [auto|].
    apply lookup_in. exact E.
  - destruct (MAX_SPECIAL <=? length (specials st))%nat.
    + cbn [holds]. auto.
    + eapply holds_bind; [exact (special_helper_ok m Hm st v Hv)|].
      intros (st2, b) (T & S & D & L & B1 & B2 & AP & M1 & M2 & M3). cbn [holds].
      split; [apply (inv_special st A V v st2 b); assumption|].
      split; [intros j; unfold get_block; cbn [table with_specials]; rewrite T; reflexivity|].
      split; [exact D|]. cbn [specials with_specials]. rewrite S. split; intros; apply in_or_app; cbn; auto.
Qed.

(** Pointing a block at a special block that holds its values: used by
    creation (the block was the default one) and by
    [umbra_clear_redundant_blocks] (a private block that was just freed). *)
Lemma inv_point st A V i b v : inv m st A V -> idx i -> ~ A i -> In (b, v) (specials st) ->
  let st' := set_block m st i b in
  inv m st' (fun j => A j \/ j = i)
    (fun k => if (i * SLOTS (sc m) <=? k) && (k <? (i + 1) * SLOTS (sc m)) then v else V k) /\
  In (get_block m st' i, v) (specials st').
Proof.
  intros I Hi NA S st'. destruct (i_spec _ _ _ _ I b v S) as (Hv & R & M).
  pose proof (region_bounds m st A V I b _ R eq_refl) as BB.
  pose proof (rz_range m Hm) as RZ. pose proof (slots_range (sc m)) as SL.
  assert (Gi : get_block m st' i = b) by (unfold st'; rewrite get_set by lia; rewrite Z.eqb_refl; reflexivity).
  assert (Gj : forall j, j <> i -> get_block m st' j = get_block m st j).
  { intros j Hj. unfold st'. rewrite get_set by lia. destruct (Z.eqb_spec j i); [contradiction|]. reflexivity. }
  split; [|rewrite Gi; exact S].
  constructor; try (unfold st'; cbn [live specials dblock smem set_block with_table]; destruct I; assumption).
  - intros j Hj. change (live st') with (live st). change (specials st') with (specials st).
    change (dblock st') with (dblock st). destruct (Z.eq_dec j i) as [->|Hne].
    + right; left. split; [right; reflexivity|]. exists v. rewrite Gi. exact S.
    + rewrite (Gj j Hne). destruct (i_blk _ _ _ _ I j Hj) as [(N & X)|[(Aj & X)|(Aj & X & U)]].
      * left. split; [|exact X]. intros [Y|Y]; [exact (N Y)|exact (Hne Y)].
      * right; left. split; [left; exact Aj|exact X].
      * right; right. split; [left; exact Aj|]. split; [exact X|]. intros k Hk Hkj.
        destruct (Z.eq_dec k i) as [->|Hki]; [|rewrite (Gj k Hki); exact (U k Hk Hkj)].
        rewrite Gi. exact (ro_not_norm m Hm st A V I _ _ R X).
  - intros r Hr. change (live st') with (live st) in Hr. change (specials st') with (specials st).
    change (dblock st') with (dblock st).
    destruct (i_own _ _ _ _ I r Hr) as [X|[X|(j & Hj & X)]]; [left; exact X|right; left; exact X|].
    right; right. exists j. split; [exact Hj|].
    destruct (Z.eq_dec j i) as [->|Hne]; [|rewrite (Gj j Hne); exact X]. exfalso.
    subst r. destruct (i_blk _ _ _ _ I i Hi) as [(_ & T & E)|[(X & _)|(X & _)]]; [|exact (NA X)|exact (NA X)].
    destruct (i_def _ _ _ _ I T) as (Rd & _). rewrite <- E in Rd.
    exact (ro_not_norm m Hm st A V I _ _ Rd Hr eq_refl).
  - intros j o Hj Ho. change (smem st') with (smem st). unfold off in Ho.
    destruct (Z.eq_dec j i) as [->|Hne].
    + rewrite Gi, (M o Ho). rewrite (proj2 (andb_true_iff _ _)) by lia. reflexivity.
    + rewrite (Gj j Hne), (i_val _ _ _ _ I j o Hj Ho).
      rewrite (proj2 (andb_false_iff _ _)); [reflexivity|].
      destruct (Z.lt_ge_cases j i); [left|right]; nia.
Qed.

(** * Starting a map *)
Lemma fresh_inv_default st2 b f : on_touch m = false ->
  table st2 = table (fresh f) -> specials st2 = [] ->
  live st2 = [ro_region m b] -> SLOTS (sc m) <= b - rz m -> b - rz m + alloc_size m < 2 ^ 32 ->
  (forall o, off m o -> smem st2 (b + o) = dflt m) ->
  (faulty m = false -> forall x, b - rz m <= x < b \/ b + SLOTS (sc m) <= x < b - rz m + alloc_size m ->
       smem st2 x = o_rzv m) ->
  inv m (all_to m (with_dblock st2 b) b) (A0 m) (V0 m).
Proof.
  intros T _ S L B1 B2 M2 M3. set (st' := all_to _ _ _).
  pose proof (rz_range m Hm) as RZ. pose proof (slots_range (sc m)) as SL. pose proof (asz_eq m) as AZ.
  assert (G : forall j, get_block m st' j = b).
  { intros j. unfold get_block, st', all_to. cbn [table with_table with_dblock]. rewrite w32_add_l.
    replace (b - _ + _) with b by ring. apply w32_small. lia. }
  constructor; unfold st', all_to; cbn [live specials dblock smem with_table with_dblock]; rewrite ?L, ?S.
  - intros r [<-|[]]. unfold ro_region. cbn [r_at]. lia.
  - repeat constructor.
  - intros ? ? [].
  - constructor.
  - intros _. split; [left; reflexivity|]. split; [intros []|exact M2].
  - intros X. rewrite X in T. discriminate T.
  - intros j Hj. fold (all_to m (with_dblock st2 b) b). fold st'. left. split; [intros (X & _); rewrite X in T; discriminate T|].
    split; [exact T|]. apply G.
  - intros r [<-|[]]. left. auto.
  - intros j o Hj Ho. fold (all_to m (with_dblock st2 b) b). fold st'. rewrite G. unfold V0. apply M2. exact Ho.
  - intros F r a [<-|[]] Ha. apply (M3 F). unfold ro_region in Ha. cbn [r_at] in Ha. lia.
Qed.
Lemma fresh_inv_touch st2 b f : on_touch m = true ->
  table st2 = table (fresh f) -> specials st2 = [(b, dflt m)] ->
  live st2 = [ro_region m b] -> SLOTS (sc m) <= b - rz m -> b - rz m + alloc_size m < 2 ^ 32 ->
  (forall o, off m o -> smem st2 (b + o) = dflt m) ->
  (faulty m = false -> forall x, b - rz m <= x < b \/ b + SLOTS (sc m) <= x < b - rz m + alloc_size m ->
       smem st2 x = o_rzv m) ->
  inv m (with_dblock (all_to m st2 b) 0) (A0 m) (V0 m).
Proof.
  intros T _ S L B1 B2 M2 M3. set (st' := with_dblock _ _).
  pose proof (rz_range m Hm) as RZ. pose proof (slots_range (sc m)) as SL. pose proof (asz_eq m) as AZ.
  assert (G : forall j, get_block m st' j = b).
  { intros j. unfold get_block, st', all_to. cbn [table with_table with_dblock]. rewrite w32_add_l.
    replace (b - _ + _) with b by ring. apply w32_small. lia. }
  constructor; unfold st', all_to; cbn [live specials dblock smem with_table with_dblock]; rewrite ?L, ?S.
  - intros r [<-|[]]. unfold ro_region. cbn [r_at]. lia.
  - repeat constructor.
  - intros c v [X|[]]. injection X as <- <-. split; [apply (mo_dflt m Hm)|]. split; [left; reflexivity|exact M2].
  - cbn. constructor; [intros []|constructor].
  - intros X. rewrite X in T. discriminate T.
  - intros _. split; [reflexivity|]. exists b. left. reflexivity.
  - intros j Hj. fold (all_to m st2 b). fold st'. right; left. split; [split; [exact T|exact Hj]|].
    exists (dflt m). rewrite G. left. reflexivity.
  - intros r [<-|[]]. right; left. exists b, (dflt m). split; [left; reflexivity|reflexivity].
  - intros j o Hj Ho. fold (all_to m st2 b). fold st'. rewrite G. unfold V0. apply M2. exact Ho.
  - intros F r a [<-|[]] Ha. apply (M3 F). unfold ro_region in Ha. cbn [r_at] in Ha. lia.
Qed.

Lemma init_ok f : holds m (map_init m f) (fun r => snd r = S_ok /\ inv m (fst r) (A0 m) (V0 m)).
Proof.
  unfold map_init. pose proof (mo_dflt m Hm) as HD. pose proof (mo_rzv m Hm). destruct (mo_rz m Hm) as [_ R].
  rewrite (proj2 (Z.ltb_ge 255 (dflt m))) by lia. rewrite (proj2 (Z.ltb_ge 255 (o_rzv m))) by lia.
  rewrite R, andb_false_r. change (negb (0 =? 0)) with false. rewrite andb_false_r.
  unfold table_init. destruct (on_touch m) eqn:T; cbn [negb].
  - unfold create_special. cbn [lookup specials fresh length]. change (MAX_SPECIAL <=? 0)%nat with false.
    cbv iota.
    eapply holds_bind with (P := fun st => inv m st (A0 m) (V0 m)); [|intros a Ha; cbn; auto].
    eapply holds_bind with (P := fun r => exists st2 b, r = (with_specials st2 (specials st2 ++ [(b, dflt m)]), Some b) /\
      table st2 = table (fresh f) /\ specials st2 = [] /\ live st2 = [ro_region m b] /\
      SLOTS (sc m) <= b - rz m /\ b - rz m + alloc_size m < 2 ^ 32 /\
      (forall o, off m o -> smem st2 (b + o) = dflt m) /\
      (faulty m = false -> forall x, b - rz m <= x < b \/ b + SLOTS (sc m) <= x < b - rz m + alloc_size m ->
       smem st2 x = o_rzv m)).
    + eapply holds_bind; [exact (special_helper_ok m Hm (fresh f) (dflt m) HD)|].
      intros (st2, b) (T2 & S & D & L & B1 & B2 & AP & M1 & M2 & M3). cbn [holds]. exists st2, b. auto 10.
    + intros ? (st2 & b & -> & T2 & S & L & B1 & B2 & M2 & M3). cbn [holds].
      apply (fresh_inv_touch _ b f); try assumption. cbn [specials with_specials]. rewrite S. reflexivity.
  - eapply holds_bind with (P := fun st => inv m st (A0 m) (V0 m)); [|intros a Ha; cbn; auto].
    eapply holds_bind; [exact (special_helper_ok m Hm (fresh f) (dflt m) HD)|].
    intros (st2, b) (T2 & S & D & L & B1 & B2 & AP & M1 & M2 & M3). cbn [holds].
    apply (fresh_inv_default _ b f); assumption.
Qed.
End Steps.
