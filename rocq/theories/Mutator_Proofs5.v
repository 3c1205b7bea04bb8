(** Random bits: the partial Fisher-Yates shuffle. *)
From Verif Require Import Base Mutator_Model Mutator_Spec Mutator_Proofs Mutator_Proofs2 Mutator_Proofs3 Mutator_Proofs4.
Open Scope Z_scope.

Lemma s16_rel v : - 2 ^ 15 <= v < 2 ^ 15 -> s16 (u32 v) = v.
Proof.
  intros H. unfold s16, u32. assert (E : (v mod 2 ^ 32 + 2 ^ 15) mod 2 ^ 16 = v + 2 ^ 15).
  { rewrite Z.add_mod by lia. rewrite <- Znumtheory.Zmod_div_mod; [|lia|lia|exists (2 ^ 16); reflexivity].
    rewrite <- Z.add_mod by lia. apply Z.mod_small. lia. }
  rewrite E. lia.
Qed.

Definition same_but_seed (m m' : mutator) : Prop := exists s, m' = with_seed m s.
Lemma sbs_refl m : same_but_seed m m.
Proof. exists (o_seed (opts m)). destruct m as [? ? ? ? [] ? ?]. reflexivity. Qed.
Lemma sbs_trans a b c : same_but_seed a b -> same_but_seed b c -> same_but_seed a c.
Proof. intros (s & ->) (t & ->). exists t. destruct a as [? ? ? ? [] ? ?]. reflexivity. Qed.
Lemma random_range m r m' : random m = (r, m') -> 0 <= r < 2 ^ 64 /\ same_but_seed m m'.
Proof.
  unfold random. intros [= <- <-]. split; [apply Z.mod_pos_bound; lia|]. eexists. reflexivity.
Qed.

Definition SInv (bc i : Z) (sh : Z -> Z) (S : list Z) : Prop :=
  (forall k, i <= k < bc -> 0 <= u32 (k + sh k) < bc) /\
  (forall k k', i <= k < bc -> i <= k' < bc -> u32 (k + sh k) = u32 (k' + sh k') -> k = k') /\
  (forall k, i <= k < bc -> ~ In (u32 (k + sh k)) S).

Lemma shuffle_ok base bc : bytes base -> bc = 8 * len base -> bc <= 2 ^ 15 ->
  forall n m sh i S, bit_count (flip m) = bc -> 0 <= i -> i + Z.of_nat n <= bc -> SInv bc i sh S -> NoDup S ->
    (forall x, In x S -> 0 <= x < bc) ->
  exists S' m', shuffle_loop n m sh i (bc - i) (flipped packed base S) = Ok (flipped packed base S', m') /\ same_but_seed m m' /\
    NoDup S' /\ length S' = (n + length S)%nat /\ (forall x, In x S' -> 0 <= x < bc).
Proof.
  intros Hb Ebc Hbc. induction n as [|n IH]; intros m sh i S Em Hi Hn HI HN HR.
  - exists S, m. split; [reflexivity|]. split; [apply sbs_refl|]. auto.
  - cbn [shuffle_loop]. destruct (random m) as (r, m1) eqn:ER. apply random_range in ER. destruct ER as (Rr & (sd & ->)).
    replace (bc - i =? 0) with false by lia.
    pose proof (Z.mod_pos_bound r (bc - i) ltac:(lia)) as Hp. set (pick := i + r mod (bc - i)) in *.
    rewrite (u32_small pick) by lia. change (bit_count (flip (with_seed m sd))) with (bit_count (flip m)). rewrite Em.
    replace ((pick <? bc) && (i <? bc)) with true by lia. cbv zeta.
    destruct HI as (I1 & I2 & I3). assert (Hpk : i <= pick < bc) by lia. assert (Hii : i <= i < bc) by lia.
    pose proof (I1 pick Hpk) as P1. pose proof (I1 i Hii) as P2. unfold flip_bit.
    rewrite (flip_one packed base S (u32 (pick + sh pick))); [|exact Hb|apply packed_place; lia|apply I3; exact Hpk].
    cbn [bind]. rewrite s16_rel by lia. rewrite (u32_small (bc - i - 1)) by lia.
    replace (bc - i - 1) with (bc - (i + 1)) by lia.
    set (sh' := fun k => if k =? pick then u32 (i + sh i) - pick else sh k).
    assert (A : forall k, i + 1 <= k < bc -> (k = pick /\ u32 (k + sh' k) = u32 (i + sh i)) \/ (k <> pick /\ u32 (k + sh' k) = u32 (k + sh k))).
    { intros k Hk. unfold sh'. destruct (Z.eqb_spec k pick) as [->|N]; [left; split; auto; replace (pick + (u32 (i + sh i) - pick)) with (u32 (i + sh i)) by lia; apply u32_small; lia|right; auto]. }
    destruct (IH (with_seed m sd) sh' (i + 1) (u32 (pick + sh pick) :: S)) as (S' & m' & E & Hm & N' & L' & R'); auto; try lia.
    + split; [|split].
      * intros k Hk. destruct (A k Hk) as [(-> & ->)|(N & ->)]; [auto|apply I1; lia].
      * intros k k' Hk Hk'. destruct (A k Hk) as [(-> & ->)|(N & ->)], (A k' Hk') as [(-> & ->)|(N' & ->)]; intros E; auto.
        -- apply I2 in E; lia.
        -- apply I2 in E; lia.
        -- apply I2 in E; lia.
      * intros k Hk [E|J].
        -- destruct (A k Hk) as [(Q & Q')|(N & Q')]; rewrite Q' in E; apply I2 in E; lia.
        -- destruct (A k Hk) as [(Q & Q')|(N & Q')]; rewrite Q' in J; revert J; apply I3; lia.
    + constructor; [apply I3; exact Hpk|exact HN].
    + intros x [<-|J]; auto.
    + exists S', m'. split; [exact E|]. split; [eapply sbs_trans; [|exact Hm]; exists sd; reflexivity|]. split; [exact N'|]. split; [cbn [length] in L'; lia|exact R'].
Qed.

Lemma shuffle_and_flip_ok m base : bytes base -> bit_count (flip m) = 8 * len base -> 8 * len base <= 2 ^ 15 ->
  1 <= bits_to_flip (flip m) <= 8 * len base ->
  exists v m', shuffle_and_flip m base = Ok (v, m') /\ same_but_seed m m' /\ flips_some base (Z.to_nat (bits_to_flip (flip m))) v.
Proof.
  intros Hb Em Hl Hf. unfold shuffle_and_flip. rewrite Em. rewrite u32_small by lia.
  replace (8 * len base - (8 * len base - bits_to_flip (flip m))) with (bits_to_flip (flip m)) by lia.
  destruct (shuffle_ok base (8 * len base) Hb eq_refl Hl (Z.to_nat (bits_to_flip (flip m))) m (fun _ => 0) 0 []) as (S & m' & E & Hm & N & L & R); auto; try lia.
  - repeat split; intros; rewrite ?u32_small in * by lia; try lia. auto.
  - constructor.
  - cbn; tauto.
  - rewrite flipped_nil in E. replace (8 * len base - 0) with (8 * len base) in E by lia. rewrite E. exists (flipped packed base S), m'. split; [reflexivity|]. split; [exact Hm|].
    exists S. rewrite Nat.add_0_r in L. split; [exact N|]. split; [exact L|]. split; [exact R|reflexivity].
Qed.
Lemma flips_some_bytes base k v : bytes base -> flips_some base k v -> bytes v /\ len v = len base.
Proof. intros H (S & _ & _ & _ & ->). split; [apply flip_from_bytes; exact H|apply flipped_len]. Qed.

Lemma binv_seed n o m seed cur R s : BInv n o m seed cur R -> BInv n o (with_seed m s) seed cur R.
Proof. intros []. constructor; auto. Qed.
Lemma accepted_seed c s s' cur preds l outs : (c = true -> s = s') -> accepted c s cur preds l outs <-> accepted c s' cur preds l outs.
Proof.
  revert s s' cur preds outs. induction l as [|[b|v] l IH]; intros s s' cur preds outs H; cbn [accepted]; [tauto| |].
  - destruct preds as [|P preds]; [tauto|]. destruct outs as [|w outs]; [tauto|]. destruct c; [rewrite H by auto; tauto|].
    rewrite (IH s s' w preds outs H). tauto.
  - destruct (0 <? v); [tauto|]. apply IH. exact H.
Qed.

Lemma random_run junk n o l : o_alg o = ARandom -> Z.of_nat n <= 2 ^ 15 -> forall m seed cur R,
  BInv n o m seed cur R -> good_requests (len seed) l -> (asks l <= length R)%nat ->
  exists outs m', run junk m (map of_request l) = Ok (outs, m') /\
    accepted (o_centric o) seed cur (map (fun S base v => flips_some base (length S) v) R) l outs /\
    (has_next_value m' = true <-> (asks l < length R)%nat).
Proof.
  intros Ha H15. induction l as [|[b|v] l IH]; intros m seed cur R I G A; cbn [map of_request run accepted].
  - exists [], m. split; [reflexivity|]. split; [reflexivity|]. unfold has_next_value. rewrite (b_unit _ _ _ _ _ _ I).
    pose proof (remaining_none _ _ _ _ (b_rem _ _ _ _ _ _ I)) as RN. cbn. destruct (index (flip m)).
    + destruct R; [destruct RN as (_ & X); discriminate X; auto|]. cbn. split; [lia|auto].
    + destruct RN as (X & _). rewrite X by auto. cbn. split; [discriminate|lia].
  - cbn [asks filter length] in A. destruct R as [|S R]; [cbn in A; lia|].
    assert (NI : index (flip m) <> None).
    { intros E. apply (remaining_none _ _ _ _ (b_rem _ _ _ _ _ _ I)) in E. discriminate. }
    pose proof I as [].
    assert (SK : skip_of (opts m) = skip_of o) by (unfold skip_of; rewrite b_sp; reflexivity).
    assert (INC : forall sd, exists f, increment junk (with_seed m sd) = Ok (with_flip (with_seed m sd) f) /\ bits_to_flip (flip m) = len S /\ okset (Z.of_nat n) (length S) S /\ S <> [] /\
        bit_count f = Z.of_nat n /\ remaining (Z.to_nat (skip_of o)) n f R).
    { intros sd. destruct (increment_ok junk (with_seed m sd) n (S :: R)) as (f & s & R' & ER & Ei & Eb & Ho & Einc & Ebc & Hr); auto;
        try (change (skip_of (opts (with_seed m sd))) with (skip_of (opts m)); rewrite SK; auto); try lia.
      injection ER as <- <-. change (skip_of (opts (with_seed m sd))) with (skip_of (opts m)) in Hr. rewrite SK in Hr. exists f. repeat split; auto; try apply Ho.
      intros ->. cbn [flip with_seed] in *. inversion b_rem as [|? ? ? ? ? ? ? ? Q]; subst; cbn in *; try discriminate. lia. }
    destruct (INC 0) as (f0 & _ & Eb & Ho & NS & _).
    unfold get_next_value, next_value. rewrite b_alg, Ha, b_unit, b_cen.
    set (base := if o_centric o then input m else b).
    assert (Bb : bytes base /\ len base = len seed).
    { unfold base. destruct (o_centric o); [rewrite b_in; auto|]. apply G. left. reflexivity. }
    destruct Bb as (Bb & Lb).
    destruct (shuffle_and_flip_ok m base Bb) as (v & m1 & E1 & (sd & ->) & Hv).
    { rewrite b_bc. lia. } { lia. }
    { rewrite Eb. destruct Ho as (_ & Hi & Hf). pose proof (increasing_room S 0 _ Hi Hf NS). destruct S; [congruence|]. rewrite len_cons in *. pose proof (len_nn S). lia. }
    rewrite E1. cbn [bind]. destruct (INC sd) as (f & Einc & _ & _ & _ & Ebc & Hr). rewrite Einc. cbn [bind].
    destruct (flips_some_bytes base _ v Bb Hv) as (Vb & Vl). rewrite Lb in Vl.
    destruct (IH (with_current (with_flip (with_seed m sd) f) v) seed v R) as (outs & m' & E & Ac & H).
    { constructor; cbn [with_current with_flip with_seed input current size opts flip o_unit o_alg o_centric o_sparsity]; auto. }
    { intros b' J. apply G. right. exact J. } { cbn in A. unfold asks. lia. }
    rewrite E. cbn [bind]. exists (v :: outs), m'. split; [reflexivity|]. split.
    + cbn [map]. split; [|exact Ac]. rewrite Eb in Hv. unfold len in Hv. rewrite Nat2Z.id in Hv. unfold base in Hv. rewrite b_in in Hv. exact Hv.
    + rewrite H. cbn [asks filter length]. unfold asks. lia.
  - destruct (IH (feedback m v) (if o_centric o && (0 <? v) then cur else seed) cur R (feedback_binv _ _ _ _ _ _ v I)) as (outs & m' & E & Ac & H).
    { destruct (o_centric o && (0 <? v)); [rewrite (b_curl _ _ _ _ _ _ I)|]; intros b' J; apply G; right; exact J. }
    { exact A. }
    exists outs, m'. rewrite E. split; [reflexivity|]. split; [|exact H].
    eapply accepted_seed; [|exact Ac]. intros ->. destruct (0 <? v); reflexivity.
Qed.

Theorem random_bits junk seed o d l : o_unit o = UBits -> o_alg o = ARandom -> good_start seed o -> len seed <= 4096 ->
  good_requests (len seed) l ->
  let sets := bit_sets (Z.to_nat (skip_of o)) (Z.to_nat (8 * len seed)) in
  (asks l <= length sets)%nat ->
  exists m outs m', start junk seed o d = Ok m /\ run junk m (map of_request l) = Ok (outs, m') /\
    accepted (o_centric o) seed seed (map (fun S base v => flips_some base (length S) v) sets) l outs /\
    (has_next_value m' = true <-> (asks l < length sets)%nat).
Proof.
  intros Hu Ha G Hl R sets A. destruct (start_ok junk seed o d Hu G) as (m & E & I).
  destruct (random_run junk (Z.to_nat (8 * len seed)) o l Ha ltac:(lia) m seed seed _ I R A) as (outs & m' & E' & Ac & H). exists m, outs, m'. auto.
Qed.
