(** Flipping bits. *)
From Verif Require Import Base Mutator_Model Mutator_Spec Mutator_Proofs Mutator_Proofs2.
Open Scope Z_scope.

Definition val8 (f : Z -> bool) : Z :=
  fold_right Z.add 0 (map (fun t => if f t then 2 ^ t else 0) [0; 1; 2; 3; 4; 5; 6; 7]).
Lemma val8_range f : 0 <= val8 f < 256.
Proof. unfold val8. cbn [map fold_right]. repeat match goal with |- context [f ?t] => destruct (f t) end; vm_compute; split; congruence. Qed.
Lemma val8_bit f t : 0 <= t < 8 -> Z.testbit (val8 f) t = f t.
Proof.
  intros H. assert (C : t = 0 \/ t = 1 \/ t = 2 \/ t = 3 \/ t = 4 \/ t = 5 \/ t = 6 \/ t = 7) by lia.
  unfold val8. cbn [map fold_right].
  destruct C as [->|[->|[->|[->|[->|[->|[->| ->]]]]]]];
    destruct (f 0), (f 1), (f 2), (f 3), (f 4), (f 5), (f 6), (f 7); reflexivity.
Qed.
Lemma byte_high v t : 0 <= v < 256 -> 8 <= t -> Z.testbit v t = false.
Proof.
  intros Hv Ht. destruct (Z.eq_dec v 0) as [->|N]; [apply Z.bits_0|]. apply Z.bits_above_log2; [lia|].
  assert (Z.log2 v < 8); [|lia]. apply Z.log2_lt_pow2; [lia|]. change (2 ^ 8) with 256. lia.
Qed.
Lemma byte_ext a b : 0 <= a < 256 -> 0 <= b < 256 -> (forall t, 0 <= t < 8 -> Z.testbit a t = Z.testbit b t) -> a = b.
Proof.
  intros Ha Hb H. apply Z.bits_inj'. intros t Ht. destruct (Z_lt_ge_dec t 8) as [L|G]; [apply H; lia|].
  rewrite !byte_high by lia. reflexivity.
Qed.
Lemma byte_lxor a b : 0 <= a < 256 -> 0 <= b < 256 -> 0 <= Z.lxor a b < 256.
Proof.
  intros Ha Hb. assert (N : 0 <= Z.lxor a b) by (apply Z.lxor_nonneg; lia). split; [exact N|].
  destruct (Z.eq_dec (Z.lxor a b) 0) as [E|E]; [lia|]. change 256 with (2 ^ 8). apply Z.log2_lt_pow2; [lia|].
  pose proof (Z.log2_lxor a b ltac:(lia) ltac:(lia)) as L.
  assert (Z.log2 a < 8) by (destruct (Z.eq_dec a 0) as [->|]; [cbn; lia|apply Z.log2_lt_pow2; [lia|change (2 ^ 8) with 256; lia]]).
  assert (Z.log2 b < 8) by (destruct (Z.eq_dec b 0) as [->|]; [cbn; lia|apply Z.log2_lt_pow2; [lia|change (2 ^ 8) with 256; lia]]).
  lia.
Qed.
Lemma pow_byte t : 0 <= t < 8 -> 0 <= 2 ^ t < 256.
Proof. intros H. split; [apply Z.pow_nonneg; lia|]. change 256 with (2 ^ 8). apply Z.pow_lt_mono_r; lia. Qed.

Lemma mask_val place S j : mask place S j = val8 (fun t => existsb (Z.eqb (place j t)) S).
Proof. reflexivity. Qed.
Lemma mask_range place S j : 0 <= mask place S j < 256. Proof. apply val8_range. Qed.
Lemma mask_bit place S j t : 0 <= t < 8 -> Z.testbit (mask place S j) t = existsb (Z.eqb (place j t)) S.
Proof. intros H. rewrite mask_val, val8_bit by exact H. reflexivity. Qed.
Lemma mem_existsb x S : existsb (Z.eqb x) S = true <-> In x S.
Proof. rewrite existsb_exists. split; [intros (y & I & E); apply Z.eqb_eq in E; subst; auto|]. intros I. exists x. rewrite Z.eqb_refl. auto. Qed.
Lemma mask_ext place S S' j : (forall x, In x S <-> In x S') -> mask place S j = mask place S' j.
Proof.
  intros H. apply byte_ext; try apply mask_range. intros t Ht. rewrite !mask_bit by exact Ht.
  apply eq_true_iff_eq. rewrite !mem_existsb. apply H.
Qed.

Lemma flip_from_app place S b : forall j a,
  flip_from place S j (a ++ b) = flip_from place S j a ++ flip_from place S (j + len a) b.
Proof.
  intros j a. revert j. induction a as [|v a IH]; intros j; cbn [flip_from app].
  - change (len (@nil Z)) with 0. f_equal. lia.
  - rewrite IH, len_cons. replace (j + 1 + len a) with (j + (1 + len a)) by lia. reflexivity.
Qed.
Lemma flip_from_len place S a : forall j, len (flip_from place S j a) = len a.
Proof. induction a as [|v a IH]; intros j; cbn [flip_from]; [reflexivity|]. rewrite !len_cons, IH. reflexivity. Qed.
Lemma flip_from_ext place S S' a : forall j, (forall i, j <= i < j + len a -> mask place S i = mask place S' i) ->
  flip_from place S j a = flip_from place S' j a.
Proof.
  induction a as [|v a IH]; intros j H; cbn [flip_from]; [reflexivity|]. rewrite len_cons in H. pose proof (len_nn a).
  rewrite (H j) by lia. f_equal. apply IH. intros i Hi. apply H. lia.
Qed.
Lemma flip_from_bytes place S a : forall j, bytes a -> bytes (flip_from place S j a).
Proof.
  induction a as [|v a IH]; intros j H; cbn [flip_from]; [constructor|]. inversion H; subst. constructor; [|apply IH; auto].
  apply byte_lxor; [auto|apply mask_range].
Qed.
Lemma flipped_ext place S S' base : (forall x, In x S <-> In x S') -> flipped place base S = flipped place base S'.
Proof. intros H. unfold flipped. apply flip_from_ext. intros i Hi. apply mask_ext. exact H. Qed.
Lemma flipped_nil place base : flipped place base [] = base.
Proof.
  unfold flipped. generalize 0. induction base as [|v base IH]; intros j; cbn [flip_from]; [reflexivity|]. rewrite IH.
  f_equal. apply Z.lxor_0_r.
Qed.
Lemma flipped_len place base S : len (flipped place base S) = len base. Proof. apply flip_from_len. Qed.

Lemma list_at {A} (l : list A) j : 0 <= j < len l -> exists a x b, l = a ++ x :: b /\ len a = j.
Proof.
  intros H. destruct (skipn (Z.to_nat j) l) as [|x b] eqn:E.
  - apply (f_equal (@length A)) in E. rewrite skipn_length in E. unfold len in H. cbn in E. lia.
  - exists (firstn (Z.to_nat j) l), x, b. split; [rewrite <- E; symmetry; apply firstn_skipn|]. unfold len in *. rewrite firstn_length. lia.
Qed.

(** [p] is bit [t] of byte [j] and of no other. *)
Definition at_place (place : Z -> Z -> Z) (sz p j t : Z) : Prop :=
  0 <= j < sz /\ 0 <= t < 8 /\ forall j' t', 0 <= j' < sz -> 0 <= t' < 8 -> place j' t' = p <-> j' = j /\ t' = t.

Lemma flip_one place base S p j t : bytes base -> at_place place (len base) p j t -> ~ In p S ->
  flip_byte_bit (flipped place base S) j t = Ok (flipped place base (p :: S)).
Proof.
  intros Hb (Hj & Ht & Hp) Hn. destruct (list_at base j Hj) as (a & v & b & -> & La).
  apply Forall_app in Hb. destruct Hb as (Ba & Bb). inversion Bb as [|? ? Bv Bb']; subst. rewrite len_app, len_cons in Hp.
  pose proof (len_nn a) as Na. pose proof (len_nn b) as Nb.
  assert (M1 : forall i, 0 <= i < len a + (1 + len b) -> i <> len a -> mask place S i = mask place (p :: S) i).
  { intros i Hi N. apply byte_ext; try apply mask_range. intros t' Ht'. rewrite !mask_bit by exact Ht'. cbn [existsb].
    destruct (Z.eqb_spec (place i t') p) as [E|E]; [|reflexivity]. apply Hp in E; [lia|lia|lia]. }
  assert (M2 : Z.lxor (mask place S (len a)) (2 ^ t) = mask place (p :: S) (len a)).
  { apply byte_ext; [apply byte_lxor; [apply mask_range|apply pow_byte; lia]|apply mask_range|].
    intros t' Ht'. rewrite Z.lxor_spec, !mask_bit by exact Ht'. cbn [existsb]. rewrite Z.pow2_bits_eqb by lia.
    destruct (Z.eqb_spec (place (len a) t') p) as [E|E].
    - assert (t' = t) by (apply Hp in E; lia). subst t'. rewrite Z.eqb_refl. rewrite E.
      destruct (existsb (Z.eqb p) S) eqn:X; [apply mem_existsb in X; tauto|reflexivity].
    - assert (t' <> t) by (intros ->; apply E; apply Hp; lia). replace (t =? t') with false by lia. rewrite xorb_false_r. reflexivity. }
  unfold flip_byte_bit, flipped. rewrite !flip_from_app. cbn [flip_from].
  assert (G := get_at (flip_from place S 0 a) (Z.lxor v (mask place S (0 + len a))) (flip_from place S (0 + len a + 1) b)).
  rewrite flip_from_len in G. rewrite G. cbn [bind].
  assert (G2 := set_at (flip_from place S 0 a) (Z.lxor v (mask place S (0 + len a))) (flip_from place S (0 + len a + 1) b)).
  rewrite flip_from_len in G2. rewrite G2. clear G G2. f_equal. f_equal; [apply flip_from_ext; intros i Hi; apply M1; lia|].
  f_equal; [|apply flip_from_ext; intros i Hi; apply M1; lia].
  replace (0 + len a) with (len a) by lia. rewrite Z.shiftl_1_l, Z.lxor_assoc, M2.
  rewrite Z.mod_small; [reflexivity|]. apply byte_lxor; [exact Bv|apply mask_range].
Qed.

Lemma spread_place sz p : 0 < sz -> 0 <= p < 8 * sz -> at_place (spread sz) sz p (p mod sz) (p / sz).
Proof.
  intros Hs Hp. pose proof (Z.mod_pos_bound p sz Hs). pose proof (Z.div_mod p sz ltac:(lia)).
  split; [lia|]. split; [split; [apply Z.div_pos; lia|apply Z.div_lt_upper_bound; lia]|].
  intros j t Hj Ht. unfold spread. split.
  - intros <-. rewrite Z.mod_add, Z.div_add by lia. rewrite Z.mod_small, Z.div_small by lia. lia.
  - intros (-> & ->). lia.
Qed.
Lemma land7 p : 0 <= p -> Z.land p 7 = p mod 8.
Proof. intros H. change 7 with (Z.ones 3). rewrite Z.land_ones by lia. reflexivity. Qed.
Lemma packed_place sz p : 0 <= p < 8 * sz -> at_place packed sz p (Z.shiftr p 3) (Z.land p 7).
Proof.
  intros Hp. rewrite Z.shiftr_div_pow2, land7 by lia. change (2 ^ 3) with 8.
  pose proof (Z.mod_pos_bound p 8 ltac:(lia)). pose proof (Z.div_mod p 8 ltac:(lia)).
  split; [lia|]. split; [lia|]. intros j t Hj Ht. unfold packed. lia.
Qed.

Lemma distribute_ok base : bytes base -> 0 < len base -> forall l S, NoDup l -> (forall x, In x l -> 0 <= x < 8 * len base) ->
  (forall x, In x l -> ~ In x S) ->
  distribute_and_flip l (len base) (flipped (spread (len base)) base S) = Ok (flipped (spread (len base)) base (rev l ++ S)).
Proof.
  intros Hb Hs. induction l as [|p l IH]; intros S N R D; [reflexivity|]. cbn [distribute_and_flip]. inversion N as [|? ? N1 N2]; subst.
  rewrite (flip_one (spread (len base)) base S p).
  - cbn [bind]. rewrite IH; [|exact N2|intros; apply R; right; auto|].
    + f_equal. cbn [rev]. rewrite <- app_assoc. reflexivity.
    + intros x I [->|J]; [auto|]. apply (D x); [right|]; auto.
  - exact Hb.
  - apply spread_place; [exact Hs|apply R; left; auto].
  - apply D. left. auto.
Qed.

Lemma increasing_nodup l : forall lo, increasing lo l -> NoDup l.
Proof.
  induction l as [|x l IH]; intros lo H; [constructor|]. cbn in H. constructor; [|eapply IH; apply H].
  intros J. pose proof (increasing_ge l _ x (proj2 H) J). lia.
Qed.
Lemma distribute_set base n l : bytes base -> Z.of_nat n = 8 * len base -> 0 < len base -> okset (Z.of_nat n) (length l) l ->
  distribute_and_flip l (len base) base = Ok (flipped (spread (len base)) base l).
Proof.
  intros Hb Hn Hs (_ & Hi & Hf). rewrite <- (flipped_nil (spread (len base)) base) at 2.
  rewrite distribute_ok; auto.
  - f_equal. apply flipped_ext. intros x. rewrite app_nil_r. symmetry. apply in_rev.
  - eapply increasing_nodup; eauto.
  - intros x I. split; [apply (increasing_ge _ 0 x Hi I)|]. rewrite Forall_forall in Hf. specialize (Hf x I). lia.
Qed.

(** Histories of the ordered bit mutator. *)
Definition of_request (r : request) : op := match r with Ask b => Next b | Tell v => Feedback v end.
Definition good_requests (sz : Z) (l : list request) : Prop :=
  forall b, In (Ask b) l -> bytes b /\ len b = sz.
Definition good_start (seed : list Z) (o : options) : Prop :=
  bytes seed /\ 0 < len seed /\ 8 * len seed < 2 ^ 32 /\ 0 <= o_sparsity o /\ skip_of o + 8 * len seed <= 2 ^ 32.

Record BInv (n : nat) (o : options) (m : mutator) (seed cur : list Z) (R : list (list Z)) : Prop := {
  b_in : input m = seed; b_cur : current m = cur; b_size : size m = len seed; b_seed : bytes seed; b_curb : bytes cur;
  b_curl : len cur = len seed; b_n : Z.of_nat n = 8 * len seed; b_pos : 0 < len seed; b_lim : Z.of_nat n < 2 ^ 32;
  b_unit : o_unit (opts m) = UBits; b_alg : o_alg (opts m) = o_alg o; b_cen : o_centric (opts m) = o_centric o;
  b_sp : o_sparsity (opts m) = o_sparsity o; b_sk : 0 < skip_of o; b_skl : skip_of o + Z.of_nat n <= 2 ^ 32;
  b_bc : bit_count (flip m) = Z.of_nat n; b_rem : remaining (Z.to_nat (skip_of o)) n (flip m) R }.

Lemma remaining_none s n f R : remaining s n f R -> (index f = None <-> R = []).
Proof.
  intros [H|b l L E]; [tauto|]. rewrite E. split; [discriminate|]. cbn [keep app]. discriminate.
Qed.

Lemma start_ok junk seed o d : o_unit o = UBits -> good_start seed o ->
  exists m, start junk seed o d = Ok m /\
    BInv (Z.to_nat (8 * len seed)) o m seed seed (bit_sets (Z.to_nat (skip_of o)) (Z.to_nat (8 * len seed))).
Proof.
  intros Hu (Hb & Hp & Hl & Hs & Hw). unfold start. rewrite Hu. unfold bitflip_create. rewrite init_ok by lia. cbn [bind bit_count].
  eexists. split; [reflexivity|]. rewrite u32_small by lia.
  assert (Sk : 0 < skip_of o) by (unfold skip_of; destruct (o_sparsity o =? 0) eqn:Q; lia).
  constructor; cbn [input current size opts flip bit_count]; auto; try lia.
  pose proof (remaining_first (Z.to_nat (skip_of o)) (Z.to_nat (8 * len seed)) 1 ltac:(lia)) as RF.
  replace (Z.of_nat (Z.to_nat (8 * len seed))) with (8 * len seed) in RF by lia.
  replace (S (Z.to_nat (8 * len seed)) - 1)%nat with (Z.to_nat (8 * len seed)) in RF by lia. exact RF.
Qed.

Lemma feedback_binv n o m seed cur R v : BInv n o m seed cur R ->
  BInv n o (feedback m v) (if o_centric o && (0 <? v) then cur else seed) cur R.
Proof.
  intros I. pose proof I as []. unfold feedback. destruct (v <=? 0) eqn:Q.
  - replace (0 <? v) with false by lia. rewrite andb_false_r. exact I.
  - replace (0 <? v) with true by lia. rewrite andb_true_r, b_unit0, b_cen0. destruct (o_centric o) eqn:QC; [|exact I].
    constructor; cbn [with_input input current size opts flip]; auto; try congruence; try lia; try (rewrite b_curl0; auto; lia).
Qed.
Lemma expected_seed c s s' cur vals l : (c = true -> s = s') -> expected c s cur vals l = expected c s' cur vals l.
Proof.
  revert s s' cur vals. induction l as [|[b|v] l IH]; intros s s' cur vals H; cbn [expected]; auto.
  - destruct vals as [|f vals]; [reflexivity|]. destruct c; [rewrite H by auto; reflexivity|]. cbv zeta. f_equal. apply IH. exact H.
  - destruct (0 <? v); [reflexivity|]. apply IH. exact H.
Qed.

Lemma ordered_run junk n o l : o_alg o = AOrdered -> forall m seed cur R,
  BInv n o m seed cur R -> good_requests (len seed) l -> (asks l <= length R)%nat ->
  exists m', run junk m (map of_request l) =
    Ok (expected (o_centric o) seed cur (map (fun S base => flipped (spread (len seed)) base S) R) l, m') /\
    (has_next_value m' = true <-> (asks l < length R)%nat).
Proof.
  intros Ha. induction l as [|[b|v] l IH]; intros m seed cur R I G A; cbn [map of_request run expected].
  - exists m. split; [reflexivity|]. unfold has_next_value. rewrite (b_unit _ _ _ _ _ _ I).
    pose proof (remaining_none _ _ _ _ (b_rem _ _ _ _ _ _ I)) as RN. cbn. destruct (index (flip m)).
    + destruct R; [destruct RN as (_ & X); discriminate X; auto|]. cbn. split; [lia|auto].
    + destruct RN as (X & _). rewrite X by auto. cbn. split; [discriminate|lia].
  - cbn [asks filter length] in A. destruct R as [|S R]; [cbn in A; lia|].
    assert (NI : index (flip m) <> None).
    { intros E. apply (remaining_none _ _ _ _ (b_rem _ _ _ _ _ _ I)) in E. discriminate. }
    pose proof I as []. assert (SK : skip_of (opts m) = skip_of o) by (unfold skip_of; rewrite b_sp0; reflexivity).
    destruct (increment_ok junk m n (S :: R)) as (f & s & R' & ER & Ei & Eb & Ho & Einc & Ebc & Hr); auto; try (rewrite SK; auto); try lia.
    injection ER as <- <-. unfold get_next_value, next_value. rewrite b_alg0, Ha, b_unit0, Ei, b_cen0, b_size0.
    set (base := if o_centric o then input m else b).
    assert (Bb : bytes base /\ len base = len seed).
    { unfold base. destruct (o_centric o); [rewrite b_in0; auto|]. apply G. left. reflexivity. }
    destruct Bb as (Bb & Lb). rewrite <- Lb. rewrite (distribute_set base n S) by (auto; try lia). cbn [bind]. rewrite Einc. cbn [bind].
    set (v := flipped (spread (len base)) base S).
    assert (Vb : bytes v) by (apply flip_from_bytes; exact Bb).
    assert (Vl : len v = len seed) by (unfold v; rewrite flipped_len; exact Lb).
    destruct (IH (with_current (with_flip m f) v) seed v R) as (m' & E & H).
    { constructor; cbn [with_current with_flip input current size opts flip]; auto. rewrite <- SK. exact Hr. }
    { intros b' J. apply G. right. exact J. } { cbn in A. unfold asks. lia. }
    rewrite E. cbn [bind]. exists m'. split.
    + f_equal. f_equal. cbn [map]. rewrite <- Lb. unfold v, base. rewrite b_in0. reflexivity.
    + rewrite H. cbn [asks filter length]. unfold asks. lia.
  - destruct (IH (feedback m v) (if o_centric o && (0 <? v) then cur else seed) cur R (feedback_binv _ _ _ _ _ _ v I)) as (m' & E & H).
    { destruct (o_centric o && (0 <? v)); [rewrite (b_curl _ _ _ _ _ _ I)|]; intros b' J; apply G; right; exact J. }
    { exact A. }
    exists m'. rewrite E. split; [|exact H]. f_equal. f_equal.
    replace (len (if o_centric o && (0 <? v) then cur else seed)) with (len seed) by (destruct (o_centric o && (0 <? v)); [symmetry; apply (b_curl _ _ _ _ _ _ I)|reflexivity]).
    apply expected_seed. intros ->. destruct (0 <? v); reflexivity.
Qed.

Theorem ordered_exact junk seed o d l : o_unit o = UBits -> o_alg o = AOrdered -> good_start seed o -> good_requests (len seed) l ->
  let sets := bit_sets (Z.to_nat (skip_of o)) (Z.to_nat (8 * len seed)) in
  (asks l <= length sets)%nat ->
  exists m m', start junk seed o d = Ok m /\
    run junk m (map of_request l) =
      Ok (expected (o_centric o) seed seed (map (fun S base => flipped (spread (len seed)) base S) sets) l, m') /\
    (has_next_value m' = true <-> (asks l < length sets)%nat).
Proof.
  intros Hu Ha G R sets A. destruct (start_ok junk seed o d Hu G) as (m & E & I).
  destruct (ordered_run junk _ o l Ha m seed seed _ I R A) as (m' & E' & H). exists m, m'. auto.
Qed.
