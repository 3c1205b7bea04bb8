(** Two-bit fields of words and bytes. *)
From Verif Require Import Base Mem Umbra_Model Umbra_Spec Shadow_Model Shadow_Spec.
From Coq Require Import Lia.
Open Scope Z_scope.

Lemma two_field w s : 0 <= s -> Z.land (Z.shiftr w s) 3 = w / 2 ^ s mod 4.
Proof.
  intros H. rewrite Z.shiftr_div_pow2 by lia. change 3 with (Z.ones 2).
  rewrite Z.land_ones by lia. reflexivity.
Qed.

Lemma land3_bits a b : (forall i, 0 <= i < 2 -> Z.testbit a i = Z.testbit b i) -> Z.land a 3 = Z.land b 3.
Proof.
  intros H. apply Z.bits_inj'. intros n Hn. rewrite !Z.land_spec. change 3 with (Z.ones 2).
  destruct (Z_lt_dec n 2) as [L|L].
  - rewrite H by lia. reflexivity.
  - rewrite Z.ones_spec_high by lia. rewrite !andb_false_r. reflexivity.
Qed.

(** The bits of [set_2bits]. *)
Lemma w32_bit x n : 0 <= n -> Z.testbit (w32 x) n = (n <? 32) && Z.testbit x n.
Proof.
  intros H. unfold w32. destruct (Z.ltb_spec n 32); cbn [andb].
  - apply Z.mod_pow2_bits_low. lia.
  - apply Z.mod_pow2_bits_high. lia.
Qed.

Lemma small_bits x k n : 0 <= x < 2 ^ k -> k <= n -> 0 <= k -> Z.testbit x n = false.
Proof.
  intros H Hn Hk. destruct (Z.eq_dec x 0) as [->|Hx]; [apply Z.bits_0|].
  apply Z.bits_above_log2; [lia|]. apply Z.log2_lt_pow2; [lia|].
  apply Z.lt_le_trans with (2 ^ k); [lia|]. apply Z.pow_le_mono_r; lia.
Qed.

Lemma set_2bits_bit w v s n : 0 <= w < 2 ^ 32 -> 0 <= v < 4 -> 0 <= s <= 30 -> 0 <= n ->
  Z.testbit (set_2bits w v s) n =
  if (s <=? n) && (n <? s + 2) then Z.testbit v (n - s) else Z.testbit w n.
Proof.
  intros Hw Hv Hs Hn. unfold set_2bits. cbv zeta.
  rewrite Z.lor_spec, Z.land_spec, Z.lor_spec, !w32_bit by lia.
  destruct (Z.leb_spec s n) as [A|A]; cbn [andb].
  2:{ rewrite Z.lnot_spec by lia. rewrite w32_bit by lia.
      rewrite !Z.shiftl_spec by lia.
      rewrite (Z.testbit_neg_r v (n - s)) by lia.
      rewrite (Z.testbit_neg_r 4294967295 (n - s)) by lia.
      destruct (Z.ltb_spec n 32); [|lia]. cbn [andb orb negb]. rewrite orb_true_r, andb_true_r, orb_false_r. reflexivity. }
  destruct (Z.ltb_spec n (s + 2)) as [B|B].
  - destruct (Z.ltb_spec n 32); [|lia]. cbn [andb]. rewrite !Z.shiftl_spec by lia.
    rewrite Z.lnot_spec by lia. rewrite w32_bit by lia. rewrite Z.shiftl_spec by lia.
    destruct (Z.ltb_spec n 32); [|lia]. cbn [andb].
    assert (C : n - s = 0 \/ n - s = 1) by lia.
    replace (Z.testbit 4294967295 (n - s)) with true by (destruct C as [-> | ->]; reflexivity).
    rewrite Z.lor_spec. replace (Z.testbit 4294967292 (n - s)) with false by (destruct C as [-> | ->]; reflexivity).
    cbn [andb orb negb]. rewrite orb_false_r. destruct (Z.testbit w n), (Z.testbit v (n - s)); reflexivity.
  - destruct (Z.ltb_spec n 32) as [C|C]; cbn [andb].
    + rewrite !Z.shiftl_spec by lia. rewrite Z.lor_spec.
      rewrite (small_bits v 2 (n - s)) by lia.
      replace (Z.testbit 4294967292 (n - s)) with true.
      2:{ symmetry. assert (D : 2 <= n - s < 32) by lia. revert D. generalize (n - s). intros k Hk.
          change 4294967292 with (Z.shiftl (Z.ones 30) 2). rewrite Z.shiftl_spec by lia.
          apply Z.ones_spec_low. lia. }
      cbn [andb orb negb]. rewrite andb_true_r, orb_false_r. reflexivity.
    + rewrite (small_bits w 32 n) by lia. reflexivity.
Qed.

(** Reading a field back after writing one. *)
Lemma get_set_2bits w v s s' : 0 <= w < 2 ^ 32 -> 0 <= v < 4 -> 0 <= s <= 30 -> 0 <= s' ->
  s mod 2 = 0 -> s' mod 2 = 0 ->
  set_2bits w v s / 2 ^ s' mod 4 = if s' =? s then v else w / 2 ^ s' mod 4.
Proof.
  intros Hw Hv Hs Hs' E E'. rewrite <- two_field by lia.
  destruct (Z.eqb_spec s' s) as [->|N].
  - transitivity (Z.land v 3); [|change 3 with (Z.ones 2); rewrite Z.land_ones by lia; apply Z.mod_small; lia].
    apply land3_bits. intros i Hi. rewrite Z.shiftr_spec by lia. rewrite set_2bits_bit by lia.
    replace ((s <=? i + s) && (i + s <? s + 2)) with true by lia. f_equal. lia.
  - rewrite <- two_field by lia. apply land3_bits. intros i Hi. rewrite !Z.shiftr_spec by lia.
    rewrite set_2bits_bit by lia.
    replace ((s <=? i + s') && (i + s' <? s + 2)) with false; [reflexivity|]. symmetry.
    apply andb_false_iff. assert (s' <= s - 2 \/ s + 2 <= s') by lia. destruct H; [left|right]; lia.
Qed.

(** The four bytes of a word, and the fields of each. *)
Definition wbyte (w k : Z) : Z := w / 256 ^ k mod 256.
Lemma wbyte_two w k j : 0 <= k -> 0 <= j < 4 -> two (wbyte w k) j = w / 2 ^ (8 * k + 2 * j) mod 4.
Proof.
  intros Hk Hj. unfold two, wbyte. rewrite Z.pow_add_r, (Z.pow_mul_r 2 8), (Z.pow_mul_r 2 2) by lia.
  change (2 ^ 8) with 256. change (2 ^ 2) with 4.
  rewrite <- Z.div_div by (apply Z.pow_nonzero || apply Z.pow_pos_nonneg; lia).
  generalize (w / 256 ^ k). intros u.
  assert (C : j = 0 \/ j = 1 \/ j = 2 \/ j = 3) by lia.
  destruct C as [->|[->|[->| ->]]]; [change (4 ^ 0) with 1|change (4 ^ 1) with 4|change (4 ^ 2) with 16|change (4 ^ 3) with 64]; lia.
Qed.

Definition bytes4 (mm : mem) (a : Z) : Prop :=
  forall k, 0 <= k < 4 -> exists v, mm (a + k) = Some v /\ 0 <= v < 256.

Lemma load_word mm a : bytes4 mm a -> exists w, loadn 4 mm a = Ok w /\ 0 <= w < 2 ^ 32 /\
  forall k, 0 <= k < 4 -> mm (a + k) = Some (wbyte w k).
Proof.
  intros H. destruct (H 0 ltac:(lia)) as (b0 & E0 & R0). destruct (H 1 ltac:(lia)) as (b1 & E1 & R1).
  destruct (H 2 ltac:(lia)) as (b2 & E2 & R2). destruct (H 3 ltac:(lia)) as (b3 & E3 & R3).
  rewrite Z.add_0_r in E0. exists (b0 + 256 * (b1 + 256 * (b2 + 256 * (b3 + 256 * 0)))). split; [|split].
  - cbn [loadn]. rewrite E0. rewrite E1. replace (a + 1 + 1) with (a + 2) by lia. rewrite E2.
    replace (a + 2 + 1) with (a + 3) by lia. rewrite E3. reflexivity.
  - lia.
  - intros k Hk. unfold wbyte. assert (C : k = 0 \/ k = 1 \/ k = 2 \/ k = 3) by lia.
    destruct C as [->|[->|[->| ->]]];
      [change (256 ^ 0) with 1; rewrite Z.add_0_r, E0|change (256 ^ 1) with 256; rewrite E1|
       change (256 ^ 2) with 65536; rewrite E2|change (256 ^ 3) with 16777216; rewrite E3]; f_equal; lia.
Qed.

Lemma store_word mm a w : bytes4 mm a -> exists mm', storen 4 mm a w = Ok mm' /\
  forall x, mm' x = if (a <=? x) && (x <? a + 4) then Some (wbyte w (x - a)) else mm x.
Proof.
  intros H. destruct (H 0 ltac:(lia)) as (b0 & E0 & R0). destruct (H 1 ltac:(lia)) as (b1 & E1 & R1).
  destruct (H 2 ltac:(lia)) as (b2 & E2 & R2). destruct (H 3 ltac:(lia)) as (b3 & E3 & R3).
  rewrite Z.add_0_r in E0. cbn [storen]. rewrite E0.
  unfold upd at 1. replace (a + 1 =? a) with false by lia. rewrite E1.
  unfold upd at 1 2. replace (a + 1 + 1 =? a + 1) with false by lia. replace (a + 1 + 1 =? a) with false by lia.
  replace (a + 1 + 1) with (a + 2) by lia. rewrite E2.
  unfold upd at 1 2 3. replace (a + 2 + 1 =? a + 2) with false by lia. replace (a + 2 + 1 =? a + 1) with false by lia.
  replace (a + 2 + 1 =? a) with false by lia. replace (a + 2 + 1) with (a + 3) by lia. rewrite E3.
  eexists. split; [reflexivity|]. intros x. unfold upd, wbyte.
  destruct (Z.eqb_spec x (a + 3)) as [->|N3].
  { replace ((a <=? a + 3) && (a + 3 <? a + 4)) with true by lia. replace (a + 3 - a) with 3 by lia.
    change (256 ^ 3) with (256 * 256 * 256). f_equal. rewrite <- !Z.div_div by lia. reflexivity. }
  destruct (Z.eqb_spec x (a + 2)) as [->|N2].
  { replace ((a <=? a + 2) && (a + 2 <? a + 4)) with true by lia. replace (a + 2 - a) with 2 by lia.
    change (256 ^ 2) with (256 * 256). f_equal. rewrite <- !Z.div_div by lia. reflexivity. }
  destruct (Z.eqb_spec x (a + 1)) as [->|N1].
  { replace ((a <=? a + 1) && (a + 1 <? a + 4)) with true by lia. replace (a + 1 - a) with 1 by lia. reflexivity. }
  destruct (Z.eqb_spec x a) as [->|N0].
  { replace ((a <=? a) && (a <? a + 4)) with true by lia. rewrite Z.sub_diag. change (256 ^ 0) with 1. rewrite Z.div_1_r. reflexivity. }
  replace ((a <=? x) && (x <? a + 4)) with false by lia. reflexivity.
Qed.

Lemma bitmap_get mm bm i : 0 <= i -> bytes4 mm (bm + 4 * (i / 16)) ->
  exists b, mm (bm + i / 4) = Some b /\ bitmapx2_get mm bm i = Ok (two b (i mod 4)).
Proof.
  intros Hi H. destruct (load_word mm _ H) as (w & E & R & B).
  exists (wbyte w (i / 4 mod 4)). split.
  - rewrite <- B by lia. f_equal. lia.
  - unfold bitmapx2_get. rewrite E. cbn [bind]. f_equal.
    rewrite two_field by lia. rewrite wbyte_two by lia. replace (8 * (i / 4 mod 4) + 2 * (i mod 4)) with (i mod 16 * 2) by lia. reflexivity.
Qed.

Lemma wbyte_range w k : 0 <= wbyte w k < 256. Proof. unfold wbyte. apply Z.mod_pos_bound. lia. Qed.

Lemma bitmap_set mm bm i v : 0 <= i -> 0 <= v < 4 -> bytes4 mm (bm + 4 * (i / 16)) ->
  exists mm', bitmapx2_set mm bm i v = Ok mm' /\
    (forall x, ~ bm + 4 * (i / 16) <= x < bm + 4 * (i / 16) + 4 -> mm' x = mm x) /\
    (forall x, bm + 4 * (i / 16) <= x < bm + 4 * (i / 16) + 4 ->
       exists b b', mm x = Some b /\ mm' x = Some b' /\ 0 <= b' < 256 /\
         forall j, 0 <= j < 4 ->
           two b' j = if (x =? bm + i / 4) && (j =? i mod 4) then v else two b j).
Proof.
  intros Hi Hv H. destruct (load_word mm _ H) as (w & E & R & B).
  destruct (store_word mm _ (set_2bits w v (i mod 16 * 2)) H) as (mm' & E' & S).
  exists mm'. split; [|split].
  - unfold bitmapx2_set. rewrite E. cbn [bind]. exact E'.
  - intros x Hx. rewrite S. replace ((bm + 4 * (i / 16) <=? x) && (x <? bm + 4 * (i / 16) + 4)) with false by lia. reflexivity.
  - set (a := bm + 4 * (i / 16)) in *. intros x Hx. exists (wbyte w (x - a)), (wbyte (set_2bits w v (i mod 16 * 2)) (x - a)).
    split; [rewrite <- B by lia; f_equal; lia|]. split.
    + rewrite S. replace ((a <=? x) && (x <? a + 4)) with true by lia. reflexivity.
    + split; [apply wbyte_range|]. intros j Hj. rewrite !wbyte_two by lia.
      rewrite get_set_2bits by lia.
      replace (8 * (x - a) + 2 * j =? i mod 16 * 2) with ((x =? bm + i / 4) && (j =? i mod 4)); [reflexivity|].
      subst a. apply eq_true_iff_eq. rewrite andb_true_iff, !Z.eqb_eq. lia.
Qed.
