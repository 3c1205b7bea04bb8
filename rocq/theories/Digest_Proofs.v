(** Proofs about the CRC. *)
From Verif Require Import Base Digest_Model Digest_Spec.
Local Open Scope Z_scope.

Lemma half_lxor a b : Z.lxor a b / 2 = Z.lxor (a / 2) (b / 2).
Proof. rewrite <- !Z.div2_div, !Z.div2_spec. apply Z.shiftr_lxor. Qed.

Lemma odd_lxor a b : Z.odd (Z.lxor a b) = xorb (Z.odd a) (Z.odd b).
Proof. rewrite <- !Z.bit0_odd. apply Z.lxor_spec. Qed.

Lemma out_lxor a b : shift_out (Z.lxor a b) = Z.lxor (shift_out a) (shift_out b).
Proof.
  unfold shift_out. rewrite odd_lxor, half_lxor.
  destruct (Z.odd a), (Z.odd b); cbn [xorb]; apply Z.bits_inj'; intros n Hn;
    rewrite ?Z.lxor_spec; repeat destruct (Z.testbit _ n); reflexivity.
Qed.

Lemma out_double n : shift_out (2 * n) = n.
Proof.
  unfold shift_out. rewrite Z.odd_mul. cbn [Z.odd andb]. rewrite Z.mul_comm. apply Z.div_mul. lia.
Qed.

Fixpoint outs (n : nat) (c : Z) : Z := match n with O => c | S n' => outs n' (shift_out c) end.

Lemma outs_lxor n : forall a b, outs n (Z.lxor a b) = Z.lxor (outs n a) (outs n b).
Proof. induction n as [|n IH]; intros a b; cbn [outs]; auto. now rewrite out_lxor. Qed.

Lemma outs_shift n : forall x, outs n (2 ^ Z.of_nat n * x) = x.
Proof.
  induction n as [|n IH]; intros x; cbn [outs]; [cbn; destruct x; auto|].
  replace (2 ^ Z.of_nat (S n) * x) with (2 * (2 ^ Z.of_nat n * x)).
  - rewrite out_double. apply IH.
  - rewrite Nat2Z.inj_succ, Z.pow_succ_r by lia. lia.
Qed.

(** A string of bits as a number. *)
Fixpoint num (l : list bool) : Z :=
  match l with [] => 0 | b :: l' => Z.lxor (if b then 1 else 0) (2 * num l') end.

Lemma crc_outs l : forall c, fold_left crc_bit l c = outs (List.length l) (Z.lxor c (num l)).
Proof.
  induction l as [|b l IH]; intros c; cbn [fold_left List.length outs num].
  { now rewrite Z.lxor_0_r. }
  rewrite IH. unfold crc_bit. f_equal.
  rewrite <- Z.lxor_assoc, (out_lxor _ (2 * num l)), out_double. reflexivity.
Qed.

Lemma num_bits b : num (bits b) = Z.land b 255.
Proof.
  apply Z.bits_inj'. intros n Hn. rewrite Z.land_spec. change 255 with (Z.ones 8).
  assert (E : n = 0 \/ n = 1 \/ n = 2 \/ n = 3 \/ n = 4 \/ n = 5 \/ n = 6 \/ n = 7 \/ 8 <= n) by lia.
  unfold bits. cbn [map seq num Z.of_nat Pos.of_succ_nat Pos.succ].
  repeat (destruct E as [-> | E]);
    [..|rewrite Z.ones_spec_high by lia; rewrite andb_false_r];
    try (rewrite Z.ones_spec_low by lia; rewrite andb_true_r);
    repeat match goal with |- context [Z.testbit b ?k] => destruct (Z.testbit b k) end;
    cbn [num]; try reflexivity;
    apply Z.bits_above_log2; try (vm_compute; discriminate);
    (eapply Z.le_lt_trans; [vm_compute; discriminate|eassumption]) ||
    (match goal with |- Z.log2 ?x < n => let v := eval vm_compute in (Z.log2 x) in
       change (Z.log2 x) with v end; lia).
Qed.

Lemma table_ok : forallb (fun k => outs 8 (Z.of_nat k) =? nth k crctab 0) (seq 0 256) = true.
Proof. vm_compute. reflexivity. Qed.

Lemma table k : 0 <= k < 256 -> nth (Z.to_nat k) crctab 0 = outs 8 k.
Proof.
  intros K. pose proof table_ok as TO. rewrite forallb_forall in TO.
  specialize (TO (Z.to_nat k)). rewrite Z2Nat.id in TO by lia. symmetry. apply Z.eqb_eq, TO.
  apply in_seq. lia.
Qed.

Lemma step_bits c b : crc_step c b = fold_left crc_bit (bits b) c.
Proof.
  rewrite crc_outs, num_bits. change (List.length (bits b)) with 8%nat. unfold crc_step.
  assert (R : 0 <= Z.land (Z.lxor c b) 255 < 256).
  { change 255 with (Z.ones 8). rewrite Z.land_ones by lia. apply Z.mod_pos_bound. lia. }
  rewrite table by auto.
  assert (E : Z.lxor c (Z.land b 255) =
              Z.lxor (2 ^ Z.of_nat 8 * Z.shiftr c 8) (Z.land (Z.lxor c b) 255)).
  { rewrite Z.mul_comm, <- Z.shiftl_mul_pow2 by lia. change (Z.of_nat 8) with 8.
    apply Z.bits_inj'. intros n Hn. rewrite !Z.lxor_spec, !Z.land_spec, !Z.lxor_spec.
    change 255 with (Z.ones 8). destruct (Z.lt_ge_cases n 8).
    - rewrite Z.ones_spec_low, Z.shiftl_spec_low by lia. now rewrite !andb_true_r, xorb_false_l.
    - rewrite Z.ones_spec_high, Z.shiftl_spec_high, Z.shiftr_spec by lia.
      replace (n - 8 + 8) with n by lia. now rewrite !andb_false_r. }
  rewrite E, outs_lxor, outs_shift. reflexivity.
Qed.

Lemma fold_bits m : forall c, fold_left crc_step m c = fold_left crc_bit (flat_map bits m) c.
Proof.
  induction m as [|b m IH]; intros c; cbn [fold_left flat_map]; auto.
  now rewrite fold_left_app, <- step_bits, IH.
Qed.

Lemma crc32_ok m : crc32 m = crc m.
Proof. apply fold_bits. Qed.

(** ** Differences *)

Definition wrd (c : Z) : Prop := 0 <= c < 2 ^ 32.

Lemma word_bits c : wrd c <-> 0 <= c /\ forall n, 32 <= n -> Z.testbit c n = false.
Proof.
  split.
  - intros [A B]. split; auto. intros n N. destruct (Z.eq_dec c 0) as [->|].
    { apply Z.bits_0. }
    apply Z.bits_above_log2; auto. apply Z.log2_lt_pow2; [lia|].
    eapply Z.lt_le_trans; [exact B|]. apply Z.pow_le_mono_r; lia.
  - intros [A B]. split; auto. destruct (Z.eq_dec c 0) as [->|]; [lia|].
    apply Z.log2_lt_pow2; [lia|]. apply Z.lt_nge. intros L.
    assert (0 < c) by lia. pose proof (Z.bit_log2 c H). rewrite B in H0; [discriminate|auto].
Qed.

Lemma lxor_word a b : wrd a -> wrd b -> wrd (Z.lxor a b).
Proof.
  rewrite !word_bits. intros [A A'] [B B']. split; [apply Z.lxor_nonneg; lia|].
  intros n N. rewrite Z.lxor_spec, A', B' by auto. reflexivity.
Qed.

Lemma generator_word : wrd generator.
Proof. unfold wrd. change generator with 3988292384. lia. Qed.

Lemma half_word c : wrd c -> wrd (c / 2) /\ c / 2 < 2 ^ 31.
Proof.
  unfold wrd. intros [X Y]. pose proof (Z.div_pos c 2). 
  assert (c / 2 < 2 ^ 31) by (apply Z.div_lt_upper_bound; lia). lia.
Qed.

Lemma out_word c : wrd c -> wrd (shift_out c).
Proof.
  intros W. destruct (half_word c W). unfold shift_out. destruct (Z.odd c); auto.
  apply lxor_word; auto using generator_word.
Qed.

Lemma out_inj a b : wrd a -> wrd b -> shift_out a = shift_out b -> a = b.
Proof.
  intros WA WB E.
  assert (T31 : forall c, wrd c -> Z.testbit (shift_out c) 31 = Z.odd c).
  { intros c W. destruct (half_word c W) as [H1 H2]. unfold shift_out.
    assert (B31 : Z.testbit (c / 2) 31 = false).
    { destruct (Z.eq_dec (c / 2) 0) as [->|]; [reflexivity|].
      destruct H1. apply Z.bits_above_log2; auto. apply Z.log2_lt_pow2; lia. }
    destruct (Z.odd c); auto. rewrite Z.lxor_spec, B31. reflexivity. }
  assert (O : Z.odd a = Z.odd b) by (rewrite <- (T31 a), <- (T31 b); congruence).
  unfold shift_out in E. rewrite <- O in E.
  assert (Q : a / 2 = b / 2).
  { destruct (Z.odd a); auto.
    apply (f_equal (fun x => Z.lxor x generator)) in E.
    now rewrite !Z.lxor_assoc, Z.lxor_nilpotent, !Z.lxor_0_r in E. }
  rewrite (Z.div_mod a 2), (Z.div_mod b 2), Q by lia. rewrite !Zmod_odd, O. reflexivity.
Qed.

Lemma outs_word n : forall c, wrd c -> wrd (outs n c).
Proof. induction n; intros c W; cbn [outs]; auto using out_word. Qed.

Lemma outs_inj n : forall a b, wrd a -> wrd b -> outs n a = outs n b -> a = b.
Proof.
  induction n as [|n IH]; intros a b WA WB E; cbn [outs] in E; auto.
  apply out_inj; auto. apply IH; auto using out_word.
Qed.

Lemma num_pos l : 0 <= num l.
Proof. induction l as [|b l IH]; cbn [num]; [lia|]. apply Z.lxor_nonneg. destruct b; lia. Qed.

Lemma num_bit l : forall n, Z.testbit (num l) (Z.of_nat n) = nth n l false.
Proof.
  induction l as [|b l IH]; intros n; cbn [num].
  { rewrite Z.bits_0. now destruct n. }
  rewrite Z.lxor_spec. destruct n as [|n].
  - cbn [Z.of_nat nth]. rewrite Z.testbit_even_0. destruct b; reflexivity.
  - rewrite Nat2Z.inj_succ, Z.testbit_even_succ, IH by lia. cbn [nth].
    replace (Z.testbit (if b then 1 else 0) (Z.succ (Z.of_nat n))) with false; [apply xorb_false_l|].
    destruct b; [|now rewrite Z.bits_0]. symmetry. apply Z.bits_above_log2; cbn; lia.
Qed.

Lemma num_word l : (List.length l <= 32)%nat -> wrd (num l).
Proof.
  intros L. apply word_bits. split; [apply num_pos|]. intros n N.
  replace n with (Z.of_nat (Z.to_nat n)) by lia. rewrite num_bit.
  apply nth_overflow. lia.
Qed.

Lemma num_inj a b : List.length a = List.length b -> num a = num b -> a = b.
Proof.
  intros L E. apply (nth_ext a b false false L). intros n N. now rewrite <- !num_bit, E.
Qed.

Lemma bit_word c b : wrd c -> wrd (crc_bit c b).
Proof. intros W. apply out_word, lxor_word; auto. unfold wrd. destruct b; lia. Qed.

Lemma fold_word l : forall c, wrd c -> wrd (fold_left crc_bit l c).
Proof. induction l; intros c W; cbn [fold_left]; auto using bit_word. Qed.

Lemma lxor_cancel a b c : Z.lxor a b = Z.lxor a c -> b = c.
Proof.
  intros E. apply (f_equal (Z.lxor a)) in E.
  now rewrite <- !Z.lxor_assoc, Z.lxor_nilpotent, !Z.lxor_0_l in E.
Qed.

Lemma fold_state l : forall a b, wrd a -> wrd b ->
  fold_left crc_bit l a = fold_left crc_bit l b -> a = b.
Proof.
  induction l as [|x l IH]; intros a b WA WB E; cbn [fold_left] in E; auto.
  apply IH in E; auto using bit_word. unfold crc_bit in E.
  assert (WX : wrd (if x then 1 else 0)) by (unfold wrd; destruct x; lia).
  apply out_inj in E; auto using lxor_word.
  rewrite !(Z.lxor_comm _ (if x then 1 else 0)) in E. eapply lxor_cancel; eauto.
Qed.

Lemma fold_burst d1 d2 c : List.length d1 = List.length d2 -> (List.length d1 <= 32)%nat -> wrd c ->
  fold_left crc_bit d1 c = fold_left crc_bit d2 c -> d1 = d2.
Proof.
  intros L L32 W E. rewrite !crc_outs, <- L in E.
  apply outs_inj in E; [|apply lxor_word; auto; apply num_word; lia..].
  apply lxor_cancel in E. now apply num_inj.
Qed.

Lemma burst m1 m2 p d1 d2 s :
  flat_map bits m1 = p ++ d1 ++ s -> flat_map bits m2 = p ++ d2 ++ s ->
  List.length d1 = List.length d2 -> (List.length d1 <= 32)%nat -> d1 <> d2 ->
  crc32 m1 <> crc32 m2.
Proof.
  intros E1 E2 L L32 N E. unfold crc32 in E. rewrite !fold_bits, E1, E2, !fold_left_app in E.
  assert (W : wrd (fold_left crc_bit p (2 ^ 32 - 1))) by (apply fold_word; unfold wrd; lia).
  apply fold_state in E; auto using fold_word.
  now apply fold_burst in E.
Qed.

(** ** Whole and half *)

Lemma wh_loop_eq l : forall i h c o,
  wh_loop l i h c o =
  (fold_left crc_step l c,
   if (i <=? h) && (h <? i + Z.of_nat (List.length l))
   then fold_left crc_step (firstn (Z.to_nat (h - i) + 1) l) c else o).
Proof.
  induction l as [|b l IH]; intros i h c o; cbn [wh_loop fold_left List.length].
  { replace ((i <=? h) && (h <? i + Z.of_nat 0)) with false; auto.
    destruct (Z.leb_spec i h), (Z.ltb_spec h (i + Z.of_nat 0)); auto; lia. }
  rewrite IH. f_equal. rewrite Nat2Z.inj_succ.
  destruct (Z.eqb_spec i h) as [->|N].
  - replace (h - h) with 0 by lia.
    destruct (Z.leb_spec (h + 1) h); [lia|]. cbn [andb].
    destruct (Z.leb_spec h h); [|lia].
    destruct (Z.ltb_spec h (h + Z.succ (Z.of_nat (List.length l)))); [|lia]. reflexivity.
  - destruct (Z.leb_spec i h), (Z.leb_spec (i + 1) h); cbn [andb]; auto; try lia.
    destruct (Z.ltb_spec h (i + 1 + Z.of_nat (List.length l))),
      (Z.ltb_spec h (i + Z.succ (Z.of_nat (List.length l)))); auto; try lia.
    replace (Z.to_nat (h - i) + 1)%nat with (S (Z.to_nat (h - (i + 1)) + 1)) by lia. reflexivity.
Qed.

Lemma wh_eq m out : m <> [] ->
  whole_and_half m out = (crc m, crc (firstn (List.length m / 2 + 1) m)).
Proof.
  intros N. unfold whole_and_half. rewrite wh_loop_eq.
  assert (P : 0 < Z.of_nat (List.length m)) by (destruct m; [congruence|cbn; lia]).
  pose proof (Z.div_pos (Z.of_nat (List.length m)) 2).
  assert (Z.of_nat (List.length m) / 2 < Z.of_nat (List.length m)) by (apply Z.div_lt; lia).
  destruct (Z.leb_spec 0 (Z.of_nat (List.length m) / 2)); [|lia].
  destruct (Z.ltb_spec (Z.of_nat (List.length m) / 2) (0 + Z.of_nat (List.length m))); [|lia].
  cbn [andb]. rewrite <- !crc32_ok. unfold crc32. f_equal. do 2 f_equal.
  rewrite Z.sub_0_r. change 2 with (Z.of_nat 2) at 1. rewrite <- Nat2Z.inj_div, Nat2Z.id. reflexivity.
Qed.

Lemma wh_whole m out : fst (whole_and_half m out) = crc32 m.
Proof. unfold whole_and_half. rewrite wh_loop_eq. reflexivity. Qed.
