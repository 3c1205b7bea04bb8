(** What the bitwise shifts of the specification compute, and the instructions
    that launder. *)
From Verif Require Import Base Def_Model Def_Spec Def_Proofs.
Open Scope Z_scope.

(** ** Numbers *)

Lemma low_bits a b k p : 0 <= p < k -> 0 <= a < 2 ^ k ->
  Z.testbit (a + b * 2 ^ k) p = Z.testbit a p.
Proof.
  intros Hp Ha. rewrite <- (Z.mod_pow2_bits_low (a + b * 2 ^ k) k p) by lia.
  rewrite Z.mod_add by lia. now rewrite Z.mod_small by lia.
Qed.

Lemma high_bits a b k p : 0 <= k <= p -> 0 <= a < 2 ^ k ->
  Z.testbit (a + b * 2 ^ k) p = Z.testbit b (p - k).
Proof.
  intros Hp Ha. replace p with (p - k + k) at 1 by lia.
  rewrite <- Z.div_pow2_bits by lia. rewrite Z.div_add by lia.
  rewrite Z.div_small by lia. now rewrite Z.add_0_l.
Qed.

Lemma pow256 n : 256 ^ Z.of_nat n = 2 ^ (8 * Z.of_nat n).
Proof. change 256 with (2 ^ 8). rewrite <- Z.pow_mul_r by lia. reflexivity. Qed.

Lemma number_range v n : bytes (Z.of_nat n) v -> 0 <= number v n < 2 ^ (8 * Z.of_nat n).
Proof.
  induction n as [|n IH]; intros H; [cbn; lia|]. cbn [number].
  assert (H1 : bytes (Z.of_nat n) v) by (intros j Hj; apply H; lia).
  specialize (IH H1). rewrite pow256.
  replace (8 * Z.of_nat (S n)) with (8 + 8 * Z.of_nat n) by lia.
  rewrite Z.pow_add_r by lia. change (2 ^ 8) with 256.
  specialize (H (Z.of_nat n)). nia.
Qed.

Lemma number_bits v n p : bytes (Z.of_nat n) v -> 0 <= p ->
  Z.testbit (number v n) p = bit v (Z.of_nat n) p.
Proof.
  induction n as [|n IH]; intros H Hp.
  - cbn [number]. rewrite Z.testbit_0_l. unfold bit.
    replace ((0 <=? p) && (p <? 8 * Z.of_nat 0)) with false by lia. reflexivity.
  - assert (H1 : bytes (Z.of_nat n) v) by (intros j Hj; apply H; lia).
    pose proof (number_range v n H1) as HR. cbn [number]. rewrite pow256.
    destruct (Z_lt_dec p (8 * Z.of_nat n)) as [Hl|Hl].
    + rewrite low_bits by lia. rewrite IH by assumption. unfold bit.
      replace (p <? 8 * Z.of_nat n) with true by lia.
      replace (p <? 8 * Z.of_nat (S n)) with true by lia. reflexivity.
    + rewrite high_bits by lia. unfold bit. replace (0 <=? p) with true by lia. cbn [andb].
      destruct (p <? 8 * Z.of_nat (S n)) eqn:E.
      * replace (p / 8) with (Z.of_nat n) by (Z.div_mod_to_equations; lia).
        cbn [andb]. f_equal. Z.div_mod_to_equations; lia.
      * cbn [andb]. specialize (H (Z.of_nat n) ltac:(lia)).
        apply Z.testbit_false; [lia|].
        rewrite Z.div_small; [reflexivity|]. split; [lia|].
        apply Z.lt_le_trans with (2 ^ 8); [exact (proj2 H)|].
        apply Z.pow_le_mono_r; lia.
Qed.

Lemma byte_bits : forall m, 0 <= m < 256 -> byte_of (Z.testbit m) = m.
Proof.
  assert (H : forallb (fun k => byte_of (Z.testbit (Z.of_nat k)) =? Z.of_nat k) (seq 0 256) = true)
    by (vm_compute; reflexivity).
  intros m Hm. rewrite forallb_forall in H. specialize (H (Z.to_nat m)).
  rewrite Z2Nat.id in H by lia. apply Z.eqb_eq, H, in_seq. lia.
Qed.

Lemma byte_at x j g : 0 <= j -> (forall t, 0 <= t < 8 -> g t = Z.testbit x (8 * j + t)) ->
  byte_of g = x / 256 ^ j mod 256.
Proof.
  intros Hj Hg.
  replace (256 ^ j) with (2 ^ (8 * j)) by (change 256 with (2 ^ 8); rewrite <- Z.pow_mul_r; lia).
  rewrite <- (byte_bits (x / 2 ^ (8 * j) mod 256)) by (apply Z.mod_pos_bound; lia).
  assert (H : forall t, 0 <= t < 8 -> g t = Z.testbit (x / 2 ^ (8 * j) mod 256) t).
  { intros t Ht. change 256 with (2 ^ 8). rewrite Z.mod_pow2_bits_low by lia.
    rewrite Z.div_pow2_bits by lia. rewrite Hg by assumption. f_equal. lia. }
  unfold byte_of. rewrite (H 0), (H 1), (H 2), (H 3), (H 4), (H 5), (H 6), (H 7) by lia.
  reflexivity.
Qed.

Lemma zero_above x k p : 0 <= x < 2 ^ k -> 0 <= k <= p -> Z.testbit x p = false.
Proof.
  intros Hx Hk. apply Z.testbit_false; [lia|]. rewrite Z.div_small; [reflexivity|].
  split; [lia|]. apply Z.lt_le_trans with (2 ^ k); [lia|]. apply Z.pow_le_mono_r; lia.
Qed.

Lemma signed_bits v n p : (0 < n)%nat -> bytes (Z.of_nat n) v -> 0 <= p ->
  Z.testbit (signed v n) p = bit v (Z.of_nat n) (Z.min p (8 * Z.of_nat n - 1)).
Proof.
  intros Hn H Hp. unfold signed. cbv zeta.
  pose proof (number_range v n H) as HR. pose proof (number_bits v n) as HB.
  set (x := number v n) in *. set (k := 8 * Z.of_nat n) in *.
  assert (Hk : 8 <= k) by lia.
  rewrite <- HB by (try assumption; lia). clear HB.
  assert (Hpow : 2 ^ k = 2 * 2 ^ (k - 1)).
  { replace k with (1 + (k - 1)) at 1 by lia. rewrite Z.pow_add_r by lia. reflexivity. }
  assert (Hpk : 0 < 2 ^ (k - 1)) by (apply Z.pow_pos_nonneg; lia).
  destruct (x <? 2 ^ (k - 1)) eqn:E.
  - destruct (Z_lt_dec p k) as [Hl|Hl]; [f_equal; lia|].
    rewrite (zero_above x (k - 1) p) by lia.
    symmetry. apply (zero_above x (k - 1)); lia.
  - destruct (Z_lt_dec p k) as [Hl|Hl].
    + rewrite Z.min_l by lia. replace (x - 2 ^ k) with (x + (-1) * 2 ^ k) by lia.
      apply low_bits; lia.
    + rewrite Z.min_r by lia. replace (x - 2 ^ k) with (x + (-1) * 2 ^ k) by lia.
      rewrite high_bits by lia.
      replace (Z.testbit (-1) (p - k)) with true by (symmetry; apply Z.bits_m1; lia).
      symmetry. apply Z.testbit_true; [lia|].
      replace (x / 2 ^ (k - 1)) with 1; [reflexivity|].
      apply Z.div_unique with (x - 2 ^ (k - 1)); lia.
Qed.

Lemma shift_meaning n c v j :
  (0 < n)%nat -> bytes (Z.of_nat n) v -> 0 <= c -> 0 <= j < Z.of_nat n ->
  shl (Z.of_nat n) c v j = number v n * 2 ^ c / 256 ^ j mod 256 /\
  shr (Z.of_nat n) c v j = number v n / 2 ^ c / 256 ^ j mod 256 /\
  sar (Z.of_nat n) c v j = signed v n / 2 ^ c / 256 ^ j mod 256.
Proof.
  intros Hn H Hc Hj. split; [|split].
  - unfold shl. apply byte_at; [lia|]. intros t Ht.
    destruct (Z_lt_dec (8 * j + t - c) 0) as [Hl|Hl].
    + rewrite Z.mul_pow2_bits_low by lia. unfold bit.
      replace (0 <=? 8 * j + t - c) with false by lia. reflexivity.
    + replace (8 * j + t) with (c + (8 * j + t - c)) at 2 by lia.
      rewrite Z.mul_pow2_bits_add by lia. symmetry. apply number_bits; [assumption|lia].
  - unfold shr. apply byte_at; [lia|]. intros t Ht.
    rewrite Z.div_pow2_bits by lia. symmetry. apply number_bits; [assumption|lia].
  - unfold sar. apply byte_at; [lia|]. intros t Ht.
    rewrite Z.div_pow2_bits by lia. symmetry. apply signed_bits; try assumption. lia.
Qed.

Lemma carry_meaning n c v :
  (0 < n)%nat -> bytes (Z.of_nat n) v -> 1 <= c <= 8 * Z.of_nat n ->
  carry Op_shl (Z.of_nat n) c v = Z.odd (number v n / 2 ^ (8 * Z.of_nat n - c)) /\
  carry Op_shr (Z.of_nat n) c v = Z.odd (number v n / 2 ^ (c - 1)) /\
  carry Op_sar (Z.of_nat n) c v = Z.odd (signed v n / 2 ^ (c - 1)).
Proof.
  intros Hn H Hc.
  assert (O : forall x p, 0 <= p -> Z.odd (x / 2 ^ p) = Z.testbit x p).
  { intros x p Hp. rewrite <- Z.bit0_odd, Z.div_pow2_bits by lia. f_equal. }
  rewrite !O by lia. cbn [carry].
  rewrite !number_bits by (try assumption; lia).
  rewrite signed_bits by (try assumption; lia). repeat split; reflexivity.
Qed.

(** ** Laundering *)

Lemma launders leave x64 i f res vs ws old old' fl fl' k d x :
  agree_srcs leave i vs ws -> agree_old i old old' -> agree_flags leave i f fl fl' ->
  nth_error (i_dsts i) k = Some d -> counts i d = true ->
  (d_mem d = true -> 0 <= x < d_size d) ->
  match propagate leave x64 i f with
  | Ok (ds, _) =>
      match nth_error ds k with
      | Some st =>
          negb (st x =? UNDEFINED) &&
          negb (contents x64 i d (res vs fl old (Z.of_nat k)) (old (Z.of_nat k)) x =?
                contents x64 i d (res ws fl' old' (Z.of_nat k)) (old' (Z.of_nat k)) x)
      | None => false
      end
  | _ => false
  end = true ->
  ~ no_laundering leave x64 i f res.
Proof.
  intros HA HO HF Hd HC Hm H (ds & f' & HP & _ & HN). rewrite HP in H.
  destruct (nth_error ds k) as [st|] eqn:Es; [|discriminate].
  apply andb_true_iff in H. destruct H as [H1 H2].
  apply negb_true_iff, Z.eqb_neq in H1. apply negb_true_iff, Z.eqb_neq in H2.
  apply H2. exact (HN vs ws old old' fl fl' HA HO HF k d st x Hd Es HC Hm H1).
Qed.

(** Operands and instructions for the concrete cases. *)
Definition undef : Z -> Z := fun _ => UNDEFINED.
Definition def : Z -> Z := fun _ => DEFINED.
Definition reg_part (n full : Z) (sh : Z -> Z) : operand :=
  {| o_imm := false; o_mem := false; o_size := n; o_regsize := full; o_regno := 0;
     o_xsp := false; o_check := false; o_sh := sh |}.
Definition reg (n : Z) (sh : Z -> Z) : operand := reg_part n n sh.
Definition mem (n : Z) (sh : Z -> Z) : operand :=
  {| o_imm := false; o_mem := true; o_size := n; o_regsize := 0; o_regno := 0;
     o_xsp := false; o_check := false; o_sh := sh |}.
Definition imm8 : operand :=
  {| o_imm := true; o_mem := false; o_size := 1; o_regsize := 0; o_regno := 0;
     o_xsp := false; o_check := false; o_sh := def |}.
Definition checked : operand :=
  {| o_imm := false; o_mem := false; o_size := 1; o_regsize := 4; o_regno := 1;
     o_xsp := false; o_check := true; o_sh := def |}.
Definition check (o : operand) : operand :=
  {| o_imm := o_imm o; o_mem := o_mem o; o_size := o_size o; o_regsize := o_regsize o; o_regno := o_regno o;
     o_xsp := o_xsp o; o_check := true; o_sh := o_sh o |}.
Definition gpr (k : Z) (sh : Z -> Z) : operand :=
  {| o_imm := false; o_mem := false; o_size := 4; o_regsize := 4; o_regno := k;
     o_xsp := false; o_check := false; o_sh := sh |}.
Definition to_part (n full : Z) (sh : Z -> Z) : dest :=
  {| d_mem := false; d_size := n; d_regsize := full; d_offs := 0; d_regno := 0;
     d_gpr := false; d_xsp := false; d_prior := sh |}.
Definition to_reg (n : Z) : dest := to_part n n undef.
Definition to_mem (n : Z) : dest :=
  {| d_mem := true; d_size := n; d_regsize := 0; d_offs := 0; d_regno := 0;
     d_gpr := false; d_xsp := false; d_prior := undef |}.
Definition ins (o : opcode) (srcs : list operand) (dsts : list dest) (val : option Z)
    (wflags rflags : bool) : instr :=
  {| i_opc := o; i_srcs := srcs; i_dsts := dsts; i_val := val; i_wflags := wflags;
     i_rflags := rflags; i_check := false; i_always := false; i_pushpop := false |}.

(** Only byte [b] is uninitialised. *)
Definition but (b : Z) : Z -> Z := fun x => if x =? b then UNDEFINED else DEFINED.

(** The states afterwards of the first [n] bytes of each destination, and of
    the flags. *)
Fixpoint from (b : Z) (n : nat) (st : Z -> Z) : list Z :=
  match n with O => nil | S n' => st b :: from (b + 1) n' st end.
Definition show (n : nat) (r : res (list (Z -> Z) * Z)) : option (list (list Z) * Z) :=
  match r with Ok (ds, f) => Some (map (from 0 n) ds, f) | _ => None end.

(** Contents that differ in source [k] only. *)
Definition src (k : Z) (v : value) : Z -> value :=
  fun k' => if k' =? k then v else fun _ => 0.
