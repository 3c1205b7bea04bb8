From Verif Require Import Base MulOverflow_Model.
Open Scope Z_scope.

Lemma land32 x : Z.land x 0xffffffff = x mod W32.
Proof. change 0xffffffff with (Z.ones 32). apply Z.land_ones. lia. Qed.

Lemma split32 m : 0 <= m < W64 ->
  exists m1 m0, m = m1 * W32 + m0 /\ 0 <= m1 < W32 /\ 0 <= m0 < W32 /\
    Z.land m 0xffffffff = m0 /\ Z.land (Z.shiftr m 32) 0xffffffff = m1.
Proof.
  intros H. exists (m / W32), (m mod W32). unfold W64, W32 in *.
  rewrite !land32, Z.shiftr_div_pow2 by lia.
  assert (0 <= m / 2^32 < 2^32).
  { split. apply Z.div_pos; lia. apply Z.div_lt_upper_bound; lia. }
  assert (0 <= m mod 2^32 < 2^32) by (apply Z.mod_pos_bound; lia).
  pose proof (Z.div_mod m (2^32)).
  repeat split; try lia.
  unfold W32. rewrite Z.mod_small; lia.
Qed.

Lemma mul_x86_exact m n : 0 <= m < W32 -> 0 <= n < W32 ->
  mul_overflow_x86 m n = true <-> W32 <= m * n.
Proof.
  intros Hm Hn. unfold mul_overflow_x86, UINT_MAX.
  assert (0 <= m * n <= (W32-1)*(W32-1)) by nia.
  rewrite Z.mod_small. 2:{ unfold W32, W64 in *; lia. }
  rewrite Z.ltb_lt. lia.
Qed.

(** Closed form of the X64 code: what it decides, for all words. *)
Lemma mul_x64_form m1 m0 n1 n0 m n :
  m = m1 * W32 + m0 -> n = n1 * W32 + n0 ->
  0 <= m1 < W32 -> 0 <= m0 < W32 -> 0 <= n1 < W32 -> 0 <= n0 < W32 ->
  Z.land m 0xffffffff = m0 -> Z.land (Z.shiftr m 32) 0xffffffff = m1 ->
  Z.land n 0xffffffff = n0 -> Z.land (Z.shiftr n 32) 0xffffffff = n1 ->
  (mul_overflow_x64 m n = true <->
   (0 < m1 /\ 0 < n1) \/ W32 <= m1 * n0 + m0 * n1).
Proof.
  intros Em En B1 B2 B3 B4 E1 E2 E3 E4.
  unfold mul_overflow_x64. rewrite E1, E2, E3, E4.
  destruct (Z.ltb_spec 0 m1) as [P1|P1]; destruct (Z.ltb_spec 0 n1) as [P2|P2]; cbn [andb].
  1: { split; auto. }
  all: assert (Q: m1 = 0 \/ n1 = 0) by lia.
  all: assert (X1 : 0 <= m1 * n0 <= (W32-1)*(W32-1)) by nia.
  all: assert (X2 : 0 <= m0 * n1 <= (W32-1)*(W32-1)) by nia.
  all: assert (X3 : 0 <= m0 * n0 <= (W32-1)*(W32-1)) by nia.
  all: assert (X4 : 0 <= m1 * n0 + m0 * n1 <= (W32-1)*(W32-1)) by (destruct Q; subst; nia).
  all: generalize dependent (m1 * n0); intros a; intros.
  all: generalize dependent (m0 * n1); intros b; intros.
  all: generalize dependent (m0 * n0); intros c; intros.
  all: unfold UINT_MAX, W32, W64 in *.
  all: rewrite (Z.mod_small a), (Z.mod_small b), (Z.mod_small c) by lia.
  all: rewrite (Z.mod_small (a+b)) by lia.
  all: destruct (Z.ltb_spec (2^32-1) (a+b)).
  all: try (split; intros; auto; right; lia).
  all: rewrite (Z.mod_small (a+b+c)) by lia.
  all: destruct (Z.ltb_spec (a+b+c) (a+b)).
  all: split; intros Y; try discriminate; lia.
Qed.

Lemma mul_x64_sound m n : 0 <= m < W64 -> 0 <= n < W64 ->
  mul_overflow_x64 m n = true -> W64 <= m * n.
Proof.
  intros Hm Hn H.
  destruct (split32 m Hm) as (m1&m0&Em&Bm1&Bm0&L1&L2).
  destruct (split32 n Hn) as (n1&n0&En&Bn1&Bn0&L3&L4).
  eapply mul_x64_form in H; eauto.
  replace W64 with (W32*W32) by reflexivity. subst m n.
  assert (0 < W32) by reflexivity.
  clear - H Bm1 Bm0 Bn1 Bn0 H0. generalize dependent W32; intros w; intros.
  destruct H as [[A B]|A].
  - apply Z.mul_le_mono_nonneg; nia.
  - replace ((m1*w+m0)*(n1*w+n0)) with (m1*n1*w*w + (m1*n0+m0*n1)*w + m0*n0) by ring.
    assert (0 <= m1*n1) by nia. assert (0 <= m1*n1*w) by nia. assert (0 <= m1*n1*w*w) by nia.
    assert (0 <= m0*n0) by nia.
    assert (w*w <= (m1*n0+m0*n1)*w) by (apply Z.mul_le_mono_nonneg_r; lia). lia.
Qed.

(** The check misses an overflow exactly when no partial product overflows
    but the final carry of the two low words does. *)
Lemma mul_x64_miss m n : 0 <= m < W64 -> 0 <= n < W64 ->
  mul_overflow_x64 m n = false ->
  (m / W32) * (n mod W32) + (m mod W32) * (n / W32) < W32 /\
  (m / W32 = 0 \/ n / W32 = 0).
Proof.
  intros Hm Hn H.
  destruct (split32 m Hm) as (m1&m0&Em&Bm1&Bm0&L1&L2).
  destruct (split32 n Hn) as (n1&n0&En&Bn1&Bn0&L3&L4).
  assert (m / W32 = m1 /\ m mod W32 = m0) as [-> ->].
  { assert (0 < W32) by reflexivity. subst m. split.
    symmetry; apply Z.div_unique with m0; lia.
    symmetry; apply Z.mod_unique with m1; lia. }
  assert (n / W32 = n1 /\ n mod W32 = n0) as [-> ->].
  { assert (0 < W32) by reflexivity. subst n. split.
    symmetry; apply Z.div_unique with n0; lia.
    symmetry; apply Z.mod_unique with n1; lia. }
  destruct (mul_x64_form m1 m0 n1 n0 m n) as [_ F]; eauto.
  rewrite H in F.
  split; [|].
  - destruct (Z.lt_ge_cases (m1*n0+m0*n1) W32) as [K|K]; auto.
    discriminate F; auto.
  - destruct (Z.eq_dec m1 0); auto. destruct (Z.eq_dec n1 0); auto.
    discriminate F; left; lia.
Qed.

(** Completeness holds when both factors fit the half word, when one factor
    is a power of two, and in general when the high partial product plus the
    carry stays below: the precise guard is "the low product has no carry". *)
Lemma mul_x64_complete_guard m n : 0 <= m < W64 -> 0 <= n < W64 ->
  (m mod W32) * (n mod W32) < W32 ->
  W64 <= m * n -> mul_overflow_x64 m n = true.
Proof.
  intros Hm Hn G H.
  destruct (mul_overflow_x64 m n) eqn:E; auto. exfalso.
  apply mul_x64_miss in E; auto. destruct E as [E1 E2].
  assert (0 < W32) by reflexivity.
  pose proof (Z.div_mod m W32). pose proof (Z.div_mod n W32).
  pose proof (Z.mod_pos_bound m W32). pose proof (Z.mod_pos_bound n W32).
  set (a := m / W32) in *. set (b := m mod W32) in *.
  set (c := n / W32) in *. set (d := n mod W32) in *.
  replace W64 with (W32*W32) in H by reflexivity.
  assert (m = W32 * a + b) by lia. assert (n = W32 * c + d) by lia.
  rewrite H5, H6 in H. replace ((W32*a+b)*(W32*c+d)) with (a*c*(W32*W32) + (a*d+b*c)*W32 + b*d) in H by ring.
  assert (a*c = 0) as Z0 by (destruct E2 as [E2|E2]; rewrite E2; ring).
  rewrite Z0 in H. 
  assert ((a*d+b*c)*W32 <= (W32-1)*W32) by (apply Z.mul_le_mono_nonneg_r; lia). lia.
Qed.
