(** Property C35: size-overflow detection. *)
From Verif Require Import Base MulOverflow_Model MulOverflow_Proofs.
Open Scope Z_scope.

(** 32-bit build: the check is exact for every pair of words. *)
Theorem C35_mul_overflow_x86_exact : forall m n,
  0 <= m < 2^32 -> 0 <= n < 2^32 ->
  mul_overflow_x86 m n = true <-> 2^32 <= m * n.
Proof. exact mul_x86_exact. Qed.
Print Assumptions C35_mul_overflow_x86_exact.
Example C35_mul_overflow_x86_case :
  mul_overflow_x86 0x10000 0x10000 = true /\ mul_overflow_x86 0xffff 0x10001 = false.
Proof. split; reflexivity. Qed.

(** 64-bit build: a reported overflow is a real overflow. *)
Theorem C35_mul_overflow_x64_sound : forall m n,
  0 <= m < 2^64 -> 0 <= n < 2^64 ->
  mul_overflow_x64 m n = true -> 2^64 <= m * n.
Proof. exact mul_x64_sound. Qed.
Print Assumptions C35_mul_overflow_x64_sound.
Example C35_mul_overflow_x64_sound_case :
  mul_overflow_x64 (2^40) (2^30) = true.
Proof. reflexivity. Qed.

(** 64-bit build: overflow is detected whenever the product of the two low
    halves has no carry into the upper half. *)
Theorem C35_mul_overflow_x64_complete_guarded : forall m n,
  0 <= m < 2^64 -> 0 <= n < 2^64 ->
  (m mod 2^32) * (n mod 2^32) < 2^32 ->
  2^64 <= m * n -> mul_overflow_x64 m n = true.
Proof. exact mul_x64_complete_guard. Qed.
Print Assumptions C35_mul_overflow_x64_complete_guarded.
Example C35_mul_overflow_x64_complete_case :
  let m := 2^63 + 3 in let n := 5 in
  (m mod 2^32) * (n mod 2^32) < 2^32 /\ 2^64 <= m * n.
Proof. vm_compute. split; [reflexivity|discriminate]. Qed.

(** 64-bit build: completeness fails in general: the final-sum test omits the
    [<< 32], so an overflow caused only by the last carry goes unnoticed. *)
Theorem C35_mul_overflow_x64_complete_refuted : exists m n,
  0 <= m < 2^64 /\ 0 <= n < 2^64 /\ 2^64 <= m * n /\ mul_overflow_x64 m n = false.
Proof.
  exists 0x1ffffffff, 0xffffffff.
  repeat split; try (vm_compute; congruence).
Qed.
Print Assumptions C35_mul_overflow_x64_complete_refuted.
