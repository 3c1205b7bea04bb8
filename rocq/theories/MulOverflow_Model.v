(** Model of [unsigned_multiply_will_overflow], /repo/common/utils.c:515-550.
    C types are unsigned machine words; the wrap-around is written out. *)
From Verif Require Import Base.
Open Scope Z_scope.

Definition W64 : Z := 2 ^ 64.
Definition W32 : Z := 2 ^ 32.
Definition UINT_MAX : Z := W32 - 1.

(** /repo/common/utils.c:521-544, the X64 branch.  [m0..n1] are size_t,
    [middle] is uint64: each operation is reduced mod 2^64. *)
Definition mul_overflow_x64 (m n : Z) : bool :=
  let m0 := Z.land m 0xffffffff in
  let m1 := Z.land (Z.shiftr m 32) 0xffffffff in
  let n0 := Z.land n 0xffffffff in
  let n1 := Z.land (Z.shiftr n 32) 0xffffffff in
  if (0 <? m1) && (0 <? n1) then true
  else
    let middle := ((m1 * n0) mod W64 + (m0 * n1) mod W64) mod W64 in
    if UINT_MAX <? middle then true
    else if (middle + (m0 * n0) mod W64) mod W64 <? middle then true
    else false.

(** /repo/common/utils.c:545-549, the 32-bit branch: one 64-bit multiply. *)
Definition mul_overflow_x86 (m n : Z) : bool :=
  let ans := (m * n) mod W64 in
  UINT_MAX <? ans.
