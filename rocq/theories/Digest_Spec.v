(** What the digests should be: MD5 after RFC 1321, and the CRC bit by bit. *)
From Verif Require Import Base.
Local Open Scope Z_scope.

(** ** RFC 1321 *)

(** The sine of whole numbers of radians, in units of 2^-96: sin 1 and cos 1 by
    their series, the others by the addition formulas. *)
Definition ONE : Z := 2 ^ 96.
Fixpoint series (n : nat) (k term : Z) : Z :=
  match n with
  | O => 0
  | S n' => term + series n' (k + 2) (- term / ((k + 1) * (k + 2)))
  end.
Definition sin1 : Z := series 16 1 ONE.
Definition cos1 : Z := series 16 0 ONE.
Fixpoint sincos (n : nat) : Z * Z :=
  match n with
  | O => (0, ONE)
  | S n' => let '(s, c) := sincos n' in
            ((s * cos1 + c * sin1) / ONE, (c * cos1 - s * sin1) / ONE)
  end.

(** 3.4: T[i] is the integer part of 4294967296 times abs(sin(i)). *)
Definition T (i : nat) : Z := Z.abs (fst (sincos i)) * 2 ^ 32 / ONE.

Definition mask : Z := 2 ^ 32 - 1.
Definition plus (x y : Z) : Z := (x + y) mod 2 ^ 32.
Definition not (x : Z) : Z := mask - x.
(** A rotation, on a number below 2^32. *)
Definition rot (x s : Z) : Z := (x * 2 ^ s) mod 2 ^ 32 + x / 2 ^ (32 - s).

Definition F (x y z : Z) : Z := Z.lor (Z.land x y) (Z.land (not x) z).
Definition G (x y z : Z) : Z := Z.lor (Z.land x z) (Z.land y (not z)).
Definition H (x y z : Z) : Z := Z.lxor x (Z.lxor y z).
Definition I (x y z : Z) : Z := Z.lxor y (Z.lor x (not z)).

(** Operation i, counted from 0, in round i / 16: the function, the word of the
    block and the rotation.  The registers move on by one place each time. *)
Definition func (i : nat) : Z -> Z -> Z -> Z := nth (i / 16) [F; G; H; I] F.
Definition word (i : nat) : nat := nth (i / 16) [i; 1 + 5 * i; 5 + 3 * i; 7 * i]%nat 0%nat mod 16.
Definition shift (i : nat) : Z :=
  nth (i mod 4) (nth (i / 16) [[7; 12; 17; 22]; [5; 9; 14; 20]; [4; 11; 16; 23]; [6; 10; 15; 21]] []) 0.

Definition quad := (Z * Z * Z * Z)%type.
Definition operation (x : list Z) (q : quad) (i : nat) : quad :=
  let '(a, b, c, d) := q in
  (d, plus b (rot (plus (plus a (func i b c d)) (plus (nth (word i) x 0) (T (S i)))) (shift i)), b, c).

(** A block of 64 bytes as 16 words, low-order byte first. *)
Definition word_at (block : list Z) (k : nat) : Z :=
  nth (4 * k) block 0 + nth (4 * k + 1) block 0 * 2 ^ 8 +
  nth (4 * k + 2) block 0 * 2 ^ 16 + nth (4 * k + 3) block 0 * 2 ^ 24.
Definition compress (q : quad) (block : list Z) : quad :=
  let '(a, b, c, d) := q in
  let '(a', b', c', d') := fold_left (operation (map (word_at block) (seq 0 16))) (seq 0 64) q in
  (plus a a', plus b b', plus c c', plus d d').

(** A number in n bytes, low-order byte first. *)
Fixpoint little (n : nat) (v : Z) : list Z :=
  match n with O => [] | S n' => v mod 256 :: little n' (v / 256) end.

(** 3.1 and 3.2: a byte 128, then zeros up to 56 modulo 64, then the length in
    bits, of which the low-order 64 are used. *)
Definition zeros (n : Z) : nat := Z.to_nat ((55 - n) mod 64).
Definition padded (m : list Z) : list Z :=
  let n := Z.of_nat (length m) in
  m ++ [128] ++ repeat 0 (zeros n) ++ little 8 (8 * n mod 2 ^ 64).

Definition block (m : list Z) (i : nat) : list Z := firstn 64 (skipn (64 * i) m).
Definition chain (m : list Z) : quad :=
  fold_left (fun q i => compress q (block m i)) (seq 0 (length m / 64))
    (1732584193, 4023233417, 2562383102, 271733878).

Definition md5 (m : list Z) : list Z :=
  let '(a, b, c, d) := chain (padded m) in little 4 a ++ little 4 b ++ little 4 c ++ little 4 d.

(** ** CRC-32 *)

(** The generator x^32 + x^26 + ... + x + 1 with the low-order powers first. *)
Definition exponents : list Z := [0; 1; 2; 4; 5; 7; 8; 10; 11; 12; 16; 22; 23; 26].
Definition generator : Z := fold_right (fun e r => 2 ^ (31 - e) + r) 0 exponents.

(** Each bit is shifted in, low-order bit of a byte first, and the generator is
    taken off when a one comes out. *)
Definition shift_out (c : Z) : Z := if Z.odd c then Z.lxor (c / 2) generator else c / 2.
Definition crc_bit (c : Z) (b : bool) : Z := shift_out (Z.lxor c (if b then 1 else 0)).
Definition bits (b : Z) : list bool := map (fun i => Z.testbit b (Z.of_nat i)) (seq 0 8).
Definition crc (m : list Z) : Z := fold_left crc_bit (flat_map bits m) (2 ^ 32 - 1).
