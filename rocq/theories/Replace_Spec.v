(** What the C standard (and POSIX/GNU for strchrnul, rawmemchr, memrchr,
    stpcpy) requires of the routines that Dr. Memory replaces.  Stated on
    lists of elements and on bytes of memory, without the model's helpers. *)
From Verif Require Import Base Mem.
Open Scope Z_scope.

(** [s] is the content of a terminated string of [w]-byte characters at [a]. *)
Definition is_str (w : nat) (m : mem) (a : Z) (s : list Z) : Prop :=
  ~ In 0 s /\ elems_at w m a (s ++ [0]).

(** "Possibly terminated array of at most n characters": the characters that a
    bounded routine may look at are [l]. *)
Definition is_bounded (w : nat) (m : mem) (a : Z) (n : nat) (l : list Z) : Prop :=
  elems_at w m a l /\
  ((exists s, ~ In 0 s /\ l = s ++ [0] /\ (length l <= n)%nat) \/
   (~ In 0 l /\ length l = n)).

(** content before the terminator, if any *)
Fixpoint until0 (l : list Z) : list Z :=
  match l with [] => [] | c :: l' => if c =? 0 then [] else c :: until0 l' end.

Definition first_occ (c : Z) (l : list Z) (i : nat) : Prop :=
  nth_error l i = Some c /\ forall j, (j < i)%nat -> nth_error l j <> Some c.
Definition last_occ (c : Z) (l : list Z) (i : nat) : Prop :=
  nth_error l i = Some c /\ forall j, (i < j)%nat -> nth_error l j <> Some c.

(** pointer to the first/last occurrence, or NULL *)
Definition find_first (w : nat) (a c : Z) (l : list Z) (r : option Z) : Prop :=
  match r with
  | Some p => exists i, first_occ c l i /\ p = a + Z.of_nat w * Z.of_nat i
  | None => ~ In c l
  end.
Definition find_last (w : nat) (a c : Z) (l : list Z) (r : option Z) : Prop :=
  match r with
  | Some p => exists i, last_occ c l i /\ p = a + Z.of_nat w * Z.of_nat i
  | None => ~ In c l
  end.

(** result of a comparison of two sequences: sign of the first difference *)
Definition cmp_result (l1 l2 : list Z) (r : Z) : Prop :=
  (l1 = l2 /\ r = 0) \/
  exists p c1 c2 t1 t2, l1 = p ++ c1 :: t1 /\ l2 = p ++ c2 :: t2 /\
    ((c1 < c2 /\ r < 0) \/ (c2 < c1 /\ 0 < r)).

(** length of the longest prefix whose elements satisfy [P] *)
Definition span_len (P : Z -> Prop) (l : list Z) (n : nat) : Prop :=
  (n <= length l)%nat /\ (forall i c, (i < n)%nat -> nth_error l i = Some c -> P c) /\
  (forall c, nth_error l n = Some c -> ~ P c).

(** the needle starts at index [i] of the haystack *)
Definition occurs_at (h n : list Z) (i : nat) : Prop :=
  exists t1 t2, h = t1 ++ n ++ t2 /\ length t1 = i.
Definition find_sub (w : nat) (a : Z) (h n : list Z) (r : option Z) : Prop :=
  match r with
  | Some p => exists i, occurs_at h n i /\ (forall j, (j < i)%nat -> ~ occurs_at h n j) /\
                        p = a + Z.of_nat w * Z.of_nat i
  | None => forall i, ~ occurs_at h n i
  end.

(** [m'] is [m] with the bytes [l] written at [d] and nothing else changed. *)
Definition wrote (m m' : mem) (d : Z) (l : list Z) : Prop :=
  forall x, m' x = if (d <=? x) && (x <? d + Z.of_nat (length l))
                   then nth_error l (Z.to_nat (x - d)) else m x.

Definition disjoint (a n b k : Z) : Prop := a + n <= b \/ b + k <= a.

(** Memory from which everything but the listed (start, length) ranges has been
    unmapped: any access outside them is undefined behaviour. *)
Definition only (m : mem) (rs : list (Z * Z)) : mem :=
  fun x => if existsb (fun r => (fst r <=? x) && (x <? fst r + snd r)) rs then m x else None.

(** a concrete memory used by the examples: bytes [l] at [a] *)
Definition mem_of (a : Z) (l : list Z) : mem :=
  fun x => if (a <=? x) && (x <? a + Z.of_nat (length l)) then nth_error l (Z.to_nat (x - a)) else None.
