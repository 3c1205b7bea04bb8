(** Shifts and rotations. *)
From Verif Require Import Base ShadowTables_Model FastPath_Model FastPath_Spec FastPath_Abs FastPath_Run
  FastPath_Proofs.
Open Scope Z_scope.


Lemma good_shift_checked whole reuse op s d n base : writable d -> shifted op s d -> by_bytes n = false ->
  good (parts whole reuse (i_shift op s d n base)) (uses_mem (i_shift op s d n base))
    (fun v => clean s v d) (post_shift_checked s d).
Proof.
  intros W S B. destruct d as [g hi| |z]; [| |contradiction W].
  - destruct op; try contradiction S; (destruct s; [destruct hi| |]); destruct whole; code.
    all: named [g].
    all: crunch.
    all: atom.
  - destruct op; try contradiction S; destruct s; try contradiction S; destruct whole; code.
    all: named (@nil gpr); low2bits x.
    all: crunch.
    all: atom.
Qed.

Lemma whole_bytes m : 0 <= m < 4 -> m = 0 \/ m = 1 \/ m = 2 \/ m = 3.
Proof. lia. Qed.
Lemma good_shift_bytes whole reuse op s d m base : op <> Orot -> writable d -> shifted op s d -> 0 <= m < 4 ->
  good (parts whole reuse (i_shift op s d (8 * m) base)) (uses_mem (i_shift op s d (8 * m) base))
    (fun v => usable v (bytes s) (aop_of s d)) (post_shift_bytes op s d m).
Proof.
  intros R W S B. apply whole_bytes in B. destruct d as [g hi| |z]; [| |contradiction W].
  - destruct op; try contradiction S; try (exfalso; apply R; reflexivity); clear R S; (destruct s; [destruct hi| |]);
      (destruct B as [->|[->|[->| ->]]]); code.
    all: named [g].
    all: crunch.
    all: atom.
  - destruct op; try contradiction S; try (exfalso; apply R; reflexivity); destruct s; try contradiction S; clear R S;
      (destruct B as [->|[->|[->| ->]]]); code.
    all: named (@nil gpr); low2bits x.
    all: crunch.
    all: atom.
Qed.
