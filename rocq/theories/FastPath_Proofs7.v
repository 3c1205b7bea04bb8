(** Extensions, string copies, exchanges, and bytes made from the flags. *)
From Verif Require Import Base ShadowTables_Model FastPath_Model FastPath_Spec FastPath_Abs FastPath_Run
  FastPath_Proofs.
Open Scope Z_scope.


Lemma good_ext whole reuse op ss g o base : op = Omovzx \/ op = Omovsx -> ss <> S4 -> writable o ->
  good (parts whole reuse (i_ext op S4 ss g o base)) (uses_mem (i_ext op S4 ss g o base))
    (fun v => usable v (bytes ss) (aop_of ss o)) (post_ext op ss g o).
Proof.
  intros OO S W. destruct o as [g' hi'| |z]; [| |contradiction W].
  - destruct (gpr_cases g g') as [<-|[N N']];
      (destruct OO; subst op; (destruct ss; [destruct hi'| |exfalso; apply S; reflexivity]); code).
    all: first [named [g; g']|named [g]].
    all: crunch.
    all: atom.
  - destruct OO; subst op; (destruct ss; [| |exfalso; apply S; reflexivity]); code.
    all: named [g]; low2bits x.
    all: crunch.
    all: atom.
Qed.

Lemma good_ext2 whole reuse op g o base : op = Omovzx \/ op = Omovsx -> writable o ->
  good (parts whole reuse (i_ext op S2 S1 g o base)) (uses_mem (i_ext op S2 S1 g o base))
    (fun v => clean S1 v o) (post_ext2 g o).
Proof.
  intros OO W. destruct o as [g' hi'| |z]; [| |contradiction W].
  - destruct (gpr_cases g g') as [<-|[N N']];
      (destruct OO; subst op; destruct hi', whole; code).
    all: first [named [g; g']|named [g]].
    all: crunch.
    all: atom.
  - destruct OO; subst op; destruct whole; code.
    all: named [g]; low2bits x.
    all: crunch.
    all: atom.
Qed.

Lemma good_movs whole reuse s base :
  good (parts whole reuse (i_movs s base)) (uses_mem (i_movs s base)) (fine_movs s) (post_movs s).
Proof.
  destruct s, whole, reuse; code.
  all: named (@nil gpr); low2bits x; low2bits y; destruct q.
  all: crunch.
  all: atom.
Qed.

Lemma good_setf whole reuse d base : writable d ->
  good (parts whole reuse (i_setf d base)) (uses_mem (i_setf d base))
    (fun v => usable v 1 (aop_of S1 d) /\ v_fl v = zero8) (post_setf d).
Proof.
  intros W. destruct d as [g hi| |z]; [| |contradiction W].
  - destruct hi, whole; code.
    all: named [g].
    all: crunch.
    all: atom.
  - destruct whole; code.
    all: named (@nil gpr); low2bits x.
    all: crunch.
    all: atom.
Qed.
