(** Arithmetic. *)
From Verif Require Import Base ShadowTables_Model FastPath_Model FastPath_Spec FastPath_Abs FastPath_Run
  FastPath_Proofs.
Open Scope Z_scope.


Lemma good_alu whole reuse op s d o rfl base : alu_op op rfl -> writable d -> one_mem d o ->
  good (parts whole reuse (i_alu op s d o rfl base)) (uses_mem (i_alu op s d o rfl base))
    (fine_alu s d o rfl) (post_alu op s d o rfl).
Proof.
  intros A W O.
  assert (C : op = Oother /\ rfl = true \/ op = Oother /\ rfl = false \/ op = Oxor /\ rfl = false \/ op = Osbb /\ rfl = true)
    by (destruct op, rfl; try contradiction A; try discriminate A; auto 6).
  clear A.
  destruct d as [g hi| |z]; [| |contradiction]; destruct o as [g' hi'| |z']; try contradiction O.
  - destruct (gpr_cases g g') as [<-|[N N']].
    all: destruct s; [destruct hi, hi'| |]; destruct C as [[-> ->]|[[-> ->]|[[-> ->]|[-> ->]]]]; code.
    all: first [named [g; g']|named [g]].
    all: crunch.
    all: atom.
  - destruct s; [destruct hi| |]; destruct C as [[-> ->]|[[-> ->]|[[-> ->]|[-> ->]]]]; code.
    all: named [g]; low2bits x.
    all: crunch.
    all: atom.
  - destruct s; [destruct hi| |]; destruct C as [[-> ->]|[[-> ->]|[[-> ->]|[-> ->]]]]; code.
    all: named [g].
    all: crunch.
    all: atom.
  - destruct s; [destruct hi'| |]; destruct C as [[-> ->]|[[-> ->]|[[-> ->]|[-> ->]]]]; code.
    all: named [g']; low2bits x.
    all: crunch.
    all: atom.
  - destruct C as [[-> ->]|[[-> ->]|[[-> ->]|[-> ->]]]], s; code.
    all: named (@nil gpr); low2bits x.
    all: crunch.
    all: atom.
Qed.
