(** test. *)
From Verif Require Import Base ShadowTables_Model FastPath_Model FastPath_Spec FastPath_Abs FastPath_Run
  FastPath_Proofs.
Open Scope Z_scope.

Lemma good_test whole reuse s a b base : writable a -> one_mem a b ->
  good (parts whole reuse (i_cmp Otest s a b true base)) (uses_mem (i_cmp Otest s a b true base))
    (fine_check s a b) (post_test s a b).
Proof.
  intros W O. destruct a as [g hi| |z]; destruct b as [g' hi'| |z']; try contradiction O; try contradiction W.
  - destruct (gpr_cases g g') as [<-|[N N']].
    all: destruct s; [destruct hi, hi'| |]; destruct whole; code.
    all: first [named [g; g']|named [g]].
    all: crunch.
    all: atom.
  - destruct s; [destruct hi| |]; destruct whole, reuse; code.
    all: named [g]; low2bits x.
    all: crunch.
    all: atom.
  - destruct z' as [|z|z]; (destruct s; [destruct hi| |]); destruct whole; code.
    all: named [g].
    all: crunch.
    all: atom.
  - destruct s; [destruct hi'| |]; destruct whole, reuse; code.
    all: named [g']; low2bits x.
    all: crunch.
    all: atom.
  - destruct z' as [|z|z], s, whole, reuse; code.
    all: named (@nil gpr); low2bits x.
    all: crunch.
    all: atom.
Qed.
