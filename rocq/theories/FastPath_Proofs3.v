(** Comparisons. *)
From Verif Require Import Base ShadowTables_Model FastPath_Model FastPath_Spec FastPath_Abs FastPath_Run
  FastPath_Proofs.
Open Scope Z_scope.

Lemma good_cmp whole reuse s a b chk base : writable a -> one_mem a b ->
  good (parts whole reuse (i_cmp Oother s a b chk base)) (uses_mem (i_cmp Oother s a b chk base))
    (fine_check s a b) (post_cmp s a b chk).
Proof.
  intros W O. destruct a as [g hi| |z]; destruct b as [g' hi'| |z']; try contradiction O; try contradiction W.
  - destruct (gpr_cases g g') as [<-|[N N']].
    all: destruct s; [destruct hi, hi'| |]; destruct chk, whole; code.
    all: first [named [g; g']|named [g]].
    all: crunch.
    all: atom.
  - destruct s; [destruct hi| |]; destruct chk, whole, reuse; code.
    all: named [g]; low2bits x.
    all: crunch.
    all: atom.
  - destruct s; [destruct hi| |]; destruct chk, whole; code.
    all: named [g].
    all: crunch.
    all: atom.
  - destruct s; [destruct hi'| |]; destruct chk, whole, reuse; code.
    all: named [g']; low2bits x.
    all: crunch.
    all: atom.
  - destruct s, chk, whole, reuse; code.
    all: named (@nil gpr); low2bits x.
    all: crunch.
    all: atom.
Qed.
