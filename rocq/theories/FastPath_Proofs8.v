(** Exchanges. *)
From Verif Require Import Base ShadowTables_Model FastPath_Model FastPath_Spec FastPath_Abs FastPath_Run
  FastPath_Proofs.
Open Scope Z_scope.


Lemma good_xchg whole reuse s a b wfl base : writable a -> writable b -> one_mem a b ->
  good (parts whole reuse (i_xchg s a b wfl base)) (uses_mem (i_xchg s a b wfl base))
    (fine_check s a b) (post_xchg s [a; b] wfl).
Proof.
  intros W W' O. destruct a as [g hi| |z]; destruct b as [g' hi'| |z']; try contradiction O; try contradiction W;
    try contradiction W'; clear W W' O.
  - destruct (gpr_cases g g') as [<-|[N N']].
    all: destruct s; [destruct hi, hi'| |]; destruct wfl, whole; code.
    all: first [named [g; g']|named [g]].
    all: crunch.
    all: atom.
  - destruct s; [destruct hi| |]; destruct wfl, whole, reuse; code.
    all: named [g]; low2bits x.
    all: crunch.
    all: atom.
  - destruct s; [destruct hi'| |]; destruct wfl, whole, reuse; code.
    all: named [g']; low2bits x.
    all: crunch.
    all: atom.
Qed.

Lemma good_cmpxchg whole reuse s a g hi base : writable a ->
  good (parts whole reuse (i_cmpxchg s a (Rg g hi) base)) (uses_mem (i_cmpxchg s a (Rg g hi) base))
    (fun v => fine_check s a (Rg g hi) v /\ clean s v (Rg EAX false)) (post_xchg s [a; Rg g hi; Rg EAX false] true).
Proof.
  intros W. destruct a as [g' hi'| |z]; [| |contradiction W].
  - destruct (gpr_cases g g') as [<-|[N N']]; (destruct (gpr_cases g EAX) as [->|[N1 N1']]);
      try (destruct (gpr_cases g' EAX) as [->|[N2 N2']]); try discriminate.
    all: destruct s; [destruct hi, hi'| |]; destruct whole; code.
    all: first [named [EAX; g; g']|named [EAX; g']|named [EAX; g]|named [EAX]].
    all: crunch.
    all: atom.
  - destruct (gpr_cases g EAX) as [->|[N1 N1']].
    all: destruct s; [destruct hi| |]; destruct whole, reuse; code.
    all: first [named [EAX; g]|named [EAX]]; low2bits x.
    all: crunch.
    all: atom.
Qed.
