(** Copies. *)
From Verif Require Import Base ShadowTables_Model FastPath_Model FastPath_Spec FastPath_Abs FastPath_Run
  FastPath_Proofs.
Open Scope Z_scope.

Lemma good_mov whole reuse s d o fl base : writable d ->
  good (parts whole reuse (i_mov s d o fl base)) (uses_mem (i_mov s d o fl base)) (ready s d o) (post_mov s d o fl).
Proof.
  intros W. destruct d as [g hi| |z]; [| |contradiction]; destruct o as [g' hi'| |z'].
  - destruct (gpr_cases g g') as [<-|[N N']].
    all: destruct s; [destruct hi, hi'| |]; destruct fl; code.
    all: first [named [g; g']|named [g]].
    all: crunch.
    all: atom.
  - destruct s; [destruct hi| |]; destruct fl; code.
    all: named [g]; low2bits x.
    all: crunch.
    all: atom.
  - destruct s; [destruct hi| |]; destruct fl; code.
    all: named [g].
    all: crunch.
    all: atom.
  - destruct s; [destruct hi'| |]; destruct fl; code.
    all: named [g']; low2bits x.
    all: crunch.
    all: atom.
  - destruct s, fl; code.
    all: named (@nil gpr); low2bits x.
    all: crunch.
    all: atom.
  - destruct s, fl; code.
    all: named (@nil gpr); low2bits x.
    all: crunch.
    all: atom.
Qed.
