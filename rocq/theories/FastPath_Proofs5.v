(** and, or. *)
From Verif Require Import Base ShadowTables_Model FastPath_Model FastPath_Spec FastPath_Abs FastPath_Run
  FastPath_Proofs.
Open Scope Z_scope.

Lemma and_rr whole reuse g hi g' hi' s base : let d := Rg g hi in let o := Rg g' hi' in
  good (parts whole reuse (i_logic Oand s d o base)) (uses_mem (i_logic Oand s d o base))
    (fine_check s d o) (post_logic Oand s d o).
Proof.
  cbv zeta. destruct (gpr_cases g g') as [<-|[N N']].
  all: destruct s; [destruct hi, hi'| |]; destruct whole; code.
  all: first [named [g; g']|named [g]].
  all: crunch.
  all: atom.
Qed.

Lemma and_rm whole reuse g hi s base : let d := Rg g hi in let o := Me in
  good (parts whole reuse (i_logic Oand s d o base)) (uses_mem (i_logic Oand s d o base))
    (fine_check s d o) (post_logic Oand s d o).
Proof.
  cbv zeta. destruct s; [destruct hi| |]; destruct whole, reuse; code.
  all: named [g]; low2bits x.
  all: crunch.
  all: atom.
Qed.

Lemma and_ri whole reuse g hi z s base : let d := Rg g hi in let o := Im z in
  good (parts whole reuse (i_logic Oand s d o base)) (uses_mem (i_logic Oand s d o base))
    (fine_check s d o) (post_logic Oand s d o).
Proof.
  cbv zeta. destruct z as [|z|[z|z|]]; (destruct s; [destruct hi| |]); destruct whole; code.
  all: named [g].
  all: crunch.
  all: atom.
Qed.

Lemma and_mr whole reuse g hi s base : let d := Me in let o := Rg g hi in
  good (parts whole reuse (i_logic Oand s d o base)) (uses_mem (i_logic Oand s d o base))
    (fine_check s d o) (post_logic Oand s d o).
Proof.
  cbv zeta. destruct s; [destruct hi| |]; destruct whole, reuse; code.
  all: named [g]; low2bits x.
  all: crunch.
  all: atom.
Qed.

Lemma and_mi whole reuse z s base : let d := Me in let o := Im z in
  good (parts whole reuse (i_logic Oand s d o base)) (uses_mem (i_logic Oand s d o base))
    (fine_check s d o) (post_logic Oand s d o).
Proof.
  cbv zeta. destruct z as [|z|[z|z|]], s, whole; code.
  all: named (@nil gpr); low2bits x.
  all: crunch.
  all: atom.
Qed.

Lemma or_rr whole reuse g hi g' hi' s base : let d := Rg g hi in let o := Rg g' hi' in
  good (parts whole reuse (i_logic Oor s d o base)) (uses_mem (i_logic Oor s d o base))
    (fine_check s d o) (post_logic Oor s d o).
Proof.
  cbv zeta. destruct (gpr_cases g g') as [<-|[N N']].
  all: destruct s; [destruct hi, hi'| |]; destruct whole; code.
  all: first [named [g; g']|named [g]].
  all: crunch.
  all: atom.
Qed.

Lemma or_rm whole reuse g hi s base : let d := Rg g hi in let o := Me in
  good (parts whole reuse (i_logic Oor s d o base)) (uses_mem (i_logic Oor s d o base))
    (fine_check s d o) (post_logic Oor s d o).
Proof.
  cbv zeta. destruct s; [destruct hi| |]; destruct whole, reuse; code.
  all: named [g]; low2bits x.
  all: crunch.
  all: atom.
Qed.

Lemma or_ri whole reuse g hi z s base : let d := Rg g hi in let o := Im z in
  good (parts whole reuse (i_logic Oor s d o base)) (uses_mem (i_logic Oor s d o base))
    (fine_check s d o) (post_logic Oor s d o).
Proof.
  cbv zeta. destruct z as [|z|[z|z|]]; (destruct s; [destruct hi| |]); destruct whole; code.
  all: named [g].
  all: crunch.
  all: atom.
Qed.

Lemma or_mr whole reuse g hi s base : let d := Me in let o := Rg g hi in
  good (parts whole reuse (i_logic Oor s d o base)) (uses_mem (i_logic Oor s d o base))
    (fine_check s d o) (post_logic Oor s d o).
Proof.
  cbv zeta. destruct s; [destruct hi| |]; destruct whole, reuse; code.
  all: named [g]; low2bits x.
  all: crunch.
  all: atom.
Qed.

Lemma or_mi whole reuse z s base : let d := Me in let o := Im z in
  good (parts whole reuse (i_logic Oor s d o base)) (uses_mem (i_logic Oor s d o base))
    (fine_check s d o) (post_logic Oor s d o).
Proof.
  cbv zeta. destruct z as [|z|[z|z|]], s, whole; code.
  all: named (@nil gpr); low2bits x.
  all: crunch.
  all: atom.
Qed.

Lemma good_logic whole reuse op s d o base : op = Oand \/ op = Oor -> writable d -> one_mem d o ->
  good (parts whole reuse (i_logic op s d o base)) (uses_mem (i_logic op s d o base))
    (fine_check s d o) (post_logic op s d o).
Proof.
  intros OO W O. destruct d as [g hi| |z]; destruct o as [g' hi'| |z']; try contradiction O; try contradiction W;
    destruct OO; subst op; auto using and_rr, or_rr, and_rm, or_rm, and_ri, or_ri, and_mr, or_mr, and_mi, or_mi.
Qed.
