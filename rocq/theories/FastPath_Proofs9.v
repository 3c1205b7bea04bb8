(** The families together. *)
From Verif Require Import Base ShadowTables_Model FastPath_Model FastPath_Spec FastPath_Run
  FastPath_Proofs1 FastPath_Proofs2 FastPath_Proofs3 FastPath_Proofs4 FastPath_Proofs5 FastPath_Proofs6
  FastPath_Proofs7 FastPath_Proofs8.
Open Scope Z_scope.

Lemma guarded_of whole reuse i Fine Post : fast whole reuse i Fine Post ->
  (forall app v v', Post app v v' -> forall o, In o (all_of i) -> usable v (asize o) o) -> guarded whole reuse i.
Proof.
  intros (code & Ec & HF) HP. exists code. split; [exact Ec|]. intros w m Hea. specialize (HF w m Hea).
  destruct (run w None code m) as [m'| |]; [|exact Logic.I|exact HF].
  destruct HF as (Hb & Hp & Ho). split; [exact (HP _ _ _ Hp)|]. split; assumption.
Qed.

Lemma usable_reg v n g s hi : usable v n (AReg g s hi).
Proof. exact Logic.I. Qed.
Lemma usable_asize v s a : usable v (bytes s) (aop_of s a) -> usable v (asize (aop_of s a)) (aop_of s a).
Proof. destruct a; exact (fun x => x). Qed.

Ltac each := let o := fresh "o" in let Ho := fresh in intros o Ho; cbn [In all_of i_dst i_srcs i_mov i_alu i_cmp i_logic i_shift i_ext i_movs i_xchg i_cmpxchg i_setf] in Ho;
  repeat (destruct Ho as [Ho|Ho]; [subst o|]); [..|contradiction Ho];
  first [assumption|apply usable_asize; assumption|exact Logic.I].
Ltac via L := eapply guarded_of; [apply fast_of_good, L; assumption|]; intros app v v' HP; hnf in HP.
Lemma all_guarded whole reuse i : family i -> guarded whole reuse i.
Proof.
  destruct 1.
  - via (good_mov whole reuse s d o fl base). destruct HP as [[A B] _]. each.
  - via (good_alu whole reuse op s d o rfl base). destruct HP as [[A B] _]. each.
  - via (good_cmp whole reuse s a b chk base). destruct HP as [[A B] _]. each.
  - via (good_test whole reuse s a b base). destruct HP as [[A B] _]. each.
  - via (good_logic whole reuse op s d o base). destruct HP as [[A B] _]. each.
  - via (good_shift_checked whole reuse op s d n base). destruct HP as (A & _). each.
  - via (good_shift_bytes whole reuse op s d m base). destruct HP as (A & _). each.
  - via (good_ext whole reuse op ss g o base). destruct HP as (A & _). each.
  - via (good_ext2 whole reuse op g o base). destruct HP as (A & _). each.
  - via (good_movs whole reuse s base). destruct HP as (A & B & _). each.
  - via (good_xchg whole reuse s a b wfl base). destruct HP as (A & _).
    pose proof (proj1 (A _ (or_introl eq_refl))). pose proof (proj1 (A _ (or_intror (or_introl eq_refl)))). each.
  - via (good_cmpxchg whole reuse s a g hi base). destruct HP as (A & _). pose proof (proj1 (A _ (or_introl eq_refl))). each.
  - via (good_setf whole reuse d base). destruct HP as (A & _). each.
Qed.
