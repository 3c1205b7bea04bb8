(** Frame facts (payloads of all nodes survive the fix-ups) and insertion *)
From Verif Require Import Base Redblack_Model Redblack_Proofs1 Redblack_Proofs2 Redblack_Proofs3 Redblack_Proofs4 Redblack_Proofs5.
Open Scope Z_scope.

Definition payl (n : node) : data := Dt (base n) (size n) (client n).
(** same allocated addresses with the same payloads *)
Definition keeps (t t' : tree) : Prop :=
  (forall j, option_map payl (heap t' j) = option_map payl (heap t j)).
Lemma keeps_refl t : keeps t t. Proof. intros j; auto. Qed.
Lemma keeps_trans a b c : keeps a b -> keeps b c -> keeps a c.
Proof. intros A B j. rewrite B; auto. Qed.
Lemma keeps_root t x : keeps t (set_root t x). Proof. intros j; auto. Qed.
Definition pp (f : node -> node) : Prop := forall n, payl (f n) = payl n.
Lemma keeps_wr t x f t' : pp f -> wr t x f = Ok t' -> keeps t t'.
Proof.
  unfold wr, rd. intros P H. destruct (heap t x) eqn:Q; cbn in H; [|discriminate]. injection H as <-.
  intros j. cbn. unfold upd_node. destruct (Nat.eqb_spec j x); auto. subst. rewrite Q. cbn. rewrite P; auto.
Qed.
Lemma pp_par v : pp (w_par v). Proof. intros n; auto. Qed.
Lemma pp_lft v : pp (w_lft v). Proof. intros n; auto. Qed.
Lemma pp_rgt v : pp (w_rgt v). Proof. intros n; auto. Qed.
Lemma pp_red v : pp (w_red v). Proof. intros n; auto. Qed.
Lemma pp_mx v : pp (w_mx v). Proof. intros n; auto. Qed.
#[export] Hint Resolve pp_par pp_lft pp_rgt pp_red pp_mx keeps_refl keeps_root : kp.

Ltac binv H := let a := fresh "v" in let E1 := fresh "B" in
  apply bind_ok in H; destruct H as (a&E1&H); cbn beta iota in H.
Ltac kstep :=
  match goal with
  | H : bind _ _ = Ok _ |- _ => binv H
  | H : Ok _ = Ok _ |- _ => injection H; clear H; intros; subst
  | H : rd _ _ = Ok _ |- _ => clear H
  | H : (if ?b then _ else _) = Ok _ |- _ => destruct b
  | H : (let (_, _) := ?p in _) = Ok _ |- _ => destruct p
  | H : wr ?t _ _ = Ok ?t' |- _ => apply keeps_wr in H; [|auto with kp; fail]
  end.
Ltac kfin := repeat first [ apply keeps_refl | apply keeps_root | eassumption |
   match goal with H : keeps ?a ?b |- keeps _ ?b => apply (keeps_trans _ _ _) with (2 := H); clear H end |
   match goal with |- keeps _ (set_root ?a ?x) => apply (keeps_trans _ _ _) with (2 := keeps_root a x) end ].

Lemma keeps_rotr t y t' : rb_right_rotate t y = Ok t' -> keeps t t'.
Proof. unfold rb_right_rotate. intros H. repeat kstep; kfin. Qed.
Lemma keeps_rotl t y t' : rb_left_rotate t y = Ok t' -> keeps t t'.
Proof. unfold rb_left_rotate. intros H. repeat kstep; kfin. Qed.

Ltac kstep2 := first [ kstep |
  match goal with
  | H : rb_right_rotate _ _ = Ok _ |- _ => apply keeps_rotr in H
  | H : rb_left_rotate _ _ = Ok _ |- _ => apply keeps_rotl in H
  end ].
Lemma keeps_insert_fix : forall fuel t x t', insert_fix fuel t x = Ok t' -> keeps t t'.
Proof.
  induction fuel as [|fuel IH]; intros t x t' H; [discriminate|]. cbn [insert_fix] in H.
  repeat first [kstep2 | match goal with H : insert_fix _ _ _ = Ok _ |- _ => apply IH in H end]; kfin.
Qed.
Lemma keeps_delete_fixup : forall fuel t x t', rb_delete_fixup fuel t x = Ok t' -> keeps t t'.
Proof.
  induction fuel as [|fuel IH]; intros t x t' H; [discriminate|]. cbn [rb_delete_fixup] in H.
  repeat first [kstep2 | match goal with H : rb_delete_fixup _ _ _ = Ok _ |- _ => apply IH in H end]; kfin.
Qed.
