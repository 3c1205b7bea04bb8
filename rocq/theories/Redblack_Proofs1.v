(** Representation of an inductive tree (with node addresses) in the pointer
    heap, and the pointer-level steps. *)
From Verif Require Import Base Redblack_Model.
Open Scope Z_scope.

Record data := Dt { d_base : Z; d_size : Z; d_client : Z }.
Inductive T := E | N (i : nat) (c : bool) (d : data) (l r : T).
Inductive frame := FL (i : nat) (c : bool) (d : data) (r : T) | FR (i : nat) (c : bool) (d : data) (l : T).

Definition rid (t : T) : nat := match t with E => NIL | N i _ _ _ _ => i end.
Definition isred (t : T) : bool := match t with E => false | N _ c _ _ _ => c end.
Definition fid (f : frame) : nat := match f with FL i _ _ _ => i | FR i _ _ _ => i end.
Definition pid (K : list frame) : nat := match K with [] => NIL | f :: _ => fid f end.
Fixpoint ids (t : T) : list nat := match t with E => [] | N i _ _ l r => i :: ids l ++ ids r end.
Definition idsF (f : frame) : list nat := match f with FL i _ _ r => i :: ids r | FR i _ _ l => i :: ids l end.
Fixpoint idsK (K : list frame) : list nat := match K with [] => [] | f :: K => idsF f ++ idsK K end.

Definition mk (p : nat) (c : bool) (d : data) (l r : nat) : node :=
  Nd p r l c (d_base d) (d_size d) 0 (d_client d).

Fixpoint rep (h : nat -> option node) (p : nat) (t : T) : Prop :=
  match t with
  | E => True
  | N i c d l r => h i = Some (mk p c d (rid l) (rid r)) /\ rep h i l /\ rep h i r
  end.
Fixpoint repK (h : nat -> option node) (i : nat) (K : list frame) : Prop :=
  match K with
  | [] => True
  | FL j c d r :: K => h j = Some (mk (pid K) c d i (rid r)) /\ rep h j r /\ repK h j K
  | FR j c d l :: K => h j = Some (mk (pid K) c d (rid l) i) /\ rep h j l /\ repK h j K
  end.
Fixpoint rootK (i : nat) (K : list frame) : nat :=
  match K with [] => i | f :: K => rootK (fid f) K end.

(** the whole configuration: context K, focus s, NIL's parent np, and a list of
    extra live nodes that are not part of the tree *)
Record Rep (t : tree) (np : nat) (K : list frame) (s : T) : Prop := {
  R_root : root t = rootK (rid s) K;
  R_rep : rep (heap t) (pid K) s;
  R_repK : repK (heap t) (rid s) K;
  R_nil : heap t NIL = Some (Nd np NIL NIL false 0 0 0 0);
  R_nd : NoDup (ids s ++ idsK K);
  R_lt : forall i, In i (ids s ++ idsK K) -> i <> NIL /\ (i < fresh t)%nat }.

Fixpoint plug (K : list frame) (s : T) : T :=
  match K with
  | [] => s
  | FL i c d r :: K => plug K (N i c d s r)
  | FR i c d l :: K => plug K (N i c d l s)
  end.

(** ---- frame ---- *)
Lemma rep_frame h h' t : forall p, (forall j, In j (ids t) -> h' j = h j) -> rep h p t -> rep h' p t.
Proof.
  induction t as [|i c d l IHl r IHr]; intros p F H; cbn in *; auto.
  destruct H as (H1&H2&H3). repeat split.
  - rewrite F; auto.
  - apply IHl; auto. intros j J. apply F. right. apply in_or_app; auto.
  - apply IHr; auto. intros j J. apply F. right. apply in_or_app; auto.
Qed.
Lemma repK_frame h h' K : forall i, (forall j, In j (idsK K) -> h' j = h j) -> repK h i K -> repK h' i K.
Proof.
  induction K as [|f K IH]; intros i F H; cbn in *; auto.
  destruct f; cbn in *; destruct H as (H1&H2&H3); repeat split; try (rewrite F; auto; fail).
  - eapply rep_frame; [|exact H2]; intros j J; apply F; right; apply in_or_app; auto.
  - apply IH; auto; intros j J; apply F; right; apply in_or_app; auto.
  - eapply rep_frame; [|exact H2]; intros j J; apply F; right; apply in_or_app; auto.
  - apply IH; auto; intros j J; apply F; right; apply in_or_app; auto.
Qed.

(** ---- navigation ---- *)
Lemma NoDup_perm (l l' : list nat) : (forall x, count_occ Nat.eq_dec l x = count_occ Nat.eq_dec l' x) -> NoDup l -> NoDup l'.
Proof.
  intros C H. apply (NoDup_count_occ Nat.eq_dec). intros x. rewrite <- C.
  apply (NoDup_count_occ Nat.eq_dec); auto.
Qed.
Lemma In_perm (l l' : list nat) x : (forall x, count_occ Nat.eq_dec l x = count_occ Nat.eq_dec l' x) -> In x l' -> In x l.
Proof. intros C H. apply (count_occ_In Nat.eq_dec). rewrite C. apply (count_occ_In Nat.eq_dec); auto. Qed.

Ltac cnt := intros ?x; repeat (rewrite ?count_occ_app; cbn [count_occ app ids idsF idsK]);
  repeat match goal with |- context [Nat.eq_dec ?a ?b] => destruct (Nat.eq_dec a b) end; lia.

Lemma nav_L t np K i c d l r : Rep t np (FL i c d r :: K) l <-> Rep t np K (N i c d l r).
Proof.
  assert (C : forall x, count_occ Nat.eq_dec (ids l ++ idsK (FL i c d r :: K)) x =
                        count_occ Nat.eq_dec (ids (N i c d l r) ++ idsK K) x).
  { cnt. }
  split; intros [R1 R2 R3 R4 R5 R6]; cbn in R1, R2, R3; constructor; cbn [rid pid fid rep repK rootK]; auto; try tauto.
  - eapply NoDup_perm; eauto.
  - intros j J. apply R6. eapply In_perm; eauto.
  - eapply NoDup_perm; [|eauto]. intros x; symmetry; auto.
  - intros j J. apply R6. eapply In_perm; [|eauto]. intros x; symmetry; auto.
Qed.
Lemma nav_R t np K i c d l r : Rep t np (FR i c d l :: K) r <-> Rep t np K (N i c d l r).
Proof.
  assert (C : forall x, count_occ Nat.eq_dec (ids r ++ idsK (FR i c d l :: K)) x =
                        count_occ Nat.eq_dec (ids (N i c d l r) ++ idsK K) x).
  { cnt. }
  split; intros [R1 R2 R3 R4 R5 R6]; cbn in R1, R2, R3; constructor; cbn [rid pid fid rep repK rootK]; auto; try tauto.
  - eapply NoDup_perm; eauto.
  - intros j J. apply R6. eapply In_perm; eauto.
  - eapply NoDup_perm; [|eauto]. intros x; symmetry; auto.
  - intros j J. apply R6. eapply In_perm; [|eauto]. intros x; symmetry; auto.
Qed.
Lemma nav_top t np K : forall s, Rep t np K s <-> Rep t np [] (plug K s).
Proof.
  induction K as [|f K IH]; intros s; cbn [plug]; [tauto|].
  destruct f; rewrite <- IH; [apply nav_L|apply nav_R].
Qed.

(** ---- reading ---- *)
Lemma Rep_rd t np K i c d l r : Rep t np K (N i c d l r) ->
  rd t i = Ok (mk (pid K) c d (rid l) (rid r)).
Proof. intros R. unfold rd. destruct (R_rep _ _ _ _ R) as [-> _]. reflexivity. Qed.
Lemma Rep_nil t np K s : Rep t np K s -> rd t NIL = Ok (Nd np NIL NIL false 0 0 0 0).
Proof. intros R. unfold rd. rewrite (R_nil _ _ _ _ R). reflexivity. Qed.
(** any node of the tree is readable, with its colour *)
Lemma Rep_rd_any t np K s : Rep t np K s ->
  exists n, rd t (rid s) = Ok n /\ red n = isred s /\ mx n = 0 /\ (s <> E -> par n = pid K) /\ (s = E -> n = Nd np NIL NIL false 0 0 0 0).
Proof.
  intros R. destruct s; cbn [rid].
  - rewrite (Rep_nil _ _ _ _ R). eexists. split; [reflexivity|]. repeat split; auto. congruence.
  - rewrite (Rep_rd _ _ _ _ _ _ _ _ R). eexists. split; [reflexivity|]. repeat split; auto. congruence.
Qed.
Lemma Rep_nz t np K i c d l r : Rep t np K (N i c d l r) -> i <> NIL.
Proof. intros R. apply (R_lt _ _ _ _ R i). left; auto. Qed.

(** ---- a write at the focus that keeps the links ---- *)
Lemma Rep_write t np K i c d l r c' d' f :
  Rep t np K (N i c d l r) ->
  f (mk (pid K) c d (rid l) (rid r)) = mk (pid K) c' d' (rid l) (rid r) ->
  exists t', wr t i f = Ok t' /\ Rep t' np K (N i c' d' l r) /\ fresh t' = fresh t /\ freed t' = freed t /\ root t' = root t.
Proof.
  intros R F. unfold wr. rewrite (Rep_rd _ _ _ _ _ _ _ _ R). cbn [bind]. eexists. split; [reflexivity|].
  split; [|auto]. destruct R as [R1 R2 R3 R4 R5 R6]. cbn [ids app] in *.
  inversion R5; subst. assert (i <> NIL) by (apply (R6 i); left; auto).
  constructor; cbn [heap fresh freed root rep rid] in *; auto.
  - destruct R2 as (R2&R2l&R2r). unfold upd_node. rewrite Nat.eqb_refl, F. split; auto.
    split; (eapply rep_frame; [|eassumption]); intros j J; cbn; destruct (Nat.eqb_spec j i); auto; subst; exfalso;
    apply H1; apply in_or_app; left; apply in_or_app; auto.
  - eapply repK_frame; [|eassumption]. intros j J. unfold upd_node. destruct (Nat.eqb_spec j i); auto; subst; exfalso.
    apply H1; apply in_or_app; auto.
  - unfold upd_node. destruct (Nat.eqb_spec NIL i); auto. congruence.
Qed.
