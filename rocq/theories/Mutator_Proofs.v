(** The enumeration of bit sets. *)
From Verif Require Import Base Mutator_Model Mutator_Spec.
From Coq Require Import FinFun.
Open Scope Z_scope.

Definition zseq (lo : Z) (b : nat) : list Z := map (fun i => lo + Z.of_nat i) (seq 0 b).
Lemma zseq_S lo b : zseq lo (S b) = lo :: zseq (lo + 1) b.
Proof.
  unfold zseq. cbn [seq map]. f_equal; [lia|]. rewrite <- seq_shift, map_map. apply map_ext. intros; lia.
Qed.
Lemma zseq_length lo b : length (zseq lo b) = b.
Proof. unfold zseq. rewrite map_length, seq_length. reflexivity. Qed.

(** Membership and order of [subsets]. *)
Fixpoint increasing (lo : Z) (l : list Z) : Prop :=
  match l with [] => True | x :: l => lo <= x /\ increasing (x + 1) l end.
Lemma increasing_mono lo lo' l : lo' <= lo -> increasing lo l -> increasing lo' l.
Proof. destruct l as [|x l]; cbn; [auto|]. intros H (H1 & H2). split; [lia|auto]. Qed.
Lemma subsets_in cnt : forall lo b l,
  In l (subsets lo cnt b) <-> length l = b /\ increasing lo l /\ Forall (fun x => x < lo + Z.of_nat cnt) l.
Proof.
  induction cnt as [|c IH]; intros lo b l.
  - destruct b as [|b]; cbn.
    + split; [intros [<-|[]]; cbn; auto|]. intros (H & _). destruct l; [auto|discriminate].
    + split; [intros []|]. intros (H1 & H2 & H3). destruct l as [|x l]; [discriminate|]. inversion H3; subst. cbn in H2. lia.
  - destruct b as [|b]; cbn [subsets].
    + cbn. split; [intros [<-|[]]; cbn; auto|]. intros (H & _). destruct l; [auto|discriminate].
    + rewrite in_app_iff, in_map_iff, IH. split.
      * intros [(l' & <- & H)|(H1 & H2 & H3)].
        -- apply IH in H. destruct H as (H1 & H2 & H3). cbn. split; [lia|]. split; [split; [lia|exact H2]|].
           constructor; [lia|]. eapply Forall_impl; [|exact H3]. cbn. intros; lia.
        -- split; [exact H1|]. split; [eapply increasing_mono; [|exact H2]; lia|]. eapply Forall_impl; [|exact H3]. cbn. intros; lia.
      * intros (H1 & H2 & H3). destruct l as [|x l]; [discriminate|]. cbn in H1, H2. inversion H3 as [|? ? A B]; subst.
        destruct (Z.eq_dec x lo) as [->|N].
        -- left. exists l. split; [reflexivity|]. apply IH. split; [lia|]. split; [tauto|]. eapply Forall_impl; [|exact B]. cbn. intros; lia.
        -- right. split; [exact H1|]. split; [cbn; split; [lia|tauto]|]. constructor; [lia|]. eapply Forall_impl; [|exact B]. cbn. intros; lia.
Qed.
Lemma subsets_nodup cnt : forall lo b, NoDup (subsets lo cnt b).
Proof.
  induction cnt as [|c IH]; intros lo [|b]; cbn [subsets]; try (constructor; [intros []|constructor]); [constructor|].
  assert (ND : forall a (b : list (list Z)), NoDup a -> NoDup b -> (forall x, In x a -> ~ In x b) -> NoDup (a ++ b)).
  { clear. induction a as [|x a IHa]; cbn; auto. intros b Na Nb D. inversion Na; subst. constructor; [|apply IHa; auto].
    rewrite in_app_iff. intros [|I]; [auto|]. apply (D x); auto. }
  apply ND; [|apply IH|].
  - apply Injective_map_NoDup; [|apply IH]. intros x y E. congruence.
  - intros x I J. apply in_map_iff in I. destruct I as (y & <- & I). apply subsets_in in J. cbn in J. lia.
Qed.

(** The next set of the same size, if there is one. *)
Fixpoint succ_set (n : Z) (l : list Z) : option (list Z) :=
  match l with
  | [] => None
  | x :: r => match succ_set n r with
              | Some r' => Some (x :: r')
              | None => if x + 1 + len r <? n then Some (zseq (x + 1) (S (length r))) else None
              end
  end.
Fixpoint chain (n : Z) (L : list (list Z)) : Prop :=
  match L with
  | [] => True
  | x :: L' => succ_set n x = (match L' with [] => None | y :: _ => Some y end) /\ chain n L'
  end.
Lemma subsets_head cnt : forall lo b, (b <= cnt)%nat -> exists t, subsets lo cnt b = zseq lo b :: t.
Proof.
  induction cnt as [|c IH]; intros lo [|b] H; cbn [subsets]; try lia; try (exists []; reflexivity).
  destruct (IH (lo + 1) b ltac:(lia)) as (t & E). rewrite E, zseq_S. cbn [map app]. eauto.
Qed.
Lemma subsets_empty cnt lo b : (cnt < b)%nat -> subsets lo cnt b = [].
Proof.
  revert lo b. induction cnt as [|c IH]; intros lo [|b] H; cbn [subsets]; try lia; [reflexivity|].
  rewrite !IH by lia. reflexivity.
Qed.
Lemma subsets_chain n cnt : forall lo b, lo + Z.of_nat cnt = n -> chain n (subsets lo cnt b).
Proof.
  induction cnt as [|c IH]; intros lo [|b] H; cbn [subsets chain]; auto.
  pose proof (IH (lo + 1) b ltac:(lia)) as C1. pose proof (IH (lo + 1) (S b) ltac:(lia)) as C2.
  assert (Hd : match subsets (lo + 1) c (S b) with [] => (c < S b)%nat | y :: _ => y = zseq (lo + 1) (S b) /\ (S b <= c)%nat end).
  { destruct (le_lt_dec (S b) c) as [L|L].
    - destruct (subsets_head c (lo + 1) (S b) L) as (t & ->). auto.
    - rewrite subsets_empty by lia. exact L. }
  assert (Ln : forall x, In x (subsets (lo + 1) c b) -> length x = b) by (intros x I; apply subsets_in in I; tauto).
  generalize dependent (subsets (lo + 1) c (S b)). intros B C2 Hd.
  induction (subsets (lo + 1) c b) as [|x A IHA]; [exact C2|]. cbn [map app chain]. cbn [chain] in C1. destruct C1 as (E & C1).
  split; [|apply IHA; [exact C1|intros y I; apply Ln; right; exact I]].
  cbn [succ_set]. rewrite E. destruct A as [|y A]; cbn [map app]; [|reflexivity].
  pose proof (Ln x (or_introl eq_refl)) as Lx. unfold len. rewrite Lx. destruct B as [|y B].
  - replace (lo + 1 + Z.of_nat b <? n) with false by lia. reflexivity.
  - destruct Hd as (-> & Hd). replace (lo + 1 + Z.of_nat b <? n) with true by lia. reflexivity.
Qed.

(** Advancing [k] sets, staying at the last. *)
Fixpoint advance (n : Z) (k : nat) (l : list Z) : list Z :=
  match k with O => l | S k => match succ_set n l with Some l' => advance n k l' | None => l end end.
Lemma advance_chain n L : chain n L -> forall k x L', L = x :: L' ->
  exists L2, skipn (Nat.min k (length L')) L = advance n k x :: L2 /\ chain n (advance n k x :: L2).
Proof.
  intros C k. revert L C. induction k as [|k IH]; intros L C x L' ->.
  - exists L'. auto.
  - cbn [chain] in C. destruct C as (E & C'). cbn [advance]. rewrite E. destruct L' as [|y L'].
    + exists []. cbn. auto.
    + destruct (IH (y :: L') C' y L' eq_refl) as (L2 & E2 & C2). exists L2. cbn [length Nat.min skipn]. split; [exact E2|exact C2].
Qed.
