(** Search loops and insertion on represented trees *)
From Coq Require Import Sorting.Sorted.
From Verif Require Import Base Redblack_Model Redblack_Proofs1 Redblack_Proofs2 Redblack_Proofs3 Redblack_Proofs4 Redblack_Proofs5 Redblack_Proofs6.
Open Scope Z_scope.

(** every allocated node belongs to the tree *)
Definition Live (t : tree) (F : T) : Prop := forall j, heap t j <> None -> j = NIL \/ In j (ids F).
Definition Inv (t : tree) (F : T) : Prop := exists np, Rep t np [] F /\ RBinv F /\ Live t F /\ (0 < fresh t)%nat.

Fixpoint hgt (t : T) : nat := match t with E => O | N _ _ _ l r => S (Nat.max (hgt l) (hgt r)) end.
Lemma hgt_ids t : (hgt t <= length (ids t))%nat.
Proof. induction t; cbn; auto. rewrite app_length. lia. Qed.

Lemma NoDup_bound : forall (n : nat) (l : list nat), NoDup l -> (forall x, In x l -> (x < n)%nat) -> (length l <= n)%nat.
Proof.
  intros n l H B. rewrite <- (seq_length n 0). apply NoDup_incl_length; auto.
  intros x X. apply in_seq. specialize (B x X). lia.
Qed.
Lemma Rep_size t np K s : Rep t np K s -> (length (ids s ++ idsK K) < fresh t)%nat \/ fresh t = O.
Proof.
  intros R. destruct (fresh t) as [|k] eqn:Q; [auto|left].
  assert (L : (length (NIL :: ids s ++ idsK K) <= S k)%nat).
  { apply NoDup_bound.
    - constructor; [|apply (R_nd _ _ _ _ R)]. intros X. apply (R_lt _ _ _ _ R) in X. lia.
    - intros x [<-|X]; [unfold NIL; lia|]. apply (R_lt _ _ _ _ R) in X. lia. }
  cbn [length] in L. lia.
Qed.
Lemma Rep_hgt t np s : Rep t np [] s -> (hgt s < S (fresh t))%nat.
Proof.
  intros R. pose proof (hgt_ids s). destruct (Rep_size _ _ _ _ R) as [H1|H1]; cbn [idsK] in *;
  rewrite ?app_nil_r in *; try lia.
  destruct s; cbn [hgt]; [lia|]. pose proof (R_lt _ _ _ _ R i) as X. cbn in X.
  destruct X as [_ X]; [left; auto|]. lia.
Qed.
Lemma idsK_len K : (length K <= length (idsK K))%nat.
Proof. induction K as [|f K IH]; cbn; auto. rewrite app_length. destruct f; cbn; lia. Qed.
Lemma ids_in_el t : forall j, In j (ids t) <-> In j (map fst (el t)).
Proof.
  induction t as [|i c d l IHl r IHr]; intros j; cbn; [tauto|].
  rewrite map_app, !in_app_iff, IHl, IHr. cbn. tauto.
Qed.

(** ---- the search loops ---- *)
Section Search.
Variables (hit left_ : data -> bool).
Fixpoint search (fuel : nat) (t : tree) (x : nat) : res (option nat) :=
  match fuel with
  | O => Fuel
  | S f => if Nat.eqb x NIL then Ok None else
           let* n := rd t x in
           if hit (payl n) then Ok (Some x)
           else if left_ (payl n) then search f t (lft n)
           else search f t (rgt n)
  end.
(** the tree-level search *)
Fixpoint tsearch (t : T) : option nat :=
  match t with
  | E => None
  | N i _ d l r => if hit d then Some i else if left_ d then tsearch l else tsearch r
  end.
Lemma search_t t np : forall s K fuel, Rep t np K s -> (hgt s < fuel)%nat -> search fuel t (rid s) = Ok (tsearch s).
Proof.
  induction s as [|i c d l IHl r IHr]; intros K fuel R L; (destruct fuel as [|fuel]; [lia|]); cbn [search rid].
  - reflexivity.
  - destruct (Nat.eqb_spec i NIL) as [Z0|Z0]; [exfalso; eapply Rep_nz; eauto|].
    rewrite (Rep_rd _ _ _ _ _ _ _ _ R). cbn [bind mk lft rgt tsearch].
    replace (payl (mk (pid K) c d (rid l) (rid r))) with d by (destruct d; reflexivity).
    cbn [hgt] in L. destruct (hit d); auto. destruct (left_ d).
    + eapply IHl; [apply dn_L; eauto|lia].
    + eapply IHr; [apply dn_R; eauto|lia].
Qed.
(** exactness under ordering assumptions *)
Variable lt : data -> data -> Prop.
Hypothesis no_right : forall d d', lt d d' -> hit d = false -> left_ d = true -> hit d' = false.
Hypothesis no_left : forall d d', lt d' d -> hit d = false -> left_ d = false -> hit d' = false.
Lemma SS_app {A} (R : A -> A -> Prop) l1 l2 : StronglySorted R (l1 ++ l2) <->
  StronglySorted R l1 /\ StronglySorted R l2 /\ (forall a b, In a l1 -> In b l2 -> R a b).
Proof.
  induction l1 as [|x l1 IH]; cbn.
  - split; [intros; repeat split; auto; [constructor|tauto]|tauto].
  - split.
    + intros H. inversion H; subst. apply IH in H2. destruct H2 as (A1&A2&A3). rewrite Forall_app in H3. destruct H3 as [F1 F2].
      repeat split; auto; [constructor; auto|]. rewrite Forall_forall in F2. intros a b [<-|I] J; auto.
    + intros (A1&A2&A3). inversion A1; subst. constructor.
      * apply IH. repeat split; auto.
      * apply Forall_app. split; auto. apply Forall_forall. intros b B. auto.
Qed.
Lemma SS_node i c d l r : StronglySorted lt (map snd (el (N i c d l r))) ->
  StronglySorted lt (map snd (el l)) /\ StronglySorted lt (map snd (el r)) /\
  (forall a, In a (map snd (el l)) -> lt a d) /\ (forall a, In a (map snd (el r)) -> lt d a).
Proof.
  cbn [el]. rewrite map_app. cbn [map snd]. rewrite SS_app. intros (A&B&C). inversion B; subst. rewrite Forall_forall in H2.
  repeat split; auto. intros a X. apply C; auto. left; auto.
Qed.
Lemma tsearch_ok s : StronglySorted lt (map snd (el s)) ->
  match tsearch s with
  | Some h => exists d, In (h, d) (el s) /\ hit d = true
  | None => forall h d, In (h, d) (el s) -> hit d = false
  end.
Proof.
  induction s as [|i c d l IHl r IHr]; intros S0; cbn [tsearch].
  - intros h d [].
  - apply SS_node in S0. destruct S0 as (Sl&Sr&Ll&Lr). specialize (IHl Sl). specialize (IHr Sr).
    destruct (hit d) eqn:HD.
    { exists d. split; auto. cbn [el]. apply in_or_app. right. left. auto. }
    destruct (left_ d) eqn:LD.
    + destruct (tsearch l).
      * destruct IHl as (d1&I1&H1). exists d1. split; auto. cbn [el]. apply in_or_app; auto.
      * intros h d1 I. cbn [el] in I. apply in_app_or in I. destruct I as [I|[I|I]]; [eauto|congruence|].
        eapply no_right; eauto. apply Lr. apply in_map_iff. exists (h, d1). auto.
    + destruct (tsearch r).
      * destruct IHr as (d1&I1&H1). exists d1. split; auto. cbn [el]. apply in_or_app; right; right; auto.
      * intros h d1 I. cbn [el] in I. apply in_app_or in I. destruct I as [I|[I|I]]; [|congruence|eauto].
        eapply no_left; eauto. apply Ll. apply in_map_iff. exists (h, d1). auto.
Qed.
End Search.

Lemma find_is_search fuel t b : forall x, find_loop fuel t b x =
  search (fun d => b =? d_base d) (fun d => b <? d_base d) fuel t x.
Proof. induction fuel as [|fuel IH]; intros x; cbn; auto. destruct (Nat.eqb x NIL); auto.
  destruct (rd t x); cbn; auto. rewrite !IH. reflexivity. Qed.
Lemma in_node_is_search fuel t a : forall x, in_node_loop fuel t a x =
  search (fun d => (d_base d <=? a) && (a <? add64 (d_base d) (d_size d))) (fun d => a <? d_base d) fuel t x.
Proof. induction fuel as [|fuel IH]; intros x; cbn; auto. destruct (Nat.eqb x NIL); auto.
  destruct (rd t x); cbn; auto. rewrite !IH. reflexivity. Qed.
Lemma overlaps_is_search fuel t s e : forall x, overlaps_loop fuel t s e x =
  search (fun d => (s <? add64 (d_base d) (d_size d)) && (d_base d <? e)) (fun d => e <=? d_base d) fuel t x.
Proof. induction fuel as [|fuel IH]; intros x; cbn; auto. destruct (Nat.eqb x NIL); auto.
  destruct (rd t x); cbn; auto. rewrite !IH. reflexivity. Qed.

(** ---- the insertion point ---- *)
Definition hitb (dbg : bool) (nb ns : Z) (d : data) : bool :=
  if dbg then ((nb <=? d_base d) && (d_base d <? add64 nb ns)) ||
              ((d_base d <=? nb) && (nb <? add64 (d_base d) (d_size d)))
  else nb =? d_base d.
Definition side_ok (K : list frame) (ls : bool) : Prop :=
  match K with [] => True | FL _ _ _ _ :: _ => ls = true | FR _ _ _ _ :: _ => ls = false end.

Section BtInsert.
Variables (dbg : bool) (nb ns : Z) (lt : data -> data -> Prop) (PL PR : data -> Prop).
Hypothesis PL_here : forall d, hitb dbg nb ns d = false -> (nb <? d_base d) = false -> PL d.
Hypothesis PR_here : forall d, hitb dbg nb ns d = false -> (nb <? d_base d) = true -> PR d.
Hypothesis PL_down : forall d d', lt d' d -> PL d -> PL d'.
Hypothesis PR_up : forall d d', lt d d' -> PR d -> PR d'.

Lemma bt_loop_ok t np : forall s K fuel ls,
  Rep t np K s -> (hgt s < fuel)%nat -> side_ok K ls ->
  StronglySorted lt (map snd (el s)) ->
  Forall PL (map snd (elL K)) -> Forall PR (map snd (elR K)) ->
  exists h it ls', bt_insert_loop dbg fuel t nb ns (pid K) ls (rid s) = Ok (h, it, ls') /\
    match h with
    | Some i => exists d, In (i, d) (el s) /\ hitb dbg nb ns d = true
    | None => exists K', it = pid K' /\ side_ok K' ls' /\ plug K' E = plug K s /\
        Forall PL (map snd (elL K')) /\ Forall PR (map snd (elR K'))
    end.
Proof.
  induction s as [|i c d l IHl r IHr]; intros K fuel ls R L S0 SS FL_ FR_; (destruct fuel as [|fuel]; [lia|]); cbn [bt_insert_loop rid].
  - exists None, (pid K), ls. split; auto. exists K. sp; auto.
  - destruct (Nat.eqb_spec i NIL) as [Z0|Z0]; [exfalso; eapply Rep_nz; eauto|].
    rewrite (Rep_rd _ _ _ _ _ _ _ _ R). cbn [bind mk lft rgt base size].
    fold (hitb dbg nb ns d). apply SS_node in SS. destruct SS as (Sl&Sr&Ll&Lr). cbn [hgt] in L.
    destruct (hitb dbg nb ns d) eqn:HB.
    { exists (Some i), (pid K), ls. split; auto. exists d. split; auto. cbn [el]. apply in_or_app; right; left; auto. }
    destruct (nb <? d_base d) eqn:LT.
    + destruct (IHl (FL i c d r :: K) fuel true) as (h&it&ls'&E1&H1); auto; try lia; cbn [side_ok elL elR map snd]; auto.
      { apply dn_L; auto. }
      { rewrite map_app. constructor; auto. apply Forall_app. split; auto.
        apply Forall_forall. intros a A. eapply PR_up; eauto. }
      exists h, it, ls'. split; auto. destruct h.
      * destruct H1 as (d1&I1&H1). exists d1. split; auto. cbn [el]. apply in_or_app; auto.
      * exact H1.
    + destruct (IHr (FR i c d l :: K) fuel false) as (h&it&ls'&E1&H1); auto; try lia; cbn [side_ok elL elR]; auto.
      { apply dn_R; auto. }
      { rewrite !map_app. cbn [map snd]. apply Forall_app. split; auto. apply Forall_app. split; [|constructor; auto].
        apply Forall_forall. intros a A. eapply PL_down; eauto. }
      exists h, it, ls'. split; auto. destruct h.
      * destruct H1 as (d1&I1&H1). exists d1. split; auto. cbn [el]. apply in_or_app; right; right; auto.
      * exact H1.
Qed.
End BtInsert.
