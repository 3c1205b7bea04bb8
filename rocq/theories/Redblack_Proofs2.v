(** rotations at the pointer level *)
From Verif Require Import Base Redblack_Model Redblack_Proofs1.
Open Scope Z_scope.

(** pointwise effect of a rotation: [top] is the node rotated down, [new] the
    node rotated up, [mid] the middle subtree, [p] the parent *)
Definition rot_heap (h : nat -> option node) (x y mid p : nat) (nx' ny' : node) : nat -> option node :=
  fun j => if Nat.eqb j x then Some nx' else
           if Nat.eqb j y then Some ny' else
           if Nat.eqb j mid && negb (Nat.eqb mid NIL) then option_map (w_par x) (h j) else
           if Nat.eqb j p && negb (Nat.eqb p NIL) then
             option_map (fun n => if Nat.eqb x (lft n) then w_lft y n else w_rgt y n) (h j)
           else h j.

Ltac upds := repeat match goal with
  | |- context [Nat.eqb ?a ?b] => destruct (Nat.eqb_spec a b); cbn [bind negb andb option_map]
  end.

Lemma rd_upd_same r h fr fd x n : rd (RB r (upd_node h x n) fr fd) x = Ok n.
Proof. unfold rd, upd_node. cbn. rewrite Nat.eqb_refl. reflexivity. Qed.
Lemma rd_upd_diff r h fr fd x y n : y <> x -> rd (RB r (upd_node h x n) fr fd) y = rd (RB r h fr fd) y.
Proof. intros H. unfold rd, upd_node. cbn. destruct (Nat.eqb_spec y x); congruence. Qed.

Lemma rd_here r h fr fd x n : h x = Some n -> rd (RB r h fr fd) x = Ok n.
Proof. intros H. unfold rd. cbn. rewrite H. reflexivity. Qed.
Lemma wr_here r h fr fd x n f : rd (RB r h fr fd) x = Ok n ->
  wr (RB r h fr fd) x f = Ok (RB r (upd_node h x (f n)) fr fd).
Proof. intros H. unfold wr. rewrite H. reflexivity. Qed.
Lemma bind_Ok {A B} (a : A) (f : A -> res B) : bind (Ok a) f = f a.
Proof. reflexivity. Qed.

(** read an address of a symbolic heap *)
Ltac rdt := repeat first
  [ rewrite rd_upd_same; reflexivity
  | rewrite rd_upd_diff by congruence
  | apply rd_here; eassumption ].
Ltac clean := cbv beta iota delta [w_par w_lft w_rgt w_mx w_red par lft rgt red base size mx client mk set_root root heap Redblack_Model.fresh freed].
Ltac step := match goal with
  | |- context [bind (Ok ?a) ?f] => rewrite (bind_Ok a f)
  | |- context [bind (wr ?t ?x ?f) ?k] => erewrite (wr_here _ _ _ _ x _ f) by rdt
  | |- context [bind (rd (RB ?r ?h ?fr ?fd) ?x) ?k] =>
      let n := fresh "n" in evar (n : node);
      let H := fresh in assert (H : rd (RB r h fr fd) x = Ok n) by (subst n; rdt); rewrite H; subst n; clear H
  | |- exists t', wr ?t ?x ?f = Ok t' /\ _ => erewrite (wr_here _ _ _ _ x _ f) by rdt
  end; clean.

Lemma left_rotate_raw t x y p c d c2 d2 ra rb re na nb ne npp :
  let h := heap t in
  h x = Some (mk p c d ra y) -> h y = Some (mk x c2 d2 rb re) ->
  x <> y -> x <> NIL -> y <> NIL ->
  h ra = Some na -> mx na = 0 -> h rb = Some nb -> mx nb = 0 -> h re = Some ne -> mx ne = 0 ->
  ra <> x -> ra <> y -> rb <> x -> rb <> y -> re <> x -> re <> y ->
  (rb <> NIL -> ra <> rb /\ re <> rb) ->
  h p = Some npp -> p <> x -> p <> y -> (p <> NIL -> p <> ra /\ p <> rb /\ p <> re) ->
  exists t', rb_left_rotate t x = Ok t' /\
    (forall j, heap t' j = rot_heap h x y rb p (mk y c d ra rb) (mk p c2 d2 x re) j) /\
    root t' = (if Nat.eqb p NIL then y else root t) /\ fresh t' = fresh t /\ freed t' = freed t.
Proof.
  intros h Hx Hy N1 N2 N3 Ha Ma Hb Mb He Me A1 A2 B1 B2 E1 E2 B3 Hp P1 P2 P3.
  destruct t as [rt hp fr fd]. cbn [heap root fresh freed] in *. subst h.
  destruct na as [ap arr al ared ab asz am ac]; cbn in Ma; subst am.
  destruct nb as [bp brr bl bred bb bsz bm bc]; cbn in Mb; subst bm.
  destruct ne as [ep err el ered eb esz em ec]; cbn in Me; subst em.
  destruct npp as [pp prr pl pred pb psz pm pc].
  unfold rb_left_rotate.
  assert (PX : ptrmax 0 0 = 0) by reflexivity.
  repeat step.
  destruct (Nat.eqb_spec rb NIL) as [RB0|RB0]; cbn [negb].
  - subst rb. repeat step.
    destruct (Nat.eqb_spec p NIL) as [P0|P0].
    + subst p. repeat step. rewrite ?PX. eexists. split; [reflexivity|].
      cbn [heap root fresh freed]. split; [|auto]. intros j. unfold rot_heap, upd_node, mk.
      upds; subst; try congruence; auto.
    + destruct (P3 P0) as (P4&P5&P6). repeat step.
      destruct (Nat.eqb_spec x pl) as [L|L]; repeat step; rewrite ?PX;
      (eexists; split; [reflexivity|]; cbn [heap root fresh freed]; split; [|auto]; intros j; unfold rot_heap, upd_node, mk;
       upds; subst; rewrite ?Hp; cbn [option_map]; try congruence; auto;
       upds; cbn [lft] in *; try congruence; auto).
  - destruct (B3 RB0) as [B4 B5]. repeat step.
    destruct (Nat.eqb_spec p NIL) as [P0|P0].
    + subst p. repeat step. rewrite ?PX. eexists. split; [reflexivity|].
      cbn [heap root fresh freed]. split; [|auto]. intros j. unfold rot_heap, upd_node, mk.
      upds; subst; rewrite ?Hb; cbn [option_map]; try congruence; auto.
    + destruct (P3 P0) as (P4&P5&P6). repeat step.
      destruct (Nat.eqb_spec x pl) as [L|L]; repeat step; rewrite ?PX;
      (eexists; split; [reflexivity|]; cbn [heap root fresh freed]; split; [|auto]; intros j; unfold rot_heap, upd_node, mk;
       upds; subst; rewrite ?Hp, ?Hb; cbn [option_map]; try congruence; auto;
       upds; cbn [lft] in *; try congruence; auto).
Qed.

Lemma right_rotate_raw t x y p c d c2 d2 ra rb re na nb ne npp :
  let h := heap t in
  h x = Some (mk p c d y ra) -> h y = Some (mk x c2 d2 re rb) ->
  x <> y -> x <> NIL -> y <> NIL ->
  h ra = Some na -> mx na = 0 -> h rb = Some nb -> mx nb = 0 -> h re = Some ne -> mx ne = 0 ->
  ra <> x -> ra <> y -> rb <> x -> rb <> y -> re <> x -> re <> y ->
  (rb <> NIL -> ra <> rb /\ re <> rb) ->
  h p = Some npp -> p <> x -> p <> y -> (p <> NIL -> p <> ra /\ p <> rb /\ p <> re) ->
  exists t', rb_right_rotate t x = Ok t' /\
    (forall j, heap t' j = rot_heap h x y rb p (mk y c d rb ra) (mk p c2 d2 re x) j) /\
    root t' = (if Nat.eqb p NIL then y else root t) /\ fresh t' = fresh t /\ freed t' = freed t.
Proof.
  intros h Hx Hy N1 N2 N3 Ha Ma Hb Mb He Me A1 A2 B1 B2 E1 E2 B3 Hp P1 P2 P3.
  destruct t as [rt hp fr fd]. cbn [heap root fresh freed] in *. subst h.
  destruct na as [ap arr al ared ab asz am ac]; cbn in Ma; subst am.
  destruct nb as [bp brr bl bred bb bsz bm bc]; cbn in Mb; subst bm.
  destruct ne as [ep err el ered eb esz em ec]; cbn in Me; subst em.
  destruct npp as [pp prr pl pred pb psz pm pc].
  unfold rb_right_rotate.
  assert (PX : ptrmax 0 0 = 0) by reflexivity.
  repeat step.
  destruct (Nat.eqb_spec rb NIL) as [RB0|RB0]; cbn [negb].
  - subst rb. repeat step.
    destruct (Nat.eqb_spec p NIL) as [P0|P0].
    + subst p. repeat step. rewrite ?PX. eexists. split; [reflexivity|].
      cbn [heap root fresh freed]. split; [|auto]. intros j. unfold rot_heap, upd_node, mk.
      upds; subst; try congruence; auto.
    + destruct (P3 P0) as (P4&P5&P6). repeat step.
      destruct (Nat.eqb_spec x pl) as [L|L]; repeat step; rewrite ?PX;
      (eexists; split; [reflexivity|]; cbn [heap root fresh freed]; split; [|auto]; intros j; unfold rot_heap, upd_node, mk;
       upds; subst; rewrite ?Hp; cbn [option_map]; try congruence; auto;
       upds; cbn [lft] in *; try congruence; auto).
  - destruct (B3 RB0) as [B4 B5]. repeat step.
    destruct (Nat.eqb_spec p NIL) as [P0|P0].
    + subst p. repeat step. rewrite ?PX. eexists. split; [reflexivity|].
      cbn [heap root fresh freed]. split; [|auto]. intros j. unfold rot_heap, upd_node, mk.
      upds; subst; rewrite ?Hb; cbn [option_map]; try congruence; auto.
    + destruct (P3 P0) as (P4&P5&P6). repeat step.
      destruct (Nat.eqb_spec x pl) as [L|L]; repeat step; rewrite ?PX;
      (eexists; split; [reflexivity|]; cbn [heap root fresh freed]; split; [|auto]; intros j; unfold rot_heap, upd_node, mk;
       upds; subst; rewrite ?Hp, ?Hb; cbn [option_map]; try congruence; auto;
       upds; cbn [lft] in *; try congruence; auto).
Qed.

(** the configuration after relinking *)
Lemma rep_par h h' p q t : rep h p t ->
  (forall j, In j (ids t) -> j <> rid t -> h' j = h j) ->
  h' (rid t) = (if Nat.eqb (rid t) NIL then h' (rid t) else option_map (w_par q) (h (rid t))) ->
  NoDup (ids t) -> ~ In NIL (ids t) -> rep h' q t.
Proof.
  destruct t as [|i c d l r]; cbn [rep rid ids]; auto.
  intros (H1&H2&H3) F G ND NZ. destruct (Nat.eqb_spec i NIL) as [->|NI]; [exfalso; apply NZ; left; auto|].
  inversion ND; subst. rewrite G, H1. split; [reflexivity|].
  split; eapply rep_frame; try eassumption; intros j J; apply F.
  - right; apply in_or_app; auto.
  - intros ->. apply H4. apply in_or_app; auto.
  - right; apply in_or_app; auto.
  - intros ->. apply H4. apply in_or_app; auto.
Qed.

Lemma nd_app (l1 l2 : list nat) : NoDup (l1 ++ l2) ->
  NoDup l1 /\ NoDup l2 /\ forall j, In j l1 -> In j l2 -> False.
Proof.
  induction l1 as [|x l1 IH]; cbn; intros H.
  - repeat split; auto. constructor.
  - inversion H; subst. destruct (IH H3) as (A&B&C). repeat split; auto.
    + constructor; auto. intros X; apply H2; apply in_or_app; auto.
    + intros j [->|J] K; [apply H2; apply in_or_app; auto|eauto].
Qed.

(** parent context with its child link replaced *)
Lemma repK_relink h h' K x y : repK h x K -> x <> NIL ->
  (forall j, In j (idsK K) -> j <> pid K -> h' j = h j) ->
  h' (pid K) = (if Nat.eqb (pid K) NIL then h' (pid K)
     else option_map (fun n => if Nat.eqb x (lft n) then w_lft y n else w_rgt y n) (h (pid K))) ->
  (forall f K', K = f :: K' -> forall i c d l, f = FR i c d l -> rid l <> x) ->
  NoDup (idsK K) -> ~ In NIL (idsK K) -> repK h' y K.
Proof.
  destruct K as [|f K]; cbn [repK]; auto.
  intros H NX F G D ND NZ. cbn [pid idsK] in *.
  destruct (Nat.eqb_spec (fid f) NIL) as [E0|NI]; [exfalso; apply NZ; rewrite <- E0; destruct f; left; auto|].
  apply nd_app in ND. destruct ND as (ND1&ND2&ND3).
  destruct f as [i c d r|i c d l]; cbn [fid idsF] in *; destruct H as (H1&H2&H3); rewrite G, H1; inversion ND1; subst.
  - cbn [option_map mk lft]. rewrite Nat.eqb_refl. split; [reflexivity|].
    split; [eapply rep_frame; [|exact H2]|eapply repK_frame; [|exact H3]]; intros j J; apply F.
    + apply in_or_app; left; right; auto.
    + congruence.
    + apply in_or_app; auto.
    + intros ->. eapply ND3; eauto. left; auto.
  - cbn [option_map mk lft]. destruct (Nat.eqb_spec x (rid l)) as [X|_].
    { exfalso. eapply (D _ _ eq_refl); eauto. }
    split; [reflexivity|].
    split; [eapply rep_frame; [|exact H2]|eapply repK_frame; [|exact H3]]; intros j J; apply F.
    + apply in_or_app; left; right; auto.
    + congruence.
    + apply in_or_app; auto.
    + intros ->. eapply ND3; eauto. left; auto.
Qed.

Lemma rid_in t : t <> E -> In (rid t) (ids t).
Proof. destruct t; [congruence|left; auto]. Qed.
Lemma rid_nil t : ~ In NIL (ids t) -> rid t = NIL -> t = E.
Proof. destruct t; auto. cbn. intros H ->. exfalso; auto. Qed.
Lemma pid_in K : K <> [] -> In (pid K) (idsK K).
Proof. destruct K as [|f K]; [congruence|]. intros _. cbn. apply in_or_app. left. destruct f; left; auto. Qed.
