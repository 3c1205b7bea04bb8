(** The whole leak scan. *)
From Coq Require Import Relation_Operators.
From Verif Require Import Base Leak_Model Leak_Spec Leak_Proofs Leak_Proofs2 Leak_Proofs3.
Open Scope Z_scope.

Section Whole.
Context (e : env) (P : proper e).
Notation cs := (chunks e).
Notation bh := (bh e).

Definition grows (s s' : state) : Prop := (forall x, maybe s x = true -> maybe s' x = true) /\ (forall x, indirect s x = true -> indirect s' x = true).
Lemma grows_refl s : grows s s. Proof. split; auto. Qed.
Lemma grows_trans s t u : grows s t -> grows t u -> grows s u. Proof. intros (A & B) (C & D). split; auto. Qed.
Lemma set_true (f : Z -> bool) x y : f y = true -> set f x true y = true.
Proof. intros H. unfold set. destruct (y =? x); auto. Qed.
Lemma mark_grows s a x y s' : mark_indirect e s a x y = Ok s' -> grows s s'.
Proof.
  unfold mark_indirect. destruct (reach s x); [intros [= <-]; apply grows_refl|]. destruct (in_node e a) as [np|]; [|discriminate]. cbv zeta.
  match goal with |- (if ?b then _ else _) = _ -> _ => destruct b end; [intros [= <-]; split; auto|]. destruct (climb _ _ _) as [top| |]; cbn [bind]; try discriminate.
  intros [= <-]. destruct (top =? x); split; cbn; auto. intros z. apply set_true.
Qed.
Lemma play_grows hs : forall s s', play e false s hs = Ok s' -> grows s s'.
Proof.
  induction hs as [|[a [f c]] hs IH]; intros s s'; cbn [play]; [intros [= <-]; apply grows_refl|]. destruct (one e false s (a, (f, c))) as [s1| |] eqn:E; cbn [bind]; try discriminate. intros H.
  apply grows_trans with s1; [|apply IH; exact H]. destruct f; cbn [one] in E; [apply mark_grows in E; exact E|]. injection E as <-. unfold add_maybe. destruct (_ || _); split; cbn; auto. intros z. apply set_true.
Qed.

Definition seen (H : list hit) (c : chunk) : Prop := incl (bh c) H.
Lemma walk_unreach_inv rc l : forall H own dep s, incl l cs -> Inv2 e rc H [] own dep s ->
  exists s' H' own' dep', walk_unreach e s l = Ok s' /\ Inv2 e rc H' [] own' dep' s' /\ grows s s' /\ incl H H' /\
  forall c, In c l -> rc (base c) = true \/ maybe s' (base c) = true \/ seen H' c.
Proof.
  induction l as [|c l IH]; intros H own dep s A V; cbn [walk_unreach].
  - exists s, H, own, dep. split; [reflexivity|]. split; [exact V|]. split; [apply grows_refl|]. split; [apply incl_refl|]. intros c [].
  - assert (I : In c cs) by (apply A; left; reflexivity). assert (A' : incl l cs) by (intros x J; apply A; right; exact J).
    destruct (reach s (base c) || maybe s (base c)) eqn:Q; cbn [bind].
    + destruct (IH H own dep s A' V) as (s' & H' & own' & dep' & E & V' & G & L & B). exists s', H', own', dep'. split; [exact E|]. split; [exact V'|]. split; [exact G|]. split; [exact L|].
      intros d [<-|J]; [|auto]. rewrite (j_reach _ _ _ _ _ _ _ V) in Q. apply orb_true_iff in Q. destruct Q as [Q|Q]; [auto|]. right. left. apply G. exact Q.
    + destruct (scan_inv2 e P c rc H [] own dep s I V) as (s1 & own1 & dep1 & E1 & V1). rewrite E1. cbn [bind]. rewrite scan_is in E1 by exact P. apply play_grows in E1.
      destruct (IH _ own1 dep1 s1 A' V1) as (s' & H' & own' & dep' & E & V' & G & L & B). exists s', H', own', dep'. split; [exact E|]. split; [exact V'|]. split; [apply grows_trans with s1; auto|].
      split; [intros x K; apply L, in_app_iff; auto|]. intros d [<-|J]; [|auto]. right. right. intros x K. apply L, in_app_iff. auto.
Qed.
Lemma walk_maybe_inv rc : forall f H dn own dep s, Inv2 e rc H dn own dep s -> (length cs < f + length dn)%nat ->
  (forall c, In c cs -> In (span c) dn -> rc (base c) = true \/ indirect s (base c) = true \/ seen H c) ->
  exists s' H' own' dep' dn', walk_maybe e f s = Ok s' /\ Inv2 e rc H' dn' own' dep' s' /\ grows s s' /\ incl H H' /\ midq s' = [] /\
  (forall c, In c cs -> In (span c) dn' -> rc (base c) = true \/ indirect s' (base c) = true \/ seen H' c).
Proof.
  induction f as [|f IH]; intros H dn own dep s V F B.
  - exfalso. pose proof (span_count e _ (j_mspans _ _ _ _ _ _ _ V) (j_mnodup _ _ _ _ _ _ _ V)) as X. rewrite app_length in X. lia.
  - cbn [walk_maybe]. destruct (midq s) as [|[a b] q] eqn:Q. { exists s, H, own, dep, dn. split; [reflexivity|]. split; [exact V|]. split; [apply grows_refl|]. split; [apply incl_refl|]. auto. }
    destruct (j_mspans _ _ _ _ _ _ _ V (a, b)) as (c & I & E). { rewrite Q. apply in_app_iff. right. left. reflexivity. } injection E as -> ->.
    set (s1 := St (reach s) (maybe s) (indirect s) (entries s) (reachq s) q).
    assert (V1 : Inv2 e rc H (dn ++ [span c]) own dep s1).
    { destruct V as [V0 V1 V2 V3 V4 V5 V6 V7 V8 V9 VA]. rewrite Q in V8, V9, VA. subst s1. constructor; cbn [reach maybe indirect midq]; auto; rewrite <- app_assoc; auto. }
    assert (F1 : (length cs < f + length (dn ++ [span c]))%nat) by (rewrite app_length; cbn; lia).
    change (reach s1 (base c)) with (reach s (base c)). change (indirect s1 (base c)) with (indirect s (base c)).
    assert (SP : forall d, In d cs -> In (span d) (dn ++ [span c]) -> In (span d) dn \/ d = c).
    { intros d J K. apply in_app_iff in K. destruct K as [K|[K|[]]]; [auto|]. right. injection K as K1 K2. apply (base_inj e P); auto. }
    destruct (reach s (base c)) eqn:R; cbn [bind].
    { destruct (IH H _ own dep s1 V1 F1) as (s' & H' & own' & dep' & dn' & E & V' & G & L & M & B'); [|exists s', H', own', dep', dn'; split; [exact E|split; [exact V'|split; [exact G|split; [exact L|split; [exact M|exact B']]]]]].
      intros d J K. destruct (SP d J K) as [K'| ->]; [apply B; auto|]. rewrite (j_reach _ _ _ _ _ _ _ V) in R. auto. }
    destruct (indirect s (base c)) eqn:R2; cbn [bind].
    { destruct (IH H _ own dep s1 V1 F1) as (s' & H' & own' & dep' & dn' & E & V' & G & L & M & B'); [|exists s', H', own', dep', dn'; split; [exact E|split; [exact V'|split; [exact G|split; [exact L|split; [exact M|exact B']]]]]].
      intros d J K. destruct (SP d J K) as [K'| ->]; [apply B; auto|]. auto. }
    destruct (scan_inv2 e P c rc H _ own dep s1 I V1) as (s2 & own2 & dep2 & E2 & V2). rewrite E2. cbn [bind]. rewrite scan_is in E2 by exact P. apply play_grows in E2.
    destruct (IH _ _ own2 dep2 s2 V2 F1) as (s' & H' & own' & dep' & dn' & E & V' & G & L & M & B').
    { intros d J K. destruct (SP d J K) as [K'| ->]; [|right; right; intros x X; apply in_app_iff; auto]. destruct (B d J K') as [X|[X|X]]; [auto|right; left; apply E2; exact X|]. right. right. intros x Y. apply in_app_iff. left. apply X. exact Y. }
    exists s', H', own', dep', dn'. split; [exact E|]. split; [exact V'|]. split; [apply grows_trans with s2; auto|]. split; [intros x K; apply L, in_app_iff; auto|]. split; [exact M|exact B'].
Qed.

Lemma total_zero {A} (g : A -> Z) l : (forall x, In x l -> g x = 0) -> total g l = 0.
Proof. induction l as [|x l IH]; intros H; cbn; [reflexivity|]. fold (total g l). rewrite IH, (H x); [reflexivity|left; reflexivity|]. intros y I. apply H. right. exact I. Qed.
Lemma total_pick (g : chunk -> Z) l d : NoDup (map base l) -> In d l -> total (fun x => if base x =? base d then g x else 0) l = g d.
Proof.
  induction l as [|x l IH]; intros N I; [destruct I|]. cbn in N. inversion N as [|? ? N1 N2]; subst. cbn. fold (total (fun x => if base x =? base d then g x else 0) l). destruct I as [->|I].
  - rewrite Z.eqb_refl, total_zero; [lia|]. intros y J. destruct (base y =? base d) eqn:E; [|reflexivity]. apply Z.eqb_eq in E. exfalso. apply N1. rewrite <- E. apply in_map. exact J.
  - rewrite IH by auto. destruct (base x =? base d) eqn:E; [|reflexivity]. apply Z.eqb_eq in E. exfalso. apply N1. rewrite E. apply in_map. exact I.
Qed.
Lemma start_inv s : Done1 e s -> Inv2 e (reach s) [] [] (fun x => x) (fun _ => O) s.
Proof.
  intros D. destruct D as [D1 D2 D3 D4 D5 D6 D7 D8]. constructor; auto.
  - intros d I. exists d. repeat split; auto. apply rt_refl.
  - intros d I _. unfold entry_of. rewrite D8. cbn. repeat split; auto. unfold group. rewrite total_pick; [lia|apply (p_nodup e P)|exact I].
  - intros d I Q. rewrite D7 in Q. discriminate.
  - intros d I. lia.
  all: try (intros; match goal with X : In _ [] |- _ => destruct X end).
  - intros c I M. destruct (D2 c I M) as [X|(b & J & _ & L)]; [left; exact X|right; eauto].
Qed.

(** Everything known at the end. *)
Record Final (s : state) (own : Z -> Z) : Prop := {
  f_reached : forall c, In c cs -> (reach s (base c) = true <-> Reach e c);
  f_own : forall d, In d cs -> exists c, In c cs /\ own (base d) = base c /\ own (base c) = base c /\ path e c d;
  f_root : forall d, In d cs -> (indirect s (base d) = false <-> own (base d) = base d);
  f_bytes : forall d, In d cs -> own (base d) = base d -> fst (entry_of s (base d)) = group e own (base d) - len d;
  f_indir : forall d, In d cs -> indirect s (base d) = true -> reach s (base d) = false;
  f_firm : forall b c, In b cs -> In c cs -> link e true b c -> reach s (base b) = false -> ~ (maybe s (base b) = true /\ indirect s (base b) = true) ->
    reach s (base c) = true \/ indirect s (base c) = true \/ own (base b) = base c;
  f_loose : forall b c, In b cs -> In c cs -> link e false b c -> ~ (maybe s (base b) = true /\ indirect s (base b) = true) ->
    reach s (base c) = true \/ maybe s (base c) = true \/ indirect s (base c) = true;
  f_rootloose : forall c, In c cs -> root e false c -> reach s (base c) = true \/ maybe s (base c) = true;
  f_doubt : forall c, In c cs -> maybe s (base c) = true -> doubt e c }.
Lemma classify_final : exists s own, classify e = Ok s /\ Final s own.
Proof.
  destruct (phase1 e P) as (s1 & E1 & D). destruct (walk_unreach_inv (reach s1) cs [] _ _ s1 (incl_refl _) (start_inv s1 D)) as (s2 & H2 & own2 & dep2 & E2 & V2 & G2 & _ & B2).
  destruct (walk_maybe_inv (reach s1) (S (length cs)) H2 [] own2 dep2 s2 V2) as (s & H & own & dep & dn & E & V & G & L & M & B); [cbn; lia|intros c _ []|].
  exists s, own. split.
  { unfold classify. destruct (scan_regs e init (regs e)) as [t| |]; cbn [bind] in *; try discriminate. destruct (scan e true t (root_words e)) as [t1| |]; cbn [bind] in *; try discriminate.
    rewrite E1. cbn [bind]. rewrite E2. exact E. }
  assert (SN : forall c, In c cs -> reach s1 (base c) = true \/ (maybe s (base c) = true /\ indirect s (base c) = true) \/ seen H c).
  { intros c I. destruct (maybe s (base c)) eqn:Q.
    - apply (j_mid _ _ _ _ _ _ _ V) in Q. pose proof (j_mspans _ _ _ _ _ _ _ V) as S. rewrite M, app_nil_r in Q, S. destruct (B c I) as [X|[X|X]]; auto. apply (span_in e P); auto.
    - destruct (B2 c I) as [X|[X|X]]; auto. { apply G in X. congruence. } right. right. intros x K. apply L, X, K. }
  assert (HL : forall b f c, In b cs -> In c cs -> link e f b c -> exists a, In (a, (f, c)) (bh b) /\ holds b a).
  { intros b f c IB I K. destruct (proj2 (link_hit_iff e P b f c) (conj I K)) as (a & X). exists a. split; [exact X|]. destruct (hit_word e _ _ _ X) as (de & W). apply (p_words e P b) in W; [exact W|exact IB]. }
  destruct V as [V0 V1 V2' V3 V4 V5 V6 V7 V8 V9 VA]. constructor.
  - intros c I. rewrite V0. apply (d_reach _ _ D c I).
  - exact V1.
  - intros d I. destruct (indirect s (base d)) eqn:Q; [|destruct (V2' d I Q); tauto]. destruct (V3 d I Q) as (X & _). split; [discriminate|congruence].
  - intros d I O. destruct (indirect s (base d)) eqn:Q; [destruct (V3 d I Q) as (X & _); congruence|]. apply V2'; auto.
  - intros d I Q. rewrite V0. apply (V3 d I Q).
  - intros b c I J K R N. rewrite V0 in *. destruct (SN b I) as [X|[X|X]]; [congruence|tauto|]. destruct (HL b true c I J K) as (a & Y & Z). apply V5 with a; auto.
  - intros b c I J K N. rewrite V0. destruct (SN b I) as [X|[X|X]]; [|tauto|].
    + destruct (d_seen _ _ D c J) as [Y|Y]; [right; exists b; repeat split; auto; apply (d_reach _ _ D b I); exact X|auto|]. right. left. apply G, G2, Y.
    + destruct (HL b false c I J K) as (a & Y & Z). apply V6 with a; auto.
  - intros c I R. rewrite V0. destruct (d_seen _ _ D c I) as [Y|Y]; [left; exact R|auto|]. right. apply G, G2, Y.
  - exact V7.
Qed.

(** Sums over groups. *)
Lemma total_swap {A B} (g : A -> B -> Z) l : forall m, total (fun x => total (g x) m) l = total (fun y => total (fun x => g x y) l) m.
Proof.
  induction l as [|x l IH]; intros m; cbn.
  - symmetry. apply total_zero. reflexivity.
  - fold (total (fun x => total (g x) m) l). rewrite IH. symmetry. apply total_add.
Qed.
Lemma total_filter {A} (g : A -> Z) p l : total g (filter p l) = total (fun x => if p x then g x else 0) l.
Proof. induction l as [|x l IH]; cbn; [reflexivity|]. destruct (p x); cbn; fold (total g (filter p l)); fold (total (fun x => if p x then g x else 0) l); lia. Qed.
Lemma path_reach b c : path e b c -> Reach e b -> Reach e c.
Proof. intros H. induction H as [b c (I & L)|b|b c d _ IH1 _ IH2]; intros R; auto. apply reach_link with b; auto. Qed.

Context (s : state) (own : Z -> Z) (W : Final s own).
Definition un (c : chunk) : bool := negb (reach s (base c)).
Lemma un_iff c : In c cs -> (un c = true <-> ~ Reach e c).
Proof. intros I. unfold un. rewrite negb_true_iff. rewrite <- (f_reached _ _ W c I). destruct (reach s (base c)); split; congruence. Qed.
Lemma own_un d c : In d cs -> In c cs -> own (base d) = base c -> un c = un d.
Proof.
  intros I J O. destruct (f_own _ _ W d I) as (c' & J' & O' & O2 & Pa). assert (c' = c) by (apply (base_inj e P); auto; congruence). subst c'.
  unfold un. destruct (reach s (base d)) eqn:R.
  - destruct (indirect s (base d)) eqn:Q; [rewrite (f_indir _ _ W d I Q) in R; discriminate|]. apply (f_root _ _ W d I) in Q. assert (d = c) by (apply (base_inj e P); auto; congruence). subst d. rewrite R. reflexivity.
  - destruct (reach s (base c)) eqn:Rc; [|reflexivity]. apply (f_reached _ _ W c J) in Rc. apply path_reach with (c := d) in Rc; auto. apply (f_reached _ _ W d I) in Rc. congruence.
Qed.
Lemma sum_groups : total (fun c => if un c && (own (base c) =? base c) then group e own (base c) else 0) cs = total (fun d => if un d then len d else 0) cs.
Proof.
  rewrite (total_ext _ (fun c => total (fun d => if un c && (own (base c) =? base c) && (own (base d) =? base c) then len d else 0) cs)).
  2: { intros c I. unfold group. destruct (un c && (own (base c) =? base c)); cbn [andb]; [reflexivity|]. symmetry. apply total_zero. reflexivity. }
  rewrite total_swap. apply total_ext. intros d I. destruct (f_own _ _ W d I) as (c & J & O & O2 & Pa).
  rewrite (total_ext _ (fun x => if base x =? base c then (if un d then len d else 0) else 0)).
  - apply (total_pick (fun _ => if un d then len d else 0)); [apply (p_nodup e P)|exact J].
  - intros x K. rewrite O. destruct (base c =? base x) eqn:E.
    + apply Z.eqb_eq in E. assert (x = c) by (apply (base_inj e P); auto). subst x. rewrite Z.eqb_refl, O2, Z.eqb_refl, (own_un d c) by auto. rewrite !andb_true_r. reflexivity.
    + replace (base x =? base c) with false by lia. rewrite andb_false_r. reflexivity.
Qed.
Lemma group_split d : In d cs -> own (base d) = base d -> group e own (base d) - len d = total len (filter (fun c => (own (base c) =? base d) && negb (base c =? base d)) cs).
Proof.
  intros I O. rewrite total_filter. unfold group. rewrite <- (total_pick len cs d (p_nodup e P) I) at 1.
  cut (total (fun d0 => if own (base d0) =? base d then len d0 else 0) cs = total (fun x => if base x =? base d then len x else 0) cs + total (fun x => if (own (base x) =? base d) && negb (base x =? base d) then len x else 0) cs); [lia|].
  rewrite <- total_add. apply total_ext. intros x K. destruct (base x =? base d) eqn:E; cbn [negb andb]; [|rewrite andb_true_r; lia]. apply Z.eqb_eq in E. rewrite E, O, Z.eqb_refl. cbn. lia.
Qed.
End Whole.
