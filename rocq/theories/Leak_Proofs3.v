(** The second phase of the leak scan: unreachable blocks are grouped. *)
From Coq Require Import Relation_Operators.
From Verif Require Import Base Leak_Model Leak_Spec Leak_Proofs Leak_Proofs2.
Open Scope Z_scope.

Section Phase2.
Context (e : env) (P : proper e).
Notation cs := (chunks e).
Notation hits := (hits e).
Notation play := (play e).

Lemma total_ext {A} (f g : A -> Z) l : (forall x, In x l -> f x = g x) -> total f l = total g l.
Proof. intros H. unfold total. induction l as [|x l IH]; cbn [fold_right]; [reflexivity|]. rewrite (H x), IH; [reflexivity| |left; reflexivity]. intros y I. apply H. right. exact I. Qed.
Lemma total_add {A} (f g : A -> Z) l : total (fun x => f x + g x) l = total f l + total g l.
Proof. induction l as [|x l IH]; cbn [total fold_right] in *; unfold total in *; lia. Qed.
Lemma filter_le {A} (f : A -> bool) l : (length (filter f l) <= length l)%nat.
Proof. induction l as [|x l IH]; cbn; [lia|]. destruct (f x); cbn; lia. Qed.
(** All bytes of the group [x]. *)
Definition group (own : Z -> Z) (x : Z) : Z := total (fun d => if own (base d) =? x then len d else 0) cs.
Definition nind (s : state) : nat := length (filter (fun c => indirect s (base c)) cs).
Definition doubt (c : chunk) : Prop := root e false c \/ exists b, In b cs /\ link e false b c.

Record Inv2 (rc : Z -> bool) (H : list hit) (dn : list (Z * Z)) (own : Z -> Z) (dep : Z -> nat) (s : state) : Prop := {
  j_reach : reach s = rc;
  j_own : forall d, In d cs -> exists c, In c cs /\ own (base d) = base c /\ own (base c) = base c /\ path e c d;
  j_root : forall d, In d cs -> indirect s (base d) = false -> own (base d) = base d /\ dep (base d) = O /\
    (snd (entry_of s (base d)) = None \/ snd (entry_of s (base d)) = Some (base d)) /\ fst (entry_of s (base d)) = group own (base d) - len d;
  j_child : forall d, In d cs -> indirect s (base d) = true -> own (base d) <> base d /\ rc (base d) = false /\
    exists p, In p cs /\ snd (entry_of s (base d)) = Some (base p) /\ base p <> base d /\ own (base p) = own (base d) /\ (dep (base p) < dep (base d))%nat;
  j_dep : forall d, In d cs -> (dep (base d) <= nind s)%nat;
  j_firm : forall a b c, In (a, (true, c)) H -> In b cs -> holds b a -> rc (base c) = true \/ indirect s (base c) = true \/ own (base b) = base c;
  j_loose : forall a c, In (a, (false, c)) H -> rc (base c) = true \/ maybe s (base c) = true \/ indirect s (base c) = true;
  j_maybe : forall c, In c cs -> maybe s (base c) = true -> doubt c;
  j_mspans : spans e (dn ++ midq s);
  j_mnodup : NoDup (map fst (dn ++ midq s));
  j_mid : forall x, maybe s x = true <-> In x (map fst (dn ++ midq s)) }.

Lemma climb_is rc H dn own dep s : Inv2 rc H dn own dep s -> forall f d, In d cs -> (dep (base d) < f)%nat -> climb f s (base d) = Ok (own (base d)).
Proof.
  intros V. induction f as [|f IH]; intros d I L; [lia|]. cbn [climb]. destruct (indirect s (base d)) eqn:Q.
  - destruct (j_child _ _ _ _ _ _ V d I Q) as (_ & _ & p & J & -> & N & E & D). apply Z.eqb_neq in N. rewrite N. rewrite <- E. apply IH; auto. lia.
  - destruct (j_root _ _ _ _ _ _ V d I Q) as (E & _ & [N|N] & _); rewrite N; rewrite ?Z.eqb_refl, E; reflexivity.
Qed.
Lemma entry_same s x y : entry_of (with_entries s (set (entries s) x (Some (entry_of s x)))) y = entry_of s y.
Proof. unfold entry_of, with_entries, set. cbn. destruct (y =? x) eqn:E; [|reflexivity]. apply Z.eqb_eq in E. subst. reflexivity. Qed.
Lemma entry_set s x v y : entry_of (with_entries s (set (entries s) x (Some v))) y = if y =? x then v else entry_of s y.
Proof. unfold entry_of, with_entries, set. cbn. destruct (y =? x) eqn:E; reflexivity. Qed.
Lemma climb_ext f : forall s s' x, (forall y, entry_of s' y = entry_of s y) -> climb f s' x = climb f s x.
Proof. induction f as [|f IH]; intros s s' x E; cbn; [reflexivity|]. rewrite E. destruct (snd (entry_of s x)); [|reflexivity]. rewrite (IH s s'); auto. Qed.

(** Marking, described by entries. *)
Definition like (s s' : state) : Prop := reach s' = reach s /\ maybe s' = maybe s /\ midq s' = midq s.
Lemma mark_is rc H dn own dep s b c a : Inv2 rc H dn own dep s -> In b cs -> In c cs -> holds b a ->
  exists s', mark_indirect e s a (base c) (base c + len c) = Ok s' /\ like s s' /\
  let top := own (base b) in
  if rc (base c) || indirect s (base c) then indirect s' = indirect s /\ forall y, entry_of s' y = entry_of s y
  else if top =? base c then indirect s' = indirect s /\ forall y, entry_of s' y = if y =? base c then (fst (entry_of s y), Some y) else entry_of s y
  else indirect s' = set (indirect s) (base c) true /\
       forall y, entry_of s' y = if y =? base c then (fst (entry_of s y), Some top)
                                 else if y =? top then (fst (entry_of s y) + (fst (entry_of s (base c)) + len c), snd (entry_of s y)) else entry_of s y.
Proof.
  intros V I J A. unfold mark_indirect. rewrite (j_reach _ _ _ _ _ _ V). destruct (rc (base c)) eqn:R; cbn [orb]. { exists s. split; [reflexivity|]. split; [repeat split|]. auto. }
  rewrite (in_node_some e P b a I A).
  set (s1 := with_entries s (set (entries s) (base c) (Some (entry_of s (base c))))). set (s2 := with_entries s1 (set (entries s1) (base b) (Some (entry_of s1 (base b))))).
  assert (E2 : forall y, entry_of s2 y = entry_of s y). { intros y. unfold s2, s1. rewrite !entry_same. reflexivity. }
  change (indirect s2 (base c)) with (indirect s (base c)). destruct (indirect s (base c)) eqn:Q. { exists s2. split; [reflexivity|]. split; [repeat split|]. split; [reflexivity|exact E2]. }
  rewrite (climb_ext _ s s2 _ E2), (climb_is _ _ _ _ _ _ V).
  2: exact I. 2: { pose proof (j_dep _ _ _ _ _ _ V b I) as D. unfold nind in D. pose proof (filter_le (fun c => indirect s (base c)) cs). lia. }
  cbn [bind]. cbv zeta. destruct (own (base b) =? base c) eqn:T.
  - eexists. split; [reflexivity|]. split; [repeat split|]. split; [reflexivity|]. intros y. rewrite entry_set, !E2. destruct (y =? base c) eqn:Y; [|reflexivity]. apply Z.eqb_eq in Y, T. rewrite Y, T. reflexivity.
  - eexists. split; [reflexivity|]. split; [repeat split|]. split; [reflexivity|]. intros y.
    match goal with |- entry_of (St _ _ _ (entries ?S) _ _) y = _ => change (entry_of S y = (if y =? base c then (fst (entry_of s y), Some (own (base b))) else if y =? own (base b) then (fst (entry_of s y) + (fst (entry_of s (base c)) + len c), snd (entry_of s y)) else entry_of s y)) end.
    rewrite !entry_set, !E2. apply Z.eqb_neq in T. replace (base c =? own (base b)) with false by lia. destruct (y =? base c) eqn:Y; [apply Z.eqb_eq in Y; rewrite Y; reflexivity|].
    destruct (y =? own (base b)) eqn:Z1; [|reflexivity]. apply Z.eqb_eq in Z1. rewrite Z1. f_equal. f_equal. f_equal. lia.
Qed.
Lemma count_set s (c : chunk) l : In c l -> indirect s (base c) = false -> NoDup (map base l) ->
  length (filter (fun d => set (indirect s) (base c) true (base d)) l) = S (length (filter (fun d => indirect s (base d)) l)).
Proof.
  induction l as [|d l IH]; [intros []|]. intros I Q N. cbn in N. inversion N as [|? ? N1 N2]; subst. cbn [filter]. unfold set at 1. destruct I as [->|I].
  - rewrite Z.eqb_refl, Q. cbn. f_equal. f_equal. clear - N1. induction l as [|d l IH]; [reflexivity|]. cbn in *. unfold set at 1. destruct (base d =? base c) eqn:E; [apply Z.eqb_eq in E; tauto|]. rewrite IH by tauto. reflexivity.
  - destruct (base d =? base c) eqn:E. { apply Z.eqb_eq in E. exfalso. apply N1. rewrite E. apply in_map. exact I. }
    destruct (indirect s (base d)); cbn; rewrite IH; auto.
Qed.

Lemma one_inv2 rc H dn own dep s a f b c : Inv2 rc H dn own dep s -> In b cs -> In c cs -> holds b a -> link e f b c ->
  exists s' own' dep', one e false s (a, (f, c)) = Ok s' /\ Inv2 rc (H ++ [(a, (f, c))]) dn own' dep' s' /\
    (forall x, In x (map fst (midq s)) -> In x (map fst (midq s'))) .
Proof.
  intros V I J A L. destruct f; cbn [one].
  - destruct (mark_is _ _ _ _ _ _ b c a V I J A) as (s' & E & (L1 & L2 & L3) & X). cbv zeta in X. rewrite E. clear E.
    assert (HB : forall d, In d cs -> holds d a -> d = b) by (intros d K Y; apply (p_disj e P d b a); auto).
    destruct (rc (base c) || indirect s (base c)) eqn:Q.
    + destruct X as (X1 & X2). exists s', own, dep. split; [reflexivity|]. split; [|rewrite L3; auto]. destruct V as [V0 V1 V2 V3 V4 V5 V6 V7 V8 V9 VA]. constructor; rewrite ?L1, ?L2, ?L3, ?X1; auto.
      * intros d K. rewrite X2. apply V2; auto.
      * intros d K. rewrite X2. apply V3; auto.
      * unfold nind. rewrite X1. exact V4.
      * intros a' b' c' K. apply in_app_iff in K. destruct K as [K|[[= <- <-]|[]]]; [apply V5; auto|]. intros _ _. apply orb_true_iff in Q. tauto.
      * intros a' c' K. apply in_app_iff in K. destruct K as [K|[K|[]]]; [apply (V6 a'); auto|discriminate].
    + apply orb_false_iff in Q. destruct Q as (Q1 & Q2). destruct (own (base b) =? base c) eqn:T.
      * apply Z.eqb_eq in T. destruct X as (X1 & X2). exists s', own, dep. split; [reflexivity|]. split; [|rewrite L3; auto]. destruct V as [V0 V1 V2 V3 V4 V5 V6 V7 V8 V9 VA]. constructor; rewrite ?L1, ?L2, ?L3, ?X1; auto.
        -- intros d K U. rewrite X2. destruct (V2 d K U) as (? & ? & ? & ?). destruct (base d =? base c); cbn; auto.
        -- intros d K U. rewrite X2. destruct (base d =? base c) eqn:D; [apply Z.eqb_eq in D; congruence|]. apply V3; auto.
        -- unfold nind. rewrite X1. exact V4.
        -- intros a' b' c' K. apply in_app_iff in K. destruct K as [K|[[= <- <-]|[]]]; [apply V5; auto|]. intros K Y. right. right. rewrite (HB b' K Y). exact T.
        -- intros a' c' K. apply in_app_iff in K. destruct K as [K|[K|[]]]; [apply (V6 a'); auto|discriminate].
      * apply Z.eqb_neq in T. destruct X as (X1 & X2). set (top := own (base b)) in *.
        set (own' := fun x => if own x =? base c then top else own x). set (dep' := fun x => if own x =? base c then S (dep x) else dep x).
        destruct (j_root _ _ _ _ _ _ V c J Q2) as (C1 & C2 & C3 & C4). destruct (j_own _ _ _ _ _ _ V b I) as (t & It & Et & Et' & Pt). fold top in Et.
        assert (Qt : indirect s (base t) = false). { destruct (indirect s (base t)) eqn:Y; [|reflexivity]. destruct (j_child _ _ _ _ _ _ V t It Y). congruence. }
        destruct (j_root _ _ _ _ _ _ V t It Qt) as (T1 & T2 & T3 & T4).
        assert (G1 : forall x, x <> base c -> group own' x = if x =? top then group own top + group own (base c) else group own x).
        { intros x Nx. unfold group, own'. destruct (x =? top) eqn:Y.
          - apply Z.eqb_eq in Y. subst x. rewrite <- total_add. apply total_ext. intros d _. destruct (own (base d) =? base c) eqn:D; [|lia]. rewrite Z.eqb_refl. replace (own (base d) =? top) with false by lia. lia.
          - apply total_ext. intros d _. destruct (own (base d) =? base c) eqn:D; [|reflexivity]. replace (top =? x) with false by lia. replace (own (base d) =? x) with false by lia. reflexivity. }
        assert (OT : own' top = top). { unfold own'. rewrite Et. rewrite Et'. replace (base t =? base c) with false by lia. reflexivity. }
        assert (NS : nind s' = S (nind s)). { unfold nind. rewrite X1. apply count_set; auto. apply (p_nodup e P). }
        exists s', own', dep'. split; [reflexivity|]. split; [|rewrite L3; auto]. destruct V as [V0 V1 V2 V3 V4 V5 V6 V7 V8 V9 VA]. constructor; rewrite ?L1, ?L2, ?L3; auto.
        -- intros d K. destruct (V1 d K) as (r & Ir & Er & Er' & Pr). unfold own' at 1. destruct (own (base d) =? base c) eqn:D.
           ++ exists t. split; [exact It|]. split; [congruence|]. split; [rewrite <- Et; exact OT|]. apply Z.eqb_eq in D. assert (r = c) by (apply (base_inj e P); auto; congruence). subst r.
              apply rt_trans with b; [exact Pt|]. apply rt_trans with c; [apply rt_step; auto|exact Pr].
           ++ exists r. repeat split; auto. unfold own'. rewrite Er'. rewrite Er in D. rewrite D. reflexivity.
        -- intros d K U. rewrite X1 in U. unfold set in U. destruct (base d =? base c) eqn:D; [discriminate|]. destruct (V2 d K U) as (Y1 & Y2 & Y3 & Y4).
           apply Z.eqb_neq in D. unfold own' at 1, dep'. rewrite Y1. replace (base d =? base c) with false by lia. rewrite X2. replace (base d =? base c) with false by lia. rewrite G1 by auto.
           destruct (base d =? top) eqn:W; cbn [fst snd]; repeat split; auto. apply Z.eqb_eq in W. assert (d = t) by (apply (base_inj e P); auto; congruence). subst d. rewrite Y4, C4, W. lia.
        -- intros d K U. rewrite X1 in U. unfold set in U. rewrite X2. destruct (base d =? base c) eqn:D.
           ++ apply Z.eqb_eq in D. assert (d = c) by (apply (base_inj e P); auto). subst d. assert (OC : own' (base c) = top) by (unfold own'; rewrite C1, Z.eqb_refl; reflexivity).
              rewrite OC. split; [exact T|]. split; [exact Q1|]. exists t. cbn [snd]. rewrite <- Et. split; [exact It|]. split; [reflexivity|]. split; [exact T|]. split; [exact OT|].
              unfold dep'. rewrite C1, Z.eqb_refl, C2, Et, Et'. replace (base t =? base c) with false by lia. lia.
           ++ apply Z.eqb_neq in D. destruct (V3 d K U) as (Y1 & Y2 & p & Ip & Y3 & Y4 & Y5 & Y6).
              assert (W : base d <> top). { intros W. apply Y1. rewrite W, Et. exact Et'. } replace (base d =? top) with false by lia.
              split. { unfold own'. destruct (own (base d) =? base c); auto. } split; [exact Y2|]. exists p. repeat split; auto. { unfold own'. rewrite Y5. reflexivity. } unfold dep'. rewrite Y5. destruct (own (base d) =? base c); lia.
        -- intros d K. rewrite NS. specialize (V4 d K). unfold dep'. destruct (own (base d) =? base c); lia.
        -- rewrite X1. intros a' b' c' K K1 K2. apply in_app_iff in K. destruct K as [K|[[= <- <-]|[]]].
           ++ unfold set. destruct (V5 a' b' c' K K1 K2) as [Y|[Y|Y]]; [auto|right; left; destruct (base c' =? base c); auto|]. unfold own'. rewrite Y. destruct (base c' =? base c); auto.
           ++ right. left. unfold set. rewrite Z.eqb_refl. reflexivity.
        -- rewrite X1. intros a' c' K. apply in_app_iff in K. destruct K as [K|[K|[]]]; [|discriminate]. unfold set. destruct (V6 a' c' K) as [Y|[Y|Y]]; auto. destruct (base c' =? base c); auto.
  - unfold add_maybe. exists (if maybe s (base c) || reach s (base c) || indirect s (base c) then s else St (reach s) (set (maybe s) (base c) true) (indirect s) (entries s) (reachq s) (midq s ++ [(base c, base c + len c)])), own, dep.
    split; [reflexivity|]. destruct (maybe s (base c) || reach s (base c) || indirect s (base c)) eqn:Q.
    + split; [|auto]. destruct V as [V0 V1 V2 V3 V4 V5 V6 V7 V8 V9 VA]. constructor; auto.
      * intros a' b' c' K. apply in_app_iff in K. destruct K as [K|[K|[]]]; [apply V5; auto|discriminate].
      * intros a' c' K. apply in_app_iff in K. destruct K as [K|[[= <- <-]|[]]]; [apply (V6 a'); auto|]. rewrite V0 in Q. rewrite !orb_true_iff in Q. tauto.
    + rewrite !orb_false_iff in Q. destruct Q as ((Q1 & Q2) & Q3). destruct V as [V0 V1 V2 V3 V4 V5 V6 V7 V8 V9 VA].
      assert (N : ~ In (base c) (map fst (dn ++ midq s))) by (rewrite <- VA; congruence).
      split; [|cbn [midq]; intros x; rewrite map_app, in_app_iff; auto]. constructor; cbn [reach maybe indirect midq]; auto.
      * intros a' b' c' K. apply in_app_iff in K. destruct K as [K|[K|[]]]; [apply V5; auto|discriminate].
      * intros a' c' K. unfold set. apply in_app_iff in K. destruct K as [K|[[= <- <-]|[]]]; [destruct (V6 a' c' K) as [Y|[Y|Y]]; auto; destruct (base c' =? base c); auto|]. rewrite Z.eqb_refl. auto.
      * intros d K. unfold set. destruct (base d =? base c) eqn:D; [|apply V7; auto]. intros _. assert (d = c) by (apply (base_inj e P); auto; lia). subst d. right. exists b. auto.
      * rewrite app_assoc. apply (spans_app e P). split; [exact V8|]. intros x [<-|[]]. exists c. auto.
      * rewrite app_assoc, map_app. apply NoDup_snoc; auto.
      * intros x. rewrite app_assoc, map_app, in_app_iff. cbn. unfold set. destruct (x =? base c) eqn:D; [split; [right; left; lia|reflexivity]|]. rewrite VA. split; [auto|]. intros [?|[?|[]]]; [auto|lia].
Qed.
(** A block scanned. *)
Lemma play_inv2 hs : forall b rc H dn own dep s, In b cs -> (forall a f c, In (a, (f, c)) hs -> holds b a /\ In c cs /\ link e f b c) -> Inv2 rc H dn own dep s ->
  exists s' own' dep', play false s hs = Ok s' /\ Inv2 rc (H ++ hs) dn own' dep' s'.
Proof.
  induction hs as [|[a [f c]] hs IH]; intros b rc H dn own dep s I A V; cbn [Leak_Proofs.play]; [exists s, own, dep; rewrite app_nil_r; auto|].
  destruct (A a f c) as (A1 & A2 & A3); [left; reflexivity|]. destruct (one_inv2 rc H dn own dep s a f b c) as (s1 & own1 & dep1 & E1 & V1 & _); auto. rewrite E1. cbn [bind].
  destruct (IH b rc _ dn own1 dep1 s1 I ltac:(intros; eapply A; right; eassumption) V1) as (s2 & own2 & dep2 & E2 & V2). exists s2, own2, dep2. split; [exact E2|]. rewrite <- app_assoc in V2. exact V2.
Qed.
Definition bh (c : chunk) : list hit := hits (words e (base c) (base c + len c)).
Lemma scan_inv2 b rc H dn own dep s : In b cs -> Inv2 rc H dn own dep s ->
  exists s' own' dep', scan e false s (words e (base b) (base b + len b)) = Ok s' /\ Inv2 rc (H ++ bh b) dn own' dep' s'.
Proof.
  intros I V. rewrite scan_is by exact P. apply (play_inv2 _ b) with (own := own) (dep := dep); auto. intros a f c K. destruct (hit_word e _ _ _ K) as (de & W). apply (p_words e P b) in W; [|exact I]. split; [exact W|].
  apply link_hit_iff; auto. eauto.
Qed.
End Phase2.
