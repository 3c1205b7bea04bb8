(** The first phase of the leak scan: everything reachable is found. *)
From Coq Require Import Relation_Operators.
From Verif Require Import Base Leak_Model Leak_Spec Leak_Proofs.
Open Scope Z_scope.

Section Phase1.
Context (e : env) (P : proper e).
Notation cs := (chunks e).
Notation hits := (hits e).
Notation play := (play e).

Definition span (c : chunk) : Z * Z := (base c, base c + len c).
Definition spans (q : list (Z * Z)) : Prop := forall x, In x q -> exists c, In c cs /\ x = span c.
Lemma spans_app q r : spans (q ++ r) <-> spans q /\ spans r.
Proof. unfold spans. setoid_rewrite in_app_iff. firstorder. Qed.
Lemma span_bases q : spans q -> incl (map fst q) (map base cs).
Proof. intros H x I. apply in_map_iff in I. destruct I as (y & <- & I). destruct (H y I) as (c & J & ->). apply (in_map base cs c J). Qed.
Lemma span_count q : spans q -> NoDup (map fst q) -> (length q <= length cs)%nat.
Proof. intros H N. rewrite <- (map_length fst q), <- (map_length base cs). apply NoDup_incl_length; [exact N|apply span_bases; exact H]. Qed.
Lemma span_in q c : In c cs -> spans q -> In (base c) (map fst q) -> In (span c) q.
Proof.
  intros I H J. apply in_map_iff in J. destruct J as (y & E & J). destruct (H y J) as (d & K & ->). cbn in E. rewrite <- (base_inj e P d c K I E). exact J.
Qed.
Lemma NoDup_snoc {A} (l : list A) x : NoDup l -> ~ In x l -> NoDup (l ++ [x]).
Proof.
  induction l as [|y l IH]; intros N I; cbn; [constructor; [tauto|constructor]|]. inversion N; subst. constructor; [rewrite in_app_iff; cbn; intros [?|[->|[]]]; [auto|apply I; left; reflexivity]|].
  apply IH; auto. intros J. apply I. right. exact J.
Qed.

(** [H]: what has been seen, [dn]: the queue elements already taken. *)
Record Inv (H : list hit) (dn : list (Z * Z)) (s : state) : Prop := {
  i_spans : spans (dn ++ reachq s);
  i_nodup : NoDup (map fst (dn ++ reachq s));
  i_reach : forall x, reach s x = true <-> In x (map fst (dn ++ reachq s));
  i_firm : forall c, In c cs -> (reach s (base c) = true <-> exists a, In (a, (true, c)) H);
  i_mspans : spans (midq s);
  i_mnodup : NoDup (map fst (midq s));
  i_maybe : forall x, maybe s x = true <-> In x (map fst (midq s));
  i_loose : forall c, In c cs -> maybe s (base c) = true -> exists a, In (a, (false, c)) H;
  i_seen : forall c a, In (a, (false, c)) H -> reach s (base c) = true \/ maybe s (base c) = true;
  i_indirect : forall x, indirect s x = false;
  i_entries : forall x, entries s x = None }.

Lemma Inv_init : Inv [] [] init.
Proof. constructor; cbn; try easy; try constructor; try easy. - intros (a & []). Qed.
Lemma one_inv H dn s a f c : In c cs -> Inv H dn s -> exists s', one e true s (a, (f, c)) = Ok s' /\ Inv (H ++ [(a, (f, c))]) dn s'.
Proof.
  intros I V. destruct V as [V1 V2 V3 V4 V5 V6 V7 V8 V9 VA VB]. destruct f; cbn [one]; unfold add_reach, add_maybe.
  - destruct (reach s (base c)) eqn:R.
    + eexists. split; [reflexivity|]. constructor; auto.
      * intros d J. rewrite V4 by auto. setoid_rewrite in_app_iff. split; [intros (b & ?); eauto|]. intros (b & [?|[[= -> ->]|[]]]); eauto. apply V4; auto.
      * intros d J M. destruct (V8 d J M) as (b & ?). exists b. apply in_app_iff. auto.
      * intros d b J. apply in_app_iff in J. destruct J as [J|[J|[]]]; [eauto|discriminate].
    + assert (N : ~ In (base c) (map fst (dn ++ reachq s))) by (rewrite <- V3; congruence).
      eexists. split; [reflexivity|]. constructor; cbn [reach maybe indirect entries reachq midq]; auto.
      * rewrite app_assoc. apply spans_app. split; [exact V1|]. intros x [<-|[]]. exists c. auto.
      * rewrite app_assoc, map_app. apply NoDup_snoc; auto.
      * intros x. rewrite app_assoc, map_app, in_app_iff. cbn. unfold set. destruct (x =? base c) eqn:Q; [split; [right; left; lia|reflexivity]|]. rewrite V3. split; [auto|]. intros [?|[?|[]]]; [auto|lia].
      * intros d J. unfold set. setoid_rewrite in_app_iff. destruct (base d =? base c) eqn:Q.
        { split; [|auto]. intros _. exists a. right. left. rewrite (base_inj e P d c); auto. lia. }
        rewrite V4 by auto. split; [intros (b & ?); eauto|]. intros (b & [?|[[= -> ->]|[]]]); eauto. rewrite Z.eqb_refl in Q. discriminate.
      * intros d J M. destruct (V8 d J M) as (b & ?). exists b. apply in_app_iff. auto.
      * intros d b J. apply in_app_iff in J. destruct J as [J|[J|[]]]; [|discriminate]. destruct (V9 d b J) as [K|K]; [|auto]. left. unfold set. destruct (base d =? base c); auto.
  - rewrite VA, orb_false_r. destruct (maybe s (base c) || reach s (base c)) eqn:R.
    + eexists. split; [reflexivity|]. constructor; auto.
      * intros d J. rewrite V4 by auto. setoid_rewrite in_app_iff. split; [intros (b & ?); eauto|]. intros (b & [?|[?|[]]]); [eauto|discriminate].
      * intros d J M. destruct (V8 d J M) as (b & ?). exists b. apply in_app_iff. auto.
      * intros d b J. apply in_app_iff in J. destruct J as [J|[[= -> ->]|[]]]; [eauto|]. apply orb_true_iff in R. tauto.
    + apply orb_false_iff in R. destruct R as (R1 & R2). assert (N : ~ In (base c) (map fst (midq s))) by (rewrite <- V7; congruence).
      eexists. split; [reflexivity|]. constructor; cbn [reach maybe indirect entries reachq midq]; auto.
      * intros d J. rewrite V4 by auto. setoid_rewrite in_app_iff. split; [intros (b & ?); eauto|]. intros (b & [?|[?|[]]]); [eauto|discriminate].
      * apply spans_app. split; [exact V5|]. intros x [<-|[]]. exists c. auto.
      * rewrite map_app. apply NoDup_snoc; auto.
      * intros x. rewrite map_app, in_app_iff. cbn. unfold set. destruct (x =? base c) eqn:Q; [split; [right; left; lia|reflexivity]|]. rewrite V7. split; [auto|]. intros [?|[?|[]]]; [auto|lia].
      * intros d J. unfold set. setoid_rewrite in_app_iff. destruct (base d =? base c) eqn:Q.
        { intros _. exists a. right. left. rewrite (base_inj e P d c); auto. lia. }
        intros M. destruct (V8 d J M) as (b & ?). eauto.
      * intros d b J. apply in_app_iff in J. unfold set. destruct J as [J|[[= -> ->]|[]]].
        { destruct (V9 d b J) as [K|K]; [auto|]. right. destruct (base d =? base c); auto. }
        right. rewrite Z.eqb_refl. reflexivity.
Qed.
Lemma play_inv hs : forall H dn s, (forall a f c, In (a, (f, c)) hs -> In c cs) -> Inv H dn s -> exists s', play true s hs = Ok s' /\ Inv (H ++ hs) dn s'.
Proof.
  induction hs as [|[a [f c]] hs IH]; intros H dn s A V; cbn [Leak_Proofs.play]; [exists s; rewrite app_nil_r; auto|].
  destruct (one_inv H dn s a f c) as (s1 & E1 & V1); [apply (A a f c); left; reflexivity|exact V|]. rewrite E1. cbn [bind].
  destruct (IH _ dn s1 ltac:(intros; eapply A; right; eassumption) V1) as (s2 & E2 & V2). exists s2. split; [exact E2|]. rewrite <- app_assoc in V2. exact V2.
Qed.

Definition root_hits : list hit := reg_hits e (regs e) ++ hits (root_words e).
Definition block_hits (q : list (Z * Z)) : list hit := flat_map (fun x => hits (words e (fst x) (snd x))) q.
Lemma root_hit_iff f c : (exists a, In (a, (f, c)) root_hits) <-> In c cs /\ root e f c.
Proof.
  unfold root_hits, root. setoid_rewrite in_app_iff. split.
  - intros (a & [I|I]).
    + destruct (proj1 (reg_hits_iff e P f c) (ex_intro _ a I)) as (r & v & ? & ? & ?). eauto 8.
    + destruct (proj1 (hits_iff e P (root_words e) f c) (ex_intro _ a I)) as (r & v & ? & ? & ?). eauto 8.
  - intros (J & [(r & v & I & A)|(a & de & I & A)]).
    + destruct (proj2 (reg_hits_iff e P f c) (ex_intro _ r (ex_intro _ v (conj I (conj J A))))) as (b & ?). eauto.
    + destruct (proj2 (hits_iff e P (root_words e) f c) (ex_intro _ a (ex_intro _ de (conj I (conj J A))))) as (b & ?). eauto.
Qed.
Lemma link_hit_iff b f c : (exists a, In (a, (f, c)) (hits (words e (base b) (base b + len b)))) <-> In c cs /\ link e f b c.
Proof.
  rewrite hits_iff by exact P. unfold link. split.
  - intros (a & de & I & J & R). eauto 6.
  - intros (J & a & de & I & R). exists a, de. auto.
Qed.
Lemma root_hits_chunk a f c : In (a, (f, c)) root_hits -> In c cs.
Proof. intros I. apply (proj1 (root_hit_iff f c)). eauto. Qed.

Definition G (dn : list (Z * Z)) (s : state) : Prop :=
  Inv (root_hits ++ block_hits dn) dn s /\ (forall c, In c cs -> reach s (base c) = true -> Reach e c).
Lemma roots_inv : exists s, (let* s := scan_regs e init (regs e) in scan e true s (root_words e)) = Ok s /\ G [] s.
Proof.
  destruct (play_inv root_hits [] [] init) as (s & E & V); [intros a f c; apply root_hits_chunk|apply Inv_init|].
  exists s. split.
  - rewrite scan_regs_is by exact P. unfold root_hits in E. rewrite play_app in E. destruct (play true init (reg_hits e (regs e))) as [s1| |]; cbn [bind] in *; try discriminate. rewrite scan_is by exact P. exact E.
  - cbn [app] in V. unfold G, block_hits. cbn [flat_map]. rewrite app_nil_r. split; [exact V|]. intros c I R. apply (i_firm _ _ _ V c I) in R. apply root_hit_iff in R. destruct R. apply reach_root; auto.
Qed.
Lemma walk_inv : forall f dn s, G dn s -> (length cs < f + length dn)%nat -> exists s' dn', walk_reach e f s = Ok s' /\ G dn' s' /\ reachq s' = [].
Proof.
  induction f as [|f IH]; intros dn s (V & R) F.
  - exfalso. pose proof (i_spans _ _ _ V) as A. pose proof (i_nodup _ _ _ V) as B. apply span_count in B; [|exact A]. rewrite app_length in B. lia.
  - cbn [walk_reach]. destruct (reachq s) as [|[a b] q] eqn:Q; [exists s, dn; split; [reflexivity|split; [split; [exact V|exact R]|exact Q]]|].
    destruct (i_spans _ _ _ V (a, b)) as (c & I & E). { rewrite Q. apply in_app_iff. right. left. reflexivity. } injection E as -> ->.
    set (s1 := St (reach s) (maybe s) (indirect s) (entries s) q (midq s)).
    assert (V1 : Inv (root_hits ++ block_hits dn) (dn ++ [span c]) s1).
    { destruct V as [V1 V2 V3 V4 V5 V6 V7 V8 V9 VA VB]. rewrite Q in V1, V2, V3. subst s1. constructor; cbn [reach maybe indirect entries reachq midq]; auto; rewrite <- app_assoc; auto. }
    assert (Rc : Reach e c). { apply R; auto. apply (i_reach _ _ _ V). rewrite Q, map_app, in_app_iff. right. left. reflexivity. }
    rewrite scan_is by exact P. destruct (play_inv (hits (words e (base c) (base c + len c))) (root_hits ++ block_hits dn) (dn ++ [span c]) s1) as (s2 & E2 & V2); [|exact V1|].
    { intros a f0 d J. apply hit_chunk in J; auto. }
    rewrite E2. cbn [bind]. apply IH with (dn := dn ++ [span c]).
    + split.
      * unfold block_hits in *. rewrite flat_map_app. cbn [flat_map]. rewrite app_nil_r, app_assoc. exact V2.
      * intros d J M. apply (i_firm _ _ _ V2 d J) in M. destruct M as (a & M). apply in_app_iff in M. destruct M as [M|M].
        -- apply R; auto. apply (i_firm _ _ _ V d J). eauto.
        -- apply reach_link with c; auto. apply link_hit_iff. eauto.
    + rewrite app_length. cbn. lia.
Qed.
(** After the first phase. *)
Record Done1 (s : state) : Prop := {
  d_reach : forall c, In c cs -> (reach s (base c) = true <-> Reach e c);
  d_maybe : forall c, In c cs -> maybe s (base c) = true -> root e false c \/ exists b, In b cs /\ Reach e b /\ link e false b c;
  d_seen : forall c, In c cs -> root e false c \/ (exists b, In b cs /\ Reach e b /\ link e false b c) -> reach s (base c) = true \/ maybe s (base c) = true;
  d_mspans : spans (midq s);
  d_mnodup : NoDup (map fst (midq s));
  d_mid : forall x, maybe s x = true <-> In x (map fst (midq s));
  d_indirect : forall x, indirect s x = false;
  d_entries : forall x, entries s x = None }.
Lemma phase1 : exists s, (let* s := scan_regs e init (regs e) in let* s := scan e true s (root_words e) in walk_reach e (S (length cs)) s) = Ok s /\ Done1 s.
Proof.
  destruct roots_inv as (s1 & E1 & G1). destruct (walk_inv (S (length cs)) [] s1 G1) as (s & dn & E2 & (V & R) & Q); [cbn; lia|].
  exists s. split.
  { destruct (scan_regs e init (regs e)) as [s0| |]; cbn [bind] in *; try discriminate. rewrite E1. exact E2. }
  assert (D : forall b, In b cs -> reach s (base b) = true -> In (span b) dn).
  { intros b I M. apply (i_reach _ _ _ V) in M. pose proof (i_spans _ _ _ V) as S. rewrite Q, app_nil_r in M, S. apply span_in; auto. }
  assert (HB : forall a f c, In (a, (f, c)) (block_hits dn) -> exists b, In b cs /\ Reach e b /\ link e f b c).
  { intros a f c J. apply in_flat_map in J. destruct J as (x & J & K). destruct (i_spans _ _ _ V x) as (b & I & ->); [apply in_app_iff; auto|]. cbn in K. exists b. split; [exact I|]. split.
    - apply R; auto. apply (i_reach _ _ _ V). rewrite Q, app_nil_r. apply in_map_iff. exists (span b). auto.
    - apply (proj1 (link_hit_iff b f c)). eauto. }
  assert (BH : forall b f c, In b cs -> reach s (base b) = true -> In c cs -> link e f b c -> exists a, In (a, (f, c)) (root_hits ++ block_hits dn)).
  { intros b f c I M J L. destruct (proj2 (link_hit_iff b f c) (conj J L)) as (a & K). exists a. apply in_app_iff. right. apply in_flat_map. exists (span b). split; [apply D; auto|exact K]. }
  assert (RC : forall c, In c cs -> Reach e c -> reach s (base c) = true).
  { intros c I X. revert I. induction X as [c I X|b c X IH I L]; intros _.
    - apply (i_firm _ _ _ V c I). destruct (proj2 (root_hit_iff true c) (conj I X)) as (a & K). exists a. apply in_app_iff. auto.
    - assert (J : In b cs) by (destruct X; auto). apply (i_firm _ _ _ V c I). apply BH with b; auto. }
  constructor.
  - intros c I. split; [apply R; auto|apply RC; auto].
  - intros c I M. apply (i_loose _ _ _ V) in M; auto. destruct M as (a & M). apply in_app_iff in M. destruct M as [M|M]; [left; apply root_hit_iff; eauto|right; eauto].
  - intros c I [X|(b & J & X & L)].
    + destruct (proj2 (root_hit_iff false c) (conj I X)) as (a & K). apply (i_seen _ _ _ V) with a. apply in_app_iff. auto.
    + destruct (BH b false c J (RC b J X) I L) as (a & K). apply (i_seen _ _ _ V) with a. exact K.
  - apply (i_mspans _ _ _ V).
  - apply (i_mnodup _ _ _ V).
  - apply (i_maybe _ _ _ V).
  - apply (i_indirect _ _ _ V).
  - apply (i_entries _ _ _ V).
Qed.
End Phase1.
