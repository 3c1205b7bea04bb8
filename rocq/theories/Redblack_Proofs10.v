(** Lookups, iteration, clearing on represented trees *)
From Coq Require Import Sorting.Sorted Permutation.
From Verif Require Import Base Redblack_Model Redblack_Spec Redblack_Client.
From Verif Require Import Redblack_Proofs1 Redblack_Proofs2 Redblack_Proofs3 Redblack_Proofs4 Redblack_Proofs5 Redblack_Proofs6 Redblack_Proofs7 Redblack_Proofs8 Redblack_Proofs9.
Open Scope Z_scope.

Definition ent (d : data) : entry := (d_base d, d_size d, d_client d).
Definition lst (F : T) : list entry := map (fun p => ent (snd p)) (el F).

Lemma in_lst F e : In e (lst F) <-> exists h d, In (h, d) (el F) /\ e = ent d.
Proof.
  unfold lst. rewrite in_map_iff. split.
  - intros ((h&d)&Q&I). eauto.
  - intros (h&d&I&->). exists (h, d). auto.
Qed.

(** ---- reading a node by its handle ---- *)
Lemma Inv_fields t F h d : Inv t F -> In (h, d) (el F) -> rb_node_fields t h = Ok (ent d).
Proof.
  intros (np&R&_) I. destruct (el_split h F d I) as (K&c&l&r&->).
  pose proof (proj2 (nav_top _ _ _ _) R) as RZ. unfold rb_node_fields. rewrite (Rep_rd _ _ _ _ _ _ _ _ RZ). reflexivity.
Qed.
Lemma Inv_view t F h d : Inv t F -> In (h, d) (el F) -> view t (Some h) = Ok (Some (ent d)).
Proof. intros I J. cbn. rewrite (Inv_fields _ _ _ _ I J). reflexivity. Qed.
Lemma Inv_nz t F h d : Inv t F -> In (h, d) (el F) -> h <> NIL.
Proof.
  intros (np&R&_) I. apply (R_lt _ _ _ _ R). rewrite app_nil_r. apply ids_in_el. apply in_map_iff. exists (h, d). auto.
Qed.

(** ---- iteration ---- *)
Section Iter.
Context {S0 : Type} (cb : S0 -> Z * Z * Z -> S0 * bool).
Fixpoint walk2 (s : S0) (l : list entry) : S0 * bool :=
  match l with
  | [] => (s, true)
  | e :: l' => let (s', go) := cb s e in if go then walk2 s' l' else (s', false)
  end.
Lemma walk2_walk l : forall s, fst (walk2 s l) = walk cb s l.
Proof. induction l as [|e l IH]; intros s; cbn; auto. destruct (cb s e) as [s' []]; auto. Qed.
Lemma walk2_app l1 : forall l2 s, walk2 s (l1 ++ l2) = let (s', go) := walk2 s l1 in if go then walk2 s' l2 else (s', false).
Proof. induction l1 as [|e l1 IH]; intros l2 s; cbn; auto. destruct (cb s e) as [s' []]; auto. Qed.
Lemma iterate_helper_ok t np : forall s K fuel st, Rep t np K s -> s <> E -> (hgt s <= fuel)%nat ->
  iterate_helper cb fuel t st (rid s) = Ok (walk2 st (lst s)).
Proof.
  induction s as [|i c d l IHl r IHr]; intros K fuel st R NE L; [congruence|].
  destruct fuel as [|fuel]; [cbn in L; lia|]. cbn [iterate_helper rid hgt] in *.
  rewrite (Rep_rd _ _ _ _ _ _ _ _ R). cbn [bind mk lft rgt base size client].
  assert (HL : forall st, (if negb (Nat.eqb (rid l) NIL) then iterate_helper cb fuel t st (rid l) else Ok (st, true)) = Ok (walk2 st (lst l))).
  { intros s0. pose proof (dn_L _ _ _ _ _ _ _ _ R) as RL. destruct l as [|li cl dl ll lr]; [reflexivity|]. cbn [rid].
    destruct (Nat.eqb_spec li NIL) as [Z0|Z0]; [exfalso; eapply Rep_nz; eauto|]. cbn [negb].
    eapply (IHl _ fuel s0 RL); [discriminate|lia]. }
  assert (HR : forall st, (if negb (Nat.eqb (rid r) NIL) then iterate_helper cb fuel t st (rid r) else Ok (st, true)) = Ok (walk2 st (lst r))).
  { intros s0. pose proof (dn_R _ _ _ _ _ _ _ _ R) as RL. destruct r as [|li cl dl ll lr]; [reflexivity|]. cbn [rid].
    destruct (Nat.eqb_spec li NIL) as [Z0|Z0]; [exfalso; eapply Rep_nz; eauto|]. cbn [negb].
    eapply (IHr _ fuel s0 RL); [discriminate|lia]. }
  rewrite HL. unfold lst. cbn [el]. rewrite map_app. cbn [map snd]. fold (lst l) (lst r). rewrite walk2_app.
  destruct (walk2 st (lst l)) as [s1 []]; cbn [bind negb]; auto.
  cbn [walk2]. fold (ent d). destruct (cb s1 (ent d)) as [s2 []]; cbn [negb]; auto.
Qed.
Lemma iterate_ok t F st : Inv t F -> rb_iterate cb t st = Ok (walk cb st (lst F)).
Proof.
  intros (np&R&_). unfold rb_iterate. rewrite (R_root _ _ _ _ R). cbn [rootK].
  destruct F as [|i c d l r]; [reflexivity|]. cbn [rid].
  destruct (Nat.eqb_spec i NIL) as [Z0|Z0]; [exfalso; eapply Rep_nz; eauto|]. cbn [negb].
  assert (X : iterate_helper cb (S (fresh t)) t st i = Ok (walk2 st (lst (N i c d l r)))).
  { apply (iterate_helper_ok t np _ [] (S (fresh t)) st R); [discriminate|]. pose proof (Rep_hgt _ _ _ R). lia. }
  rewrite X. rewrite <- walk2_walk. destruct (walk2 st _); reflexivity.
Qed.
End Iter.
Lemma contents_ok t F : Inv t F -> contents t = Ok (lst F).
Proof.
  intros I. unfold contents. rewrite (iterate_ok _ t F [] I). f_equal.
  assert (G : forall l a, walk (fun l e => (l ++ [e], true)) a l = a ++ l).
  { induction l as [|e l IH]; intros a; cbn; [rewrite app_nil_r; auto|]. rewrite IH, <- app_assoc. reflexivity. }
  rewrite G. reflexivity.
Qed.

(** ---- orders ---- *)
Definition ltR (d d' : data) : Prop := d_base d < d_base d'.
Definition ltD (d d' : data) : Prop := d_base d < d_base d' /\ d_base d + d_size d <= d_base d'.
Definition vd (d : data) : Prop := valid (ent d).
Definition ltV (d d' : data) : Prop := vd d /\ vd d' /\ ltD d d'.

Lemma add64_id b s : 0 <= b -> 0 <= s -> b + s < 2 ^ 64 -> add64 b s = b + s.
Proof. intros. unfold add64. apply Z.mod_small. lia. Qed.

Lemma find_ok t F b : Inv t F -> StronglySorted ltR (map snd (el F)) ->
  exists h, rb_find t b = Ok h /\ match h with
    | Some x => exists d, In (x, d) (el F) /\ d_base d = b
    | None => forall x d, In (x, d) (el F) -> d_base d <> b end.
Proof.
  intros (np&R&_) SS. unfold rb_find. rewrite find_is_search, (R_root _ _ _ _ R). cbn [rootK].
  erewrite search_t; [|exact R|eapply Rep_hgt; eauto]. eexists. split; [reflexivity|].
  pose proof (tsearch_ok (fun d => b =? d_base d) (fun d => b <? d_base d) ltR) as TS.
  specialize (TS ltac:(unfold ltR; intros; lia) ltac:(unfold ltR; intros; lia) F SS).
  destruct (tsearch _ _ F).
  - destruct TS as (d&I&H). exists d. split; auto. lia.
  - intros x d I. specialize (TS x d I). cbn in TS. lia.
Qed.

Lemma SS_all {A} (R : A -> A -> Prop) (P : A -> Prop) l : StronglySorted R l -> Forall P l ->
  StronglySorted (fun a b => P a /\ P b /\ R a b) l.
Proof.
  induction 1 as [|x l S0 IH F]; intros FA; [constructor|]. inversion FA; subst. constructor; auto.
  rewrite Forall_forall in *. intros y Y. auto.
Qed.
Definition good (F : T) : Prop := StronglySorted ltD (map snd (el F)) /\ Forall vd (map snd (el F)).
Lemma good_V F : good F -> StronglySorted ltV (map snd (el F)).
Proof. intros [A B]. exact (SS_all ltD vd _ A B). Qed.
Lemma good_R F : good F -> StronglySorted ltR (map snd (el F)).
Proof.
  intros [A _]. induction A; constructor; auto. rewrite Forall_forall in *. intros y Y. apply H; auto.
Qed.
Lemma good_vd F x d : good F -> In (x, d) (el F) -> vd d.
Proof. intros [_ B] I. rewrite Forall_forall in B. apply B. apply in_map_iff. exists (x, d). auto. Qed.

(** search for one that may also rely on validity of the visited data *)
Lemma in_node_ok t F a : Inv t F -> good F ->
  exists h, rb_in_node t a = Ok h /\ match h with
    | Some x => exists d, In (x, d) (el F) /\ inside a (ent d) = true
    | None => forall x d, In (x, d) (el F) -> inside a (ent d) = false end.
Proof.
  intros (np&R&_) G. unfold rb_in_node. rewrite in_node_is_search, (R_root _ _ _ _ R). cbn [rootK].
  erewrite search_t; [|exact R|eapply Rep_hgt; eauto]. eexists. split; [reflexivity|].
  pose proof (tsearch_ok (fun d => (d_base d <=? a) && (a <? add64 (d_base d) (d_size d))) (fun d => a <? d_base d) ltV) as TS.
  specialize (TS
    ltac:(intros d d' (V&V'&L1&L2) H1 H2; unfold vd, valid, ent, e_base, e_size in *; cbn in *; lia)
    ltac:(intros d d' (V&V'&L1&L2) H1 H2; unfold vd, valid, ent, e_base, e_size in *; cbn in *;
      rewrite !add64_id in * by lia; lia) F (good_V F G)).
  destruct (tsearch _ _ F).
  - destruct TS as (d&I&H). exists d. split; auto. pose proof (good_vd _ _ _ G I) as V.
    unfold vd, valid, inside, ent, e_base, e_size in *. cbn in *. rewrite add64_id in H by lia. auto.
  - intros x d I. specialize (TS x d I). pose proof (good_vd _ _ _ G I) as V.
    unfold vd, valid, inside, ent, e_base, e_size in *. cbn in *. rewrite add64_id in TS by lia. auto.
Qed.
Lemma overlaps_ok t F s e : Inv t F -> good F ->
  exists h, rb_overlaps_node t s e = Ok h /\ match h with
    | Some x => exists d, In (x, d) (el F) /\ meets s e (ent d) = true
    | None => forall x d, In (x, d) (el F) -> meets s e (ent d) = false end.
Proof.
  intros (np&R&_) G. unfold rb_overlaps_node. rewrite overlaps_is_search, (R_root _ _ _ _ R). cbn [rootK].
  erewrite search_t; [|exact R|eapply Rep_hgt; eauto]. eexists. split; [reflexivity|].
  pose proof (tsearch_ok (fun d => (s <? add64 (d_base d) (d_size d)) && (d_base d <? e)) (fun d => e <=? d_base d) ltV) as TS.
  specialize (TS
    ltac:(intros d d' (V&V'&L1&L2) H1 H2; unfold vd, valid, ent, e_base, e_size in *; cbn in *; lia)
    ltac:(intros d d' (V&V'&L1&L2) H1 H2; unfold vd, valid, ent, e_base, e_size in *; cbn in *;
      rewrite !add64_id in * by lia; lia) F (good_V F G)).
  destruct (tsearch _ _ F).
  - destruct TS as (d&I&H). exists d. split; auto. pose proof (good_vd _ _ _ G I) as V.
    unfold vd, valid, meets, ent, e_base, e_size in *. cbn in *. rewrite add64_id in H by lia. auto.
  - intros x d I. specialize (TS x d I). pose proof (good_vd _ _ _ G I) as V.
    unfold vd, valid, meets, ent, e_base, e_size in *. cbn in *. rewrite add64_id in TS by lia. auto.
Qed.

(** ---- find by client ---- *)
Lemma get_next_ok t np c0 : forall s K fuel, Rep t np K s -> (hgt s < fuel)%nat ->
  exists x, get_next_helper fuel t c0 (rid s) = Ok x /\
   ((x = NIL /\ forall h d, In (h, d) (el s) -> d_client d <> c0) \/
    (x <> NIL /\ exists d, In (x, d) (el s) /\ d_client d = c0)).
Proof.
  induction s as [|i c d l IHl r IHr]; intros K fuel R L; (destruct fuel as [|fuel]; [lia|]); cbn [get_next_helper rid].
  - exists NIL. split; auto.
  - destruct (Nat.eqb_spec i NIL) as [Z0|Z0]; [exfalso; eapply Rep_nz; eauto|].
    rewrite (Rep_rd _ _ _ _ _ _ _ _ R). cbn [bind mk lft rgt client].
    destruct (Z.eqb_spec (d_client d) c0) as [C|C].
    { exists i. split; auto. right. split; auto. exists d. split; auto. cbn [el]. apply in_or_app; right; left; auto. }
    cbn [hgt] in L.
    destruct (IHl (FL i c d r :: K) fuel) as (x&E1&H1); [apply dn_L; auto|lia|]. rewrite E1. cbn [bind].
    destruct H1 as [[X1 H1]|[X1 (d1&I1&H1)]].
    2:{ destruct (Nat.eqb_spec x NIL); [congruence|]. cbn [negb]. exists x. split; auto. right. split; auto.
        exists d1. split; auto. cbn [el]. apply in_or_app; auto. }
    subst x. cbn [Nat.eqb negb NIL].
    destruct (IHr (FR i c d l :: K) fuel) as (y&E2&H2); [apply dn_R; auto|lia|]. rewrite E2. cbn [bind].
    destruct H2 as [[X2 H2]|[X2 (d1&I1&H2)]].
    + subst y. exists NIL. split; auto. left. split; auto. intros h d1 I. cbn [el] in I. apply in_app_or in I.
      destruct I as [I|[I|I]]; eauto. congruence.
    + destruct (Nat.eqb_spec y NIL); [congruence|]. cbn [negb]. exists y. split; auto. right. split; auto.
      exists d1. split; auto. cbn [el]. apply in_or_app; right; right; auto.
Qed.
Lemma find_client_ok t F c0 : Inv t F ->
  exists h, rb_find_client_node t c0 = Ok h /\ match h with
    | Some x => exists d, In (x, d) (el F) /\ d_client d = c0
    | None => forall x d, In (x, d) (el F) -> d_client d <> c0 end.
Proof.
  intros (np&R&_). unfold rb_find_client_node. rewrite (R_root _ _ _ _ R). cbn [rootK].
  destruct (get_next_ok t np c0 F [] (S (fresh t)) R (Rep_hgt _ _ _ R)) as (x&E1&H). rewrite E1. cbn [bind].
  eexists; split; [reflexivity|]. destruct H as [[-> H]|[X H]]; cbn; auto.
  destruct (Nat.eqb_spec x NIL); [congruence|]. auto.
Qed.

(** ---- extremes ---- *)
Lemma rightmost_ok t np : forall s K fuel, s <> E -> Rep t np K s -> (hgt s <= fuel)%nat ->
  exists y dy l, rightmost fuel t (rid s) = Ok y /\ el s = l ++ [(y, dy)].
Proof.
  induction s as [|i c d l IHl r IHr]; intros K fuel NE R L; [congruence|].
  destruct fuel as [|fuel]; [cbn in L; lia|]. cbn [rightmost rid hgt] in *.
  rewrite (Rep_rd _ _ _ _ _ _ _ _ R). cbn [bind mk rgt].
  pose proof (dn_R _ _ _ _ _ _ _ _ R) as RR. destruct r as [|ri cr dr rl rr]; cbn [rid].
  - exists i, d, (el l). split; auto.
  - destruct (Nat.eqb_spec ri NIL) as [Z0|Z0]; [exfalso; eapply Rep_nz; eauto|].
    destruct (IHr _ fuel ltac:(discriminate) RR) as (y&dy&l'&E1&E2); [lia|].
    exists y, dy, (el l ++ (i, d) :: l'). split; [exact E1|]. cbn [el] in *. rewrite E2, <- app_assoc. reflexivity.
Qed.
Lemma max_ok t F : Inv t F -> exists h, rb_max_node t = Ok h /\
  ((F = E /\ h = NIL) \/ exists d l, el F = l ++ [(h, d)]).
Proof.
  intros (np&R&_). unfold rb_max_node. rewrite (R_root _ _ _ _ R). cbn [rootK].
  destruct F as [|i c d l r]; [eexists; split; [reflexivity|auto]|]. cbn [rid].
  destruct (Nat.eqb_spec i NIL) as [Z0|Z0]; [exfalso; eapply Rep_nz; eauto|].
  destruct (rightmost_ok t np (N i c d l r) [] (S (fresh t)) ltac:(discriminate) R) as (y&dy&l'&E1&E2).
  { pose proof (Rep_hgt _ _ _ R). lia. }
  exists y. split; [exact E1|]. right. eauto.
Qed.
Lemma min_ok t F : Inv t F -> exists h, rb_min_node t = Ok h /\
  ((F = E /\ h = NIL) \/ exists d l, el F = (h, d) :: l).
Proof.
  intros (np&R&_). unfold rb_min_node. rewrite (R_root _ _ _ _ R). cbn [rootK].
  destruct F as [|i c d l r]; [eexists; split; [reflexivity|auto]|]. cbn [rid].
  destruct (Nat.eqb_spec i NIL) as [Z0|Z0]; [exfalso; eapply Rep_nz; eauto|].
  destruct (leftmost_ok t np (N i c d l r) [] i c d l r (S (fresh t)) eq_refl R) as (K'&y&cy&dy&r'&E1&E2&E3).
  { pose proof (Rep_hgt _ _ _ R). lia. }
  exists y. split; [exact E1|]. right. exists dy, (el r' ++ elR K'). rewrite E2, el_plug, E3. reflexivity.
Qed.

(** ---- nearest ---- *)
Lemma next_higher_ok t F a : Inv t F -> 0 <= a ->
  rb_next_higher_node t a = Ok (match F with E => None | N i _ d _ _ =>
     if a <? add64 (d_base d) (d_size d) then Some i else None end).
Proof.
  intros (np&R&_) A. unfold rb_next_higher_node. rewrite (R_root _ _ _ _ R). cbn [rootK].
  destruct F as [|i c d l r]; [reflexivity|]. cbn [rid next_higher_loop].
  destruct (Nat.eqb_spec i NIL) as [Z0|Z0]; [exfalso; eapply Rep_nz; eauto|].
  rewrite (Rep_rd _ _ _ _ _ _ _ _ R). cbn [bind mk rgt lft base size].
  destruct (Rep_rd_any _ _ _ _ (dn_L _ _ _ _ _ _ _ _ R)) as (nl&El&_&Ml&_). rewrite El. cbn [bind]. rewrite Ml.
  destruct (Rep_rd_any _ _ _ _ (dn_R _ _ _ _ _ _ _ _ R)) as (nr&Er&_&Mr&_). rewrite Er. cbn [bind]. rewrite Mr.
  replace (0 <=? a) with true by lia. cbn [andb]. destruct (a <? _); auto.
Qed.
Lemma next_lower_loop_ok t np a : forall s K fuel, Rep t np K s -> (hgt s < fuel)%nat ->
  StronglySorted ltR (map snd (el s)) ->
  exists h, next_lower_loop fuel t a (rid s) = Ok h /\ match h with
    | Some x => exists d, In (x, d) (el s) /\ d_base d <= a
    | None => forall x d, In (x, d) (el s) -> a < d_base d end.
Proof.
  induction s as [|i c d l IHl r IHr]; intros K fuel R L SS; (destruct fuel as [|fuel]; [lia|]); cbn [next_lower_loop rid].
  - exists None. split; auto. intros x d [].
  - destruct (Nat.eqb_spec i NIL) as [Z0|Z0]; [exfalso; eapply Rep_nz; eauto|].
    rewrite (Rep_rd _ _ _ _ _ _ _ _ R). cbn [bind mk lft rgt base].
    pose proof (dn_R _ _ _ _ _ _ _ _ R) as RR. destruct (Rep_rd_any _ _ _ _ RR) as (nr&Er&_).
    cbn [hgt] in L. pose proof (SS_node _ _ _ _ _ _ SS) as (Sl&Sr&Ll&Lr).
    assert (HERE : d_base d <= a -> exists d0, In (i, d0) (el (N i c d l r)) /\ d_base d0 <= a).
    { intros H. exists d. split; auto. cbn [el]. apply in_or_app; right; left; auto. }
    rewrite Er. cbn [bind].
    destruct (d_base d <=? a) eqn:B1; cbn [andb].
    + destruct (Nat.eqb (rid r) NIL || (a <? base nr)) eqn:B2.
      { exists (Some i). split; auto. apply HERE. lia. }
      replace (a <? d_base d) with false by lia.
      destruct (IHr (FR i c d l :: K) fuel RR ltac:(lia) Sr) as (h&E1&H1). exists h. split; auto.
      apply orb_false_iff in B2. destruct B2 as [B2 B3]. destruct h.
      * destruct H1 as (d1&I1&H1). exists d1. split; auto. cbn [el]. apply in_or_app; right; right; auto.
      * exfalso. destruct r as [|ri cr dr rl rr]; [discriminate|]. cbn [rid] in Er.
        rewrite (Rep_rd _ _ _ _ _ _ _ _ RR) in Er. injection Er as <-. cbn in B3.
        specialize (H1 ri dr). cbn [el] in H1. rewrite in_app_iff in H1. cbn in H1. specialize (H1 ltac:(auto)). lia.
    + replace (a <? d_base d) with true by lia.
      destruct (IHl (FL i c d r :: K) fuel (dn_L _ _ _ _ _ _ _ _ R) ltac:(lia) Sl) as (h&E1&H1). exists h. split; auto.
      destruct h.
      * destruct H1 as (d1&I1&H1). exists d1. split; auto. cbn [el]. apply in_or_app; auto.
      * intros x d1 I. cbn [el] in I. apply in_app_or in I. destruct I as [I|[I|I]]; eauto.
        { injection I as -> ->. lia. }
        assert (ltR d d1) by (apply Lr; apply in_map_iff; exists (x, d1); auto). unfold ltR in *. lia.
Qed.
Lemma next_lower_ok t F a : Inv t F -> StronglySorted ltR (map snd (el F)) ->
  exists h, rb_next_lower_node t a = Ok h /\ match h with
    | Some x => exists d, In (x, d) (el F) /\ d_base d <= a
    | None => forall x d, In (x, d) (el F) -> a < d_base d end.
Proof.
  intros (np&R&_) SS. unfold rb_next_lower_node. rewrite (R_root _ _ _ _ R). cbn [rootK].
  apply (next_lower_loop_ok t np a F [] _ R (Rep_hgt _ _ _ R) SS).
Qed.

(** ---- clear ---- *)
Lemma clear_helper_ok : forall s t p fuel, rep (heap t) p s -> NoDup (ids s) -> ~ In NIL (ids s) -> (hgt s < fuel)%nat ->
  exists t', rb_clear_helper fuel t (rid s) = Ok t' /\ fresh t' = fresh t /\ root t' = root t /\
    (forall j, heap t' j = if in_dec Nat.eq_dec j (ids s) then None else heap t j) /\
    exists fr, freed t' = freed t ++ fr /\ Permutation fr (map e_client (lst s)).
Proof.
  induction s as [|i c d l IHl r IHr]; intros t p fuel R ND NZ L; (destruct fuel as [|fuel]; [lia|]); cbn [rb_clear_helper rid].
  - exists t. cbn. sp; auto. exists []. rewrite app_nil_r. auto.
  - cbn [ids] in *. inversion ND as [|? ? I0 ND1]; subst. destruct (nd_app _ _ ND1) as (NDl&NDr&D).
    destruct (Nat.eqb_spec i NIL) as [Z0|Z0]; [exfalso; apply NZ; left; auto|].
    cbn [rep] in R. destruct R as (Hi&Rl&Rr). cbn [hgt] in L.
    unfold rd at 1. rewrite Hi. cbn [of_option bind mk lft].
    destruct (IHl t i fuel Rl NDl) as (t1&E1&F1&G1&H1&fr1&P1&P2).
    { intros X. apply NZ. right. apply in_or_app; auto. } { lia. }
    rewrite E1. cbn [bind]. unfold rd at 1. rewrite (H1 i).
    destruct (in_dec Nat.eq_dec i (ids l)) as [X|X]; [exfalso; apply I0; apply in_or_app; auto|].
    rewrite Hi. cbn [of_option bind mk rgt].
    destruct (IHr t1 i fuel) as (t2&E2&F2&G2&H2&fr2&P3&P4); auto.
    { eapply rep_frame; [|exact Rr]. intros j J. rewrite H1. destruct (in_dec Nat.eq_dec j (ids l)); auto. exfalso; eauto. }
    { intros Y. apply NZ. right. apply in_or_app; auto. } { lia. }
    rewrite E2. cbn [bind]. unfold rb_free_node, rd. rewrite H2.
    destruct (in_dec Nat.eq_dec i (ids r)) as [Y|Y]; [exfalso; apply I0; apply in_or_app; auto|].
    rewrite H1. destruct (in_dec Nat.eq_dec i (ids l)); [contradiction|]. rewrite Hi. cbn [of_option bind mk client].
    eexists; split; [reflexivity|]. cbn [fresh root heap freed]. sp; try congruence.
    + intros j. rewrite H2, H1.
      destruct (Nat.eqb_spec j i); destruct (in_dec Nat.eq_dec j (i :: ids l ++ ids r)) as [J|J]; auto.
      * subst. exfalso. apply J. left; auto.
      * destruct (in_dec Nat.eq_dec j (ids r)); auto. destruct (in_dec Nat.eq_dec j (ids l)); auto.
        destruct J as [J|J]; [congruence|]. apply in_app_or in J. tauto.
      * destruct (in_dec Nat.eq_dec j (ids r)). { exfalso; apply J; right; apply in_or_app; auto. }
        destruct (in_dec Nat.eq_dec j (ids l)); auto. exfalso; apply J; right; apply in_or_app; auto.
    + exists (fr1 ++ fr2 ++ [d_client d]). split. { rewrite P3, P1, <- !app_assoc. auto. }
      unfold lst in *. cbn [el]. rewrite map_app. cbn [map snd]. rewrite map_app. cbn [map].
      apply Permutation_app; auto. rewrite Permutation_app_comm. cbn. constructor. auto.
Qed.
Lemma clear_ok t F : Inv t F -> exists t', rb_clear t = Ok t' /\ Inv t' E /\
  exists fr, freed t' = freed t ++ fr /\ Permutation fr (map e_client (lst F)).
Proof.
  intros (np&R&_&LV&FP). unfold rb_clear. rewrite (R_root _ _ _ _ R). cbn [rootK].
  pose proof (R_nd _ _ _ _ R) as ND. pose proof (R_lt _ _ _ _ R) as LT. cbn [idsK] in *. rewrite app_nil_r in *.
  assert (NZ : ~ In NIL (ids F)) by (intros X; apply LT in X; lia).
  destruct (clear_helper_ok F t NIL (S (fresh t)) (R_rep _ _ _ _ R) ND NZ (Rep_hgt _ _ _ R)) as (t'&E1&F1&G1&H1&fr&P1&P2).
  rewrite E1. cbn [bind]. eexists; split; [reflexivity|]. split; [|exists fr; auto].
  exists np. sp.
  - constructor; cbn; auto.
    + rewrite H1. destruct (in_dec Nat.eq_dec NIL (ids F)); [contradiction|]. apply (R_nil _ _ _ _ R).
    + constructor.
    + intros i [].
  - split; [reflexivity|]. exists O. reflexivity.
  - intros j. cbn [heap set_root]. rewrite H1. destruct (in_dec Nat.eq_dec j (ids F)); [congruence|].
    intros H. destruct (LV j H); [auto|contradiction].
  - cbn. lia.
Qed.

(** ---- re-labelling ---- *)
Lemma set_client_ok t F h d c : Inv t F -> In (h, d) (el F) ->
  exists t' F' l1 l2, rb_node_set_client t h c = Ok t' /\ Inv t' F' /\ freed t' = freed t /\
    el F = l1 ++ (h, d) :: l2 /\ el F' = l1 ++ (h, Dt (d_base d) (d_size d) c) :: l2.
Proof.
  intros (np&R&B&LV&FP) I. destruct (el_split h F d I) as (K&cc&l&r&->).
  pose proof (proj2 (nav_top _ _ _ _) R) as RZ. unfold rb_node_set_client.
  destruct (Rep_write t np K h cc d l r cc (Dt (d_base d) (d_size d) c) (w_client c) RZ eq_refl) as (t'&E1&R1&F1&F2&F3).
  exists t', (plug K (N h cc (Dt (d_base d) (d_size d) c) l r)), (elL K ++ el l), (el r ++ elR K).
  sp; auto.
  - exists np. sp.
    + apply (proj1 (nav_top _ _ _ _)); auto.
    + destruct B as [B1 (n&B2)]. destruct (plug_wf K _ n B2 B1) as (m&W1&W2&W3&W4&W5). split.
      * apply isred_plug; auto.
      * eapply wf_plug; [|exact W2|auto]. exact W1.
    + intros j HJ. destruct (LV j) as [Q|Q]; auto. { eapply wr_dom; eauto. }
      right. rewrite ids_plug in *. exact Q.
    + rewrite F1; auto.
  - rewrite el_plug. cbn [el]. rewrite <- !app_assoc. reflexivity.
  - rewrite el_plug. cbn [el]. rewrite <- !app_assoc. reflexivity.
Qed.
