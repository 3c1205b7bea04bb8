(** Whole histories *)
From Coq Require Import Sorting.Sorted Permutation.
From Verif Require Import Base Redblack_Model Redblack_Spec Redblack_Client.
From Verif Require Import Redblack_Proofs1 Redblack_Proofs2 Redblack_Proofs3 Redblack_Proofs4 Redblack_Proofs5 Redblack_Proofs6 Redblack_Proofs7 Redblack_Proofs8 Redblack_Proofs9 Redblack_Proofs10.
Open Scope Z_scope.

Ltac ue := unfold ovl, same_start, vd, valid in *; unfold inside, meets, ent in *; unfold e_base, e_size, e_client in *; cbn [fst snd] in *.

Lemma ev (d : data) : e_base (ent d) = d_base d. Proof. reflexivity. Qed.

Lemma lst_app F l1 l2 : el F = l1 ++ l2 -> lst F = map (fun p => ent (snd p)) l1 ++ map (fun p => ent (snd p)) l2.
Proof. unfold lst. intros ->. apply map_app. Qed.

Lemma put_mid e l1 : forall l2, (forall x, In x l1 -> e_base x < e_base e) -> (forall x, In x l2 -> e_base e < e_base x) ->
  put e (l1 ++ l2) = l1 ++ e :: l2.
Proof.
  induction l1 as [|x l1 IH]; intros l2 H1 H2; cbn [app put].
  - destruct l2 as [|y l2]; cbn; auto. specialize (H2 y (or_introl eq_refl)). replace (e_base e <? e_base y) with true by lia. auto.
  - pose proof (H1 x (or_introl eq_refl)). replace (e_base e <? e_base x) with false by lia. rewrite IH; auto. intros y Y. apply H1. right; auto.
Qed.

Lemma init_inv : Inv rb_tree_create E.
Proof.
  exists NIL. sp.
  - constructor; cbn; auto; [constructor|intros i []].
  - split; [reflexivity|exists O; reflexivity].
  - intros j. cbn. destruct (Nat.eqb_spec j NIL); [auto|congruence].
  - cbn. lia.
Qed.

Lemma SS_insert {A} (R : A -> A -> Prop) l1 x l2 : StronglySorted R (l1 ++ l2) -> Forall (fun y => R y x) l1 -> Forall (R x) l2 ->
  StronglySorted R (l1 ++ x :: l2).
Proof.
  intros S F1 F2. apply SS_app in S. destruct S as (A1&A2&A3). apply SS_app. repeat split; auto.
  - constructor; auto.
  - rewrite Forall_forall in *. intros a b I [<-|J]; auto.
Qed.
Lemma SS_delete {A} (R : A -> A -> Prop) l1 x l2 : StronglySorted R (l1 ++ x :: l2) -> StronglySorted R (l1 ++ l2).
Proof.
  intros S. apply SS_app in S. destruct S as (A1&A2&A3). apply SS_app. inversion A2; subst. repeat split; auto.
  intros a b I J. apply A3; auto. right; auto.
Qed.

Lemma existsb_false {A} (f : A -> bool) l : existsb f l = false <-> forall x, In x l -> f x = false.
Proof.
  induction l as [|x l IH]; cbn; [tauto|]. rewrite orb_false_iff, IH. split.
  - intros [H1 H2] y [<-|Y]; auto.
  - intros H. split; auto.
Qed.

Lemma existsb_in {A} (f : A -> bool) l x : In x l -> f x = true -> existsb f l = true.
Proof. intros I H. apply existsb_exists. eauto. Qed.

Lemma insert_step dbg t F b s c : let e := (b, s, c) in
  Inv t F -> good F -> valid e ->
  (dbg = false -> existsb (ovl e) (lst F) = existsb (same_start e) (lst F)) ->
  exists t' r F', rb_insert dbg t b s c = Ok (t', r) /\ freed t' = freed t /\ Inv t' F' /\ good F' /\
    lst F' = sp_step ovl (lst F) (Insert e) /\
    match r with
    | Some h => exists d, In (h, d) (el F') /\ ovl e (ent d) = true
    | None => existsb (ovl e) (lst F) = false
    end.
Proof.
  intros e I G V HD.
  set (PL := fun d => vd d -> d_base d < b /\ (dbg = true -> d_base d + d_size d <= b)).
  set (PR := fun d => vd d -> b < d_base d /\ (dbg = true -> b + s <= d_base d)).
  destruct (insert_gen dbg b s c ltV PL PR) with (t := t) (F := F) as (t'&r&E1&FR&H1); auto.
  { intros d H1 H2 V1. unfold hitb in H1. subst e. ue. destruct dbg.
    - rewrite !add64_id in H1 by lia. split; lia.
    - split; [lia|discriminate]. }
  { intros d H1 H2 V1. unfold hitb in H1. subst e. ue. destruct dbg.
    - rewrite !add64_id in H1 by lia. split; lia.
    - split; [lia|discriminate]. }
  { intros d d' (V1&V2&L1&L2) P1 _. specialize (P1 V2). ue. split; [lia|]. intros Q. destruct P1 as [_ P1]. specialize (P1 Q). lia. }
  { intros d d' (V1&V2&L1&L2) P1 _. specialize (P1 V1). ue. split; [lia|]. intros Q. destruct P1 as [_ P1]. specialize (P1 Q). lia. }
  { apply good_V; auto. }
  destruct r as [h|].
  - destruct H1 as ((d&Id&Hd)&I').
    assert (O : ovl e (ent d) = true).
    { pose proof (good_vd _ _ _ G Id) as V1. unfold hitb in Hd. subst e. ue. destruct dbg.
      - rewrite !add64_id in Hd by lia. lia.
      - lia. }
    exists t', (Some h), F. sp; auto; [|eauto]. cbn [sp_step].
    rewrite (existsb_in (ovl e) (lst F) (ent d)); auto. apply in_lst. eauto.
  - destruct H1 as (F'&l1&l2&I'&EL&EL'&F1&F2).
    destruct G as [G1 G2]. rewrite EL, map_app in G1, G2. apply Forall_app in G2. destruct G2 as [G2 G3].
    assert (B1 : forall d, In d (map snd l1) -> d_base d < b).
    { intros d D. rewrite Forall_forall in *. apply F1; auto. }
    assert (B2 : forall d, In d (map snd l2) -> b < d_base d).
    { intros d D. rewrite Forall_forall in *. apply F2; auto. }
    assert (NO : existsb (ovl e) (lst F) = false).
    { destruct dbg.
      - apply existsb_false. intros x X. apply in_lst in X. destruct X as (h&d&X&->). rewrite EL in X. apply in_app_or in X.
        rewrite Forall_forall in *.
        destruct X as [X|X]; apply (in_map snd) in X; cbn in X.
        + specialize (F1 d X (G2 d X)). specialize (G2 d X). subst e. ue. destruct F1 as [_ F1]. specialize (F1 eq_refl). lia.
        + specialize (F2 d X (G3 d X)). specialize (G3 d X). subst e. ue. destruct F2 as [_ F2]. specialize (F2 eq_refl). lia.
      - rewrite HD by auto. apply existsb_false. intros x X. apply in_lst in X. destruct X as (h&d&X&->). rewrite EL in X. apply in_app_or in X.
        destruct X as [X|X]; apply (in_map snd) in X; cbn in X; [specialize (B1 d X)|specialize (B2 d X)]; subst e; ue; lia. }
    rewrite existsb_false in NO.
    assert (NO1 : forall d, In d (map snd l1) -> ovl e (ent d) = false).
    { intros d D. apply NO. apply in_lst. apply in_map_iff in D. destruct D as ((h&d0)&<-&D). exists h, d0. split; auto.
      rewrite EL. apply in_or_app; auto. }
    assert (NO2 : forall d, In d (map snd l2) -> ovl e (ent d) = false).
    { intros d D. apply NO. apply in_lst. apply in_map_iff in D. destruct D as ((h&d0)&<-&D). exists h, d0. split; auto.
      rewrite EL. apply in_or_app; auto. }
    exists t', None, F'. sp; auto.
    + split; rewrite EL', map_app; cbn [map snd].
      * apply SS_insert; auto; apply Forall_forall; intros d D; rewrite Forall_forall in *; split; cbn.
        -- apply B1; auto.
        -- specialize (B1 d D). specialize (NO1 d D). specialize (G2 d D). subst e. ue. lia.
        -- apply B2; auto.
        -- specialize (B2 d D). specialize (NO2 d D). specialize (G3 d D). subst e. ue. lia.
      * apply Forall_app. split; auto.
    + cbn [sp_step]. apply existsb_false in NO. rewrite NO. rewrite (lst_app F _ _ EL), (lst_app F' _ _ EL').
      cbn [map snd]. symmetry. apply put_mid; intros x X; apply in_map_iff in X; destruct X as ((h&d)&<-&X); cbn [snd];
      apply (in_map snd) in X; cbn in X; [apply B1|apply B2]; auto.
    + apply existsb_false. auto.
Qed.

Lemma filter_one {A} (p : A -> bool) l1 x l2 : p x = true -> (forall y, In y (l1 ++ l2) -> p y = false) ->
  filter (fun y => negb (p y)) (l1 ++ x :: l2) = l1 ++ l2 /\ filter p (l1 ++ x :: l2) = [x].
Proof.
  intros H N0.
  assert (G : forall l, (forall y, In y l -> p y = false) -> filter (fun y => negb (p y)) l = l /\ filter p l = []).
  { induction l as [|y l IH]; intros Q; cbn; auto. rewrite (Q y (or_introl eq_refl)). cbn. destruct IH as [-> ->]; auto.
    intros z Z0. apply Q. right; auto. }
  rewrite !filter_app. cbn. rewrite H. cbn.
  destruct (G l1) as [-> ->]; [intros; apply N0; apply in_or_app; auto|].
  destruct (G l2) as [-> ->]; [intros; apply N0; apply in_or_app; auto|]. auto.
Qed.
Lemma filter_none {A} (p : A -> bool) l : (forall y, In y l -> p y = false) -> filter (fun y => negb (p y)) l = l /\ filter p l = [].
Proof.
  induction l as [|y l IH]; intros Q; cbn; auto. rewrite (Q y (or_introl eq_refl)). cbn. destruct IH as [-> ->]; auto.
  intros z Z0. apply Q. right; auto.
Qed.

(** removing the node found for predicate [p] *)
Lemma remove_step t F h d (p : entry -> bool) : Inv t F -> In (h, d) (el F) -> p (ent d) = true ->
  (forall l1 l2, map snd (el F) = l1 ++ d :: l2 -> forall d', In d' (l1 ++ l2) -> p (ent d') = false) ->
  exists t' F', rb_delete t h = Ok t' /\ Inv t' F' /\ freed t' = freed t ++ map e_client (filter p (lst F)) /\
    lst F' = filter (fun y => negb (p y)) (lst F) /\
    (forall R, StronglySorted R (map snd (el F)) -> StronglySorted R (map snd (el F'))) /\
    (forall P, Forall P (map snd (el F)) -> Forall P (map snd (el F'))).
Proof.
  intros I J P U. destruct (delete_ok t F h d I J) as (t'&F'&l1&l2&E1&I'&FR&EL&EL').
  assert (MS : map snd (el F) = map snd l1 ++ d :: map snd l2) by (rewrite EL, map_app; auto).
  assert (MS' : map snd (el F') = map snd l1 ++ map snd l2).
  { destruct EL' as [->|(y&dy&l2'&->&->)]; rewrite map_app; auto. }
  exists t', F'.
  assert (L : lst F = map ent (map snd l1) ++ ent d :: map ent (map snd l2)).
  { unfold lst. rewrite <- (map_map snd ent), MS, map_app. reflexivity. }
  assert (L' : lst F' = map ent (map snd l1) ++ map ent (map snd l2)).
  { unfold lst. rewrite <- (map_map snd ent), MS', map_app. reflexivity. }
  destruct (filter_one p (map ent (map snd l1)) (ent d) (map ent (map snd l2)) P) as [Q1 Q2].
  { intros y Y. rewrite <- map_app in Y. apply in_map_iff in Y. destruct Y as (d'&<-&Y). eapply U; eauto. }
  sp; auto.
  - rewrite FR, L, Q2. reflexivity.
  - rewrite L', L, Q1. auto.
  - intros R. rewrite MS, MS'. apply SS_delete.
  - intros R. rewrite MS, MS', !Forall_app. intros [A B]. inversion B; auto.
Qed.

Lemma uniq_base F d : StronglySorted ltR (map snd (el F)) -> forall l1 l2, map snd (el F) = l1 ++ d :: l2 ->
  forall d', In d' (l1 ++ l2) -> d_base d' <> d_base d.
Proof.
  intros SS l1 l2 Q d' I. rewrite Q in SS. apply SS_app in SS. destruct SS as (A1&A2&A3). inversion A2; subst.
  rewrite Forall_forall in *. apply in_app_or in I. unfold ltR in *. destruct I as [I|I].
  - specialize (A3 d' d I (or_introl eq_refl)). lia.
  - specialize (H2 d' I). lia.
Qed.
Lemma uniq_inside F d a : good F -> inside a (ent d) = true -> forall l1 l2, map snd (el F) = l1 ++ d :: l2 ->
  forall d', In d' (l1 ++ l2) -> inside a (ent d') = false.
Proof.
  intros G V l1 l2 Q d' I. pose proof (good_V _ G) as SS. rewrite Q in SS. apply SS_app in SS. destruct SS as (A1&A2&A3). inversion A2; subst.
  rewrite Forall_forall in *. apply in_app_or in I. destruct I as [I|I].
  - destruct (A3 d' d I (or_introl eq_refl)) as (V1&V2&L1&L2). ue. lia.
  - destruct (H2 d' I) as (V1&V2&L1&L2). ue. lia.
Qed.

Definition same_ov (dbg : bool) (l : list entry) (o : op) : Prop :=
  match o with Insert e => dbg = false -> existsb (ovl e) l = existsb (same_start e) l | _ => True end.

Lemma set_client_lst F F' h d c l1 l2 : StronglySorted ltR (map snd (el F)) ->
  el F = l1 ++ (h, d) :: l2 -> el F' = l1 ++ (h, Dt (d_base d) (d_size d) c) :: l2 ->
  lst F' = map (relabel (d_base d) c) (lst F).
Proof.
  intros SS EL EL'. assert (MS : map snd (el F) = map snd l1 ++ d :: map snd l2) by (rewrite EL, map_app; auto).
  pose proof (uniq_base F d SS _ _ MS) as U.
  rewrite (lst_app F _ _ EL), (lst_app F' _ _ EL'), map_app. cbn [map snd].
  assert (G : forall l, (forall x, In x l -> d_base (snd x) <> d_base d) -> map (relabel (d_base d) c) (map (fun p : nat * data => ent (snd p)) l) = map (fun p => ent (snd p)) l).
  { induction l as [|x l IH]; intros H; cbn; auto. rewrite IH by (intros; apply H; right; auto). f_equal.
    unfold relabel. rewrite ev. specialize (H x (or_introl eq_refl)). destruct (Z.eqb_spec (d_base (snd x)) (d_base d)); [congruence|auto]. }
  rewrite !G.
  - f_equal. f_equal. unfold relabel. rewrite ev, Z.eqb_refl. reflexivity.
  - intros x X. apply U. apply in_or_app. right. apply in_map; auto.
  - intros x X. apply U. apply in_or_app. left. apply in_map; auto.
Qed.

Lemma step_ok dbg t F o : Inv t F -> good F -> op_valid o -> same_ov dbg (lst F) o ->
  exists t' F', run_op dbg t o = Ok t' /\ Inv t' F' /\ good F' /\ lst F' = sp_step ovl (lst F) o /\
    exists fr, freed t' = freed t ++ fr /\ Permutation fr (sp_released (lst F) o).
Proof.
  intros I G V SO. destruct o as [[[b s] c]|b|a|b c|]; cbn [run_op op_valid same_ov] in *.
  - destruct (insert_step dbg t F b s c I G V SO) as (t'&r&F'&E1&FR&I'&G'&L'&_). rewrite E1. cbn [bind].
    exists t', F'. sp; auto. exists []. rewrite app_nil_r. cbn. auto.
  - destruct (find_ok t F b I (good_R _ G)) as (h&E1&H). rewrite E1. cbn [bind]. destruct h as [x|]; cbn [del_if].
    + destruct H as (d&J&B). destruct (remove_step t F x d (fun e => e_base e =? b) I J) as (t'&F'&E2&I'&FR&L'&S1&S2).
      { rewrite ev. lia. }
      { intros l1 l2 Q d' J'. rewrite ev. pose proof (uniq_base F d (good_R _ G) l1 l2 Q d' J'). lia. }
      exists t', F'. sp; auto; [destruct G; split; auto|]. eexists; split; [exact FR|apply Permutation_refl].
    + exists t, F. destruct (filter_none (fun e => e_base e =? b) (lst F)) as [Q1 Q2].
      { intros y Y. apply in_lst in Y. destruct Y as (x&d&J&->). rewrite ev. specialize (H x d J). lia. }
      cbn [sp_step]. rewrite Q1. unfold sp_released; cbv iota; rewrite ?Q2. sp; auto. exists []. rewrite app_nil_r. cbn. auto.
  - destruct (in_node_ok t F a I G) as (h&E1&H). rewrite E1. cbn [bind]. destruct h as [x|]; cbn [del_if].
    + destruct H as (d&J&B). destruct (remove_step t F x d (inside a) I J B (uniq_inside F d a G B)) as (t'&F'&E2&I'&FR&L'&S1&S2).
      exists t', F'. sp; auto; [destruct G; split; auto|]. eexists; split; [exact FR|apply Permutation_refl].
    + exists t, F. destruct (filter_none (inside a) (lst F)) as [Q1 Q2].
      { intros y Y. apply in_lst in Y. destruct Y as (x&d&J&->). eauto. }
      cbn [sp_step]. rewrite Q1. unfold sp_released; cbv iota; rewrite ?Q2. sp; auto. exists []. rewrite app_nil_r. cbn. auto.
  - destruct (find_ok t F b I (good_R _ G)) as (h&E1&H). rewrite E1. cbn [bind]. destruct h as [x|].
    + destruct H as (d&J&B). destruct (set_client_ok t F x d c I J) as (t'&F'&l1&l2&E2&I'&FR&EL&EL').
      exists t', F'. cbn [sp_step]. sp; auto.
      * destruct G as [G1 G2]. rewrite EL, map_app in G1, G2. split; rewrite EL', map_app; cbn [map snd] in *.
        -- clear - G1. apply SS_app in G1. destruct G1 as (A1&A2&A3). apply SS_app. inversion A2; subst. sp; auto.
           ++ constructor; auto.
           ++ intros a0 b0 Ia [<-|Ib]; [apply (A3 a0 d); auto; left; auto|apply A3; auto; right; auto].
        -- apply Forall_app in G2. destruct G2 as [G2 G3]. inversion G3; subst. apply Forall_app. split; auto.
      * subst b. eapply set_client_lst; eauto. apply good_R; auto.
      * exists []. rewrite app_nil_r. cbn. auto.
    + exists t, F. sp; auto.
      * cbn [sp_step]. rewrite <- (map_id (lst F)) at 1. apply map_ext_in. intros y Y. apply in_lst in Y. destruct Y as (x&d&J&->).
        unfold relabel. rewrite ev. specialize (H x d J). destruct (Z.eqb_spec (d_base d) b); congruence.
      * exists []. rewrite app_nil_r. cbn. auto.
  - destruct (clear_ok t F I) as (t'&E1&I'&fr&FR&P). exists t', E. sp; auto.
    + split; constructor.
    + exists fr. auto.
Qed.

Fixpoint same_ov_all (dbg : bool) (l : list entry) (os : list op) : Prop :=
  match os with [] => True | o :: os' => same_ov dbg l o /\ same_ov_all dbg (sp_step ovl l o) os' end.
Lemma run_ok dbg : forall os t F, Inv t F -> good F -> Forall op_valid os -> same_ov_all dbg (lst F) os ->
  exists t' F', run_from dbg t os = Ok t' /\ Inv t' F' /\ good F' /\ lst F' = fold_left (sp_step ovl) os (lst F) /\
    exists fr, freed t' = freed t ++ fr /\ Permutation fr (sp_freed ovl (lst F) os).
Proof.
  induction os as [|o os IH]; intros t F I G V SO; cbn [run_from fold_left sp_freed].
  - exists t, F. sp; auto. exists []. rewrite app_nil_r. auto.
  - inversion V; subst. destruct SO as [S1 S2]. destruct (step_ok dbg t F o I G H1 S1) as (t1&F1&E1&I1&G1&L1&fr1&FR1&P1).
    rewrite E1. cbn [bind]. rewrite <- L1 in S2. destruct (IH t1 F1 I1 G1 H2 S2) as (t2&F2&E2&I2&G2&L2&fr2&FR2&P2).
    exists t2, F2. rewrite L1 in L2, P2. sp; auto. exists (fr1 ++ fr2). split. { rewrite FR2, FR1, app_assoc. auto. }
    apply Permutation_app; auto.
Qed.

(** ---- structure alone: arbitrary operations, overlapping or wrapping intervals included ---- *)
Lemma tsearch_in hit left_ s h : tsearch hit left_ s = Some h -> exists d, In (h, d) (el s).
Proof.
  induction s as [|i c d l IHl r IHr]; cbn [tsearch]; [discriminate|]. cbn [el].
  destruct (hit d); [injection 1 as <-; exists d; apply in_or_app; right; left; auto|].
  destruct (left_ d); intros H; [destruct (IHl H) as (d1&I)|destruct (IHr H) as (d1&I)]; exists d1; apply in_or_app; auto. right; right; auto.
Qed.
Lemma any_find t F b : Inv t F -> exists h, rb_find t b = Ok h /\ forall x, h = Some x -> exists d, In (x, d) (el F).
Proof.
  intros (np&R&_). unfold rb_find. rewrite find_is_search, (R_root _ _ _ _ R). cbn [rootK].
  erewrite search_t; [|exact R|eapply Rep_hgt; eauto]. eexists. split; [reflexivity|]. intros x Q. eapply tsearch_in; eauto.
Qed.
Lemma any_in_node t F b : Inv t F -> exists h, rb_in_node t b = Ok h /\ forall x, h = Some x -> exists d, In (x, d) (el F).
Proof.
  intros (np&R&_). unfold rb_in_node. rewrite in_node_is_search, (R_root _ _ _ _ R). cbn [rootK].
  erewrite search_t; [|exact R|eapply Rep_hgt; eauto]. eexists. split; [reflexivity|]. intros x Q. eapply tsearch_in; eauto.
Qed.
Lemma SS_true {A} (l : list A) : StronglySorted (fun _ _ => True) l.
Proof. induction l; constructor; auto. apply Forall_forall; auto. Qed.
Lemma any_step dbg t F o : Inv t F -> exists t' F', run_op dbg t o = Ok t' /\ Inv t' F'.
Proof.
  intros I. destruct o as [[[b s] c]|b|a|b c|]; cbn [run_op].
  - destruct (insert_gen dbg b s c (fun _ _ => True) (fun _ => True) (fun _ => True)) with (t := t) (F := F) as (t'&r&E1&FR&H1); auto.
    { apply SS_true. }
    rewrite E1. cbn [bind]. destruct r; [destruct H1; eauto|destruct H1 as (F'&_&_&I'&_); eauto].
  - destruct (any_find t F b I) as (h&E1&H). rewrite E1. cbn [bind]. destruct h as [x|]; cbn [del_if]; [|eauto].
    destruct (H x eq_refl) as (d&J). destruct (delete_ok t F x d I J) as (t'&F'&_&_&E2&I'&_). eauto.
  - destruct (any_in_node t F a I) as (h&E1&H). rewrite E1. cbn [bind]. destruct h as [x|]; cbn [del_if]; [|eauto].
    destruct (H x eq_refl) as (d&J). destruct (delete_ok t F x d I J) as (t'&F'&_&_&E2&I'&_). eauto.
  - destruct (any_find t F b I) as (h&E1&H). rewrite E1. cbn [bind]. destruct h as [x|]; [|eauto].
    destruct (H x eq_refl) as (d&J). destruct (set_client_ok t F x d c I J) as (t'&F'&_&_&E2&I'&_). eauto.
  - destruct (clear_ok t F I) as (t'&E1&I'&_). eauto.
Qed.
Lemma any_run dbg : forall os t F, Inv t F -> exists t' F', run_from dbg t os = Ok t' /\ Inv t' F'.
Proof.
  induction os as [|o os IH]; intros t F I; cbn [run_from]; [eauto|].
  destruct (any_step dbg t F o I) as (t1&F1&E1&I1). rewrite E1. cbn [bind]. eauto.
Qed.

(** ---- balance ---- *)
Lemma wf_hgt s : forall n, wf s n -> (hgt s <= 2 * n + (if isred s then 1 else 0))%nat /\ (2 ^ n <= S (length (el s)))%nat.
Proof.
  induction s as [|i c d l IHl r IHr]; intros n W; cbn [wf hgt isred el] in *.
  - subst. cbn. lia.
  - rewrite app_length. cbn [length]. destruct c.
    + destruct W as (I1&I2&W1&W2). destruct (IHl n W1) as [A1 A2]. destruct (IHr n W2) as [B1 B2]. rewrite I1 in A1. rewrite I2 in B1. lia.
    + destruct n as [|n]; [contradiction|]. destruct W as (W1&W2). destruct (IHl n W1) as [A1 A2]. destruct (IHr n W2) as [B1 B2].
      cbn [Nat.pow]. destruct (isred l), (isred r); lia.
Qed.
Lemma RB_height F : RBinv F -> (hgt F <= 2 * Nat.log2 (S (length (el F))))%nat.
Proof.
  intros [B (n&W)]. destruct (wf_hgt F n W) as [A1 A2]. rewrite B in A1.
  apply Nat.log2_le_mono in A2. rewrite Nat.log2_pow2 in A2 by lia. lia.
Qed.
Lemma path_ok t np : forall s K n k m, Rep t np K s -> wf s n -> path t (rid s) k m -> k = n /\ (m <= hgt s)%nat.
Proof.
  induction s as [|i c d l IHl r IHr]; intros K n k m R W P; cbn [rid wf hgt] in *.
  - inversion P; subst; [auto|congruence|congruence].
  - pose proof (Rep_rd _ _ _ _ _ _ _ _ R) as RD. inversion P; subst.
    + exfalso. eapply Rep_nz; eauto.
    + rewrite RD in H0. injection H0 as <-. cbn [mk lft red] in *. destruct c.
      * destruct W as (_&_&W1&_). destruct (IHl _ _ _ _ (dn_L _ _ _ _ _ _ _ _ R) W1 H1). lia.
      * destruct n as [|n]; [contradiction|]. destruct W as (W1&_). destruct (IHl _ _ _ _ (dn_L _ _ _ _ _ _ _ _ R) W1 H1). lia.
    + rewrite RD in H0. injection H0 as <-. cbn [mk rgt red] in *. destruct c.
      * destruct W as (_&_&_&W1). destruct (IHr _ _ _ _ (dn_R _ _ _ _ _ _ _ _ R) W1 H1). lia.
      * destruct n as [|n]; [contradiction|]. destruct W as (_&W1). destruct (IHr _ _ _ _ (dn_R _ _ _ _ _ _ _ _ R) W1 H1). lia.
Qed.
Lemma it_focus t F np : Rep t np [] F -> RBinv F -> forall x, inside_tree t x ->
  exists K c d l r n, plug K (N x c d l r) = F /\ Rep t np K (N x c d l r) /\ wf (N x c d l r) n.
Proof.
  intros R [B (n&W)] x H.
  assert (G : exists K c d l r, plug K (N x c d l r) = F /\ Rep t np K (N x c d l r)).
  { induction H as [H|x nn H IH E1 NZ|x nn H IH E1 NZ].
    - rewrite (R_root _ _ _ _ R) in *. cbn [rootK] in *. destruct F as [|i c d l r]; [cbn in H; congruence|].
      exists [], c, d, l, r. auto.
    - destruct IH as (K&c&d&l&r&P&RK). rewrite (Rep_rd _ _ _ _ _ _ _ _ RK) in E1. injection E1 as <-. cbn [mk lft] in *.
      destruct l as [|li cl dl ll lr]; [cbn in NZ; congruence|]. exists (FL x c d r :: K), cl, dl, ll, lr. split; auto. apply dn_L; auto.
    - destruct IH as (K&c&d&l&r&P&RK). rewrite (Rep_rd _ _ _ _ _ _ _ _ RK) in E1. injection E1 as <-. cbn [mk rgt] in *.
      destruct r as [|li cl dl ll lr]; [cbn in NZ; congruence|]. exists (FR x c d l :: K), cl, dl, ll, lr. split; auto. apply dn_R; auto. }
  destruct G as (K&c&d&l&r&P&RK). rewrite <- P in B, W. destruct (plug_wf K _ n W B) as (m&W1&_).
  exists K, c, d, l, r, m. auto.
Qed.
Lemma colours_ok t F : Inv t F -> is_red t (root t) = false /\
  (forall x n, inside_tree t x -> rd t x = Ok n -> red n = true -> is_red t (lft n) = false /\ is_red t (rgt n) = false) /\
  (exists bh, forall k m, path t (root t) k m -> k = bh /\ (m <= 2 * Nat.log2 (S (length (lst F))))%nat).
Proof.
  intros (np&R&B&_). sp.
  - destruct B as [B _]. unfold is_red. rewrite (R_root _ _ _ _ R). cbn [rootK].
    destruct (Rep_rd_any _ _ _ _ R) as (n&E1&C&_). rewrite E1. congruence.
  - intros x n I E1 RD. destruct (it_focus t F np R B x I) as (K&c&d&l&r&m&P&RK&W).
    rewrite (Rep_rd _ _ _ _ _ _ _ _ RK) in E1. injection E1 as <-. cbn [mk red lft rgt] in *. subst c. destruct W as (I1&I2&_).
    destruct (Rep_rd_any _ _ _ _ (dn_L _ _ _ _ _ _ _ _ RK)) as (nl&El&Cl&_).
    destruct (Rep_rd_any _ _ _ _ (dn_R _ _ _ _ _ _ _ _ RK)) as (nr&Er&Cr&_).
    unfold is_red. rewrite El, Er. split; congruence.
  - pose proof (RB_height F B) as H. destruct B as [B (n&W)]. exists n. intros k m P.
    rewrite (R_root _ _ _ _ R) in P. cbn [rootK] in P. destruct (path_ok _ _ _ _ _ _ _ R W P). split; auto.
    unfold lst. rewrite map_length. lia.
Qed.
Lemma find_steps t F b : Inv t F ->
  find_loop (S (2 * Nat.log2 (S (length (lst F))))) t b (root t) = rb_find t b.
Proof.
  intros (np&R&B&_). unfold rb_find. rewrite !find_is_search, (R_root _ _ _ _ R). cbn [rootK].
  rewrite (search_t _ _ t np F [] _ R); [|pose proof (RB_height F B); unfold lst; rewrite map_length; lia].
  rewrite (search_t _ _ t np F [] _ R (Rep_hgt _ _ _ R)). reflexivity.
Qed.
Lemma in_node_steps t F b : Inv t F ->
  in_node_loop (S (2 * Nat.log2 (S (length (lst F))))) t b (root t) = rb_in_node t b.
Proof.
  intros (np&R&B&_). unfold rb_in_node. rewrite !in_node_is_search, (R_root _ _ _ _ R). cbn [rootK].
  rewrite (search_t _ _ t np F [] _ R); [|pose proof (RB_height F B); unfold lst; rewrite map_length; lia].
  rewrite (search_t _ _ t np F [] _ R (Rep_hgt _ _ _ R)). reflexivity.
Qed.
Lemma overlaps_steps t F s e : Inv t F ->
  overlaps_loop (S (2 * Nat.log2 (S (length (lst F))))) t s e (root t) = rb_overlaps_node t s e.
Proof.
  intros (np&R&B&_). unfold rb_overlaps_node. rewrite !overlaps_is_search, (R_root _ _ _ _ R). cbn [rootK].
  rewrite (search_t _ _ t np F [] _ R); [|pose proof (RB_height F B); unfold lst; rewrite map_length; lia].
  rewrite (search_t _ _ t np F [] _ R (Rep_hgt _ _ _ R)). reflexivity.
Qed.
