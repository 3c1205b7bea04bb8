(** Statements of the history theorems over the client harness *)
From Coq Require Import Sorting.Sorted Permutation.
From Verif Require Import Base Redblack_Model Redblack_Spec Redblack_Client.
From Verif Require Import Redblack_Proofs1 Redblack_Proofs4 Redblack_Proofs7 Redblack_Proofs8 Redblack_Proofs9 Redblack_Proofs10 Redblack_Proofs11.
Open Scope Z_scope.

Lemma clean_same dbg : forall os l, dbg = true \/ clean l os -> same_ov_all dbg l os.
Proof.
  induction os as [|o os IH]; intros l H; cbn; auto. split.
  - destruct o; cbn; auto. intros ->. destruct H as [H|[H _]]; [discriminate|auto].
  - apply IH. destruct H as [H|[_ H]]; auto.
Qed.
Lemma legal_run dbg os : legal dbg os -> exists t F, run dbg os = Ok t /\ Inv t F /\ good F /\ lst F = sp_run ovl os /\
  Permutation (freed t) (sp_freed ovl [] os).
Proof.
  intros [V C]. destruct (run_ok dbg os rb_tree_create E init_inv) as (t&F&E1&I&G&L&fr&FR&P); auto.
  { split; constructor. } { apply clean_same; auto. }
  exists t, F. sp; auto. rewrite FR. exact P.
Qed.
Lemma legal_t dbg os t : legal dbg os -> run dbg os = Ok t -> exists F, Inv t F /\ good F /\ lst F = sp_run ovl os.
Proof. intros L R. destruct (legal_run dbg os L) as (t'&F&E1&H1&H2&H3&_). rewrite R in E1. injection E1 as <-. eauto. Qed.

Lemma good_spec F : good F -> ascending (lst F) /\ disjoint (lst F).
Proof.
  intros G. assert (Q : lst F = map ent (map snd (el F))) by (unfold lst; rewrite map_map; auto). rewrite Q. clear Q.
  pose proof (good_V _ G) as SS. clear G. revert SS. generalize (map snd (el F)). intros l SS. split.
  - induction SS as [|d l S0 IH H]; cbn; auto. split; auto. intros e' I. apply in_map_iff in I. destruct I as (d'&<-&I).
    rewrite Forall_forall in H. destruct (H d' I) as (_&_&L&_). ue. lia.
  - intros l1 e l2 Q e' I. apply map_eq_app in Q. destruct Q as (m1&m2&->&<-&Q).
    destruct m2 as [|d m2]; [discriminate|]. cbn in Q. injection Q as <- <-.
    apply SS_app in SS. destruct SS as (A1&A2&A3). inversion A2; subst. rewrite Forall_forall in *.
    apply in_app_or in I. destruct I as [I|I]; apply in_map_iff in I; destruct I as (d'&<-&I).
    + destruct (A3 d' d I (or_introl eq_refl)) as (V1&V2&L1&L2). ue. lia.
    + destruct (H2 d' I) as (V1&V2&L1&L2). ue. lia.
Qed.

Lemma history dbg os : legal dbg os -> exists t, run dbg os = Ok t /\ contents t = Ok (sp_run ovl os) /\
  ascending (sp_run ovl os) /\ disjoint (sp_run ovl os).
Proof.
  intros L. destruct (legal_run dbg os L) as (t&F&E1&I&G&LL&_). exists t. split; auto.
  split; [rewrite (contents_ok t F I), LL; auto|]. rewrite <- LL. apply good_spec; auto.
Qed.

Lemma find_uniq (p : entry -> bool) l1 x l2 : p x = true -> (forall y, In y (l1 ++ l2) -> p y = false) ->
  List.find p (l1 ++ x :: l2) = Some x.
Proof.
  intros P U. induction l1 as [|y l1 IH]; cbn; [rewrite P; auto|].
  rewrite (U y (or_introl eq_refl)). apply IH. intros z Z0. apply U. right; auto.
Qed.
Lemma find_lst F x d (p : entry -> bool) : In (x, d) (el F) -> p (ent d) = true ->
  (forall l1 l2, map snd (el F) = l1 ++ d :: l2 -> forall d', In d' (l1 ++ l2) -> p (ent d') = false) ->
  List.find p (lst F) = Some (ent d).
Proof.
  intros J P U. assert (Q : lst F = map ent (map snd (el F))) by (unfold lst; rewrite map_map; auto). rewrite Q.
  apply in_split in J. destruct J as (l1&l2&EL).
  assert (MS : map snd (el F) = map snd l1 ++ d :: map snd l2) by (rewrite EL, map_app; auto).
  specialize (U _ _ MS). rewrite MS, map_app. cbn [map]. apply find_uniq; auto.
  intros y Y. rewrite <- map_app in Y. apply in_map_iff in Y. destruct Y as (d'&<-&Y). auto.
Qed.
Lemma find_none_lst F (p : entry -> bool) : (forall x d, In (x, d) (el F) -> p (ent d) = false) -> List.find p (lst F) = None.
Proof.
  intros H. destruct (List.find p (lst F)) as [e|] eqn:Q; auto. apply find_some in Q. destruct Q as [Q1 Q2].
  apply in_lst in Q1. destruct Q1 as (x&d&J&->). rewrite (H x d J) in Q2. discriminate.
Qed.

Lemma lookup_at dbg os t a : legal dbg os -> run dbg os = Ok t ->
  (let* h := rb_in_node t a in view t h) = Ok (List.find (inside a) (sp_run ovl os)).
Proof.
  intros L R. destruct (legal_t dbg os t L R) as (F&I&G&LL). rewrite <- LL.
  destruct (in_node_ok t F a I G) as (h&E1&H). rewrite E1. cbn [bind]. destruct h as [x|].
  - destruct H as (d&J&B). rewrite (Inv_view t F x d I J). rewrite (find_lst F x d _ J B (uniq_inside F d a G B)). auto.
  - rewrite find_none_lst; auto.
Qed.
Lemma lookup_start dbg os t b : legal dbg os -> run dbg os = Ok t ->
  (let* h := rb_find t b in view t h) = Ok (List.find (fun e => e_base e =? b) (sp_run ovl os)).
Proof.
  intros L R. destruct (legal_t dbg os t L R) as (F&I&G&LL). rewrite <- LL.
  destruct (find_ok t F b I (good_R _ G)) as (h&E1&H). rewrite E1. cbn [bind]. destruct h as [x|].
  - destruct H as (d&J&B). rewrite (Inv_view t F x d I J). erewrite find_lst; eauto.
    + rewrite ev. lia.
    + intros l1 l2 Q d' J'. rewrite ev. pose proof (uniq_base F d (good_R _ G) l1 l2 Q d' J'). lia.
  - rewrite find_none_lst; auto. intros x d J. rewrite ev. specialize (H x d J). lia.
Qed.
Lemma lookup_overlap dbg os t s e : legal dbg os -> run dbg os = Ok t ->
  exists r, (let* h := rb_overlaps_node t s e in view t h) = Ok r /\
    match r with
    | Some x => In x (sp_run ovl os) /\ meets s e x = true
    | None => forall x, In x (sp_run ovl os) -> meets s e x = false
    end.
Proof.
  intros L R. destruct (legal_t dbg os t L R) as (F&I&G&LL). rewrite <- LL.
  destruct (overlaps_ok t F s e I G) as (h&E1&H). rewrite E1. cbn [bind]. destruct h as [x|].
  - destruct H as (d&J&B). rewrite (Inv_view t F x d I J). eexists; split; [reflexivity|]. cbv iota beta. split; auto. apply in_lst. eauto.
  - eexists; split; [reflexivity|]. intros x X. apply in_lst in X. destruct X as (h&d&J&->). eauto.
Qed.
Lemma lookup_client dbg os t c : legal dbg os -> run dbg os = Ok t ->
  exists r, (let* h := rb_find_client_node t c in view t h) = Ok r /\
    match r with
    | Some x => In x (sp_run ovl os) /\ e_client x = c
    | None => forall x, In x (sp_run ovl os) -> e_client x <> c
    end.
Proof.
  intros L R. destruct (legal_t dbg os t L R) as (F&I&G&LL). rewrite <- LL.
  destruct (find_client_ok t F c I) as (h&E1&H). rewrite E1. cbn [bind]. destruct h as [x|].
  - destruct H as (d&J&B). rewrite (Inv_view t F x d I J). eexists; split; [reflexivity|]. cbv iota beta. split; auto. apply in_lst. eauto.
  - eexists; split; [reflexivity|]. intros x X. apply in_lst in X. destruct X as (h&d&J&->). exact (H h d J).
Qed.
Lemma iterate_hist dbg os t (S0 : Type) (cb : S0 -> entry -> S0 * bool) s : legal dbg os -> run dbg os = Ok t ->
  rb_iterate cb t s = Ok (walk cb s (sp_run ovl os)).
Proof. intros L R. destruct (legal_t dbg os t L R) as (F&I&G&LL). rewrite <- LL. apply iterate_ok; auto. Qed.

Lemma last_map {A B} (f : A -> B) l x : last (map f (l ++ [x])) = fun _ => f x.
Proof. rewrite map_app. cbn. clear. induction (map f l) as [|y m IH]; auto. cbn [app last]. destruct (m ++ [f x]) eqn:Q; [destruct m; discriminate|]. rewrite <- IH. reflexivity. Qed.
Lemma extremes dbg os t : legal dbg os -> run dbg os = Ok t ->
  match sp_run ovl os with
  | [] => rb_min_node t = Ok NIL /\ rb_max_node t = Ok NIL
  | e :: l => (let* h := rb_min_node t in view t (Some h)) = Ok (Some e) /\
              (let* h := rb_max_node t in view t (Some h)) = Ok (Some (last (e :: l) e))
  end.
Proof.
  intros L R. destruct (legal_t dbg os t L R) as (F&I&G&LL). rewrite <- LL.
  destruct (min_ok t F I) as (h1&E1&H1). destruct (max_ok t F I) as (h2&E2&H2).
  destruct (lst F) as [|e l] eqn:Q.
  - destruct H1 as [[-> ->]|(d&l&H1)]; [|unfold lst in Q; rewrite H1 in Q; discriminate].
    destruct H2 as [[_ ->]|(d&l&H2)]; [auto|]. destruct l; discriminate.
  - destruct H1 as [[-> ->]|(d1&l1&H1)]; [discriminate|]. destruct H2 as [[-> ->]|(d2&l2&H2)]; [discriminate|].
    rewrite E1, E2. cbn [bind]. split.
    + rewrite (Inv_view t F h1 d1 I); [|rewrite H1; left; auto]. unfold lst in Q. rewrite H1 in Q. injection Q as <- _. auto.
    + rewrite (Inv_view t F h2 d2 I); [|rewrite H2; apply in_or_app; right; left; auto].
      rewrite <- Q. unfold lst. rewrite H2. rewrite last_map. auto.
Qed.
Lemma insert_result dbg os t b s c : legal dbg os -> run dbg os = Ok t -> valid (b, s, c) ->
  (dbg = true \/ existsb (ovl (b, s, c)) (sp_run ovl os) = existsb (same_start (b, s, c)) (sp_run ovl os)) ->
  exists t' h r, rb_insert dbg t b s c = Ok (t', h) /\ view t' h = Ok r /\
    match r with
    | Some e => In e (sp_run ovl os) /\ ovl (b, s, c) e = true /\ contents t' = Ok (sp_run ovl os)
    | None => (forall e, In e (sp_run ovl os) -> ovl (b, s, c) e = false) /\ contents t' = Ok (put (b, s, c) (sp_run ovl os))
    end.
Proof.
  intros L R V SO. destruct (legal_t dbg os t L R) as (F&I&G&LL). rewrite <- LL in *.
  destruct (insert_step dbg t F b s c I G V) as (t'&r&F'&E1&FR&I'&G'&L'&H).
  { intros ->. destruct SO; [discriminate|auto]. }
  exists t', r. rewrite (contents_ok t' F' I'). destruct r as [h|].
  - destruct H as (d&J&O). exists (Some (ent d)). split; auto. split; [eapply Inv_view; eauto|].
    assert (X : lst F' = lst F).
    { rewrite L'. cbn [sp_step]. destruct (existsb (ovl (b,s,c)) (lst F)) eqn:Q; auto. exfalso.
      cbn [sp_step] in L'. rewrite Q in L'. rewrite existsb_false in Q.
      (* the clashing interval is the inserted one itself: excluded since the insertion was refused *)
      assert (Inv t' F'); auto. clear H. destruct (insert_gen dbg b s c (fun _ _ => True) (fun _ => True) (fun _ => True)) with (t := t) (F := F) as (t2&r2&E2&_&H2); auto.
      { apply SS_true. }
      rewrite E1 in E2. injection E2 as <- <-. destruct H2 as ((d2&J2&H2)&I2).
      assert (O2 : ovl (b, s, c) (ent d2) = true).
      { pose proof (good_vd _ _ _ G J2) as V1. unfold hitb in H2. destruct dbg.
        - clear SO. ue. rewrite !add64_id in H2 by lia. lia.
        - clear SO. ue. lia. }
      rewrite (Q (ent d2)) in O2; [discriminate|]. apply in_lst. eauto. }
    rewrite <- X. sp; auto. apply in_lst. eauto.
  - exists None. split; auto. split; auto. cbn [sp_step] in L'. rewrite H in L'. rewrite L'. split; auto. apply existsb_false. auto.
Qed.

Lemma any_reach dbg os : exists t, run dbg os = Ok t.
Proof. destruct (any_run dbg os rb_tree_create E init_inv) as (t&F&E1&_). eauto. Qed.
Lemma any_inv dbg os t : run dbg os = Ok t -> exists F, Inv t F.
Proof. intros R. destruct (any_run dbg os rb_tree_create E init_inv) as (t'&F&E1&I). unfold run in R. rewrite R in E1. injection E1 as <-. eauto. Qed.

Lemma balance dbg os t l : run dbg os = Ok t -> contents t = Ok l ->
  is_red t (root t) = false /\
  (forall x n, inside_tree t x -> rd t x = Ok n -> red n = true -> is_red t (lft n) = false /\ is_red t (rgt n) = false) /\
  (exists bh, forall k m, path t (root t) k m -> k = bh /\ (m <= 2 * Nat.log2 (S (length l)))%nat).
Proof.
  intros R C. destruct (any_inv dbg os t R) as (F&I). rewrite (contents_ok t F I) in C. injection C as <-. apply colours_ok; auto.
Qed.
Lemma log_steps dbg os t l : run dbg os = Ok t -> contents t = Ok l ->
  let n := S (2 * Nat.log2 (S (length l))) in
  (forall b, find_loop n t b (root t) = rb_find t b) /\
  (forall a, in_node_loop n t a (root t) = rb_in_node t a) /\
  (forall s e, overlaps_loop n t s e (root t) = rb_overlaps_node t s e).
Proof.
  intros R C. destruct (any_inv dbg os t R) as (F&I). rewrite (contents_ok t F I) in C. injection C as <-. cbv zeta. sp; intros.
  - apply find_steps; auto.
  - apply in_node_steps; auto.
  - apply overlaps_steps; auto.
Qed.
Lemma any_contents dbg os t : run dbg os = Ok t -> exists l, contents t = Ok l.
Proof. intros R. destruct (any_inv dbg os t R) as (F&I). eexists. apply (contents_ok t F I). Qed.

(** nodes allocated = intervals stored *)
Lemma no_leak dbg os t l : run dbg os = Ok t -> contents t = Ok l ->
  exists hs, NoDup hs /\ length hs = length l /\ forall x, heap t x <> None <-> x = NIL \/ In x hs.
Proof.
  intros R C. destruct (any_inv dbg os t R) as (F&I). rewrite (contents_ok t F I) in C. injection C as <-.
  destruct I as (np&RP&_&LV&_). exists (ids F). pose proof (R_nd _ _ _ _ RP) as ND. cbn in ND. rewrite app_nil_r in ND.
  sp; auto.
  - unfold lst. rewrite map_length. clear. induction F; cbn; auto. rewrite !app_length. cbn. lia.
  - intros x. split; [apply LV|]. intros [->|X]; [rewrite (R_nil _ _ _ _ RP); discriminate|].
    assert (X2 : In x (map fst (el F))) by (apply ids_in_el; auto). apply in_map_iff in X2. destruct X2 as ((y&d)&<-&X2). cbn.
    destruct (el_split y F d X2) as (K&c&l&r&->).
    pose proof (proj2 (nav_top _ _ _ _) RP) as RZ. destruct (R_rep _ _ _ _ RZ) as [Q _]. rewrite Q. discriminate.
Qed.

(** ---- release build, arbitrary (even overlapping) intervals ---- *)
Lemma rel_step t F o : Inv t F -> StronglySorted ltR (map snd (el F)) -> no_remove_at o ->
  exists t' F', run_op false t o = Ok t' /\ Inv t' F' /\ StronglySorted ltR (map snd (el F')) /\ lst F' = sp_step same_start (lst F) o.
Proof.
  intros I G V. destruct o as [[[b s] c]|b|a|b c|]; cbn [run_op no_remove_at] in *; [| |contradiction| |].
  - destruct (insert_gen false b s c ltR (fun d => d_base d < b) (fun d => b < d_base d)) with (t := t) (F := F) as (t'&r&E1&FR&H1);
      try (unfold hitb, ltR in *; intros; lia); auto.
    rewrite E1. cbn [bind]. destruct r as [h|].
    + destruct H1 as ((d&J&H)&I'). exists t', F. sp; auto. cbn [sp_step].
      rewrite (existsb_in (same_start (b,s,c)) (lst F) (ent d)); [reflexivity|apply in_lst; eauto|unfold hitb in H; ue; lia].
    + destruct H1 as (F'&l1&l2&I'&EL&EL'&F1&F2). exists t', F'. rewrite Forall_forall in F1, F2. sp; auto.
      * rewrite EL', map_app. cbn [map snd]. rewrite EL, map_app in G. apply SS_insert; auto; apply Forall_forall; intros d D; unfold ltR; cbn; auto.
      * cbn [sp_step].
        assert (NO : existsb (same_start (b,s,c)) (lst F) = false).
        { apply existsb_false. intros x X. apply in_lst in X. destruct X as (h&d&X&->). rewrite EL in X. apply in_app_or in X.
          destruct X as [X|X]; apply (in_map snd) in X; cbn in X; [specialize (F1 d X)|specialize (F2 d X)]; ue; lia. }
        rewrite NO, (lst_app F _ _ EL), (lst_app F' _ _ EL'). cbn [map snd]. symmetry.
        apply put_mid; intros x X; apply in_map_iff in X; destruct X as ((h&d)&<-&X); cbn [snd];
        apply (in_map snd) in X; cbn in X; [apply F1|apply F2]; auto.
  - destruct (find_ok t F b I G) as (h&E1&H). rewrite E1. cbn [bind]. destruct h as [x|]; cbn [del_if].
    + destruct H as (d&J&B). destruct (remove_step t F x d (fun e => e_base e =? b) I J) as (t'&F'&E2&I'&FR&L'&S1&S2).
      { rewrite ev. lia. }
      { intros l1 l2 Q d' J'. rewrite ev. pose proof (uniq_base F d G l1 l2 Q d' J'). lia. }
      exists t', F'. sp; auto.
    + exists t, F. destruct (filter_none (fun e => e_base e =? b) (lst F)) as [Q1 Q2].
      { intros y Y. apply in_lst in Y. destruct Y as (x&d&J&->). rewrite ev. specialize (H x d J). lia. }
      cbn [sp_step]. rewrite Q1. sp; auto.
  - destruct (find_ok t F b I G) as (h&E1&H). rewrite E1. cbn [bind]. destruct h as [x|].
    + destruct H as (d&J&B). destruct (set_client_ok t F x d c I J) as (t'&F'&l1&l2&E2&I'&FR&EL&EL').
      exists t', F'. cbn [sp_step]. sp; auto.
      * rewrite EL, map_app in G. rewrite EL', map_app; cbn [map snd] in *.
        clear - G. apply SS_app in G. destruct G as (A1&A2&A3). apply SS_app. inversion A2; subst. sp; auto.
        -- constructor; auto.
        -- intros a0 b0 Ia [<-|Ib]; [apply (A3 a0 d); auto; left; auto|apply A3; auto; right; auto].
      * subst b. eapply set_client_lst; eauto.
    + exists t, F. sp; auto.
      cbn [sp_step]. rewrite <- (map_id (lst F)) at 1. apply map_ext_in. intros y Y. apply in_lst in Y. destruct Y as (x&d&J&->).
      unfold relabel. rewrite ev. specialize (H x d J). destruct (Z.eqb_spec (d_base d) b); congruence.
  - destruct (clear_ok t F I) as (t'&E1&I'&fr&FR&P). exists t', E. sp; auto. constructor.
Qed.
Lemma rel_run : forall os t F, Inv t F -> StronglySorted ltR (map snd (el F)) -> Forall no_remove_at os ->
  exists t' F', run_from false t os = Ok t' /\ Inv t' F' /\ lst F' = fold_left (sp_step same_start) os (lst F).
Proof.
  induction os as [|o os IH]; intros t F I G V; cbn [run_from fold_left]; [eauto|].
  inversion V; subst. destruct (rel_step t F o I G H1) as (t1&F1&E1&I1&G1&L1). rewrite E1. cbn [bind]. rewrite <- L1. eauto.
Qed.
Lemma rel_history os : Forall no_remove_at os -> exists t, run false os = Ok t /\ contents t = Ok (sp_run same_start os).
Proof.
  intros V. destruct (rel_run os rb_tree_create E init_inv) as (t&F&E1&I&L); auto; [constructor|].
  exists t. split; auto. rewrite (contents_ok t F I), L. reflexivity.
Qed.

(** ---- nearest ---- *)
Lemma nearest_lower dbg os t a : legal dbg os -> run dbg os = Ok t ->
  exists r, (let* h := rb_next_lower_node t a in view t h) = Ok r /\
    match r with
    | Some e => In e (sp_run ovl os) /\ e_base e <= a
    | None => forall e, In e (sp_run ovl os) -> a < e_base e
    end.
Proof.
  intros L R. destruct (legal_t dbg os t L R) as (F&I&G&LL). rewrite <- LL.
  destruct (next_lower_ok t F a I (good_R _ G)) as (h&E1&H). rewrite E1. cbn [bind]. destruct h as [x|].
  - destruct H as (d&J&B). rewrite (Inv_view t F x d I J). eexists; split; [reflexivity|]. cbv iota beta. split; auto. apply in_lst. eauto.
  - eexists; split; [reflexivity|]. intros x X. apply in_lst in X. destruct X as (h&d&J&->). rewrite ev. eauto.
Qed.
Lemma nearest_higher dbg os t a : legal dbg os -> run dbg os = Ok t -> 0 <= a ->
  rb_next_higher_node t a =
    (if Nat.eqb (root t) NIL then Ok None else
     let* e := rb_node_fields t (root t) in
     Ok (if a <? e_base e + e_size e then Some (root t) else None)).
Proof.
  intros L R A. destruct (legal_t dbg os t L R) as (F&I&G&LL). rewrite (next_higher_ok t F a I A).
  destruct I as (np&RP&I). pose proof (R_root _ _ _ _ RP) as RT. cbn [rootK] in RT. rewrite RT. destruct F as [|i c d l r]; [reflexivity|].
  cbn [rid]. destruct (Nat.eqb_spec i NIL) as [Z0|Z0]; [exfalso; eapply Rep_nz; eauto|].
  assert (J : In (i, d) (el (N i c d l r))) by (cbn [el]; apply in_or_app; right; left; auto).
  rewrite (Inv_fields t (N i c d l r) i d); [|exists np; auto|auto]. cbn [bind].
  pose proof (good_vd _ _ _ G J) as V. ue. rewrite add64_id by lia. reflexivity.
Qed.
