(** The interval index as a set: step lemmas used by the proofs about its
    clients (heap regions, mapped memory, modules). *)
From Coq Require Import Permutation Sorting.Sorted.
From Verif Require Import Base Redblack_Model Redblack_Spec Redblack_Client
  Redblack_Proofs1 Redblack_Proofs2 Redblack_Proofs3 Redblack_Proofs4 Redblack_Proofs5 Redblack_Proofs6 Redblack_Proofs7 Redblack_Proofs8 Redblack_Proofs9 Redblack_Proofs10 Redblack_Proofs11 Redblack_Proofs12.
Open Scope Z_scope.

(** tree [t] stores exactly the entries [l] *)
Definition Idx (t : tree) (l : list entry) : Prop := exists F, Inv t F /\ good F /\ lst F = l.
(** node handle [x] of tree [t] stands for entry [e] *)
Definition Handle (t : tree) (l : list entry) (x : nat) (e : entry) : Prop :=
  exists F d, Inv t F /\ good F /\ lst F = l /\ In (x, d) (el F) /\ ent d = e.

Lemma idx_create : Idx rb_tree_create [].
Proof. exists E. split; [apply init_inv|]. split; [split; constructor|reflexivity]. Qed.
Lemma handle_idx t l x e : Handle t l x e -> Idx t l.
Proof. intros (F&d&I&G&L&_). exists F. auto. Qed.
Lemma handle_in t l x e : Handle t l x e -> In e l.
Proof. intros (F&d&I&G&<-&J&<-). apply in_lst. eauto. Qed.
Lemma idx_asc t l : Idx t l -> ascending l.
Proof. intros (F&I&G&<-). apply (good_spec F G). Qed.
Lemma idx_disj t l : Idx t l -> disjoint l.
Proof. intros (F&I&G&<-). apply (good_spec F G). Qed.
Lemma idx_valid t l e : Idx t l -> In e l -> valid e.
Proof. intros (F&I&G&<-) J. apply in_lst in J. destruct J as (h&d&J&->). exact (good_vd F h d G J). Qed.
Lemma asc_base l e e' : ascending l -> In e l -> In e' l -> e_base e = e_base e' -> e = e'.
Proof.
  induction l as [|x l IH]; cbn; [tauto|]. intros (H&A) [<-|I] [<-|J] Q; auto.
  - specialize (H e' J). lia.
  - specialize (H e I). lia.
Qed.
Lemma idx_base t l e e' : Idx t l -> In e l -> In e' l -> e_base e = e_base e' -> e = e'.
Proof. intros H. apply asc_base. eapply idx_asc; eauto. Qed.
Lemma idx_sep t l e e' : Idx t l -> In e l -> In e' l -> e_base e < e_base e' -> e_base e + e_size e <= e_base e'.
Proof.
  intros H I J L. pose proof (idx_valid _ _ _ H I). pose proof (idx_valid _ _ _ H J). pose proof (idx_disj _ _ H) as D.
  apply in_split in I. destruct I as (l1&l2&->). assert (O : ovl e e' = false).
  { eapply D; eauto. apply in_or_app. apply in_app_or in J. destruct J as [J|[J|J]]; auto. subst. lia. }
  unfold ovl, meets, valid in *. lia.
Qed.
Lemma idx_inside_uniq t l a e e' : Idx t l -> In e l -> In e' l -> inside a e = true -> inside a e' = true -> e = e'.
Proof.
  intros H I J A B. unfold inside in *. destruct (Z.lt_trichotomy (e_base e) (e_base e')) as [L|[L|L]].
  - pose proof (idx_sep _ _ _ _ H I J L). lia.
  - eapply idx_base; eauto.
  - pose proof (idx_sep _ _ _ _ H J I L). lia.
Qed.

Lemma idx_fields t l x e : Handle t l x e -> rb_node_fields t x = Ok e.
Proof. intros (F&d&I&G&<-&J&<-). eapply Inv_fields; eauto. Qed.

Lemma idx_in_node t l a : Idx t l -> exists h, rb_in_node t a = Ok h /\
  match h with
  | Some x => exists e, Handle t l x e /\ inside a e = true
  | None => forall e, In e l -> inside a e = false
  end.
Proof.
  intros (F&I&G&<-). destruct (in_node_ok t F a I G) as (h&E1&H). exists h. split; auto. destruct h as [x|].
  - destruct H as (d&J&B). exists (ent d). split; auto. exists F, d. auto.
  - intros e J. apply in_lst in J. destruct J as (x&d&J&->). eauto.
Qed.
Lemma idx_find t l b : Idx t l -> exists h, rb_find t b = Ok h /\
  match h with
  | Some x => exists e, Handle t l x e /\ e_base e = b
  | None => forall e, In e l -> e_base e <> b
  end.
Proof.
  intros (F&I&G&<-). destruct (find_ok t F b I (good_R _ G)) as (h&E1&H). exists h. split; auto. destruct h as [x|].
  - destruct H as (d&J&B). exists (ent d). split; auto. exists F, d. auto.
  - intros e J. apply in_lst in J. destruct J as (x&d&J&->). rewrite ev. eauto.
Qed.
Lemma idx_overlaps t l s e : Idx t l -> exists h, rb_overlaps_node t s e = Ok h /\
  match h with
  | Some x => exists en, Handle t l x en /\ meets s e en = true
  | None => forall en, In en l -> meets s e en = false
  end.
Proof.
  intros (F&I&G&<-). destruct (overlaps_ok t F s e I G) as (h&E1&H). exists h. split; auto. destruct h as [x|].
  - destruct H as (d&J&B). exists (ent d). split; auto. exists F, d. auto.
  - intros en J. apply in_lst in J. destruct J as (x&d&J&->). eauto.
Qed.
Lemma idx_delete t l x e : Handle t l x e -> exists t', rb_delete t x = Ok t' /\
  Idx t' (filter (fun y => negb (e_base y =? e_base e)) l) /\ freed t' = freed t ++ [e_client e].
Proof.
  intros (F&d&I&G&<-&J&<-). destruct (remove_step t F x d (fun y => e_base y =? e_base (ent d)) I J) as (t'&F'&E2&I'&FR&L'&S1&S2).
  { rewrite ev. lia. }
  { intros l1 l2 Q d' J'. rewrite !ev. pose proof (uniq_base F d (good_R _ G) l1 l2 Q d' J'). lia. }
  exists t'. split; auto. split.
  - exists F'. split; auto. split; [destruct G; split; auto|auto].
  - rewrite FR. f_equal. assert (Q : lst F = map ent (map snd (el F))) by (unfold lst; rewrite map_map; auto).
    apply in_split in J. destruct J as (l1&l2&EL). assert (MS : map snd (el F) = map snd l1 ++ d :: map snd l2) by (rewrite EL, map_app; auto).
    rewrite Q, MS, map_app. cbn [map]. edestruct (filter_one (fun y => e_base y =? e_base (ent d)) (map ent (map snd l1)) (ent d) (map ent (map snd l2))) as [_ ->];
      [lia| |reflexivity].
    intros y Y. rewrite <- map_app in Y. apply in_map_iff in Y. destruct Y as (d'&<-&Y). rewrite !ev.
    pose proof (uniq_base F d (good_R _ G) _ _ MS d' Y). lia.
Qed.
Lemma idx_insert dbg t l b s c : Idx t l -> valid (b, s, c) -> (forall e, In e l -> ovl (b, s, c) e = false) ->
  exists t', rb_insert dbg t b s c = Ok (t', None) /\ Idx t' (put (b, s, c) l) /\ freed t' = freed t.
Proof.
  intros (F&I&G&<-) V N. assert (N1 : existsb (ovl (b, s, c)) (lst F) = false) by (apply existsb_false; auto).
  assert (N2 : existsb (same_start (b, s, c)) (lst F) = false).
  { apply existsb_false. intros e J. specialize (N e J). apply in_lst in J. destruct J as (x&d&J&->).
    pose proof (good_vd F x d G J) as W. unfold vd in W. destruct (same_start (b, s, c) (ent d)) eqn:Q; auto.
    unfold ovl, meets, same_start, valid in *. cbn [e_base e_size e_client fst snd] in *. lia. }
  destruct (insert_step dbg t F b s c I G V) as (t'&r&F'&E1&FR&I'&G'&L'&H); [congruence|].
  cbn [sp_step] in L'. rewrite N1 in L'. exists t'. destruct r as [h|].
  - exfalso. destruct (insert_gen dbg b s c (fun _ _ => True) (fun _ => True) (fun _ => True)) with (t := t) (F := F) as (t2&r2&E2&_&H2); auto.
    { apply SS_true. }
    rewrite E1 in E2. injection E2 as <- <-. destruct H2 as ((d2&J2&H2)&I2).
    assert (O2 : ovl (b, s, c) (ent d2) = true).
    { pose proof (good_vd _ _ _ G J2) as V1. unfold vd in V1. unfold hitb in H2. unfold ovl, meets, valid, ent in *. cbn [e_base e_size fst snd] in *. destruct dbg.
      - rewrite !add64_id in H2 by lia. lia.
      - lia. }
    rewrite N in O2; [discriminate|]. apply in_lst. eauto.
  - split; auto. split; auto. exists F'. auto.
Qed.
Lemma idx_set_client t l x e c : Handle t l x e -> exists t', rb_node_set_client t x c = Ok t' /\
  Idx t' (map (relabel (e_base e) c) l) /\ freed t' = freed t.
Proof.
  intros (F&d&I&G&<-&J&<-). destruct (set_client_ok t F x d c I J) as (t'&F'&l1&l2&E1&I'&FR&EL&EL').
  exists t'. split; auto. split; auto. exists F'. split; auto. split.
  - destruct G as [G1 G2]. assert (M : forall l : list (nat * data), map snd l = map snd l) by auto. split.
    + rewrite EL' , map_app. rewrite EL, map_app in G1. cbn [map snd] in *. apply SS_app in G1. destruct G1 as (A1&A2&A3).
      apply SS_app. inversion A2; subst. split; auto. split.
      * constructor; auto.
      * intros y z Y [<-|Z0]; [|apply A3; auto; right; auto]. specialize (A3 y d Y (or_introl eq_refl)). unfold ltD in *. cbn. auto.
    + rewrite EL', map_app. rewrite EL, map_app in G2. cbn [map snd] in *. rewrite Forall_app in *. destruct G2 as (A1&A2). inversion A2; subst.
      split; auto.
  - rewrite ev. eapply set_client_lst; eauto. apply good_R; auto.
Qed.
Lemma idx_max t l : Idx t l -> exists h, rb_max_node t = Ok h /\
  ((l = [] /\ h = NIL) \/ exists e l', l = l' ++ [e] /\ Handle t l h e).
Proof.
  intros (F&I&G&<-). destruct (max_ok t F I) as (h&E1&H). exists h. split; auto. destruct H as [(->&->)|(d&l&H)]; auto.
  right. exists (ent d), (map (fun p => ent (snd p)) l). split; [unfold lst; rewrite H, map_app; auto|].
  exists F, d. repeat (split; auto). rewrite H. apply in_or_app. right; left; auto.
Qed.
Lemma idx_min t l : Idx t l -> exists h, rb_min_node t = Ok h /\
  ((l = [] /\ h = NIL) \/ exists e l', l = e :: l' /\ Handle t l h e).
Proof.
  intros (F&I&G&<-). destruct (min_ok t F I) as (h&E1&H). exists h. split; auto. destruct H as [(->&->)|(d&l&H)]; auto.
  right. exists (ent d), (map (fun p => ent (snd p)) l). split; [unfold lst; rewrite H; auto|].
  exists F, d. repeat (split; auto). rewrite H. left; auto.
Qed.
Lemma idx_nil_fields t l : Idx t l -> rb_node_fields t NIL = Ok (0, 0, 0).
Proof.
  intros (F&(np&R&_)&_). unfold rb_node_fields, rd. pose proof (R_nil _ _ _ _ R) as H. rewrite H. reflexivity.
Qed.
Lemma in_put e x : forall l, In x (put e l) <-> x = e \/ In x l.
Proof.
  induction l as [|y l IH]; cbn; [intuition auto|]. destruct (e_base e <? e_base y); cbn; [intuition auto|]. rewrite IH. intuition auto.
Qed.
