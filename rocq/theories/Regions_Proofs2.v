(** Heap regions: histories of calls and the queries; facts about the index. *)
From Coq Require Import Permutation.
From Verif Require Import Base Redblack_Model Redblack_Spec Redblack_Proofs1 Redblack_Proofs4 Redblack_Proofs7 Redblack_Proofs10 Redblack_Proofs11 Redblack_Facts
  Regions_Model Regions_Spec Regions_Proofs.
Open Scope Z_scope.

Lemma el_ids F : length (el F) = length (ids F).
Proof. induction F as [|i c d l IHl r IHr]; cbn [el ids]; [reflexivity|]. rewrite !app_length. cbn [length]. rewrite app_length. lia. Qed.
Lemma idx_size t l : Idx t l -> (length l <= fresh t)%nat.
Proof.
  intros (F & (np & R & _ & _ & P) & _ & <-). unfold lst. rewrite map_length, el_ids. destruct (Rep_size _ _ _ _ R) as [Q|Q]; [|lia].
  cbn [idsK] in Q. rewrite app_nil_r in Q. lia.
Qed.
Lemma idx_insert_clash dbg t l b s c e0 : Idx t l -> valid (b, s, c) -> In e0 l -> ovl (b, s, c) e0 = true ->
  (dbg = false -> exists e, In e l /\ same_start (b, s, c) e = true) ->
  exists t' x e, rb_insert dbg t b s c = Ok (t', Some x) /\ Handle t' l x e /\ ovl (b, s, c) e = true /\ freed t' = freed t.
Proof.
  intros (F & I & G & <-) V Ie O D. assert (EX : existsb (ovl (b, s, c)) (lst F) = true) by (eapply existsb_in; eauto).
  destruct (insert_step dbg t F b s c I G V) as (t' & r & F' & E & FR & I' & G' & L & H).
  { intros Q. destruct (D Q) as (e1 & I1 & S1). rewrite EX. symmetry. eapply existsb_in; eauto. }
  cbn [sp_step] in L. rewrite EX in L. destruct r as [x|]; [|congruence]. destruct H as (d & J & O').
  exists t', x, (ent d). split; [exact E|]. split; [|split; [exact O'|exact FR]]. exists F', d. auto.
Qed.
Lemma idx_iterate {S0} (cb : S0 -> entry -> S0 * bool) t l st : Idx t l -> rb_iterate cb t st = Ok (walk cb st l).
Proof. intros (F & I & _ & <-). apply iterate_ok. exact I. Qed.

(** The regions of the list are apart. *)
Definition apart (r r' : region) : Prop := r_end r <= r_start r' \/ r_end r' <= r_start r.
Fixpoint Apart (L : list region) : Prop :=
  match L with [] => True | r :: L => r_start r < r_end r /\ (forall r', In r' L -> apart r r') /\ Apart L end.
Lemma apart_in L r : Apart L -> In r L -> r_start r < r_end r.
Proof. induction L as [|x L IH]; [cbn; tauto|]. intros (A & _ & B) [<-|I]; auto. Qed.
Lemma apart_nodup L : Apart L -> NoDup L.
Proof.
  induction L as [|x L IH]; intros A; [constructor|]. destruct A as (A & B & C). constructor; auto. intros I. specialize (B x I). unfold apart in B. lia.
Qed.
Lemma apart_two L r r' : Apart L -> In r L -> In r' L -> r <> r' -> apart r r'.
Proof.
  induction L as [|x L IH]; [cbn; tauto|]. intros (A & B & C) [<-|I] [<-|J] N; auto; [congruence|]. specialize (B r I). unfold apart in *. lia.
Qed.
Lemma apart_app L M : Apart L -> Apart M -> (forall r r', In r L -> In r' M -> apart r r') -> Apart (L ++ M).
Proof.
  induction L as [|x L IH]; intros A B C; [exact B|]. destruct A as (A1 & A2 & A3). cbn [app Apart]. split; [exact A1|]. split.
  - intros r' I. apply in_app_or in I. destruct I as [I|I]; [auto|apply C; [left|]; auto].
  - apply IH; auto. intros; apply C; [right|]; auto.
Qed.
Lemma without_in s e r r' : r_start r < r_end r -> s < e -> In r' (without s e r) -> r_start r <= r_start r' /\ r_end r' <= r_end r.
Proof.
  intros V SE I. unfold without in I. destruct (touches s e r) eqn:Q; [|destruct I as [<-|[]]; lia]. unfold touches in Q.
  apply in_app_or in I. destruct I as [I|I].
  - destruct (r_start r <? s) eqn:Q2; [|destruct I]. destruct I as [<-|[]]. unfold r_start, r_end in *. cbn [fst snd]. lia.
  - destruct (e <? r_end r) eqn:Q2; [|destruct I]. destruct I as [<-|[]]. unfold r_start, r_end in *. cbn [fst snd]. lia.
Qed.
Lemma without_apart s e r : r_start r < r_end r -> s < e -> Apart (without s e r).
Proof.
  intros V SE. unfold without. destruct (touches s e r) eqn:Q; [|cbn; tauto]. unfold touches in Q. unfold r_start, r_end in *.
  destruct (fst (fst r) <? s) eqn:Q1; destruct (e <? snd (fst r)) eqn:Q2; cbn [app Apart In]; unfold r_start, r_end, apart; cbn [fst snd]; repeat split; try lia; try tauto.
  intros r' [<-|[]]. unfold r_start, r_end. cbn [fst snd]. lia.
Qed.
Lemma after_apart dbg L c : Apart L -> proper dbg L c -> Apart (after L c).
Proof.
  intros A P. destruct c as [s e f|s e|s e]; cbn [after proper] in *.
  - destruct P as (P1 & P2 & P3). split; [unfold r_start, r_end; cbn; lia|]. split; [|exact A]. intros r I. specialize (P3 r I). unfold touches in P3.
    pose proof (apart_in L r A I). unfold apart, r_start, r_end in *. cbn [fst snd]. lia.
  - destruct P as (P1 & P2 & _). clear P2. induction L as [|r L IH]; [exact I|]. destruct A as (A1 & A2 & A3). cbn [flat_map].
    apply apart_app; [apply without_apart; lia|apply IH; auto|]. intros x y Ix Iy. apply in_flat_map in Iy. destruct Iy as (r' & Ir & Iy).
    apply without_in in Ix; [|lia|lia]. apply without_in in Iy; [|apply (apart_in L); auto|lia]. specialize (A2 r' Ir). unfold apart in *. lia.
  - destruct P as (P1 & P2). set (g := fun r : region => if contains r s then (r_start r, e, r_flags r) else r).
    assert (G : forall M, Apart M -> (forall r, In r M -> In r L) -> Apart (map g M)); [|apply G; auto].
    induction M as [|r M IH]; intros AM SM; [exact I|]. destruct AM as (A1 & A2 & A3). cbn [map Apart].
    assert (IR : In r L) by (apply SM; left; auto).
    assert (NE : forall r', In r' M -> r' <> r) by (intros r' I ->; specialize (A2 r I); unfold apart in A2; lia).
    split; [|split; [|apply IH; auto; intros; apply SM; right; auto]].
    + unfold g. destruct (contains r s) eqn:Q; [|exact A1]. destruct (P2 r IR Q) as (B1 & _). unfold r_start, r_end in *. cbn [fst snd]. lia.
    + intros y Iy. apply in_map_iff in Iy. destruct Iy as (r' & <- & I'). pose proof (A2 r' I') as AP. pose proof (NE r' I') as N.
      assert (IR' : In r' L) by (apply SM; right; auto).
      pose proof (apart_in L r' A IR') as V'. unfold g. destruct (contains r s) eqn:Q; destruct (contains r' s) eqn:Q'.
      * unfold contains in Q, Q'. unfold apart in AP. lia.
      * destruct (P2 r IR Q) as (B1 & _ & B2). specialize (B2 r' IR' N). unfold touches in B2. unfold apart, r_start, r_end in *. cbn [fst snd]. lia.
      * destruct (P2 r' IR' Q') as (B1 & _ & B2). specialize (B2 r IR (fun X => N (eq_sym X))). unfold touches in B2. unfold apart, r_start, r_end in *. cbn [fst snd]. lia.
      * exact AP.
Qed.

Lemma one_step dbg h l L c : HInv [] h l -> Shows h l L -> Apart L -> proper dbg L c -> StepOK dbg h L c.
Proof.
  intros H S A P. destruct c as [s e f|s e|s e].
  - eapply add_step; eauto.
  - eapply remove_step; eauto.
  - eapply adjust_step; eauto. intros; apply apart_nodup; exact A.
Qed.
Lemma run_all dbg cs : forall h l L, HInv [] h l -> Shows h l L -> Apart L -> proper_all dbg L cs ->
  exists h' l', run dbg h (map of_change cs) = Ok (h', answers L cs) /\ HInv [] h' l' /\ Shows h' l' (result L cs) /\ Apart (result L cs) /\
    log h' = log h ++ map of_notice (notices L cs).
Proof.
  induction cs as [|c cs IH]; intros h l L H S A P.
  - exists h, l. cbn. rewrite app_nil_r. auto.
  - destruct P as (P1 & P2). destruct (one_step dbg h l L c H S A P1) as (h1 & l1 & E1 & H1 & S1 & G1). pose proof (after_apart dbg L c A P1) as A1.
    destruct (IH h1 l1 (after L c) H1 S1 A1 P2) as (h2 & l2 & E2 & H2 & S2 & A2 & G2). exists h2, l2. cbn [map run]. rewrite E1. cbn [bind]. rewrite E2. cbn [bind].
    split; [reflexivity|]. split; [exact H2|]. split; [exact S2|]. split; [exact A2|]. rewrite G2, G1. cbn [notices]. rewrite map_app, app_assoc. reflexivity.
Qed.

(** * Queries *)
Definition spans (s e : Z) (r : region) : bool := (r_start r <=? s) && (e <=? r_end r).

Record Exact (h : table) (L : list region) : Prop := {
  x_bounds : forall a, heap_region_bounds h a = Ok (find (fun r => contains r a) L);
  x_in : forall a, is_in_heap_region h a = Ok (existsb (fun r => contains r a) L);
  x_flags : forall a, get_heap_region_flags h a = Ok (match find (fun r => contains r a) L with Some r => r_flags r | None => 0 end);
  x_entire : forall s e, s < e -> is_entirely_in_heap_region h s e = Ok (existsb (spans s e) L);
  x_iter : exists S, Permutation S L /\ Apart S /\ (forall r r' a b c, S = a ++ r :: b ++ r' :: c -> r_end r <= r_start r') /\
             heap_region_iterate h = Ok (map (fun r => (r_start r, r_end r, Ok (r_flags r))) S);
  x_payloads : NoDup (freed (tr h)) /\ (forall i, In i (freed (tr h)) -> 0 <= i < next_info h) /\
             next_info h = Z.of_nat (length (freed (tr h))) + Z.of_nat (length L) }.

Lemma find_uniq L a r : Apart L -> In r L -> contains r a = true -> find (fun r => contains r a) L = Some r.
Proof.
  induction L as [|x L IH]; [cbn; tauto|]. intros (A & B & C) [->|I] Q; cbn [find]; [rewrite Q; reflexivity|].
  destruct (contains x a) eqn:Q2; [|auto]. specialize (B r I). unfold apart, contains in *. lia.
Qed.
Lemma find_none_in L a : (forall r, In r L -> contains r a = false) -> find (fun r => contains r a) L = None.
Proof. induction L as [|x L IH]; intros H; cbn [find]; [reflexivity|]. rewrite (H x (or_introl eq_refl)). apply IH. intros; apply H; right; auto. Qed.
Lemma existsb_not {A} (f : A -> bool) L : (forall r, In r L -> f r = false) -> existsb f L = false.
Proof. induction L as [|x L IH]; intros H; cbn [existsb]; [reflexivity|]. rewrite (H x (or_introl eq_refl)). apply IH. intros; apply H; right; auto. Qed.

Lemma in_node_case h l L a : HInv [] h l -> Shows h l L -> Apart L -> exists x, rb_in_node (tr h) a = Ok x /\
  match x with
  | Some x => exists en, Handle (tr h) l x en /\ In en l /\ In (view h en) L /\ find (fun r => contains r a) L = Some (view h en) /\
                existsb (fun r => contains r a) L = true
  | None => find (fun r => contains r a) L = None /\ existsb (fun r => contains r a) L = false
  end.
Proof.
  intros H S A. destruct (idx_in_node (tr h) l a (proj1 H)) as (x & E & Hx). exists x. split; [exact E|]. destruct x as [x|].
  - destruct Hx as (en & Hx & Q). pose proof (handle_in _ _ _ _ Hx) as I. assert (IL : In (view h en) L) by (apply S; eauto).
    exists en. split; [exact Hx|]. split; [exact I|]. split; [exact IL|]. split; [apply find_uniq; auto|]. apply existsb_exists. exists (view h en). auto.
  - assert (N : forall r, In r L -> contains r a = false) by (intros r I; apply S in I; destruct I as (en & I & ->); rewrite contains_view; apply Hx; exact I).
    split; [apply find_none_in|apply existsb_not]; exact N.
Qed.

Lemma walk_all (g : entry -> Z * Z * res Z) l : forall st, walk (fun l en => (l ++ [g en], true)) st l = st ++ map g l.
Proof. induction l as [|e l IH]; intros st; cbn [walk map]; [rewrite app_nil_r; reflexivity|]. rewrite IH, <- app_assoc. reflexivity. Qed.
Lemma view_apart h t l : Idx t l -> Apart (map (view h) l).
Proof.
  intros H. pose proof (idx_asc _ _ H) as A. assert (V : forall e, In e l -> valid e) by (intros; eapply idx_valid; eauto).
  assert (SP : forall e e', In e l -> In e' l -> e_base e < e_base e' -> e_base e + e_size e <= e_base e') by (intros; eapply idx_sep; eauto).
  clear H. induction l as [|e l IH]; [exact I|]. destruct A as (A1 & A2). cbn [map Apart].
  pose proof (V e (or_introl eq_refl)) as Ve. unfold valid in Ve. split; [unfold r_start, r_end; cbn [view fst snd]; lia|]. split.
  - intros r I. apply in_map_iff in I. destruct I as (y & <- & I). left. unfold r_start, r_end. cbn [view fst snd].
    apply SP; [left|right|]; auto.
  - apply IH; auto; intros; [apply V; right; auto|apply SP; auto; right; auto].
Qed.
Lemma view_order h t l r r' a b c : Idx t l -> map (view h) l = a ++ r :: b ++ r' :: c -> r_end r <= r_start r'.
Proof.
  intros H E. pose proof (idx_asc _ _ H) as A. assert (SP : forall e e', In e l -> In e' l -> e_base e < e_base e' -> e_base e + e_size e <= e_base e') by (intros; eapply idx_sep; eauto).
  clear H. revert a E. induction l as [|e l IH]; intros a E; [destruct a; discriminate|]. destruct A as (A1 & A2). destruct a as [|x a]; cbn [map app] in E; injection E as E1 E2.
  - assert (I : In r' (map (view h) l)) by (rewrite E2; apply in_or_app; right; left; auto). apply in_map_iff in I. destruct I as (y & <- & I).
    rewrite <- E1. unfold r_start, r_end. cbn [view fst snd]. apply SP; [left|right|]; auto.
  - apply (IH A2) with (a := a); auto. intros; apply SP; auto; right; auto.
Qed.

Lemma exact_of h l L : HInv [] h l -> Shows h l L -> Apart L -> Exact h L.
Proof.
  intros H S A. assert (RD : forall en, In en l -> read_info h (e_client en) = Ok (flags_of h (e_client en))).
  { intros en I. apply (read_ok [] h l); [exact H|]. apply in_map_iff. eauto. }
  assert (VA : forall en, In en l -> valid en) by (intros en I; eapply idx_valid; [apply H|exact I]).
  assert (PM : Permutation (map (view h) l) L).
  { apply NoDup_Permutation; [apply apart_nodup; eapply view_apart; apply H|apply apart_nodup; exact A|]. intros r. rewrite (S r), in_map_iff. split; intros (en & X & Y); eauto. }
  split.
  - intros a. unfold heap_region_bounds. destruct (in_node_case h l L a H S A) as (x & E & Hx). rewrite E. cbn [bind]. destruct x as [x|].
    + destruct Hx as (en & Hx & I & IL & F & _). rewrite (idx_fields _ _ _ _ Hx), F. specialize (RD en I). specialize (VA en I). destruct en as [[b s] c]. cbn [bind].
      unfold valid in VA. cbn [e_base e_size e_client fst snd] in *. rewrite RD. cbn [bind]. unfold view. cbn [e_base e_size e_client fst snd]. rewrite add64_id by lia. reflexivity.
    + destruct Hx as (F & _). rewrite F. reflexivity.
  - intros a. unfold is_in_heap_region. destruct (in_node_case h l L a H S A) as (x & E & Hx). rewrite E. cbn [bind]. destruct x as [x|].
    + destruct Hx as (en & _ & _ & _ & _ & F). rewrite F. reflexivity.
    + destruct Hx as (_ & F). rewrite F. reflexivity.
  - intros a. unfold get_heap_region_flags. destruct (in_node_case h l L a H S A) as (x & E & Hx). rewrite E. cbn [bind]. destruct x as [x|].
    + destruct Hx as (en & Hx & I & IL & F & _). rewrite (idx_fields _ _ _ _ Hx), F. specialize (RD en I). destruct en as [[b s] c]. cbn [bind]. exact RD.
    + destruct Hx as (F & _). rewrite F. reflexivity.
  - intros s e SE. unfold is_entirely_in_heap_region. destruct (idx_overlaps (tr h) l s e (proj1 H)) as (x & E & Hx). rewrite E. cbn [bind]. destruct x as [x|].
    + destruct Hx as (en & Hx & M). pose proof (handle_in _ _ _ _ Hx) as I. rewrite (idx_fields _ _ _ _ Hx). specialize (VA en I).
      assert (IL : In (view h en) L) by (apply S; eauto).
      assert (G : existsb (spans s e) L = spans s e (view h en)).
      { destruct (spans s e (view h en)) eqn:Q; [apply existsb_exists; eauto|]. apply existsb_not. intros r Ir. destruct (spans s e r) eqn:Q2; [|reflexivity].
        assert (r <> view h en) by (intros ->; congruence). pose proof (apart_two L r (view h en) A Ir IL H0) as AP.
        unfold spans in Q2. unfold meets in M. unfold apart, r_start, r_end, view in AP. unfold r_start, r_end in Q2. cbn [fst snd] in *. lia. }
      rewrite G. destruct en as [[b z] c]. cbn [bind]. unfold spans, view, r_start, r_end. unfold valid in VA. cbn [e_base e_size e_client fst snd] in *. rewrite add64_id by lia. reflexivity.
    + f_equal. symmetry. apply existsb_not. intros r Ir. apply S in Ir. destruct Ir as (en & I & ->). specialize (Hx en I). specialize (VA en I).
      unfold valid in VA. unfold meets in Hx. unfold spans, view, r_start, r_end. cbn [fst snd]. lia.
  - exists (map (view h) l). split; [exact PM|]. split; [eapply view_apart; apply H|]. split; [intros r r' a b c E; apply (view_order h (tr h) l r r' a b c (proj1 H) E)|].
    unfold heap_region_iterate. rewrite (idx_iterate _ _ l [] (proj1 H)).
    rewrite (walk_all (fun en => (fst (fst en), add64 (fst (fst en)) (snd (fst en)), read_info h (snd en)))). cbn [app]. f_equal. rewrite map_map. apply map_ext_in.
    intros en I. specialize (RD en I). specialize (VA en I). destruct en as [[b z] c]. unfold view, r_start, r_end, r_flags. unfold valid in VA. cbn [e_base e_size e_client fst snd] in *.
    rewrite RD. rewrite add64_id by lia. reflexivity.
  - destruct H as (H1 & (N0 & N & B)). cbn [app] in N, B. assert (ND : NoDup (freed (tr h))).
    { clear - N. induction (map e_client l) as [|x m IH]; [exact N|]. inversion N; auto. }
    split; [exact ND|]. split; [intros i I; apply B; apply in_or_app; auto|].
    rewrite <- (Permutation_length PM), map_length.
    assert (LE : length (map e_client l ++ freed (tr h)) = Z.to_nat (next_info h)).
    { rewrite <- (seq_length (Z.to_nat (next_info h)) 0). rewrite <- (map_length Z.of_nat (seq 0 _)). apply Permutation_length. apply NoDup_Permutation; [exact N| |].
      - apply FinFun.Injective_map_NoDup; [intros x y Q; lia|apply seq_NoDup].
      - intros i. rewrite B, in_map_iff. split; [intros Q; exists (Z.to_nat i); split; [lia|apply in_seq; lia]|intros (k & <- & Q); apply in_seq in Q; lia]. }
    rewrite app_length, map_length in LE. lia.
Qed.

Theorem region_history dbg cs : proper_all dbg [] cs ->
  exists h, run dbg heap_region_init (map of_change cs) = Ok (h, answers [] cs) /\ Exact h (result [] cs) /\
    log h = map of_notice (notices [] cs).
Proof.
  intros P. destruct (run_all dbg cs heap_region_init [] []) as (h & l & E & H & S & A & G).
  - split; [apply idx_create|]. split; [reflexivity|]. split; [constructor|]. cbn. intros i. lia.
  - intros r. cbn. split; [tauto|intros (en & [] & _)].
  - exact I.
  - exact P.
  - exists h. split; [exact E|]. split; [eapply exact_of; eauto|exact G].
Qed.
