(** Proofs about system calls of unknown parameters: whole calls. *)
From Verif Require Import Base Sysunk_Model Sysunk_Spec Sysunk_Proofs Sysunk_Proofs2.
Local Open Scope Z_scope.

Lemma call_eq o wr ps olds shd m w ok :
  call o wr ps olds shd m w ok =
  let l := fst (pre_walk o shd wr [] ps olds m) in
  let m2 := kernel w (snd (pre_walk o shd wr [] ps olds m)) in
  let r := if ok then look_all o l m2 shd else ([], shd) in
  Outcome l (fst r) (snd r) (restore_all o (snd r) wr l m2).
Proof.
  unfold call. destruct (pre_walk o shd wr [] ps olds m) as [l m1]. cbn [fst snd].
  destruct (if ok then look_all o l (kernel w m1) shd else ([], shd)). reflexivity.
Qed.

Lemma kernel_sound shd w m : sound shd m -> sound shd (kernel w m).
Proof. intros S a A. unfold kernel. destruct (w a); [discriminate|now apply S]. Qed.

Lemma win_reaches shd m p s a : good shd m p s -> win s a -> reaches shd p a.
Proof.
  intros (PT & E & B & _ & G) W. split; auto. destruct W as [N W]. rewrite E in *.
  split; [lia|]. intros x X. apply G. split; [congruence|]. lia.
Qed.

(** ** Without sentinels *)

Lemma untouched o wr ps olds shd m w ok :
  sentinels o = false ->
  mem_end (call o wr ps olds shd m w ok) = kernel w m.
Proof.
  intros S. rewrite call_eq. cbn. rewrite restore_all_plain by auto.
  destruct (pre_plain o shd wr ps S [] olds m) as [-> _]. reflexivity.
Qed.

Definition changed (m : memory) (w : Z -> option Z) (a : Z) : Prop :=
  exists v, w a = Some v /\ m a <> Some v.

Lemma plain_marks o wr ps olds shd m w :
  sentinels o = false -> sound shd m ->
  let c := call o wr ps olds shd m w true in
  marks o (fun x => shd x = Undef /\ changed m w x /\ exists s, In s (slots c) /\ win s x)
        shd (shd_end c).
Proof.
  intros S SO. rewrite call_eq. cbn [shd_end slots fst snd].
  destruct (pre_plain o shd wr ps S [] olds m) as [E G]. rewrite E.
  set (l := fst (pre_walk o shd wr [] ps olds m)) in *.
  eapply marks_mono; [|apply look_all_marks].
  - intros x. unfold taken, changed, kernel. split.
    + intros (U & s & q & I & W & MQ & WR). split; auto.
      destruct (G s I) as [Z0|(p & IP & GP)]; [destruct W; contradiction|].
      destruct GP as (_ & _ & _ & _ & GP). destruct (GP x W) as [_ MX].
      unfold written in WR. rewrite S in WR. apply negb_true_iff, Z.eqb_neq in WR.
      split; [|eauto]. destruct (w x) as [v|]; [|congruence].
      injection MQ as ->. exists q. split; auto. congruence.
    + intros (U & (v & WV & MX) & s & I & W). split; auto. exists s, v. rewrite WV.
      repeat split; auto; try apply W.
      destruct (G s I) as [Z0|(p & IP & GP)]; [destruct W; contradiction|].
      destruct GP as (_ & _ & _ & _ & GP). destruct (GP x W) as [_ MX'].
      unfold written. rewrite S. apply negb_true_iff, Z.eqb_neq. congruence.
  - intros s I. destruct (G s I) as [Z0|(p & IP & GP)]; auto. right.
    destruct GP as (_ & _ & B & L & GP). repeat split; auto; [lia|].
    intros x W. apply (kernel_sound shd w m SO x). now apply GP.
Qed.

Lemma plain_only o wr ps olds shd m w ok a :
  sentinels o = false -> sound shd m ->
  let c := call o wr ps olds shd m w ok in
  shd_end c a <> shd a ->
  ok = true /\ shd a = Undef /\ shd_end c a = Def /\
  exists p pc, In p ps /\ reaches shd p pc /\ shd pc = Undef /\ changed m w pc /\ together o a pc.
Proof.
  intros S SO c D. destruct ok; [|unfold c in D; rewrite call_eq in D; cbn in D; congruence].
  destruct (plain_marks o wr ps olds shd m w S SO a) as [[E _]|(E & A & pc & (U & CH & s & I & W) & T)].
  { unfold c in D. congruence. }
  fold c in E, I. repeat split; auto.
  { destruct (shd a); auto; [discriminate|congruence]. }
  unfold c in I. rewrite call_eq in I. cbn [slots] in I.
  destruct (pre_plain o shd wr ps S [] olds m) as [_ G].
  destruct (G s I) as [Z0|(p & IP & GP)]; [destruct W; contradiction|].
  exists p, pc. split; auto. split; [eapply win_reaches; eauto|]. auto.
Qed.

Lemma plain_all o wr ps olds shd m w p pc a :
  sentinels o = false -> sound shd m -> left_over olds ->
  List.length ps = List.length olds -> apart shd ps ->
  In p ps -> reaches shd p pc -> shd pc = Undef -> changed m w pc ->
  together o a pc -> is_addr (shd a) = true ->
  shd_end (call o wr ps olds shd m w true) a = Def.
Proof.
  intros S SO LO LN AP I R U CH T A.
  destruct (plain_marks o wr ps olds shd m w S SO a) as [[_ E]|(E & _)]; auto.
  exfalso. apply (E A pc); auto. repeat split; auto.
  destruct (reached o shd wr ps olds m p pc) as (s & IS & W); auto.
  exists s. split; auto. rewrite call_eq. exact IS.
Qed.

(** ** With sentinels *)

Lemma pre_arg_mem o shd wr prevs p old m :
  sentinels o = true ->
  (points shd p /\
   snd (pre_arg o shd wr prevs p old m) =
   plant shd wr (p_val p) (Z.to_nat (sz (fst (pre_arg o shd wr prevs p old m)))) m) \/
  (~ points shd p /\ snd (pre_arg o shd wr prevs p old m) = m).
Proof.
  intros S. unfold pre_arg.
  destruct (p_def p && (p_val p mod 4 =? 0) && is_addr (shd (p_val p))) eqn:P.
  2: { right. split; auto. intros (Q1 & Q2 & Q3). rewrite Q1, Q2, Q3 in P. discriminate. }
  left. cbn [fst snd]. rewrite S. split; auto.
  apply andb_prop in P as [P P3]. apply andb_prop in P as [P1 P2]. apply Z.eqb_eq in P2.
  repeat split; auto.
Qed.

(** What the copies and the memory have to do with the memory m0 before. *)
Definition held (shd : shadow) (m0 : memory) (l : list slot) (m : memory) : Prop :=
  (forall s a, In s l -> win s a ->
     is_addr (shd a) = true /\ List.length (val s) = Z.to_nat (sz s) /\ 0 <= sz s /\
     (m0 a = Some (at_ s a) \/ (at_ s a = SENTINEL /\ shd a = Undef))) /\
  (forall a, m a = m0 a \/
     (m a = Some SENTINEL /\ shd a = Undef /\
      exists s, In s l /\ win s a /\ m0 a = Some (at_ s a))) /\
  (forall s a, In s l -> win s a -> shd a = Undef -> m a = Some SENTINEL).

Lemma held_step o shd wr prevs p old m m0 :
  sentinels o = true ->
  (forall a, reaches shd p a -> shd a = Undef -> wr a = true) ->
  (points shd p -> ptr (fst (pre_arg o shd wr prevs p old m)) = p_val p) ->
  (points shd p -> p_val p <> 0) ->
  held shd m0 prevs m ->
  held shd m0 (prevs ++ [fst (pre_arg o shd wr prevs p old m)])
       (snd (pre_arg o shd wr prevs p old m)).
Proof.
  intros SE WR PP NZ (H1 & H2 & H3).
  destruct (pre_arg_good o shd wr prevs p old m) as (G & _ & _). cbn zeta in G.
  pose proof (pre_arg_mem o shd wr prevs p old m SE) as M.
  set (s := fst (pre_arg o shd wr prevs p old m)) in *.
  set (m' := snd (pre_arg o shd wr prevs p old m)) in *. clearbody s m'.
  destruct G as [P0|G].
  { assert (NW : forall a, ~ win s a) by (intros a [X _]; contradiction).
    assert (E : m' = m).
    { destruct M as [[PT _]|[_ M]]; auto. specialize (PP PT). specialize (NZ PT). congruence. }
    rewrite E. split; [|split].
    - intros s0 a I W. apply in_app_or in I as [I|[<-|[]]]; [now apply (H1 s0 a)|destruct (NW a W)].
    - intros a. destruct (H2 a) as [|(X & Y & s1 & I & W)]; auto.
      right. repeat split; auto. exists s1. split; auto using in_or_app.
    - intros s1 a I W U. apply in_app_or in I as [I|[<-|[]]]; [eapply H3; eauto|destruct (NW a W)]. }
  assert (RW : forall a, win s a -> reaches shd p a) by (intros; eapply win_reaches; eauto).
  destruct G as (PT & PE & B & L & GV).
  assert (N0 : ptr s <> 0) by (rewrite PE; auto).
  destruct M as [[_ M]|[X _]]; [|contradiction].
  assert (ML : forall a, m' a = m a \/ (m' a = Some SENTINEL /\ shd a = Undef /\ win s a)).
  { intros a. rewrite M.
    destruct (plant_le shd wr (Z.to_nat (sz s)) (p_val p) m a) as [X|(X & Y & Z1)]; auto.
    right. split; auto. split; auto. split; auto. lia. }
  assert (MA : forall a, win s a -> shd a = Undef -> m' a = Some SENTINEL).
  { intros a W U. rewrite M. apply plant_all; auto.
    - intros y Y. apply WR. apply RW. split; auto. lia.
    - destruct W. lia. }
  split; [|split].
  - intros s0 a I W. apply in_app_or in I as [I|[<-|[]]]; [now apply (H1 s0 a)|].
    destruct (GV a W) as [A V]. split; auto. split; auto. split; [lia|].
    destruct (H2 a) as [E|(E & U & _)]; [left; congruence|right].
    split; auto. congruence.
  - intros a. destruct (ML a) as [E|(E & U & W)].
    + rewrite E. destruct (H2 a) as [|(X & Y & s1 & I & W)]; auto.
      right. repeat split; auto. exists s1. split; auto using in_or_app.
    + right. split; auto. split; auto. destruct (GV a W) as [_ V].
      destruct (H2 a) as [E0|(_ & _ & s1 & I & W1)].
      * exists s. split; [apply in_or_app; right; left; auto|]. split; auto. congruence.
      * exists s1. split; auto using in_or_app.
  - intros s1 a I W U. apply in_app_or in I as [I|[<-|[]]]; [|auto].
    destruct (ML a) as [->|(-> & _)]; auto. eapply H3; eauto.
Qed.

Lemma apart_at shd p ps : apart shd ps -> In p ps -> points shd p -> 2048 <= p_val p.
Proof.
  induction ps as [|q ps IH]; intros A I PT; [contradiction|]. destruct A as [A1 A2].
  destruct I as [->|I]; auto. now apply A1.
Qed.

Lemma pre_held o shd wr m0 ps : sentinels o = true -> forall prevs olds m,
  (forall p a, In p ps -> reaches shd p a -> shd a = Undef -> wr a = true) ->
  sound shd m -> bounded prevs -> left_over olds -> List.length ps = List.length olds ->
  apart shd ps ->
  (forall s p, In s prevs -> In p ps -> points shd p -> ptr s <> 0 -> ptr s < p_val p ->
     ptr s + 2048 <= p_val p) ->
  closed shd prevs -> held shd m0 prevs m ->
  let r := pre_walk o shd wr prevs ps olds m in
  held shd m0 (prevs ++ fst r) (snd r) /\ sound shd (snd r).
Proof.
  intros SE. induction ps as [|p ps IH]; intros prevs olds m WR SO BO LO LN AP CR CL HD; cbn zeta.
  { cbn. rewrite app_nil_r. auto. }
  destruct olds as [|old olds]; [discriminate|].
  inversion LO as [|? ? O1 O2]; subst. destruct AP as [A1 A2].
  rewrite pre_walk_cons. cbn zeta. cbn [fst snd].
  set (s := fst (pre_arg o shd wr prevs p old m)).
  destruct (pre_arg_covers o shd wr prevs p old m) as (C1 & C2 & C3); auto.
  { intros PT. destruct (A1 PT) as [X Y]. split; auto.
    intros s' I N L. apply CR; auto. left; auto. }
  fold s in C1, C2, C3.
  destruct (pre_arg_good o shd wr prevs p old m) as (_ & G & _). cbn zeta in G. fold s in G.
  destruct (IH (prevs ++ [s]) olds (snd (pre_arg o shd wr prevs p old m))) as [I1 I2]; auto.
  - intros q a I. apply WR. right. auto.
  - now apply pre_arg_sound.
  - apply Forall_app. split; auto.
  - intros s' q I Q PQ N L. apply in_app_or in I as [I|[<-|[]]].
    + apply CR; auto. right; auto.
    + destruct C3 as [C3|[C3 PT]]; [congruence|]. rewrite C3 in *.
      destruct (A1 PT) as [_ Y]. apply Y; auto.
  - apply held_step; auto.
    + intros a. apply WR. left. auto.
    + intros PT. destruct (A1 PT). lia.
  - rewrite <- app_assoc in I1. cbn [app] in I1. auto.
Qed.

Lemma start_held o shd wr ps olds m :
  sentinels o = true ->
  (forall p a, In p ps -> reaches shd p a -> shd a = Undef -> wr a = true) ->
  sound shd m -> left_over olds -> List.length ps = List.length olds -> apart shd ps ->
  let r := pre_walk o shd wr [] ps olds m in
  held shd m (fst r) (snd r) /\ sound shd (snd r).
Proof.
  intros SE WR SO LO LN AP. apply (pre_held o shd wr m ps SE [] olds m); auto.
  - constructor.
  - contradiction.
  - intros s a [].
  - split; [|split]; auto; intros s a [].
Qed.

(** One slot restored, seen at one byte. *)
Definition back (o : options) (shd : shadow) (wr : Z -> bool) (s : slot) (m : memory) : memory :=
  if ptr s =? 0 then m
  else match read m (ptr s) (Z.to_nat (sz s)) with
       | Some post => restore o shd wr (ptr s) (val s) post m
       | None => m
       end.

Lemma restore_all_cons o shd wr s l m :
  restore_all o shd wr (s :: l) m = restore_all o shd wr l (back o shd wr s m).
Proof. reflexivity. Qed.

Lemma restore_slot o shd wr s m a :
  sentinels o = true ->
  (forall x, win s x -> m x <> None /\ List.length (val s) = Z.to_nat (sz s) /\ 0 <= sz s) ->
  let m' := back o shd wr s m in
  (win s a /\ shd a = Undef /\ m a = Some SENTINEL /\ at_ s a <> SENTINEL /\ wr a = true /\
   m' a = Some (at_ s a)) \/
  (m' a = m a /\
   (win s a -> shd a = Undef -> m a = Some SENTINEL -> wr a = true -> at_ s a = SENTINEL)).
Proof.
  intros SE RD. cbn zeta. unfold back. destruct (Z.eqb_spec (ptr s) 0) as [P0|P0].
  { right. split; auto. intros [X _]. contradiction. }
  destruct (Z.le_gt_cases (sz s) 0) as [ZL|ZG].
  { right. replace (Z.to_nat (sz s)) with 0%nat by lia. cbn [read].
    split; [destruct (val s); reflexivity|]. intros [_ X]. lia. }
  destruct (RD (ptr s)) as (_ & L & Z0); [split; auto; lia|].
  destruct (read_some m (Z.to_nat (sz s)) (ptr s)) as [post R].
  { intros x X. apply RD. split; auto. lia. }
  rewrite R. destruct (read_ok _ _ _ _ R) as [L1 R1].
  rewrite (restore_at o shd wr SE (val s) post) by congruence.
  rewrite L. rewrite Z2Nat.id by lia.
  destruct (Z.leb_spec (ptr s) a) as [B1|B1]; cbn [andb].
  2: { right. split; auto. intros [_ X]. lia. }
  destruct (Z.ltb_spec a (ptr s + sz s)) as [B2|B2]; cbn [andb].
  2: { right. split; auto. intros [_ X]. lia. }
  assert (MA : m a = Some (nth (Z.to_nat (a - ptr s)) post 0)).
  { rewrite <- R1 by lia. f_equal. lia. }
  rewrite MA. fold (at_ s a).
  destruct (shd a) eqn:U; cbn [is_undef andb].
  - right. split; auto. discriminate.
  - destruct (Z.eqb_spec (nth (Z.to_nat (a - ptr s)) post 0) SENTINEL) as [E|E]; cbn [andb].
    + destruct (Z.eqb_spec (at_ s a) SENTINEL) as [V|V]; cbn [andb negb].
      * right. auto.
      * destruct (wr a) eqn:W.
        -- left. rewrite E. repeat split; auto.
        -- right. split; auto. discriminate.
    + right. split; auto. congruence.
  - right. split; auto. discriminate.
Qed.

Lemma restored o shd shd' wr m0 a v : sentinels o = true -> forall l m,
  (forall s x, In s l -> win s x ->
     is_addr (shd x) = true /\ List.length (val s) = Z.to_nat (sz s) /\ 0 <= sz s) ->
  (forall s, In s l -> win s a -> m0 a = Some (at_ s a) \/ at_ s a = SENTINEL) ->
  sound shd m -> m0 a = Some v ->
  m a = Some v \/ (m a = Some SENTINEL /\ shd' a = Undef /\ wr a = true /\
                   exists s, In s l /\ win s a /\ m0 a = Some (at_ s a)) ->
  restore_all o shd' wr l m a = Some v.
Proof.
  intros SE. induction l as [|s l IH]; intros m G V SO MV H.
  { cbn. destruct H as [|(_ & _ & _ & s & [] & _)]; auto. }
  assert (RD : forall x, win s x -> m x <> None /\ List.length (val s) = Z.to_nat (sz s) /\ 0 <= sz s).
  { intros x W. destruct (G s x (or_introl eq_refl) W) as (A & B & C). auto. }
  pose proof (fun x => restore_slot o shd' wr s m x SE RD) as RS. cbn zeta in RS.
  rewrite restore_all_cons. remember (back o shd' wr s m) as m' eqn:EM. clear EM.
  apply IH; auto.
  - intros s0 x I. apply G. right. auto.
  - intros s0 I. apply V. right. auto.
  - intros x A. destruct (RS x) as [(_ & _ & _ & _ & _ & ->)|[-> _]]; [discriminate|now apply SO].
  - destruct (RS a) as [(W & U & MS & N & WA & E)|[E N]].
    + left. rewrite E. destruct (V s (or_introl eq_refl) W) as [X|X]; congruence.
    + rewrite E. destruct H as [H|(H1 & H2 & H3 & s0 & [<-|I] & W & X)]; auto.
      * left. specialize (N W H2 H1 H3). congruence.
      * right. repeat split; auto. exists s0. auto.
Qed.

(** A byte that does not hold the sentinel, or is not undefined, is left. *)
Lemma restore_other o shd shd' wr a : sentinels o = true -> forall l m,
  (forall s x, In s l -> win s x ->
     is_addr (shd x) = true /\ List.length (val s) = Z.to_nat (sz s) /\ 0 <= sz s) ->
  sound shd m -> (shd' a = Undef -> m a = Some SENTINEL ->
                  forall s, In s l -> win s a -> at_ s a = SENTINEL) ->
  restore_all o shd' wr l m a = m a.
Proof.
  intros SE. induction l as [|s l IH]; intros m G SO H; [reflexivity|].
  assert (RD : forall x, win s x -> m x <> None /\ List.length (val s) = Z.to_nat (sz s) /\ 0 <= sz s).
  { intros x W. destruct (G s x (or_introl eq_refl) W) as (A & B & C). auto. }
  pose proof (fun x => restore_slot o shd' wr s m x SE RD) as RS. cbn zeta in RS.
  rewrite restore_all_cons. remember (back o shd' wr s m) as m' eqn:EM. clear EM.
  assert (E : m' a = m a).
  { destruct (RS a) as [(W & U & MS & N & _)|[E _]]; auto.
    destruct N. apply H; auto. left. auto. }
  rewrite <- E. apply IH.
  - intros s0 x I. apply G. right. auto.
  - intros x A. destruct (RS x) as [(_ & _ & _ & _ & _ & ->)|[-> _]]; [discriminate|now apply SO].
  - rewrite E. intros U MS s0 I. apply H; auto. right. auto.
Qed.

(** ** Calls with sentinels *)
Section Sentinels.
Variables (o : options) (wr : Z -> bool) (ps : list param) (olds : list slot)
  (shd : shadow) (m : memory) (w : Z -> option Z) (ok : bool).
Hypothesis SE : sentinels o = true.
Hypothesis DW : dword o = false.
Hypothesis WR : forall p a, In p ps -> reaches shd p a -> shd a = Undef -> wr a = true.
Hypothesis SO : sound shd m.
Hypothesis LO : left_over olds.
Hypothesis LN : List.length ps = List.length olds.
Hypothesis AP : apart shd ps.
Hypothesis KW : forall a, shd a = Undef -> w a <> Some SENTINEL.

Let c := call o wr ps olds shd m w ok.
Let l := fst (pre_walk o shd wr [] ps olds m).
Let m1 := snd (pre_walk o shd wr [] ps olds m).

Lemma sent_good s x : In s l -> win s x ->
  is_addr (shd x) = true /\ List.length (val s) = Z.to_nat (sz s) /\ 0 <= sz s.
Proof.
  destruct (start_held o shd wr ps olds m) as [(H1 & _) _]; auto. fold l in H1.
  intros I W. destruct (H1 s x I W) as (A & B & C & _). auto.
Qed.

Lemma pre_shape : forall ps0 prevs olds0 m' s,
  In s (fst (pre_walk o shd wr prevs ps0 olds0 m')) ->
  ptr s = 0 \/ exists p m2, In p ps0 /\ good shd m2 p s.
Proof.
  induction ps0 as [|p ps0 IH]; intros prevs olds0 m' s I; [contradiction|].
  destruct olds0 as [|old olds0]; [contradiction|].
  rewrite pre_walk_cons in I. cbn zeta in I. cbn [fst] in I. destruct I as [<-|I].
  - destruct (pre_arg_good o shd wr prevs p old m') as (G & _ & _).
    destruct G; auto. right. exists p, m'. split; auto. left. auto.
  - destruct (IH _ _ _ _ I) as [|(q & m2 & Q & G)]; auto. right. exists q, m2. split; auto. right. auto.
Qed.

Lemma sent_sound : sound shd (kernel w m1).
Proof.
  destruct (start_held o shd wr ps olds m) as [_ S1]; auto. fold m1 in S1.
  now apply kernel_sound.
Qed.

Lemma sent_marks : ok = true -> marks o (taken o (kernel w m1) shd l) shd (shd_end c).
Proof.
  intros OK. unfold c. rewrite call_eq. rewrite OK. cbn [shd_end]. apply look_all_marks.
  intros s I. destruct (pre_shape _ _ _ _ _ I) as [|(p & m2 & IP & _ & _ & B & L & G)]; auto.
  right. split; [lia|]. split; auto. intros x W. apply sent_sound. now apply G.
Qed.

Lemma sent_taken x : taken o (kernel w m1) shd l x <->
  shd x = Undef /\ (exists v, w x = Some v) /\ exists p, In p ps /\ reaches shd p x.
Proof.
  destruct (start_held o shd wr ps olds m) as [(H1 & H2 & H3) S1]; auto.
  fold l m1 in H1, H2, H3, S1.
  unfold taken, written, kernel. rewrite SE. split.
  - intros (U & s & q & I & W & MQ & WR0). split; auto. split.
    + destruct (w x) as [v|]; [eauto|]. rewrite (H3 s x I W U) in MQ. injection MQ as <-.
      rewrite Z.eqb_refl in WR0. discriminate.
    + destruct (pre_shape _ _ _ _ _ I) as [X|(p & m2 & IP & G)]; [destruct W; contradiction|].
      exists p. split; auto. eapply win_reaches; eauto.
  - intros (U & (v & V) & p & IP & R). split; auto.
    destruct (reached o shd wr ps olds m p x) as (s & I & W); auto.
    exists s, v. rewrite V. repeat split; auto; try apply W.
    apply negb_true_iff, Z.eqb_neq. intros ->. now apply (KW x U).
Qed.

Lemma sent_shadow a : shd_end c a <> shd a <->
  ok = true /\ shd a = Undef /\ (exists v, w a = Some v) /\ exists p, In p ps /\ reaches shd p a.
Proof.
  destruct (Bool.bool_dec ok true) as [OK|OK].
  2: { split; [|tauto]. unfold c. rewrite call_eq. apply not_true_is_false in OK. rewrite OK.
       cbn [shd_end snd]. congruence. }
  destruct (sent_marks OK a) as [[E N]|(E & A & pc & T & TG)].
  - split; [congruence|]. intros (_ & H). exfalso. apply sent_taken in H as H'.
    apply (N (f_equal is_addr (proj1 H)) a); auto using together_refl.
  - unfold together in TG. rewrite DW in TG. subst pc. apply sent_taken in T as T'.
    split; [tauto|]. intros _. destruct T' as [U _]. rewrite E, U. discriminate.
Qed.

Lemma sent_shadow_def a : shd_end c a <> shd a -> shd_end c a = Def.
Proof.
  intros H. apply sent_shadow in H as H'. destruct H' as (OK & U & _).
  destruct (sent_marks OK a) as [[E _]|(E & _)]; auto. contradiction.
Qed.

Lemma sent_mem a : mem_end c a = kernel w m a.
Proof.
  destruct (start_held o shd wr ps olds m) as [(H1 & H2 & H3) S1]; auto.
  fold l m1 in H1, H2, H3, S1.
  assert (E : mem_end c = restore_all o (shd_end c) wr l (kernel w m1)).
  { unfold c. rewrite call_eq. reflexivity. }
  rewrite E.
  assert (NR : forall x, shd_end c x = Undef -> shd x = Undef).
  { intros x X. destruct (shd x) eqn:D; auto;
      (assert (Y : shd_end c x <> shd x) by congruence; apply sent_shadow_def in Y; congruence). }
  destruct (w a) as [v|] eqn:V.
  - (* written by the kernel *)
    assert (K : forall m', kernel w m' a = Some v) by (intros; unfold kernel; now rewrite V).
    rewrite K. rewrite <- (K m1). apply (restore_other o shd); auto using sent_good, sent_sound.
    rewrite K. intros U X. injection X as ->. destruct (KW a); auto.
  - assert (K : forall m', kernel w m' a = m' a) by (intros; unfold kernel; now rewrite V).
    rewrite K. destruct (m a) as [v|] eqn:MV.
    + apply (restored o shd (shd_end c) wr m a v SE); auto using sent_good, sent_sound.
      * intros s I W. destruct (H1 s a I W) as (_ & _ & _ & [X|[X _]]); auto.
      * rewrite K. destruct (H2 a) as [X|(X & U & s & I & W & Y)]; [left; congruence|].
        right. split; auto.
        assert (KEEP : shd_end c a = shd a).
        { destruct (shd_end c a) eqn:D; destruct (shd a) eqn:D'; auto; exfalso;
            (assert (Z0 : shd_end c a <> shd a) by congruence;
             apply sent_shadow in Z0 as (_ & _ & (v0 & V0) & _); congruence). }
        split; [congruence|]. split; [|eauto].
        destruct (pre_shape _ _ _ _ _ I) as [N|(p & m2 & IP & G)]; [destruct W; contradiction|].
        apply (WR p); auto. eapply win_reaches; eauto.
    + destruct (H2 a) as [X|(X & U & _)].
      2: { exfalso. apply (SO a); auto. now rewrite U. }
      assert (KM : kernel w m1 a = None) by (rewrite K; congruence).
      rewrite <- KM. apply (restore_other o shd); auto using sent_good, sent_sound.
      rewrite KM. discriminate.
Qed.
End Sentinels.
