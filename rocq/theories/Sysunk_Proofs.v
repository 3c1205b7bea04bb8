(** Proofs about system calls of unknown parameters. *)
From Verif Require Import Base Sysunk_Model Sysunk_Spec.
Local Open Scope Z_scope.

(** ** Memory *)

Lemma read_ok m : forall n a l, read m a n = Some l ->
  List.length l = n /\ forall k, (k < n)%nat -> m (a + Z.of_nat k) = Some (nth k l 0).
Proof.
  induction n as [|n IH]; intros a l E; cbn [read] in E.
  { injection E as <-. split; auto. intros. lia. }
  destruct (m a) as [b|] eqn:B; [|discriminate].
  destruct (read m (a + 1) n) as [l'|] eqn:R; [|discriminate]. injection E as <-.
  destruct (IH _ _ R) as [L H]. split; [cbn; auto|].
  intros [|k] K; cbn [nth]; [rewrite Z.add_0_r; auto|].
  replace (a + Z.of_nat (S k)) with (a + 1 + Z.of_nat k) by lia. apply H. lia.
Qed.

Lemma read_some m : forall n a,
  (forall x, a <= x < a + Z.of_nat n -> m x <> None) -> exists l, read m a n = Some l.
Proof.
  induction n as [|n IH]; intros a H; cbn [read]; [eauto|].
  destruct (m a) as [b|] eqn:B; [|exfalso; apply (H a); auto; lia].
  destruct (IH (a + 1)) as [l ->]; [|eauto]. intros x X. apply H. lia.
Qed.

Definition win (s : slot) (a : Z) : Prop := ptr s <> 0 /\ ptr s <= a < ptr s + sz s.
Definition at_ (s : slot) (a : Z) : Z := nth (Z.to_nat (a - ptr s)) (val s) 0.

Lemma max_n : Z.of_nat (Z.to_nat MAX_SZ) = 2048.
Proof. rewrite Z2Nat.id; unfold MAX_SZ; lia. Qed.

Strategy opaque [extent].

Lemma extent_ok shd prevs start n : forall j e, extent shd prevs start n j = e ->
  j <= e <= j + Z.of_nat n /\
  (forall x, j <= x < e -> overlaps prevs start x = false /\ is_addr (shd (start + x)) = true) /\
  (e = j + Z.of_nat n \/ overlaps prevs start e = true \/ is_addr (shd (start + e)) = false).
Proof.
  induction n as [|n IH]; intros j e E; cbn [extent] in E.
  { subst. repeat split; try lia. }
  destruct (overlaps prevs start j) eqn:O; cbn [orb] in E.
  { subst. repeat split; try lia; auto. }
  destruct (is_addr (shd (start + j))) eqn:A; cbn [negb] in E.
  2: { subst. repeat split; try lia; auto. }
  destruct (IH _ _ E) as (B & C & D). split; [lia|]. split.
  - intros x X. destruct (Z.eq_dec x j) as [->|N]; [auto|apply C; lia].
  - destruct D as [D|D]; [left; lia|right; auto].
Qed.

Lemma plant_le shd wr n : forall a m x,
  plant shd wr a n m x = m x \/
  (plant shd wr a n m x = Some SENTINEL /\ shd x = Undef /\ a <= x < a + Z.of_nat n).
Proof.
  induction n as [|n IH]; intros a m x; cbn [plant]; auto.
  destruct (is_undef (shd a)) eqn:U.
  - destruct (wr a); auto.
    destruct (IH (a + 1) (upd m a SENTINEL) x) as [E|(E & U1 & R)].
    + rewrite E. unfold upd. destruct (Z.eqb_spec x a) as [->|N]; auto.
      right. repeat split; auto; try lia. now destruct (shd a).
    + right. repeat split; auto; lia.
  - destruct (IH (a + 1) m x) as [E|(E & U1 & R)]; auto. right. repeat split; auto; lia.
Qed.

Lemma plant_all shd wr n : forall a m x,
  (forall y, a <= y < a + Z.of_nat n -> shd y = Undef -> wr y = true) ->
  a <= x < a + Z.of_nat n -> shd x = Undef ->
  plant shd wr a n m x = Some SENTINEL.
Proof.
  induction n as [|n IH]; intros a m x W R U; [lia|]. cbn [plant].
  destruct (Z.eq_dec x a) as [->|N].
  - rewrite U. cbn [is_undef]. rewrite W by (auto; lia).
    destruct (plant_le shd wr n (a + 1) (upd m a SENTINEL) a) as [->|(-> & _)]; auto.
    unfold upd. now rewrite Z.eqb_refl.
  - assert (IH' : forall m, plant shd wr (a + 1) n m x = Some SENTINEL).
    { intros m'. apply IH; auto; [|lia]. intros y Y. apply W. lia. }
    destruct (is_undef (shd a)) eqn:UA; auto. rewrite W; auto; [lia|].
    now destruct (shd a).
Qed.

(** ** Before the call *)

Lemma pre_walk_cons o shd wr prevs p ps old olds m :
  pre_walk o shd wr prevs (p :: ps) (old :: olds) m =
  let r := pre_arg o shd wr prevs p old m in
  let q := pre_walk o shd wr (prevs ++ [fst r]) ps olds (snd r) in
  (fst r :: fst q, snd q).
Proof. cbn [pre_walk]. destruct (pre_arg _ _ _ _ _ _ _), (pre_walk _ _ _ _ _ _ _). reflexivity. Qed.

(** What a slot in use says. *)
Definition good (shd : shadow) (m : memory) (p : param) (s : slot) : Prop :=
  points shd p /\ ptr s = p_val p /\ 0 < sz s <= 2048 /\
  List.length (val s) = Z.to_nat (sz s) /\
  (forall a, win s a -> is_addr (shd a) = true /\ m a = Some (at_ s a)).

Lemma pre_arg_good o shd wr prevs p old m :
  let r := pre_arg o shd wr prevs p old m in
  (ptr (fst r) = 0 \/ good shd m p (fst r)) /\
  (0 <= sz old <= 2048 -> 0 <= sz (fst r) <= 2048) /\
  (sentinels o = false -> snd r = m).
Proof.
  unfold pre_arg. destruct (p_def p && (p_val p mod 4 =? 0) && is_addr (shd (p_val p))) eqn:P.
  2: { cbn. auto. }
  apply andb_prop in P as [P P3]. apply andb_prop in P as [P1 P2]. apply Z.eqb_eq in P2.
  remember (extent shd prevs (p_val p) (Z.to_nat MAX_SZ) 0) as j eqn:EJ. symmetry in EJ.
  apply extent_ok in EJ as (B & C & _). rewrite max_n in B.
  cbn [fst snd].
  split; [|split; [|intros ->; auto]].
  - destruct (Z.ltb_spec 0 j); [|cbn; auto].
    destruct (read m (p_val p) (Z.to_nat j)) as [v|] eqn:R; [|cbn; auto].
    right. destruct (read_ok _ _ _ _ R) as [L H0].
    split; [repeat split; auto|]. split; [reflexivity|]. split; [cbn [sz]; lia|].
    split; [exact L|]. intros a [_ W]. cbn [ptr sz] in W. split.
    + destruct (C (a - p_val p)) as [_ X]; [lia|].
      now replace (p_val p + (a - p_val p)) with a in X by lia.
    + unfold at_. cbn [ptr val]. rewrite <- H0 by lia. f_equal. lia.
  - intros Z0. destruct (Z.ltb_spec 0 j); [|cbn; auto].
    destruct (read m (p_val p) (Z.to_nat j)); cbn [sz]; lia.
Qed.

(** Without sentinels memory stays, and the copies are of it. *)
Lemma pre_plain o shd wr ps : sentinels o = false -> forall prevs olds m,
  snd (pre_walk o shd wr prevs ps olds m) = m /\
  forall s, In s (fst (pre_walk o shd wr prevs ps olds m)) ->
    ptr s = 0 \/ exists p, In p ps /\ good shd m p s.
Proof.
  intros S. induction ps as [|p ps IH]; intros prevs olds m.
  { cbn. split; auto. contradiction. }
  destruct olds as [|old olds]; [cbn; split; auto; contradiction|].
  rewrite pre_walk_cons. cbn zeta.
  destruct (pre_arg_good o shd wr prevs p old m) as (G & _ & M). cbn zeta in *.
  rewrite (M S) in *.
  destruct (IH (prevs ++ [fst (pre_arg o shd wr prevs p old m)]) olds m) as [I1 I2].
  cbn [fst snd]. split; auto.
  intros s [<-|I]; [destruct G; [auto|right; exists p; split; [left|]; auto]|].
  destruct (I2 s I) as [|(q & Q1 & Q2)]; auto. right. exists q. split; [right|]; auto.
Qed.

(** Everything that can be reached is in some window. *)
Definition closed (shd : shadow) (l : list slot) : Prop :=
  forall s a, In s l -> ptr s <> 0 -> ptr s <= a < ptr s + 2048 ->
    (forall x, ptr s <= x <= a -> is_addr (shd x) = true) -> exists s', In s' l /\ win s' a.

Definition bounded (l : list slot) : Prop := Forall (fun s => 0 <= sz s <= 2048) l.

Definition clear (l : list slot) (p : Z) : Prop :=
  forall s, In s l -> ptr s <> 0 -> ptr s < p -> ptr s + 2048 <= p.

Lemma pre_arg_covers o shd wr prevs p old m :
  sound shd m -> bounded prevs -> 0 <= sz old <= 2048 ->
  (points shd p -> 2048 <= p_val p /\ clear prevs (p_val p)) ->
  closed shd prevs ->
  let s := fst (pre_arg o shd wr prevs p old m) in
  closed shd (prevs ++ [s]) /\ (points shd p -> ptr s = p_val p) /\
  (ptr s = 0 \/ ptr s = p_val p /\ points shd p).
Proof.
  intros SO BO OB AP CL. unfold pre_arg.
  destruct (p_def p && (p_val p mod 4 =? 0) && is_addr (shd (p_val p))) eqn:P.
  2: { cbn. repeat split; auto.
       - intros s a I N R A. apply in_app_or in I as [I|[<-|[]]]; [|cbn in N; congruence].
         destruct (CL s a I N R A) as (s' & I' & W). exists s'. split; auto using in_or_app.
       - intros (Q1 & Q2 & Q3). rewrite Q1, Q3, Q2 in P. discriminate. }
  apply andb_prop in P as [P P3]. apply andb_prop in P as [P1 P2]. apply Z.eqb_eq in P2.
  assert (PT : points shd p) by (repeat split; auto).
  destruct (AP PT) as [AP1 AP2].
  remember (extent shd prevs (p_val p) (Z.to_nat MAX_SZ) 0) as j eqn:EJ. symmetry in EJ.
  apply extent_ok in EJ as (B & C & D).
  rewrite max_n in *.
  (* an overlap is with a window further up *)
  assert (OV : forall x, overlaps prevs (p_val p) x = true ->
            exists s', In s' prevs /\ ptr s' <> 0 /\ p_val p <= ptr s' < p_val p + x).
  { intros x O. apply existsb_exists in O as (s' & I & O). apply andb_prop in O as [O1 O2].
    apply Z.ltb_lt in O1. apply Z.ltb_lt in O2.
    unfold bounded in BO. rewrite Forall_forall in BO. specialize (BO s' I).
    assert (N : ptr s' <> 0) by (intros E; rewrite E in O2; lia).
    exists s'. repeat split; auto. destruct (Z.lt_ge_cases (ptr s') (p_val p)); auto.
    specialize (AP2 s' I N H). lia. }
  assert (J0 : 0 < j).
  { destruct (Z.eq_dec j 0) as [E|E]; [|lia]. rewrite E in D. exfalso.
    destruct D as [D|[D|D]]; [lia| |rewrite Z.add_0_r in D; congruence].
    apply OV in D as (s' & _ & _ & R). lia. }
  destruct (Z.ltb_spec 0 j); [|lia].
  destruct (read_some m (Z.to_nat j) (p_val p)) as [v R].
  { intros x X. apply SO. destruct (C (x - p_val p)) as [_ Y]; [lia|].
    now replace (p_val p + (x - p_val p)) with x in Y by lia. }
  rewrite R. cbn [fst ptr]. repeat split; auto.
  intros s a I N RG A. apply in_app_or in I as [I|[<-|[]]].
  { destruct (CL s a I N RG A) as (s' & I' & W). exists s'. split; auto using in_or_app. }
  cbn [ptr] in *.
  destruct (Z.lt_ge_cases a (p_val p + j)) as [LT|GE].
  { eexists. split; [apply in_or_app; right; left; reflexivity|].
    unfold win. cbn [ptr sz]. lia. }
  destruct D as [D|[D|D]]; [lia| |].
  - apply OV in D as (s' & I' & N' & R').
    destruct (CL s' a I' N') as (s2 & I2 & W2); [lia|intros x X; apply A; lia|].
    exists s2. split; auto using in_or_app.
  - rewrite A in D; [discriminate|lia].
Qed.

Lemma pre_arg_sound o shd wr prevs p old m :
  sound shd m -> sound shd (snd (pre_arg o shd wr prevs p old m)).
Proof.
  intros S. unfold pre_arg. destruct (_ && _ && _); [|exact S]. cbn [snd].
  destruct (sentinels o); [|exact S]. intros a A.
  destruct (plant_le shd wr (Z.to_nat (sz (if 0 <? extent shd prevs (p_val p) (Z.to_nat MAX_SZ) 0
      then match read m (p_val p) (Z.to_nat (extent shd prevs (p_val p) (Z.to_nat MAX_SZ) 0)) with
           | Some v => Slot (p_val p) (extent shd prevs (p_val p) (Z.to_nat MAX_SZ) 0) v
           | None => Slot 0 0 (val old) end else Slot 0 (sz old) (val old)))) (p_val p) m a)
    as [->|(-> & _)]; [now apply S|discriminate].
Qed.

Lemma pre_covers o shd wr ps : forall prevs olds m,
  sound shd m -> bounded prevs -> left_over olds -> List.length ps = List.length olds ->
  apart shd ps ->
  (forall s p, In s prevs -> In p ps -> points shd p -> ptr s <> 0 -> ptr s < p_val p ->
     ptr s + 2048 <= p_val p) ->
  closed shd prevs ->
  let l := fst (pre_walk o shd wr prevs ps olds m) in
  closed shd (prevs ++ l) /\
  forall p, In p ps -> points shd p -> exists s, In s l /\ ptr s = p_val p.
Proof.
  induction ps as [|p ps IH]; intros prevs olds m SO BO LO LN AP CR CL; cbn zeta.
  { cbn. rewrite app_nil_r. split; auto. contradiction. }
  destruct olds as [|old olds]; [discriminate|].
  inversion LO as [|? ? O1 O2]; subst. destruct AP as [A1 A2].
  rewrite pre_walk_cons. cbn zeta. cbn [fst].
  set (s := fst (pre_arg o shd wr prevs p old m)).
  destruct (pre_arg_covers o shd wr prevs p old m) as (C1 & C2 & C3); auto.
  { intros PT. destruct (A1 PT) as [X Y]. split; auto.
    intros s' I N L. apply CR; auto. left; auto. }
  fold s in C1, C2, C3.
  destruct (pre_arg_good o shd wr prevs p old m) as (_ & G & _). cbn zeta in G. fold s in G.
  destruct (IH (prevs ++ [s]) olds (snd (pre_arg o shd wr prevs p old m))) as [I1 I2]; auto.
  - now apply pre_arg_sound.
  - apply Forall_app. split; auto.
  - intros s' q I Q PQ N L. apply in_app_or in I as [I|[<-|[]]].
    + apply CR; auto. right; auto.
    + destruct C3 as [C3|[C3 PT]]; [congruence|]. rewrite C3 in *.
      destruct (A1 PT) as [_ Y]. apply Y; auto.
  - rewrite <- app_assoc in I1. cbn [app] in I1. split; auto.
    intros q [<-|Q] PQ.
    + exists s. split; [left|]; auto.
    + destruct (I2 q Q PQ) as (s' & I & E). exists s'. split; [right|]; auto.
Qed.

Lemma reached o shd wr ps olds m p a :
  sound shd m -> left_over olds -> List.length ps = List.length olds -> apart shd ps ->
  In p ps -> reaches shd p a ->
  exists s, In s (fst (pre_walk o shd wr [] ps olds m)) /\ win s a.
Proof.
  intros SO LO LN AP I (PT & RG & AD).
  destruct (pre_covers o shd wr ps [] olds m) as [C1 C2]; auto.
  - constructor.
  - contradiction.
  - intros s' ? [].
  - destruct (C2 p I PT) as (s & IS & E). cbn [app] in C1.
    apply (C1 s a IS).
    + rewrite E. clear - AP I PT. induction ps as [|q ps IH]; [contradiction|].
      destruct AP as [A1 A2]. destruct I as [->|I]; [destruct (A1 PT); lia|auto].
    + lia.
    + rewrite E. exact AD.
Qed.
