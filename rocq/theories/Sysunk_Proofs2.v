(** Proofs about system calls of unknown parameters: after the call. *)
From Verif Require Import Base Sysunk_Model Sysunk_Spec Sysunk_Proofs.
Local Open Scope Z_scope.

(** ** Marks *)

Lemma together_sym o a b : together o a b -> together o b a.
Proof. unfold together. destruct (dword o); auto. Qed.

Lemma together_trans o a b c : together o a b -> together o b c -> together o a c.
Proof. unfold together. destruct (dword o); congruence. Qed.

Lemma together_refl o a : together o a a.
Proof. unfold together. destruct (dword o); auto. Qed.

Lemma together_dec o a b : together o a b \/ ~ together o a b.
Proof. unfold together. destruct (dword o); [destruct (Z.eq_dec (a / 4) (b / 4))|destruct (Z.eq_dec a b)]; auto. Qed.

(** The shadow [b] is [a] with all that is together with a byte of T marked. *)
Definition marks (o : options) (T : Z -> Prop) (a b : shadow) : Prop :=
  forall x,
    (b x = a x /\ (is_addr (a x) = true -> forall pc, T pc -> ~ together o x pc)) \/
    (b x = Def /\ is_addr (a x) = true /\ exists pc, T pc /\ together o x pc).

Lemma marks_none o (T : Z -> Prop) a : (forall x, ~ T x) -> marks o T a a.
Proof. intros H x. left. split; auto. intros _ pc P. destruct (H pc P). Qed.

Lemma marks_mono o (T T' : Z -> Prop) a b :
  (forall x, T x <-> T' x) -> marks o T a b -> marks o T' a b.
Proof.
  intros E M x. destruct (M x) as [[M1 M2]|(M1 & M2 & pc & P & Q)].
  - left. split; auto. intros A pc P. apply M2; auto. now apply E.
  - right. repeat split; auto. exists pc. split; auto. now apply E.
Qed.

Lemma mark_marks o pc a : marks o (eq pc) a (mark o pc a).
Proof.
  intros x. unfold mark, reported.
  assert (IN : forall d n, (if dword o then (pc / 4 * 4, 4) else (pc, 1)) = (d, n) ->
            (d <=? x) && (x <? d + n) = true <-> together o x pc).
  { intros d n E. unfold together. rewrite andb_true_iff, Z.leb_le, Z.ltb_lt.
    pose proof (Z.div_mod x 4). pose proof (Z.mod_pos_bound x 4).
    destruct (dword o); injection E as <- <-; lia. }
  destruct (if dword o then _ else _) as [d n] eqn:E. specialize (IN d n eq_refl).
  destruct ((d <=? x) && (x <? d + n)).
  - assert (T : together o x pc) by (now apply IN). destruct (is_addr (a x)) eqn:A; cbn [andb].
    + right. repeat split; auto. exists pc. auto.
    + left. split; auto. discriminate.
  - cbn [andb]. left. split; auto. intros _ pc' <- T. apply IN in T. discriminate.
Qed.

Lemma marks_def o T a b x : marks o T a b -> a x = Undef -> b x = Undef \/ b x = Def.
Proof. intros M U. destruct (M x) as [[-> _]|(-> & _)]; auto. Qed.

Lemma marks_comp o (T1 T2 T : Z -> Prop) a b c :
  marks o T1 a b -> marks o T2 b c ->
  (forall x, T1 x -> T x) -> (forall x, T2 x -> T x) ->
  (forall x, T x -> T1 x \/ T2 x \/ b x <> a x) ->
  marks o T a c.
Proof.
  intros M1 M2 I1 I2 CV x. 
  assert (AD : is_addr (b x) = true -> is_addr (a x) = true).
  { destruct (M1 x) as [[-> _]|(_ & A & _)]; auto. }
  destruct (M2 x) as [[N1 N2]|(N1 & N2 & pc & P & Q)].
  2: { right. repeat split; auto. exists pc. auto. }
  destruct (M1 x) as [[K1 K2]|(K1 & K2 & pc & P & Q)].
  2: { right. repeat split; auto; [congruence|]. exists pc. auto. }
  left. split; [congruence|]. intros A pc P Q.
  destruct (CV pc P) as [X|[X|X]].
  - exact (K2 A pc X Q).
  - rewrite K1 in N2. exact (N2 A pc X Q).
  - destruct (M1 pc) as [[Y _]|(_ & _ & pc' & P' & Q')]; [congruence|].
    apply (K2 A pc' P'). eapply together_trans; eauto.
Qed.

Lemma look_marks o : forall old post a shd,
  List.length old = List.length post ->
  marks o (fun x => shd x = Undef /\ exists k, (k < List.length old)%nat /\ x = a + Z.of_nat k /\
             written o (nth k post 0) (nth k old 0) = true)
        shd (snd (look o a old post shd)).
Proof.
  induction old as [|v old IH]; intros [|q post] a shd L; try discriminate; cbn [look].
  { apply marks_none. intros x (_ & k & K & _). cbn in K. lia. }
  injection L as L.
  destruct (is_undef (shd a) && written o q v) eqn:E.
  - apply andb_prop in E as [U W].
    assert (UA : shd a = Undef) by (now destruct (shd a)).
    specialize (IH post (a + 1) (mark o a shd) L).
    destruct (look o (a + 1) old post (mark o a shd)) as [l s']. cbn [snd] in *.
    eapply marks_comp; [apply mark_marks|exact IH| | |].
    + intros x <-. split; auto. exists 0%nat. cbn. repeat split; auto; lia.
    + intros x (X & k & K & -> & Y). split.
      * destruct (mark_marks o a shd (a + 1 + Z.of_nat k)) as [[Z1 _]|(Z1 & _)]; congruence.
      * exists (S k). cbn [List.length nth]. repeat split; auto; lia.
    + intros x (X & k & K & -> & Y). destruct k as [|k].
      * left. lia.
      * right. destruct (mark_marks o a shd (a + Z.of_nat (S k))) as [[Z1 _]|(Z1 & _)].
        -- left. split; [congruence|]. exists k. cbn [List.length nth] in *. repeat split; auto; lia.
        -- right. congruence.
  - specialize (IH post (a + 1) shd L). eapply marks_mono; [|exact IH].
    intros x. split; intros (X & k & K & -> & Y); (split; auto).
    + exists (S k). cbn [List.length nth]. repeat split; auto; lia.
    + destruct k as [|k].
      * cbn in Y. rewrite Z.add_0_r in X. rewrite X, Y in E. discriminate.
      * exists k. cbn [List.length nth] in *. repeat split; auto; lia.
Qed.

(** What is taken as written. *)
Definition taken (o : options) (m : memory) (shd : shadow) (l : list slot) (x : Z) : Prop :=
  shd x = Undef /\ exists s q, In s l /\ win s x /\ m x = Some q /\ written o q (at_ s x) = true.

Lemma look_all_marks o m : forall l shd,
  (forall s, In s l -> ptr s = 0 \/
     (0 <= sz s /\ List.length (val s) = Z.to_nat (sz s) /\ forall x, win s x -> m x <> None)) ->
  marks o (taken o m shd l) shd (snd (look_all o l m shd)).
Proof.
  induction l as [|s l IH]; intros shd G; cbn [look_all].
  { apply marks_none. intros x (_ & s & q & [] & _). }
  assert (G' : forall s, In s l -> ptr s = 0 \/
     (0 <= sz s /\ List.length (val s) = Z.to_nat (sz s) /\ forall x, win s x -> m x <> None))
    by (intros; apply G; right; auto).
  destruct (Z.eqb_spec (ptr s) 0) as [P0|P0].
  { specialize (IH shd G'). destruct (look_all o l m shd) as [r s']. cbn [snd] in *.
    eapply marks_mono; [|exact IH]. intros x. split; intros (U & s0 & q & I & W & R).
    - split; auto. exists s0, q. split; [right|]; auto.
    - split; auto. destruct I as [<-|I]; [destruct W; contradiction|]. exists s0, q. auto. }
  destruct (G s (or_introl eq_refl)) as [|(Z0 & L & RD)]; [contradiction|].
  destruct (read_some m (Z.to_nat (sz s)) (ptr s)) as [post R].
  { intros x X. apply RD. split; auto. lia. }
  rewrite R. destruct (read_ok _ _ _ _ R) as [L1 R1].
  pose proof (look_marks o (val s) post (ptr s) shd) as M. rewrite L, L1 in M.
  specialize (M eq_refl).
  destruct (look o (ptr s) (val s) post shd) as [r1 shd1]. cbn [snd] in M.
  specialize (IH shd1 G'). destruct (look_all o l m shd1) as [r2 shd2]. cbn [snd] in *.
  eapply marks_comp; [exact M|exact IH| | |].
  - intros x (U & k & K & -> & W). split; auto. exists s, (nth k post 0).
    split; [left; auto|]. split; [split; auto; lia|].
    split; [apply R1; auto|]. unfold at_.
    replace (Z.to_nat (ptr s + Z.of_nat k - ptr s)) with k by lia. auto.
  - intros x (U & s0 & q & I & W). split; [|exists s0, q; split; [right|]; auto].
    destruct (M x) as [[Y _]|(Y & _)]; congruence.
  - intros x (U & s0 & q & [<-|I] & W & MQ & WR).
    + left. split; auto. destruct W as [_ W]. exists (Z.to_nat (x - ptr s)).
      split; [lia|]. split; [lia|].
      assert (E : m x = Some (nth (Z.to_nat (x - ptr s)) post 0)).
      { rewrite <- R1 by lia. f_equal. lia. }
      rewrite MQ in E. injection E as <-. exact WR.
    + right. destruct (M x) as [[Y _]|(Y & _)].
      * left. split; [congruence|]. exists s0, q. auto.
      * right. congruence.
Qed.

(** ** Restoring *)

Lemma restore_at o shd wr : sentinels o = true -> forall old post a m x,
  List.length old = List.length post ->
  restore o shd wr a old post m x =
  if (a <=? x) && (x <? a + Z.of_nat (List.length old)) &&
     is_undef (shd x) && (nth (Z.to_nat (x - a)) post 0 =? SENTINEL) &&
     negb (nth (Z.to_nat (x - a)) old 0 =? SENTINEL) && wr x
  then Some (nth (Z.to_nat (x - a)) old 0) else m x.
Proof.
  intros SE. induction old as [|v old IH]; intros [|q post] a m x L; try discriminate; cbn [restore].
  { cbn [List.length]. destruct (Z.leb_spec a x), (Z.ltb_spec x (a + Z.of_nat 0)); cbn [andb]; auto. lia. }
  injection L as L. rewrite IH by auto. unfold written. rewrite SE.
  destruct (Z.eq_dec x a) as [->|N].
  - replace (Z.to_nat (a - a)) with 0%nat by lia. cbn [nth].
    destruct (Z.leb_spec (a + 1) a); [lia|]. cbn [andb].
    destruct (Z.leb_spec a a); [|lia].
    destruct (Z.ltb_spec a (a + Z.of_nat (List.length (v :: old)))) as [_|X]; [|cbn [List.length] in X; lia].
    cbn [andb]. rewrite negb_involutive.
    destruct (is_undef (shd a)); cbn [andb]; auto.
    destruct (q =? SENTINEL); cbn [andb]; auto.
    destruct (negb (v =? SENTINEL)); cbn [andb]; auto.
    destruct (wr a); cbn [andb]; auto. unfold upd. now rewrite Z.eqb_refl.
  - assert (MX : (if is_undef (shd a) && negb (negb (q =? SENTINEL)) && (q =? SENTINEL) &&
                     negb (v =? SENTINEL) && wr a then upd m a v else m) x = m x).
    { destruct (_ && _ && _ && _ && _); auto. unfold upd. destruct (Z.eqb_spec x a); congruence. }
    rewrite MX. destruct (Z.lt_ge_cases x a).
    + destruct (Z.leb_spec (a + 1) x), (Z.leb_spec a x); try lia. reflexivity.
    + replace (Z.to_nat (x - a)) with (S (Z.to_nat (x - (a + 1)))) by lia. cbn [nth].
      replace (a + 1 <=? x) with (a <=? x)
        by (destruct (Z.leb_spec a x), (Z.leb_spec (a + 1) x); auto; lia).
      replace (x <? a + 1 + Z.of_nat (List.length old)) with (x <? a + Z.of_nat (List.length (v :: old)))
        by (cbn [List.length]; f_equal; lia).
      reflexivity.
Qed.

Lemma restore_plain o shd wr : sentinels o = false -> forall old post a m,
  restore o shd wr a old post m = m.
Proof.
  intros SE. induction old as [|v old IH]; intros [|q post] a m; cbn [restore]; auto.
  rewrite IH. unfold written. rewrite SE.
  destruct (Z.eqb_spec q v) as [->|N]; cbn [negb andb].
  - destruct (v =? SENTINEL); cbn [negb]; rewrite ?andb_false_r; reflexivity.
  - now rewrite andb_false_r.
Qed.

Lemma restore_all_plain o shd wr : sentinels o = false -> forall l m,
  restore_all o shd wr l m = m.
Proof.
  intros SE. induction l as [|s l IH]; intros m; cbn [restore_all]; auto.
  destruct (ptr s =? 0); auto. destruct (read m (ptr s) (Z.to_nat (sz s))); auto.
  rewrite restore_plain; auto.
Qed.
