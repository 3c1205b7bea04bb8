(** Proofs about runs of pattern mode. *)
From Verif Require Import Base Pattern_Model Pattern_Spec Pattern_Proofs.
Require Import Lia Sorted.
Local Open Scope Z_scope.

Section R.
Variable c : cfg.
Hypothesis G : good_cfg c.

Lemma rz4 : 4 <= rz c.
Proof. destruct G as (_ & P & [q Q]). lia. Qed.

Definition before (j k : chunk) : Prop := base j + pad j + rz c <= base k - rz c.
Definition wfk (k : chunk) : Prop := 0 <= req k <= pad k /\ (4 | base k) /\ (4 | pad k).
Definition wf (h : list chunk) : Prop := StronglySorted before h /\ Forall wfk h.

Lemma before_trans : forall i j k, wfk j -> before i j -> before j k -> before i k.
Proof. unfold before, wfk. intros. pose proof rz4. lia. Qed.
Lemma apart_before : forall j k, wfk j -> wfk k -> apart c j k -> before j k \/ before k j.
Proof.
  intros j k A B C. pose proof rz4. unfold before, wfk in *.
  destruct (Z_le_gt_dec (base j + pad j + rz c) (base k - rz c)); auto.
  destruct (Z_le_gt_dec (base k + pad k + rz c) (base j - rz c)); auto.
  exfalso. apply (C (Z.max (base j - rz c) (base k - rz c))); unfold extent; lia.
Qed.
Lemma wf_insert : forall h k, wf h -> wfk k -> (forall j, In j h -> apart c j k) -> wf (insert k h).
Proof.
  induction h as [|x r IH]; intros k [S0 F] K A; cbn [insert].
  - split; constructor; auto; constructor.
  - inversion S0 as [|? ? S1 S2]; inversion F as [|? ? F1 F2]; subst.
    assert (AX : before x k \/ before k x) by (apply apart_before; auto; apply A; cbn; auto).
    destruct (Z.ltb_spec (base k) (base x)).
    + assert (BK : before k x) by (destruct AX; auto; unfold before, wfk in *; pose proof rz4; lia).
      split; [|constructor; auto]. constructor; auto. constructor; auto.
      eapply Forall_impl; [|exact S2]. intros j J. eapply before_trans; eauto.
    + assert (BX : before x k) by (destruct AX; auto; unfold before, wfk in *; pose proof rz4; lia).
      assert (W : wf (insert k r)) by (apply IH; [split; auto|auto|intros; apply A; cbn; auto]).
      destruct W as [W1 W2]. split; constructor; auto.
      apply Forall_forall. intros j J.
      assert (Q : j = k \/ In j r).
      { clear - J. induction r as [|y r IH]; cbn in J.
        - destruct J as [J|[]]; auto.
        - destruct (base k <? base y); cbn in J; [cbn; intuition|].
          destruct J as [J|J]; cbn; auto. apply IH in J. intuition. }
      destruct Q as [->|Q]; auto. rewrite Forall_forall in S2. auto.
Qed.
Lemma in_insert : forall h k j, In j (insert k h) -> j = k \/ In j h.
Proof.
  induction h as [|y r IH]; intros k j J; cbn in J.
  - destruct J as [J|[]]; auto.
  - destruct (base k <? base y); cbn in J; [cbn; intuition|].
    destruct J as [J|J]; cbn; auto. apply IH in J. intuition.
Qed.
Lemma insert_in : forall h k j, j = k \/ In j h -> In j (insert k h).
Proof.
  induction h as [|y r IH]; intros k j J; cbn.
  - destruct J as [J|[]]; auto.
  - destruct (base k <? base y); cbn; [cbn in J; intuition|].
    cbn in J. destruct J as [J|[J|J]]; auto.
Qed.
Lemma wf_uniq : forall h j k, wf h -> In j h -> In k h -> j = k \/ before j k \/ before k j.
Proof.
  induction h as [|x r IH]; intros j k [S0 F] J K; [contradiction|].
  inversion S0 as [|? ? S1 S2]; inversion F as [|? ? F1 F2]; subst.
  rewrite Forall_forall in S2.
  destruct J as [->|J]; destruct K as [->|K]; auto. apply IH; auto. split; auto.
Qed.
Lemma wf_in : forall h k, wf h -> In k h -> wfk k.
Proof. intros h k [_ F] K. rewrite Forall_forall in F. auto. Qed.
Lemma find_spec : forall h b k, wf h -> In k h -> base k = b -> find b h = Some k.
Proof.
  intros h b k W K B. unfold find.
  destruct (List.find (fun k0 => base k0 =? b) h) as [j|] eqn:E.
  - apply find_some in E as [E1 E2]. apply Z.eqb_eq in E2.
    pose proof (wf_in _ _ W K). pose proof (wf_in _ _ W E1). pose proof rz4.
    destruct (wf_uniq h j k W E1 K) as [->|Q]; auto. unfold before, wfk in *. lia.
  - exfalso. eapply find_none in E; eauto. cbn in E. lia.
Qed.
Lemma wf_change : forall h b f, wf h -> (forall k, base (f k) = base k /\ pad (f k) = pad k) ->
  (forall k, In k h -> base k = b -> wfk (f k)) -> wf (change f b h).
Proof.
  induction h as [|x r IH]; intros b f [S0 F] P Q; cbn; [split; constructor|].
  inversion S0 as [|? ? S1 S2]; inversion F as [|? ? F1 F2]; subst.
  destruct (IH b f) as [A B]; [split; auto|auto|intros; apply Q; cbn; auto|].
  split; constructor; auto.
  - apply Forall_forall. intros j J. unfold change in J. apply in_map_iff in J as (j0 & E & J).
    rewrite Forall_forall in S2. specialize (S2 _ J). unfold before in *.
    destruct (P j0) as [P1 P2]. destruct (P x) as [P3 P4].
    destruct (base x =? b); destruct (base j0 =? b); subst j; lia.
  - destruct (Z.eqb_spec (base x) b); auto. apply Q; cbn; auto.
Qed.
Lemma in_change : forall h b f j, In j (change f b h) ->
  exists k, In k h /\ ((base k <> b /\ j = k) \/ (base k = b /\ j = f k)).
Proof.
  intros h b f j J. unfold change in J. apply in_map_iff in J as (k & E & K).
  exists k. split; auto. destruct (Z.eqb_spec (base k) b); auto.
Qed.
Lemma wf_filter : forall h p, wf h -> wf (filter p h).
Proof.
  induction h as [|x r IH]; intros p [S0 F]; cbn; [split; constructor|].
  inversion S0 as [|? ? S1 S2]; inversion F as [|? ? F1 F2]; subst.
  destruct (IH p) as [A B]; [split; auto|].
  destruct (p x); [|split; auto]. split; constructor; auto.
  apply Forall_forall. intros j J. apply filter_In in J as [J _]. rewrite Forall_forall in S2. auto.
Qed.

Definition suspect (h : list chunk) (a s : Z) : bool := in_redzone c h a s || in_freed c h a s.

(** the lookup finds the chunk an address belongs to *)
Lemma overlap_spec : forall h k a b, wf h -> In k h ->
  base k - rz c <= a < base k + pad k + rz c -> a <= b -> overlap c h a b = Some k.
Proof.
  induction h as [|x r IH]; intros k a b [S0 F] K A B; [contradiction|]. cbn [overlap].
  inversion S0 as [|? ? S1 S2]; inversion F as [|? ? F1 F2]; subst.
  destruct K as [->|K].
  - assert (T : (a <? base k + pad k + rz c) && (base k - rz c <=? b) = true)
      by (apply andb_true_iff; lia). rewrite T. reflexivity.
  - rewrite Forall_forall in S2. specialize (S2 _ K). unfold before in S2.
    assert (T : (a <? base x + pad x + rz c) && (base x - rz c <=? b) = false)
      by (apply andb_false_iff; left; lia). rewrite T. apply IH; auto. split; auto.
Qed.
Lemma within_fine : forall h a s, wf h -> 1 <= s -> within h a s -> suspect h a s = false.
Proof.
  intros h a s W S1 (k & K & FR & A & B). pose proof rz4. pose proof (wf_in _ _ W K) as (P & _).
  unfold suspect, in_redzone, in_freed. rewrite (overlap_spec h k) by (auto; lia). rewrite FR.
  cbn [negb andb orb].
  destruct (Z.ltb_spec a (base k)); [lia|]. destruct (Z.ltb_spec (base k + req k) (a + s)); [lia|].
  cbn. rewrite andb_false_r. reflexivity.
Qed.

(** ---- the invariant ---- *)

Definition pinv (s : state) (t : Z -> Prop) : Prop :=
  wf (heap s) /\
  forall k x, In k (heap s) -> extent c k x -> ~ live_in k x -> ~ t x ->
    memory s x = patb c x.

(** a handler that only writes into the extent of [k] *)
Definition local (k : chunk) (m m' : mem) : Prop := forall x, ~ extent c k x -> m' x = m x.

Lemma al : forall a, (4 | a) -> align_fwd a 4 = a.
Proof. intros. apply align_fwd_spec. auto. Qed.
Lemma al_le : forall a b, a <= b -> (4 | b) -> align_fwd a 4 <= b.
Proof. intros a b A [q B]. destruct (align_fwd_spec a) as ([p P] & Q & _). lia. Qed.
Lemma div_end : forall k, wfk k -> (4 | base k + pad k) /\ (4 | base k + pad k + rz c) /\ (4 | base k - rz c).
Proof.
  intros k (_ & A & B). destruct G as (_ & _ & R).
  assert (X : (4 | base k + pad k)) by (apply Z.divide_add_r; auto).
  split; [exact X|]. split; [apply Z.divide_add_r; auto | apply Z.divide_sub_r; auto].
Qed.

Lemma malloc_local : forall k m, wfk k -> local k m (handle_malloc c m k).
Proof.
  intros k m W x X. pose proof rz4. destruct (div_end k W) as (D1 & D2 & D3). destruct W as (P & B & Q).
  unfold handle_malloc, extent in *.
  destruct (write_spec c G (write_pattern c m (base k - rz c) (base k)) (base k + req k)
              (base k + pad k + rz c) x) as (A1 & _ & _ & A4); [lia|].
  destruct (write_spec c G m (base k - rz c) (base k) x) as (B1 & _ & _ & B4); [lia|].
  rewrite al in A4 by auto. rewrite al in B4 by auto.
  destruct (Z_lt_ge_dec x (base k - rz c)).
  - rewrite A1 by lia. apply B1. lia.
  - rewrite A4 by lia. apply B4; [lia|]. right. apply four_even. auto.
Qed.
Lemma malloc_fill : forall k m x, wfk k -> extent c k x -> ~ (base k <= x < base k + req k) ->
  handle_malloc c m k x = patb c x.
Proof.
  intros k m x W X NL. pose proof rz4. destruct W as (P & B & Q). unfold handle_malloc, extent in *.
  destruct (write_spec c G (write_pattern c m (base k - rz c) (base k)) (base k + req k)
              (base k + pad k + rz c) x) as (A1 & A2 & _ & _); [lia|].
  destruct (write_spec c G m (base k - rz c) (base k) x) as (B1 & B2 & _ & _); [lia|].
  destruct (Z_lt_ge_dec x (base k)).
  - rewrite A1 by lia. apply B2. lia.
  - apply A2. lia.
Qed.
Lemma free_local : forall k m, wfk k -> local k m (handle_free c m k).
Proof.
  intros k m W x X. pose proof rz4. destruct (div_end k W) as (D1 & D2 & D3). destruct W as (P & B & Q).
  unfold handle_free, extent in *.
  destruct (write_spec c G m (base k) (base k + req k) x) as (A1 & _ & _ & A4); [lia|].
  pose proof (al_le (base k + req k) (base k + pad k)).
  destruct (Z_lt_ge_dec x (base k)); [apply A1; lia|].
  apply A4; [lia|]. right. apply four_even. auto.
Qed.
Lemma free_inside : forall k m x, wfk k ->
  (base k <= x < base k + req k -> handle_free c m k x = patb c x) /\
  (handle_free c m k x = m x \/ handle_free c m k x = patb c x).
Proof.
  intros k m x W. destruct W as (P & B & Q). unfold handle_free.
  destruct (write_spec c G m (base k) (base k + req k) x) as (A1 & A2 & A3 & _); [lia|].
  split; [exact A2|].
  destruct (Z_lt_ge_dec x (base k)); [left; apply A1; lia|].
  destruct (Z_lt_ge_dec x (base k + req k)); [right; apply A2; lia|]. apply A3; lia.
Qed.
Lemma reuse_local : forall k m, wfk k -> local k m (handle_reuse c m k).
Proof.
  intros k m W x X. unfold handle_reuse, clear, extent in *.
  destruct (Z.leb_spec (base k - rz c) x);
    destruct (Z.ltb_spec x (base k - rz c + (pad k + 2 * rz c))); cbn; auto. lia.
Qed.
Lemma realloc_local : forall k n m, wfk k -> 0 <= n <= pad k -> local k m (handle_realloc c m k n).
Proof.
  intros k n m W N x X. pose proof rz4. destruct (div_end k W) as (D1 & D2 & D3). destruct W as (P & B & Q).
  unfold handle_realloc, extent in *.
  destruct (Z.ltb_spec (req k) n); [|destruct (Z.ltb_spec n (req k)); auto].
  - replace (base k + n + (pad k - n + rz c)) with (base k + pad k + rz c) by lia.
    set (m1 := clear m (base k + req k) (pad k - req k + rz c)).
    assert (M1 : m1 x = m x).
    { unfold m1, clear. destruct (Z.leb_spec (base k + req k) x);
        destruct (Z.ltb_spec x (base k + req k + (pad k - req k + rz c))); cbn; auto. lia. }
    destruct (write_spec c G m1 (base k + n) (base k + pad k + rz c) x) as (A1 & _ & _ & A4); [lia|].
    rewrite al in A4 by auto. rewrite <- M1.
    destruct (Z_lt_ge_dec x (base k + n)); [apply A1; lia|apply A4; lia].
  - destruct (write_spec c G m (base k + n) (base k + req k) x) as (A1 & _ & _ & A4); [lia|].
    pose proof (al_le (base k + req k) (base k + pad k)).
    destruct (Z_lt_ge_dec x (base k + n)); [apply A1; lia|apply A4; lia].
Qed.
Lemma realloc_inside : forall k n m x, wfk k -> 0 <= n <= pad k ->
  (x < base k + n -> x < base k + req k -> handle_realloc c m k n x = m x) /\
  (base k + req k <= x < base k + n -> handle_realloc c m k n x = 0) /\
  (req k < n -> base k + n <= x < base k + pad k + rz c -> handle_realloc c m k n x = patb c x) /\
  (base k + n <= x < base k + req k -> handle_realloc c m k n x = patb c x) /\
  (base k + n <= x -> n <= req k -> handle_realloc c m k n x = m x \/ handle_realloc c m k n x = patb c x).
Proof.
  intros k n m x W N. pose proof rz4. destruct W as (P & B & Q). unfold handle_realloc.
  destruct (Z.ltb_spec (req k) n); [|destruct (Z.ltb_spec n (req k))].
  - replace (base k + n + (pad k - n + rz c)) with (base k + pad k + rz c) by lia.
    set (m1 := clear m (base k + req k) (pad k - req k + rz c)).
    destruct (write_spec c G m1 (base k + n) (base k + pad k + rz c) x) as (A1 & A2 & _ & _); [lia|].
    split; [|split; [|split; [|split]]]; intros; try lia.
    + rewrite A1 by lia. unfold m1, clear. destruct (Z.leb_spec (base k + req k) x); [lia|]. reflexivity.
    + rewrite A1 by lia. unfold m1, clear. destruct (Z.leb_spec (base k + req k) x); [|lia].
      destruct (Z.ltb_spec x (base k + req k + (pad k - req k + rz c))); [reflexivity|lia].
  - destruct (write_spec c G m (base k + n) (base k + req k) x) as (A1 & A2 & A3 & _); [lia|].
    split; [|split; [|split; [|split]]]; intros; try lia.
  - split; [|split; [|split; [|split]]]; intros; auto; lia.
Qed.

Lemma other_extent : forall h j k x, wf h -> In j h -> In k h -> base j <> base k ->
  extent c j x -> ~ extent c k x.
Proof.
  intros h j k x W J K NE XJ XK. destruct (wf_uniq h j k W J K) as [->|Q]; auto.
  unfold before, extent in *. lia.
Qed.

Variable rd : Z -> bool.
Variable ex : Z -> Z -> bool.

(** ---- accesses ---- *)


Lemma mem_ref_spec : forall h m a s m' p, mem_ref c rd ex h m a s = (m', p) ->
  (m' = m /\ p = []) \/
  (suspect h a s = true /\ m' = upd m a 0 /\ p = if ex a s then [] else [(a, s)]).
Proof.
  intros h m a s m' p H. unfold mem_ref in H. fold (suspect h a s) in H.
  destruct (_ && suspect h a s) eqn:E.
  - inversion H; subst. apply andb_true_iff in E as [_ E]. auto.
  - inversion H; subst. auto.
Qed.
Definition effect (h : list chunk) (refs : list (Z * Z)) (m m' : mem) (p : list (Z * Z)) : Prop :=
  (forall x, m' x = m x \/ exists s, In (x, s) refs /\ suspect h x s = true) /\
  (forall a s, In (a, s) p -> In (a, s) refs /\ suspect h a s = true).
Lemma effect_refl : forall h refs m, effect h refs m m [].
Proof. intros. split; auto. intros a s []. Qed.
Lemma effect_app : forall h refs m1 m2 m3 p q,
  effect h refs m1 m2 p -> effect h refs m2 m3 q -> effect h refs m1 m3 (p ++ q).
Proof.
  intros h refs m1 m2 m3 p q [A B] [C D]. split.
  - intros x. destruct (C x) as [E|E]; auto. destruct (A x) as [F|F]; auto. left; congruence.
  - intros a s H. apply in_app_or in H as [H|H]; auto.
Qed.
Lemma ill_effect : forall h refs all m m' p, incl refs all ->
  ill_fault c rd ex h m refs = (m', p) -> effect h all m m' p.
Proof.
  induction refs as [|[a s] r IH]; intros all m m' p IN H; cbn in H.
  - inversion H; subst. apply effect_refl.
  - destruct (mem_ref c rd ex h m a s) as [m1 p1] eqn:E1.
    destruct (ill_fault c rd ex h m1 r) as [m2 p2] eqn:E2. inversion H; subst.
    eapply effect_app; [|eapply IH; eauto; intros t T; apply IN; cbn; auto].
    apply mem_ref_spec in E1 as [[-> ->]|(S1 & -> & ->)]; [apply effect_refl|].
    assert (I1 : In (a, s) all) by (apply IN; cbn; auto).
    split.
    + intros x. unfold upd. destruct (Z.eqb_spec x a) as [->|]; auto. right. exists s. auto.
    + intros a' s' Q. destruct (ex a s); [destruct Q|]. destruct Q as [Q|[]]. inversion Q; subst. auto.
Qed.
Lemma run_effect : forall h refs l m m' p,
  run_checks c rd ex h refs l m = (m', p) -> effect h refs m m' p.
Proof.
  induction l as [|[a k] r IH]; intros m m' p H; cbn in H.
  - inversion H; subst. apply effect_refl.
  - destruct (fires rd m a k).
    + destruct (ill_fault c rd ex h m refs) as [m1 p1] eqn:E1.
      destruct (run_checks c rd ex h refs r m1) as [m2 p2] eqn:E2. inversion H; subst.
      eapply effect_app; [eapply ill_effect; eauto; apply incl_refl|eauto].
    + destruct (run_checks c rd ex h refs r m) as [m2 p2] eqn:E2. inversion H; subst. cbn. eauto.
Qed.
Lemma access_effect : forall h refs four low m m' p,
  access c rd ex h m refs four low = (m', p) -> effect h refs m m' p.
Proof. intros. eapply run_effect; eauto. Qed.

Lemma step_inv : forall s t o, pinv s t -> allowed c (heap s) o ->
  pinv (step c rd ex s o) (touch c (heap s) o t).
Proof.
  intros s t o [W I0] A. destruct o as [k|b|b|b n|a v|refs four low]; cbn [allowed step touch] in *.
  - destruct A as (FR & P & B4 & P4 & AP). assert (WK : wfk k) by (repeat split; auto; lia).
    split; cbn [heap memory]; [apply wf_insert; auto|].
    intros j x J X NL NT. apply in_insert in J as [->|J].
    + apply malloc_fill; auto. intros Q. apply NL. split; auto.
    + assert (NX : ~ extent c k x) by (intros Q; eapply AP; eauto).
      rewrite malloc_local by auto. eapply I0; eauto. intros T. apply NT. split; auto.
  - destruct A as (k & K & B & FR). rewrite (find_spec _ b k) by auto.
    pose proof (wf_in _ _ W K) as WK.
    split; cbn [heap memory].
    { apply wf_change; auto. intros j J BJ. apply (wf_in _ _ W) in J. exact J. }
    intros j x J X NL NT. apply in_change in J as (j0 & J0 & [[NB ->]|[BJ ->]]).
    + assert (NX : ~ extent c k x) by (eapply other_extent; eauto; congruence).
      rewrite free_local by auto. eapply I0; eauto. intros T. apply NT. split; auto.
      intros (k' & K' & B' & R'). assert (k' = k).
      { destruct (wf_uniq _ k' k W K' K) as [|Q]; auto. pose proof (wf_in _ _ W K').
        pose proof rz4. unfold before, wfk in *. lia. }
      subst k'. apply NX. pose proof rz4. unfold extent. destruct WK. lia.
    + assert (j0 = k).
      { destruct (wf_uniq _ j0 k W J0 K) as [|Q]; auto. pose proof (wf_in _ _ W J0).
        pose proof rz4. unfold before, wfk in *. lia. }
      subst j0. unfold extent in X. cbn [base pad] in X.
      destruct (free_inside k (memory s) x WK) as [F1 F2].
      destruct (Z_lt_ge_dec x (base k)) as [L|L].
      * assert (Q : memory s x = patb c x).
        { eapply I0; eauto. - intros [_ Q]. lia.
          - intros T. apply NT. split; auto. intros (k' & K' & B' & R').
            assert (base k' = base k) by congruence. lia. }
        destruct F2 as [F2|F2]; rewrite F2; auto.
      * destruct (Z_lt_ge_dec x (base k + req k)) as [L2|L2]; [apply F1; lia|].
        assert (Q : memory s x = patb c x).
        { eapply I0; eauto. - intros [_ Q]. lia.
          - intros T. apply NT. split; auto. intros (k' & K' & B' & R').
            assert (k' = k).
            { destruct (wf_uniq _ k' k W K' K) as [|Q]; auto. pose proof (wf_in _ _ W K').
              pose proof rz4. unfold before, wfk in *. lia. }
            subst k'. lia. }
        destruct F2 as [F2|F2]; rewrite F2; auto.
  - destruct A as (k & K & B & FR). rewrite (find_spec _ b k) by auto.
    pose proof (wf_in _ _ W K) as WK.
    split; cbn [heap memory]; [apply wf_filter; auto|].
    intros j x J X NL NT. apply filter_In in J as [J NB].
    assert (NX : ~ extent c k x) by (eapply other_extent; eauto; lia).
    rewrite reuse_local by auto. eapply I0; eauto.
  - destruct A as (k & K & B & FR & N). rewrite (find_spec _ b k) by auto.
    pose proof (wf_in _ _ W K) as WK.
    assert (UNI : forall k', In k' (heap s) -> base k' = b -> k' = k).
    { intros k' K' B'. destruct (wf_uniq _ k' k W K' K) as [|Q]; auto. pose proof (wf_in _ _ W K').
      pose proof rz4. unfold before, wfk in *. lia. }
    split; cbn [heap memory].
    { apply wf_change; auto. intros j J BJ. rewrite (UNI j) by auto. destruct WK as (? & ? & ?).
      repeat split; cbn; auto; lia. }
    pose proof rz4 as RZ4.
    intros j x J X NL NT. apply in_change in J as (j0 & J0 & [[NB ->]|[BJ ->]]).
    + assert (NX : ~ extent c k x) by (eapply other_extent; eauto; congruence).
      rewrite realloc_local by auto. eapply I0; eauto. intros T. apply NT. split; [auto|].
      unfold extent in NX. destruct WK as (WK & _).
      split; intros (k' & K' & B' & R'); rewrite (UNI k') in R' by auto; lia.
    + assert (E0 : j0 = k) by (apply UNI; auto). subst j0. unfold extent in X. cbn [base pad] in X.
      destruct (realloc_inside k n (memory s) x WK N) as (R1 & R2 & R3 & R4 & R5).
      assert (NL' : ~ (base k <= x < base k + n)).
      { intros Q. apply NL. split; cbn; auto. }
      destruct WK as (WK & _).
      destruct (Z_lt_ge_dec x (base k)) as [L|L].
      * rewrite R1 by lia. eapply I0; eauto. { intros [_ Q]. lia. }
        intros T. apply NT. split; [auto|].
        split; intros (k' & K' & B' & R'); rewrite (UNI k') in R' by auto; lia.
      * destruct (Z_lt_ge_dec (req k) n); [apply R3; lia|].
        destruct (Z_lt_ge_dec x (base k + req k)); [apply R4; lia|].
        assert (Q : memory s x = patb c x).
        { eapply I0; eauto. { intros [_ Q]. lia. } intros T. apply NT. split; [auto|].
          split; intros (k' & K' & B' & R'); rewrite (UNI k') in R' by auto; lia. }
        destruct R5 as [R5|R5]; try lia; rewrite R5; auto.
  - split; cbn [heap memory]; auto. intros k x K X NL NT. unfold upd.
    destruct (Z.eqb_spec x a); [exfalso; apply NT; right; auto|].
    eapply I0; eauto. intros T. apply NT. left. auto.
  - destruct (access c rd ex (heap s) (memory s) refs four low) as [m' p] eqn:E.
    apply access_effect in E as [E _]. split; cbn [heap memory]; auto.
    intros k x K X NL NT. destruct (E x) as [->|(sz & Q & _)].
    + eapply I0; eauto. intros T. apply NT. left. auto.
    + exfalso. apply NT. right. eauto.
Qed.

Lemma run_inv : forall l s t, pinv s t -> legal c rd ex s l ->
  pinv (run c rd ex s l) (touched c rd ex s l t).
Proof.
  induction l as [|o r IH]; intros s t P L; cbn; auto.
  inversion L; subst. apply IH; auto. apply step_inv; auto.
Qed.
Lemma start_inv : forall m t, pinv (start m) t.
Proof. intros. split; cbn; [split; constructor|]. intros k x []. Qed.
Lemma legal_wf : forall m l, legal c rd ex (start m) l -> wf (heap (run c rd ex (start m) l)).
Proof. intros m l L. exact (proj1 (run_inv l _ (fun _ => False) (start_inv m _) L)). Qed.

(** ---- what the program sees of its own memory ---- *)

Lemma live_kept : forall s o x, wf (heap s) -> allowed c (heap s) o ->
  live (heap s) x -> live (heap (step c rd ex s o)) x ->
  (forall v, o <> Write x v) ->
  (forall refs four low size, o = Access refs four low -> In (x, size) refs -> within (heap s) x size) ->
  memory (step c rd ex s o) x = memory s x.
Proof.
  intros s o x W A (j & J & FJ & XJ) L' NW NA. pose proof rz4 as RZ4.
  pose proof (wf_in _ _ W J) as WJ.
  assert (EJ : extent c j x) by (unfold extent; destruct WJ; lia).
  destruct o as [k|b|b|b n|a v|refs four low]; cbn [allowed step] in *.
  - destruct A as (FR & P & B4 & P4 & AP). cbn [memory]. apply malloc_local; [repeat split; auto; lia|].
    intros Q. eapply AP; eauto.
  - destruct A as (k & K & B & FR). rewrite (find_spec _ b k) in * by auto. cbn [memory heap] in *.
    destruct L' as (i & I1 & I2 & I3). apply in_change in I1 as (i0 & I0 & [[NB ->]|[BI ->]]); [|discriminate].
    pose proof (wf_in _ _ W I0) as WI. apply free_local; [eapply wf_in; eauto|].
    eapply (other_extent (heap s) i0 k); eauto; [congruence|]. unfold extent. destruct WI; lia.
  - destruct A as (k & K & B & FR). rewrite (find_spec _ b k) in * by auto. cbn [memory heap] in *.
    apply reuse_local; [eapply wf_in; eauto|].
    eapply (other_extent (heap s) j k); eauto. intros Q.
    assert (T : j = k); [|congruence]. destruct (wf_uniq _ j k W J K) as [|T]; auto.
    pose proof (wf_in _ _ W K). unfold before, wfk in *. lia.
  - destruct A as (k & K & B & FR & N). rewrite (find_spec _ b k) in * by auto. cbn [memory heap] in *.
    pose proof (wf_in _ _ W K) as WK.
    destruct L' as (i & I1 & I2 & I3). apply in_change in I1 as (i0 & I0 & [[NB ->]|[BI ->]]).
    + pose proof (wf_in _ _ W I0) as WI. apply realloc_local; auto.
      eapply (other_extent (heap s) i0 k); eauto; [congruence|]. unfold extent. destruct WI; lia.
    + cbn [base req] in I3.
      assert (E1 : i0 = k).
      { destruct (wf_uniq _ i0 k W I0 K) as [|T]; auto.
        pose proof (wf_in _ _ W I0). unfold before, wfk in *. lia. }
      subst i0.
      assert (E2 : j = k).
      { destruct (wf_uniq _ j k W J K) as [|T]; auto. unfold before, wfk, extent in *. lia. }
      subst j. apply realloc_inside; auto; lia.
  - cbn [memory]. unfold upd. destruct (Z.eqb_spec x a); auto. subst. exfalso. eapply NW; eauto.
  - destruct (access c rd ex (heap s) (memory s) refs four low) as [m' p] eqn:E.
    apply access_effect in E as [E _]. cbn [memory]. destruct (E x) as [|(sz & Q & SU)]; auto.
    exfalso. rewrite (within_fine (heap s) x sz) in SU; auto; [discriminate| |].
    + eapply A; eauto.
    + eapply NA; eauto.
Qed.

(** reports are about bad references *)
Lemma report_sound : forall s refs four low p, wf (heap s) ->
  allowed c (heap s) (Access refs four low) ->
  reports (step c rd ex s (Access refs four low)) = reports s ++ p ->
  forall a sz, In (a, sz) p ->
    In (a, sz) refs /\ ~ within (heap s) a sz /\
    exists k, In k (heap s) /\ a < base k + pad k + rz c /\ base k - rz c <= a + sz /\
      (freed k = false -> a < base k \/ base k + req k < a + sz).
Proof.
  intros s refs four low p W A E a sz IN. cbn [step] in E.
  destruct (access c rd ex (heap s) (memory s) refs four low) as [m' q] eqn:AC.
  cbn [reports] in E. apply app_inv_head in E. subst q.
  apply access_effect in AC as [_ AC]. destruct (AC _ _ IN) as [R SU]. split; auto.
  split.
  { intros WI. rewrite within_fine in SU; auto; [discriminate|]. eapply A; eauto. }
  unfold suspect, in_redzone, in_freed in SU.
  destruct (overlap c (heap s) a (a + sz)) as [k|] eqn:O; [|discriminate].
  exists k.
  assert (OV : In k (heap s) /\ a < base k + pad k + rz c /\ base k - rz c <= a + sz).
  { clear - O. induction (heap s) as [|x r IH]; cbn in O; [discriminate|].
    destruct ((a <? base x + pad x + rz c) && (base x - rz c <=? a + sz)) eqn:T.
    - inversion O; subst. apply andb_true_iff in T. cbn. split; auto. lia.
    - apply IH in O. cbn. tauto. }
  destruct OV as (O1 & O2 & O3). repeat split; auto.
  intros FR. rewrite FR in SU. cbn in SU. rewrite orb_false_r in SU.
  apply orb_true_iff in SU. rewrite !andb_true_iff in SU. lia.
Qed.
Lemma access_reports : forall s refs four low, exists p,
  reports (step c rd ex s (Access refs four low)) = reports s ++ p.
Proof.
  intros. cbn [step]. destruct (access c rd ex (heap s) (memory s) refs four low) as [m' p].
  exists p. reflexivity.
Qed.
Lemma fine_silent : forall s refs four low, wf (heap s) ->
  (forall a sz, In (a, sz) refs -> 1 <= sz /\ within (heap s) a sz) ->
  reports (step c rd ex s (Access refs four low)) = reports s /\
  forall x, memory (step c rd ex s (Access refs four low)) x = memory s x.
Proof.
  intros s refs four low W A. cbn [step].
  destruct (access c rd ex (heap s) (memory s) refs four low) as [m' p] eqn:AC.
  apply access_effect in AC as [A1 A2]. cbn [reports memory]. split.
  - destruct p as [|[a sz] q]; [apply app_nil_r|]. exfalso.
    destruct (A2 a sz) as [R SU]; [cbn; auto|]. destruct (A _ _ R) as [S1 WI].
    rewrite within_fine in SU; auto. discriminate.
  - intros x. destruct (A1 x) as [|(sz & R & SU)]; auto. destruct (A _ _ R) as [S1 WI].
    rewrite within_fine in SU; auto. discriminate.
Qed.
End R.
