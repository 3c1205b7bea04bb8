(** Proofs about Dr. Heapstat, 2: the peak. *)
From Verif Require Import Base Heapstat_Model Heapstat_Spec Heapstat_Proofs.
Local Open Scope Z_scope.

Lemma near_mono t x y p q : 0 <= t -> near t x p -> y <= x -> p <= q -> near t y q.
Proof. unfold near; nia. Qed.

Lemma check_near c w : 0 <= c_thr c <= 99 -> 0 <= s_occ (peak w) ->
  0 <= s_occ (live w) -> 100 * s_occ (live w) < 2 ^ 64 ->
  near (c_thr c) (s_occ (live w)) (s_occ (peak (check_peak c w))).
Proof.
  intros T P0 L0 L. unfold check_peak.
  destruct (Z.ltb_spec (s_occ (peak w)) (s_occ (live w))) as [G|G].
  2:{ unfold near. nia. }
  destruct (exceeds (s_occ (live w)) _ _) eqn:E; cbn [orb].
  { cbn [peak]. unfold near. nia. }
  assert (Q : near (c_thr c) (s_occ (live w)) (s_occ (peak w))).
  { unfold exceeds, u64, u32 in E. rewrite Z.abs_eq in E by lia.
    rewrite (Z.mod_small (c_thr c)) in E by lia.
    rewrite !Z.mod_small in E by nia. unfold near. lia. }
  destruct (_ || _); [|auto]. cbn [peak]. unfold near. nia.
Qed.
Lemma check_rel c w :
  s_occ (peak w) <= s_occ (peak (check_peak c w)) /\
  (peak (check_peak c w) = peak w \/ peak (check_peak c w) = live w).
Proof.
  unfold check_peak. destruct (Z.ltb_spec (s_occ (peak w)) (s_occ (live w))) as [G|G].
  2:{ split; [lia|auto]. }
  destruct (_ || _); cbn [peak]; [split; [lia|auto]|split; [lia|auto]].
Qed.

(** the peak is kept, or is what is live *)
Definition pk (w w' : st) : Prop :=
  s_occ (peak w) <= s_occ (peak w') /\
  (content (peak w') = content (peak w) \/ content (peak w') = content (live w)).
Lemma pk_refl w : pk w w.
Proof. split; [lia|auto]. Qed.
Lemma pk_trans w w1 w2 : pk w w1 -> content (live w1) = content (live w) ->
  pk w1 w2 -> pk w w2.
Proof.
  intros [A B] E [C D]. split; [lia|].
  destruct D as [D|D]; rewrite D; [auto|]. right; congruence.
Qed.

Lemma take_pk c w w' : (0 < c_n c)%nat -> wf c w -> take c w = Ok w' -> pk w w'.
Proof.
  intros N [L B] H. unfold take in H.
  apply bind_ok in H. destruct H as [[[i fl] fr] [H1 H2]]. apply ok_inj in H2. subst w'.
  destruct (check_rel c (stamped w)) as [C1 C2].
  unfold pk; cbn [peak]. split; [exact C1|].
  destruct C2 as [C2|C2]; rewrite C2; [auto|right].
  unfold live; cbn [stamped snaps idx]. rewrite slot_upd_same by lia. reflexivity.
Qed.
Lemma post_loop_pk c : (0 < c_n c)%nat -> forall k d w w', wf c w ->
  post_loop c k d w = Ok w' -> pk w w'.
Proof.
  intros N; induction k; intros d w w' F H; cbn [post_loop] in H.
  - destruct (_ <? _); [discriminate|]. injection H as <-. apply pk_refl.
  - destruct (_ <? _); [|injection H as <-; apply pk_refl].
    apply bind_ok in H. destruct H as [w1 [H1 H2]].
    destruct (take_wf c w w1 N F H1) as [F1 E1].
    eapply pk_trans; [eapply take_pk; eauto|auto|eauto].
Qed.
Lemma post_pk c w a p o w' : (0 < c_n c)%nat -> wf c w ->
  account_post c w a p o = Ok w' -> pk w w'.
Proof.
  intros N F H. unfold account_post in H.
  apply bind_ok in H. destruct H as [w1 [H1 H2]]. injection H2 as <-.
  change (pk w w1).
  destruct (c_unit c).
  - destruct (negb _); [discriminate|].
    destruct (_ <? _).
    + apply bind_ok in H1. destruct H1 as [w2 [H1 H2]]. injection H2 as <-.
      exact (post_loop_pk c N _ _ _ _ F H1).
    + injection H1 as <-. split; [apply Z.le_refl|left; reflexivity].
  - destruct (_ <=? _).
    + apply bind_ok in H1. destruct H1 as [w2 [H1 H2]]. injection H2 as <-.
      exact (take_pk c (with_counts w (af_cur w) (bcount w) (acount w - 1)) w2 N F H1).
    + injection H1 as <-. split; [apply Z.le_refl|left; reflexivity].
  - injection H1 as <-. split; [apply Z.le_refl|left; reflexivity].
Qed.

(** a step: the peak does not go down, shows what was live before or after,
    and is made up to date before something is freed *)
Lemma step_pk c y o y' : c_ok c -> wf c (y_st y) -> step c y o = Ok y' ->
  0 <= s_occ (peak (y_st y)) -> 0 <= s_occ (live (y_st y)) ->
  100 * s_occ (live (y_st y)) < 2 ^ 64 ->
  s_occ (peak (y_st y)) <= s_occ (peak (y_st y')) /\
  (content (peak (y_st y')) = content (peak (y_st y)) \/
   content (peak (y_st y')) = content (live (y_st y)) \/
   content (peak (y_st y')) = content (live (y_st y'))) /\
  (match o with
   | Free h => present (y_blks y) h = true
   | Realloc h req _ => exists b, find_blk h (y_blks y) = Some b /\ req < b_req b
   | Dump _ => True
   | _ => False
   end -> near (c_thr c) (s_occ (live (y_st y))) (s_occ (peak (y_st y')))).
Proof.
  intros K W H P0 L0 L.
  assert (N : (0 < c_n c)%nat) by (destruct K; lia).
  assert (T : 0 <= c_thr c <= 99) by apply K.
  assert (CN := check_near c (y_st y) T P0 L0 L).
  destruct (check_rel c (y_st y)) as [CR1 CR2].
  assert (FIN : forall w0 s w1 a p o',
    w0 = y_st y \/ w0 = check_peak c (y_st y) ->
    account_post c (with_live w0 s) a p o' = Ok w1 ->
    s_occ (peak (y_st y)) <= s_occ (peak w0) /\
    s_occ (peak w0) <= s_occ (peak w1) /\
    (content (peak w1) = content (peak (y_st y)) \/
     content (peak w1) = content (live (y_st y)) \/
     content (peak w1) = content (live w1))).
  { intros w0 s w1 a p o' E Hp.
    assert (W0 : wf c w0) by (destruct E as [-> | ->]; [auto|apply check_peak_wf; auto]).
    destruct (with_live_wf c w0 s W0) as [W1 L1].
    destruct (post_wf _ _ _ _ _ _ N W1 Hp) as [W2 L2].
    destruct (post_pk _ _ _ _ _ _ N W1 Hp) as [Q1 Q2].
    cbn [with_live peak] in Q1, Q2.
    split; [destruct E as [-> | ->]; lia|]. split; [auto|].
    destruct Q2 as [Q2|Q2]; [|right; right; congruence].
    destruct E as [-> | ->]; [auto|].
    rewrite Q2. destruct CR2 as [-> | ->]; auto. }
  destruct o as [h id req pad|h|h req pad| |e]; cbn [step] in H.
  - unfold do_add in H. destruct (find_blk h (y_blks y)) eqn:E.
    { injection H as <-. split; [lia|]. split; [auto|easy]. }
    apply bind_ok in H. destruct H as [s [H1 H2]].
    apply bind_ok in H2. destruct H2 as [w1 [H2 H3]]. injection H3 as <-.
    destruct (FIN _ _ _ _ _ _ (or_introl eq_refl) H2) as (F1 & F2 & F3).
    cbn [y_st]. split; [lia|]. split; [auto|easy].
  - unfold do_free in H. unfold present. rewrite find_exists.
    destruct (find_blk h (y_blks y)) eqn:E.
    2:{ injection H as <-. split; [lia|]. split; [auto|easy]. }
    apply bind_ok in H. destruct H as [s [H1 H2]].
    apply bind_ok in H2. destruct H2 as [w1 [H2 H3]]. injection H3 as <-.
    destruct (FIN _ _ _ _ _ _ (or_intror eq_refl) H2) as (F1 & F2 & F3).
    cbn [y_st]. split; [lia|]. split; [auto|].
    intros _. eapply near_mono; [lia|exact CN|lia|auto].
  - unfold do_realloc in H.
    destruct (find_blk h (y_blks y)) as [b|] eqn:E.
    2:{ injection H as <-. split; [lia|]. split; [auto|]. intros (b & Hb & _); discriminate. }
    apply bind_ok in H. destruct H as [s [H1 H2]].
    apply bind_ok in H2. destruct H2 as [w1 [H2 H3]]. injection H3 as <-.
    destruct (Z.ltb_spec (req - b_req b) 0) as [G|G].
    + destruct (FIN _ _ _ _ _ _ (or_intror eq_refl) H2) as (F1 & F2 & F3).
      cbn [y_st]. split; [lia|]. split; [auto|].
      intros _. eapply near_mono; [lia|exact CN|lia|auto].
    + destruct (FIN _ _ _ _ _ _ (or_introl eq_refl) H2) as (F1 & F2 & F3).
      cbn [y_st]. split; [lia|]. split; [auto|].
      intros (b0 & Hb & Q). injection Hb as <-. lia.
  - apply bind_ok in H. destruct H as [w [H1 H2]]. injection H2 as <-. cbn [y_st].
    destruct (take_pk _ _ _ N W H1) as [Q1 Q2].
    split; [auto|]. split; [destruct Q2; auto|easy].
  - injection H as <-. unfold do_dump; cbn [y_st].
    set (s1 := set_stamp _ _).
    destruct (with_live_wf c (y_st y) s1 W) as [W1 L1].
    destruct (check_rel c (with_live (y_st y) s1)) as [Q1 Q2].
    split; [exact Q1|]. split.
    + destruct Q2 as [Q2|Q2]; rewrite Q2; [left; reflexivity|].
      right; left. rewrite L1. reflexivity.
    + intros _.
      assert (LO : s_occ (live (with_live (y_st y) s1)) = s_occ (live (y_st y)))
        by (rewrite L1; reflexivity).
      rewrite <- LO. apply check_near; [auto|auto|rewrite LO; auto|rewrite LO; auto].
Qed.

(** * Runs *)
Lemma space_nonneg c bs : c_ok c -> blks_ok bs -> 0 <= tot (space c) bs.
Proof.
  intros K [_ F]. assert (0 <= c_hdr c) by apply K.
  induction F as [|x r (Q1 & Q2 & _) F IH]; cbn [tot]; [lia|]. unfold space at 1. lia.
Qed.
Lemma shows_occ c bs s : c_ok c -> blks_ok bs -> small c bs -> shows c bs s ->
  s_occ s = tot (space c) bs.
Proof.
  intros K B Q (_ & _ & O & _). rewrite O. apply Z.mod_small.
  pose proof (space_nonneg c bs K B). unfold small in Q. lia.
Qed.
Lemma heap_ok ops : Forall op_ok ops -> blks_ok (heap ops).
Proof.
  induction ops as [|o ops IH] using rev_ind; intros F.
  - split; constructor.
  - apply Forall_app in F. destruct F as [F1 F2]. apply Forall_inv in F2.
    rewrite heap_snoc. apply heap1_ok; auto.
Qed.
Lemma grow_app ops : forall bs o, all_grow bs (ops ++ [o]) ->
  all_grow bs ops /\ grows (fold_left heap1 ops bs) o.
Proof.
  induction ops; simpl; intros bs o H; [tauto|].
  destruct H as [H1 H2]. destruct (IHops _ _ H2). auto.
Qed.
Lemma prefix_snoc {A} (l : list A) x a b : l ++ [x] = a ++ b ->
  (a = l ++ [x]) \/ exists b', l = a ++ b'.
Proof.
  intros E. destruct b as [|z b _] using rev_ind.
  - rewrite app_nil_r in E. auto.
  - rewrite app_assoc in E. apply app_inj_tail in E. destruct E as [E _].
    right. exists b. auto.
Qed.

(** what an operation that does not go through a check leaves is no less *)
Lemma no_drop c bs o : c_ok c -> blks_ok bs -> op_ok o -> grows bs o ->
  tot (space c) bs <= tot (space c) (heap1 bs o) \/
  match o with
  | Free h => present bs h = true
  | Realloc h req _ => exists b, find_blk h bs = Some b /\ req < b_req b
  | _ => False
  end.
Proof.
  intros K [D F] OKo G. assert (HB : 0 <= c_hdr c) by apply K.
  destruct o as [h id req pad|h|h req pad| |e]; cbn [heap1]; try (left; lia).
  - left. destruct (existsb _ bs); [lia|]. cbn [tot]. unfold space at 2.
    destruct OKo. cbn [b_req b_pad]. lia.
  - destruct (present bs h) eqn:E; [auto|left].
    unfold present in E. rewrite find_exists in E.
    destruct (find_blk h bs) eqn:E2; [discriminate|].
    pose proof (find_none_in _ _ E2) as NI.
    assert (Q : filter (fun b => negb (b_h b =? h)) bs = bs).
    { clear -NI. induction bs as [|x r IH]; simpl; auto.
      destruct (Z.eqb_spec (b_h x) h) as [e|e];
        [exfalso; exact (NI x (or_introl eq_refl) e)|].
      simpl. rewrite IH; auto. intros; apply NI; right; auto. }
    rewrite Q. lia.
  - destruct (find_blk h bs) as [b|] eqn:E.
    + destruct (Z_lt_dec req (b_req b)) as [l|l]; [right; exists b; auto|left].
      destruct (find_in _ _ _ E) as [I Eh].
      pose (g := fun x => mkB h (b_id x) req pad).
      rewrite (tot_replace _ h g _ b) by auto.
      cbn [grows] in G. specialize (G b I Eh ltac:(lia)).
      unfold space at 3 4, g; cbn [b_req b_pad]. lia.
    + left. pose proof (find_none_in _ _ E) as NI.
      assert (Q : map (fun b => if b_h b =? h then mkB h (b_id b) req pad else b) bs = bs).
      { clear -NI. induction bs as [|x r IH]; simpl; auto.
        destruct (Z.eqb_spec (b_h x) h) as [e|e];
          [exfalso; exact (NI x (or_introl eq_refl) e)|].
        rewrite IH; auto. intros; apply NI; right; auto. }
      rewrite Q. lia.
Qed.

Definition peaked (c : cfg) (ops : list op) (y : sys) : Prop :=
  (exists a b, ops = a ++ b /\ shows c (heap a) (peak (y_st y))) /\
  (forall a b, ops = a ++ b -> all_grow [] ops ->
     tot (space c) (heap a) <= tot (space c) (heap ops) \/
     near (c_thr c) (tot (space c) (heap a)) (s_occ (peak (y_st y)))).

Lemma peaked_run c ops : c_ok c -> forall y, Forall op_ok ops -> always few ops ->
  always (small c) ops -> run c ops = Ok y -> peaked c ops y.
Proof.
  intros K. induction ops as [|o ops IH] using rev_ind; intros y F A SM H.
  - injection H as <-. split.
    + exists [], []. split; [auto|].
      destruct (good_init c K) as (_ & _ & _ & S0).
      unfold live, init in S0; cbn [y_st snaps idx] in S0.
      replace (slot (repeat snap0 (c_n c)) 0) with snap0 in S0 by (destruct (c_n c); reflexivity).
      exact S0.
    + intros a b E _. symmetry in E. apply app_eq_nil in E. destruct E as [-> _]. left; lia.
  - pose proof (good_run c _ K y F A H) as GY.
    apply run_snoc in H. destruct H as [y0 [H1 H2]].
    pose proof F as F0.
    apply Forall_app in F. destruct F as [F1 F2]. apply Forall_inv in F2.
    destruct (always_snoc _ _ _ A) as [A1 A2].
    destruct (always_snoc _ _ _ SM) as [SM1 SM2].
    destruct (IH y0 F1 A1 SM1 H1) as [(pa & pb & Ep & Sp) PK].
    destruct (good_run c ops K y0 F1 A1 H1) as (W & EB & B & S1).
    assert (BPA : blks_ok (heap pa)).
    { apply heap_ok. rewrite Ep in F1. apply Forall_app in F1. tauto. }
    assert (SPA : small c (heap pa)) by (apply (SM1 pa pb Ep)).
    assert (SOP : small c (heap ops)) by (apply (SM1 ops []); rewrite app_nil_r; auto).
    pose proof (shows_occ _ _ _ K BPA SPA Sp) as OP.
    pose proof (shows_occ _ _ _ K B SOP S1) as OL.
    pose proof (space_nonneg c _ K BPA). pose proof (space_nonneg c _ K B).
    destruct (step_pk c y0 o y K W H2) as (Q1 & Q2 & Q3);
      [lia|lia|rewrite OL; exact SOP|].
    destruct GY as (WY & EY & BY & SY).
    split.
    + destruct Q2 as [Q2|[Q2|Q2]].
      * exists pa, (pb ++ [o]). rewrite Ep, app_assoc. split; [auto|].
        eapply shows_content; [symmetry; exact Q2|auto].
      * exists ops, [o]. split; [auto|].
        eapply shows_content; [symmetry; exact Q2|auto].
      * exists (ops ++ [o]), []. rewrite app_nil_r. split; [auto|].
        eapply shows_content; [symmetry; exact Q2|auto].
    + intros a b E G. apply grow_app in G. destruct G as [G1 G2].
      fold (heap ops) in G2.
      destruct (prefix_snoc _ _ _ _ E) as [-> |[b' E']]; [left; lia|].
      destruct (PK a b' E' G1) as [P|P].
      2:{ right. eapply near_mono; [apply K|exact P|lia|auto]. }
      rewrite heap_snoc.
      destruct (no_drop c (heap ops) o K B F2 G2) as [X|X]; [left; lia|right].
      eapply near_mono; [apply K| |exact P|apply Z.le_refl].
      rewrite <- OL. apply Q3. rewrite EB. destruct o; try easy.
Qed.

Lemma near_run c ops e y : c_ok c -> Forall op_ok ops -> always few ops ->
  always (small c) ops -> all_grow [] ops -> run c (ops ++ [Dump e]) = Ok y ->
  forall a b, ops = a ++ b ->
  near (c_thr c) (tot (space c) (heap a)) (s_occ (peak (y_st y))).
Proof.
  intros K F A SM G H a b E.
  apply run_snoc in H. destruct H as [y0 [H1 H2]].
  destruct (peaked_run c ops K y0 F A SM H1) as [(pa & pb & Ep & Sp) PK].
  destruct (good_run c ops K y0 F A H1) as (W & EB & B & S1).
  assert (BPA : blks_ok (heap pa)).
  { apply heap_ok. rewrite Ep in F. apply Forall_app in F. tauto. }
  assert (SPA : small c (heap pa)) by (apply (SM pa pb Ep)).
  assert (SOP : small c (heap ops)) by (apply (SM ops []); rewrite app_nil_r; auto).
  pose proof (shows_occ _ _ _ K BPA SPA Sp) as OP.
  pose proof (shows_occ _ _ _ K B SOP S1) as OL.
  pose proof (space_nonneg c _ K BPA). pose proof (space_nonneg c _ K B).
  destruct (step_pk c y0 (Dump e) y K W H2) as (Q1 & Q2 & Q3);
    [lia|lia|rewrite OL; exact SOP|].
  specialize (Q3 Logic.I).
  destruct (PK a b E G) as [P|P].
  - eapply near_mono; [apply K|exact Q3|lia|lia].
  - eapply near_mono; [apply K|exact P|lia|lia].
Qed.
