(** A whole history of client calls. *)
From Verif Require Import Base Mem Umbra_Model Umbra_Spec Umbra_Proofs1 Umbra_Proofs2 Umbra_Proofs3
  Umbra_Proofs4 Umbra_Proofs5 Umbra_Proofs6 Umbra_Proofs7 Umbra_Proofs8.
From Coq Require Import Lia.
Open Scope Z_scope.

Lemma to_shadow_le s v : 0 <= v -> to_shadow s v <= v * num s / den s.
Proof.
  intros H. unfold to_shadow, w64, W64. destruct s; cbn [is_up shift num den];
    rewrite ?Z.shiftr_div_pow2, ?Z.shiftl_mul_pow2, ?Z.mul_1_r, ?Z.div_1_r by lia.
  all: try (change (2 ^ 3) with 8); try (change (2 ^ 2) with 4); try (change (2 ^ 1) with 2);
    try (change (2 ^ 0) with 1); rewrite ?Z.div_1_r; try apply Z.le_refl.
  apply Z.mod_le; lia.
Qed.

Definition val (m : umap) (st : ustate) (a : Z) : Z := match cont m st a with Some v => v | None => 0 end.
Definition blks (m : umap) (st : ustate) (b : Z) : Prop :=
  exists y a, in_app (segs st) y /\ b = y / app_bs m /\ shadow_of m y a /\ liveb m st a = true.

Lemma cont_val m st a : map_ok m -> state_ok m st -> cont m st a = Some (val m st a).
Proof.
  intros Hm [L O]. unfold val. destruct (cont m st a) eqn:E; [reflexivity|]. exfalso.
  unfold cont in E. destruct (liveb m st a) eqn:El; [|discriminate].
  apply (liveb_iff m st a L) in El. destruct (O a El) as (v & Hv & _). congruence.
Qed.

Lemma val_of m st a v : cont m st a = Some v -> val m st a = v.
Proof. unfold val. intros ->. reflexivity. Qed.

Lemma in_app_ext m a b y : ext m a b -> (in_app (segs a) y <-> in_app (segs b) y).
Proof.
  intros (S & _). split; intros H.
  - eapply in_app_same; eauto.
  - eapply in_app_same; [apply same_layout_sym; exact S|exact H].
Qed.

Lemma gran_blk m y y' : y / den (sc m) = y' / den (sc m) -> y / app_bs m = y' / app_bs m.
Proof.
  intros H. rewrite app_bs_eq. assert (0 < den (sc m)) by (destruct (sc m); reflexivity).
  rewrite Z.mul_comm. rewrite <- !Z.div_div by (unfold ALLOC_UNIT; lia). rewrite H. reflexivity.
Qed.

Lemma in_app_blk m ss y z : layout_ok m ss -> in_app ss y -> z / app_bs m = y / app_bs m -> in_app ss z.
Proof.
  intros L Hy Hz. destruct (in_app_at m ss y L Hy) as (i & g & Hi & Hu & Hr & S1).
  exists i, g. split; [exact Hi|]. split; [exact Hu|].
  pose proof (app_bs_pos m) as Hbs.
  pose proof (mod_bs_22 m _ (so_base m g S1)) as A. pose proof (mod_bs_22 m _ (so_end m g S1)) as B.
  apply Z.div_exact in A; [|clear - Hbs; lia]. apply Z.div_exact in B; [|clear - Hbs; lia].
  pose proof (Z.div_mod z (app_bs m) ltac:(clear - Hbs; lia)) as Dz. pose proof (Z.mod_pos_bound z (app_bs m) Hbs) as Mz.
  pose proof (Z.div_mod y (app_bs m) ltac:(clear - Hbs; lia)) as Dy. pose proof (Z.mod_pos_bound y (app_bs m) Hbs) as My.
  rewrite Hz in Dz. clear - A B Dz Mz Dy My Hr Hbs.
  revert A B Dz Mz Dy My. generalize (ab g / app_bs m) (ae g / app_bs m) (y / app_bs m) (z mod app_bs m) (y mod app_bs m).
  intros p q r s t. intros. assert (p <= r) by nia. assert (r < q) by nia. nia.
Qed.

Lemma blks_mono m a b : ext m a b -> forall k, blks m a k -> blks m b k.
Proof.
  intros X k (y & s & H1 & H2 & H3 & H4). exists y, s.
  split; [apply (in_app_ext m a b); assumption|]. split; [exact H2|]. split; [exact H3|]. apply X. exact H4.
Qed.

Lemma blks_grow m a b (P : Z -> Prop) : map_ok m -> layout_ok m (segs a) -> ext m a b ->
  (forall s, liveb m b s = true -> liveb m a s = true \/
     exists y z, in_app (segs a) y /\ P (y / app_bs m) /\ z / app_bs m = y / app_bs m /\ shadow_of m z s) ->
  forall k, blks m b k -> blks m a k \/ P k.
Proof.
  intros Hm L X H k (y & s & H1 & -> & H3 & H4). apply (in_app_ext m a b y X) in H1.
  destruct (H s H4) as [Hl|(u & z & U1 & U2 & U3 & U4)].
  - left. exists y, s. auto.
  - right. assert (Hz : in_app (segs a) z) by (eapply in_app_blk; eauto).
    assert (E : y / app_bs m = z / app_bs m).
    { apply gran_blk. eapply gran_inj; eauto. }
    rewrite E, U3. exact U2.
Qed.

Lemma blks_made m a b x n : ext m a b -> app_range (segs a) x n -> made m b x n -> forall y, x <= y < x + n ->
  blks m b (y / app_bs m).
Proof.
  intros X R M y Hy. exists y, (first_shadow m y).
  assert (S : shadow_of m y (first_shadow m y)).
  { unfold shadow_of. pose proof (num_pos (sc m)). lia. }
  split; [apply (in_app_ext m a b y X); apply R; exact Hy|]. split; [reflexivity|].
  split; [exact S|]. eapply M; eauto.
Qed.

Lemma range_top m st x n : state_ok m st -> app_range (segs st) x n -> 0 <= x /\ 0 < n /\ x + n < 2 ^ 64.
Proof.
  intros O (H0 & Hn & R3). split; [exact H0|]. split; [exact Hn|].
  destruct (in_app_at m _ (x + n - 1) (state_layout m st O) (R3 (x + n - 1) ltac:(lia))) as (i & g & _ & _ & Hr & S).
  destruct (so_range m g S) as (_ & _ & Q). lia.
Qed.

Lemma in_range_sbyte m ss x n a : map_ok m -> layout_ok m ss -> app_range ss x n -> whole m x n ->
  in_range m x n a <-> exists i, 0 <= i < nshadow m n /\ a = sbyte m x i.
Proof.
  intros Hm L R W. split.
  - intros (y & Hy & Hs). unfold shadow_of in Hs.
    set (q := (y - x) / den (sc m)).
    assert (D : 0 < den (sc m)) by (destruct (sc m); reflexivity).
    assert (E : first_shadow m y = first_shadow m (x + q * den (sc m))).
    { destruct (in_app_at m ss y L (proj2 (proj2 R) y Hy)) as (i & g & Hi & Hu & Hr & S1).
      pose proof (mod_den_22 (sc m) (ab g) (so_base m g S1)) as B. pose proof (mod_den_22 (sc m) (ae g) (so_end m g S1)) as B2.
      destruct W as [W1 W2].
      rewrite (seg_first m g y Hm S1 Hr), (seg_first m g (x + q * den (sc m)) Hm S1).
      + unfold q. clear - Hy Hr B B2 W1 W2. destruct (sc m); cbn [num den] in *; lia.
      + unfold q. clear - Hy Hr B B2 W1 W2. destruct (sc m); cbn [num den] in *; lia. }
    exists (q * num (sc m) + (a - first_shadow m y)). destruct W as [W1 W2]. split.
    + unfold nshadow, q. clear - Hy Hs W1 W2. destruct (sc m); cbn [num den] in *; lia.
    + unfold sbyte. rewrite E in Hs |- *.
      replace ((q * num (sc m) + (a - first_shadow m (x + q * den (sc m)))) * den (sc m) / num (sc m)) with (q * den (sc m)).
      2:{ clear - Hs. revert Hs. generalize (first_shadow m (x + q * den (sc m))). intros f Hf.
          destruct (sc m); cbn [num den] in *; lia. }
      revert Hs. generalize (first_shadow m (x + q * den (sc m))). intros f Hf. clear - Hf.
      destruct (sc m); cbn [num den] in *; lia.
  - intros (i & Hi & ->). exists (x + i * den (sc m) / num (sc m)). destruct W as [W1 W2]. split.
    + clear - Hi W2. unfold nshadow in Hi. destruct (sc m); cbn [num den] in *; lia.
    + unfold shadow_of, sbyte. assert (P : 0 < num (sc m)) by (destruct (sc m); reflexivity). pose proof (Z.mod_pos_bound i (num (sc m)) P). lia.
Qed.

Definition step_ok (m : umap) (st : ustate) (op : uop) (st1 : ustate) (o : uout) : Prop :=
  ext m st st1 /\ answer m (val m st) op o /\ effect m (val m st) op (val m st1) /\
  (forall b, blks m st1 b -> blks m st b \/ touches m op b) /\
  (stops_early op = false -> forall b, touches m op b -> blks m st1 b).

Lemma only_blks m st st' x n : map_ok m -> state_ok m st -> ext m st st' -> app_range (segs st) x n ->
  only m st st' x n -> forall b, blks m st' b -> blks m st b \/ exists y, x <= y < x + n /\ b = y / app_bs m.
Proof.
  intros Hm O X R ON. apply blks_grow; auto; [apply state_layout; exact O|].
  intros s Hs. destruct (ON s Hs) as [H|(y & z & Hy & Hz & Hs2)]; [auto|]. right. exists y, z.
  split; [apply R; exact Hy|]. split; [exists y; auto|]. auto.
Qed.

Lemma sets_fill m st st' x n v : map_ok m -> state_ok m st -> app_range (segs st) x n -> sets m st st' x n v ->
  ((forall a, in_range m x n a -> val m st' a = v) /\ (forall a, ~ in_range m x n a -> val m st' a = val m st a)) /\
  (forall b, blks m st' b -> blks m st b \/ exists y, x <= y < x + n /\ b = y / app_bs m) /\
  (forall b, (exists y, x <= y < x + n /\ b = y / app_bs m) -> blks m st' b).
Proof.
  intros Hm O R (X & C1 & C2 & ON & MK). split; [split|split].
  - intros a (y & Hy & Hs). apply val_of. eapply C1; eauto.
  - intros a Ha. unfold val. rewrite C2; [reflexivity|exact Ha].
  - apply only_blks; assumption.
  - intros b (y & Hy & ->). eapply blks_made; eauto.
Qed.

Lemma step m st op : map_ok m -> state_ok m st -> op_ok m (segs st) op ->
  exists st1 o, do_op m st op = Ok (st1, S_ok, o) /\ step_ok m st op st1 o.
Proof.
  intros Hm O H. pose proof (state_layout m st O) as L. pose proof (mo_dflt m Hm) as Hd.
  destruct op as [x n v|x n v|x n|x n l|x n|s d n|x n v]; cbn [op_ok] in H.
  - destruct H as ((R & W & HL) & Hv). destruct (range_top m st x n O R) as (H0 & Hn & Ht).
    destruct (set_range_ok m 2 st x n v Hm O R W HL Hv) as (st' & E & S).
    exists st', UDone. split.
    + cbn [do_op]. unfold umbra_set_range, set_range_arch, DEPTH, w64, W64.
      rewrite (Z.mod_small (x + n)) by (clear - H0 Hn Ht; lia). replace (x + n <? x) with false by (clear - Hn; lia).
      replace (n =? 0) with false by (clear - Hn; lia). rewrite E. reflexivity.
    + destruct (sets_fill m st st' x n v Hm O R S) as (F & B1 & B2).
      split; [apply S|]. split; [reflexivity|]. split; [exact F|]. split; [exact B1|]. intros _. exact B2.
  - destruct H as ((i & g & Hi & Hu & H1 & H2 & H3) & Mx & Mn & Hv).
    destruct (create_ok m st i g x n v Hm O Hi Hu H1 H2 H3 Mx Mn Hv) as (st' & E & S & _).
    assert (R : app_range (segs st) x n).
    { destruct (so_range m g (lo_seg m _ L i g Hi Hu)) as (Q & _). split; [clear - Q H1; lia|]. split; [exact H2|].
      intros y Hy. exists i, g. split; [exact Hi|]. split; [exact Hu|]. clear - Hy H1 H3; lia. }
    exists st', UDone. split.
    + cbn [do_op]. unfold umbra_create. replace (n =? 0) with false by (clear - H2; lia). rewrite E. reflexivity.
    + destruct (sets_fill m st st' x n v Hm O R S) as (F & B1 & B2).
      split; [apply S|]. split; [reflexivity|]. split; [exact F|]. split; [exact B1|]. intros _. exact B2.
  - destruct H as (R & W & HL). destruct (range_top m st x n O R) as (H0 & Hn & Ht).
    destruct (set_range_ok m 2 st x n (dflt m) Hm O R W HL ltac:(clear - Hd; lia)) as (st' & E & S).
    exists st', UDone. split.
    + cbn [do_op]. unfold umbra_delete, delete_arch, set_range_arch, DEPTH.
      replace (n =? 0) with false by (clear - Hn; lia). rewrite E. reflexivity.
    + destruct (sets_fill m st st' x n (dflt m) Hm O R S) as (F & B1 & B2).
      split; [apply S|]. split; [reflexivity|]. split; [exact F|]. split; [exact B1|]. intros _. exact B2.
  - destruct H as ((R & W & HL) & Hl & Hb). destruct (range_top m st x n O R) as (H0 & Hn & Ht).
    destruct (write_ok m st x n (Z.of_nat (length l)) l Hm O R W HL) as (st' & E & (X & C1 & C2) & ON & MK).
    { rewrite Hl. unfold nshadow. apply to_shadow_le. clear - Hn; lia. } { rewrite Hl. apply Z.le_refl. } { exact Hb. }
    exists st', UDone. split.
    + cbn [do_op]. unfold umbra_write. replace (n =? 0) with false by (clear - Hn; lia). rewrite E. reflexivity.
    + assert (O1 : state_ok m st') by apply X.
      split; [exact X|]. split; [reflexivity|]. split; [split|split].
      * intros i Hi. rewrite <- (C1 i Hi). apply cont_val; assumption.
      * intros a Ha. unfold val. rewrite C2; [reflexivity|]. intros i Hi ->. apply Ha.
        apply (in_range_sbyte m (segs st) x n); auto. exists i. auto.
      * apply only_blks; assumption.
      * intros _ b (y & Hy & ->). eapply blks_made; eauto.
  - destruct H as (R & W & HL). destruct (range_top m st x n O R) as (H0 & Hn & Ht).
    destruct (read_ok m st x n (nshadow m n) Hm O R W HL) as (st' & l & E & X & C & ON & MK & E1 & E2).
    { unfold nshadow. apply to_shadow_le. clear - Hn; lia. }
    exists st', (UBytes l). split.
    + cbn [do_op]. unfold umbra_read. replace (n =? 0) with false by (clear - Hn; lia). rewrite E. reflexivity.
    + split; [exact X|]. split; [|split; [|split]].
      * exists l. split; [reflexivity|]. split; [exact E1|]. intros i Hi. rewrite (E2 i Hi). apply cont_val; assumption.
      * intros a. unfold val. rewrite C. reflexivity.
      * apply only_blks; assumption.
      * intros _ b (y & Hy & ->). eapply blks_made; eauto.
  - destruct H as ((R & W & HL) & (RD & WD & HLD) & Hden & Hbig & Hne & Hov).
    destruct (range_top m st s n O R) as (H0 & Hn & Ht).
    destruct (copy_ok m st s d n Hm O R RD W (proj1 WD) Hden Hbig Hov) as (st' & E & (X & C1 & C2) & ON & M1 & M2).
    exists st', UDone. split.
    + cbn [do_op]. unfold umbra_copy_range. replace (n =? 0) with false by (clear - Hn; lia).
      replace (s =? d) with false by (clear - Hne; lia). cbn [orb]. rewrite E. reflexivity.
    + split; [exact X|]. split; [reflexivity|]. split; [split|split].
      * intros i Hi. unfold val. rewrite (C1 i Hi). reflexivity.
      * intros a Ha. unfold val. rewrite C2; [reflexivity|]. intros i Hi ->. apply Ha.
        apply (in_range_sbyte m (segs st) d n); auto. exists i. auto.
      * apply blks_grow; auto. intros a Ha. destruct (ON a Ha) as [Q|(u & z & Hu & Hz & Hs)]; [auto|].
        right. exists u, z. destruct Hu as [Hu|Hu].
        -- split; [apply R; exact Hu|]. split; [left; exists u; auto|]. auto.
        -- split; [apply RD; exact Hu|]. split; [right; exists u; auto|]. auto.
      * intros _ b [(y & Hy & ->)|(y & Hy & ->)]; [apply (blks_made m st st' s n)|apply (blks_made m st st' d n)]; assumption.
  - destruct H as ((R & W & HL) & Hv). destruct (range_top m st x n O R) as (H0 & Hn & Ht).
    destruct (value_in_ok m st x n v Hm O R W HL Hv) as (st' & r & E & X & C & ON & F).
    exists st', (UFound r). split.
    + cbn [do_op]. unfold umbra_value_in. replace (n =? 0) with false by (clear - Hn; lia). rewrite E. reflexivity.
    + split; [exact X|]. split; [|split; [|split]].
      * exists r. split; [reflexivity|]. unfold found_at in F. destruct r as [y|].
        -- destruct F as (i & F1 & F2 & F3 & F4). exists i. split; [exact F1|]. split; [exact F2|].
           split; [apply val_of; exact F3|]. intros j Hj Hc. apply (F4 j Hj). rewrite <- Hc. apply cont_val; assumption.
        -- intros j Hj Hc. apply (F j Hj). rewrite <- Hc. apply cont_val; assumption.
      * intros a. unfold val. rewrite C. reflexivity.
      * apply only_blks; assumption.
      * discriminate.
Qed.

Lemma op_ok_ext m st st1 op : ext m st st1 -> op_ok m (segs st) op -> op_ok m (segs st1) op.
Proof.
  intros X. assert (RO : forall x n, range_ok m (segs st) x n -> range_ok m (segs st1) x n).
  { intros x n (R & Q). split; [eapply app_range_ext; eauto|exact Q]. }
  destruct op; cbn [op_ok]; try (intuition auto; fail).
  intros ((i & g & Hi & Hu & Hr) & Q). split; [|exact Q].
  pose proof (proj1 X) as S. apply same_layout_sym in S.
  destruct (same_layout_back _ _ i g S Hi) as (g' & Hg & E). apply with_bits_inv in E.
  exists i, g'. intuition congruence.
Qed.

Lemma steps m ops : map_ok m -> forall st, state_ok m st -> Forall (op_ok m (segs st)) ops ->
  exists st' outs, do_ops m st ops = Ok (st', outs) /\ ext m st st' /\
    history m (val m st) (blks m st) ops outs (val m st') (blks m st').
Proof.
  intros Hm. induction ops as [|op ops IH]; intros st O F.
  - exists st, []. split; [reflexivity|]. split; [apply ext_refl; exact O|]. constructor.
  - inversion F as [|? ? F1 F2]; subst.
    destruct (step m st op Hm O F1) as (st1 & o & E & X & A & EF & B1 & B2).
    destruct (IH st1) as (st2 & outs & E2 & X2 & HH).
    { apply X. } { eapply Forall_impl; [|exact F2]. intros p Hp. eapply op_ok_ext; eauto. }
    exists st2, ((S_ok, o) :: outs). split; [|split].
    + cbn [do_ops]. rewrite E. cbn [bind]. rewrite E2. reflexivity.
    + eapply ext_trans; eauto.
    + eapply h_cons; [exact A|exact EF|apply blks_mono; exact X|exact B1|exact B2|exact HH].
Qed.

Lemma started_no m st a : started m st -> map_ok m -> ~ live m st a.
Proof.
  intros (ss & E & _) Hm (i & g & Hi & Hu & _ & Hb). cbv zeta in Hb.
  destruct (map_init_done m ss (segs st) E) as [D1 _].
  assert (Li : (i < length (segs st))%nat) by (apply nth_error_Some; congruence).
  destruct (D1 i g Hi Li Hu) as (g0 & -> & _). exact Hb.
Qed.

Lemma started_ok m st : map_ok m -> started m st -> state_ok m st.
Proof.
  intros Hm S. split.
  - destruct S as (ss & E & R). eapply init_layout; eauto.
  - intros a Ha. exfalso. exact (started_no m st a S Hm Ha).
Qed.

Lemma history_ext m ops outs : forall V B V2 B2 W C, history m V B ops outs V2 B2 ->
  (forall a, V a = W a) -> (forall b, B b <-> C b) -> ops <> [] -> history m W C ops outs V2 B2.
Proof.
  intros V B V2 B2 W C H HV HB Hne. destruct H as [|V B op o V1 B1 ops outs V2 B2 A E M1 M2 M3 H]; [congruence|].
  apply (h_cons m W C op o V1 B1); [| | | | |exact H].
  - destruct op; cbn [answer] in *; try exact A.
    + destruct A as (l & -> & A1 & A2). exists l. split; [reflexivity|]. split; [exact A1|].
      intros i Hi. rewrite <- HV. auto.
    + destruct A as (r & -> & A1). exists r. split; [reflexivity|]. destruct r as [y|].
      * destruct A1 as (i & Q1 & Q2 & Q3 & Q4). exists i. rewrite <- HV. split; [exact Q1|]. split; [exact Q2|].
        split; [exact Q3|]. intros j Hj. rewrite <- HV. auto.
      * intros j Hj. rewrite <- HV. auto.
  - destruct op; cbn [effect] in *; try (destruct E as [E1 E2]; split); intros; try rewrite <- HV; auto.
  - intros b Hb. apply M1, HB, Hb.
  - intros b Hb. destruct (M2 b Hb) as [Q|Q]; [left; apply HB, Q|auto].
  - exact M3.
Qed.

Lemma history_run m st ops : map_ok m -> started m st -> Forall (op_ok m (segs st)) ops ->
  exists st' outs V B, do_ops m st ops = Ok (st', outs) /\
    history m (fun _ => dflt m) (fun _ => False) ops outs V B /\
    (forall a v, shows m st' a v <-> v = V a) /\
    (forall y a, in_app (segs st) y -> shadow_of m y a -> (live m st' a <-> B (y / app_bs m))) /\
    (forall y, in_app (segs st) y <-> in_app (segs st') y) /\
    state_ok m st'.
Proof.
  intros Hm S F. pose proof (started_ok m st Hm S) as O.
  destruct (steps m ops Hm st O F) as (st' & outs & E & X & H).
  assert (V0 : forall a, val m st a = dflt m).
  { intros a. unfold val, cont. destruct (liveb m st a) eqn:El; [|reflexivity].
    apply (liveb_iff m st a (state_layout m st O)) in El. exfalso. exact (started_no m st a S Hm El). }
  assert (B0 : forall b, blks m st b <-> False).
  { intros b. split; [|tauto]. intros (y & a & _ & _ & _ & El).
    apply (liveb_iff m st a (state_layout m st O)) in El. exact (started_no m st a S Hm El). }
  assert (O' : state_ok m st') by apply X. pose proof (state_layout m st' O') as L'.
  assert (SH : forall a v, shows m st' a v <-> v = val m st' a).
  { intros a v. rewrite (shows_cont m st' a v L'), (cont_val m st' a Hm O'). split; congruence. }
  assert (LB : forall y a, in_app (segs st) y -> shadow_of m y a -> (live m st' a <-> blks m st' (y / app_bs m))).
  { intros y a Hy Hs. rewrite <- (liveb_iff m st' a L'). apply (in_app_ext m st st' y X) in Hy. split.
    - intros Hl. exists y, a. auto.
    - intros (z & s & Hz & Eb & Hsz & Hl).
      destruct (get_info_ok m st' y Hm O' Hy) as (b & Hb & _ & _ & U).
      pose proof (app_bs_pos m) as Hbs.
      assert (IN : forall w, w / app_bs m = y / app_bs m -> b <= w < b + app_bs m).
      { intros w Hw. pose proof (Z.div_mod w (app_bs m) ltac:(clear - Hbs; lia)) as Dw.
        pose proof (Z.div_mod y (app_bs m) ltac:(clear - Hbs; lia)) as Dy.
        pose proof (Z.mod_pos_bound w (app_bs m) Hbs). rewrite Hw in Dw. lia. }
      destruct (U y a (IN y eq_refl) Hs) as (_ & ->).
      destruct (U z s (IN z (eq_sym Eb)) Hsz) as (_ & <-). exact Hl. }
  destruct ops as [|op ops].
  - cbn in E. injection E as <- <-. exists st, [], (fun _ => dflt m), (fun _ => False).
    split; [reflexivity|]. split; [constructor|]. split; [|split; [|split; [tauto|exact O]]].
    + intros a v. rewrite SH, V0. tauto.
    + intros y a Hy Hs. rewrite (LB y a Hy Hs). apply B0.
  - exists st', outs, (val m st'), (blks m st'). split; [exact E|]. split; [|split; [exact SH|split; [exact LB|split; [|exact O']]]].
    + eapply history_ext; [exact H|exact V0|exact B0|discriminate].
    + intros y. exact (in_app_ext m st st' y X).
Qed.

(** What the block query says after any history. *)
Lemma history_info m st ops : map_ok m -> started m st -> Forall (op_ok m (segs st)) ops ->
  exists st' outs V B, do_ops m st ops = Ok (st', outs) /\
    history m (fun _ => dflt m) (fun _ => False) ops outs V B /\
    (forall a v, shows m st' a v <-> v = V a) /\
    (forall y a, in_app (segs st) y -> shadow_of m y a -> (live m st' a <-> B (y / app_bs m))) /\
    (forall y, in_app (segs st) y -> let b := y - y mod app_bs m in
       ~ at_edge (segs st') (first_shadow m b) ->
       exists t, get_shadow_memory m st' y =
                 Ok (first_shadow m y, Info b (app_bs m) (first_shadow m b) (sh_bs m) t) /\
         ((t = Normal /\ B (y / app_bs m)) \/ (t = NotAlloc /\ ~ B (y / app_bs m)))).
Proof.
  intros Hm S F. destruct (history_run m st ops Hm S F) as (st' & outs & V & B & E & H & SH & LB & IA & O').
  exists st', outs, V, B. split; [exact E|]. split; [exact H|]. split; [exact SH|]. split; [exact LB|].
  intros y Hy b NE. pose proof Hy as Hy0. apply IA in Hy.
  destruct (get_info_ok m st' y Hm O' Hy) as (b' & Hb & G & _ & _). fold b in Hb. subst b'.
  specialize (G NE). eexists. split; [exact G|].
  assert (SY : shadow_of m y (first_shadow m y)).
  { unfold shadow_of. pose proof (num_pos (sc m)) as Q. clear - Q. lia. }
  rewrite <- (LB y _ Hy0 SY). rewrite <- (liveb_iff m st' _ (state_layout m st' O')).
  destruct (liveb m st' (first_shadow m y)); [left; auto|right; split; [reflexivity|discriminate]].
Qed.
