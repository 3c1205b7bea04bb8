(** Proofs that bad references are noticed. *)
From Verif Require Import Base Pattern_Model Pattern_Spec Pattern_Proofs Pattern_Proofs2.
Require Import Lia.
Local Open Scope Z_scope.

Section D.
Variable c : cfg.
Hypothesis G : good_cfg c.
Variable rd : Z -> bool.
Variable ex : Z -> Z -> bool.

Lemma read_ok : forall n a, (forall x, a <= x < a + Z.of_nat n -> rd x = true) -> can_read rd n a = true.
Proof.
  induction n; intros a H; cbn [can_read]; auto.
  rewrite H by lia. apply IHn. intros x X. apply H. lia.
Qed.

Section Z.
Variable m : mem.
Variables lo hi : Z.
Hypothesis F : filled c m lo hi.
Hypothesis RD : forall x, lo <= x < hi -> rd x = true.

Lemma word : forall a, lo <= a -> a + 4 <= hi -> Z.even a = true ->
  can_read rd 4 a && (load 4 m a =? pattern c) = true.
Proof.
  intros a A B E. rewrite read_ok by (intros; apply RD; lia).
  rewrite (load4 c G) by (auto; intros x X; apply F; lia). rewrite E, Z.eqb_refl. reflexivity.
Qed.
Lemma even_shift : forall a k, Z.even a = true -> Z.even (a + 4 * k) = true.
Proof. intros a k E. rewrite Z.even_add, E, Z.even_mul. reflexivity. Qed.

Lemma count_fwd : forall n a j, (j <= n)%nat -> lo <= a -> a + 4 * Z.of_nat j <= hi ->
  Z.even a = true -> Z.of_nat j <= count c rd n m a 4.
Proof.
  induction n; intros a j J A B E; cbn [count]; [lia|].
  destruct j as [|j].
  - destruct (_ && _); [|lia]. enough (0 <= count c rd n m (a + 4) 4) by lia.
    clear. generalize (a + 4). induction n; intros; cbn [count]; [lia|]. destruct (_ && _); [|lia].
    specialize (IHn (z + 4)). lia.
  - rewrite word by (auto; lia).
    assert (Z.of_nat j <= count c rd n m (a + 4) 4); [|lia].
    apply IHn; try lia. replace (a + 4) with (a + 4 * 1) by lia. apply even_shift; auto.
Qed.
Lemma count_nonneg : forall n a st, 0 <= count c rd n m a st.
Proof.
  induction n; intros; cbn [count]; [lia|]. destruct (_ && _); [|lia].
  specialize (IHn (a + st) st). lia.
Qed.
Lemma count_back : forall n a j, (j <= n)%nat -> lo <= a - 4 * (Z.of_nat j - 1) -> a + 4 <= hi ->
  Z.even a = true -> Z.of_nat j <= count c rd n m a (-4).
Proof.
  induction n; intros a j J A B E; cbn [count]; [lia|].
  destruct j as [|j].
  - destruct (_ && _); [|lia]. pose proof (count_nonneg n (a + -4) (-4)). lia.
  - rewrite word by (auto; lia).
    assert (Z.of_nat j <= count c rd n m (a + -4) (-4)); [|lia].
    apply IHn; try lia. replace (a + -4) with (a + 4 * -1) by lia. apply even_shift; auto.
Qed.

Lemma align_back_spec : forall a, (4 | align_back a 4) /\ align_back a 4 <= a < align_back a 4 + 4.
Proof.
  intros a. unfold align_back. split; [exists (a / 4); reflexivity|].
  pose proof (Z.div_mod a 4). pose proof (Z.mod_pos_bound a 4). lia.
Qed.

Lemma pre_ok : forall a, (4 | hi) -> rz c <= hi - align_fwd lo 4 -> lo <= a < hi ->
  pre_check c rd m a = true.
Proof.
  intros a [h H] SZ A. unfold pre_check.
  destruct (align_back_spec a) as ([p P] & AB). set (w := align_back a 4) in *.
  destruct (align_fwd_spec lo) as ([q Q] & AF & _). set (lw := align_fwd lo 4) in *.
  destruct G as (_ & RP & [r R]).
  assert (CN : COUNT c = r) by (unfold COUNT; rewrite R; apply Z.div_mul; lia).
  assert (R1 : 1 <= r) by lia.
  assert (HALF : r / 2 < r) by (apply Z.div_lt; lia).
  rewrite CN.
  assert (EW : Z.even w = true) by (rewrite P, Z.even_mul; apply orb_true_r).
  assert (EW4 : Z.even (w + 4) = true) by (replace (w + 4) with (w + 4 * 1) by lia; apply even_shift; auto).
  set (f := count c rd (Z.to_nat r) m (w + 4) 4).
  destruct (Z.ltb_spec (r / 2) f) as [|NF]; auto.
  apply Z.ltb_lt.
  (* how many words there are ahead *)
  set (ahead := h - p - 1).
  assert (AH : 0 <= ahead) by (unfold ahead; lia).
  assert (F1 : Z.min r ahead <= f).
  { unfold f. replace (Z.min r ahead) with (Z.of_nat (Z.to_nat (Z.min r ahead))) by lia.
    apply count_fwd; auto; try lia. }
  assert (AR : ahead < r) by lia.
  (* so the word itself is one of the zone, and enough are behind *)
  destruct (Z_lt_ge_dec w lw) as [L|L].
  { exfalso. unfold ahead in *. lia. }
  set (behind := p - q + 1).
  assert (B1 : Z.min r behind <= count c rd (Z.to_nat r) m w (-4)).
  { replace (Z.min r behind) with (Z.of_nat (Z.to_nat (Z.min r behind))) by (unfold behind; lia).
    apply count_back; auto; unfold behind in *; lia. }
  unfold ahead, behind in *. lia.
Qed.

(** the look at the reference succeeds *)
Lemma mem_ref_ok : forall h a s, (4 | hi) -> rz c <= hi - align_fwd lo 4 -> lo <= a ->
  1 <= s -> (if s <=? 2 then a + 2 <= hi else a + 4 <= hi) -> suspect c h a s = true ->
  mem_ref c rd ex h m a s = (upd m a 0, if ex a s then [] else [(a, s)]).
Proof.
  intros h a s H4 SZ A S1 B SU. unfold mem_ref. fold (suspect c h a s). rewrite SU.
  assert (AH : a < hi) by (destruct (s <=? 2); lia).
  rewrite pre_ok by (auto; lia).
  destruct (s <=? 2).
  - rewrite read_ok by (intros; apply RD; lia). rewrite (load2 c G) by (auto; intros x X; apply F; lia).
    pose proof (lohi c G) as (L & HH & PE).
    rewrite pattern16, reverse16 by auto.
    destruct (Z.even a).
    + rewrite (Z.mod_small (pat c)) by (destruct G; lia). rewrite Z.eqb_refl. reflexivity.
    + rewrite (Z.mod_small (hi8 c + 256 * lo8 c)) by (change (2 ^ 16) with 65536; lia).
      rewrite Z.eqb_refl, orb_true_r. reflexivity.
  - rewrite read_ok by (intros; apply RD; lia). rewrite (load4 c G) by (auto; intros x X; apply F; lia).
    destruct (Z.even a); rewrite !Z.eqb_refl; rewrite ?orb_true_r; reflexivity.
Qed.

(** some check fires *)
Lemma fires2 : forall a i, lo <= a -> a + 2 <= hi -> i = load 2 m a -> fires rd m a (Check 0 2 i) = true.
Proof.
  intros a i A B I0. unfold fires. cbn [width off imm]. rewrite Z.add_0_r.
  rewrite read_ok by (intros; apply RD; lia). rewrite I0. apply Z.eqb_refl.
Qed.
Lemma fires4 : forall a o i, lo <= a + o -> a + o + 4 <= hi -> i = load 4 m (a + o) ->
  fires rd m a (Check o 4 i) = true.
Proof.
  intros a o i A B I0. unfold fires. cbn [width off imm].
  rewrite read_ok by (intros; apply RD; lia). rewrite I0. apply Z.eqb_refl.
Qed.
Lemma some_fires : forall a s four low, 1 <= s -> noticed lo hi a s four low ->
  exists k, In k (checks c s four low) /\ fires rd m a k = true.
Proof.
  intros a s four low S1 (LA & N). unfold checks.
  assert (L4 : forall b, lo <= b -> b + 4 <= hi -> load 4 m b = if Z.even b then pattern c else pattern_reverse c).
  { intros b B1 B2. apply (load4 c G). intros x X. apply F. lia. }
  assert (L2 : forall b, lo <= b -> b + 2 <= hi -> load 2 m b = if Z.even b then pat c else hi8 c + 256 * lo8 c).
  { intros b B1 B2. apply (load2 c G). intros x X. apply F. lia. }
  destruct (Z.ltb_spec 2 s).
  { destruct N as [E B]. eexists. split; [left; reflexivity|].
    apply fires4; try lia. rewrite L4 by lia. rewrite Z.add_0_r, E. reflexivity. }
  destruct (Z.eqb_spec s 2).
  { destruct N as [E B]. destruct four; cbn [negb].
    - destruct B as [B|(-> & B)].
      + eexists. split; [left; reflexivity|].
        apply fires4; try lia. rewrite L4 by lia. rewrite Z.add_0_r, E. reflexivity.
      + eexists. split; [right; left; reflexivity|].
        apply fires4; try lia. rewrite L4 by lia. rewrite Z.even_add, E. reflexivity.
    - eexists. split; [left; reflexivity|]. apply fires2; auto. rewrite L2, E, pattern16 by auto. reflexivity. }
  destruct four; cbn [negb].
  - destruct N as [B|(-> & O & B)].
    + destruct (Z.even a) eqn:E.
      * exists (Check 0 4 (pattern c)). split; [destruct low; left; reflexivity|].
        apply fires4; try lia. rewrite L4 by lia. rewrite Z.add_0_r, E. reflexivity.
      * exists (Check 0 4 (pattern_reverse c)). split; [destruct low; cbn; auto|].
        apply fires4; try lia. rewrite L4 by lia. rewrite Z.add_0_r, E. reflexivity.
    + eexists. split; [right; left; reflexivity|].
      apply fires4; try lia. rewrite L4 by lia. rewrite Z.even_add.
      rewrite <- Z.negb_odd, O. reflexivity.
  - destruct (Z.even a) eqn:E.
    + eexists. split; [left; reflexivity|]. apply fires2; auto. rewrite L2, E, pattern16 by auto. reflexivity.
    + eexists. split; [right; left; reflexivity|]. apply fires2; auto.
      rewrite L2, E, reverse16 by auto. reflexivity.
Qed.
End Z.

Lemma run_all : forall h a s l m m' p, run_checks c rd ex h [(a, s)] l m = (m', p) ->
  Forall (eq (a, s)) p.
Proof.
  induction l as [|[b k] r IH]; intros m m' p H; cbn [run_checks ill_fault] in H.
  - inversion H. constructor.
  - destruct (fires rd m b k).
    + destruct (mem_ref c rd ex h m a s) as [m1 p1] eqn:E1. rewrite app_nil_r in H.
      destruct (run_checks c rd ex h [(a, s)] r m1) as [m2 p2] eqn:E2. inversion H; subst.
      apply Forall_app. split; eauto.
      apply mem_ref_spec in E1 as [[_ ->]|(_ & _ & ->)]; [constructor|].
      destruct (ex a s); constructor; auto; constructor.
    + destruct (run_checks c rd ex h [(a, s)] r m) as [m2 p2] eqn:E2. inversion H; subst. eauto.
Qed.
Lemma run_some : forall h a s l m m' p k,
  run_checks c rd ex h [(a, s)] (map (fun k => (a, k)) l) m = (m', p) ->
  In k l -> fires rd m a k = true ->
  mem_ref c rd ex h m a s = (upd m a 0, [(a, s)]) -> p <> [].
Proof.
  induction l as [|k0 r IH]; intros m m' p k H K FI MR; [contradiction|].
  cbn [run_checks ill_fault map] in H.
  destruct (fires rd m a k0) eqn:F0.
  - rewrite MR in H. cbn [app] in H.
    destruct (run_checks c rd ex h [(a, s)] (map (fun k1 => (a, k1)) r) (upd m a 0)) as [m2 p2].
    inversion H. discriminate.
  - destruct (run_checks c rd ex h [(a, s)] (map (fun k1 => (a, k1)) r) m) as [m2 p2] eqn:E2.
    inversion H; subst. destruct K as [->|K]; [congruence|]. cbn [app]. eauto.
Qed.

(** none fires once the first byte is cleared *)
Lemma zero_quiet : forall m a s four low k,
  lo8 c <> 0 -> hi8 c <> 0 -> (forall x, 0 <= m x < 256) -> m a = 0 ->
  In k (checks c s four low) -> fires rd m a k = false.
Proof.
  intros m a s four low k L0 H0 BY Z0 K.
  pose proof (lohi c G) as (L & HH & PE).
  pose proof (pattern_val c G) as PV. pose proof (reverse_val c G) as RV.
  pose proof (BY (a - 2)). pose proof (BY (a - 1)). pose proof (BY (a + 1)).
  assert (Q : forall o i, (o = 0 \/ o = -2) -> (i = pattern c \/ i = pattern_reverse c) ->
     fires rd m a (Check o 4 i) = false).
  { intros o i O I1. unfold fires. cbn [width off imm]. apply andb_false_iff. right.
    apply Z.eqb_neq. intros E. cbn [load] in E. destruct O as [->| ->].
    - rewrite Z.add_0_r in E. rewrite Z0 in E. destruct I1; lia.
    - replace (a + -2 + 1 + 1) with a in E by lia. rewrite Z0 in E.
      replace (a + -2) with (a - 2) in E by lia. replace (a - 2 + 1) with (a - 1) in E by lia.
      destruct I1; lia. }
  assert (Q2 : forall i, (i = pat c \/ i = hi8 c + 256 * lo8 c) -> fires rd m a (Check 0 2 i) = false).
  { intros i I1. unfold fires. cbn [width off imm]. apply andb_false_iff. right.
    apply Z.eqb_neq. intros E. cbn [load] in E. rewrite Z.add_0_r, Z0 in E. destruct I1; lia. }
  unfold checks in K.
  rewrite (pattern16 c G), (reverse16 c G) in K.
  destruct (2 <? s); [|destruct (s =? 2)]; destruct four; cbn [negb] in K; try destruct low;
    cbn [In] in K;
    repeat match goal with H : _ \/ _ |- _ => destruct H as [<-|H] end;
    try contradiction; first [apply Q; auto | apply Q2; auto].
Qed.
Lemma run_none : forall h a s l m,
  (forall k, In k l -> fires rd m a k = false) ->
  run_checks c rd ex h [(a, s)] (map (fun k => (a, k)) l) m = (m, []).
Proof.
  induction l as [|k r IH]; intros m H; cbn [run_checks map]; auto.
  rewrite H by (cbn; auto). rewrite IH by (intros; apply H; cbn; auto). reflexivity.
Qed.
Lemma run_once : forall h a s l m k,
  In k l -> fires rd m a k = true ->
  mem_ref c rd ex h m a s = (upd m a 0, [(a, s)]) ->
  (forall k, In k l -> fires rd (upd m a 0) a k = false) ->
  run_checks c rd ex h [(a, s)] (map (fun k => (a, k)) l) m = (upd m a 0, [(a, s)]).
Proof.
  induction l as [|k0 r IH]; intros m k K FI MR Q; [contradiction|].
  cbn [run_checks map ill_fault].
  destruct (fires rd m a k0) eqn:F0.
  - rewrite MR. rewrite run_none by (intros; apply Q; cbn; auto). reflexivity.
  - destruct K as [->|K]; [congruence|].
    rewrite (IH m k) by (auto; intros; apply Q; cbn; auto). reflexivity.
Qed.

Lemma zone_suspect : forall h k lo hi a s, wf c h -> In k h -> zone c k lo hi ->
  lo <= a < hi -> 1 <= s -> suspect c h a s = true.
Proof.
  intros h k lo hi a s W K ZO A S1. pose proof (rz4 c G). pose proof (wf_in _ _ _ W K) as (P & _).
  unfold zone in ZO. unfold suspect, in_redzone, in_freed.
  destruct (freed k) eqn:FR.
  - rewrite (overlap_spec c h k) by (auto; lia). rewrite FR. cbn. reflexivity.
  - rewrite (overlap_spec c h k) by (auto; lia). rewrite FR. cbn [negb andb]. rewrite orb_false_r.
    apply orb_true_iff. rewrite !andb_true_iff. lia.
Qed.
Lemma zone_shape : forall k lo hi, wfk k -> zone c k lo hi ->
  (4 | hi) /\ rz c <= hi - align_fwd lo 4 /\ forall x, lo <= x < hi -> extent c k x /\ ~ live_in k x.
Proof.
  intros k lo hi W ZO. destruct (div_end c G k W) as (D1 & D2 & D3). pose proof (rz4 c G).
  destruct W as (P & B & Q). unfold zone in ZO. unfold extent, live_in.
  destruct (freed k) eqn:FR.
  - destruct ZO as [-> ->]. rewrite al by auto. split; auto. split; [lia|].
    intros x X. split; [lia|]. intros [? _]. discriminate.
  - destruct ZO as [[-> ->]|[-> ->]].
    + rewrite al by auto. split; auto. split; [lia|]. intros x X. split; [lia|]. lia.
    + pose proof (al_le (base k + req k) (base k + pad k)). split; auto. split; [lia|].
      intros x X. split; lia.
Qed.
Lemma noticed_room : forall lo hi a s four low, (4 | hi) -> lo <= hi -> noticed lo hi a s four low ->
  1 <= s -> lo <= a /\ (if s <=? 2 then a + 2 <= hi else a + 4 <= hi).
Proof.
  intros lo hi a s four low H4 LH (A & N) S1. split; auto.
  destruct (Z.leb_spec s 2); destruct (Z.ltb_spec 2 s); try lia.
  destruct (s =? 2); destruct four; lia.
Qed.

Lemma noticed_reported : forall s k lo hi a sz four low (t : Z -> Prop),
  pinv c s t -> In k (heap s) -> zone c k lo hi ->
  (forall x, lo <= x < hi -> rd x = true /\ ~ t x) ->
  1 <= sz -> noticed lo hi a sz four low -> ex a sz = false ->
  (exists n, reports (step c rd ex s (Access [(a, sz)] four low)) = reports s ++ repeat (a, sz) (S n)) /\
  (pat c mod 256 <> 0 -> pat c / 256 <> 0 -> (forall x, 0 <= memory s x < 256) ->
   reports (step c rd ex s (Access [(a, sz)] four low)) = reports s ++ [(a, sz)]).
Proof.
  intros s k lo hi a sz four low t [W I0] K ZO CL S1 N EX.
  pose proof (wf_in _ _ _ W K) as WK.
  destruct (zone_shape k lo hi WK ZO) as (H4 & SZ & IN).
  assert (F : filled c (memory s) lo hi).
  { intros x X. destruct (IN x X). destruct (CL x X). eapply I0; eauto. }
  assert (RD : forall x, lo <= x < hi -> rd x = true) by (intros; apply CL; auto).
  assert (LH : lo <= hi).
  { pose proof (rz4 c G). destruct (align_fwd_spec lo) as (_ & Q & _). lia. }
  destruct (noticed_room lo hi a sz four low H4 LH N S1) as [LA RM].
  assert (AH : a < hi) by (destruct (sz <=? 2); lia).
  assert (SU : suspect c (heap s) a sz = true) by (eapply zone_suspect; eauto).
  assert (MR : mem_ref c rd ex (heap s) (memory s) a sz = (upd (memory s) a 0, [(a, sz)])).
  { rewrite (mem_ref_ok (memory s) lo hi) by auto. rewrite EX. reflexivity. }
  destruct (some_fires (memory s) lo hi F RD a sz four low S1 N) as (q & Q1 & Q2).
  cbn [step].
  destruct (access c rd ex (heap s) (memory s) [(a, sz)] four low) as [m' p] eqn:AC.
  unfold access in AC. cbn [flat_map fst snd] in AC. rewrite app_nil_r in AC. cbn [reports].
  split.
  - assert (NE : p <> []) by (eapply run_some; eauto).
    apply run_all in AC.
    assert (P : exists n, p = repeat (a, sz) n).
    { clear - AC. induction AC as [|x r E _ [n ->]]; [exists 0%nat; reflexivity|].
      subst x. exists (S n). reflexivity. }
    destruct P as [[|n] ->]; [contradiction|]. exists n. reflexivity.
  - intros L0 H0 BY. rewrite (run_once (heap s) a sz _ (memory s) q) in AC; auto.
    + inversion AC. reflexivity.
    + intros k' K'. eapply zero_quiet; eauto.
      * intros x. unfold upd. destruct (x =? a); [lia|apply BY].
      * unfold upd. rewrite Z.eqb_refl. reflexivity.
Qed.
End D.
