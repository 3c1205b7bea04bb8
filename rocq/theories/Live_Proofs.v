From Verif Require Import Base Live_Model Live_Spec.
Open Scope Z_scope.

Lemma all_iff p : all p = true <-> forall f, p f = true.
Proof.
  unfold all. rewrite forallb_forall. split; intros H f.
  - apply H. destruct f; cbn; auto 8.
  - intros _. apply H.
Qed.

Lemma all_not p : all p = false <-> exists f, p f = false.
Proof.
  unfold all, flags. cbn [forallb]. split.
  - intros H. destruct (p CF) eqn:?; [|eauto]. destruct (p PF) eqn:?; [|eauto].
    destruct (p AF) eqn:?; [|eauto]. destruct (p ZF) eqn:?; [|eauto].
    destruct (p SF) eqn:?; [|eauto]. destruct (p OF) eqn:?; [discriminate|eauto].
  - intros [f H]. destruct f; rewrite H; rewrite ?andb_false_r; cbn; rewrite ?andb_false_r; auto.
Qed.

Lemma any_iff p : any p = true <-> exists f, p f = true.
Proof.
  unfold any. rewrite existsb_exists. split; intros (f & H).
  - exists f. tauto.
  - exists f. split; auto. destruct f; cbn; auto 8.
Qed.

Lemma any_not p : any p = false <-> forall f, p f = false.
Proof.
  split.
  - intros H f. destruct (p f) eqn:E; auto. assert (any p = true) by (apply any_iff; eauto). congruence.
  - intros H. destruct (any p) eqn:E; auto. apply any_iff in E. destruct E as [f E].
    rewrite H in E. discriminate.
Qed.

Lemma reads_dec i x : reads i x \/ ~ reads i x.
Proof.
  destruct x; cbn; auto; [destruct (i_reads i r)|destruct (mr (i_flags i) f)]; auto.
Qed.

Lemma over_dec i x : overwrites i x \/ ~ overwrites i x.
Proof.
  destruct x; cbn; auto; [destruct (i_exact i r)|destruct (mw (i_flags i) f)]; auto.
Qed.

Lemma dead_nil x : ~ dead x [].
Proof. intros (p & i & r & H & _). destruct p; discriminate. Qed.
Lemma live_nil x : ~ live x [].
Proof. intros (p & i & r & H & _). destruct p; discriminate. Qed.

Lemma dead_cons x i l : dead x (i :: l) <-> ~ reads i x /\ (overwrites i x \/ dead x l).
Proof.
  split.
  - intros (p & j & r & H & Hp & Hj & Ho). destruct p as [|k p]; injection H as <- H.
    + auto.
    + split; [apply Hp; left; auto|]. right. exists p, j, r.
      split; auto. split; auto. intros y Y. apply Hp. right; auto.
  - intros [N [O|(p & j & r & H & Hp & Hj & Ho)]].
    + exists [], i, l. split; [auto|]. split; [intros y []|auto].
    + exists (i :: p), j, r. split; [rewrite H; auto|]. split; auto.
      intros y [<-|Y]; auto.
Qed.

Lemma live_cons x i l : live x (i :: l) <-> reads i x \/ (~ overwrites i x /\ live x l).
Proof.
  split.
  - intros (p & j & r & H & Hp & Hj). destruct p as [|k p]; injection H as <- H.
    + auto.
    + right. split; [apply Hp; left; auto|]. exists p, j, r.
      split; auto. split; auto. intros y Y. apply Hp. right; auto.
  - intros [N|[N (p & j & r & H & Hp & Hj)]].
    + exists [], i, l. split; [auto|]. split; [intros y []|auto].
    + exists (i :: p), j, r. split; [rewrite H; auto|]. split; auto.
      intros y [<-|Y]; auto.
Qed.

Lemma dead_live x l : dead x l -> live x l -> False.
Proof.
  induction l as [|i l IH]; intros D L; [exact (dead_nil x D)|].
  apply dead_cons in D. apply live_cons in L. tauto.
Qed.

(** * Registers *)
Lemma live_fixed n l : forall st lv0 r v, lv0 r = v -> v <> LIVE_UNKNOWN -> snd (scan n l st lv0) r = v.
Proof.
  induction l as [|i l IH]; intros st lv0 r v H N; cbn [scan]; auto.
  destruct (i_cti i); auto. apply IH; auto. unfold live_step. rewrite H.
  destruct (Nat.ltb r n); auto. destruct v; congruence.
Qed.

Lemma out_of_range n l : forall st lv0 r, (n <= r)%nat -> snd (scan n l st lv0) r = lv0 r.
Proof.
  induction l as [|i l IH]; intros st lv0 r H; cbn [scan]; auto.
  destruct (i_cti i); auto. rewrite IH; auto. unfold live_step.
  destruct (Nat.ltb_spec r n); auto. lia.
Qed.

Lemma scan_live n l : forall st lv0 r, (r < n)%nat -> lv0 r = LIVE_UNKNOWN ->
  (snd (scan n l st lv0) r = LIVE_DEAD <-> dead (Reg r) (body l)) /\
  (snd (scan n l st lv0) r = LIVE_LIVE <-> live (Reg r) (body l)).
Proof.
  induction l as [|i l IH]; intros st lv0 r Hr H; cbn [scan body].
  - cbn [snd]. rewrite H. split; split; intros X; try discriminate;
      [destruct (dead_nil _ X)|destruct (live_nil _ X)].
  - destruct (i_cti i).
    { cbn [snd]. rewrite H. split; split; intros X; try discriminate;
        [destruct (dead_nil _ X)|destruct (live_nil _ X)]. }
    rewrite dead_cons, live_cons. cbn [reads overwrites].
    assert (Q : live_step n i lv0 r =
      if i_reads i r then LIVE_LIVE else if i_exact i r then LIVE_DEAD else LIVE_UNKNOWN).
    { unfold live_step. rewrite H. destruct (Nat.ltb_spec r n); auto. lia. }
    destruct (i_reads i r).
    { rewrite (live_fixed n l _ _ r LIVE_LIVE Q) by discriminate.
      split; split; intros X; auto; try discriminate. destruct X as [X _]. congruence. }
    destruct (i_exact i r).
    { rewrite (live_fixed n l _ _ r LIVE_DEAD Q) by discriminate.
      split; split; intros X; auto; try discriminate; destruct X as [X|[X _]]; congruence. }
    destruct (IH (aflags_step i st) _ r Hr Q) as [A B]. rewrite A, B.
    split; split; intros X.
    + split; [discriminate|auto].
    + destruct X as [_ [X|X]]; [discriminate|auto].
    + right. split; [discriminate|auto].
    + destruct X as [X|[_ X]]; [discriminate|auto].
Qed.

(** * Flags *)
Lemma step_spec i res : (forall f, mr res f = false) -> all (mw res) = false ->
  ((exists f, mr (i_flags i) f = true /\ mw res f = false) /\
   exists res', aflags_step i (false, res) = (true, res') /\ forall f, mr res' f = true) \/
  ((forall f, mr (i_flags i) f = true -> mw res f = true) /\
   exists res', aflags_step i (false, res) = (all (mw res'), res') /\
   (forall f, mr res' f = false) /\ (forall f, mw res' f = mw res f || mw (i_flags i) f)).
Proof.
  intros Hr Hw. unfold aflags_step.
  set (K := if any (mr (i_flags i)) then _ else _).
  assert (HK : ((exists f, mr (i_flags i) f = true /\ mw res f = false) /\ K = (true, READ_6)) \/
    ((forall f, mr (i_flags i) f = true -> mw res f = true) /\ K = (false, res))).
  { unfold K. destruct (any (mr (i_flags i))) eqn:A.
    - destruct (all (fun f => negb (mr (i_flags i) f) || mw res f)) eqn:B; cbn [negb].
      + right. split; auto. intros f R. rewrite all_iff in B. specialize (B f). rewrite R in B. exact B.
      + left. split; auto. rewrite all_not in B. destruct B as [f B]. apply orb_false_iff in B.
        exists f. destruct (mr (i_flags i) f), B; auto.
    - right. split; auto. intros f R. rewrite any_not in A. rewrite A in R. discriminate. }
  destruct HK as [[E ->]|[E ->]].
  - left. split; auto. destruct (any (mw (i_flags i))).
    + cbn [mr mw READ_6]. replace (any all_flags) with true by reflexivity. rewrite andb_false_r.
      eexists. split; [reflexivity|]. auto.
    + eexists. split; [reflexivity|]. auto.
  - right. split; auto. destruct (any (mw (i_flags i))) eqn:A; cbn [mr mw].
    + destruct (all (fun f => mw res f || mw (i_flags i) f)) eqn:B; cbn [andb].
      * replace (any (mr res)) with false by (symmetry; apply any_not; auto). cbn [negb].
        exists WRITE_6. split; [reflexivity|]. split; auto. intros f. cbn.
        rewrite all_iff in B. symmetry. apply B.
      * exists {| mr := mr res; mw := fun f => mw res f || mw (i_flags i) f |}. cbn [mr mw].
        rewrite B. auto.
    + exists res. rewrite Hw. split; auto. split; auto. intros f. rewrite any_not in A.
      rewrite A, orb_false_r. auto.
Qed.

Lemma known_fixed n l : forall res lv0, fst (scan n l (true, res) lv0) = (true, res).
Proof.
  induction l as [|i l IH]; intros res lv0; cbn [scan aflags_step]; auto.
  destruct (i_cti i); auto.
Qed.

Definition outcome (res : mask) (l : list instr) (o : bool * mask) : Prop :=
  (fst o = true /\ (forall f, mr (snd o) f = true) /\ exists f, mw res f = false /\ live (Flag f) l) \/
  (fst o = true /\ (forall f, mr (snd o) f = false /\ mw (snd o) f = true) /\
    forall f, mw res f = true \/ dead (Flag f) l) \/
  (fst o = false /\ (forall f, mr (snd o) f = false) /\ all (mw (snd o)) = false /\
    (forall f, mw (snd o) f = true <-> mw res f = true \/ dead (Flag f) l) /\
    forall f, mw res f = true \/ ~ live (Flag f) l).

Lemma flags_main n l : forall res lv0, (forall f, mr res f = false) -> all (mw res) = false ->
  outcome res (block l) (fst (scan n l (false, res) lv0)).
Proof.
  induction l as [|i l IH]; intros res lv0 Hr Hw; cbn [scan block].
  - right; right. cbn [fst snd]. split; auto. split; auto. split; auto. split.
    + intros f. split; auto. intros [X|X]; auto. destruct (dead_nil _ X).
    + intros f. right. apply live_nil.
  - assert (HL : fst (if i_cti i then (aflags_step i (false, res), lv0)
        else scan n l (aflags_step i (false, res)) (live_step n i lv0)) =
      if i_cti i then aflags_step i (false, res)
      else fst (scan n l (aflags_step i (false, res)) (live_step n i lv0)))
      by (destruct (i_cti i); auto).
    rewrite HL. clear HL.
    destruct (step_spec i res Hr Hw) as [[(f & R & W) (res' & -> & M)]|[E (res' & -> & M & N)]].
    + rewrite known_fixed.
      replace (if i_cti i then (true, res') else (true, res')) with (true, res') by (destruct (i_cti i); auto).
      left. cbn [fst snd]. split; auto. split; auto. exists f. split; auto.
      destruct (i_cti i); apply live_cons; left; exact R.
    + destruct (all (mw res')) eqn:A.
      * rewrite known_fixed.
        replace (if i_cti i then (true, res') else (true, res')) with (true, res')
          by (destruct (i_cti i); auto).
        right; left. cbn [fst snd]. rewrite all_iff in A. split; auto. split; [split; auto|].
        intros f. specialize (A f). rewrite N in A. destruct (mw res f) eqn:W; auto. right.
        destruct (i_cti i); apply dead_cons; (split; [|left; exact A]);
          cbn; intros X; apply E in X; congruence.
      * destruct (i_cti i).
        -- right; right. cbn [fst snd]. split; auto. split; auto. split; auto. split.
           ++ intros f. rewrite N, dead_cons. cbn [reads overwrites].
              destruct (mw res f) eqn:W; cbn [orb]; [tauto|]. split.
              ** intros X. right. split; auto. intros Y. apply E in Y. congruence.
              ** intros [X|[_ [X|X]]]; auto; [discriminate|destruct (dead_nil _ X)].
           ++ intros f. destruct (mw res f) eqn:W; auto. right. rewrite live_cons. cbn [reads].
              intros [X|[_ X]]; [apply E in X; congruence|exact (live_nil _ X)].
        -- specialize (IH res' (live_step n i lv0) M A).
           destruct IH as [(K & R & f & W & L)|[(K & R & D)|(K & R & A' & D & L)]].
           ++ left. split; auto. split; auto. exists f. rewrite N in W. apply orb_false_iff in W.
              destruct W as [W W']. split; auto. apply live_cons. right. split; auto. cbn. congruence.
           ++ right; left. split; auto. split; auto. intros f. destruct (mw res f) eqn:W; auto. right.
              apply dead_cons. split; [cbn; intros X; apply E in X; congruence|].
              specialize (D f). rewrite N, W in D. exact D.
           ++ right; right. split; auto. split; auto. split; auto. split.
              ** intros f. rewrite D, N, dead_cons, orb_true_iff. cbn [reads overwrites].
                 split; [|tauto]. intros [[X|X]|X]; auto;
                   (destruct (mw res f) eqn:W; auto; right; split; auto; intros Y; apply E in Y; congruence).
              ** intros f. destruct (mw res f) eqn:W; auto. right. rewrite live_cons.
                 cbn [reads overwrites]. intros [X|[O X]]; [apply E in X; congruence|].
                 destruct (L f) as [Q|Q]; [|auto]. rewrite N, W in Q. auto.
Qed.

Lemma mask_eqb_iff a b : mask_eqb a b = true <-> forall f, mr a f = mr b f /\ mw a f = mw b f.
Proof.
  unfold mask_eqb. rewrite all_iff. split; intros H f; specialize (H f).
  - apply andb_prop in H. destruct H as [A B]. apply eqb_prop in A. apply eqb_prop in B. auto.
  - destruct H as [-> ->]. rewrite !eqb_reflx. reflexivity.
Qed.

Section Outcome.
Variables (nregs : nat) (l : list instr) (garbage : nat -> lv) (only : bool).
Let R := get_aflags_and_reg_liveness nregs l garbage only.

Lemma regs_ok r : (r < (if only then 1 else nregs))%nat ->
  (snd R r = LIVE_DEAD <-> dead (Reg r) (body l)) /\ (snd R r = LIVE_LIVE <-> live (Reg r) (body l)).
Proof.
  intros Hr. unfold R, get_aflags_and_reg_liveness.
  set (n := if only then 1%nat else nregs) in *.
  set (lv0 := fun r => if Nat.ltb r n then LIVE_UNKNOWN else garbage r).
  assert (Q : lv0 r = LIVE_UNKNOWN) by (unfold lv0; destruct (Nat.ltb_spec r n); auto; lia).
  pose proof (scan_live n l (false, ZERO) lv0 r Hr Q) as H.
  destruct (scan n l (false, ZERO) lv0) as [[k m] v]. cbn [snd] in H.
  destruct (negb k && mw m OF && negb (mr m OF)); exact H.
Qed.

Lemma cases : 
  ((exists f, mr (fst R) f = true) /\ (exists f, live (Flag f) (block l))) \/
  ((forall f, mr (fst R) f = false) /\ (forall f, mw (fst R) f = true) /\
    forall f, dead (Flag f) (block l)) \/
  ((forall f, mr (fst R) f = false) /\ (exists f, mw (fst R) f = false) /\
    (exists f, ~ dead (Flag f) (block l)) /\ (forall f, ~ live (Flag f) (block l)) /\
    (dead (Flag OF) (block l) -> forall f, mw (fst R) f = flag_eqb OF f) /\
    (~ dead (Flag OF) (block l) -> mw (fst R) OF = false)).
Proof.
  unfold R, get_aflags_and_reg_liveness.
  set (n := if only then 1%nat else nregs) in *.
  set (lv0 := fun r => if Nat.ltb r n then LIVE_UNKNOWN else garbage r).
  pose proof (flags_main n l ZERO lv0 (fun f => eq_refl) eq_refl) as H.
  destruct (scan n l (false, ZERO) lv0) as [[k m] v]. cbn [fst] in H.
  destruct H as [(K & Q & f & _ & L)|[(K & Q & D)|(K & Q & A & D & L)]]; cbn [fst snd] in *; subst k; cbn [negb andb].
  - left. split; [exists CF; apply Q|eauto].
  - right; left. cbn [fst]. split; [apply Q|]. split; [apply Q|]. intros f. destruct (D f) as [X|X]; auto.
    discriminate X.
  - right; right. rewrite Q. cbn [negb]. rewrite andb_true_r.
    assert (DD : forall f, mw m f = true <-> dead (Flag f) (block l)).
    { intros f. rewrite D. cbn. split; [intros [X|X]; [discriminate|auto]|auto]. }
    assert (EX : exists f, ~ dead (Flag f) (block l)).
    { apply all_not in A. destruct A as [f A]. exists f. rewrite <- DD, A. discriminate. }
    assert (LL : forall f, ~ live (Flag f) (block l)).
    { intros f. destruct (L f) as [X|X]; [discriminate X|auto]. }
    destruct (mw m OF) eqn:O; cbn [fst].
    + split; [reflexivity|]. split; [exists CF; reflexivity|]. split; [exact EX|]. split; [exact LL|].
      split; [reflexivity|]. intros X. destruct X. apply DD. exact O.
    + split; [exact Q|]. split; [exists OF; exact O|]. split; [exact EX|]. split; [exact LL|].
      split; [|intros _; exact O]. intros X. apply DD in X. congruence.
Qed.

Lemma flags_ok :
  (mask_eqb (fst R) WRITE_6 = true <-> forall f, dead (Flag f) (block l)) /\
  (mask_eqb (fst R) WRITE_OF = true <->
    dead (Flag OF) (block l) /\ (exists f, ~ dead (Flag f) (block l)) /\
    forall f, ~ live (Flag f) (block l)) /\
  ((exists f, mr (fst R) f = true) <-> exists f, live (Flag f) (block l)).
Proof.
  rewrite !mask_eqb_iff.
  destruct cases as [(A & B)|[(A & A' & B)|(A & A' & E & L & O & O')]].
  - split; [|split].
    + split; intros H.
      * destruct A as [f A]. destruct (H f) as [X _]. rewrite A in X. discriminate.
      * destruct B as [f B]. destruct (dead_live _ _ (H f) B).
    + split; intros H.
      * destruct A as [f A]. destruct (H f) as [X _]. rewrite A in X. discriminate.
      * destruct H as (_ & _ & H). destruct B as [f B]. destruct (H f B).
    + split; auto.
  - split; [|split].
    + split; [auto|]. intros _ f. rewrite A, A'. split; reflexivity.
    + split; intros H.
      * destruct (H CF) as [_ X]. rewrite A' in X. discriminate.
      * destruct H as (_ & (f & H) & _). destruct (H (B f)).
    + split; intros [f H]; [rewrite A in H; discriminate|]. destruct (dead_live _ _ (B f) H).
  - split; [|split].
    + split; intros H.
      * destruct A' as [f A']. destruct (H f) as [_ X]. rewrite A' in X. discriminate.
      * destruct E as [f E]. destruct (E (H f)).
    + split; intros H.
      * split; [|split; auto].
        destruct (H OF) as [_ X].
        assert (Q : dead (Flag OF) (block l) \/ ~ dead (Flag OF) (block l)).
        { clear. induction (block l) as [|i r IH]; [right; apply dead_nil|].
          rewrite dead_cons. destruct (reads_dec i (Flag OF)); [right; tauto|].
          destruct (over_dec i (Flag OF)); tauto. }
        destruct Q as [Q|Q]; auto. rewrite (O' Q) in X. discriminate.
      * destruct H as (D & _). intros f. rewrite A, (O D f). auto.
    + split; intros [f H]; [rewrite A in H; discriminate|]. destruct (L f H).
Qed.
End Outcome.

(** * What the program can tell *)
Section Run.
Variable V : Type.
Variable exec : instr -> (loc -> V) -> (loc -> V).

Lemma run_same l : forall s s' (D : loc -> Prop), (forall i, In i l -> faithful V exec i) ->
  (forall x, D x -> dead x l) -> (forall x, D x \/ s x = s' x) ->
  (forall p q x, l = p ++ q -> D x \/ run V exec p s x = run V exec p s' x) /\
  forall x, run V exec l s x = run V exec l s' x.
Proof.
  induction l as [|i l IH]; intros s s' D F K A.
  - assert (A0 : forall x, s x = s' x).
    { intros x. destruct (A x) as [X|X]; auto. destruct (dead_nil _ (K x X)). }
    split; auto. intros p q x H. destruct p; [right; apply A0|discriminate].
  - assert (S : forall x, overwrites i x \/ s x = s' x -> exec i s x = exec i s' x).
    { apply F; [left; auto|]. intros x Rx. destruct (A x) as [X|X]; auto.
      apply K, dead_cons in X. tauto. }
    destruct (IH (exec i s) (exec i s') (fun x => D x /\ ~ overwrites i x)) as [P Q].
    + intros j J. apply F. right; auto.
    + intros x [X N]. apply K, dead_cons in X. tauto.
    + intros x. destruct (over_dec i x) as [O|O]; [right; apply S; auto|].
      destruct (A x) as [X|X]; auto.
    + split; [|intros x; apply Q]. intros p q x H. destruct p as [|j p]; [exact (A x)|].
      injection H as <- H. destruct (P p q x H) as [[X _]|X]; auto.
Qed.
End Run.

Lemma body_block x l : dead x (body l) -> dead x (block l).
Proof.
  induction l as [|i l IH]; cbn [body block]; auto. destruct (i_cti i).
  - intros H. destruct (dead_nil _ H).
  - rewrite !dead_cons. tauto.
Qed.

Lemma same_ok V exec nregs l garbage only s s' :
  (forall i, In i (block l) -> faithful V exec i) ->
  let R := get_aflags_and_reg_liveness nregs l garbage only in
  let D x := match x with
             | Reg r => (r < (if only then 1 else nregs))%nat /\ snd R r = LIVE_DEAD
             | Flag f => mask_eqb (fst R) WRITE_6 = true \/ mask_eqb (fst R) WRITE_OF = true /\ f = OF
             | Rest => False
             end in
  (forall x, D x \/ s x = s' x) ->
  (forall p q x, block l = p ++ q -> D x \/ run V exec p s x = run V exec p s' x) /\
  forall x, run V exec (block l) s x = run V exec (block l) s' x.
Proof.
  intros F R D A. apply run_same; auto.
  destruct (flags_ok nregs l garbage only) as (W6 & WO & _). fold R in W6, WO.
  intros [r|f|]; cbn.
  - intros [Hr H]. apply body_block. apply (regs_ok nregs l garbage only r Hr). exact H.
  - intros [H|[H ->]]; [apply W6; auto|apply WO in H; tauto].
  - tauto.
Qed.

(** * Saved flags *)
Lemma set_al_high x v : 0 <= v < 256 -> set_al x v / 256 = x / 256.
Proof. intros. unfold set_al. rewrite Z.add_comm, Z.div_add by lia. rewrite Z.div_small; lia. Qed.
Lemma set_al_al x v : 0 <= v < 256 -> al (set_al x v) = v.
Proof. intros. unfold set_al, al. rewrite Z.add_comm, Z.mod_add by lia. apply Z.mod_small; lia. Qed.
Lemma set_ah_ah x v : 0 <= v < 256 -> ah (set_ah x v) = v.
Proof.
  intros. unfold set_ah, ah. pose proof (Z.mod_pos_bound x 256).
  replace (x / 65536 * 65536 + v * 256 + x mod 256)
    with (x mod 256 + (v + x / 65536 * 256) * 256) by lia.
  rewrite Z.div_add by lia. rewrite (Z.div_small (x mod 256)) by lia.
  rewrite Z.add_0_l, Z.mod_add by lia. apply Z.mod_small; lia.
Qed.

Lemma saved_ok o c c' : eax c' = eax (save_aflags o c) ->
  forall f, f <> OF \/ o = true -> fl (restore_aflags o c') f = fl c f.
Proof.
  intros E.
  set (h := 128 * b2z (fl c SF) + 64 * b2z (fl c ZF) + 16 * b2z (fl c AF) + 4 * b2z (fl c PF) + 2 +
        b2z (fl c CF)).
  assert (Hh : 0 <= h < 256).
  { unfold h, b2z. destruct (fl c SF), (fl c ZF), (fl c AF), (fl c PF), (fl c CF); lia. }
  assert (B : Z.testbit h 0 = fl c CF /\ Z.testbit h 2 = fl c PF /\ Z.testbit h 4 = fl c AF /\
    Z.testbit h 6 = fl c ZF /\ Z.testbit h 7 = fl c SF).
  { unfold h, b2z. destruct (fl c SF), (fl c ZF), (fl c AF), (fl c PF), (fl c CF); vm_compute; auto. }
  assert (B1 : 0 <= b2z (fl c OF) < 256) by (unfold b2z; destruct (fl c OF); lia).
  assert (AH : ah (eax (if o then add_al_7f c' else c')) = h).
  { destruct o; cbn [save_aflags lahf seto_al eax] in E; fold h in E.
    - unfold add_al_7f. cbn [eax]. unfold ah at 1.
      rewrite set_al_high by (apply Z.mod_pos_bound; lia).
      rewrite E, set_al_high by auto. apply (set_ah_ah (eax c) h Hh).
    - rewrite E. apply set_ah_ah; auto. }
  intros f Hf. unfold restore_aflags, sahf. cbn [fl]. rewrite AH.
  destruct B as (B0 & B2 & B4 & B6 & B7).
  destruct f; auto. destruct Hf as [Hf| ->]; [congruence|].
  cbn [save_aflags lahf seto_al eax fl] in E. cbn [add_al_7f fl]. rewrite E, set_al_al by auto.
  destruct (fl c OF); reflexivity.
Qed.

Lemma save_restore m c c' : eax c' = eax (save_if_live m c) ->
  forall f, mask_eqb m WRITE_6 = true \/ mask_eqb m WRITE_OF = true /\ f = OF \/
    fl (restore_if_live m c') f = fl c f.
Proof.
  intros E f. unfold save_if_live, restore_if_live in *.
  destruct (mask_eqb m WRITE_6); auto. right.
  destruct (mask_eqb m WRITE_OF) eqn:W; cbn [negb] in *.
  - destruct (flag_eqb f OF) eqn:Q; [left; split; auto; destruct f; try discriminate; auto|].
    right. apply (saved_ok false c c' E). left. intros ->. discriminate.
  - right. apply (saved_ok true c c' E). auto.
Qed.
