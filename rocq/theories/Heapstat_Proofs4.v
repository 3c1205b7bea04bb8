(** Proofs about Dr. Heapstat, 4: runs, what the snapshots kept show, and
    time. *)
From Verif Require Import Base Heapstat_Model Heapstat_Spec Heapstat_Proofs
  Heapstat_Proofs2 Heapstat_Proofs3.
Local Open Scope Z_scope.

(** * Time does not go back *)
Lemma next_slot_freq : forall k l i fl fr i' fl' fr', 0 <= fr ->
  next_slot k l i fl fr = Ok (i', fl', fr') -> 0 <= fr'.
Proof.
  induction k; intros l i fl fr i' fl' fr' P H; [discriminate|].
  cbn [next_slot] in H.
  assert (0 <= u32 (2 * fr)) by (apply Z.mod_pos_bound; lia).
  destruct (Nat.leb_spec (List.length l) (S i)) as [G|G]; cbn [fst snd] in H.
  - destruct (0 <? _); [|injection H as _ _ <-; auto].
    destruct (_ =? 0); [discriminate|].
    destruct (_ =? 0); [eauto|injection H as _ _ <-; auto].
  - destruct (0 <? _); [|injection H as _ _ <-; auto].
    destruct (fr =? 0); [discriminate|].
    destruct (_ =? 0); [eauto|injection H as _ _ <-; auto].
Qed.
Lemma take_mono c w w' : 0 <= freq w -> take c w = Ok w' ->
  stamp w' = stamp w + freq w /\ 0 <= freq w'.
Proof.
  intros P H. unfold take in H.
  apply bind_ok in H. destruct H as [[[i fl] fr] [H1 H2]]. apply ok_inj in H2. subst w'.
  split; [reflexivity|]. cbn [freq]. eapply next_slot_freq; [|exact H1]. auto.
Qed.
Lemma post_loop_mono c : forall k d w w', 0 <= freq w ->
  post_loop c k d w = Ok w' -> stamp w <= stamp w' /\ 0 <= freq w'.
Proof.
  induction k; intros d w w' F H; cbn [post_loop] in H.
  - destruct (_ <? _); [discriminate|]. injection H as <-. split; [lia|auto].
  - destruct (_ <? _); [|injection H as <-; split; [lia|auto]].
    apply bind_ok in H. destruct H as [w1 [H1 H2]].
    destruct (take_mono c w w1 F H1) as [E1 F1].
    destruct (IHk _ _ _ F1 H2). split; [lia|auto].
Qed.
Lemma post_mono c w a p o w' : 0 <= freq w -> account_post c w a p o = Ok w' ->
  stamp w <= stamp w' /\ 0 <= freq w'.
Proof.
  intros F H. unfold account_post in H.
  apply bind_ok in H. destruct H as [w1 [H1 H2]]. injection H2 as <-.
  change (stamp w <= stamp w1 /\ 0 <= freq w1).
  destruct (c_unit c).
  - destruct (negb _); [discriminate|].
    destruct (_ <? _).
    + apply bind_ok in H1. destruct H1 as [w2 [H1 H2]]. injection H2 as <-.
      exact (post_loop_mono c _ _ _ _ F H1).
    + injection H1 as <-. split; [apply Z.le_refl|auto].
  - destruct (_ <=? _).
    + apply bind_ok in H1. destruct H1 as [w2 [H1 H2]]. injection H2 as <-.
      destruct (take_mono c (with_counts w (af_cur w) (bcount w) (acount w - 1)) w2 F H1) as [E1 F1].
      cbn [with_counts stamp freq] in *. split; [lia|auto].
    + injection H1 as <-. split; [apply Z.le_refl|auto].
  - injection H1 as <-. split; [lia|auto].
Qed.

(** * Snapshots that stay *)
Definition R (c : cfg) (w w' : st) : Prop :=
  stamp w <= stamp w' /\ content (live w') = content (live w) /\
  forall i, (i < c_n c)%nat -> i <> idx w' ->
    (i <> idx w /\ slot (snaps w') i = slot (snaps w) i) \/
    (stamp w < T (snaps w') i <= stamp w' /\ content (slot (snaps w') i) = content (live w)).
Lemma R_refl c w : R c w w.
Proof. split; [lia|]. split; [auto|]. intros; left; auto. Qed.
Lemma R_trans c w w1 w2 : R c w w1 -> R c w1 w2 -> R c w w2.
Proof.
  intros (A1 & A2 & A3) (B1 & B2 & B3). split; [lia|]. split; [congruence|].
  intros i Hi Ni. destruct (B3 i Hi Ni) as [[N1 E1]|[S1 C1]].
  - unfold T. rewrite E1. destruct (A3 i Hi N1) as [[N0 E0]|[S0 C0]].
    + left. split; [auto|]. auto.
    + right. unfold T in S0. split; [lia|auto].
  - right. split; [lia|congruence].
Qed.
Lemma take_R c w w' : (0 < c_n c)%nat -> wf c w -> 0 < freq w -> take c w = Ok w' -> R c w w'.
Proof.
  intros N W F H. destruct (take_wf c w w' N W H) as [_ E]. destruct W as [L B].
  unfold take in H.
  apply bind_ok in H. destruct H as [[[i fl] fr] [H1 H2]]. apply ok_inj in H2. subst w'.
  split; [cbn [stamp stamped]; lia|]. split; [exact E|].
  cbn [snaps idx stamp]. intros j Hj Nj.
  unfold T. rewrite slot_upd_other by lia. cbn [stamped snaps stamp].
  destruct (Nat.eq_dec j (idx w)) as [->|Nw].
  - right. rewrite slot_upd_same by lia. split; [cbn [set_stamp s_stamp]; lia|reflexivity].
  - left. rewrite slot_upd_other by lia. auto.
Qed.

Definition bd (c : cfg) : Z := Z.of_nat (c_n c) * 2 ^ 31.
Lemma take_ev c w w' : c_ok c -> wf c w -> inv c w -> take c w = Ok w' -> stamp w' < bd c ->
  inv c w' /\ R c w w' /\ bcount w' = bcount w /\ acount w' = acount w.
Proof.
  intros K W V H B. destruct (inv_freq c w K V) as [F _].
  destruct (take_mono c w w' ltac:(lia) H) as [E _].
  destruct (take_inv c w K W V) as (w1 & H1 & V1 & S1 & B1 & C1 & _); [unfold bd in B; lia|].
  rewrite H in H1. injection H1 as ->. split; [auto|].
  split; [|auto]. apply take_R; auto. destruct K; lia.
Qed.
Lemma post_loop_ev c : c_ok c -> forall k d w w', wf c w -> inv c w ->
  post_loop c k d w = Ok w' -> stamp w' < bd c -> inv c w' /\ R c w w'.
Proof.
  intros K. assert (N : (0 < c_n c)%nat) by (destruct K; lia).
  induction k; intros d w w' W V H B; cbn [post_loop] in H.
  - destruct (_ <? _); [discriminate|]. injection H as <-. split; [auto|apply R_refl].
  - destruct (_ <? _); [|injection H as <-; split; [auto|apply R_refl]].
    apply bind_ok in H. destruct H as [w1 [H1 H2]].
    destruct (inv_freq c w K V) as [F _].
    destruct (take_mono c w w1 ltac:(lia) H1) as [E1 F1].
    destruct (post_loop_mono c _ _ _ _ F1 H2) as [M _].
    destruct (take_ev c w w1 K W V H1 ltac:(lia)) as (V1 & R1 & _).
    destruct (take_wf c w w1 N W H1) as [W1 _].
    destruct (IHk _ _ _ W1 V1 H2 B) as [V2 R2].
    split; [auto|eapply R_trans; eauto].
Qed.
Lemma inv_counts c w x b a : inv c w -> inv c (with_counts w x b a).
Proof. intros V. apply (inv_same c w); auto. Qed.
Lemma post_ev c w a p o w' : c_ok c -> wf c w -> inv c w ->
  account_post c w a p o = Ok w' -> stamp w' < bd c -> inv c w' /\ R c w w'.
Proof.
  intros K W V H B. unfold account_post in H.
  apply bind_ok in H. destruct H as [w1 [H1 H2]]. injection H2 as <-.
  change (stamp w1 < bd c) in B.
  cut (inv c w1 /\ R c w w1).
  { intros [A C]. split; [apply inv_counts; auto|exact C]. }
  destruct (c_unit c).
  - destruct (negb _); [discriminate|].
    destruct (_ <? _).
    + apply bind_ok in H1. destruct H1 as [w2 [H1 H2]]. injection H2 as <-.
      destruct (post_loop_ev c K _ _ _ _ W V H1 B) as [A C].
      split; [apply inv_counts; auto|exact C].
    + injection H1 as <-. split; [apply inv_counts; auto|exact (R_refl c w)].
  - destruct (_ <=? _).
    + apply bind_ok in H1. destruct H1 as [w2 [H1 H2]]. injection H2 as <-.
      destruct (take_ev c (with_counts w (af_cur w) (bcount w) (acount w - 1)) w2 K W)
        as (A & C & _); auto.
      { apply inv_counts; auto. }
      split; [apply inv_counts; auto|exact C].
    + injection H1 as <-. split; [apply inv_counts; auto|exact (R_refl c w)].
  - injection H1 as <-. split; [auto|exact (R_refl c w)].
Qed.

(** * The kinds of steps *)
Lemma step_cases c y o y' : c_ok c -> blks_ok (y_blks y) -> op_ok o -> step c y o = Ok y' ->
  (y' = y /\ calls1 (y_blks y) o = 0 /\ bytes1 c (y_blks y) o = 0 /\ o <> Tick) \/
  (exists w0 s a p x, (w0 = y_st y \/ w0 = check_peak c (y_st y)) /\
     account_post c (with_live w0 s) a p x = Ok (y_st y') /\
     calls1 (y_blks y) o = 1 /\ bytes1 c (y_blks y) o = Z.abs (a + p + x) /\ o <> Tick) \/
  (o = Tick /\ take c (y_st y) = Ok (y_st y')) \/
  (exists e, o = Dump e /\ y' = do_dump c y e).
Proof.
  intros K [D F] OKo H.
  assert (HB : 0 <= c_hdr c <= 16) by (destruct K as (_ & _ & _ & K & _); exact K).
  rewrite Forall_forall in F.
  destruct o as [h id req pad|h|h req pad| |e]; cbn [step calls1 bytes1] in *;
    unfold present; rewrite ?find_exists; try fold (find_blk h (y_blks y)).
  - unfold do_add in H. destruct (find_blk h (y_blks y)) eqn:E.
    { injection H as <-. left. split; [auto|]. split; [auto|]. split; [auto|easy]. }
    destruct OKo as (Q1 & Q2 & Q3 & Q4). rewrite !s32_id in H by lia.
    apply bind_ok in H. destruct H as [s [H1 H2]].
    apply bind_ok in H2. destruct H2 as [w1 [H2 H3]]. injection H3 as <-.
    right; left. exists (y_st y), s, req, pad, (c_hdr c). cbn [y_st].
    split; [auto|]. split; [auto|]. split; [auto|]. split; [lia|easy].
  - unfold do_free in H. destruct (find_blk h (y_blks y)) as [b|] eqn:E.
    2:{ injection H as <-. left. split; [auto|]. split; [auto|]. split; [auto|easy]. }
    destruct (find_in _ _ _ E) as [I Eh]. destruct (F b I) as (Q1 & Q2 & Q3 & Q4).
    rewrite !s32_id in H by lia.
    apply bind_ok in H. destruct H as [s [H1 H2]].
    apply bind_ok in H2. destruct H2 as [w1 [H2 H3]]. injection H3 as <-.
    right; left. exists (check_peak c (y_st y)), s, (b_req b), (b_pad b), (c_hdr c). cbn [y_st].
    split; [auto|]. split; [auto|]. split; [auto|]. unfold space. split; [lia|easy].
  - unfold do_realloc in H. destruct (find_blk h (y_blks y)) as [b|] eqn:E.
    2:{ injection H as <-. left. split; [auto|]. split; [auto|]. split; [auto|easy]. }
    destruct (find_in _ _ _ E) as [I Eh]. destruct (F b I) as (Q1 & Q2 & Q3 & Q4).
    destruct OKo as (R1 & R2 & R3 & R4). rewrite !s32_id in H by lia.
    apply bind_ok in H. destruct H as [s [H1 H2]].
    apply bind_ok in H2. destruct H2 as [w1 [H2 H3]]. injection H3 as <-.
    right; left. eexists _, s, (req - b_req b), (pad - b_pad b), 0. cbn [y_st].
    split; [|split; [exact H2|split; [auto|split; [f_equal; lia|easy]]]].
    destruct (_ <? 0); auto.
  - apply bind_ok in H. destruct H as [w [H1 H2]]. injection H2 as <-. auto.
  - injection H as <-. right; right; right. exists e. auto.
Qed.

Lemma check_inv c w : inv c w -> inv c (check_peak c w).
Proof.
  intros V. destruct (check_peak_same c w) as (E1 & E2 & E3 & E4 & E5 & _).
  apply (inv_same c w); auto. intros; rewrite E1; auto.
Qed.
Lemma live_inv c w s : inv c w -> inv c (with_live w s).
Proof.
  intros V. apply (inv_same c w); auto. cbn [with_live snaps].
  intros; apply slot_upd_other. auto.
Qed.

(** a step: earlier snapshots are left alone, new ones show what is live *)
Lemma step_ev c y o y' : c_ok c -> wf c (y_st y) -> blks_ok (y_blks y) -> op_ok o ->
  step c y o = Ok y' -> 0 <= freq (y_st y) ->
  stamp (y_st y) <= stamp (y_st y') /\ 0 <= freq (y_st y') /\
  (inv c (y_st y) -> stamp (y_st y') < bd c ->
   inv c (y_st y') /\
   forall i, (i < c_n c)%nat -> i <> idx (y_st y') ->
    (i <> idx (y_st y) /\ slot (snaps (y_st y')) i = slot (snaps (y_st y)) i) \/
    (stamp (y_st y) < T (snaps (y_st y')) i <= stamp (y_st y') /\
     content (slot (snaps (y_st y')) i) = content (live (y_st y')))).
Proof.
  intros K W B OKo H F0.
  assert (N : (0 < c_n c)%nat) by (destruct K; lia).
  destruct (step_cases c y o y' K B OKo H) as
    [(-> & _)|[(w0 & s & a & p & x & E0 & HP & _)|[(-> & HT)|(e & -> & ->)]]].
  - split; [lia|]. split; [auto|]. intros V _. split; [auto|]. intros; left; auto.
  - assert (E0' : freq w0 = freq (y_st y) /\ stamp w0 = stamp (y_st y) /\
       idx w0 = idx (y_st y) /\ snaps w0 = snaps (y_st y) /\ wf c w0 /\
       (inv c (y_st y) -> inv c w0)).
    { destruct E0 as [-> | ->]; [auto 10|].
      destruct (check_peak_same c (y_st y)) as (E1 & E2 & E3 & E4 & E5 & _).
      do 4 (split; [auto|]). split; [apply check_peak_wf; auto|apply check_inv]. }
    destruct E0' as (E1 & E2 & E3 & E4 & W0 & V0).
    destruct (with_live_wf c w0 s W0) as [W1 L1].
    assert (FW : 0 <= freq (with_live w0 s)) by (cbn [with_live freq]; lia).
    destruct (post_mono c _ _ _ _ _ FW HP) as [M1 M2].
    cbn [with_live stamp] in M1.
    split; [lia|]. split; [auto|]. intros V BDD.
    destruct (post_ev c _ _ _ _ _ K W1 (live_inv c w0 s (V0 V)) HP BDD) as [V' (R1 & R2 & R3)].
    split; [auto|]. intros i Hi Ni. destruct (R3 i Hi Ni) as [[N1 S1]|[S1 C1]].
    + left. cbn [with_live idx] in N1. split; [congruence|].
      rewrite S1. cbn [with_live snaps]. rewrite slot_upd_other by auto. congruence.
    + right. cbn [with_live stamp] in S1. rewrite E2 in S1. split; [auto|congruence].
  - destruct (take_mono c _ _ F0 HT) as [M1 M2].
    split; [lia|]. split; [auto|]. intros V BDD.
    destruct (take_ev c _ _ K W V HT BDD) as (V' & (R1 & R2 & R3) & _).
    split; [auto|]. intros i Hi Ni. destruct (R3 i Hi Ni) as [Q|[S1 C1]]; [auto|].
    right. split; [auto|congruence].
  - unfold do_dump; cbn [y_st]. set (s := set_stamp _ _).
    destruct (check_peak_same c (with_live (y_st y) s)) as (E1 & E2 & E3 & E4 & E5 & _).
    rewrite E1, E2, E4, E5. cbn [with_live snaps idx freq stamp].
    split; [lia|]. split; [auto|]. intros V _.
    split; [apply check_inv, live_inv; auto|].
    intros i Hi Ni. left. split; [auto|]. apply slot_upd_other. auto.
Qed.

Lemma freq_run c ops : c_ok c -> forall y, Forall op_ok ops -> always few ops ->
  run c ops = Ok y -> 0 <= freq (y_st y).
Proof.
  intros K. induction ops as [|o ops IH] using rev_ind; intros y F A H.
  - injection H as <-. cbn [y_st init freq]. destruct K as (_ & _ & K & _). lia.
  - apply run_snoc in H. destruct H as [y0 [H1 H2]].
    apply Forall_app in F. destruct F as [F1 F2]. apply Forall_inv in F2.
    destruct (always_snoc _ _ _ A) as [A1 A2].
    destruct (good_run c ops K y0 F1 A1 H1) as (W & EB & B & S1).
    destruct (step_ev c y0 o y K W) as (_ & Q & _); auto. rewrite EB; auto.
Qed.

Lemma inv_run c ops : c_ok c -> forall y, Forall op_ok ops -> always few ops ->
  run c ops = Ok y -> stamp (y_st y) < bd c ->
  inv c (y_st y) /\
  forall i, (i < c_n c)%nat -> i <> idx (y_st y) -> 0 < T (snaps (y_st y)) i ->
    taken c ops (slot (snaps (y_st y)) i).
Proof.
  intros K. induction ops as [|o ops IH] using rev_ind; intros y F A H BDD.
  - injection H as <-. cbn [y_st]. split; [apply inv_init; auto|].
    intros i Hi _ P. unfold T, slot, init in P; cbn [snaps] in P.
    rewrite nth_repeat in P. cbn [snap0 s_stamp] in P. lia.
  - pose proof (good_run c _ K y F A H) as (_ & _ & _ & SY).
    pose proof H as H0.
    apply run_snoc in H. destruct H as [y0 [H1 H2]].
    apply Forall_app in F. destruct F as [F1 F2]. apply Forall_inv in F2.
    destruct (always_snoc _ _ _ A) as [A1 A2].
    destruct (good_run c ops K y0 F1 A1 H1) as (W & EB & B & S1).
    destruct (step_ev c y0 o y K W) as (M & _ & Q); auto.
    { rewrite EB; auto. } { eapply freq_run; eauto. }
    destruct (IH y0 F1 A1 H1 ltac:(lia)) as [V TK].
    destruct (Q V BDD) as [V' E]. split; [auto|].
    intros i Hi Ni P. destruct (E i Hi Ni) as [[N0 E0]|[S0 C0]].
    + unfold T in *. rewrite E0 in *.
      destruct (TK i Hi N0 P) as (a & o1 & b & ya & yb & Ea & Ra & Rb & St & Sh).
      exists a, o1, (b ++ [o]), ya, yb. rewrite Ea, <- app_assoc. auto.
    + exists ops, o, [], y0, y. split; [auto|]. split; [auto|]. split; [auto|].
      split; [exact S0|]. eapply shows_content; [symmetry; exact C0|auto].
Qed.

(** * Time in calls and in bytes *)
Definition bd30 (c : cfg) : Z := Z.of_nat (c_n c) * 2 ^ 30.
Lemma bd30_bd c : c_ok c -> bd30 c < bd c.
Proof. intros (A & _). unfold bd30, bd. nia. Qed.
Lemma inv_freq31 c w : c_ok c -> wf c w -> inv c w -> stamp w < bd30 c -> 0 < freq w < 2 ^ 31.
Proof.
  intros K W V B. destruct (inv_freq c w K V) as (F & E & P). split; [auto|].
  destruct (inv_stamps c w K W V) as (_ & _ & _ & Q).
  destruct (Z.eq_dec (fills w) 0) as [Z0|Z0].
  - rewrite E, Z0. change (2 ^ 0) with 1. destruct K as (_ & _ & K & _). lia.
  - specialize (Q ltac:(lia)). unfold bd30 in B.
    assert (0 < Z.of_nat (c_n c)) by (destruct K; lia). nia.
Qed.

Definition cinv (c : cfg) (w : st) (calls bytes : Z) : Prop :=
  match c_unit c with
  | Uallocs => 0 < acount w <= freq w /\ stamp w + freq w - acount w = calls
  | Ubytes => 0 <= bcount w <= freq w /\ stamp w + freq w - bcount w <= bytes
  | Uother => True
  end.

Lemma loop_time c : c_ok c -> forall k d w w', wf c w -> inv c w -> 0 <= bcount w ->
  d < 2 ^ 31 -> bcount w < d -> post_loop c k d w = Ok w' -> stamp w' < bd30 c ->
  stamp w' < stamp w + freq w + d - bcount w.
Proof.
  intros K. assert (N : (0 < c_n c)%nat) by (destruct K; lia).
  pose proof (bd30_bd c K) as BB.
  induction k; intros d w w' W V PB D G H B; cbn [post_loop] in H.
  - destruct (Z.ltb_spec (bcount w) d); [discriminate|lia].
  - destruct (Z.ltb_spec (bcount w) d); [|lia].
    apply bind_ok in H. destruct H as [w1 [H1 H2]].
    destruct (inv_freq c w K V) as [F _].
    destruct (take_mono c w w1 ltac:(lia) H1) as [E1 F1].
    destruct (post_loop_mono c _ _ _ _ F1 H2) as [M _].
    destruct (take_ev c w w1 K W V H1 ltac:(lia)) as (V1 & R1 & BC & _).
    destruct (take_wf c w w1 N W H1) as [W1 _].
    destruct (inv_freq31 c w1 K W1 V1 ltac:(lia)) as [FL FH].
    rewrite s32_id in H2 by lia.
    destruct (Z_lt_dec (bcount w1) (d - freq w1)) as [C|C].
    + assert (stamp w' < stamp w1 + freq w1 + (d - freq w1) - bcount w1)
        by (eapply IHk; eauto; lia). lia.
    + destruct k; cbn [post_loop] in H2;
        (destruct (Z.ltb_spec (bcount w1) (d - freq w1)); [lia|]);
        injection H2 as <-; lia.
Qed.

Lemma post_time c w a p x w' calls bytes : c_ok c -> wf c w -> inv c w ->
  cinv c w calls bytes -> account_post c w a p x = Ok w' -> stamp w' < bd30 c ->
  cinv c w' (calls + 1) (bytes + Z.abs (a + p + x)).
Proof.
  intros K W V C H B. pose proof (bd30_bd c K) as BB.
  assert (N : (0 < c_n c)%nat) by (destruct K; lia).
  destruct (inv_freq c w K V) as [F _].
  destruct (post_mono c w a p x w' ltac:(lia) H) as [MM _].
  pose proof (inv_freq31 c w K W V ltac:(lia)) as F31.
  unfold account_post, cinv in *.
  apply bind_ok in H. destruct H as [w1 [H1 H2]]. injection H2 as <-.
  cbn [with_counts acount bcount freq stamp] in *.
  destruct (c_unit c).
  - destruct (fits (a + p + x)) eqn:FT; [|discriminate]. cbn [negb] in H1.
    unfold fits in FT.
    destruct (Z.ltb_spec (bcount w) (Z.abs (a + p + x))) as [G|G].
    + apply bind_ok in H1. destruct H1 as [w2 [H1 H2]]. injection H2 as <-.
      cbn [with_counts acount bcount freq stamp] in *.
      destruct (post_loop_ev c K _ _ _ _ W V H1 ltac:(lia)) as [V2 _].
      destruct (post_loop_wf c N _ _ _ _ W H1) as [W2 _].
      pose proof (inv_freq31 c w2 K W2 V2 B) as F2.
      rewrite s32_id by lia. split; [lia|].
      destruct (Z.eq_dec (Z.abs (a + p + x)) (2 ^ 31)) as [E|E].
      * (* the least int *)
        assert (Q : stamp w2 < stamp w + freq w + Z.abs (a + p + x) - bcount w).
        { rewrite E in *. remember (Z.to_nat (2 ^ 31)) as k eqn:Ek.
          destruct k; [lia|]. clear Ek. cbn [post_loop] in H1.
          destruct (Z.ltb_spec (bcount w) (2 ^ 31)); [|lia].
          apply bind_ok in H1. destruct H1 as [w3 [H1 H3]].
          destruct (take_mono c w w3 ltac:(lia) H1) as [E1 F1].
          destruct (post_loop_mono c _ _ _ _ F1 H3) as [M _].
          destruct (take_ev c w w3 K W V H1 ltac:(lia)) as (V1 & R1 & BC & _).
          destruct (take_wf c w w3 N W H1) as [W1 _].
          destruct (inv_freq31 c w3 K W1 V1 ltac:(lia)) as [FL FH].
          rewrite s32_id in H3 by lia.
          destruct (Z_lt_dec (bcount w3) (2 ^ 31 - freq w3)) as [CC|CC].
          - assert (stamp w2 < stamp w3 + freq w3 + (2 ^ 31 - freq w3) - bcount w3)
              by (eapply (loop_time c K); eauto; lia). lia.
          - destruct k; cbn [post_loop] in H3;
              (destruct (Z.ltb_spec (bcount w3) (2 ^ 31 - freq w3)); [lia|]);
              injection H3 as <-; lia. }
        lia.
      * assert (stamp w2 < stamp w + freq w + Z.abs (a + p + x) - bcount w)
          by (eapply (loop_time c K); eauto; lia). lia.
    + injection H1 as <-. cbn [with_counts acount bcount freq stamp] in *. lia.
  - destruct (Z.leb_spec (acount w - 1) 0) as [G|G].
    + apply bind_ok in H1. destruct H1 as [w2 [H1 H2]]. injection H2 as <-.
      cbn [with_counts acount bcount freq stamp] in *.
      set (w0 := with_counts w (af_cur w) (bcount w) (acount w - 1)) in *.
      assert (V0 : inv c w0) by (apply inv_counts; auto).
      destruct (take_ev c w0 w2 K W V0 H1 ltac:(lia)) as (V2 & _ & _ & AC).
      destruct (take_wf c w0 w2 N W H1) as [W2 _].
      destruct (take_mono c w0 w2 ltac:(cbn [w0 with_counts freq]; lia) H1) as [E1 _].
      cbn [w0 with_counts freq stamp] in E1.
      pose proof (inv_freq31 c w2 K W2 V2 B) as F2.
      rewrite s32_id by lia. lia.
    + injection H1 as <-. cbn [with_counts acount bcount freq stamp] in *. lia.
  - auto.
Qed.

Lemma total_snoc f ops : forall bs o,
  total f bs (ops ++ [o]) = total f bs ops + f (fold_left heap1 ops bs) o.
Proof. induction ops; simpl; intros; [lia|]. rewrite IHops. lia. Qed.

Lemma time_run c ops : c_ok c -> forall y, Forall op_ok ops -> always few ops -> no_tick ops ->
  run c ops = Ok y -> stamp (y_st y) < bd30 c ->
  cinv c (y_st y) (total calls1 [] ops) (total (bytes1 c) [] ops).
Proof.
  intros K. pose proof (bd30_bd c K) as BB.
  induction ops as [|o ops IH] using rev_ind; intros y F A NT H B.
  - injection H as <-. unfold cinv; cbn [y_st init acount bcount freq stamp total].
    destruct K as (_ & _ & K & _). rewrite s32_id by lia. destruct (c_unit c); lia.
  - apply run_snoc in H. destruct H as [y0 [H1 H2]].
    apply Forall_app in F. destruct F as [F1 F2]. apply Forall_inv in F2.
    destruct (always_snoc _ _ _ A) as [A1 A2].
    assert (NT1 : no_tick ops) by (intros I; apply NT, in_or_app; auto).
    assert (NO : o <> Tick) by (intros ->; apply NT, in_or_app; right; left; auto).
    destruct (good_run c ops K y0 F1 A1 H1) as (W & EB & BO & S1).
    assert (BY : blks_ok (y_blks y0)) by (rewrite EB; auto).
    destruct (step_ev c y0 o y K W) as (M & _ & Q); auto.
    { eapply freq_run; eauto. }
    specialize (IH y0 F1 A1 NT1 H1 ltac:(lia)).
    destruct (inv_run c ops K y0 F1 A1 H1 ltac:(lia)) as [V _].
    rewrite !total_snoc. fold (heap ops). rewrite <- EB.
    destruct (step_cases c y0 o y K BY F2 H2) as
      [(-> & E1 & E2 & _)|[(w0 & s & a & p & x & E0 & HP & E1 & E2 & _)|[(-> & HT)|(e & -> & ->)]]].
    + rewrite E1, E2, !Z.add_0_r. auto.
    + rewrite E1, E2.
      destruct E0 as [-> | ->].
      * destruct (with_live_wf c (y_st y0) s W) as [W1 L1].
        apply (post_time c (with_live (y_st y0) s) a p x); auto. apply live_inv; auto.
      * destruct (with_live_wf c (check_peak c (y_st y0)) s (check_peak_wf c _ W)) as [W1 L1].
        apply (post_time c (with_live (check_peak c (y_st y0)) s) a p x); auto.
        { apply live_inv, check_inv; auto. }
        destruct (check_peak_same c (y_st y0)) as (_ & _ & _ & E4 & E5 & E6 & E7 & _).
        unfold cinv in *. cbn [with_live acount bcount freq stamp].
        rewrite E4, E5, E6, E7. auto.
    + easy.
    + cbn [calls1 bytes1]. rewrite !Z.add_0_r. unfold do_dump; cbn [y_st].
      destruct (check_peak_same c (with_live (y_st y0) (set_stamp (live (y_st y0)) (partial_stamp c (y_st y0) e))))
        as (_ & _ & _ & E4 & E5 & E6 & E7 & _).
      unfold cinv in *. rewrite E4, E5, E6, E7. auto.
Qed.
