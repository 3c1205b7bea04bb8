(** Proofs about Dr. Heapstat, 5: that runs go on, and last accesses. *)
From Verif Require Import Base Heapstat_Model Heapstat_Spec Heapstat_Proofs
  Heapstat_Proofs2 Heapstat_Proofs3 Heapstat_Proofs4.
Local Open Scope Z_scope.

(** * Runs go on *)
Lemma loop_prog c : c_ok c -> forall k d w, wf c w -> inv c w -> 0 <= bcount w ->
  d <= Z.of_nat k -> d < 2 ^ 31 -> stamp w + freq w + d < bd30 c ->
  exists w', post_loop c k d w = Ok w'.
Proof.
  intros K. assert (N : (0 < c_n c)%nat) by (destruct K; lia).
  pose proof (bd30_bd c K) as BB.
  induction k; intros d w W V PB DK D B; cbn [post_loop].
  - destruct (Z.ltb_spec (bcount w) d); [lia|eauto].
  - destruct (Z.ltb_spec (bcount w) d); [|eauto].
    destruct (take_inv c w K W V) as (w1 & H1 & V1 & S1 & B1 & _); [unfold bd in *; lia|].
    rewrite H1. cbn [bind].
    destruct (take_wf c w w1 N W H1) as [W1 _].
    destruct (inv_freq31 c w1 K W1 V1 ltac:(lia)) as [FL FH].
    rewrite s32_id by lia. apply IHk; auto; lia.
Qed.
Lemma post_prog c w a p x : c_ok c -> wf c w -> inv c w -> (c_unit c = Ubytes -> 0 <= bcount w) ->
  Z.abs (a + p + x) < 2 ^ 31 -> stamp w + freq w + Z.abs (a + p + x) < bd30 c ->
  exists w', account_post c w a p x = Ok w'.
Proof.
  intros K W V C D B. pose proof (bd30_bd c K) as BB.
  assert (N : (0 < c_n c)%nat) by (destruct K; lia).
  unfold account_post. destruct (c_unit c) eqn:U.
  - replace (fits (a + p + x)) with true by (unfold fits; lia). cbn [negb].
    destruct (_ <? _); [|cbn [bind]; eauto].
    destruct (loop_prog c K (Z.to_nat (Z.abs (a + p + x))) (Z.abs (a + p + x)) w W V)
      as [w1 H1]; auto; try lia.
    rewrite H1. cbn [bind]. eauto.
  - destruct (_ <=? _); [|cbn [bind]; eauto].
    set (w0 := with_counts w (af_cur w) (bcount w) (acount w - 1)).
    destruct (take_inv c w0 K W (inv_counts c w _ _ _ V)) as (w1 & H1 & _).
    { cbn [w0 with_counts stamp freq]. unfold bd in *; lia. }
    rewrite H1. cbn [bind]. eauto.
  - cbn [bind]. eauto.
Qed.
Lemma shows_has c bs s b : shows c bs s -> In b bs -> has (b_id b) (s_used s) = true.
Proof.
  intros (_ & _ & _ & _ & M & _) I. apply has_in, M. exists b; auto.
Qed.
Lemma pre_ok s id a p o rl : Z.abs (a + p) < 2 ^ 31 -> Z.abs (a + p + o) < 2 ^ 31 ->
  (0 < a + p \/ has id (s_used s) = true) -> exists s', account_pre s id a p o rl = Ok s'.
Proof.
  intros A B H. unfold account_pre.
  replace (fits (a + p) && fits (a + p + o)) with true by (unfold fits; lia). cbn [negb].
  set (u := if 0 <? a + p then _ else _).
  assert (E : has id u = true).
  { unfold u. destruct (Z.ltb_spec 0 (a + p)).
    - destruct (has id (s_used s)) eqn:E; [auto|]. cbn. rewrite Z.eqb_refl. auto.
    - destruct H; [lia|auto]. }
  rewrite E. cbn [negb]. eauto.
Qed.

Lemma step_prog c ops o y : c_ok c -> Forall op_ok (ops ++ [o]) -> always few ops ->
  c_unit c = Uother \/ no_tick (ops ++ [o]) -> run c ops = Ok y ->
  stamp (y_st y) + freq (y_st y) + bytes1 c (heap ops) o < bd30 c ->
  exists y', run c (ops ++ [o]) = Ok y'.
Proof.
  intros K F A NT H B. pose proof (bd30_bd c K) as BB.
  apply Forall_app in F. destruct F as [F1 F2]. apply Forall_inv in F2.
  destruct (good_run c ops K y F1 A H) as (W & EB & BO & S1).
  assert (B0 : 0 <= bytes1 c (heap ops) o).
  { destruct BO as [_ FB]. rewrite Forall_forall in FB.
    assert (0 <= c_hdr c) by apply K.
    destruct o as [h id req pad|h|h req pad| |e]; cbn [bytes1]; try lia.
    - destruct (present _ _); [lia|]. destruct F2; lia.
    - fold (find_blk h (heap ops)). destruct (find_blk h (heap ops)) as [b|] eqn:E; [|lia].
      destruct (find_in _ _ _ E) as [I _]. destruct (FB b I). unfold space. lia.
    - destruct (find _ _); lia. }
  assert (F0 := freq_run c ops K y F1 A H).
  destruct (inv_run c ops K y F1 A H ltac:(lia)) as [V _].
  assert (C : c_unit c = Ubytes -> 0 <= bcount (y_st y)).
  { intros U. destruct NT as [NT|NT]; [congruence|].
    assert (NT1 : no_tick ops) by (intros I; apply NT, in_or_app; auto).
    pose proof (time_run c ops K y F1 A NT1 H ltac:(lia)) as T1.
    unfold cinv in T1. rewrite U in T1. lia. }
  unfold run. rewrite run_from_app. unfold run in H. rewrite H. cbn [bind run_from].
  cut (exists y', step c y o = Ok y').
  { intros [y' E]. rewrite E. cbn [bind]. eauto. }
  rewrite <- EB in B, S1, BO, B0.
  destruct BO as [D FB]. rewrite Forall_forall in FB.
  assert (HB : 0 <= c_hdr c <= 16) by (destruct K as (_ & _ & _ & K & _); exact K).
  destruct (check_peak_same c (y_st y)) as (_ & _ & _ & E4 & E5 & E6 & E7 & _).
  destruct o as [h id req pad|h|h req pad| |e]; cbn [step bytes1] in *.
  - unfold do_add. unfold present in B. rewrite find_exists in B.
    destruct (find_blk h (y_blks y)) eqn:E; [eauto|].
    destruct F2 as (Q1 & Q2 & Q3 & Q4). rewrite !s32_id by lia.
    destruct (pre_ok (live (y_st y)) id req pad (c_hdr c) false) as [s H1]; try lia.
    rewrite H1. cbn [bind].
    destruct (with_live_wf c (y_st y) s W) as [W1 L1].
    destruct (post_prog c (with_live (y_st y) s) req pad (c_hdr c)) as [w1 H2];
      auto; try (cbn [with_live stamp freq]; lia).
    { apply live_inv; auto. }
    rewrite H2. cbn [bind]. eauto.
  - unfold do_free. fold (find_blk h (y_blks y)) in B.
    destruct (find_blk h (y_blks y)) as [b|] eqn:E; [|eauto].
    destruct (find_in _ _ _ E) as [I Eh]. destruct (FB b I) as (Q1 & Q2 & Q3 & Q4).
    rewrite !s32_id by lia. rewrite check_peak_live.
    destruct (pre_ok (live (y_st y)) (b_id b) (- b_req b) (- b_pad b) (- c_hdr c) false) as [s H1];
      try lia.
    { right. eapply shows_has; eauto. }
    rewrite H1. cbn [bind].
    destruct (with_live_wf c (check_peak c (y_st y)) s (check_peak_wf c _ W)) as [W1 L1].
    unfold space in B.
    destruct (post_prog c (with_live (check_peak c (y_st y)) s) (b_req b) (b_pad b) (c_hdr c))
      as [w1 H2]; auto; try (cbn [with_live stamp freq bcount]; rewrite ?E4, ?E5, ?E6; auto; lia).
    { apply live_inv, check_inv; auto. }
    rewrite H2. cbn [bind]. eauto.
  - unfold do_realloc. fold (find_blk h (y_blks y)) in B.
    destruct (find_blk h (y_blks y)) as [b|] eqn:E; [|eauto].
    destruct (find_in _ _ _ E) as [I Eh]. destruct (FB b I) as (Q1 & Q2 & Q3 & Q4).
    destruct F2 as (R1 & R2 & R3 & R4). rewrite !s32_id by lia.
    set (w0 := if _ <? 0 then _ else _).
    assert (W0 : wf c w0 /\ live w0 = live (y_st y) /\ inv c w0 /\ stamp w0 = stamp (y_st y) /\
      freq w0 = freq (y_st y) /\ bcount w0 = bcount (y_st y)).
    { unfold w0. destruct (_ <? 0); [|auto 10].
      split; [apply check_peak_wf; auto|]. split; [apply check_peak_live|].
      split; [apply check_inv; auto|auto]. }
    destruct W0 as (W0 & L0 & V0 & X1 & X2 & X3). rewrite L0.
    destruct (pre_ok (live (y_st y)) (b_id b) (req - b_req b) (pad - b_pad b) 0 true) as [s H1];
      try lia.
    { right. eapply shows_has; eauto. }
    rewrite H1. cbn [bind].
    destruct (with_live_wf c w0 s W0) as [W1 L1].
    destruct (post_prog c (with_live w0 s) (req - b_req b) (pad - b_pad b) 0)
      as [w1 H2]; auto; try (cbn [with_live stamp freq bcount]; rewrite ?X1, ?X2, ?X3; auto; lia).
    { apply live_inv; auto. }
    rewrite H2. cbn [bind]. eauto.
  - destruct (take_inv c (y_st y) K W V) as (w1 & H1 & _); [unfold bd in *; lia|].
    rewrite H1. cbn [bind]. eauto.
  - eauto.
Qed.

(** the stamp of the last snapshot *)
Lemma dump_stamp c ops e y : c_ok c -> Forall op_ok ops -> always few ops -> no_tick ops ->
  run c (ops ++ [Dump e]) = Ok y -> stamp (y_st y) < bd30 c ->
  match c_unit c with
  | Uallocs => s_stamp (live (y_st y)) = total calls1 [] ops
  | Ubytes => s_stamp (live (y_st y)) <= total (bytes1 c) [] ops
  | Uother => True
  end.
Proof.
  intros K F A NT H B. pose proof (bd30_bd c K) as BB.
  apply run_snoc in H. destruct H as [y0 [H1 H2]].
  destruct (good_run c ops K y0 F A H1) as (W & EB & BO & S1).
  injection H2 as <-. unfold do_dump in *; cbn [y_st] in *.
  set (s := set_stamp _ _) in *.
  destruct (check_peak_same c (with_live (y_st y0) s)) as (_ & _ & _ & E4 & E5 & E6 & E7 & _).
  rewrite E5 in B. cbn [with_live stamp] in B.
  rewrite check_peak_live. destruct (with_live_wf c (y_st y0) s W) as [_ ->].
  unfold s. cbn [set_stamp s_stamp]. unfold partial_stamp.
  pose proof (time_run c ops K y0 F A NT H1 B) as T1. unfold cinv in T1.
  destruct (inv_run c ops K y0 F A H1 ltac:(lia)) as [V _].
  pose proof (inv_freq31 c _ K W V B) as F31.
  destruct (c_unit c); auto.
  - unfold u32. rewrite Z.mod_small by lia. lia.
  - unfold u32. rewrite Z.mod_small by lia. lia.
Qed.

(** * Last accesses *)
Definition ent_ok (ext : list (Z * Z)) (e : ent) (a : acc) : Prop :=
  e_last e = a_last a /\
  if e_ext e then nth_error ext (Z.to_nat (e_u e)) = Some (a_id a, a_bytes a)
  else e_u e mod 2 ^ 19 = a_id a /\ e_u e / 2 ^ 19 = a_bytes a.
Lemma ent_more ext x e a : ent_ok ext e a -> ent_ok (ext ++ x) e a.
Proof.
  intros [A B]. split; [auto|]. destruct (e_ext e); [|auto].
  rewrite nth_error_app1; auto. apply nth_error_Some. congruence.
Qed.
Lemma pack_ok id sz : 0 <= id <= MAX_ID -> 0 <= sz <= MAX_SZ ->
  pack id sz mod 2 ^ 19 = id /\ pack id sz / 2 ^ 19 = sz.
Proof.
  unfold MAX_ID, MAX_SZ, pack. intros A B.
  rewrite (Z.mod_small id), (Z.mod_small sz) by lia.
  rewrite (Z.mul_comm (2 ^ 19)). split.
  - rewrite Z.mod_add by lia. apply Z.mod_small; lia.
  - rewrite Z.div_add by lia. rewrite Z.div_small by lia. lia.
Qed.

Lemma iter_lg : forall l l0, Forall (fun a => 0 <= a_bytes a < 2 ^ 32) l ->
  snap_iter (Lg l0) l = Ok (Lg (l0 ++ l)).
Proof.
  induction l as [|a l IH]; intros l0 F; cbn [snap_iter]; [rewrite app_nil_r; auto|].
  inversion F; subst. cbn [snap_cb bind]. rewrite IH by auto. rewrite <- app_assoc.
  do 3 f_equal. cbn [app]. f_equal. unfold u32. rewrite Z.mod_small by lia.
  destruct a; reflexivity.
Qed.
Lemma iter_sm cur : cur <= MAX_STAMP -> forall l done main ext cap,
  Forall (acc_ok cur) l -> Forall2 (ent_ok ext) main done ->
  0 <= cap -> Z.of_nat (List.length ext) <= cap ->
  (List.length ext <= List.length done)%nat ->
  Z.of_nat (List.length (done ++ l)) < 2 ^ 31 ->
  exists main' ext' cap', snap_iter (Sm main ext cap) l = Ok (Sm main' ext' cap') /\
    Forall2 (ent_ok ext') main' (done ++ l).
Proof.
  intros CU. induction l as [|a l IH]; intros done main ext cap F G C0 C1 C2 L; cbn [snap_iter].
  - rewrite app_nil_r. eauto.
  - inversion F as [|? ? (A1 & A2 & A3) F']; subst.
    assert (SZ : u32 (a_bytes a) = a_bytes a) by (apply Z.mod_small; lia).
    assert (LA : a_last a mod 2 ^ 31 = a_last a).
    { apply Z.mod_small. unfold MAX_STAMP in CU. change ((2 ^ 32 - 1) / 2) with (2 ^ 31 - 1) in CU. lia. }
    cbn [snap_cb]. rewrite SZ, LA.
    replace (done ++ a :: l) with ((done ++ [a]) ++ l) in * by (rewrite <- app_assoc; auto).
    destruct ((a_id a <=? MAX_ID) && (a_bytes a <=? MAX_SZ)) eqn:E; cbn [bind].
    + apply IH; auto.
      * apply Forall2_app; [auto|]. constructor; [|constructor].
        split; [auto|]. cbn [e_ext e_u]. apply pack_ok; lia.
      * rewrite app_length. lia.
    + set (n := Z.of_nat (List.length ext)) in *.
      assert (NB : n < 2 ^ 31).
      { unfold n. rewrite !app_length in L. lia. }
      set (cap1 := if cap <=? n then _ else _).
      assert (CP : n < cap1 /\ 0 <= cap1).
      { unfold cap1. destruct (Z.leb_spec cap n); [|lia].
        destruct (Z.eqb_spec cap 0); [lia|]. unfold u32. rewrite Z.mod_small by lia. lia. }
      destruct (Z.leb_spec cap1 n); [lia|]. cbn [bind].
      apply IH; auto.
      * apply Forall2_app.
        { clear -G. induction G; constructor; auto. apply ent_more; auto. }
        constructor; [|constructor]. split; [auto|]. cbn [e_ext e_u]. unfold n.
        rewrite Nat2Z.id, nth_error_app2, Nat.sub_diag by lia. reflexivity.
      * lia.
      * rewrite app_length. cbn [List.length]. lia.
      * rewrite !app_length. cbn [List.length]. lia.
Qed.
Lemma f2_nth {A B} (P : A -> B -> Prop) l l' i b : Forall2 P l l' -> nth_error l' i = Some b ->
  exists a, nth_error l i = Some a /\ P a b.
Proof.
  intros F. revert i. induction F; intros i H0; [destruct i; discriminate|].
  destruct i; cbn in *; [injection H0 as <-; eauto|auto].
Qed.

Lemma stale_get cur l : Forall (acc_ok cur) l -> Z.of_nat (List.length l) < 2 ^ 31 ->
  exists t, stale_take cur (Z.of_nat (List.length l)) l = Ok t /\
    t_n t = Z.of_nat (List.length l) /\
    forall i a, nth_error l i = Some a ->
      get_id t i = Ok (a_id a) /\ get_bytes t i = Ok (a_bytes a) /\ get_last t i = Ok (a_last a).
Proof.
  intros F L. unfold stale_take. rewrite Z.ltb_irrefl.
  destruct (Z.ltb_spec MAX_STAMP cur) as [G|G].
  - rewrite iter_lg.
    2:{ eapply Forall_impl; [|exact F]. intros a (A & B & C). auto. }
    cbn [bind app]. eexists. split; [reflexivity|]. split; [auto|].
    intros i a H. unfold get_id, get_bytes, get_last. cbn [t_data]. rewrite H. auto.
  - destruct (iter_sm cur G l [] [] [] 0) as (m & e & cp & H & G2); auto; try (cbn; lia).
    rewrite H. cbn [bind]. eexists. split; [reflexivity|]. split; [auto|].
    intros i a Hi. cbn [app] in G2. destruct (f2_nth _ _ _ _ _ G2 Hi) as (x & Hx & P1 & P2).
    unfold get_id, get_bytes, get_last. cbn [t_data]. rewrite Hx. cbn [of_option bind].
    rewrite P1. destruct (e_ext x).
    + rewrite P2. auto.
    + destruct P2 as [-> ->]. auto.
Qed.

(** * What is printed *)
Lemma inv_printed c w : c_ok c -> wf c w -> inv c w ->
  forall i, (i < c_n c)%nat -> i = idx w \/ 0 < s_stamp (slot (snaps w) i) -> In i (dumped c w).
Proof.
  intros K [L B] V i Hi G. unfold dumped.
  destruct (Z.eqb_spec (fills w) 0) as [E|E]; apply in_seq; [|lia].
  destruct V as [A1 A2 A3 A4 A5|]; [|lia].
  destruct G as [G|G]; [lia|].
  destruct (Nat.lt_ge_cases (idx w) i) as [X|X]; [|lia].
  unfold T in A5. rewrite A5 in G by lia. lia.
Qed.
