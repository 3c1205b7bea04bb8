(** Histories of errors and leaks. *)
From Verif Require Import Base Report_Model Report_Spec Report_Proofs Report_Proofs2.
Open Scope Z_scope.

Lemma agree_same o s0 s s' a a' : Agree o s0 s a -> s' = s -> a' = a -> Agree o s0 s' a'.
Proof. intros H -> ->. exact H. Qed.

Lemma error_step o s0 n s a t p m fp w : Agree o s0 s a -> Well n a -> n + 1 < 2 ^ 32 -> 0 <= t < ERROR_LEAK ->
  Agree o s0 (report_error o s t p m fp w) (admit1 o a (Error t p m fp w)).
Proof.
  intros G W B T. cbn [admit1]. unfold report_error. pose proof (reported_le (a_items a)) as (R1 & R2 & R3). pose proof (w_len _ _ W) as Wl.
  rewrite !(g_reported _ _ _ _ G), (u32_id (reported (a_items a) false)), (u32_id (reported (a_items a) true)), u32_id by lia.
  destruct ((0 <=? report_max o) && _).
  { destruct G. constructor; simp; auto. rewrite g_throttled, u32_add. reflexivity. }
  unfold in_suppressed_module. destruct w as [|m0 w].
  2: { apply (whole_fold o s0 a (m0 :: w) s (a_whole a)). destruct a; exact G. }
  cbn [fold_left]. set (x := error_item t p m fp). change (A (a_items a ++ [x]) (a_whole a) (a_throttled a) (a_leaks a) (a_ignored a) (a_throttled_leaks a)) with (push a x).
  destruct (known (a_items a) x) eqn:K.
  - assert (Lk : leaky x = false) by (unfold leaky, type_is_leak; cbn [x error_item i_type]; unfold ERROR_LEAK in *; lia).
    pose proof (error_old o s0 n s a x G W B Lk K eq_refl) as H. cbn [x error_item i_type i_pcs] in H. fold x in H. destruct (record_error s t p) as (s1, e).
    destruct (1 <? e_count e) eqn:C; [|destruct (e_supp e) as [[]|]; destruct H; discriminate]. assert (C1 : (e_count e =? 1) = false) by lia. rewrite C1.
    cbn [andb]. destruct (e_supp e) as [[i d]|]; destruct H as (H & _); destruct (negb (show_duplicates o)); exact H.
  - pose proof (error_new o s0 n s a t p m fp G W B T K) as H. fold x in H.
    assert (C : e_count (snd (record_error s t p)) = 1).
    { change (record_error s t p) with (record_error s (i_type x) (i_pcs x)). rewrite (record_new s (a_items a) x) by (auto; apply (g_errs _ _ _ _ G)). reflexivity. }
    destruct (record_error s t p) as (s1, e). cbn [snd] in C. rewrite C in *. change (1 <? 1) with false. change (1 =? 1) with true. cbv iota beta. cbn [andb].
    destruct (on_suppression_list s1 m) as (s2, r). destruct r as [[i d]|]; [exact H|].
    cbn zeta in *. destruct fp; destruct (acquire_error_number s2 _) as (s3, e3); exact H.
Qed.

Lemma leak_step o s0 n s a l : check_leaks o = true -> Agree o s0 s a -> Well n a -> n + 1 < 2 ^ 32 ->
  Agree o s0 (report_leak o s l) (admit1 o a (Leak l)).
Proof.
  intros CL G W B. cbn [admit1]. unfold report_leak. destruct (l_reachable l && negb (l_count_reachable l)); [exact G|].
  pose proof (w_lk _ _ W) as Wl. destruct (g_leaks _ _ _ _ G) as (Lt & Lf).
  assert (Q : u32 (num_total_leaks s false + num_total_leaks s true) = a_leaks a).
  { rewrite Lt, Lf, u32_add, Z.add_comm, u32_add. replace (potential_leaks (a_items a) + (a_leaks a - potential_leaks (a_items a))) with (a_leaks a) by lia. apply u32_id. lia. }
  rewrite Q. destruct (_ && _); [destruct G; constructor; simp; auto; rewrite g_throttled_leaks, u32_add; reflexivity|].
  set (s1 := w_total_leaks (addb (num_total_leaks s) false 1) s). set (a1 := A (a_items a) (a_whole a) (a_throttled a) (a_leaks a + 1) (a_ignored a) (a_throttled_leaks a)).
  assert (G1 : Agree o s0 s1 a1).
  { destruct G. constructor; simp; auto. split; cbn [s1 w_total_leaks num_total_leaks addb eqb]; [exact Lt|]. unfold addb. cbn [eqb]. rewrite Lf, u32_add. f_equal. cbn. lia. }
  destruct (leak_type o l =? ERROR_MAX_VAL) eqn:M.
  { assert (X : negb (l_reachable l && negb (l_early l)) && (l_early l && ignore_early_leaks o) = true).
    { apply Z.eqb_eq in M. unfold leak_type in M. destruct (l_reachable l && negb (l_early l)); [discriminate|]. destruct (l_early l && ignore_early_leaks o); [reflexivity|]. destruct (l_maybe l); discriminate. }
    rewrite X. destruct G1. constructor; simp; auto. rewrite g_ignored. cbn [a1 a_ignored]. rewrite u32_add. reflexivity. }
  assert (X : negb (l_reachable l && negb (l_early l)) && (l_early l && ignore_early_leaks o) = false).
  { apply Z.eqb_neq in M. unfold leak_type in M. destruct (l_reachable l && negb (l_early l)); [reflexivity|]. destruct (l_early l && ignore_early_leaks o); [congruence|reflexivity]. }
  rewrite X, CL. set (x := leak_item o l). change (A (a_items a ++ [x]) (a_whole a) (a_throttled a) (a_leaks a + 1) (a_ignored a) (a_throttled_leaks a)) with (push a1 x).
  assert (Lk : leaky x = true) by (apply leaks_range; apply Z.eqb_neq in M; exact M).
  assert (W1 : Z.of_nat (length (a_items a1)) <= n) by (apply (w_len _ _ W)).
  destruct (known (a_items a1) x) eqn:K.
  - pose proof (leak_old o s0 n s1 a1 x G1 W1 B Lk K) as H. cbn [x leak_item i_type i_pcs i_bytes] in H. fold x in H.
    destruct (record_error s1 (leak_type o l) (l_pcs l)) as (s2, e). destruct H as (H & C). rewrite C. exact H.
  - pose proof (leak_new o s0 n s1 a1 x G1 W1 B Lk K) as H. cbn [x leak_item i_type i_pcs i_bytes i_supp i_num i_fp] in H. fold x in H. cbn zeta in H.
    destruct (record_error s1 (leak_type o l) (l_pcs l)) as (s2, e).
    destruct (l_reachable l && negb (l_show_reachable l)).
    + cbn [on_suppression_list] in H. destruct H as (H & C). rewrite C in *. change (1 <? 1) with false. exact H.
    + destruct (on_suppression_list s2 (l_match l)) as (s3, r). destruct H as (H & C). rewrite C in *. change (1 <? 1) with false. exact H.
Qed.

Lemma agree_start o s : Fresh s -> Agree o s s acc0.
Proof.
  intros []. constructor; cbn [acc0 a_items a_whole a_throttled a_leaks a_ignored a_throttled_leaks kinds news map prints cnt filter length]; auto; try solve [intros; rewrite ?f_unique, ?f_total, ?f_bytes, ?f_reported, ?f_matched, ?f_sl; reflexivity].
  - intros i. f_equal. unfold used_of, cnt. cbn. lia.
  - intros i. f_equal. unfold spec_bytes_of. cbn. lia.
  - rewrite app_nil_r. reflexivity.
Qed.

Lemma history o s0 l : check_leaks o = true -> Fresh s0 -> Forall proper_event l -> Z.of_nat (length l) < 2 ^ 32 ->
  Agree o s0 (run o s0 l) (admit o l) /\ Well (Z.of_nat (length l)) (admit o l).
Proof.
  intros CL F. induction l as [|e l IH] using rev_ind; intros Pe B.
  - split; [apply agree_start; exact F|]. constructor; cbn; [lia|lia|tauto].
  - rewrite app_length in *. cbn [length] in *. apply Forall_app in Pe. destruct Pe as (Pl & Pe). inversion Pe as [|? ? P1 _]. destruct IH as (G & W); [exact Pl|lia|].
    unfold run, admit in *. rewrite !fold_left_app. cbn [fold_left].
    replace (Z.of_nat (length l + 1)) with (Z.of_nat (length l) + 1) by lia. split; [|apply well_step; auto].
    destruct e as [t p m fp w|lk|]; [| |destruct P1]; cbn [step]; [eapply error_step|eapply leak_step]; eauto; lia.
Qed.

Lemma fork_fresh s : (forall b t, t < ERROR_LEAK \/ ERROR_REACHABLE_LEAK <= t -> num_bytes s b t = 0) -> Fresh (report_fork_init s).
Proof.
  intros H. constructor; cbn [report_fork_init errs error_id error_id_potential num_unique num_total num_bytes num_reported num_total_leaks matched supp_leaks leaks_ignored throttled throttled_leaks]; auto.
  intros b t. destruct ((ERROR_LEAK <=? t) && (t <? ERROR_REACHABLE_LEAK)) eqn:Q; [reflexivity|]. apply H. lia.
Qed.

(** numbers *)
Lemma ids_dense P b : map (id_of P) (filter (fun f => numbered f && eqb (i_fp f) b) (kinds P)) =
  map Z.of_nat (seq 1 (length (filter (fun f => numbered f && eqb (i_fp f) b) (kinds P)))).
Proof.
  induction P as [|x P IH] using rev_ind; [reflexivity|].
  assert (O : map (id_of (P ++ [x])) (filter (fun f => numbered f && eqb (i_fp f) b) (kinds P)) = map (id_of P) (filter (fun f => numbered f && eqb (i_fp f) b) (kinds P))).
  { apply map_ext_in. intros f I. apply filter_In in I. destruct I as (I & _). unfold id_of. destruct (numbered f); [|reflexivity]. rewrite kinds_snoc. apply number_app. apply known_in. exact I. }
  destruct (known P x) eqn:K.
  - rewrite kinds_snoc, K, app_nil_r, O. exact IH.
  - rewrite kinds_snoc, K, filter_app, map_app, O, IH. cbn [filter]. destruct (numbered x && eqb (i_fp x) b) eqn:Q; [|rewrite !app_nil_r; reflexivity].
    rewrite app_length. cbn [length map]. rewrite seq_app, map_app. f_equal. cbn [seq map]. f_equal.
    pose proof (entry_first P x K) as E. apply andb_true_iff in Q. destruct Q as (N & Q). apply eqb_prop in Q. apply (f_equal e_id) in E. cbn [entry e_id] in E. rewrite N in E. rewrite E, Q. unfold cnt. lia.
Qed.
Lemma filter_map {A B} (f : B -> bool) (g : A -> B) l : filter f (map g l) = map g (filter (fun x => f (g x)) l).
Proof. induction l as [|x l IH]; cbn; [reflexivity|]. destruct (f (g x)); cbn; rewrite IH; reflexivity. Qed.
Definition of_file (b : bool) (e : stored) : bool := negb (e_id e =? 0) && eqb (e_pot e) b.
Lemma of_file_entry P f b : In f (kinds P) -> of_file b (entry P f) = numbered f && eqb (i_fp f) b.
Proof.
  intros I. unfold of_file. cbn [entry e_id e_pot]. unfold id_of, numbered. destruct (unsupp f); [|reflexivity]. destruct (i_num f); [|reflexivity]. cbn [andb].
  pose proof (number_pos (kinds P) f (known_in _ _ I)). destruct (number (kinds P) f =? 0) eqn:Z; [lia|reflexivity].
Qed.
Lemma entries_ids P b : map e_id (filter (of_file b) (map (entry P) (kinds P))) =
  map Z.of_nat (seq 1 (length (filter (of_file b) (map (entry P) (kinds P))))).
Proof.
  rewrite filter_map, map_map, map_length. rewrite (filter_ext_in _ (fun f => numbered f && eqb (i_fp f) b)) by (intros f I; apply of_file_entry; exact I). apply ids_dense.
Qed.
Lemma nodup_snoc {A} (l : list A) x : NoDup l -> ~ In x l -> NoDup (l ++ [x]).
Proof. intros D N. apply (NoDup_Add (a := x) (l := l)); [|split; assumption]. rewrite <- (app_nil_r l) at 1. apply Add_app. Qed.
Lemma entries_uniq P : NoDup (map (fun e => (e_type e, e_pcs e)) (map (entry P) (kinds P))).
Proof.
  rewrite map_map. cbn [entry e_type e_pcs]. induction P as [|x P IH] using rev_ind; [constructor|]. rewrite kinds_snoc. destruct (known P x) eqn:K; [rewrite app_nil_r; exact IH|].
  rewrite map_app. cbn [map]. apply nodup_snoc; [exact IH|]. intros I. apply in_map_iff in I. destruct I as (y & Q & I). injection Q as A B.
  pose proof (known_not P x y K (kinds_in _ _ I)) as N. assert (Y : eqk x y = true) by (apply eqk_iff; auto). congruence.
Qed.
Lemma entries_counts P : fold_right (fun e n => e_count e + n) 0 (map (entry P) (kinds P)) = Z.of_nat (length P).
Proof.
  induction P as [|x P IH] using rev_ind; [reflexivity|]. rewrite app_length. cbn [length]. replace (Z.of_nat (length P + 1)) with (Z.of_nat (length P) + 1) by lia. rewrite <- IH. clear IH.
  destruct (known P x) eqn:K.
  - rewrite kinds_snoc, K, app_nil_r. destruct (origin_kind P x K) as (I & Q).
    assert (U : forall y z, In y (kinds P) -> In z (kinds P) -> eqk y z = true -> y = z) by (intros; eapply kinds_uniq; eauto).
    assert (ND : NoDup (kinds P)).
    { pose proof (entries_uniq P) as N. rewrite map_map in N. exact (NoDup_map_inv _ _ N). }
    assert (E : forall f, In f (kinds P) -> e_count (entry (P ++ [x]) f) = e_count (entry P f) + if eqk x f then 1 else 0).
    { intros f J. cbn [entry e_count]. rewrite cnt_app, cnt_one, (eqk_sym f x). lia. }
    revert I ND U E. generalize (origin P x) Q. generalize (kinds P). intros N f Qf I ND U E.
    assert (G : forall M, (forall y, In y M -> In y N) -> NoDup M ->
      fold_right (fun e n => e_count e + n) 0 (map (entry (P ++ [x])) M) = fold_right (fun e n => e_count e + n) 0 (map (entry P) M) + cnt (eqk x) M).
    { induction M as [|y M IH]; intros S D; [reflexivity|]. cbn [map fold_right]. inversion D; subst. rewrite IH; [|intros; apply S; right; auto|auto]. rewrite E by (apply S; left; reflexivity).
      change (y :: M) with ([y] ++ M). rewrite cnt_app, cnt_one. lia. }
    rewrite (G N) by auto. f_equal. assert (C : filter (eqk x) N = [f]); [|unfold cnt; rewrite C; reflexivity].
    assert (Cin : forall y, In y (filter (eqk x) N) <-> y = f).
    { intros y. rewrite filter_In. split; [intros (J & Y); symmetry; apply U; auto; rewrite <- (eqk_same x f); auto|intros ->; auto]. }
    assert (CD : NoDup (filter (eqk x) N)) by (apply NoDup_filter; exact ND).
    destruct (filter (eqk x) N) as [|u [|v r]]; [destruct (proj2 (Cin f) eq_refl)|f_equal; apply Cin; left; reflexivity|].
    exfalso. inversion CD as [|? ? Nu _]. apply Nu. left. rewrite (proj1 (Cin u)), (proj1 (Cin v)); [reflexivity|right; left; reflexivity|left; reflexivity].
  - rewrite <- (upd_first P x K). rewrite fold_right_app. cbn [fold_right]. rewrite (entry_first P x K). cbn [e_count].
    induction (map (entry P) (kinds P)) as [|e l IH]; cbn [fold_right]; lia.
Qed.
