(** Properties C60-C63: Dr. Heapstat. *)
From Verif Require Import Base Heapstat_Model Heapstat_Spec Heapstat_Proofs
  Heapstat_Proofs2 Heapstat_Proofs3 Heapstat_Proofs4 Heapstat_Proofs5.
Local Open Scope Z_scope.

(** * C60: the figures of the live snapshot *)

(** After any run the live snapshot has one node for each callstack that has
    blocks, with the number of them and the sums of their sizes, and the sums
    over all blocks, up to the width of each field. *)
Theorem C60_shows : forall c ops y, c_ok c -> Forall op_ok ops -> always few ops ->
  run c ops = Ok y -> shows c (heap ops) (live (y_st y)).
Proof.
  intros c ops y K F A H. exact (proj2 (proj2 (proj2 (good_run c ops K y F A H)))).
Qed.
Print Assumptions C60_shows.

(** The number of mallocs is right as long as none is resized in place. *)
Theorem C60_mallocs : forall c ops y, c_ok c -> Forall op_ok ops -> always few ops ->
  no_realloc ops -> run c ops = Ok y ->
  s_mallocs (live (y_st y)) = Z.of_nat (List.length (heap ops)) mod 2 ^ 64.
Proof. intros c ops y K F A R H. exact (mallocs_run c ops K y F A R H). Qed.
Print Assumptions C60_mallocs.

Definition c4 : cfg := mkC 4 5 Uother 8 1.
Definition show (r : res sys) :=
  match r with
  | Ok y => let s := live (y_st y) in
      Some (s_mallocs s, s_asked s, s_usable s, s_occ s,
            map (fun n => (n_id n, n_inst n, n_asked n, n_usable n, n_occ n)) (s_used s))
  | _ => None
  end.

Example C60_case : show (run c4 [Add 1 7 10 16; Add 2 7 20 24; Add 3 9 5 8; Free 1]) =
 Some (2, 25, 57, 73, [(9, 1, 5, 8, 8); (7, 1, 20, 24, 8)]).
Proof. vm_compute. reflexivity. Qed.
Example C60_case_gone : show (run c4 [Add 1 7 10 16; Add 3 9 5 8; Tick; Free 1]) = Some (1, 5, 13, 21, [(9, 1, 5, 8, 8)]).
Proof. vm_compute. reflexivity. Qed.

(** The number of mallocs is wrong after a block is resized in place: it
    goes up when the block grows and down, even below zero, when not. *)
Theorem C60_mallocs_refuted : exists c ops y, c_ok c /\ Forall op_ok ops /\
  run c ops = Ok y /\ List.length (heap ops) = 1%nat /\
  s_mallocs (live (y_st y)) = 2 ^ 64 - 1.
Proof.
  pose (ops := [Add 1 7 10 16; Realloc 1 10 16; Realloc 1 9 16]).
  destruct (run c4 ops) as [y| |] eqn:E; try (vm_compute in E; discriminate).
  exists c4, ops, y. split; [repeat split; cbn; lia|].
  split; [repeat constructor; cbn; lia|]. split; [auto|].
  vm_compute in E. injection E as <-. split; reflexivity.
Qed.
Print Assumptions C60_mallocs_refuted.

(** pad_size is the whole usable size of a block, but is added to the size
    asked for: the usable total, and the occupied one, count the request
    twice. *)
Theorem C60_usable_refuted : exists c ops y, c_ok c /\ Forall op_ok ops /\
  run c ops = Ok y /\
  s_usable (live (y_st y)) = tot b_pad (heap ops) + tot b_req (heap ops) /\
  s_usable (live (y_st y)) <> tot b_pad (heap ops).
Proof.
  pose (ops := [Add 1 7 10 16]).
  destruct (run c4 ops) as [y| |] eqn:E; try (vm_compute in E; discriminate).
  exists c4, ops, y. split; [repeat split; cbn; lia|].
  split; [repeat constructor; cbn; lia|]. split; [auto|].
  vm_compute in E. injection E as <-. split; [reflexivity|]. cbn. lia.
Qed.
Print Assumptions C60_usable_refuted.

(** The node of a callstack keeps the extra bytes in 16 bits: one block of
    64KB shows none. *)
Theorem C60_extra_refuted : exists c ops y n, c_ok c /\ Forall op_ok ops /\
  run c ops = Ok y /\ s_used (live (y_st y)) = [n] /\
  tot b_pad (heap ops) = 65536 /\ n_usable n = 0.
Proof.
  pose (ops := [Add 1 7 65530 65536]).
  destruct (run c4 ops) as [y| |] eqn:E; try (vm_compute in E; discriminate).
  exists c4, ops, y, (mkN 7 1 65530 0 8). split; [repeat split; cbn; lia|].
  split; [repeat constructor; cbn; lia|]. split; [auto|].
  vm_compute in E. injection E as <-. repeat split.
Qed.
Print Assumptions C60_extra_refuted.

(** * C61: the peak *)

(** When the snapshots are dumped, no moment of the run had more than the
    threshold's percentage above the peak. *)
Theorem C61_peak : forall c ops e y, c_ok c -> Forall op_ok ops -> always few ops ->
  always (small c) ops -> all_grow [] ops -> run c (ops ++ [Dump e]) = Ok y ->
  forall a b, ops = a ++ b ->
  near (c_thr c) (tot (space c) (heap a)) (s_occ (peak (y_st y))).
Proof. exact near_run. Qed.
Print Assumptions C61_peak.

(** And the peak shows the heap as it was at some moment of the run. *)
Theorem C61_real : forall c ops y, c_ok c -> Forall op_ok ops -> always few ops ->
  always (small c) ops -> run c ops = Ok y ->
  exists a b, ops = a ++ b /\ shows c (heap a) (peak (y_st y)).
Proof. intros c ops y K F A SM H. exact (proj1 (peaked_run c ops K y F A SM H)). Qed.
Print Assumptions C61_real.

Definition pk_of (r : res sys) :=
  match r with
  | Ok y => Some (s_occ (peak (y_st y)), s_occ (live (y_st y)))
  | _ => None
  end.
Definition peak_ops : list op :=
  [Add 1 7 10 16; Add 2 7 1000 1000; Free 2; Add 3 7 40 40; Realloc 3 20 40; Add 4 8 8 8].
Example C61_case : pk_of (run c4 (peak_ops ++ [Dump 0])) = Some (2042, 126).
Proof. vm_compute. reflexivity. Qed.
Example C61_case_hyps : Forall op_ok peak_ops /\ all_grow [] peak_ops.
Proof.
  split.
  - repeat constructor; cbn; lia.
  - repeat split; cbn; intros; intuition; subst; cbn in *; try lia.
Qed.

(** What is meant to happen when many calls were made since the last peak
    (the percentage of the threshold) does not: the occupied bytes of the peak
    are passed as the percentage. *)
Theorem C61_calls_refuted : exists c ops y0 y, c_ok c /\ Forall op_ok (ops ++ [Dump 0]) /\
  run c ops = Ok y0 /\ run c (ops ++ [Dump 0]) = Ok y /\
  (* more is in use than at the peak *)
  s_occ (peak (y_st y0)) < s_occ (live (y_st y0)) /\
  (* and the number of calls has changed by more than the threshold *)
  100 * (af_cur (y_st y0) - af_last (y_st y0)) > c_thr c * af_last (y_st y0) /\
  (* but the peak stays *)
  peak (y_st y) = peak (y_st y0).
Proof.
  pose (ops := [Add 1 7 5000 5000; Add 2 7 8 8; Free 2; Add 3 7 8 8; Add 4 7 8 8]).
  pose (got := fun r : res sys => match r with Ok y => y | _ => mkY (init c4) [] end).
  exists c4, ops, (got (run c4 ops)), (got (run c4 (ops ++ [Dump 0]))).
  split; [repeat split; cbn; lia|]. split; [repeat constructor; cbn; lia|].
  split; [vm_compute; reflexivity|]. split; [vm_compute; reflexivity|].
  split; [vm_compute; reflexivity|]. split; vm_compute; reflexivity.
Qed.
Print Assumptions C61_calls_refuted.

(** * C62: which snapshots are kept, and time *)

(** Every multiple of the current frequency has its snapshot.  (Until the
    frequency, a 32-bit number, would have to go beyond it.) *)
Theorem C62_kept : forall c ops y, c_ok c -> Forall op_ok ops -> always few ops ->
  run c ops = Ok y -> let w := y_st y in stamp w < Z.of_nat (c_n c) * 2 ^ 31 ->
  forall q, 1 <= q -> freq w * q <= stamp w ->
  exists i, (i < c_n c)%nat /\ i <> idx w /\ s_stamp (slot (snaps w) i) = freq w * q.
Proof.
  intros c ops y K F A H w B.
  exact (inv_covers c w K (proj1 (good_run c ops K y F A H))
           (proj1 (inv_run c ops K y F A H B))).
Qed.
Print Assumptions C62_kept.

(** The frequency is the first one doubled each time the slots were full, and
    such that between half of the slots and all of them are used by its
    multiples; the stamps are multiples of half of it, and all different. *)
Theorem C62_stamps : forall c ops y, c_ok c -> Forall op_ok ops -> always few ops ->
  run c ops = Ok y -> let w := y_st y in stamp w < Z.of_nat (c_n c) * 2 ^ 31 ->
  freq w = c_freq c * 2 ^ fills w /\
  stamp w < Z.of_nat (c_n c) * freq w /\
  (0 < fills w -> Z.of_nat (c_n c) * freq w <= 2 * stamp w) /\
  (forall i, (i < c_n c)%nat -> i <> idx w ->
    0 <= s_stamp (slot (snaps w) i) <= stamp w /\
    (freq w | 2 * s_stamp (slot (snaps w) i))) /\
  (forall i j, (i < j < c_n c)%nat -> i <> idx w -> j <> idx w ->
    0 < s_stamp (slot (snaps w) j) ->
    s_stamp (slot (snaps w) i) <> s_stamp (slot (snaps w) j)).
Proof.
  intros c ops y K F A H w B.
  pose proof (proj1 (good_run c ops K y F A H)) as W.
  pose proof (proj1 (inv_run c ops K y F A H B)) as V.
  destruct (inv_freq c w K V) as (_ & E & _).
  destruct (inv_stamps c w K W V) as (S1 & S2 & S3 & S4).
  split; [exact E|]. split; [exact S3|]. split; [exact S4|]. split; [|exact S2].
  intros i Hi Ni. destruct (S1 i Hi Ni) as (P & Q & _). split; [exact P|exact Q].
Qed.
Print Assumptions C62_stamps.

(** Each snapshot kept was taken during an operation, at the time it
    carries, and shows the heap after that operation. *)
Theorem C62_taken : forall c ops y, c_ok c -> Forall op_ok ops -> always few ops ->
  run c ops = Ok y -> let w := y_st y in stamp w < Z.of_nat (c_n c) * 2 ^ 31 ->
  forall i, (i < c_n c)%nat -> i <> idx w -> 0 < s_stamp (slot (snaps w) i) ->
  taken c ops (slot (snaps w) i).
Proof. intros c ops y K F A H w B. exact (proj2 (inv_run c ops K y F A H B)). Qed.
Print Assumptions C62_taken.

(** All of them are printed, and the live one. *)
Theorem C62_printed : forall c ops y, c_ok c -> Forall op_ok ops -> always few ops ->
  run c ops = Ok y -> let w := y_st y in stamp w < Z.of_nat (c_n c) * 2 ^ 31 ->
  forall i, (i < c_n c)%nat -> i = idx w \/ 0 < s_stamp (slot (snaps w) i) ->
  In i (dumped c w).
Proof.
  intros c ops y K F A H w B i Hi G.
  exact (inv_printed c w K (proj1 (good_run c ops K y F A H))
           (proj1 (inv_run c ops K y F A H B)) i Hi G).
Qed.
Print Assumptions C62_printed.

(** Runs go on: the search ends, and nothing is undefined. *)
Theorem C62_runs : forall c ops o y, c_ok c -> Forall op_ok (ops ++ [o]) -> always few ops ->
  c_unit c = Uother \/ no_tick (ops ++ [o]) -> run c ops = Ok y ->
  stamp (y_st y) + freq (y_st y) + bytes1 c (heap ops) o < Z.of_nat (c_n c) * 2 ^ 30 ->
  exists y', run c (ops ++ [o]) = Ok y'.
Proof. exact step_prog. Qed.
Print Assumptions C62_runs.

(** With -time_allocs the last snapshot carries the number of calls. *)
Theorem C62_calls : forall c ops e y, c_ok c -> Forall op_ok ops -> always few ops ->
  no_tick ops -> c_unit c = Uallocs -> run c (ops ++ [Dump e]) = Ok y ->
  stamp (y_st y) < Z.of_nat (c_n c) * 2 ^ 30 ->
  s_stamp (live (y_st y)) = total calls1 [] ops.
Proof.
  intros c ops e y K F A NT U H B.
  pose proof (dump_stamp c ops e y K F A NT H B) as Q. rewrite U in Q. exact Q.
Qed.
Print Assumptions C62_calls.

(** With -time_bytes it carries no more than the number of bytes allocated
    and freed. *)
Theorem C62_bytes : forall c ops e y, c_ok c -> Forall op_ok ops -> always few ops ->
  no_tick ops -> c_unit c = Ubytes -> run c (ops ++ [Dump e]) = Ok y ->
  stamp (y_st y) < Z.of_nat (c_n c) * 2 ^ 30 ->
  s_stamp (live (y_st y)) <= total (bytes1 c) [] ops.
Proof.
  intros c ops e y K F A NT U H B.
  pose proof (dump_stamp c ops e y K F A NT H B) as Q. rewrite U in Q. exact Q.
Qed.
Print Assumptions C62_bytes.

Definition stamps_of (r : res sys) :=
  match r with
  | Ok y => Some (map s_stamp (snaps (y_st y)), idx (y_st y), freq (y_st y), stamp (y_st y))
  | _ => None
  end.
Example C62_case_6 : stamps_of (run c4 (repeat Tick 5)) = Some ([6; 2; 6; 4], 2%nat, 2, 6).
Proof. vm_compute. reflexivity. Qed.
Example C62_case_12 : stamps_of (run c4 (repeat Tick 11)) = Some ([48; 16; 48; 32], 2%nat, 16, 48).
Proof. vm_compute. reflexivity. Qed.
Definition ca : cfg := mkC 4 5 Uallocs 8 1.
Example C62_case_calls : stamps_of (run ca
 ([Add 1 1 8 8; Add 2 1 8 8; Free 1; Add 3 1 8 8; Free 2; Free 3; Add 4 1 8 8] ++ [Dump 0])) = Some ([6; 2; 7; 4], 2%nat, 2, 6).
Proof. vm_compute. reflexivity. Qed.
Definition cb : cfg := mkC 4 5 Ubytes 8 8.
Example C62_case_bytes : stamps_of (run cb ([Add 1 1 8 8; Free 1; Add 2 1 2 8] ++ [Dump 0])) = Some ([48; 16;
    48; 32], 2%nat, 16, 48).
Proof. vm_compute. reflexivity. Qed.

(** With -time_bytes time falls behind: what goes past a snapshot is
    forgotten. *)
Theorem C62_bytes_refuted : exists c ops y, c_ok c /\ Forall op_ok ops /\
  c_unit c = Ubytes /\ run c (ops ++ [Dump 0]) = Ok y /\
  total (bytes1 c) [] ops = 100 /\ s_stamp (live (y_st y)) = 84.
Proof.
  pose (ops := [Add 1 1 4 8; Free 1; Add 1 1 4 8; Free 1; Add 1 1 4 8]).
  destruct (run cb (ops ++ [Dump 0])) as [y| |] eqn:E; try (vm_compute in E; discriminate).
  exists cb, ops, y. split; [repeat split; cbn; lia|].
  split; [repeat constructor; cbn; lia|]. split; [auto|]. split; [auto|].
  vm_compute in E. injection E as <-. split; vm_compute; reflexivity.
Qed.
Print Assumptions C62_bytes_refuted.

(** With an odd number of snapshots, which the option does not reject, the
    ones kept are not the multiples of the frequency. *)
Theorem C62_odd_refuted : exists c ops y, (2 <= c_n c)%nat /\ Nat.even (c_n c) = false /\
  run c ops = Ok y /\ freq (y_st y) = 2 /\ 4 <= stamp (y_st y) /\
  ~ In 4 (map s_stamp (snaps (y_st y))).
Proof.
  pose (c := mkC 3 5 Uother 8 1). pose (ops := repeat Tick 4).
  destruct (run c ops) as [y| |] eqn:E; try (vm_compute in E; discriminate).
  exists c, ops, y. split; [cbn; lia|]. split; [auto|]. split; [auto|].
  vm_compute in E. injection E as <-. split; [reflexivity|]. split; [cbn; lia|].
  cbn. lia.
Qed.
Print Assumptions C62_odd_refuted.

(** Once the frequency no longer fits 32 bits, it becomes zero and the search
    divides by it. *)
Theorem C62_overflow_refuted : exists c ops, c_ok c /\ Forall op_ok ops /\
  always few ops /\ run c ops = UB.
Proof.
  exists (mkC 2 5 Uother 8 1), (repeat Tick 33). split; [repeat split; cbn; lia|].
  split; [repeat constructor|]. split.
  - intros a b E. assert (Q : heap a = []).
    { assert (Forall (fun o => o = Tick) a).
      { assert (F : Forall (fun o => o = Tick) (repeat Tick 33)) by (repeat constructor).
        rewrite E in F. apply Forall_app in F. tauto. }
      unfold heap. clear E. revert H. generalize (@nil blk).
      induction a as [|o a IH]; intros bs H; [reflexivity|].
      inversion H; subst. cbn. apply IH. assumption. }
    unfold few. rewrite Q. cbn. lia.
  - vm_compute. reflexivity.
Qed.
Print Assumptions C62_overflow_refuted.

(** * C63: last accesses in a snapshot *)

(** Whatever a snapshot is given of its blocks is what can be read back. *)
Theorem C63_kept : forall cur l, Forall (acc_ok cur) l -> Z.of_nat (List.length l) < 2 ^ 31 ->
  exists t, stale_take cur (Z.of_nat (List.length l)) l = Ok t /\
    t_n t = Z.of_nat (List.length l) /\
    forall i a, nth_error l i = Some a ->
      get_id t i = Ok (a_id a) /\ get_bytes t i = Ok (a_bytes a) /\ get_last t i = Ok (a_last a).
Proof. exact stale_get. Qed.
Print Assumptions C63_kept.

Definition read (r : res stale) (i : nat) :=
  let* t := r in
  let* x := get_id t i in let* y := get_bytes t i in let* z := get_last t i in Ok (x, y, z).
Definition accs : list acc :=
  [mkA 1 8191 100; mkA 524288 4 7; mkA 524287 8192 0; mkA 3 100000 2147483647].
Example C63_case_small : map (read (stale_take 2147483647 4 accs)) (seq 0 4) = [Ok (1, 8191, 100);
    Ok (524288, 4, 7); Ok (524287, 8192, 0); Ok (3, 100000, 2147483647)].
Proof. vm_compute. reflexivity. Qed.
Example C63_case_large : map (read (stale_take 2147483648 4 accs)) (seq 0 4) = [Ok (1, 8191, 100);
    Ok (524288, 4, 7); Ok (524287, 8192, 0); Ok (3, 100000, 2147483647)].
Proof. vm_compute. reflexivity. Qed.
Example C63_case_hyps : Forall (acc_ok 2147483647) accs.
Proof. repeat constructor; cbn; lia. Qed.

(** A block last accessed after the time of the snapshot, as when a nudge has
    set time back to zero (drheapstat.c:1632-1654), can lose its stamp. *)
Theorem C63_late_refuted : exists t, stale_take 5 1 [mkA 1 8 (2 ^ 31 + 3)] = Ok t /\
  get_last t 0 = Ok 3.
Proof.
  exists (mkT 1 (Sm [mkE false 3 (1 + 2 ^ 19 * 8)] [] 0)). split; vm_compute; reflexivity.
Qed.
Print Assumptions C63_late_refuted.
