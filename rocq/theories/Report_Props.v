(** C29: recorded errors are numbered, counted and printed exactly. *)
From Verif Require Import Base Report_Model Report_Spec Report_Proofs Report_Proofs2 Report_Proofs3.
Open Scope Z_scope.

(** After any history of errors and leaks from a fresh state, every stored record,
    every counter, every suppression count and the list of printed reports are what
    the history says. *)
Theorem C29_history o s l : check_leaks o = true -> Fresh s -> Forall proper_event l -> Z.of_nat (length l) < 2 ^ 32 ->
  Agree o s (run o s l) (admit o l).
Proof. intros A B C D. exact (proj1 (history o s l A B C D)). Qed.

(** The numbers given out in each results file are 1, 2, 3, ... in order of first
    occurrence, no two records have the same type and call stack, and the counts add
    up to the number of occurrences recorded. *)
Theorem C29_numbers o s l : check_leaks o = true -> Fresh s -> Forall proper_event l -> Z.of_nat (length l) < 2 ^ 32 ->
  (forall b, map e_id (filter (of_file b) (errs (run o s l))) = map Z.of_nat (seq 1 (length (filter (of_file b) (errs (run o s l)))))) /\
  NoDup (map (fun e => (e_type e, e_pcs e)) (errs (run o s l))) /\
  fold_right (fun e n => e_count e + n) 0 (errs (run o s l)) = Z.of_nat (length (a_items (admit o l))).
Proof.
  intros A B C D. rewrite (g_errs _ _ _ _ (C29_history o s l A B C D)). split; [intros b; apply entries_ids|]. split; [apply entries_uniq|apply entries_counts].
Qed.

(** A forked child starts from zero, unless bytes of reachable leaks were counted. *)
Theorem C29_fork o s l : (forall b t, t < ERROR_LEAK \/ ERROR_REACHABLE_LEAK <= t -> num_bytes s b t = 0) ->
  check_leaks o = true -> Forall proper_event l -> Z.of_nat (length l) < 2 ^ 32 ->
  Agree o (report_fork_init s) (run o s (Fork :: l)) (admit o l).
Proof. intros H A C D. apply (C29_history o (report_fork_init s) l A (fork_fresh s H) C D). Qed.

(** Two stacks, one suppressed stack, a likely false positive, and leaks. *)
Definition o0 := O 20000 10000 false true false false true false.
Definition lk sz p := L sz 0 false false false p false false None false.
Definition trail : list event :=
  [Error 0 11 None false []; Error 1 12 None false []; Error 0 11 None false []; Error 0 13 (Some (7, true)) false [];
   Error 2 14 None true []; Error 0 13 None false []; Error 0 15 None false [(3, false)]; Leak (lk 64 16); Leak (lk 8 16);
   Leak (L 5 3 false false true 17 false false None false)].
Example C29_trail_proper : Forall proper_event trail /\ Z.of_nat (length trail) < 2 ^ 32 /\ Fresh init /\ check_leaks o0 = true.
Proof. split; [repeat constructor; cbn; unfold ERROR_LEAK; lia|]. split; [reflexivity|]. split; [constructor; reflexivity|reflexivity]. Qed.
Example C29_trail_records : map (fun e => (e_type e, e_pcs e, e_id e, e_count e)) (errs (run o0 init trail)) =
  [(0, 11, 1, 2); (1, 12, 2, 1); (0, 13, 0, 2); (2, 14, 1, 1); (4, 16, 3, 2); (5, 17, 0, 1)].
Proof. vm_compute. reflexivity. Qed.
Example C29_trail_printed : printed (run o0 init trail) = [(false, 1, 0, 11); (false, 2, 1, 12); (true, 1, 2, 14); (false, 3, 4, 16)].
Proof. vm_compute. reflexivity. Qed.
Example C29_trail_counts : let s := run o0 init trail in
  (num_unique s false 0, num_total s false 0, num_total s true 2, num_bytes s false 4, matched s true, matched s false, num_reported s false) = (1, 2, 1, 72, 2, 1, 2).
Proof. vm_compute. reflexivity. Qed.

(** The counters after a leak scan that is not the last one are taken back, so that
    the next scan starts afresh.  They are not the same as if it had been the first:
    a leak scanned a second time is counted among the likely false positives. *)
Definition rescan (l : list event) (s : st) : st := run o0 (revert s (run o0 s l)) l.
Theorem C29_rescan_unique_refuted : exists l, Forall proper_event l /\
  num_unique (run o0 init l) false ERROR_LEAK = 1 /\ num_unique (rescan l init) false ERROR_LEAK = 0 /\ num_unique (rescan l init) true ERROR_LEAK = 1.
Proof. exists [Leak (lk 64 16)]. split; [repeat constructor|]. vm_compute. auto. Qed.
(** a likely false positive without a number makes the count of true errors wrap *)
Theorem C29_rescan_total_refuted : exists l, Forall proper_event l /\
  num_total (run o0 init l) false ERROR_POSSIBLE_LEAK = 0 /\ num_total (rescan l init) false ERROR_POSSIBLE_LEAK = 2 ^ 32 - 1.
Proof. exists [Leak (L 5 3 false false true 17 false false None true)]. split; [repeat constructor|]. vm_compute. auto. Qed.
(** A leak of 2^32 bytes is counted as no bytes: "no errors found". *)
Theorem C29_huge_leak_refuted : exists l, Forall proper_event l /\ length (printed (run o0 init l)) = 1%nat /\ report_errors_found o0 (run o0 init l) = false.
Proof. exists [Leak (lk (2 ^ 32) 16)]. split; [repeat constructor|]. vm_compute. auto. Qed.
(** The bytes of reachable leaks are not cleared by a fork. *)
Theorem C29_fork_reachable_refuted : exists o l, Forall proper_event l /\ num_bytes (run o init (l ++ [Fork])) false ERROR_REACHABLE_LEAK <> 0.
Proof.
  exists o0, [Leak (L 64 0 false true false 16 true true None false)]. split; [repeat constructor|]. vm_compute. discriminate.
Qed.

Print Assumptions C29_history.
Print Assumptions C29_numbers.
Print Assumptions C29_fork.
Print Assumptions C29_rescan_unique_refuted.
Print Assumptions C29_rescan_total_refuted.
Print Assumptions C29_huge_leak_refuted.
Print Assumptions C29_fork_reachable_refuted.
