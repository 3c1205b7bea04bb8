(** C26, C27: leak checks. *)
From Coq Require Import Relation_Operators.
From Verif Require Import Base Leak_Model Leak_Spec Leak_Proofs5 LeakScan_Model LeakScan_Spec LeakScan_Proofs LeakScan_Proofs2 Leak_Proofs6.
Open Scope Z_scope.

(** Over disjoint, not empty blocks the check ends; a block is reported as still
    reachable exactly when a chain of pointers reaches it, possible leaks have a
    doubtful pointer to them, and each report is counted once. *)
Theorem C26_classified e : proper e -> exists fs, leak_scan e = Ok fs /\ classified e fs.
Proof. intros P. destruct (leak_scan_ok e P) as (fs & E & C & _). exists fs. auto. Qed.

(** The sizes and indirect bytes of the leaks reported sum up to the sizes of all
    unreachable blocks, each belonging to one reported leak that leads to it. *)
Theorem C27_attributed e : proper e -> exists fs, leak_scan e = Ok fs /\ attributed e fs.
Proof. intros P. destruct (leak_scan_ok e P) as (fs & E & _ & A). exists fs. auto. Qed.

(** The words looked at in a range are its aligned words in scannable memory, fully
    defined, not in a stack to skip and, for the roots, not in the heap; in order,
    each once. *)
Theorem C26_words m t sk start end_ : agrees m t -> 0 <= start ->
  exists ws, visited m sk start end_ = Ok ws /\ exactly (wanted m t sk start end_) (map fst ws).
Proof. intros G H. destruct (visited_ok m t G sk start end_ H) as (ws & E & X & _). exists ws. auto. Qed.

(** Both together: reachability told from memory. *)
Theorem C26_memory m t top cs lo mem lg rs show : agrees m t ->
  (forall c, In c cs -> 0 < len c) -> (forall c, In c cs -> PAGE_SIZE < base c /\ lo <= base c) -> NoDup (map base cs) ->
  (forall c d a, In c cs -> In d cs -> base c <= a < base c + len c -> base d <= a < base d + len d -> c = d) ->
  (forall r v, In (r, v) rs -> 0 <= r <= PAGE_SIZE) ->
  exists fs, leak_scan (env_of m top cs lo mem lg rs show) = Ok fs /\
    forall c, In c cs -> (Chain m t top cs mem lg rs c <-> reported fs true c).
Proof.
  intros G A B C D E. destruct (memory_ok m t top cs lo mem lg rs show G A B C D E) as (fs & H & _ & _ & X). exists fs. auto.
Qed.

(** A word is taken for text exactly at three strings of ten or one long string. *)
Theorem C26_text l : Forall (fun b => 0 <= b < 256) l -> (part_of_string l 0 0 = true <-> text l).
Proof. exact (part_of_string_ok l). Qed.

(** A register keeps A, A keeps B; C and D point to each other, D to E; the roots
    have a pointer into F, which points to G; H points to itself. *)
Definition bA := C 65536 32. Definition bB := C 65792 48. Definition bC := C 66048 16. Definition bD := C 66304 40.
Definition bE := C 66560 24. Definition bF := C 66816 64. Definition bG := C 67072 8. Definition bH := C 67328 16.
Definition lookup (l : list (Z * Z)) (a : Z) : option Z :=
  match find (fun p => fst p =? a) l with Some p => Some (snd p) | None => Some 0 end.
Definition all_words (s t : Z) : list (Z * Z) := map (fun i => (s + 8 * Z.of_nat i, t)) (seq 0 (Z.to_nat ((t - s) / 8))).
Definition ex_mem := lookup [(65544, 65792); (66048, 66304); (66304, 66048); (66312, 66560); (66816, 67072); (67328, 67328); (8192, 66848)].
Definition ex_env show := Env [bA; bB; bC; bD; bE; bF; bG; bH] 4096 ex_mem (fun _ _ => false) (fun _ _ _ => false) all_words [(8192, 8200)] [(3, 65536)] show.
Lemma all_words_in s t a de : In (a, de) (all_words s t) -> s <= a < t.
Proof.
  unfold all_words. rewrite in_map_iff. intros (i & E & I). apply in_seq in I. apply (f_equal fst) in E. cbn [fst] in E.
  pose proof (Z.mul_div_le (t - s) 8 eq_refl). lia.
Qed.
Example ex_proper show : proper (ex_env show).
Proof.
  constructor.
  - cbn. intros c I. repeat destruct I as [<-|I]; cbn; try lia; contradiction.
  - cbn. unfold PAGE_SIZE. intros c I. repeat destruct I as [<-|I]; cbn; try lia; contradiction.
  - cbn. repeat constructor; cbn; lia.
  - cbn. unfold holds. intros c d a I J. repeat destruct I as [<-|I]; try contradiction; repeat destruct J as [<-|J]; try contradiction; cbn; intros; try reflexivity; lia.
  - intros c a de _ I. apply all_words_in in I. exact I.
  - cbn. unfold PAGE_SIZE. intros r v [E|[]]. inversion E. lia.
Qed.
Example ex_scan : leak_scan (ex_env true) = Ok
  [F 65536 32 0 true false true false; F 65792 48 0 true false true false; F 66048 16 64 false false true false;
   F 66816 64 8 false true true false; F 67328 16 0 false false true false;
   F 65536 32 0 true false false true; F 65792 48 0 true false false true].
Proof. vm_compute. reflexivity. Qed.
Example ex_reach : Reach (ex_env true) bB.
Proof.
  apply reach_link with bA.
  - apply reach_root; [cbn; auto|]. left. exists 3, 65536. split; [left; reflexivity|left; reflexivity].
  - cbn; auto.
  - exists 65544, 65568. split; [vm_compute; tauto|]. split; [exists 65792; split; [reflexivity|left; reflexivity]|]. split; [unfold holds; cbn; lia|right; reflexivity].
Qed.

(** A mapping every 4096 bytes, the one at 12288 not readable, heap in that at 16384. *)
Definition ex_machine := Mach true false (fun pc => Some ((pc / 4096 + 1) * 4096, pc / 4096 =? 3))
  (fun s e => if s <? e then Some s else None) (fun s e => e)
  (fun a => if a / 4096 =? 4 then Some 20480 else None) (fun _ => None).
Definition ex_truth := Truth (fun x => negb (x / 4096 =? 3)) (fun _ => true) (fun x => x / 4096 =? 4) (fun _ => false).
Example ex_agrees : agrees ex_machine ex_truth.
Proof.
  constructor; cbn; auto.
  - intros pc H. exists ((pc / 4096 + 1) * 4096), (pc / 4096 =? 3). split; [reflexivity|].
    pose proof (Z.div_mod pc 4096). pose proof (Z.mod_pos_bound pc 4096). repeat split; try lia.
    unfold PTR. replace ((pc / 4096 + 1) * 4096) with (((pc / 4096 + 1) * 512) * 8) by lia. apply Z.mod_mul. lia.
  - intros s e. destruct (Z.ltb_spec s e); [repeat split; try lia|unfold PTR; intros; lia]; intros; lia.
  - intros s e L. repeat split; try lia.
  - intros a. destruct (Z.eqb_spec (a / 4096) 4) as [E|E]; [|reflexivity].
    pose proof (Z.div_mod a 4096). pose proof (Z.mod_pos_bound a 4096). repeat split; try lia.
Qed.
Example ex_visited : visited ex_machine true 12280 16400 = Ok [(12280, 12288)].
Proof. vm_compute. reflexivity. Qed.
Example ex_visited_block : visited ex_machine false 16385 16413 = Ok [(16392, 16413); (16400, 16413)].
Proof. vm_compute. reflexivity. Qed.

Definition ten := [97; 98; 99; 100; 101; 102; 103; 104; 105; 106].
Example ex_text : text (ten ++ 0 :: 0 :: ten ++ 0 :: ten ++ [0; 200]).
Proof. apply C26_text; [repeat constructor; lia|vm_compute; reflexivity]. Qed.
Example ex_no_text : ~ text (ten ++ 0 :: [97; 98] ++ 0 :: ten ++ [0]).
Proof. rewrite <- C26_text; [vm_compute; discriminate|repeat constructor; lia]. Qed.

(** Without the non-emptiness the classification is wrong: a block of size zero is
    reported as a leak though a register points to it. *)
Theorem C26_empty_refuted : exists e c fs, proper (Env (filter (fun c => 0 <? len c) (chunks e)) (low e) (rd e) (is_string e) (legit e) (words e) (root_words e) (regs e) (show_reachable e)) /\
  In c (chunks e) /\ len c = 0 /\ Reach e c /\ leak_scan e = Ok fs /\ ~ reported fs true c /\ reported fs false c.
Proof.
  exists (Env [C 65536 0] 4096 (fun _ => None) (fun _ _ => false) (fun _ _ _ => false) all_words [] [(3, 65536)] false), (C 65536 0), [F 65536 0 0 false false true false].
  split.
  { constructor; cbn; try tauto; [constructor|]. unfold PAGE_SIZE. intros r v [E|[]]. inversion E. lia. }
  split; [left; reflexivity|]. split; [reflexivity|]. split.
  { apply reach_root; [left; reflexivity|]. left. exists 3, 65536. split; [left; reflexivity|left; reflexivity]. }
  split; [vm_compute; reflexivity|]. split.
  - intros (f & [<-|[]] & _ & R). discriminate.
  - eexists. split; [left; reflexivity|]. split; reflexivity.
Qed.

(** A block the roots point into and a leak points to is never scanned: what it
    points to is reported as a leak of its own, not as indirect, and what it points
    into is not reported as a possible leak. *)
Definition bP := C 65536 16. Definition bM := C 65792 16. Definition bX := C 66048 16. Definition bY := C 66304 16.
Definition rf_env := Env [bP; bM; bX; bY] 4096 (lookup [(8192, 65800); (65536, 65792); (65792, 66048); (65800, 66312)]) (fun _ _ => false) (fun _ _ _ => false) all_words [(8192, 8200)] [] false.
Theorem C26_unscanned_refuted : exists e fs b c d, proper e /\ leak_scan e = Ok fs /\ In b (chunks e) /\ In c (chunks e) /\ In d (chunks e) /\
  ~ Reach e b /\ link e true b c /\ ~ Reach e c /\ reported fs false c /\ ~ path e c b /\
  link e false b d /\ exists f, In f fs /\ f_start f = base d /\ f_reach f = false /\ f_maybe f = false.
Proof.
  assert (P : proper rf_env).
  { constructor.
    - cbn. intros c I. repeat destruct I as [<-|I]; cbn; try lia; contradiction.
    - cbn. unfold PAGE_SIZE. intros c I. repeat destruct I as [<-|I]; cbn; try lia; contradiction.
    - cbn. repeat constructor; cbn; lia.
    - cbn. unfold holds. intros c d a I J. repeat destruct I as [<-|I]; try contradiction; repeat destruct J as [<-|J]; try contradiction; cbn; intros; try reflexivity; lia.
    - intros c a de _ I. apply all_words_in in I. exact I.
    - cbn. tauto. }
  assert (E : leak_scan rf_env = Ok [F 65536 16 16 false false true false; F 66048 16 0 false false true false; F 66304 16 0 false false true false]) by (vm_compute; reflexivity).
  destruct (C26_classified rf_env P) as (fs & E' & K). rewrite E in E'. inversion E' as [E'']. clear E'.
  assert (NR : forall c, In c (chunks rf_env) -> ~ Reach rf_env c).
  { intros c I R. apply (c_reach _ _ K c I) in R. rewrite <- E'' in R. destruct R as (f & J & _ & R). repeat destruct J as [<-|J]; try discriminate; contradiction. }
  exists rf_env, fs, bM, bX, bY. rewrite <- E''. repeat (split; [first [exact P | exact E | cbn; tauto | apply NR; cbn; tauto]|]).
  split.
  { exists 65792, 65808. split; [vm_compute; tauto|]. split; [exists 66048; split; [reflexivity|left; reflexivity]|]. split; [unfold holds; cbn; lia|right; reflexivity]. }
  split; [apply NR; cbn; tauto|]. split.
  { eexists. split; [right; left; reflexivity|]. split; reflexivity. }
  split.
  { assert (X : forall x y, path rf_env x y -> x = bX -> y = bX).
    { intros x y H. induction H as [x y (I & a & de & W & (v & R & A) & _)|x|x y z _ IH1 _ IH2]; auto.
      intros ->. exfalso. change (words rf_env (base bX) (base bX + len bX)) with [(66048, 66064); (66056, 66064)] in W.
      assert (v = 0) as -> by (destruct W as [W|[W|[]]]; apply (f_equal fst) in W; cbn [fst] in W; subst a; vm_compute in R; congruence).
      destruct A as [A|(_ & _ & A)]; [|discriminate]. clear - I A. repeat destruct I as [<-|I]; try discriminate; contradiction. }
    intros H. pose proof (X _ _ H eq_refl). discriminate. }
  split.
  { exists 65800, 65808. split; [vm_compute; tauto|]. split; [exists 66312; split; [reflexivity|]|].
    - unfold aims, holds. cbn. repeat split; try lia.
    - split; [unfold holds; cbn; lia|right; reflexivity]. }
  eexists. split; [right; right; left; reflexivity|]. repeat split.
Qed.

Print Assumptions C26_classified.
Print Assumptions C27_attributed.
Print Assumptions C26_words.
Print Assumptions C26_memory.
Print Assumptions C26_text.
Print Assumptions C26_empty_refuted.
Print Assumptions C26_unscanned_refuted.
