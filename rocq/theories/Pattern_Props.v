(** Pattern mode: C57 (what is filled, and what is left alone), C58 (which bad
    references are reported, and that good ones are not), C59 (elision). *)
From Verif Require Import Base Pattern_Model Pattern_Spec Pattern_Proofs Pattern_Proofs2
  Pattern_Proofs3 Pattern_Proofs4.
Local Open Scope Z_scope.

(** ---- C57 ---- *)

(** After any run, a byte of a chunk that the program may not use holds the
    pattern, unless someone wrote there or a reference began there since. *)
Theorem C57_filled : forall c rd ex m l k x,
  good_cfg c -> legal c rd ex (start m) l ->
  In k (heap (run c rd ex (start m) l)) -> extent c k x -> ~ live_in k x ->
  ~ touched c rd ex (start m) l (fun _ => False) x ->
  memory (run c rd ex (start m) l) x = patb c x.
Proof.
  intros c rd ex m l k x G L.
  exact (proj2 (run_inv c G rd ex l _ _ (start_inv c m (fun _ => False)) L) k x).
Qed.

(** No step changes a byte that is the program's before and after, other than
    a write of the program there or a reference that begins there and is not
    within its block. *)
Theorem C57_live : forall c rd ex m l o x,
  good_cfg c -> legal c rd ex (start m) l ->
  let s := run c rd ex (start m) l in
  allowed c (heap s) o -> live (heap s) x -> live (heap (step c rd ex s o)) x ->
  (forall v, o <> Write x v) ->
  (forall refs four low size, o = Access refs four low -> In (x, size) refs -> within (heap s) x size) ->
  memory (step c rd ex s o) x = memory s x.
Proof.
  intros c rd ex m l o x G L s. exact (live_kept c G rd ex s o x (legal_wf c G rd ex m l L)).
Qed.

(** Bytes a block gains in place, and those of a chunk that is taken for a new
    block, are zero: no pattern is left in them. *)
Theorem C57_grow : forall c rd ex m l b n k x,
  good_cfg c -> legal c rd ex (start m) l ->
  let s := run c rd ex (start m) l in
  In k (heap s) -> base k = b -> freed k = false -> n <= pad k ->
  base k + req k <= x < base k + n ->
  memory (step c rd ex s (Realloc b n)) x = 0.
Proof.
  intros c rd ex m l b n k x G L s K B FR N X.
  pose proof (legal_wf c G rd ex m l L) as W. pose proof (wf_in _ _ _ W K) as WK.
  cbn [step]. unfold s. rewrite (find_spec c G _ b k W K B). cbn [memory].
  apply (realloc_inside c G k n _ x WK); [destruct WK; lia | exact X].
Qed.
Theorem C57_reuse : forall c rd ex m l b k x,
  good_cfg c -> legal c rd ex (start m) l ->
  let s := run c rd ex (start m) l in
  In k (heap s) -> base k = b -> extent c k x ->
  memory (step c rd ex s (Reuse b)) x = 0.
Proof.
  intros c rd ex m l b k x G L s K B X.
  pose proof (legal_wf c G rd ex m l L) as W.
  cbn [step]. unfold s. rewrite (find_spec c G _ b k W K B). cbn [memory].
  unfold handle_reuse, clear. unfold extent in X.
  destruct (Z.leb_spec (base k - rz c) x); [|lia].
  destruct (Z.ltb_spec x (base k - rz c + (pad k + 2 * rz c))); [reflexivity|lia].
Qed.

(** The cases: a block of 5 bytes at 1000, with 8 set aside, that is written,
    grown to 7, and freed. *)
Definition c0 := Cfg 0xf1fd 16.
Definition rd0 := fun x : Z => 0 <=? x.
Definition ex0 := fun _ _ : Z => false.
Definition k0 := Chunk 1000 5 8 false.
Definition l0 := [Malloc k0; Write 1000 7; Write 1004 9; Realloc 1000 7].
Lemma good0 : good_cfg c0.
Proof. unfold good_cfg; cbn. repeat split; try lia. exists 4. reflexivity. Qed.
Lemma legal0 : legal c0 rd0 ex0 (start (fun _ => 0)) l0.
Proof.
  repeat first [apply legal_nil | apply legal_cons].
  - cbn. repeat split; try lia; [exists 250; reflexivity|exists 2; reflexivity].
  - exact I.
  - exact I.
  - exists k0. cbn. repeat split; auto; lia.
Qed.
Definition bytes_of (m : mem) (a : Z) (n : nat) : list Z := map (fun i => m (a + Z.of_nat i)) (seq 0 n).
Example C57_case_malloc :
  bytes_of (memory (run c0 rd0 ex0 (start (fun _ => 0)) [Malloc k0; Write 1000 7; Write 1004 9])) 996 14 =
 [253; 241; 253; 241; 7; 0; 0; 0; 9; 241; 253; 241; 253; 241].
Proof. vm_compute. reflexivity. Qed.
Example C57_case_realloc :
 bytes_of (memory (run c0 rd0 ex0 (start (fun _ => 0)) l0)) 996 14 = [253; 241; 253; 241; 7; 0; 0; 0; 9; 0; 0; 241; 253; 241].
Proof. vm_compute. reflexivity. Qed.
Example C57_case_free :
 bytes_of (memory (run c0 rd0 ex0 (start (fun _ => 0)) (l0 ++ [Free 1000]))) 996 14 = [253; 241; 253; 241; 253; 241; 253; 241; 253; 241; 253; 241; 253; 241].
Proof. vm_compute. reflexivity. Qed.
(** the hypotheses of [C57_filled], at the byte after the block *)
Example C57_case_hyps :
  good_cfg c0 /\ legal c0 rd0 ex0 (start (fun _ => 0)) l0 /\
  In (Chunk 1000 7 8 false) (heap (run c0 rd0 ex0 (start (fun _ => 0)) l0)) /\
  extent c0 (Chunk 1000 7 8 false) 1007 /\ ~ live_in (Chunk 1000 7 8 false) 1007 /\
  ~ touched c0 rd0 ex0 (start (fun _ => 0)) l0 (fun _ => False) 1007.
Proof.
  split; [exact good0|]. split; [exact legal0|]. split; [left; reflexivity|].
  split; [unfold extent; cbn; lia|]. split; [unfold live_in; cbn; lia|].
  cbn. lia.
Qed.

(** A byte of the program's own is cleared, when the program's data are the
    pattern and the reference that begins there ends outside. *)
Definition l1 := [Malloc (Chunk 1000 4 8 false); Write 1000 0xfd; Write 1001 0xf1; Write 1002 0xfd;
                  Write 1003 0xf1].
Theorem C57_live_refuted :
  good_cfg c0 /\ legal c0 rd0 ex0 (start (fun _ => 0)) l1 /\
  let s := run c0 rd0 ex0 (start (fun _ => 0)) l1 in
  live (heap s) 1000 /\ memory s 1000 = 0xfd /\
  memory (step c0 rd0 ex0 s (Access [(1000, 8)] false false)) 1000 = 0.
Proof.
  split; [exact good0|]. split.
  { repeat first [apply legal_nil | apply legal_cons]; try exact I.
    cbn. repeat split; try lia; [exists 250; reflexivity|exists 2; reflexivity]. }
  cbn zeta. split; [|vm_compute; split; reflexivity].
  exists (Chunk 1000 4 8 false). split; [left; reflexivity|]. unfold live_in. cbn. lia.
Qed.

(** ---- C58 ---- *)

(** References within blocks are never reported, and nothing changes, whatever
    is stored there. *)
Theorem C58_silent : forall c rd ex m l refs four low,
  good_cfg c -> legal c rd ex (start m) l ->
  let s := run c rd ex (start m) l in
  (forall a sz, In (a, sz) refs -> 1 <= sz /\ within (heap s) a sz) ->
  reports (step c rd ex s (Access refs four low)) = reports s /\
  forall x, memory (step c rd ex s (Access refs four low)) x = memory s x.
Proof.
  intros c rd ex m l refs four low G L s.
  exact (fine_silent c G rd ex s refs four low (legal_wf c G rd ex m l L)).
Qed.

(** What is reported for an instruction are references of it that are not
    within a block, and that touch a chunk that is freed or overlap what is
    around a live one's block. *)
Theorem C58_sound : forall c rd ex m l refs four low,
  good_cfg c -> legal c rd ex (start m) l ->
  let s := run c rd ex (start m) l in
  allowed c (heap s) (Access refs four low) ->
  exists p, reports (step c rd ex s (Access refs four low)) = reports s ++ p /\
  forall a sz, In (a, sz) p ->
    In (a, sz) refs /\ ~ within (heap s) a sz /\
    exists k, In k (heap s) /\ a < base k + pad k + rz c /\ base k - rz c <= a + sz /\
      (freed k = false -> a < base k \/ base k + req k < a + sz).
Proof.
  intros c rd ex m l refs four low G L s A.
  destruct (access_reports c rd ex s refs four low) as [p P]. exists p. split; [exact P|].
  exact (report_sound c G rd ex s refs four low p (legal_wf c G rd ex m l L) A P).
Qed.

(** A reference to a stretch no one has touched is reported, if it is placed
    so that the checks can see it; once, when neither byte of the pattern is
    zero. *)
Theorem C58_reported : forall c rd ex m l k lo hi a sz four low,
  good_cfg c -> legal c rd ex (start m) l ->
  let s := run c rd ex (start m) l in
  In k (heap s) -> zone c k lo hi ->
  (forall x, lo <= x < hi -> rd x = true /\ ~ touched c rd ex (start m) l (fun _ => False) x) ->
  1 <= sz -> noticed lo hi a sz four low -> ex a sz = false ->
  (exists n, reports (step c rd ex s (Access [(a, sz)] four low)) = reports s ++ repeat (a, sz) (S n)) /\
  (pat c mod 256 <> 0 -> pat c / 256 <> 0 -> (forall x, 0 <= memory s x < 256) ->
   reports (step c rd ex s (Access [(a, sz)] four low)) = reports s ++ [(a, sz)]).
Proof.
  intros c rd ex m l k lo hi a sz four low G L s K ZO CL.
  exact (noticed_reported c G rd ex s k lo hi a sz four low _
           (run_inv c G rd ex l _ _ (start_inv c m (fun _ => False)) L) K ZO CL).
Qed.

(** In particular all aligned references of two bytes and more, wherever in
    the stretch they begin (those of two bytes before the switch to checks of
    four). *)
Theorem C58_aligned : forall c rd ex m l k lo hi a sz four low,
  good_cfg c -> legal c rd ex (start m) l ->
  let s := run c rd ex (start m) l in
  In k (heap s) -> zone c k lo hi ->
  (forall x, lo <= x < hi -> rd x = true /\ ~ touched c rd ex (start m) l (fun _ => False) x) ->
  lo <= a < hi -> (sz = 2 /\ (2 | a) /\ four = false) \/ (4 <= sz /\ (4 | a)) ->
  ex a sz = false ->
  In (a, sz) (reports (step c rd ex s (Access [(a, sz)] four low))).
Proof.
  intros c rd ex m l k lo hi a sz four low G L s K ZO CL A SZ EX.
  destruct (zone_shape c G rd ex k lo hi (wf_in _ _ _ (legal_wf c G rd ex m l L) K) ZO) as ([h H] & _).
  destruct (C58_reported c rd ex m l k lo hi a sz four low G L K ZO CL) as [(n & R) _]; auto.
  - lia.
  - split; [lia|]. destruct (Z.ltb_spec 2 sz); destruct (Z.eqb_spec sz 2); try lia.
    + destruct SZ as [?|[_ [q Q]]]; [lia|]. split; [|lia].
      rewrite Q, Z.even_mul. apply orb_true_r.
    + destruct SZ as [(_ & [q Q] & ->)|?]; [|lia]. split; [|lia].
      rewrite Q, Z.even_mul. apply orb_true_r.
  - fold s in R. rewrite R. apply in_or_app. right. left. reflexivity.
Qed.

(** The cases: the byte before the block, the one after it, the freed block. *)
Example C58_case_head : reports (run c0 rd0 ex0 (start (fun _ => 0)) (l0 ++ [Access [(996, 4)] false false])) = [(996, 4)].
Proof. vm_compute. reflexivity. Qed.
Example C58_case_tail : reports (run c0 rd0 ex0 (start (fun _ => 0))
 (l0 ++ [Access [(1000, 4); (1007, 1)] false false])) = [(1007, 1)].
Proof. vm_compute. reflexivity. Qed.
Example C58_case_freed : reports (run c0 rd0 ex0 (start (fun _ => 0))
 (l0 ++ [Free 1000; Access [(1000, 8)] false false; Access [(1002, 2)] true false])) = [(1000, 8); (1002, 2)].
Proof. vm_compute. reflexivity. Qed.
Example C58_case_fine : reports (run c0 rd0 ex0 (start (fun _ => 0))
  (l0 ++ [Access [(1000, 4); (1006, 1)] false false])) = [].
Proof. vm_compute. reflexivity. Qed.
(** the hypotheses of [C58_reported] *)
Lemma clean0 : forall x, 1007 <= x < 1024 ->
  rd0 x = true /\ ~ touched c0 rd0 ex0 (start (fun _ => 0)) l0 (fun _ => False) x.
Proof. intros x X. split; [unfold rd0; lia|]. cbn. lia. Qed.
Example C58_case_hyps :
  let s := run c0 rd0 ex0 (start (fun _ => 0)) l0 in
  good_cfg c0 /\ legal c0 rd0 ex0 (start (fun _ => 0)) l0 /\
  In (Chunk 1000 7 8 false) (heap s) /\ zone c0 (Chunk 1000 7 8 false) 1007 1024 /\
  (forall x, 1007 <= x < 1024 ->
     rd0 x = true /\ ~ touched c0 rd0 ex0 (start (fun _ => 0)) l0 (fun _ => False) x) /\
  noticed 1007 1024 1007 1 false false /\ ex0 1007 1 = false.
Proof.
  cbn zeta. split; [exact good0|]. split; [exact legal0|]. split; [left; reflexivity|].
  split; [right; split; reflexivity|]. split; [exact clean0|].
  split; [unfold noticed; cbn; lia|reflexivity].
Qed.

(** What is missed, in a stretch no one has touched.  Four bytes at an odd
    address; the last byte; with checks of four bytes only, a byte at an even
    address among the last two, since it is the second of the four checks that
    is moved and not the third. *)
Definition missed (a sz : Z) (four : bool) : Prop :=
  let s := run c0 rd0 ex0 (start (fun _ => 0)) l0 in
  legal c0 rd0 ex0 (start (fun _ => 0)) l0 /\
  In (Chunk 1000 7 8 false) (heap s) /\ zone c0 (Chunk 1000 7 8 false) 1007 1024 /\
  (forall x, 1007 <= x < 1024 ->
     rd0 x = true /\ ~ touched c0 rd0 ex0 (start (fun _ => 0)) l0 (fun _ => False) x) /\
  1007 <= a /\ a + sz <= 1024 /\
  reports (step c0 rd0 ex0 s (Access [(a, sz)] four false)) = [].
Lemma missed_case : forall a sz four, 1007 <= a -> a + sz <= 1024 ->
  reports (step c0 rd0 ex0 (run c0 rd0 ex0 (start (fun _ => 0)) l0) (Access [(a, sz)] four false)) = [] ->
  missed a sz four.
Proof.
  intros a sz four A B E. split; [exact legal0|]. split; [left; reflexivity|].
  split; [right; split; reflexivity|]. split; [exact clean0|]. auto.
Qed.
Theorem C58_odd_refuted : missed 1009 4 false.
Proof. apply missed_case; [lia|lia|vm_compute; reflexivity]. Qed.
Theorem C58_last_refuted : missed 1023 1 false.
Proof. apply missed_case; [lia|lia|vm_compute; reflexivity]. Qed.
Theorem C58_four_refuted : missed 1022 1 true.
Proof. apply missed_case; [lia|lia|vm_compute; reflexivity]. Qed.
(** but at the odd address next to it, it is reported *)
Example C58_four_other :
  reports (step c0 rd0 ex0 (run c0 rd0 ex0 (start (fun _ => 0)) l0) (Access [(1021, 1)] true false)) = [(1021, 1)].
Proof. vm_compute. reflexivity. Qed.

(** A reference that begins in the block and ends outside is missed. *)
Theorem C58_straddle_refuted :
  let s := run c0 rd0 ex0 (start (fun _ => 0)) l0 in
  ~ within (heap s) 1000 8 /\ reports (step c0 rd0 ex0 s (Access [(1000, 8)] false false)) = [].
Proof.
  cbn zeta. split; [|vm_compute; reflexivity].
  intros (k & K & _ & A & B). cbn in K. destruct K as [<-|[]]. cbn in B. lia.
Qed.

(** One report can hide another: the first byte of the reference that is
    reported is cleared, and then too few words around the next one hold the
    pattern. *)
Theorem C58_second_refuted :
  let l := l0 ++ [Access [(988, 4)] false false] in
  let s := run c0 rd0 ex0 (start (fun _ => 0)) l in
  reports s = [(988, 4)] /\
  (forall x, 992 <= x < 1000 -> ~ touched c0 rd0 ex0 (start (fun _ => 0)) l (fun _ => False) x) /\
  reports (step c0 rd0 ex0 s (Access [(992, 4)] false false)) = reports s /\
  reports (step c0 rd0 ex0 (run c0 rd0 ex0 (start (fun _ => 0)) l0) (Access [(992, 4)] false false)) = [(992, 4)].
Proof.
  cbn zeta. split; [vm_compute; reflexivity|]. split; [|split; vm_compute; reflexivity].
  intros x X. cbn.
  intros [Q|[sz [Q|[]]]]; [lia|]. inversion Q. lia.
Qed.

(** ---- C59 ---- *)

(** Every reference [base + disp] of a block is guarded: any stretch of at
    least the size of a redzone that it falls in has an address in it at which
    a remaining check looks, with the same value of the base. *)
Theorem C59_guarded : forall rzs l v,
  0 < rzs -> values_ok l v -> keeps_base l -> guarded rzs l v (elide rzs l).
Proof. intros rzs l v R. exact (elide_guarded rzs R l v). Qed.

(** and only references of the block are checked *)
Theorem C59_real : forall rzs l m b d,
  In (m, b, d) (elide rzs l) -> exists i, nth_error l m = Some i /\ In (Simple b d) (refs i).
Proof. exact elide_real. Qed.

(** The case: five references off one register; 8 is in between 0 and 12, the
    check of 12 gives way to that of 16, and 40 is on its own. *)
Definition acc (d : Z) := Instr [1] [Simple 0 d].
Example C59_case : elide 16 [acc 0; acc 12; acc 8; acc 16; acc 40; Instr [0] [Simple 2 0]; acc 8] = [(0%nat, 0, 0); (3%nat, 0, 16); (4%nat, 0, 40); ( 5%nat, 2, 0); (6%nat, 0, 8)].
Proof. vm_compute. reflexivity. Qed.
Example C59_case_hyps :
  let l := [acc 0; acc 12; acc 8; acc 16; acc 40] in
  values_ok l (fun n r => if r =? 1 then Z.of_nat n else 5000) /\ keeps_base l.
Proof.
  split.
  - intros n i r N W. destruct (Z.eqb_spec r 1) as [->|]; auto.
    exfalso. apply W.
    do 5 (destruct n as [|n]; [inversion N; cbn; auto|]). destruct n; discriminate.
  - intros i b d H R W.
    repeat (destruct H as [<-|H]; [inversion R; subst; cbn in W; lia|]). destruct H.
Qed.

(** An instruction that loads over its own base leaves its check behind as if
    it were about the new value: the next reference goes unchecked. *)
Theorem C59_base_refuted :
  let l := [Instr [0] [Simple 0 4]; Instr [1] [Simple 0 4]] in
  let v := fun n r : Z => if (r =? 0) && (0 <? n) then 9000 else 5000 in
  values_ok l (fun n => v (Z.of_nat n)) /\
  elide 16 l = [(0%nat, 0, 4)] /\
  ~ guarded 16 l (fun n => v (Z.of_nat n)) (elide 16 l).
Proof.
  cbn zeta. split; [|split; [vm_compute; reflexivity|]].
  - intros n i r N W. destruct (Z.eqb_spec r 0) as [->|]; cbn [andb]; auto.
    destruct n as [|n].
    + inversion N; subst i. exfalso. apply W. cbn. auto.
    + destruct (Z.ltb_spec 0 (Z.of_nat (S n))); [|lia].
      destruct (Z.ltb_spec 0 (Z.of_nat (S (S n)))); [reflexivity|lia].
  - intros H. destruct (H 1%nat (Instr [1] [Simple 0 4]) 0 4 9000 9016) as (m & e & M & X & _).
    + reflexivity.
    + cbn; auto.
    + lia.
    + cbn. lia.
    + vm_compute in M. destruct M as [M|[]]. inversion M; subst. cbn in X. lia.
Qed.

Print Assumptions C57_filled.
Print Assumptions C57_live.
Print Assumptions C57_grow.
Print Assumptions C57_reuse.
Print Assumptions C57_live_refuted.
Print Assumptions C58_silent.
Print Assumptions C58_sound.
Print Assumptions C58_reported.
Print Assumptions C58_aligned.
Print Assumptions C58_odd_refuted.
Print Assumptions C58_last_refuted.
Print Assumptions C58_four_refuted.
Print Assumptions C58_straddle_refuted.
Print Assumptions C58_second_refuted.
Print Assumptions C59_guarded.
Print Assumptions C59_real.
Print Assumptions C59_base_refuted.
