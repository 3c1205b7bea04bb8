(** C17, C18, C19, C36: Dr. Memory's shadow of application memory. *)
From Verif Require Import Base Mem Umbra_Model Umbra_Spec Umbra_Props Shadow_Model Shadow_Spec Shadow_Proofs6.
From Coq Require Import Lia.
Open Scope Z_scope.

(** Every legal history of calls on a started map succeeds, each call answers
    what the history demands, and the states left behind are exactly those the
    calls must produce (C17: set, get; C18: check, search; C19: copy). *)
Theorem C17_history : forall m st ops, shadow_map m -> started m st -> Forall (sop_ok m (segs st)) ops ->
  exists st' outs, do_sops m st ops = Ok (st', outs) /\
    sanswers (fun _ => UNADDR) ops outs /\ states m st' (fold_left seffect ops (fun _ => UNADDR)) /\
    state_ok m st' /\ forall y, in_app (segs st) y <-> in_app (segs st') y.
Proof. intros m st ops Hm. exact (shadow_history m Hm st ops). Qed.

(** ** The calls one by one, in any state *)
Theorem C17_set : forall m st D x n v, shadow_map m -> state_ok m st -> states m st D ->
  usable m (segs st) x n -> 0 <= v <= 3 ->
  exists st', set_range m st x (x + n) v = Ok st' /\ state_ok m st' /\
    states m st' (fun y => if (x <=? y) && (y <? x + n) then v else D y).
Proof. intros m st D x n v Hm. exact (set_states m Hm st D x n v). Qed.

Theorem C17_get : forall m st D x, shadow_map m -> state_ok m st -> states m st D -> usable m (segs st) x 1 ->
  exists inf, get_byte m st info0 x = Ok (D x, inf).
Proof. intros m st D x Hm. exact (get_states m Hm st D x). Qed.

Theorem C18_check : forall m st D x n v want, shadow_map m -> state_ok m st -> states m st D ->
  usable m (segs st) x n ->
  exists r, check_range m st x n v want = Ok r /\ checked D x (x + n) v want r.
Proof. intros m st D x n v want Hm. exact (check_states m Hm st D x n v want). Qed.

Theorem C18_check_backward : forall m st D x n v, shadow_map m -> state_ok m st -> states m st D ->
  usable m (segs st) (x - n + 1) n -> n <= x ->
  exists r, check_backward m st x n v = Ok r /\
    match r with
    | Some a => x - n < a <= x /\ D a <> v /\ forall y, a < y <= x -> D y = v
    | None => forall y, x - n < y <= x -> D y = v
    end.
Proof. intros m st D x n v Hm. exact (back_states m Hm st D x n v). Qed.

Theorem C19_copy : forall m st D s d n, shadow_map m -> state_ok m st -> states m st D ->
  usable m (segs st) s n -> usable m (segs st) d n -> copyable s d n ->
  exists st', copy_range m st s d n = Ok st' /\ state_ok m st' /\
    states m st' (fun y => if (d <=? y) && (y <? d + n) then D (y - d + s) else D y).
Proof. intros m st D s d n Hm. exact (copy_states m Hm st D s d n). Qed.

(** Saving a region and restoring it later gives its bytes the states they had
    when saved and touches no other byte. *)
Theorem C36_save_restore : forall m st st2 g x n, shadow_map m -> state_ok m st -> state_ok m st2 ->
  usable m (segs st) x n -> usable m (segs st2) x n -> n < 2 ^ 32 -> (n + 3) / 4 mod 4 = 0 ->
  exists buf st3, save_region m st g x n = Ok buf /\ restore_region m st2 buf x n = Ok st3 /\
    state_ok m st3 /\ (forall y, in_app (segs st2) y <-> in_app (segs st3) y) /\
    forall y, in_app (segs st3) y -> forall v,
      byte_state m st3 y v <-> if (x <=? y) && (y <? x + n) then byte_state m st y v else byte_state m st2 y v.
Proof. intros m st st2 g x n Hm. exact (save_restore m Hm st st2 g x n). Qed.

(** ... but saving writes beyond the buffer it asked for whenever the number of
    shadow bytes is not a multiple of four. *)
Theorem C36_overrun_refuted : forall m st g x n, shadow_map m -> state_ok m st -> usable m (segs st) x n ->
  n < 2 ^ 32 -> (n + 3) / 4 mod 4 <> 0 -> save_region m st g x n = UB.
Proof. intros m st g x n Hm. exact (save_overrun m Hm st g x n). Qed.

(** ** A concrete history *)
Lemma shadow_map_m4 : shadow_map m4.
Proof. split; [apply C22_history_legal|reflexivity|reflexivity]. Qed.
Definition usableb (m : umap) (ss : list seg) (x n : Z) : bool :=
  (0 <=? x) && (0 <? n) && existsb (fun g => used g && (ab g <=? x) && (x + n <=? ae g)) ss &&
  (x / 2 ^ 18 =? (x + n - 1) / 2 ^ 18) &&
  forallb (fun h => negb (re h =? first_shadow m (x / 2 ^ 18 * 2 ^ 18))) ss.
Lemma usable_check : forall m ss x n, usableb m ss x n = true -> usable m ss x n.
Proof.
  intros m ss x n H. unfold usableb in H. repeat (apply andb_prop in H as [H ?]).
  apply existsb_exists in H2 as (g & Hg & H2). repeat (apply andb_prop in H2 as [H2 ?]).
  apply Z.leb_le in H, H4, H5. apply Z.ltb_lt in H3. apply Z.eqb_eq in H1. split.
  - apply (app_range_check ss x n g Hg); auto. 
  - intros y Hy (i & h & Hi & E).
    assert (Q : y - y mod 2 ^ 18 = x / 2 ^ 18 * 2 ^ 18) by (clear - Hy H1; change (2 ^ 18) with 262144 in *; lia).
    rewrite Q in E. rewrite forallb_forall in H0. specialize (H0 h (nth_error_In _ _ Hi)).
    rewrite E, Z.eqb_refl in H0. discriminate H0.
Qed.

Definition sop_okb (m : umap) (ss : list seg) (op : sop) : bool :=
  let st v := (0 <=? v) && (v <=? 3) in
  match op with
  | SSet x n v | SNonMatching x n v _ => usableb m ss x n && st v
  | SCopy s d n => usableb m ss s n && usableb m ss d n && (n <? 2 ^ 32) &&
      (negb (s mod 4 =? d mod 4) ||
       ((d <=? s) || (s + n <=? d)) && ((s mod 4 =? 0) || (4 - s mod 4 <=? n)))
  | SPut x v => usableb m ss x 1 && st v
  | SGet x => usableb m ss x 1
  | SCheck x n _ _ => usableb m ss x n
  | SBack x n _ => usableb m ss (x - n + 1) n && (n <=? x)
  | SNext x n v => usableb m ss x n && (x mod 4 =? 0) && (n mod 4 =? 0) && st v
  end.
Lemma legal_check : forall m ss ops, forallb (sop_okb m ss) ops = true -> Forall (sop_ok m ss) ops.
Proof.
  intros m ss ops H. apply Forall_forall. intros op Hop. rewrite forallb_forall in H. specialize (H op Hop).
  destruct op; cbn [sop_okb sop_ok] in *; cbv zeta in H; unfold copyable;
    repeat match type of H with (_ && _)%bool = true => apply andb_prop in H as [H ?] end;
    repeat match goal with |- _ /\ _ => split end; try (apply usable_check; assumption);
    try (clear - H0; lia); try (clear - H0 H1; lia); try (clear - H0 H1 H2; lia); try (clear - H H0; lia).
Qed.

Definition sops4 : list sop :=
  [SSet 0x400001 70 3; SSet 0x400005 3 0; SPut 0x400011 2; SGet 0x400011; SGet 0x400000;
   SCopy 0x400002 0x551000000003 41; SGet 0x551000000006; SGet 0x551000000012;
   SCheck 0x400001 70 3 true; SBack 0x400046 66 3; SNonMatching 0x400000 32 0 1; SNext 0x400000 64 0;
   SCopy 0x400001 0x400101 31; SNext 0x400100 64 0; SCheck 0x400104 20 0 false; SNext 0x400100 64 2].
Definition souts (ops : list sop) : list sout :=
  match do_sops m4 st4 ops with Ok (_, o) => o | _ => [] end.
Definition safter (ops : list sop) : ustate :=
  match do_sops m4 st4 ops with Ok (st, _) => st | _ => st4 end.
Example C17_history_legal : shadow_map m4 /\ started m4 st4 /\ Forall (sop_ok m4 (segs st4)) sops4.
Proof.
  split; [exact shadow_map_m4|]. split; [apply C22_history_legal|].
  apply legal_check. vm_compute. reflexivity.
Qed.
Example C17_history_answers : souts sops4 =
  [ODone; ODone; ODone; OState 2; OState 1; ODone; OState 0; OState 2;
   OCheck (Check false (Some (0x400005, 0)) (Some 0x400008)); OBack (Some 0x400011); ODone; ONext (Some 0x400004);
   ODone; ONext (Some 0x400104); OCheck (Check true None None); ONext None].
Proof. vm_compute. reflexivity. Qed.
Example C36_save_restore_case :
  match save_region m4 (safter sops4) (fun a => 170 + a) 0x400000 64 with
  | Ok buf =>
    match restore_region m4 (safter (sops4 ++ [SSet 0x400000 128 2])) buf 0x400000 64 with
    | Ok st => match check_range m4 st 0x400000 128 0 true, check_range m4 st 0x400030 128 3 true with
               | Ok a, Ok b => Some (a, b)
               | _, _ => None
               end
    | _ => None
    end
  | _ => None
  end = Some (Check false (Some (0x400000, 1)) (Some 0x400001), Check false (Some (0x400040, 2)) (Some 0x400080)).
Proof. vm_compute. reflexivity. Qed.

(** ** What the code gets wrong *)
(** C18: fifteen uninitialised bytes behind a defined one are not noticed. *)
Theorem C18_skip_refuted : exists x n ops D,
  Forall (sop_ok m4 (segs st4)) (ops ++ [SCheck x n DEFINED true]) /\ states m4 (safter ops) D /\
  (forall y, x < y < x + n -> D y = UNDEFINED) /\
  souts (ops ++ [SCheck x n DEFINED true]) = [ODone; ODone; OCheck (Check true None None)].
Proof.
  set (ops := [SSet 0x400000 16 3; SSet 0x400000 1 0]).
  assert (F : Forall (sop_ok m4 (segs st4)) (ops ++ [SCheck 0x400000 16 DEFINED true])).
  { apply legal_check. vm_compute. reflexivity. }
  exists 0x400000, 16, ops, (fold_left seffect ops (fun _ => UNADDR)). split; [exact F|]. split.
  - apply Forall_app in F as [F _].
    destruct (C17_history m4 st4 ops shadow_map_m4 (proj1 (proj2 C22_history_legal)) F) as (st' & o & E & _ & S & _).
    unfold safter. rewrite E. exact S.
  - split; [|vm_compute; reflexivity]. intros y Hy. cbn [ops fold_left seffect].
    rewrite (proj2 (andb_false_iff (0x400000 <=? y) _)) by (right; apply Z.ltb_ge; lia).
    rewrite (proj2 (andb_true_iff (0x400000 <=? y) _)) by (split; [apply Z.leb_le|apply Z.ltb_lt]; lia). reflexivity.
Qed.
(** C18: the reported end of a bad range can lie beyond the range asked about. *)
Theorem C18_end_refuted : exists x n,
  sop_ok m4 (segs st4) (SCheck x n UNDEFINED true) /\
  souts [SSet x 16 0; SCheck x n UNDEFINED true] =
    [ODone; OCheck (Check false (Some (x, 0)) (Some (x + n + 8)))].
Proof. exists 0x400000, 8. split; [apply usable_check; vm_compute; reflexivity|vm_compute; reflexivity]. Qed.
(** C18: the pointer-sized search can answer an address that is not aligned, and
    never finds uninitialised words (two-byte search of C22). *)
Definition found_ptr (ops : list sop) (x e v : Z) : option Z :=
  match next_ptrsz m4 (safter ops) x e v with Ok (_, r) => r | _ => None end.
Theorem C18_ptrsz_refuted : exists x,
  Forall (sop_ok m4 (segs st4)) [SSet x 16 3; SSet (x + 4) 8 0] /\ x mod 8 = 0 /\
  found_ptr [SSet x 16 3; SSet (x + 4) 8 0] x (x + 16) DEFINED = Some (x + 4) /\
  found_ptr [SSet x 16 3] x (x + 16) UNDEFINED = None.
Proof.
  exists 0x400000. split; [|vm_compute; auto].
  apply legal_check. vm_compute. reflexivity.
Qed.
(** C18: the backward search reads shadow memory that was never allocated. *)
Theorem C18_prev_refuted : exists x lim,
  usable m4 (segs st4) lim (x - lim) /\ prev_dword m4 st4 x lim UNADDR = UB /\
  prev_dword m4 (safter [SSet x 16 0]) (x + 6) lim DEFINED = Ok (Some (x + 6)).
Proof. exists 0x440000, 0x43fff0. split; [apply usable_check; vm_compute; reflexivity|]. vm_compute. auto. Qed.
(** C17: eight unaddressable bytes never touched read as one unaddressable
    granule followed by a defined one. *)
Theorem C17_qword_refuted : exists x inf,
  usable m4 (segs st4) x 8 /\ get_qword m4 st4 info0 x = Ok (val_to_qword UNADDR - 0x5500, inf).
Proof. exists 0x400000. eexists. split; [apply usable_check; vm_compute; reflexivity|vm_compute; reflexivity]. Qed.
(** C19: a one-byte copy at an unaligned address also overwrites the state of
    the next bytes of the granule. *)
Theorem C19_small_refuted : exists s d,
  usable m4 (segs st4) s 1 /\ usable m4 (segs st4) d 1 /\
  souts [SSet s 1 3; SSet d 7 0; SCopy s d 1; SGet d; SGet (d + 1); SGet (d + 3)] =
    [ODone; ODone; ODone; OState 3; OState 1; OState 0].
Proof. exists 0x400001, 0x400101. split; [|split]; [apply usable_check; vm_compute; reflexivity..|vm_compute; reflexivity]. Qed.
(** C19: copying forward onto an overlapping range shifts the tail. *)
Theorem C19_overlap_refuted : exists s d n,
  usable m4 (segs st4) s n /\ usable m4 (segs st4) d n /\
  souts [SSet s 4 3; SSet (s + 4) 4 0; SSet (s + 8) 4 2; SCopy s d n; SGet d; SGet (d + 4); SGet (d + 8)] =
    [ODone; ODone; ODone; ODone; OState 3; OState 2; OState 1].
Proof.
  exists 0x400000, 0x400004, 12. split; [|split]; [apply usable_check; vm_compute; reflexivity..|vm_compute; reflexivity].
Qed.

Print Assumptions C17_history.
Print Assumptions C17_set.
Print Assumptions C17_get.
Print Assumptions C18_check.
Print Assumptions C18_check_backward.
Print Assumptions C19_copy.
Print Assumptions C36_save_restore.
Print Assumptions C36_overrun_refuted.
Print Assumptions C18_skip_refuted.
Print Assumptions C18_end_refuted.
Print Assumptions C18_ptrsz_refuted.
Print Assumptions C18_prev_refuted.
Print Assumptions C17_qword_refuted.
Print Assumptions C19_small_refuted.
Print Assumptions C19_overlap_refuted.
