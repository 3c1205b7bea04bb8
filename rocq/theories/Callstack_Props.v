(** Lookup of modules and stored call stacks: C30, C31, C32. *)
From Verif Require Import Base Callstack_Model Callstack_Spec Callstack_Proofs1 Callstack_Proofs2 Callstack_Proofs3 Callstack_Proofs4.
Open Scope Z_scope.

(** ---- C32: module lookup ---- *)
(** After any history of loads, unloads and lookups, module_lookup returns
    exactly the loaded region that contains the address (its start, size and
    path), or nothing if there is none; it never goes wrong. *)
Theorem C32_lookup_exact : forall dbg evs, allowed_all [] evs -> exists st, do_events dbg init_mods evs = Ok st /\
  forall pc, exists st' r, module_lookup st pc = Ok (st', r) /\
    match r, where_is (loaded evs) pc with
    | Some (b, s, i), Some rg => b = r_start rg /\ s = r_end rg - r_start rg /\ exists m, nth_error (infos (nms st')) i = Some m /\ mi_path m = r_path rg
    | None, None => True
    | _, _ => False
    end.
Proof. exact lookup_exact. Qed.
(** is_in_module says exactly whether the address is in a loaded region, if
    regions are made of whole pages. *)
Theorem C32_in_module_exact : forall dbg evs, allowed_all [] evs -> Forall paged evs -> exists st, do_events dbg init_mods evs = Ok st /\
  forall pc, 0 <= pc -> exists st', is_in_module st pc = Ok (st', match where_is (loaded evs) pc with Some _ => true | None => false end).
Proof. exact in_module_exact. Qed.
(** With a region ending inside a page the page cache answers for the whole page. *)
Definition ragged := [Load (Dll 4096 5000 1 []); Load (Dll 8192 12288 2 []); InModule 4100].
Theorem C32_in_module_partial_page_refuted : allowed_all [] ragged /\
  exists st st', do_events true init_mods ragged = Ok st /\ is_in_module st 5050 = Ok (st', true) /\ where_is (loaded ragged) 5050 = None.
Proof.
  split; [|do 2 eexists; split; [vm_compute; reflexivity|split; vm_compute; reflexivity]].
  cbn. unfold module_ok, apart, r_end, r_start. cbn. repeat split; try lia; intros; cbn; intuition (subst; cbn; lia).
Qed.
(** module_lookup_user_data is documented to return the module's bounds too; the
    caller's variables are left as they were. *)
Theorem C32_user_data_bounds_refuted : exists st st' i, do_events true init_mods [Load (Dll 4096 8192 1 [])] = Ok st /\
  module_lookup_user_data st 5000 0 0 = Ok (st', Some i, 0, 0).
Proof. do 3 eexists. split; [vm_compute; reflexivity|]. vm_compute; reflexivity. Qed.

(** segments with a gap, a reload elsewhere, an unload, lookups in between *)
Definition libs := [Load (Dll 4096 20480 1 [(4096, 8192); (8192, 12288); (16384, 20480)]); Lookup 5000; Load (Dll 12288 16384 2 []);
                    InModule 13000; Unload (Dll 4096 20480 1 [(4096, 8192); (8192, 12288); (16384, 20480)]); Lookup 5000].
Example C32_nonvacuous : allowed_all [] libs /\ Forall paged libs /\ where_is (loaded libs) 13000 = Some (12288, 16384, 2) /\ where_is (loaded libs) 5000 = None.
Proof.
  split; [|split; [|split; reflexivity]].
  - cbn. unfold module_ok, apart, r_end, r_start. cbn. repeat split; try lia; intros; cbn in *; intuition (subst; cbn; lia).
  - unfold libs. repeat constructor; cbn in *; intuition (subst; reflexivity).
Qed.

(** ---- C30: stored stacks decode to what was recorded ---- *)
(** Record a call stack at any point of any history; whatever happens
    afterwards, it decodes to the frames that were observed: each address with
    the path of the module it was in then and the offset from the region's
    start.  Guards: no module path is reloaded with a larger span than at first;
    and unless the full form is in use, the offsets are expressible. *)
Theorem C30_decode_exact : forall dbg a t w j c, allowed_all [] (a ++ c) -> no_growth a ->
  exists s0 s1 p s2, do_events dbg init_mods a = Ok s0 /\ record s0 t w j = Ok (s1, p) /\ do_events dbg s1 c = Ok s2 /\
    (255 <= array_end (nms s0) \/ Forall fits (seen (loaded a) t w) -> to_symbolized (nms s2) p = Ok (seen (loaded a) t w)).
Proof. exact decode_later. Qed.
(** An offset that is a positive multiple of 0xffffff decodes as "in no module". *)
Theorem C30_boundary_refuted : exists s0 s1 p, do_events true init_mods [Load (Dll 4096 40004096 7 [])] = Ok s0 /\
  record s0 (Some (AtPc (4096 + 16777215))) [] 0 = Ok (s1, p) /\
  seen (loaded [Load (Dll 4096 40004096 7 [])]) (Some (AtPc (4096 + 16777215))) [] = [ShPc 16781311 (Some (7, 16777215))] /\
  to_symbolized (nms s1) p = Ok [ShPc 16781311 None].
Proof. do 3 eexists. split; [vm_compute; reflexivity|]. split; [vm_compute; reflexivity|]. split; vm_compute; reflexivity. Qed.
(** An offset of 129*0xffffff or more overflows an int when decoded. *)
Theorem C30_overflow_refuted : exists s0 s1 p, do_events true init_mods [Load (Dll 4096 (4096 + 200 * 16777215) 7 [])] = Ok s0 /\
  record s0 (Some (AtPc (4096 + 129 * 16777215 + 5))) [] 0 = Ok (s1, p) /\ to_symbolized (nms s1) p = UB.
Proof. do 3 eexists. split; [vm_compute; reflexivity|]. split; [vm_compute; reflexivity|]. vm_compute; reflexivity. Qed.
(** A module reloaded larger than at first decodes as another module. *)
Definition regrown := [Load (Dll 4096 8192 7 []); Load (Dll 8192 12288 8 []); Unload (Dll 4096 8192 7 []);
                       Load (Dll 100003840 200003584 7 [])].
Theorem C30_regrown_refuted : allowed_all [] regrown /\ exists s0 s1 p, do_events true init_mods regrown = Ok s0 /\
  record s0 (Some (AtPc (100003840 + 16777215 + 5))) [] 0 = Ok (s1, p) /\
  seen (loaded regrown) (Some (AtPc (100003840 + 16777215 + 5))) [] = [ShPc 116781060 (Some (7, 16777220))] /\
  to_symbolized (nms s1) p = Ok [ShPc 116781060 (Some (8, 5))].
Proof.
  split; [|do 3 eexists; split; [vm_compute; reflexivity|]; split; [vm_compute; reflexivity|]; split; vm_compute; reflexivity].
  cbn. unfold module_ok, apart, r_end, r_start. cbn. repeat split; try lia; intros; cbn in *; intuition (subst; cbn; lia).
Qed.
Definition deep := [Load (Dll 4096 8192 1 []); Load (Dll 1048576 101048576 2 [])].
Example C30_nonvacuous : allowed_all [] (deep ++ [Unload (Dll 1048576 101048576 2 []); Load (Dll 1048576 2048576 3 [])]) /\ no_growth deep /\
  seen (loaded deep) (Some (AtSyscall (4, 0, 0))) [(5000, false); (60000000, false); (200, true); (300, false)] =
    [ShSys (4, 0, 0); ShPc 5000 (Some (1, 904)); ShPc 60000000 (Some (2, 58951424)); ShPc 300 None] /\
  Forall fits (seen (loaded deep) (Some (AtSyscall (4, 0, 0))) [(5000, false); (60000000, false); (200, true); (300, false)]).
Proof.
  split; [|split; [|split; [reflexivity|]]].
  - cbn. unfold module_ok, apart, r_end, r_start. cbn. repeat split; try lia; intros; cbn in *; intuition (subst; cbn; lia).
  - intros a m b E. destruct a as [|x [|y [|z a]]]; try discriminate; cbn in E; injection E; intros; subst; cbn; auto; destruct a; discriminate.
  - repeat constructor; try (left; reflexivity); try (right; discriminate); cbn; lia.
Qed.

(** ---- C31: equality, hash, sharing ---- *)
(** Two stacks recorded at any two points of a history compare equal exactly
    when the same frames were observed. *)
Theorem C31_compare_exact : forall dbg a t1 w1 j1 b t2 w2 j2 c, allowed_all [] (a ++ b ++ c) -> no_growth (a ++ b) ->
  exists s0 s1 p s2 s3 q s4, do_events dbg init_mods a = Ok s0 /\ record s0 t1 w1 j1 = Ok (s1, p) /\ do_events dbg s1 b = Ok s2 /\
    record s2 t2 w2 j2 = Ok (s3, q) /\ do_events dbg s3 c = Ok s4 /\
    (cmpable p q (seen (loaded a) t1 w1) (seen (loaded (a ++ b)) t2 w2) ->
     exists r, cmp (nms s4) p q = Ok r /\ (r = true <-> seen (loaded a) t1 w1 = seen (loaded (a ++ b)) t2 w2)) /\
    (seen (loaded a) t1 w1 = seen (loaded (a ++ b)) t2 w2 -> exists h, hash p = Ok h /\ hash q = Ok h).
Proof.
  intros dbg a t1 w1 j1 b t2 w2 j2 c A NG. destruct (two_stacks dbg a t1 w1 j1 b t2 w2 j2 c A NG) as (s0&s1&p&s2&s3&q&s4&E0&E1&E2&E3&E4&U&R1&R2).
  exists s0, s1, p, s2, s3, q, s4. repeat (split; [assumption|]). split; [intros H; exact (cmp_ok _ p q _ _ U R1 R2 H)|].
  intros Q. exists (ohash (seen (loaded a) t1 w1)). split; [exact (hash_ok _ _ _ R1)|]. rewrite Q. exact (hash_ok _ _ _ R2).
Qed.
(** A copy compares equal to its original and hashes alike, unless it is empty
    and a zero-sized allocation is not NULL. *)
Theorem C31_clone_equal : forall dbg a t w j al, allowed_all [] a -> no_growth a -> seen (loaded a) t w <> [] \/ al = false ->
  exists s0 s1 p, do_events dbg init_mods a = Ok s0 /\ record s0 t w j = Ok (s1, p) /\
    (headsys (seen (loaded a) t w) = false \/ Forall fits (seen (loaded a) t w) -> cmp (nms s1) p (clone al p) = Ok true) /\ hash (clone al p) = hash p.
Proof.
  intros dbg a t w j al A NG H. destruct (start_inv dbg a A) as (s0&l0&E0&V0). destruct (record_ok a l0 s0 t w j V0 NG) as (s1&p&E1&V1&X1&R1&_).
  exists s0, s1, p. split; auto. split; auto. rewrite X1. pose proof (clone_rep _ al _ _ R1 H) as R2. split.
  - intros C. destruct (cmp_ok (nms s0) p (clone al p) _ _ (inv_uniq _ _ _ V0) R1 R2) as (b&E2&B).
    { destruct C as [C|C]; [left; auto|right; auto]. }
    rewrite E2. f_equal. apply B. reflexivity.
  - rewrite (hash_ok _ _ _ R1). exact (hash_ok _ _ _ R2).
Qed.
Theorem C31_empty_clone_refuted : exists s p, record init_mods None [] 0 = Ok (s, p) /\ cmp (nms s) p (clone true p) = Ok false.
Proof. do 2 eexists. split; [vm_compute; reflexivity|]. vm_compute; reflexivity. Qed.
(** Clients take and drop references to shared stacks while modules come and go,
    for every assignment of hashes to buckets.  Each reference held decodes to
    the stack recorded for it; two references are the same object exactly when
    the stacks are equal; the count is one (the table) plus the number of holders;
    an object is live exactly when some reference is held. *)
Theorem C31_sharing_exact : forall dbg bucket os, cops_ok ([], []) os -> exists st tb held, do_cops dbg bucket (init_mods, init_table, []) os = Ok (st, tb, held) /\
  let hs := snd (holding os) in length held = length hs /\
  (forall i h, nth_error hs i = Some h -> exists x p, nth_error held i = Some x /\ get (objs tb) x = Some (p, 1 + Z.of_nat (sharers h hs)) /\ to_symbolized (nms st) p = Ok h) /\
  (forall i j x y, nth_error held i = Some x -> nth_error held j = Some y -> (x = y <-> nth_error hs i = nth_error hs j)) /\
  (forall x p n, get (objs tb) x = Some (p, n) -> In x held).
Proof. exact table_all. Qed.
(** Without the guard equality is not even transitive: a packed stack at offset
    0xffffff and a packed stack in no module differ, but both equal the full
    form of the latter. *)
Definition fill_up := Load (Dll 1000001536 (1000001536 + 260 * 16777216) 9 []).
Theorem C31_transitive_refuted : exists s0 s1 p s2 s3 q s4 s5 r,
  do_events true init_mods [Load (Dll 4096 40001536 7 [])] = Ok s0 /\ record s0 None [(4096 + 16777215, false)] 0 = Ok (s1, p) /\
  do_events true s1 [Unload (Dll 4096 40001536 7 [])] = Ok s2 /\ record s2 None [(4096 + 16777215, false)] 0 = Ok (s3, q) /\
  do_events true s3 [fill_up] = Ok s4 /\ record s4 None [(4096 + 16777215, false)] 0 = Ok (s5, r) /\
  cmp (nms s5) p r = Ok true /\ cmp (nms s5) r q = Ok true /\ cmp (nms s5) p q = Ok false.
Proof. do 9 eexists. repeat (split; [vm_compute; reflexivity|]). vm_compute; reflexivity. Qed.
Definition clients := [Happen (Load (Dll 4096 8192 1 [])); Take None [(5000, false); (300, false)] 0; Take (Some (AtPc 5000)) [(300, false)] 3;
                       Take (Some (AtSyscall (4, 0, 0))) [(5000, false)] 77; Drop 0; Happen (Unload (Dll 4096 8192 1 []));
                       Take None [(5000, false); (300, false)] 0].
Example C31_nonvacuous : cops_ok ([], []) clients /\
  snd (holding clients) = [[ShPc 5000 (Some (1, 904)); ShPc 300 None]; [ShSys (4, 0, 0); ShPc 5000 (Some (1, 904))]; [ShPc 5000 None; ShPc 300 None]] /\
  exists st tb, do_cops true (fun _ => 0) (init_mods, init_table, []) clients = Ok (st, tb, [0; 2; 3]%nat).
Proof.
  split; [|split; [reflexivity|do 2 eexists; vm_compute; reflexivity]].
  assert (NG : forall evs, (forall a m b, evs = a ++ Load m :: b -> a = []) -> no_growth evs). { intros evs H a m b E. rewrite (H _ _ _ E). cbn. auto. }
  cbn [clients cops_ok hold app fst snd cop_ok loaded fold_left after drop_nth].
  repeat match goal with |- _ /\ _ => split end; auto; try (apply NG; intros a m b E; destruct a as [|x [|y [|z a]]]; try discriminate; auto; cbn in E; injection E; intros; try discriminate; destruct a; discriminate);
    try (repeat constructor; cbn; try lia; try (left; reflexivity); right; discriminate).
  - cbn. unfold module_ok, apart, r_end, r_start. cbn. repeat split; try lia; intros; cbn in *; intuition (subst; cbn; lia).
  - cbn. unfold module_ok, apart, r_end, r_start. cbn. repeat split; try lia; intros; cbn in *; intuition (subst; cbn; lia).
Qed.

Print Assumptions C32_lookup_exact.
Print Assumptions C32_in_module_exact.
Print Assumptions C30_decode_exact.
Print Assumptions C31_compare_exact.
Print Assumptions C31_clone_equal.
Print Assumptions C31_sharing_exact.
