(** C42, C43, C44: the shadow table of 32-bit Umbra. *)
From Verif Require Import Base Umbra32_Model Umbra32_Spec Umbra32_Proofs9.
From Coq Require Import Sorted.
Open Scope Z_scope.

(** * C42: a flat map from application addresses to values *)

(** Whatever the calls, scale, options and addresses of the blocks: the answers
    and the values read are those of the flat map, at the place that the C
    code, the x86 code and the ARM code all compute; no call touches memory
    outside the blocks or writes to a shared one; the redzones stay. *)
Theorem C42_history : forall m f ops, map_ok m -> Forall (op_ok m) ops ->
  match run m f ops with
  | Ret (st, outs) => exists A V, history m (A0 m) (V0 m) ops outs A V /\ shows m st A V /\ redzones m st
  | Dead => refused m
  | _ => False
  end.
Proof. intros m f ops Hm. exact (history_lemma m Hm f ops). Qed.
Print Assumptions C42_history.

(** Every legal range of the examples, and a map of each kind. *)
Definition bm (s : scale) (touch : bool) := UMap s touch 0x11 256 0xaa false bump.
Lemma bm_ok s t : map_ok (bm s t).
Proof. apply bump_map_ok; vm_compute; intuition congruence. Qed.
Definition outs_of (m : umap) (ops : list uop) : option (list (status * answer)) :=
  match run m (fun _ => 0) ops with Ret (_, l) => Some l | _ => None end.

Definition ops1 : list uop :=
  [OCreate false 0x10000 0x20000 0x22; OSet 0x1fff0 0x20 0x33; OWrite 0x2fff8 8 [1; 2];
   OCopy 0x1ffe0 0x10100 0x20; ORead 0x100f8 0x30; OFind 0x10000 0x20000 2; ORead 0x2fff8 0x10;
   ODelete 0x10000 0x10000; ORead 0x10100 8; OSet 0x40000 0x10 7].
Example ops1_ok : Forall (op_ok (bm Down4 false)) ops1.
Proof. repeat (constructor; [cbn; repeat split; try lia; cbn in *; intuition (subst; lia || discriminate)|]). constructor. Qed.
Example C42_ex : outs_of (bm Down4 false) ops1 = Some [(S_ok, ADone); (S_ok, ASize (Some 8));
    (S_ok, ASize (Some 2)); (S_ok, ASize (Some 8)); (S_ok, ABytes [34; 34; 34; 34; 34; 34; 51; 51; 51; 51;
    34; 34]); (S_ok, AFound (Some 196604)); (S_param, ABytes [1; 2]); ( S_ok, ADone); (S_ok, ABytes [17;
    17]); (S_param, ASize None)].
Proof. vm_compute. reflexivity. Qed.
Definition ops2 : list uop :=
  [OSet 0xfffe 4 0x33; OReplace 0x70000; OShared 0x44; ORead 0xfffc 8; OSet 0xfffe 4 0x11;
   OFind 0xfff0 0x20 0x11; OCreate true 0x20000 0x20000 0x44; ORead 0x2fffe 4; OCopy 0x2fffc 0x5fffc 8; ORead 0x5fffa 6].
Example ops2_ok : Forall (op_ok (bm Up2 true)) ops2.
Proof. repeat (constructor; [cbn; repeat split; try lia; cbn in *; intuition (subst; lia || discriminate)|]). constructor. Qed.
Example C42_ex2 : outs_of (bm Up2 true) ops2 = Some [(S_ok, ASize (Some 8)); (S_ok, AAddr (Some 16777472));
    (S_ok, AAddr (Some 20971776)); (S_ok, ABytes [17; 17; 17; 17; 51; 51; 51; 51; 51; 51; 51; 51; 17; 17; 17;
    17]); (S_ok, ASize (Some 8)); (S_ok, AFound (Some 65520)); (S_ok, ADone); (S_ok, ABytes [68; 68; 68; 68;
    68; 68; 68; 68]); (S_ok, ASize (Some 16)); (S_ok, ABytes [17; 17; 17; 17; 68; 68; 68; 68; 68; 68; 68; 68])].
Proof. vm_compute. reflexivity. Qed.

(** What a run leaves at the shadow bytes of some addresses. *)
Definition after (m : umap) (ops : list uop) (l : list Z) : option (list (status * answer) * list Z) :=
  match run m (fun _ => 0) ops with
  | Ret (st, outs) => Some (outs, map (fun x => byte m st x 0) l)
  | _ => None
  end.

(** Refuted for ranges that end on the first byte of a block: the last byte is
    left out, and the call reports success. *)
Theorem C42_last_byte_refuted : exists m x n v, map_ok m /\ sc m = Same1 /\ 0 <= v < 255 /\ dflt m <> v /\
  match after m [OCreate false x n v] [x; x + n - 1] with
  | Some ([(S_ok, _)], [a; b]) => a = v /\ b = dflt m
  | _ => False
  end /\
  match after m [OCreate false x (n + 16) 7; OSet (x + n - 1) 1 v] [x + n - 1] with
  | Some ([_; (S_ok, _)], [b]) => b = 7 /\ b <> v
  | _ => False
  end.
Proof.
  exists (bm Same1 false), 0x10000, 0x10001, 0x22. split; [apply bm_ok|].
  vm_compute. intuition congruence.
Qed.
Print Assumptions C42_last_byte_refuted.

(** Refuted for overlapping copies upwards: when the copy has to be done in
    several parts the tail goes to a wrong place. *)
Theorem C42_copy_overlap_refuted : exists m s d n, map_ok m /\ s < d < s + n /\
  match after m [OCreate false s (2 * n) 0x22; OWrite s 4 [1; 2; 3; 4]; OWrite (s + n - 4) 4 [5; 6; 7; 8]; OCopy s d n]
              [d; d + 1; d + n - 2; d + n - 1] with
  | Some ([_; _; _; (S_ok, _)], l) => l <> [1; 2; 7; 8]
  | _ => False
  end.
Proof.
  exists (bm Same1 false), 0x1ff00, 0x1ff08, 0x200. split; [apply bm_ok|].
  vm_compute. intuition congruence.
Qed.
Print Assumptions C42_copy_overlap_refuted.

(** Refuted for copies whose distance is one more than a number of blocks, at a
    scale that does not shrink: a byte is left out on crossing. *)
Theorem C42_copy_one_refuted : exists m s d n, map_ok m /\ ~ (s < d < s + n) /\ (d - s) mod 65536 = 1 /\
  range_ok (sc m) s n /\ range_ok (sc m) d n /\
  match after m [OCreate false s 0x100 0x22; OCreate false d 0x100 0x33; OCopy s d n]
              (map (fun i => d + i) [0; 1; 0x0f; 0x10; 0x11; 0x12; 0x1e; 0x1f]) with
  | Some ([_; _; (S_ok, _)], l) => In 0x33 l
  | _ => False
  end.
Proof.
  exists (bm Same1 false), 0x1fff0, 0x3fff1, 0x20. split; [apply bm_ok|]. split; [lia|]. split; [reflexivity|].
  split; [split; vm_compute; congruence|]. split; [split; vm_compute; congruence|].
  vm_compute. tauto.
Qed.
Print Assumptions C42_copy_one_refuted.

(** Refuted for ranges that are not whole granules: the granule of the last
    byte is not reached, and the call reports success. *)
Theorem C42_granule_refuted : exists m x n v, map_ok m /\ sc m = Down4 /\ 0 < n /\ n mod 4 = 0 /\
  match after m [OCreate false 0x10000 0x100 7; OSet x n v] [x; x + n - 1] with
  | Some ([_; (S_ok, _)], [a; b]) => a = v /\ b <> v
  | _ => False
  end.
Proof.
  exists (bm Down4 false), 0x10002, 4, 9. split; [apply bm_ok|]. vm_compute. intuition congruence.
Qed.
Print Assumptions C42_granule_refuted.

(** Refuted for the value 255: [umbra_shadow_set_range] takes it and
    [umbra_create_shadow_memory] does not. *)
Theorem C42_value_255_refuted : exists m x n, map_ok m /\ range_ok (sc m) x n /\
  match after m [OCreate false x n 255; OCreate false x n 7; OSet x n 255] [x] with
  | Some ([(S_feature, _); (S_ok, _); (S_ok, _)], [b]) => b = 255
  | _ => False
  end.
Proof.
  exists (bm Same1 false), 0x10000, 0x100. split; [apply bm_ok|]. split; [split; vm_compute; congruence|].
  vm_compute. reflexivity.
Qed.
Print Assumptions C42_value_255_refuted.

(** Refuted for values wider than a shadow byte: they are taken by
    [umbra_value_in_shadow_memory], which finds their low byte. *)
Theorem C42_find_wide_refuted : exists m x n v, map_ok m /\ range_ok (sc m) x n /\ 255 < v /\
  match after m [OCreate false x n 0x55; OFind x n v] [x] with
  | Some ([_; (S_ok, AFound (Some y))], [b]) => y = x /\ b <> v
  | _ => False
  end.
Proof.
  exists (bm Same1 false), 0x10000, 0x100, 0x155. split; [apply bm_ok|]. split; [split; vm_compute; congruence|].
  vm_compute. intuition congruence.
Qed.
Print Assumptions C42_find_wide_refuted.

(** Refuted for a range up to the top of the address space: it can be created
    and read, not set. *)
Theorem C42_top_refuted : exists m x n, map_ok m /\ range_ok (sc m) x n /\ x + n = 2 ^ 32 /\
  match after m [OCreate false x n 0x55; ORead x n; OSet x n 7] [x] with
  | Some ([(S_ok, _); (S_ok, _); (S_param, _)], [b]) => b = 0x55
  | _ => False
  end.
Proof.
  exists (bm Same1 false), 0xffffff00, 0x100. split; [apply bm_ok|]. split; [split; vm_compute; congruence|].
  vm_compute. intuition congruence.
Qed.
Print Assumptions C42_top_refuted.

(** * C43: private, shared and redundant blocks *)

(** Closing the map frees every block, each once and with the allocator it came
    from. *)
Theorem C43_exit : forall m st, map_ok m -> reachable m st ->
  exists st', table_exit m st = Ret st' /\ live st' = [].
Proof. intros m st Hm. exact (exit_lemma m Hm st). Qed.
Print Assumptions C43_exit.

(** After [umbra_replace_shared_shadow_memory] the block of [x] is private and
    writable; no value changes and no other block moves. *)
Theorem C43_replace : forall m st x, map_ok m -> reachable m st -> 0 <= x < 2 ^ 32 ->
  match replace_shared m st x with
  | Ret (st', a) =>
      type_of m st' (x / 65536) = Normal /\ a = app_to_shadow m st' x /\
      block_at m st' (base m st' (x / 65536)) ReadWrite /\
      (forall y j, 0 <= y < 2 ^ 32 -> 0 <= j < num (sc m) -> byte m st' y j = byte m st y j) /\
      (forall y, 0 <= y < 2 ^ 32 -> y / 65536 <> x / 65536 -> app_to_shadow m st' y = app_to_shadow m st y) /\
      (type_of m st (x / 65536) = Normal -> st' = st)
  | Dead => refused m
  | _ => False
  end.
Proof. intros m st x Hm. exact (replace_lemma m Hm st x). Qed.
Print Assumptions C43_replace.

(** [umbra_create_shared_shadow_block] gives a read-only block full of [v], the
    same one each time, found again by [umbra_get_shared_shadow_block]; it
    fails only when eight others exist. *)
Theorem C43_shared : forall m st v before, map_ok m -> reachable m st -> 0 <= v <= 255 ->
  match create_shared m st v with
  | Ret (st', S_ok, Some b) =>
      block_at m st' b ReadOnly /\ (forall o, 0 <= o < SLOTS (sc m) -> smem st' (b + o) = v) /\
      get_shared st' v before = (S_ok, b) /\ create_shared m st' v = Ret (st', S_ok, Some b) /\
      (forall y, 0 <= y < 2 ^ 32 -> app_to_shadow m st' y = app_to_shadow m st y) /\
      (forall y j, 0 <= y < 2 ^ 32 -> 0 <= j < num (sc m) -> byte m st' y j = byte m st y j) /\
      (forall i, 0 <= i < 65536 -> type_of m st' i = type_of m st i)
  | Ret (st', S_nomem, None) =>
      st' = st /\ (8 <= length (specials st))%nat /\ get_shared st v before = (S_ok, before)
  | Dead => refused m
  | _ => False
  end.
Proof. intros m st v before Hm. exact (shared_lemma m Hm st v before). Qed.
Print Assumptions C43_shared.

(** [umbra_clear_redundant_blocks] frees exactly the private blocks that hold
    the default value everywhere, counts them, and changes no value. *)
Theorem C43_clear : forall m st, map_ok m -> reachable m st -> on_touch m = true ->
  match clear_redundant m st with
  | Ret (st', S_ok, c) => exists l, NoDup l /\ c = Z.of_nat (length l) /\
      (forall i, In i l <-> 0 <= i < 65536 /\ type_of m st i = Normal /\
         forall o, 0 <= o < SLOTS (sc m) -> smem st (base m st i + o) = dflt m) /\
      Z.of_nat (length (live st')) + c = Z.of_nat (length (live st)) /\
      (forall i, In i l -> type_of m st' i = Shared) /\
      (forall i, 0 <= i < 65536 -> ~ In i l ->
         base m st' i = base m st i /\ type_of m st' i = type_of m st i) /\
      (forall y j, 0 <= y < 2 ^ 32 -> 0 <= j < num (sc m) -> byte m st' y j = byte m st y j)
  | _ => False
  end.
Proof. intros m st Hm. exact (clear_lemma m Hm st). Qed.
Print Assumptions C43_clear.

Definition at_end {T} (m : umap) (ops : list uop) (k : ustate -> T) : option T :=
  match run m (fun _ => 0) ops with Ret (st, _) => Some (k st) | _ => None end.
Lemma at_end_reachable T m ops (k : ustate -> T) x : Forall (op_ok m) ops -> at_end m ops k = Some x ->
  exists st, reachable m st /\ x = k st.
Proof.
  unfold at_end. intros F. destruct (run m (fun _ => 0) ops) as [(st, outs)| | |] eqn:E; try discriminate.
  intros H. injection H as <-. exists st. split; [|reflexivity]. exists (fun _ => 0), ops, outs. auto.
Qed.

(** Both runs reach states, with these blocks in use; the exit frees the
    private ones among the first twelve, and the second has something to clear
    there. *)
Example C43_ex : at_end (bm Down4 false) ops1 (fun st =>
  (length (live st), match exit_blocks 12 0 (bm Down4 false) st with Ret st' => Some (length (live st')) | _ => None end)) =
  Some (3%nat, Some 1%nat).
Proof. vm_compute. reflexivity. Qed.
Definition ops3 : list uop := [OSet 0xfff8 16 0x33; OReplace 0x70000; OShared 0x44; OCreate true 0x20000 0x20000 0x44].
Example ops3_ok : Forall (op_ok (bm Down8 true)) ops3.
Proof. repeat (constructor; [cbn; repeat split; try lia; cbn in *; intuition (subst; lia || discriminate)|]). constructor. Qed.
Example C43_ex2 : at_end (bm Down8 true) ops3 (fun st =>
  (map (type_of (bm Down8 true) st) [0; 1; 2; 3; 4; 7], length (live st),
   match clear_loop 8 0 (bm Down8 true) st 0 with
 | Ret (st', c) => Some (map (type_of (bm Down8 true) st') [0; 1; 2; 3; 4;
    7], length (live st'), c) | _ => None end)) = Some ([Normal; Normal; Normal; Normal; Shared;
    Normal], 7%nat, Some ([Normal; Normal; Normal; Normal; Shared; Shared], 6%nat, 1)).
Proof. match goal with |- _ = ?r => vm_cast_no_check (eq_refl r) end. Qed.
Example C43_ex3 : at_end (bm Down8 true) ops3 (fun st =>
  (get_shared st 0x44 0, get_shared st 0x45 0,
   match create_shared (bm Down8 true) st 0x45 with Ret (_, s, b) => Some (s, b) | _ => None end,
   match replace_shared (bm Down8 true) st 0x20010 with
 | Ret (st', a) => Some (a, type_of (bm Down8 true) st' 2, byte (bm Down8 true) st' 0x20010 0) | _ => None end)) = Some (S_ok, 20971776, (S_ok, 0), Some (S_ok, Some 33554688), Some (25166082, Normal, 68)).
Proof. vm_compute. reflexivity. Qed.
(** Seven more values fit beside the default one, the eighth does not. *)
Example C43_ex4 : outs_of (bm Up2 true) (map OShared [1; 2; 3; 4; 5; 6; 7; 8; 0x11]) =
    Some [(S_ok, AAddr (Some 8388864)); (S_ok, AAddr (Some 12583168)); (S_ok, AAddr (Some 16777472));
    (S_ok, AAddr (Some 20971776)); (S_ok, AAddr (Some 25166080)); (S_ok, AAddr (Some 29360384));
    (S_ok, AAddr (Some 33554688)); (S_nomem, AAddr None); (S_ok, AAddr (Some 4194560))].
Proof. vm_compute. reflexivity. Qed.

(** Refuted for values of which there is no block:
    [umbra_get_shared_shadow_block] says success and sets nothing. *)
Theorem C43_get_shared_refuted : exists m st v, map_ok m /\ reachable m st /\
  (forall b, In (b, v) (specials st) -> False) /\
  forall before, get_shared st v before = (S_ok, before).
Proof.
  assert (R : at_end (bm Down4 false) [] (fun st => specials st) = Some []) by (vm_compute; reflexivity).
  apply at_end_reachable in R; [|constructor]. destruct R as (st & R & E).
  exists (bm Down4 false), st, 0x44. split; [apply bm_ok|]. split; [exact R|].
  split; [rewrite <- E; cbn; tauto|]. intros before. unfold get_shared. rewrite <- E. reflexivity.
Qed.
Print Assumptions C43_get_shared_refuted.

(** Refuted for faulty redzones of shared blocks: they can be read. *)
Theorem C43_faulty_redzone_refuted : exists m st r, map_ok m /\ reachable m st /\ faulty m = true /\
  In r (live st) /\ r_red r = ReadOnly.
Proof.
  set (m := UMap Down4 true 0 0 0 true bump).
  assert (R : at_end m [] (fun st => existsb (fun r => match r_red r with ReadOnly => true | _ => false end) (live st)) = Some true)
    by (vm_compute; reflexivity).
  apply at_end_reachable in R; [|constructor]. destruct R as (st & R & E). symmetry in E.
  apply existsb_exists in E. destruct E as (r & X & Y). exists m, st, r.
  split; [apply bump_map_ok; vm_compute; intuition congruence|]. split; [exact R|]. split; [reflexivity|].
  split; [exact X|]. destruct (r_red r); congruence.
Qed.
Print Assumptions C43_faulty_redzone_refuted.

(** * C44: what Umbra tells about shadow memory *)

(** [umbra_iterate_shadow_memory]: every block with shadow once, in order, as
    [umbra_get_shadow_memory] describes it, until the callback says stop. *)
Theorem C44_iterate : forall m st cb, map_ok m -> reachable m st ->
  exists l, iterate m st cb = until cb l 0 /\
    StronglySorted Z.lt (map i_app l) /\
    (forall x, In x (map i_app l) <-> exists i, 0 <= i < 65536 /\ type_of m st i <> NotAlloc /\ x = i * 65536) /\
    (forall e, In e l -> e = snd (get_shadow m st (i_app e))).
Proof. intros m st cb Hm. exact (iterate_lemma m Hm st cb). Qed.
Print Assumptions C44_iterate.

(** [umbra_get_shadow_memory_type]: the kind of block around [a], and whether
    [a] is in its redzone; for memory of the application the private blocks
    are not searched. *)
Theorem C44_type : forall m st is_app a, map_ok m -> reachable m st -> SLOTS (sc m) <= a ->
  match get_type m st is_app a with
  | (NotAlloc, red) => on_touch m = false /\ around m (dblock st) a /\ red = negb (in_body m (dblock st) a)
  | (Shared, red) => exists b v, In (b, v) (specials st) /\ around m b a /\ red = negb (in_body m b a)
  | (Normal, red) => is_app = false /\ exists i, 0 <= i < 65536 /\ type_of m st i = Normal /\
       around m (base m st i) a /\ red = negb (in_body m (base m st i) a)
  | (NotShadow, red) => red = false /\ is_app = false /\
       forall r, In r (live st) -> ~ (r_at r <= a < r_at r + alloc_size m)
  | (Unknown, red) => red = false /\ is_app = true /\
       forall r, In r (live st) -> r_body r = ReadOnly -> ~ (r_at r <= a < r_at r + alloc_size m)
  end.
Proof. intros m st is_app a Hm. exact (type_lemma m Hm st is_app a). Qed.
Print Assumptions C44_type.

(** Asked about the shadow of [x] it answers what [umbra_get_shadow_memory]
    says of [x]. *)
Theorem C44_agree : forall m st x, map_ok m -> reachable m st -> 0 <= x < 2 ^ 32 ->
  get_type m st false (app_to_shadow m st x) = (type_of m st (x / 65536), false).
Proof. intros m st x Hm. exact (agree_lemma m Hm st x). Qed.
Print Assumptions C44_agree.

Example C44_ex : at_end (bm Down4 false) ops1 (fun st =>
  (map (fun e => (i_app e, i_type e)) (iterate_loop 12 0 (bm Down4 false) st (fun _ => true) 0),
 map (fun e => (i_app e, i_type e)) (iterate_loop 12 0 (bm Down4 false) st (fun _ => false) 0))) =
    Some ([(65536, Normal); (131072, Normal)], [(65536, Normal)]).
Proof. vm_compute. reflexivity. Qed.
Example C44_ex2 : at_end (bm Down4 false) ops1 (fun st =>
  let b := base (bm Down4 false) st 1 in let d := base (bm Down4 false) st 9 in
 (map (walk_table 12 0 (bm Down4 false) st) [b; b - 1; b + 0x3fff; b + 0x4000; b + 0x4100],
  map (fun a => (is_in_default (bm Down4 false) st a, outside_body (bm Down4 false) d a)) [d; d - 256; b])) =
  Some ([(Normal, false); (Normal, true); (Normal, false); (Normal, true); (NotShadow, false)],
    [(true, false); (true, true); (false, true)]).
Proof. vm_compute. reflexivity. Qed.

(** Refuted for low addresses, when blocks are created on touch and have no
    redzones: they count as shadow memory not allocated. *)
Theorem C44_low_refuted : exists m st a, map_ok m /\ reachable m st /\ 0 <= a /\
  (forall r, In r (live st) -> ~ (r_at r <= a < r_at r + alloc_size m)) /\
  get_type m st false a = (NotAlloc, false).
Proof.
  set (m := UMap Down4 true 0 0 0 false bump).
  assert (R : at_end m [] (fun st => (forallb (fun r => 0x100 <? r_at r) (live st), get_type m st false 0x100)) = Some (true, (NotAlloc, false)))
    by (vm_compute; reflexivity).
  apply at_end_reachable in R; [|constructor]. destruct R as (st & R & E). injection E as E1 E2.
  exists m, st, 0x100. split; [apply bump_map_ok; vm_compute; intuition congruence|]. split; [exact R|]. split; [lia|].
  split; [|symmetry; exact E2]. symmetry in E1. rewrite forallb_forall in E1. intros r X. specialize (E1 r X).
  apply Z.ltb_lt in E1. lia.
Qed.
Print Assumptions C44_low_refuted.
