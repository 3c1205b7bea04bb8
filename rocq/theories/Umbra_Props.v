(** C21, C22: the shadow-memory framework. *)
From Verif Require Import Base Mem Umbra_Model Umbra_Spec Umbra_Proofs8 Umbra_Proofs9 Umbra_Proofs10.
From Coq Require Import Lia.
Open Scope Z_scope.

(* ------------------------------------------------------------------ C21 *)

(** Start-up, when it succeeds, leaves all ranges separated ... *)
Theorem C21_startup_separates : forall m ss ss',
  map_arch_init m ss = Some ss' -> separated ss'.
Proof. exact init_separated. Qed.

(** ... and covers every region of the process. *)
Theorem C21_startup_covers : forall vs regions m ss alt ss',
  Forall (region_ok vs) regions ->
  arch_init vs regions = Some (ss, alt) -> map_arch_init m ss = Some ss' ->
  forall r, In r regions -> covered ss' r.
Proof. exact init_covers. Qed.

(** The three translations agree with the documented affine one; shadow bytes
    are shadow and never application memory; two addresses that share a shadow
    byte are in the same granule; the inverse recovers the low 44 bits. *)
Theorem C21_translation : forall m st x,
  map_ok m -> started m st -> in_app (segs st) x ->
  xl8 m x = first_shadow m x /\ xl8_inline m x = first_shadow m x /\
  xl8_back m (xl8 m x) = x mod 2 ^ 44 - x mod den (sc m) /\
  (forall a, shadow_of m x a -> in_shadow (segs st) a /\ ~ in_app (segs st) a) /\
  (forall y a, in_app (segs st) y -> shadow_of m x a -> shadow_of m y a ->
     x / den (sc m) = y / den (sc m)).
Proof. exact translation. Qed.

Theorem C21_two_maps : forall m m' x y a,
  map_ok m -> map_ok m' -> sc m = sc m' -> pie_alt m = pie_alt m' -> idx m <> idx m' ->
  shadow_of m x a -> shadow_of m' y a -> False.
Proof. exact maps_apart. Qed.

(** A Linux process: low executable, PIE, libraries, stack, vsyscall page. *)
Definition linux_at (pie : Z) (vs : bool) : list (Z * Z) :=
  [(0x400000, 0x1000); (pie, 0x21000); (0x7ffff7dd0000, 0x20000); (0x7ffffffde000, 0x21000)] ++
  (if vs then [(0xffffffffff600000, 0x1000)] else []).
Definition linux : list (Z * Z) := linux_at 0x555555554000 true.
Definition mk (s : scale) (i : Z) (alt : bool) : umap := UMap s i true 0x55 alt (fun _ => true).
Definition start (s : scale) (i : Z) (vs : bool) (regions : list (Z * Z)) : option (umap * ustate) :=
  match arch_init vs regions with
  | Some (ss, alt) =>
    match map_arch_init (mk s i alt) ss with
    | Some ss' => Some (mk s i alt, USt ss' (fun _ => None))
    | None => None
    end
  | None => None
  end.
Definition started_at (s : scale) (i : Z) (vs : bool) (regions : list (Z * Z)) : ustate :=
  match start s i vs regions with Some (_, st) => st | None => USt [] (fun _ => None) end.

Lemma mk_ok : forall s i alt, i = 0 \/ i = 1 -> map_ok (mk s i alt).
Proof. intros s i alt H. constructor; [exact H|cbn; lia|reflexivity|reflexivity]. Qed.
Lemma start_started : forall s i vs rs m st, start s i vs rs = Some (m, st) -> regular (segs st) = true ->
  started m st.
Proof.
  intros s i vs rs m st E R. unfold start in E. destruct (arch_init vs rs) as [[ss alt]|]; [|discriminate].
  destruct (map_arch_init (mk s i alt) ss) as [ss'|] eqn:E2; [|discriminate]. injection E as <- <-.
  exists ss. auto.
Qed.

(** All scales and indices start on it, with and without the vsyscall page and
    with the other PIE segment, and satisfy the hypotheses. *)
Example C21_starts : forall s i vs pie, In i [0; 1] -> In pie [0x555555554000; 0x565555554000] ->
  exists m st, start s i vs (linux_at pie vs) = Some (m, st) /\
    map_ok m /\ sc m = s /\ idx m = i /\ started m st.
Proof.
  intros s i vs pie Hi Hp.
  assert (R : match start s i vs (linux_at pie vs) with
              | Some (m, st) => regular (segs st) = true /\ m = mk s i (pie =? 0x565555554000)
              | None => False end).
  { cbn [In] in Hi, Hp; destruct Hi as [<-|[<-|[]]]; destruct Hp as [<-|[<-|[]]]; destruct s, vs;
      vm_compute; auto. }
  destruct (start s i vs (linux_at pie vs)) as [[m st]|] eqn:E; [|destruct R].
  destruct R as [R ->]. exists (mk s i (pie =? 0x565555554000)), st. split; [reflexivity|].
  split; [apply mk_ok; cbn [In] in Hi; intuition|]. split; [reflexivity|]. split; [reflexivity|].
  eapply start_started; eauto.
Qed.
Example C21_regions : Forall (region_ok true) linux.
Proof. repeat constructor; cbn; try discriminate; try (left; lia); right; intuition lia. Qed.

(** The inverse translation loses the high bits. *)
Theorem C21_inverse_refuted : exists x,
  in_app (segs (started_at Down4 0 true linux)) x /\
  xl8_back (mk Down4 0 false) (xl8 (mk Down4 0 false) x) <> x.
Proof.
  exists 0x555555554000. split; [|vm_compute; discriminate].
  exists 4%nat. eexists. split; [vm_compute; reflexivity|]. split; [reflexivity|]. vm_compute. intuition discriminate.
Qed.

(** An address outside application memory is given the shadow of another. *)
Theorem C21_alias_refuted : exists x y,
  in_app (segs (started_at Down4 0 true linux)) y /\
  (forall g, In g (segs (started_at Down4 0 true linux)) -> ab g <= x < ae g -> False) /\
  xl8 (mk Down4 0 false) x = xl8 (mk Down4 0 false) y.
Proof.
  exists 0x155555554000, 0x555555554000. split; [|split; [|vm_compute; reflexivity]].
  - exists 4%nat. eexists. split; [vm_compute; reflexivity|]. split; [reflexivity|]. vm_compute. intuition discriminate.
  - intros g Hg. assert (H : forallb (fun g => negb ((ab g <=? 0x155555554000) && (0x155555554000 <? ae g)))
      (segs (started_at Down4 0 true linux)) = true) by (vm_compute; reflexivity).
    rewrite forallb_forall in H. specialize (H g Hg). intros [A B]. apply Z.leb_le in A. apply Z.ltb_lt in B.
    rewrite A, B in H. discriminate.
Qed.

(** A segment that starts at a non-zero multiple of 2^44 is accepted at start-up
    though the called and the inlined translation disagree on its first address. *)
Theorem C21_inline_refuted : exists rs x,
  Forall (region_ok true) rs /\ start Down4 0 true rs <> None /\
  in_app (segs (started_at Down4 0 true rs)) x /\
  xl8 (mk Down4 0 false) x <> xl8_inline (mk Down4 0 false) x.
Proof.
  exists ((0x100000000000, 0x1000) :: linux), 0x100000000000. split; [|split; [|split]].
  - constructor; [unfold region_ok; cbn [fst snd]; split; [lia|split; [lia|left; lia]]|exact C21_regions].
  - vm_compute. discriminate.
  - exists 3%nat. eexists. split; [vm_compute; reflexivity|]. split; [reflexivity|]. vm_compute. intuition discriminate.
  - vm_compute. discriminate.
Qed.

(* ------------------------------------------------------------------ C22 *)

(** Any history of calls on a started map succeeds, answers and changes shadow
    values as specified, gives shadow to exactly the blocks it touches, and the
    block query reports that. *)
Theorem C22_history : forall m st ops,
  map_ok m -> started m st -> Forall (op_ok m (segs st)) ops ->
  exists st' outs V B, do_ops m st ops = Ok (st', outs) /\
    history m (fun _ => dflt m) (fun _ => False) ops outs V B /\
    (forall a v, shows m st' a v <-> v = V a) /\
    (forall y a, in_app (segs st) y -> shadow_of m y a -> (live m st' a <-> B (y / app_bs m))) /\
    (forall y, in_app (segs st) y -> let b := y - y mod app_bs m in
       ~ at_edge (segs st') (first_shadow m b) ->
       exists t, get_shadow_memory m st' y =
                 Ok (first_shadow m y, Info b (app_bs m) (first_shadow m b) (sh_bs m) t) /\
         ((t = Normal /\ B (y / app_bs m)) \/ (t = NotAlloc /\ ~ B (y / app_bs m)))).
Proof. exact history_info. Qed.

Definition m4 : umap := mk Down4 0 false.
Definition st4 : ustate := started_at Down4 0 true linux.
Definition outs (m : umap) (st : ustate) (ops : list uop) : list uout :=
  match do_ops m st ops with Ok (_, o) => map snd o | _ => [] end.

(** A history across a block boundary (block size 2^18), with its answers. *)
Definition ops4 : list uop :=
  [OSet 0x43fff8 16 7; OWrite 0x43fffc 8 [1; 2]; OCopy 0x43fff8 0x555555554000 16;
   ORead 0x555555553ff8 24; OFind 0x43fff8 16 2; ODelete 0x43fff8 8; ORead 0x43fff8 16;
   OCreate 0x440000 0x40000 9; ORead 0x43fffc 8].
Example C22_history_answers : outs m4 st4 ops4 =
  [UDone; UDone; UDone; UBytes [0x55; 0x55; 7; 1; 2; 7]; UFound (Some 0x440000); UDone;
   UBytes [0x55; 0x55; 2; 7]; UDone; UBytes [0x55; 9]].
Proof. vm_compute. reflexivity. Qed.

Lemma in_app_check : forall ss x, existsb (fun g => used g && (ab g <=? x) && (x <? ae g)) ss = true ->
  in_app ss x.
Proof.
  intros ss x H. apply existsb_exists in H as (g & Hg & H). apply In_nth_error in Hg as (i & Hi).
  exists i, g. apply andb_prop in H as [H H3]. apply andb_prop in H as [H1 H2].
  apply Z.leb_le in H2. apply Z.ltb_lt in H3. auto.
Qed.
Lemma app_range_check : forall ss x n g, In g ss -> used g = true -> 0 <= x -> 0 < n -> ab g <= x ->
  x + n <= ae g -> app_range ss x n.
Proof.
  intros ss x n g Hg Hu Hx Hn H1 H2. split; [exact Hx|]. split; [exact Hn|]. intros y Hy.
  apply In_nth_error in Hg as (i & Hi). exists i, g. split; [exact Hi|]. split; [exact Hu|]. lia.
Qed.
Example C22_history_legal : map_ok m4 /\ started m4 st4 /\ Forall (op_ok m4 (segs st4)) ops4.
Proof.
  split; [apply mk_ok; auto|]. split.
  - apply (start_started Down4 0 true linux); vm_compute; reflexivity.
  - set (g3 := nth 3 (segs st4) empty_seg). set (g4 := nth 4 (segs st4) empty_seg).
    assert (I3 : In g3 (segs st4)) by (apply nth_In; vm_compute; lia).
    assert (I4 : In g4 (segs st4)) by (apply nth_In; vm_compute; lia).
    assert (R3 : forall x n, ((0 <=? x) && (0 <? n) && (x + n <=? 0x10000000000) && (x mod 4 =? 0) && (n mod 4 =? 0) &&
               negb ((x + n - 1) mod 2 ^ 18 =? 0))%bool = true -> range_ok m4 (segs st4) x n).
    { intros x n H. repeat (apply andb_prop in H as [H ?]). apply negb_true_iff, Z.eqb_neq in H0.
      split; [|split; [split; apply Z.eqb_eq; assumption|exact H0]].
      apply (app_range_check _ x n g3 I3); [reflexivity| | | |]; change (ab g3) with 0; change (ae g3) with 0x10000000000; clear - H H4 H3; lia. }
    assert (R4 : forall x n, ((0x550000000000 <=? x) && (0 <? n) && (x + n <=? 0x560000000000) && (x mod 4 =? 0) && (n mod 4 =? 0) &&
               negb ((x + n - 1) mod 2 ^ 18 =? 0))%bool = true -> range_ok m4 (segs st4) x n).
    { intros x n H. repeat (apply andb_prop in H as [H ?]). apply negb_true_iff, Z.eqb_neq in H0.
      split; [|split; [split; apply Z.eqb_eq; assumption|exact H0]].
      apply (app_range_check _ x n g4 I4); [reflexivity| | | |]; change (ab g4) with 0x550000000000; change (ae g4) with 0x560000000000; clear - H H4 H3; lia. }
    unfold ops4. repeat apply Forall_cons; try apply Forall_nil; cbn [op_ok].
    + split; [apply R3; reflexivity|lia].
    + split; [apply R3; reflexivity|]. split; [reflexivity|]. cbn. intuition lia.
    + split; [apply R3; reflexivity|]. split; [apply R4; reflexivity|]. cbn. lia.
    + apply R4. reflexivity.
    + split; [apply R3; reflexivity|lia].
    + apply R3. reflexivity.
    + apply R3. reflexivity.
    + split; [|split; [reflexivity|split; [reflexivity|lia]]].
      exists 3%nat, g3. split; [reflexivity|]. split; [reflexivity|]. change (ab g3) with 0; change (ae g3) with 0x10000000000. lia.
    + apply R3. reflexivity.
Qed.

(** Creating shadow for part of a block leaves the rest of the block zero (the
    documented default here is 0x55, and zero means "defined" to Dr. Memory). *)
Theorem C22_partial_create_refuted : exists x n,
  whole m4 x n /\ app_range (segs st4) x n /\
  outs m4 st4 [OCreate x n 7; ORead x (n + 4)] = [UDone; UBytes [7; 0]] /\ dflt m4 = 0x55.
Proof.
  exists 0x400000, 4. split; [split; reflexivity|]. split.
  - apply (app_range_check _ _ _ (nth 3 (segs st4) empty_seg)); [apply nth_In; vm_compute; lia|vm_compute; reflexivity|vm_compute; congruence..].
  - split; vm_compute; reflexivity.
Qed.

(** So does a fault on a missing shadow byte, except for its own eight bytes. *)
Definition faulted : ustate :=
  match handle_fault m4 st4 (first_shadow m4 0x400000) with Ok (st, _) => st | _ => st4 end.
Theorem C22_fault_refuted : exists x y st',
  in_app (segs st4) x /\ in_app (segs st4) y /\
  handle_fault m4 st4 (first_shadow m4 x) = Ok (st', true) /\
  shows m4 st4 (first_shadow m4 y) 0x55 /\ shows m4 st' (first_shadow m4 y) 0.
Proof.
  assert (O : map_ok m4 /\ started m4 st4) by (split; apply C22_history_legal).
  exists 0x400000, 0x400008, faulted. split; [apply in_app_check; vm_compute; reflexivity|].
  split; [apply in_app_check; vm_compute; reflexivity|]. split.
  - assert (E : match handle_fault m4 st4 (first_shadow m4 0x400000) with Ok (_, b) => b | _ => false end = true)
      by (vm_compute; reflexivity).
    unfold faulted. destruct (handle_fault m4 st4 (first_shadow m4 0x400000)) as [[st' b]| |]; congruence.
  - split.
    + right. split; [|reflexivity]. apply started_no; apply O.
    + left. split; [|vm_compute; reflexivity].
      exists 3%nat, (nth 3 (segs faulted) empty_seg). split; [vm_compute; reflexivity|]. split; [vm_compute; reflexivity|].
      split; [vm_compute; split; congruence|]. vm_compute. left. reflexivity.
Qed.

(** A range that ends on the first byte of a block loses that byte. *)
Theorem C22_last_byte_refuted : exists x n,
  app_range (segs (started_at Same1 0 true linux)) x n /\ whole (mk Same1 0 false) x n /\
  outs (mk Same1 0 false) (started_at Same1 0 true linux) [OSet x n 7; ORead x (n + 1)] =
    [UDone; UBytes [7; 0x55; 0x55]].
Proof.
  exists 0x40ffff, 2. split; [|split; [split; reflexivity|vm_compute; reflexivity]].
  apply (app_range_check _ _ _ (nth 3 (segs (started_at Same1 0 true linux)) empty_seg)); [apply nth_In; vm_compute; lia|vm_compute; reflexivity|vm_compute; congruence..].
Qed.

(** Copying forward over an overlap writes the saved tail past the destination
    instead of at its end. *)
Theorem C22_copy_overlap_refuted : exists s d n,
  range_ok m4 (segs st4) s n /\ range_ok m4 (segs st4) d n /\
  d + n = s + 16 /\
  outs m4 st4 [OWrite s 32 [1; 2; 3; 4; 5; 6; 7; 8]; OCopy s d n; ORead s 32] =
    [UDone; UDone; UBytes [1; 1; 3; 4; 2; 3; 7; 8]].
Proof.
  exists 0x400000, 0x400004, 12. split; [|split; [|split]].
  1, 2: split; [|split; [split; reflexivity|vm_compute; discriminate]];
    apply (app_range_check _ _ _ (nth 3 (segs st4) empty_seg)); [apply nth_In; vm_compute; lia|vm_compute; reflexivity|vm_compute; congruence..].
  all: vm_compute; reflexivity.
Qed.

(** A two-byte search never finds a value whose high byte is 0x80 or above. *)
Definition after (m : umap) (st : ustate) (ops : list uop) : ustate :=
  match do_ops m st ops with Ok (st', _) => st' | _ => st end.
Definition found2 (m : umap) (st : ustate) (x n v : Z) : option (option Z) :=
  match umbra_value_in m st x n v 2 with Ok (_, S_ok, r) => Some r | _ => None end.
Theorem C22_find2_refuted : exists l,
  outs m4 st4 [OWrite 0x400000 16 l; ORead 0x400000 16] = [UDone; UBytes l] /\ l = [1; 0xaa; 0xaa; 4] /\
  found2 m4 (after m4 st4 [OWrite 0x400000 16 l]) 0x400000 16 0xaaaa = Some None /\
  found2 m4 (after m4 st4 [OWrite 0x400000 16 l]) 0x400000 16 0x04aa = Some (Some 0x400008).
Proof. exists [1; 0xaa; 0xaa; 4]. vm_compute. auto. Qed.

(** On the standard layout the query calls the shadow of the first PIE block
    "not shadow memory": its address is the exclusive end of a reserved range. *)
Theorem C22_edge_refuted : exists y i,
  in_app (segs st4) y /\ get_shadow_memory m4 st4 y = Ok (first_shadow m4 y, i) /\ i_type i = NotShadow.
Proof.
  exists 0x550000000000. eexists. split; [apply in_app_check; vm_compute; reflexivity|].
  split; vm_compute; reflexivity.
Qed.

(** When the system refuses a block, creation and setting call each other for
    ever: no recursion depth suffices. *)
Definition mF : umap := UMap Down4 0 true 0x55 false (fun _ => false).
Theorem C22_no_memory_refuted : forall depth, set_range_d depth mF st4 0x400000 16 7 = Fuel.
Proof.
  assert (L : forall A B size (body : Z -> Z -> Z -> A -> res (A * option B)) a iter,
    (0x400000 <? w64 (0x400000 + w64 (size - 1))) = true ->
    (let e := w64 (0x400000 + w64 (size - 1)) in
     w64 ((if e <? 0x43ffff then e else 0x43ffff) - 0x400000 + 1)) = iter ->
    body 0x400000 0x400000 iter a = Fuel -> app_range_loop mF 0x400000 size body a = Fuel).
  { intros A B size body a iter H1 H2 H3. unfold app_range_loop.
    change (align_backward 0x400000 (app_bs mF)) with 0x400000. cbn [range_loop]. rewrite H1.
    change (w64 (0x400000 + (app_bs mF - 1))) with 0x43ffff. change (0x400000 <? 0x400000) with false.
    cbv beta iota zeta in H2 |- *. rewrite H2, H3. reflexivity. }
  assert (AL : alloc_block mF st4 (xl8 mF 0x400000) = Ok st4) by (vm_compute; reflexivity).
  assert (AD : add_app_segment (Some mF) 0x400000 (app_bs mF) (segs st4) = (segs st4, true)) by (vm_compute; reflexivity).
  assert (EX : block_exist mF st4 (xl8 mF 0x400000) = Ok false) by (vm_compute; reflexivity).
  assert (ST : with_segs st4 (segs st4) = st4) by (unfold with_segs; destruct st4; reflexivity).
  assert (C : forall sr, sr st4 0x400000 0x40000 0x55 = Fuel ->
              create_with sr mF st4 0x400000 (app_bs mF) 0x55 = Fuel).
  { intros sr H. unfold create_with. change (255 <=? 0x55) with false.
    change (add_ovf 0x400000 (w64 (app_bs mF - 1))) with false. cbv iota. rewrite AD, ST. cbn [negb].
    rewrite (L _ _ (app_bs mF) _ st4 0x40000); [reflexivity|reflexivity|reflexivity|].
    rewrite AL. cbn [bind]. rewrite H. reflexivity. }
  assert (T : forall d size v iter, (0x400000 <? w64 (0x400000 + w64 (size - 1))) = true ->
    (let e := w64 (0x400000 + w64 (size - 1)) in
     w64 ((if e <? 0x43ffff then e else 0x43ffff) - 0x400000 + 1)) = iter ->
    (255 <? v) = false -> add_ovf 0x400000 (w64 (size - 1)) = false ->
    set_range_d d mF st4 0x400000 0x40000 0x55 = Fuel ->
    set_range_d (S d) mF st4 0x400000 size v = Fuel).
  { intros d size v iter H1 H2 H3 H4 H. cbn [set_range_d]. rewrite H3, H4.
    rewrite (L _ _ size _ (st4, 0) iter H1 H2); [reflexivity|].
    unfold touch. rewrite EX. cbn [bind negb on_touch mF]. change (dflt mF) with 0x55. rewrite C; [reflexivity|].
    rewrite H. reflexivity. }
  assert (A : forall d, set_range_d d mF st4 0x400000 0x40000 0x55 = Fuel).
  { induction d as [|d IH]; [reflexivity|]. eapply T; try reflexivity. exact IH. }
  intros [|d]; [reflexivity|]. eapply T; try reflexivity. apply A.
Qed.

Print Assumptions C21_startup_separates.
Print Assumptions C21_startup_covers.
Print Assumptions C21_translation.
Print Assumptions C21_two_maps.
Print Assumptions C21_inverse_refuted.
Print Assumptions C21_alias_refuted.
Print Assumptions C21_inline_refuted.
Print Assumptions C22_history.
Print Assumptions C22_partial_create_refuted.
Print Assumptions C22_fault_refuted.
Print Assumptions C22_last_byte_refuted.
Print Assumptions C22_copy_overlap_refuted.
Print Assumptions C22_find2_refuted.
Print Assumptions C22_edge_refuted.
Print Assumptions C22_no_memory_refuted.
