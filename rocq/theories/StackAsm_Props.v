(** C40: the generated fast path for stack adjustments does what the slow path
    does.  C41: the generated loop that zeroes new stack. *)
From Verif Require Import Base MemRef_Model Stack_Model Stack_Spec StackAsm_Model
  StackAsm_Spec StackAsm_Proofs3 StackAsm_Proofs4.
Open Scope Z_scope.

(** ** C40 *)

(** Whatever the shadow tables, the kind of adjustment, the registers and the
    memory: the routine ends, with the stack pointer and EAX as they were.
    Either it returns, and the states of all application bytes are those the
    slow path would have set; or it goes on to the slow path with an argument
    from which the slow path does what it would have done from the start. *)
Theorem C40_fast_is_slow h base wr map4 act ty thr sp val ret eax ebx s0 s1 s2 mm app k t :
  act <> ACT_ZERO -> tables h base wr -> plain ty sp val thr t -> word32 ret -> word32 eax ->
  let code := fastpath_code map4 true act ty thr in
  let slow a v m := handle_esp_adjust x86_32 k ty v a sp t
                      {| w_sh := view map4 base m; w_app := app |} in
  exists n e m',
    (forall j, run (n + j) true h code code
       (entry sp (fast_val ty sp val) ret eax ebx s0 s1 s2 mm) = Ok (e, m')) /\
    m_esp m' = sp /\ m_eax m' = eax /\
    match e with
    | Returned r => r = ret /\ snd (slow act val mm) = t /\
        agree (view map4 base (m_mem m')) (w_sh (fst (slow act val mm)))
    | ToSlow v r => r = ret /\
        snd (slow ACT_SHADOW v (m_mem m')) = snd (slow act val mm) /\
        (act = ACT_SHADOW ->
         agree (w_sh (fst (slow ACT_SHADOW v (m_mem m')))) (w_sh (fst (slow act val mm))))
    end.
Proof. exact (fast_is_slow h base wr map4 act ty thr sp val ret eax ebx s0 s1 s2 mm app k t). Qed.
Print Assumptions C40_fast_is_slow.

(** ** Concrete cases: shadow blocks of 16K from 16M on for the 64K blocks
    8 to 32 of the application; all other 64K blocks share one read-only
    block. *)
Definition base0 (i : Z) : Z :=
  if (8 <=? i) && (i <=? 32) then 0x1000000 + i * BLOCK else 0x3000000.
Definition wr0 (i : Z) : bool := (8 <=? i) && (i <=? 32).
Definition hw0 : hw :=
  {| h_table := fun i => base0 i - i * BLOCK;
     h_writable := fun x => negb ((0x3000000 <=? x) && (x <? 0x3000000 + BLOCK)) |}.
Lemma tables0 : tables hw0 base0 wr0.
Proof.
  assert (R : forall i, 16 <= base0 i <= 2 ^ 32 - BLOCK - 16).
  { intros i. unfold base0, BLOCK. destruct ((8 <=? i) && (i <=? 32)) eqn:E; lia. }
  split.
  - intros i Hi. cbn [hw0 h_table]. replace (base0 i - i * BLOCK + i * BLOCK) with (base0 i) by lia.
    specialize (R i). unfold BLOCK in R. apply Z.mod_small. lia.
  - exact R.
  - intros i x Hx. cbn [hw0 h_writable]. unfold base0, wr0, BLOCK in *.
    destruct ((8 <=? i) && (i <=? 32)) eqn:E; lia.
  - intros i j N W. unfold base0, wr0, BLOCK in *. rewrite W.
    destruct ((8 <=? j) && (j <=? 32)) eqn:E; lia.
Qed.

(** What a run shows: how it ended and the states of some bytes. *)
Definition shows (map4 : bool) (xs : list Z) (r : res (ending * mach))
  : option (ending * list Z) :=
  match r with
  | Ok (e, m) => Some (e, map (view map4 base0 (m_mem m)) xs)
  | _ => None
  end.
Definition blank (map4 : bool) : Z -> Z := fun _ => dword_of map4 UNADDRESSABLE.
Definition all_defined : Z -> Z := fun _ => 0.
Definition fast_run (map4 shared : bool) (act : action) (ty : etype) (thr sp val : Z)
           (mm : Z -> Z) : res (ending * mach) :=
  let code := fastpath_code map4 shared act ty thr in
  run (Z.to_nat 200000) true hw0 code code
    (entry sp (fast_val ty sp val) 0x7777 5 6 0 0 0 mm).

Definition tune1 : tune :=
  {| t_thr := 0x9000; t_non_swaps := 0; t_fast_abs := 0x9000; t_fast_leave := 0x9000;
     t_fast_and := 0x9000 |}.

Example C40_plain_case : plain NEGATIVE 0x90010 0x30 0x9000 tune1 /\
  plain ABSOLUTE 0x98000 0x90000 0x9000 tune1 /\
  plain RET_IMMED 0x9fff8 0x10 0x9000 tune1 /\
  plain AND_MASK 0x9003c 0xfffffff0 0x9000 tune1.
Proof.
  split; [|split; [|split]]; split; vm_compute; try discriminate; repeat split;
    try discriminate; reflexivity.
Qed.
(** [sub esp, 0x30] across two shadow blocks. *)
Example C40_push_case :
  shows false [0x8ffdf; 0x8ffe0; 0x8ffff; 0x90000; 0x9000f; 0x90010]
    (fast_run false true ACT_SHADOW NEGATIVE 0x9000 0x90010 0x30 (blank false)) =
  Some (Returned 0x7777, [1; 3; 3; 3; 3; 1]).
Proof. vm_compute. reflexivity. Qed.
(** [ret 0x10] just below a block boundary, one byte of shadow for four. *)
Example C40_pop_case :
  shows true [0x9fff8; 0x9fffc; 0xa0000; 0xa0008; 0xa000b; 0xa000c]
    (fast_run true true ACT_SHADOW RET_IMMED 0x9000 0x9fff8 0x10 all_defined) =
  Some (Returned 0x7777, [0; 1; 1; 1; 1; 0]).
Proof. vm_compute. reflexivity. Qed.
(** A move of 32K, over most of a block and the block boundary. *)
Example C40_long_case :
  shows false [0x97fff; 0x98000; 0x9ffff; 0xa0000; 0xa0fff; 0xa1000]
    (fast_run false true ACT_SHADOW ABSOLUTE 0x9000 0xa1000 0x98000 (blank false)) =
  Some (Returned 0x7777, [1; 3; 3; 3; 3; 1]).
Proof. vm_compute. reflexivity. Qed.
(** Into a block that cannot be written: the part above it is done, and the slow
    path gets the original operand, not the negated one. *)
Example C40_fault_case :
  shows false [0x7fffc; 0x80000; 0x8000f]
    (fast_run false true ACT_SHADOW NEGATIVE 0x9000 0x80010 0x30 (blank false)) =
  Some (ToSlow 0x30 0x7777, [1; 3; 3]).
Proof. vm_compute. reflexivity. Qed.
Example C40_unaligned_case :
  shows false [0x90000]
    (fast_run false true ACT_SHADOW NEGATIVE 0x9000 0x90010 0x31 (blank false)) =
  Some (ToSlow 0x31 0x7777, [1]) /\
  shows false [0x90000]
    (fast_run false true ACT_SHADOW NEGATIVE 0x9000 0x90012 0x30 (blank false)) =
  Some (ToSlow 0x30 0x7777, [1]).
Proof. vm_compute. auto. Qed.
Example C40_far_case :
  shows false [0x90000]
    (fast_run false true ACT_SHADOW ABSOLUTE 0x9000 0x90000 0xa0000 (blank false)) =
  Some (ToSlow 0xa0000 0x7777, [1]).
Proof. vm_compute. reflexivity. Qed.

(** ** Where the code does not do this *)

(** New stack that is to be defined (no checks for uninitialised reads): when
    the fast path gives up, it goes on to the slow path for undefined stack. *)
Theorem C40_defined_refuted : exists ty sp val x k,
  plain ty sp val 0x9000 tune1 /\ word32 x /\
  match fast_run false true ACT_DEFINED ty 0x9000 sp val (blank false) with
  | Ok (ToSlow v r, m) =>
      w_sh (fst (handle_esp_adjust x86_32 k ty v ACT_SHADOW sp tune1
                   {| w_sh := view false base0 (m_mem m); w_app := fun _ => 0 |})) x <>
      w_sh (fst (handle_esp_adjust x86_32 k ty val ACT_DEFINED sp tune1
                   {| w_sh := view false base0 (blank false); w_app := fun _ => 0 |})) x
  | _ => False
  end.
Proof.
  exists NEGATIVE, 0x90010, 0x31, 0x90000,
    {| k_bounds := fun _ => None; k_fixed := true; k_fast := true |}.
  split; [|split].
  - split; vm_compute; try discriminate; repeat split; discriminate.
  - split; [discriminate|reflexivity].
  - vm_compute. discriminate.
Qed.
Print Assumptions C40_defined_refuted.

(** Without -shared_slowpath the negated operand of [sub] goes to a handler that
    negates it again: the stack is taken to grow the other way. *)
Theorem C40_not_shared_refuted : exists ty sp val x k,
  plain ty sp val 0x9000 tune1 /\ sp <= x /\
  match fast_run false false ACT_SHADOW ty 0x9000 sp val all_defined with
  | Ok (Returned r, m) =>
      match m_call m with
      | Some (v, a) =>
          w_sh (fst (handle_esp_adjust x86_32 k ty v a sp tune1
                       {| w_sh := view false base0 (m_mem m); w_app := fun _ => 0 |})) x =
          UNADDRESSABLE /\
          w_sh (fst (handle_esp_adjust x86_32 k ty val a sp tune1
                       {| w_sh := view false base0 all_defined; w_app := fun _ => 0 |})) x =
          DEFINED
      | None => False
      end
  | _ => False
  end.
Proof.
  exists NEGATIVE, 0x90010, 0x31, 0x90020,
    {| k_bounds := fun _ => None; k_fixed := true; k_fast := true |}.
  split; [|split].
  - split; vm_compute; try discriminate; repeat split; discriminate.
  - discriminate.
  - vm_compute. auto.
Qed.
Print Assumptions C40_not_shared_refuted.

(** [and] over more than one shadow block, possible with a threshold of 64K or
    more: at the boundary the code finds its place from sp plus the new value
    instead of from the new value. *)
Theorem C40_and_refuted : exists thr sp val x k,
  65536 <= thr /\ word32 x /\ Z.land sp val <= x < sp /\
  match fast_run false true ACT_SHADOW AND_MASK thr sp val (blank false) with
  | Ok (Returned r, m) =>
      view false base0 (m_mem m) x = UNADDRESSABLE
  | Ok (ToSlow v r, m) => False
  | _ => False
  end /\
  w_sh (fst (handle_esp_adjust x86_32 k AND_MASK val ACT_SHADOW sp
               {| t_thr := thr; t_non_swaps := 0; t_fast_abs := thr; t_fast_leave := thr;
                  t_fast_and := thr |}
               {| w_sh := view false base0 (blank false); w_app := fun _ => 0 |})) x =
  UNDEFINED.
Proof.
  exists 0x30000, 0x98000, 0xfff80000, 0x80000,
    {| k_bounds := fun _ => None; k_fixed := true; k_fast := true |}.
  vm_compute. repeat split; try discriminate.
Qed.
Print Assumptions C40_and_refuted.

(** ** C41 *)

(** The loop ends; the only bytes it changes lie below the old stack pointer and
    at or above the new one, and become zero.  All of them do, but for up to
    three at the bottom, or up to the first byte that cannot be written.
    Nothing is changed when the stack shrinks or when it may have been
    swapped. *)
Theorem C41_zeroing h ty thr sp val ret eax ecx edx s1 s2 mm :
  ty <> RET_IMMED -> ty <> INVALID -> word32 sp -> word32 val -> 0 <= thr < 2 ^ 31 ->
  let new := goal_sp ty sp val in
  4 <= new ->
  let code := zeroing_code ty thr in
  exists n m' lo,
    (forall j, run (n + j) false h code code
       (Mach eax (fast_val ty sp val) ecx edx sp FNone ret s1 s2 mm None) =
       Ok (Returned ret, m')) /\
    m_esp m' = sp /\ m_eax m' = eax /\ m_ecx m' = ecx /\
    (forall x, lo <= x < sp -> m_mem m' x = 0) /\
    (forall x, ~ lo <= x < sp -> m_mem m' x = mm x) /\
    (new < sp -> (leaps ty -> sp - new < thr) ->
       new <= lo <= sp /\ (sp - lo) mod 4 = 0 /\
       (lo < new + 4 \/ exists x, new <= x /\ lo - 4 <= x < lo /\ h_writable h x = false)) /\
    (sp <= new \/ leaps ty /\ thr <= sp - new -> lo = sp).
Proof. exact (zero_bytes h ty thr sp val ret eax ecx edx s1 s2 mm). Qed.
Print Assumptions C41_zeroing.

(** For a whole number of dwords of writable stack this is what the slow path
    does. *)
Theorem C41_zero_is_slow h ty thr sp val ret eax ecx edx s1 s2 mm sh k t :
  ty <> RET_IMMED -> ty <> INVALID -> word32 sp -> word32 val -> 0 <= thr < 2 ^ 31 ->
  t_thr t = thr ->
  let new := goal_sp ty sp val in
  4 <= new -> movement ty sp val = new - sp ->
  (leaps ty -> new < sp -> sp - new < thr) ->
  (sp - new) mod 4 = 0 \/ sp <= new ->
  (forall x, new <= x < sp -> h_writable h x = true) ->
  let code := zeroing_code ty thr in
  exists n m',
    (forall j, run (n + j) false h code code
       (Mach eax (fast_val ty sp val) ecx edx sp FNone ret s1 s2 mm None) =
       Ok (Returned ret, m')) /\
    forall x, m_mem m' x =
      w_app (fst (handle_esp_adjust x86_32 k ty val ACT_ZERO sp t
                    {| w_sh := sh; w_app := mm |})) x.
Proof. exact (zero_is_slow h ty thr sp val ret eax ecx edx s1 s2 mm sh k t). Qed.
Print Assumptions C41_zero_is_slow.

Definition zero_run (h : hw) (ty : etype) (thr sp val : Z) : res (ending * mach) :=
  let code := zeroing_code ty thr in
  run 1000 false h code code
    (Mach 5 (fast_val ty sp val) 6 7 sp FNone 0x7777 0 0 (fun _ => 9) None).
Definition app_shows (xs : list Z) (r : res (ending * mach)) : option (list Z) :=
  match r with Ok (Returned _, m) => Some (map (m_mem m) xs) | _ => None end.
Definition hw1 : hw := {| h_table := fun _ => 0; h_writable := fun x => 0x8000 <=? x |}.
Example C41_sub_case :
  app_shows [0x9fcf; 0x9fd0; 0x9fff; 0xa000] (zero_run hw1 NEGATIVE 0x9000 0xa000 0x30) =
  Some [9; 0; 0; 9].
Proof. vm_compute. reflexivity. Qed.
Example C41_fault_case :
  app_shows [0x7ffc; 0x7fff; 0x8000; 0x800f] (zero_run hw1 NEGATIVE 0x9000 0x8010 0x30) =
  Some [9; 9; 0; 0].
Proof. vm_compute. reflexivity. Qed.
Example C41_add_case :
  app_shows [0x9fff; 0xa000; 0xa02f] (zero_run hw1 POSITIVE 0x9000 0xa000 0x30) =
  Some [9; 9; 9].
Proof. vm_compute. reflexivity. Qed.
Example C41_swap_case :
  app_shows [0x9fff] (zero_run hw1 ABSOLUTE 0x100 0xa000 0x9f00) = Some [9] /\
  app_shows [0x9fff] (zero_run hw1 ABSOLUTE 0x101 0xa000 0x9f00) = Some [0].
Proof. vm_compute. auto. Qed.

(** A size that is not a multiple of four leaves stale bytes at the bottom that
    the slow path zeroes. *)
Theorem C41_odd_size_refuted : exists h ty sp val x k,
  let new := goal_sp ty sp val in
  new <= x < sp /\ (forall y, new <= y < sp -> h_writable h y = true) /\
  app_shows [x] (zero_run h ty 0x9000 sp val) = Some [9] /\
  w_app (fst (handle_esp_adjust x86_32 k ty val ACT_ZERO sp tune1
                {| w_sh := fun _ => 0; w_app := fun _ => 9 |})) x = 0.
Proof.
  exists hw1, NEGATIVE, 0xa000, 0x31, 0x9fcf,
    {| k_bounds := fun _ => None; k_fixed := true; k_fast := true |}.
  split; [vm_compute; split; [discriminate|reflexivity]|]. split.
  - intros y Hy. cbn [hw1 h_writable]. change (goal_sp NEGATIVE 0xa000 0x31) with 0x9fcf in Hy.
    lia.
  - split; vm_compute; reflexivity.
Qed.
Print Assumptions C41_odd_size_refuted.
