(** Property theorems about changes of the stack pointer. *)
From Verif Require Import Base MemRef_Model Stack_Model Stack_Spec Stack_Proofs Stack_Proofs2.
Open Scope Z_scope.

(** ** What one instruction does *)

(** On a stack whose accessible part is what lies above the stack pointer, an
    instruction that moves the stack pointer changes every byte's state as the
    specification says, touches no application memory, and leaves the stack in
    such a state again. *)
Theorem C39_step a e k act i lim base sp t w : real_arch a -> act <> ACT_ZERO ->
  plain_env a e -> stack_known a k lim base ->
  stack_ok a lim base sp (w_sh w) -> handled a i ->
  lim + a_rz a <= new_sp a sp i <= base ->
  match i with Leave bp => sp <= bp | _ => True end ->
  exists w1 t1, instr_step a e k act i sp t w = Ok (w1, t1) /\ w_app w1 = w_app w /\
    (forall x, leave_exact a act i -> w_sh w1 x = after a act i sp (w_sh w) x) /\
    stack_ok a lim base (new_sp a sp i) (w_sh w1).
Proof. exact (step_exact a e k act i lim base sp t w). Qed.
Print Assumptions C39_step.

(** Any number of such instructions. *)
Theorem C39_run a e k act lim base : real_arch a -> act <> ACT_ZERO ->
  plain_env a e -> stack_known a k lim base ->
  forall l sp t w, stack_ok a lim base sp (w_sh w) -> stays a lim base l sp ->
  exists sp1 t1 w1, run_stack a e k act l sp t w = Ok (sp1, t1, w1) /\
    sp1 = fold_left (new_sp a) l sp /\ stack_ok a lim base sp1 (w_sh w1).
Proof. exact (run_ok a e k act lim base). Qed.
Print Assumptions C39_run.

(** Without any assumption on the shadow: an explicit adjustment that is small
    or stays inside a known stack does exactly what the movement calls for. *)
Theorem C39_moved a k imm act i sp t w : real_arch a -> act <> ACT_ZERO ->
  pure i = true -> handled a i ->
  a_rz a <= sp < 2 ^ a_bits a -> a_rz a <= new_sp a sp i < 2 ^ a_bits a ->
  near a sp (new_sp a sp i) ->
  (relative i = false -> far t (new_sp a sp i - sp) -> known_both k sp (new_sp a sp i)) ->
  forall x, w_sh (fst (adjust_slow a k imm act i sp t w)) x =
            moved a act sp (new_sp a sp i) (w_sh w) x.
Proof. exact (adjust_moved a k imm act i sp t w). Qed.
Print Assumptions C39_moved.

(** A far move that leaves the current stack changes nothing at all. *)
Theorem C39_swap a k imm act v sp t w : real_arch a ->
  word a sp -> word a v -> near a sp v -> far t (v - sp) ->
  (forall s z, k_bounds k sp = Some (s, z) -> ~ (s <= v < s + z)) ->
  adjust_slow a k imm act (MovSp v) sp t w = (w, t).
Proof. exact (adjust_swap a k imm act v sp t w). Qed.
Print Assumptions C39_swap.

(** The threshold that tells swaps: never changed when fixed by the user, never
    lowered by a move that was not a swap, lowered only to its minimum. *)
Theorem C39_threshold k t cur new size :
  let t1 := snd (check_stack_swap k t cur new) in
  let t2 := check_stack_size k t size in
  (k_fixed k = true -> t_thr t1 = t_thr t /\ t_thr t2 = t_thr t) /\
  t_thr t <= t_thr t1 /\
  (t_thr t2 = t_thr t \/ t_thr t2 = MIN_THRESHOLD) /\
  (size < t_thr t -> k_fixed k = false -> MIN_THRESHOLD < t_thr t ->
   t_thr t2 = MIN_THRESHOLD).
Proof. exact (threshold_ok k t cur new size). Qed.
Print Assumptions C39_threshold.

(** ** Concrete cases *)

Definition quiet (rz : Z) : env :=
  {| e_rz := rz; e_map4 := false; e_leave := false; e_check_push := false;
     e_unaddr := fun _ => (false, fun _ => None);
     e_undef := fun _ => (false, fun _ => None);
     e_on_stack := fun _ => false; e_bounds := fun _ => None;
     e_dst := fun _ => 0; e_movs := 0 |}.
Definition region : known :=
  {| k_bounds := fun x => if (0x10000 <=? x) && (x <? 0x90000) then Some (0x10000, 0x80000)
                          else None; k_fixed := false; k_fast := true |}.
Definition tune0 : tune :=
  {| t_thr := 0x9000; t_non_swaps := 0; t_fast_abs := 0x9000; t_fast_leave := 0x9000;
     t_fast_and := 0x9000 |}.
Definition stack_at (a : arch) (sp : Z) : world :=
  {| w_sh := fun x => if x <? sp - a_rz a then UNADDRESSABLE
                      else if x <? sp then UNDEFINED else DEFINED;
     w_app := fun x => x |}.
Definition look (l : list Z) (r : res (Z * tune * world)) : option (Z * list Z) :=
  match r with Ok (sp, _, w) => Some (sp, map (w_sh w) l) | _ => None end.

(** push ebp; mov ebp, esp; sub esp, 0x10000 (beyond the threshold would not
    matter); and esp, -16; push 4 bytes; lea esp within the stack; leave; ret 8. *)
Definition frame (p : Z) : list sinstr :=
  [Push p; MovSp (0x80000 - p); SubSp 0x10000; Push 2; AndSp 0xfffffff0; Push p;
   MovSp 0x7f000; Leave (0x80000 - p); Pop p].

Example C39_case_32 :
  real_arch x86_32 /\ plain_env x86_32 (quiet 0) /\
  stack_known x86_32 region 0x11000 0x81000 /\
  stack_ok x86_32 0x11000 0x81000 0x80000 (w_sh (stack_at x86_32 0x80000)) /\
  stays x86_32 0x11000 0x81000 (frame 4 ++ [RetImm 8; DecSp; IncSp; Enter 0 1; Ret]) 0x80000 /\
  (look [0x80000; 0x80004; 0x8000f; 0x80010]
     (run_stack x86_32 (quiet 0) region ACT_SHADOW (frame 4 ++ [RetImm 8]) 0x80000 tune0
        (stack_at x86_32 0x80000)) =
   Some (0x80010, [UNADDRESSABLE; UNADDRESSABLE; UNADDRESSABLE; DEFINED])) /\
  look [0x6ffdb; 0x6ffdc; 0x6ffe0; 0x6ffee; 0x6fffa; 0x6fffc; 0x7fffc]
     (run_stack x86_32 (quiet 0) region ACT_SHADOW (firstn 6 (frame 4)) 0x80000 tune0
        (stack_at x86_32 0x80000)) =
   Some (0x6ffec, [UNADDRESSABLE; UNADDRESSABLE; UNADDRESSABLE; DEFINED; DEFINED;
                   UNDEFINED; DEFINED]).
Proof.
  split; [left; reflexivity|]. split; [repeat split|]. split.
  { unfold stack_known, region. cbn [x86_32 a_rz a_bits k_bounds].
    split; [lia|]. split; [reflexivity|]. split; [reflexivity|].
    intros x Hx. exists 0x10000, 0x80000. split; [|lia].
    replace (_ && _)%bool with true by lia. reflexivity. }
  split.
  { split; [cbn; lia|]. intros x Hx. unfold stack_at; cbn [w_sh x86_32 a_rz].
    split; intro H.
    - destruct (Z.ltb_spec x (0x80000 - 0)); [assumption|].
      destruct (x <? 0x80000); discriminate H.
    - replace (x <? 0x80000 - 0) with true by lia. reflexivity. }
  split; [|vm_compute; split; reflexivity].
  vm_compute; repeat split; intros; try discriminate; try (left; reflexivity).
Qed.

Example C39_case_64 :
  real_arch x86_64_unix /\ plain_env x86_64_unix (quiet 128) /\
  stays x86_64_unix 0x11000 0x81000
    [Push 8; MovSp 0x7fff8; SubSp 0x20; Leave 0x7fff8; Ret] 0x80000 /\
  look [0x7ff57; 0x7ff58; 0x7ffd8; 0x7fff7; 0x7fff8]
     (run_stack x86_64_unix (quiet 128) region ACT_SHADOW
        [Push 8; MovSp 0x7fff8; SubSp 0x20] 0x80000 tune0 (stack_at x86_64_unix 0x80000)) =
   Some (0x7ffd8, [UNADDRESSABLE; UNDEFINED; UNDEFINED; UNDEFINED; DEFINED]) /\
  look [0x7ff7f; 0x7ff80; 0x7fff8; 0x80000]
     (run_stack x86_64_unix (quiet 128) region ACT_SHADOW
        [Push 8; MovSp 0x7fff8; SubSp 0x20; Leave 0x7fff8] 0x80000 tune0
        (stack_at x86_64_unix 0x80000)) =
   Some (0x80000, [UNADDRESSABLE; UNDEFINED; UNDEFINED; DEFINED]).
Proof.
  split; [right; left; reflexivity|]. split; [repeat split|].
  split; [|vm_compute; split; reflexivity].
  vm_compute; repeat split; intros; try discriminate; try (right; discriminate).
Qed.

Example C39_case_swap :
  adjust_slow x86_32 region true ACT_SHADOW (MovSp 0x200000) 0x80000 tune0
    (stack_at x86_32 0x80000) = (stack_at x86_32 0x80000, tune0).
Proof.
  apply C39_swap.
  - left; reflexivity.
  - split; [discriminate|reflexivity].
  - split; [discriminate|reflexivity].
  - unfold near. vm_compute. split; reflexivity || discriminate.
  - left. reflexivity.
  - intros s z H. vm_compute in H. injection H as <- <-. lia.
Qed.

(** ** Where the tool is wrong *)

(** [enter] with a frame: the adjustment is applied at the stack pointer from
    before the push, so the saved frame pointer becomes uninitialised and the
    last word of the new frame stays inaccessible. *)
Theorem C39_enter_refuted : exists l,
  look l (run_stack x86_32 (quiet 0) region ACT_SHADOW [Enter 8 0] 0x80000 tune0
            (stack_at x86_32 0x80000)) = Some (0x7fff4, [UNADDRESSABLE; UNDEFINED]) /\
  l = [0x7fff4; 0x7fffc].
Proof. eexists. split; [|reflexivity]. vm_compute. reflexivity. Qed.
Print Assumptions C39_enter_refuted.

(** [ret n] on 64-bit: the return address is taken to have four bytes, so the
    last four bytes released stay accessible. *)
Theorem C39_ret_imm_64_refuted : exists x,
  match run_stack x86_64_windows (quiet 0) region ACT_SHADOW [RetImm 8] 0x80000 tune0
          (stack_at x86_64_windows 0x80000) with
  | Ok (sp, _, w) => sp = 0x80010 /\ x < sp /\ w_sh w x <> UNADDRESSABLE
  | _ => False
  end.
Proof.
  exists 0x8000f. vm_compute. repeat split; discriminate.
Qed.
Print Assumptions C39_ret_imm_64_refuted.

(** Red zone: data that is in it before and after an adjustment becomes
    uninitialised. *)
Theorem C39_red_zone_refuted : exists x v sh,
  let sp := 0x80000 in let new := sp - 8 in
  new - 128 <= x < new /\ sp - 128 <= x < sp /\ sh x = DEFINED /\
  w_sh (fst (adjust_slow x86_64_unix region true ACT_SHADOW (SubSp v) sp tune0
               {| w_sh := sh; w_app := fun _ => 0 |})) x = UNDEFINED /\
  new_sp x86_64_unix sp (SubSp v) = new.
Proof.
  exists 0x7fff0, 8, (fun _ => DEFINED). vm_compute. repeat split; discriminate.
Qed.
Print Assumptions C39_red_zone_refuted.

(** A swap to a stack nearer than the threshold, even one known to be another:
    everything between the two stack pointers becomes inaccessible, live data
    of the old stack included. *)
Theorem C39_near_swap_refuted : exists k x sp v,
  (forall s z, k_bounds k sp = Some (s, z) -> ~ (s <= v < s + z)) /\
  sp <= x < v /\ w_sh (stack_at x86_32 sp) x = DEFINED /\
  (exists s z, k_bounds k sp = Some (s, z) /\ s <= x < s + z) /\
  w_sh (fst (adjust_slow x86_32 k true ACT_SHADOW (MovSp v) sp tune0
               (stack_at x86_32 sp))) x = UNADDRESSABLE.
Proof.
  exists region, 0x8f800, 0x8f000, 0x91000. split; [|split; [|split; [|split]]].
  - intros s z H. vm_compute in H. injection H as <- <-. lia.
  - lia.
  - vm_compute. reflexivity.
  - exists 0x10000, 0x80000. split; [reflexivity|lia].
  - vm_compute. reflexivity.
Qed.
Print Assumptions C39_near_swap_refuted.

(** An opcode that is not listed, such as [or], is taken for an addition of its
    first source operand. *)
Theorem C39_unlisted_refuted : exists x v sp,
  let new := Z.lor sp v in
  x < new /\ sp <= x /\
  w_sh (fst (adjust_slow x86_32 region true ACT_SHADOW (Other v new) sp tune0
               (stack_at x86_32 sp))) x <> UNADDRESSABLE \/
  new <= x /\
  w_sh (fst (adjust_slow x86_32 region true ACT_SHADOW (Other v new) sp tune0
               (stack_at x86_32 sp))) x = UNADDRESSABLE.
Proof.
  exists 0x80011, 0x10, 0x80010. right. vm_compute. split; [discriminate|reflexivity].
Qed.
Print Assumptions C39_unlisted_refuted.

(** A threshold lowered for a small stack reaches the generated code for
    absolute moves but not that for [leave] and [and]. *)
Theorem C39_patch_refuted : exists k t size,
  let t1 := check_stack_size k t size in
  t_thr t1 = MIN_THRESHOLD /\ t_fast_abs t1 = MIN_THRESHOLD /\
  t_fast_leave t1 <> t_thr t1 /\ t_fast_and t1 <> t_thr t1.
Proof.
  exists region, tune0, 0x4000. vm_compute. repeat split; discriminate.
Qed.
Print Assumptions C39_patch_refuted.
