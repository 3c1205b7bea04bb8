(** Model of Dr. Memory's handling of explicit changes of the stack pointer:
    the C routines of drmemory/stack.c and drmemory/stack_x86.c, for 32-bit and
    64-bit x86.  The code that stack_x86.c generates is modelled in
    StackAsm_Model.

    Simplifications.  Shadow memory is the byte-indexed function that the
    shadow area of this development proves the real tables to implement;
    [shadow_set_range] is the function that area proves it to be.  Logging,
    statistics, debug assertions, locks and the C type [int] of the threshold
    (assumed not to overflow) are dropped.  Partial writes of the stack pointer
    (a 16-bit [sp] operand) are not modelled. *)
From Verif Require Import Base MemRef_Model.
Open Scope Z_scope.

(** drmemory/stack_arch.h 31-42. *)
Inductive etype :=
| ABSOLUTE | POSTPOP | NEGATIVE | POSITIVE | RET_IMMED | AND_MASK | INVALID.

(** drmemory/stack.h 60-65. *)
Inductive action := ACT_SHADOW | ACT_DEFINED | ACT_ZERO.

(** Word size in bits, BEYOND_TOS_REDZONE_SIZE (drmemory/stack.h 50-54) and
    the size of a pointer. *)
Record arch := { a_bits : Z; a_rz : Z; a_ptr : Z }.
Definition x86_32 := {| a_bits := 32; a_rz := 0; a_ptr := 4 |}.
Definition x86_64_unix := {| a_bits := 64; a_rz := 128; a_ptr := 8 |}.
Definition x86_64_windows := {| a_bits := 64; a_rz := 0; a_ptr := 8 |}.

Definition wrap (a : arch) (x : Z) : Z := x mod 2 ^ a_bits a.
(** The same bits as a [ptr_int_t]. *)
Definition sgn (a : arch) (x : Z) : Z :=
  let y := wrap a x in if y <? 2 ^ (a_bits a - 1) then y else y - 2 ^ a_bits a.

(** The mutable part: options.stack_swap_threshold, the static counter
    num_non_swaps (stack.c 139), and the thresholds found in the generated
    code of the three kinds of adjustment that compare against one
    (stack_x86.c 771-789). *)
Record tune := {
  t_thr : Z;
  t_non_swaps : Z;
  t_fast_abs : Z;
  t_fast_leave : Z;
  t_fast_and : Z
}.

(** [e_bounds] is [get_stack_region_bounds] (stack.c 103-118); [k_fixed] is
    stack_swap_threshold_fixed (options.c 406-407). *)
Record known := { k_bounds : Z -> option (Z * Z); k_fixed : bool; k_fast : bool }.

(** drmemory/stack.c 63 and 70, PAGE_SIZE. *)
Definition MAX_NON_SWAPS := 16.
Definition MIN_THRESHOLD := 2048.

(** drmemory/slowpath.c 1387-1409 and drmemory/stack_x86.c 1241-1299: of the
    generated routines only those for [ESP_ADJUST_ABSOLUTE] are patched
    (1258). *)
Definition update_threshold (k : known) (t : tune) (v : Z) : tune :=
  if k_fixed k then t
  else {| t_thr := v; t_non_swaps := t_non_swaps t;
          t_fast_abs := if k_fast k then v else t_fast_abs t;
          t_fast_leave := t_fast_leave t; t_fast_and := t_fast_and t |}.

(** drmemory/stack.c 72-98. *)
Definition check_stack_size (k : known) (t : tune) (size : Z) : tune :=
  if size <? t_thr t
  then if MIN_THRESHOLD <? t_thr t then update_threshold k t MIN_THRESHOLD else t
  else t.

(** drmemory/stack.c 120-166: [true] for a swap of stacks. *)
Definition check_stack_swap (k : known) (t : tune) (cur new : Z) : bool * tune :=
  match k_bounds k cur with
  | Some (start, size) =>
      if (start <=? new) && (new <? start + size) then
        let n := t_non_swaps t in
        let bump v := {| t_thr := t_thr t; t_non_swaps := v;
                         t_fast_abs := t_fast_abs t;
                         t_fast_leave := t_fast_leave t;
                         t_fast_and := t_fast_and t |} in
        (false,
         if MAX_NON_SWAPS <? n then update_threshold k (bump 0) (t_thr t + PAGE)
         else bump (n + 1))
      else (true, t)
  | None => (true, t)
  end.

(** Application memory and its shadow. *)
Record world := { w_sh : Z -> Z; w_app : Z -> Z }.

(** SHADOW_DEFINED or SHADOW_UNDEFINED for new stack, stack.c 350-353 and
    363-365. *)
Definition fresh (act : action) : Z :=
  match act with ACT_DEFINED => DEFINED | _ => UNDEFINED end.

(** The update once the change [delta] is known: drmemory/stack.c 330-368. *)
Definition apply_delta (a : arch) (ty : etype) (act : action) (sp delta : Z) (w : world)
  : world :=
  if delta =? 0 then w
  else match act with
  | ACT_ZERO =>
      if delta <? 0
      then {| w_sh := w_sh w;
              w_app := set_range (w_app w) (wrap a (sp + delta))
                                 (wrap a (sp + delta) - delta) 0 |}
      else w
  | _ =>
      let s := wrap a (sp - a_rz a) in
      let t := wrap a (s + delta) in
      let sh := if 0 <? delta then set_range (w_sh w) s t UNADDRESSABLE
                else set_range (w_sh w) t s (fresh act) in
      let sh := if 0 <? a_rz a then
                  let p := wrap a (sp + delta) in
                  let p := match ty with POSTPOP => wrap a (p + a_ptr a) | _ => p end in
                  set_range sh (wrap a (p - a_rz a)) p (fresh act)
                else sh in
      {| w_sh := sh; w_app := w_app w |}
  end.

(** drmemory/stack.c 281-369.  [sp] is the application's stack pointer before
    the instruction.  The 4 of line 325 is not the word size. *)
Definition handle_esp_adjust (a : arch) (k : known) (ty : etype) (val : Z)
           (act : action) (sp : Z) (t : tune) (w : world) : world * tune :=
  let far d := (t_thr t <? d) || (d <? - t_thr t) in
  match ty with
  | ABSOLUTE | POSTPOP =>
      let d := sgn a (val - sp) in
      let '(swap, t1) := if far d then check_stack_swap k t sp val else (false, t) in
      if swap then (w, t1) else (apply_delta a ty act sp d w, t1)
  | AND_MASK =>
      let new := Z.land sp val in
      let d := sgn a (new - sp) in
      let '(swap, t1) := if far d then check_stack_swap k t sp new else (false, t) in
      if swap then (w, t1) else (apply_delta a ty act sp d w, t1)
  | _ =>
      let d := match ty with NEGATIVE => sgn a (- val) | _ => sgn a val end in
      let sp := match ty with RET_IMMED => wrap a (sp + 4) | _ => sp end in
      (apply_delta a ty act sp d w, t)
  end.

(** Instructions that write the stack pointer, with the operand values they
    have when executed.  [Other v new] stands for any opcode that
    [get_esp_adjust_type] does not list, with first source [v] and result
    [new]. *)
Inductive sinstr :=
| MovSp (v : Z)                 (* mov, lea, xchg into the stack pointer *)
| CmovSp (taken : bool) (v : Z)
| PopSp (v : Z)                 (* pop into the stack pointer; [v] is the slot *)
| Leave (bp : Z)
| Ret
| RetImm (n : Z)
| IncSp | DecSp
| AddSp (v : Z) | SubSp (v : Z) | AndSp (v : Z)
| Enter (n levels : Z)
| Push (sz : Z) | Pop (sz : Z)
| Other (v new : Z).

(** drmemory/stack_x86.c 53-99, not mangled. *)
Definition adjust_type (i : sinstr) : etype :=
  match i with
  | MovSp _ | CmovSp _ _ | PopSp _ => ABSOLUTE
  | Leave _ => POSTPOP
  | Ret | RetImm _ => RET_IMMED
  | IncSp | DecSp | AddSp _ => POSITIVE
  | SubSp _ | Enter _ _ => NEGATIVE
  | AndSp _ => AND_MASK
  | Push _ | Pop _ | Other _ _ => INVALID
  end.

(** drmemory/stack_x86.c 101-147 [needs_esp_adjust].  Whether an operand of
    add or sub is an immediate is not represented: [imm] says so. *)
Definition needs_adjust (a : arch) (imm : bool) (act : action) (i : sinstr) : bool :=
  match i with
  | Push _ | Pop _ | Ret => false
  | _ =>
      match act with
      | ACT_ZERO =>
          match i with
          | IncSp | RetImm _ | Leave _ => false
          | AddSp v => negb (imm && (0 <=? sgn a v))
          | SubSp v => negb (imm && (sgn a v <=? 0))
          | _ => true
          end
      | _ => true
      end
  end.

(** The operand handed to the handler by [instrument_esp_adjust_slowpath],
    stack_x86.c 197-249. *)
Definition slow_arg (a : arch) (i : sinstr) : Z :=
  match i with
  | MovSp v | CmovSp _ v | PopSp v => v
  | Leave bp => bp
  | RetImm n => n
  | IncSp => 1 | DecSp => wrap a (-1)
  | AddSp v | SubSp v | AndSp v => v
  | Enter n _ => n
  | Other v _ => v
  | Ret | Push _ | Pop _ => 0
  end.

(** The operand computed inline by [instrument_esp_adjust_fastpath], stack_x86.c
    527-551 and 631-656: negated for sub and enter, the new value for and. *)
Definition fast_arg (a : arch) (sp : Z) (i : sinstr) : Z :=
  match i with
  | SubSp v => wrap a (- v)
  | Enter n _ => wrap a (- n)
  | AndSp v => Z.land sp v
  | _ => slow_arg a i
  end.

(** The instrumentation of one instruction when only the slow path is used:
    [instrument_esp_adjust_slowpath] (stack_x86.c 178-345).  A conditional move
    that is not taken is skipped (149-175, 195). *)
Definition adjust_slow (a : arch) (k : known) (imm : bool) (act : action) (i : sinstr)
           (sp : Z) (t : tune) (w : world) : world * tune :=
  if negb (needs_adjust a imm act i) then (w, t)
  else match i with
       | CmovSp false _ => (w, t)
       | _ => handle_esp_adjust a k (adjust_type i) (slow_arg a i) act sp t w
       end.

(** The part of the stack an instruction reads or writes as a push or pop, as
    [adjust_memop] (drmemory/slowpath_x86.c 297-353) describes it: [true] for a
    write, address, size.  [pop] into the stack pointer is an ordinary read. *)
Definition memop (a : arch) (sp : Z) (i : sinstr) : option (bool * Z * Z) :=
  match i with
  | Push sz => Some (true, sp - sz, sz)
  | Pop sz => Some (false, sp, sz)
  | Ret | RetImm _ => Some (false, sp, a_ptr a)
  | Leave bp => Some (false, bp, a_ptr a)
  | Enter _ n => Some (true, sp - a_ptr a * (1 + n), a_ptr a * (1 + n))
  | _ => None
  end.

(** MEMREF_PUSHPOP accesses that carry no register shadow. *)
Definition stack_flags (write : bool) : flags :=
  {| f_write := write; f_pushpop := true; f_checkdef := false; f_values := false;
     f_byte := false; f_word := false; f_dword := false; f_movs := false;
     f_checkaddr := false; f_isread := false; f_abort := false |}.

(** One instruction: the memory operand is checked first, the adjustment comes
    last (drmemory/instru.c 1252-1310). *)
Definition instr_step (a : arch) (e : env) (k : known) (act : action) (i : sinstr)
           (sp : Z) (t : tune) (w : world) : res (world * tune) :=
  let* w1 :=
    match memop a sp i with
    | Some (write, addr, sz) =>
        let* o := handle_mem_ref e (stack_flags write) addr sz (w_sh w) in
        Ok {| w_sh := o_shadow o; w_app := w_app w |}
    | None => Ok w
    end in
  Ok (adjust_slow a k false act i sp t w1).
