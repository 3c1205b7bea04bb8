(** The code generated for stack adjustments on 32-bit x86, instruction by
    instruction, and the machine that runs it: drmemory/stack_x86.c 397-500
    [insert_zeroing_loop] and 673-1239 [generate_shared_esp_fastpath_helper].

    Simplifications.  The arithmetic flags are saved and restored around this
    code by instructions that are not modelled (stack_x86.c 750-751, 1214-1215,
    1231-1232); flags are represented by the operands of the last cmp or test,
    and any other flag-writing instruction leaves them unusable, which the
    machine reports as [UB] if they are then read.  Statistics counters are
    left out.  Short and near jumps are the same. *)
From Verif Require Import Base Stack_Model.
Open Scope Z_scope.

Definition w32 (x : Z) : Z := x mod 2 ^ 32.
Definition s32 (x : Z) : Z := let y := w32 x in if y <? 2 ^ 31 then y else y - 2 ^ 32.

Inductive reg := EAX | EBX | ECX | EDX | ESP.
(** A register, an immediate, or one of the three spill slots from
    [esp_spill_slot_base] on (drmemory/stack.c 371-391). *)
Inductive slot := S0 | S1 | S2.
Inductive opnd := R (r : reg) | I (z : Z) | Slot (n : slot).

Inductive cond := JE | JNE | JB | JAE | JBE | JG | JL.

(** The instr_t labels of stack_x86.c 682-723. *)
Inductive label :=
| loop_shadow_lookup | shadow_lookup | pop_one_block | pop_unaligned | pop_aligned
| pop_aligned_loop | pop_aligned_done | pop_unaligned_loop | pop_unaligned_done
| pop_one_done | loop_next_shadow | loop_push | push_one_block | push_unaligned
| push_aligned | push_aligned_loop | push_aligned_done | push_unaligned_loop
| push_unaligned_done | push_one_done | loop_done | slowpath | restore
| loop_repeat | retaddr.

Inductive instr :=
| Mov (d s : opnd)
| Add (d s : opnd) | Sub (d s : opnd) | And (d s : opnd) | Xor (d s : opnd)
| Cmp (a b : opnd) | Test (a b : opnd)
| Test8 (r : reg) (n : Z)            (* test of the low byte *)
| Shl (r : reg) (n : Z) | Shr (r : reg) (n : Z) | Sar (r : reg) (n : Z)
| Neg (r : reg) | Inc (r : reg) | Dec (r : reg)
| Movzx16 (r : reg)                  (* movzx r, low half of r *)
| Xchg (a b : reg)
| Store8 (r : reg) (v : Z)           (* mov byte [r], v *)
| Store32 (r : reg) (v : Z)          (* mov dword [r], v *)
| AddTable (d i : reg)               (* add d, [shadow_table + 4 * i] *)
| Jcc (c : cond) (l : label)
| Jmp (l : label)
| Label (l : label)
| Nop
| CleanCall (n : slot) (act : action) (* the slow path with spill slot [n] *)
| JmpSlow                            (* jmp shared_esp_slowpath_shadow *)
| JmpInd (n : slot).                 (* jmp through spill slot [n] *)

Inductive fl := FCmp (a b : Z) | FTest (r : Z) | FNone.

(** What the routine is left with: back to the instrumented block, or into the
    shared slow path with ECX and EDX as on entry to it. *)
Inductive ending := Returned (target : Z) | ToSlow (val ret : Z).

Record mach := Mach {
  m_eax : Z; m_ebx : Z; m_ecx : Z; m_edx : Z; m_esp : Z;
  m_fl : fl;
  m_s0 : Z; m_s1 : Z; m_s2 : Z;
  m_mem : Z -> Z;
  m_call : option (Z * action)
}.

Definition m_reg (m : mach) (r : reg) : Z :=
  match r with
  | EAX => m_eax m | EBX => m_ebx m | ECX => m_ecx m | EDX => m_edx m | ESP => m_esp m
  end.
Definition m_slot (m : mach) (n : slot) : Z :=
  match n with S0 => m_s0 m | S1 => m_s1 m | S2 => m_s2 m end.

(** What does not change while the code runs: the shadow table, and which
    bytes may be written (special blocks are read-only, umbra/umbra_32.c
    193-197). *)
Record hw := { h_table : Z -> Z; h_writable : Z -> bool }.

Definition set_reg (m : mach) (r : reg) (v : Z) : mach :=
  let '(Mach a b c d e f s0 s1 s2 mm k) := m in
  match r with
  | EAX => Mach (w32 v) b c d e f s0 s1 s2 mm k
  | EBX => Mach a (w32 v) c d e f s0 s1 s2 mm k
  | ECX => Mach a b (w32 v) d e f s0 s1 s2 mm k
  | EDX => Mach a b c (w32 v) e f s0 s1 s2 mm k
  | ESP => Mach a b c d (w32 v) f s0 s1 s2 mm k
  end.
Definition set_fl (m : mach) (f : fl) : mach :=
  let '(Mach a b c d e _ s0 s1 s2 mm k) := m in Mach a b c d e f s0 s1 s2 mm k.
Definition set_slot (m : mach) (n : slot) (v : Z) : mach :=
  let '(Mach a b c d e f s0 s1 s2 mm k) := m in
  match n with
  | S0 => Mach a b c d e f v s1 s2 mm k
  | S1 => Mach a b c d e f s0 v s2 mm k
  | S2 => Mach a b c d e f s0 s1 v mm k
  end.
Definition set_mem (m : mach) (x v : Z) : mach :=
  let '(Mach a b c d e f s0 s1 s2 mm k) := m in
  Mach a b c d e f s0 s1 s2 (fun y => if y =? x then v else mm y) k.
Definition set_call (m : mach) (c : Z * action) : mach :=
  let '(Mach a b c0 d e f s0 s1 s2 mm k) := m in
  Mach a b c0 d e f s0 s1 s2 mm (Some c).

Definition get (m : mach) (o : opnd) : Z :=
  match o with R r => m_reg m r | I z => w32 z | Slot n => m_slot m n end.
Definition put (m : mach) (o : opnd) (v : Z) : mach :=
  match o with R r => set_reg m r v | Slot n => set_slot m n (w32 v) | I _ => m end.

Definition holds (c : cond) (f : fl) : option bool :=
  match f with
  | FCmp a b =>
      Some (match c with
            | JE => a =? b | JNE => negb (a =? b)
            | JB => a <? b | JAE => b <=? a | JBE => a <=? b
            | JG => s32 b <? s32 a | JL => s32 a <? s32 b
            end)
  | FTest r =>
      match c with
      | JE => Some (r =? 0) | JNE => Some (negb (r =? 0))
      | _ => None
      end
  | FNone => None
  end.

Definition is_label (l : label) (i : instr) : bool :=
  match i with
  | Label l' =>
      match l, l' with
      | loop_shadow_lookup, loop_shadow_lookup | shadow_lookup, shadow_lookup
      | pop_one_block, pop_one_block | pop_unaligned, pop_unaligned
      | pop_aligned, pop_aligned | pop_aligned_loop, pop_aligned_loop
      | pop_aligned_done, pop_aligned_done | pop_unaligned_loop, pop_unaligned_loop
      | pop_unaligned_done, pop_unaligned_done | pop_one_done, pop_one_done
      | loop_next_shadow, loop_next_shadow | loop_push, loop_push
      | push_one_block, push_one_block | push_unaligned, push_unaligned
      | push_aligned, push_aligned | push_aligned_loop, push_aligned_loop
      | push_aligned_done, push_aligned_done | push_unaligned_loop, push_unaligned_loop
      | push_unaligned_done, push_unaligned_done | push_one_done, push_one_done
      | loop_done, loop_done | slowpath, slowpath | restore, restore
      | loop_repeat, loop_repeat | retaddr, retaddr => true
      | _, _ => false
      end
  | _ => false
  end.

(** The code from a label on. *)
Fixpoint from (l : label) (p : list instr) : list instr :=
  match p with
  | nil => nil
  | i :: q => if is_label l i then q else from l q
  end.

(** The code after the next nop: where [handle_special_shadow_fault]
    (drmemory/fastpath.c 202-232) resumes after a write fault. *)
Fixpoint after_nop (p : list instr) : list instr :=
  match p with
  | nil => nil
  | Nop :: q => q
  | _ :: q => after_nop q
  end.

Definition writable (h : hw) (a n : Z) : bool :=
  forallb (fun i => h_writable h (w32 (a + i))) (map Z.of_nat (seq 0 (Z.to_nat n))).

(** [mode = true]: shadow code, a faulting store resumes at the next nop.
    [mode = false]: the zeroing loop, a faulting store resumes behind the jmp
    that follows it (drmemory/stack_x86.c 347-395). *)
Definition fault (mode : bool) (q : list instr) : list instr :=
  if mode then after_nop q else tl q.

(** One instruction; [prog] is the whole routine, [q] what follows. *)
Definition exec (mode : bool) (h : hw) (prog : list instr) (i : instr) (q : list instr)
           (m : mach) : res (list instr * mach + ending * mach) :=
  let next m := Ok (inl (q, m)) in
  let arith m := next (set_fl m FNone) in
  match i with
  | Mov d s => next (put m d (get m s))
  | Add d s => arith (put m d (get m d + get m s))
  | Sub d s => arith (put m d (get m d - get m s))
  | And d s => arith (put m d (Z.land (get m d) (get m s)))
  | Xor d s => arith (put m d (Z.lxor (get m d) (get m s)))
  | Cmp a b => next (set_fl m (FCmp (get m a) (get m b)))
  | Test a b => next (set_fl m (FTest (Z.land (get m a) (get m b))))
  | Test8 r n => next (set_fl m (FTest (Z.land (Z.land (m_reg m r) 255) n)))
  | Shl r n => arith (set_reg m r (Z.shiftl (m_reg m r) n))
  | Shr r n => arith (set_reg m r (Z.shiftr (m_reg m r) n))
  | Sar r n => arith (set_reg m r (Z.shiftr (s32 (m_reg m r)) n))
  | Neg r => arith (set_reg m r (- m_reg m r))
  | Inc r => arith (set_reg m r (m_reg m r + 1))
  | Dec r => arith (set_reg m r (m_reg m r - 1))
  | Movzx16 r => next (set_reg m r (Z.land (m_reg m r) 65535))
  | Xchg a b =>
      let x := m_reg m a in let y := m_reg m b in
      next (set_reg (set_reg m a y) b x)
  | Store8 r v =>
      let a := m_reg m r in
      if writable h a 1 then next (set_mem m a (v mod 256))
      else Ok (inl (fault mode q, m))
  | Store32 r v =>
      let a := m_reg m r in
      if writable h a 4 then
        next (fold_left (fun m i => set_mem m (w32 (a + i)) (w32 v / 2 ^ (8 * i) mod 256))
                        [0; 1; 2; 3] m)
      else Ok (inl (fault mode q, m))
  | AddTable d i => arith (set_reg m d (m_reg m d + h_table h (m_reg m i)))
  | Jcc c l =>
      match holds c (m_fl m) with
      | Some true => Ok (inl (from l prog, m))
      | Some false => next m
      | None => UB
      end
  | Jmp l => Ok (inl (from l prog, m))
  | Label _ | Nop => next m
  | CleanCall n act => arith (set_call m (m_slot m n, act))
  | JmpSlow => Ok (inr (ToSlow (m_reg m ECX) (m_reg m EDX), m))
  | JmpInd n => Ok (inr (Returned (m_slot m n), m))
  end.

Fixpoint run (fuel : nat) (mode : bool) (h : hw) (prog p : list instr) (m : mach)
  : res (ending * mach) :=
  match fuel with
  | O => Fuel
  | S n =>
      match p with
      | nil => UB
      | i :: q =>
          match exec mode h prog i q m with
          | Ok (inl (q, m)) => run n mode h prog q m
          | Ok (inr r) => Ok r
          | UB => UB
          | Fuel => Fuel
          end
      end
  end.

(** SHADOW_DWORD_* and SHADOW_DQWORD_*, drmemory/shadow.h 67-70 and 89-92;
    [map4] is MAP_4B_TO_1B. *)
Definition dword_of (map4 : bool) (v : Z) : Z := if map4 then v else v * 0x55.
Definition dqword_of (map4 : bool) (v : Z) : Z := dword_of map4 v * 0x01010101.

Definition is_abs (ty : etype) : bool :=
  match ty with ABSOLUTE | POSTPOP => true | _ => false end.
Definition is_abs_and (ty : etype) : bool :=
  match ty with ABSOLUTE | POSTPOP | AND_MASK => true | _ => false end.
Definition is_ret (ty : etype) : bool := match ty with RET_IMMED => true | _ => false end.
Definition is_neg (ty : etype) : bool := match ty with NEGATIVE => true | _ => false end.
Definition only (b : bool) (p : list instr) : list instr := if b then p else [].

(** [add_shadow_table_lookup] (drmemory/fastpath_x86.c 2061-2223) as called from
    stack_x86.c 821-823, with [shadow_table_insert_app_to_shadow_arch]
    (umbra/umbra_32.c 304-341) for a scale of one quarter. *)
Definition table_lookup : list instr :=
  [ Test8 EDX 3; Jcc JNE slowpath;
    Mov (R EBX) (R EDX); Shr EBX 16; Shr EDX 2; AddTable EDX EBX ].

(** get_shadow_block_size(): a quarter of 64K, umbra/umbra_32.c 62-63, 572-573. *)
Definition BLOCK := 16384.

Section FastPath.
Variables (map4 shared : bool) (act : action) (ty : etype) (thr : Z).

(** The shadow values of new and of released stack, stack_x86.c 698-704. *)
Definition new_dword := dword_of map4 (fresh act).
Definition new_dqword := dqword_of map4 (fresh act).
Definition old_dword := dword_of map4 MemRef_Model.UNADDRESSABLE.
Definition old_dqword := dqword_of map4 MemRef_Model.UNADDRESSABLE.

(** stack_x86.c 740-800: spill slots 0, 1, 2 hold the return address, the
    argument and EAX. *)
Definition prologue : list instr :=
  [ Mov (Slot S1) (R ECX); Mov (Slot S0) (R EDX); Mov (Slot S2) (R EAX); Mov (R EDX) (R ESP) ]
  ++ only (is_ret ty) [ Add (R EDX) (I 4) ]
  ++ only (is_abs_and ty)
       [ Sub (R ECX) (R EDX); Cmp (R ECX) (I thr); Jcc JG slowpath;
         Cmp (R ECX) (I (- thr)); Jcc JL slowpath ]
  ++ [ Test (R ECX) (I 3); Jcc JNE slowpath; Sar ECX 2 ].

(** stack_x86.c 801-857. *)
Definition lookup : list instr :=
  [ Label loop_shadow_lookup; Cmp (R ECX) (I 0); Jcc JG shadow_lookup;
    Jcc JE loop_done; Sub (R EDX) (I 4); Label shadow_lookup;
    Mov (R EAX) (R EDX) ]
  ++ table_lookup
  ++ [ Mov (R EBX) (R EAX); Movzx16 EBX; Shr EBX 2; Neg EBX; Add (R EBX) (R EDX);
       Cmp (R ECX) (I 0); Jcc JL loop_push ].

(** The increasing loop, stack_x86.c 858-984. *)
Definition pop_code : list instr :=
  [ Add (R EBX) (I BLOCK); Sub (R EBX) (R EDX); Cmp (R EBX) (R ECX);
    Jcc JAE pop_one_block; Sub (R ECX) (R EBX); Xchg ECX EBX; Jmp pop_unaligned;
    Label pop_one_block; Xor (R EBX) (R EBX);
    Label pop_unaligned; Test (R ECX) (R ECX); Jcc JE pop_one_done;
    Test (R EDX) (I 3); Jcc JE pop_aligned;
    Store8 EDX old_dword; Dec ECX; Inc EDX; Jmp pop_unaligned;
    Label pop_aligned; Mov (R EAX) (R ECX); Shr ECX 2;
    Label pop_aligned_loop; Test (R ECX) (R ECX); Jcc JE pop_aligned_done;
    Store32 EDX old_dqword; Dec ECX; Add (R EDX) (I 4); Jmp pop_aligned_loop;
    Label pop_aligned_done; Mov (R ECX) (R EAX); And (R ECX) (I 3);
    Label pop_unaligned_loop; Test (R ECX) (R ECX); Jcc JE pop_unaligned_done;
    Store8 EDX old_dword; Dec ECX; Inc EDX; Jmp pop_unaligned_loop;
    Label pop_unaligned_done; Label pop_one_done;
    Test (R EBX) (R EBX); Jcc JE loop_done; Mov (R ECX) (R EBX);
    Jmp loop_next_shadow ].

(** The block boundary, stack_x86.c 985-1031. *)
Definition boundary_code : list instr :=
  [ Label loop_next_shadow; Mov (R EDX) (R ESP) ]
  ++ only (is_ret ty) [ Add (R EDX) (I 4) ]
  ++ (if is_abs ty
      then [ Mov (R EBX) (Slot S1); Sub (R EBX) (R EDX); Add (R EDX) (R EBX) ]
      else [ Add (R EDX) (Slot S1) ])
  ++ [ Shl ECX 2; Sub (R EDX) (R ECX); Sar ECX 2; Jmp loop_shadow_lookup ].

(** The decreasing loop, stack_x86.c 1032-1168. *)
Definition push_code : list instr :=
  [ Label loop_push; Dec EBX; Sub (R EBX) (R EDX); Cmp (R EBX) (R ECX);
    Jcc JBE push_one_block; Sub (R ECX) (R EBX); Xchg ECX EBX; Jmp push_unaligned;
    Label push_one_block; Xor (R EBX) (R EBX);
    Label push_unaligned; Test (R ECX) (R ECX); Jcc JE push_one_done;
    Test (R EDX) (I 3); Jcc JE push_aligned;
    Store8 EDX new_dword; Inc ECX; Dec EDX; Jmp push_unaligned;
    Label push_aligned; Store8 EDX new_dword; Inc ECX; Sub (R EDX) (I 4);
    Neg ECX; Mov (R EAX) (R ECX); Sar ECX 2;
    Label push_aligned_loop; Test (R ECX) (R ECX); Jcc JE push_aligned_done;
    Store32 EDX new_dqword; Dec ECX; Sub (R EDX) (I 4); Jmp push_aligned_loop;
    Label push_aligned_done; Add (R EDX) (I 3); Mov (R ECX) (R EAX); And (R ECX) (I 3);
    Label push_unaligned_loop; Test (R ECX) (R ECX); Jcc JE push_unaligned_done;
    Store8 EDX new_dword; Dec ECX; Dec EDX; Jmp push_unaligned_loop;
    Label push_unaligned_done; Label push_one_done;
    Test (R EBX) (R EBX); Jcc JE loop_done; Mov (R ECX) (R EBX);
    Jmp loop_next_shadow ].

(** stack_x86.c 1169-1238.  The tail call goes to the routine for undefined
    new memory whatever [act] is (1217). *)
Definition epilogue : list instr :=
  [ Label loop_done; Jmp restore; Label slowpath; Nop ]
  ++ (if shared
      then [ Mov (R ECX) (Slot S1); Mov (R EDX) (Slot S0) ]
           ++ only (is_neg ty) [ Neg ECX ]
           ++ [ Mov (R EAX) (Slot S2); JmpSlow ]
      else [ CleanCall S1 act ])
  ++ [ Label restore; Mov (R EAX) (Slot S2); JmpInd S0 ].

Definition fastpath_code : list instr :=
  prologue ++ lookup ++ pop_code ++ boundary_code ++ push_code ++ epilogue.
End FastPath.

(** stack_x86.c 397-500 [insert_zeroing_loop]; [reg_mod] is EBX, [mi->reg1] is
    EDX.  The end of the inline code returns to the block. *)
Definition zeroing_code (ty : etype) (thr : Z) : list instr :=
  [ Mov (R EDX) (R ESP) ]
  ++ only (negb (is_abs_and ty)) [ Add (R EBX) (R EDX) ]
  ++ [ Cmp (R EBX) (R ESP); Jcc JAE retaddr ]
  ++ only (is_abs_and ty)
       [ Sub (R EDX) (R EBX); Cmp (R EDX) (I thr); Jcc JAE retaddr;
         Mov (R EDX) (R ESP) ]
  ++ [ Label loop_repeat; Sub (R EDX) (I 4); Cmp (R EDX) (R EBX); Jcc JB retaddr;
       Store32 EDX 0; Jmp loop_repeat; Label retaddr; JmpInd S0 ].

(** The machine on entry to the shared fast path: ECX and EDX hold the
    argument and the return address. *)
Definition entry (sp arg ret eax ebx s0 s1 s2 : Z) (mm : Z -> Z) : mach :=
  Mach eax ebx arg ret sp FNone s0 s1 s2 mm None.
