(** The fast path: the code that drmemory puts in front of an application
    instruction to check and propagate shadow state without leaving the code
    cache.  drmemory/fastpath_x86.c, for 32-bit x86 with the default options
    check_uninitialized, loads_use_table and stores_use_table.

    The model has two halves.  [gen] is the generator: it takes an application
    instruction and yields the list of instructions that instrument_fastpath
    (fastpath_x86.c:3017-4440) inserts.  [run] is the machine that executes
    such a list.

    Modelled instructions: those with at most one destination and operands of
    one, two or four bytes in general registers or memory.  Not modelled:
    pushes and pops, cmovcc, two destinations, mmx and xmm registers, load2x,
    8-byte and larger operands, sharing of translations between instructions
    (use_shared and share_addr are false), the heap-routine exemption
    (check_ignore_unaddr is false), and the spilling of scratch registers and
    of the application's flags.

    The three scratch registers are named by their roles mi->reg1, mi->reg2
    and mi->reg3.  pick_scratch_regs (drmemory/spill.c:655) makes them distinct
    members of eax, ebx, ecx, edx, and makes the third one ecx when need_offs
    or need_offs_early holds.  So %cl, which the generated shifts use, is the
    low byte of [R3] there; the generator fails ([None]) if it wants %cl and
    neither holds. *)
From Verif Require Import Base ShadowTables_Model.
Open Scope Z_scope.

(** ** The machine *)

(** A byte, lowest bit first. *)
Inductive byte := B (b0 b1 b2 b3 b4 b5 b6 b7 : bool).

Definition zero8 : byte := B false false false false false false false false.

Definition of_Z (z : Z) : byte :=
  B (Z.testbit z 0) (Z.testbit z 1) (Z.testbit z 2) (Z.testbit z 3)
    (Z.testbit z 4) (Z.testbit z 5) (Z.testbit z 6) (Z.testbit z 7).

Definition to_Z (x : byte) : Z :=
  match x with
  | B a b c d e f g h =>
      Z.b2z a + 2 * Z.b2z b + 4 * Z.b2z c + 8 * Z.b2z d
      + 16 * Z.b2z e + 32 * Z.b2z f + 64 * Z.b2z g + 128 * Z.b2z h
  end.

Definition map2 (k : bool -> bool -> bool) (x y : byte) : byte :=
  match x, y with
  | B a b c d e f g h, B a' b' c' d' e' f' g' h' =>
      B (k a a') (k b b') (k c c') (k d d') (k e e') (k f f') (k g g') (k h h')
  end.
(** With the second argument looked at first, since that is the constant one. *)
Definition and8 := map2 (fun a b => if b then a else false).
Definition or8 := map2 (fun a b => if b then true else a).

Definition shl1 (x : byte) : byte :=
  match x with B a b c d e f g h => B false a b c d e f g end.
Definition shr1 (x : byte) : byte :=
  match x with B a b c d e f g h => B b c d e f g h false end.
Definition sar1 (x : byte) : byte :=
  match x with B a b c d e f g h => B b c d e f g h h end.
Definition rol1 (x : byte) : byte :=
  match x with B a b c d e f g h => B h a b c d e f g end.
Definition ror1 (x : byte) : byte :=
  match x with B a b c d e f g h => B b c d e f g h a end.
Fixpoint times (n : nat) (k : byte -> byte) (x : byte) : byte :=
  match n with O => x | S m => times m k (k x) end.

Definition eqb8 (x y : byte) : bool :=
  match x, y with
  | B a b c d e f g h, B a' b' c' d' e' f' g' h' =>
      Bool.eqb a a' && Bool.eqb b b' && Bool.eqb c c' && Bool.eqb d d' &&
      Bool.eqb e e' && Bool.eqb f f' && Bool.eqb g g' && Bool.eqb h h'
  end.

(** A 32-bit scratch register: low byte, high byte, upper half. *)
Record r32 := { rl : byte; rh : byte; rt : Z }.

Definition to32 (r : r32) : Z := to_Z (rl r) + 256 * to_Z (rh r) + 65536 * rt r.
Definition of32 (z : Z) : r32 :=
  {| rl := of_Z z; rh := of_Z (z / 256); rt := z / 65536 mod 65536 |}.

Inductive scr := R1 | R2 | R3.

(** The application's general registers, as far as they are shadowed. *)
Inductive gpr := EAX | ECX | EDX | EBX | ESP | EBP | ESI | EDI.

(** Byte-sized operands of the inserted code: the low or high byte of a scratch
    register, the shadow byte whose address a scratch register holds, the
    thread's shadow slot of a register or of the flags, a constant. *)
Inductive o8 :=
  | L (r : scr) | H (r : scr) | M (r : scr) | Slot (g : gpr) | Flags | I (b : byte).

Inductive shop := Shl | Shr | Sar | Rol | Ror.
Inductive amount := N (n : nat) | CL.
Inductive cond := E | NE.
Inductive label := SkipWrite | PreserveMemoffs | Src2Defined.
(** The lookup tables of drmemory/shadow.c, see ShadowTables_Model. *)
Inductive table := DwordAddr | ByteDef | WordDef | ByteAddr | WordAddr | Sx1 | Sx2.
(** Which memory operand of the application instruction is meant: the primary
    one, or the source of movs. *)
Inductive which := Prim | Second.

Inductive ins :=
  | Lea (d : scr) (w : which)
  | TestImm (r : scr) (m : byte)
  | Movzx16 (d s : scr)
  | Mov32 (d s : scr)
  | Shr32 (r : scr) (n : Z)
  | Shl32 (r : scr) (n : Z)
  | And32 (r : scr) (lo hi : byte)       (* upper half of the constant is 0 *)
  | AddTable (d i : scr)                 (* add d, [shadow_table + 4*i] *)
  | Movzx8 (d : scr) (s : o8)
  | Mov8 (d s : o8)
  | And8 (d s : o8)
  | Or8 (d s : o8)
  | Dec8 (d : o8)
  | Shift8 (k : shop) (d : o8) (n : amount)
  | Cmp8 (a b : o8)
  | CmpTab (t : table) (disp : Z) (base : scr) (idx : option scr) (* cmp [..], 1 *)
  | LdTab (d : o8) (t : table) (base : scr)
  | CmpApp (v : Z)        (* compare the application's value of the first source *)
  | Xchg32 (a b : scr)
  | Jslow (c : cond)
  | Jcc (c : cond) (l : label)
  | Lab (l : label).

(** What does not change while the code runs: the translation table (the shadow
    block of each 64K region, as a displacement), the addresses of the memory
    operands, and the application's value of the first source. *)
Record world := { w_tab : Z -> Z; w_ea : which -> Z; w_app : Z }.

Record mach := {
  m_r1 : r32; m_r2 : r32; m_r3 : r32;
  m_zf : option bool;          (* None: not known, the last result was not a test *)
  m_slot : gpr -> byte; m_fl : byte; m_mem : Z -> byte }.

Definition gpr_eqb (a b : gpr) : bool :=
  match a, b with
  | EAX, EAX | ECX, ECX | EDX, EDX | EBX, EBX
  | ESP, ESP | EBP, EBP | ESI, ESI | EDI, EDI => true
  | _, _ => false
  end.

Definition get32 (m : mach) (r : scr) : r32 :=
  match r with R1 => m_r1 m | R2 => m_r2 m | R3 => m_r3 m end.

Definition set32 (m : mach) (r : scr) (v : r32) : mach :=
  match m with
  | {| m_r1 := a; m_r2 := b; m_r3 := c; m_zf := z; m_slot := s; m_fl := f; m_mem := mm |} =>
      {| m_r1 := match r with R1 => v | _ => a end;
         m_r2 := match r with R2 => v | _ => b end;
         m_r3 := match r with R3 => v | _ => c end;
         m_zf := z; m_slot := s; m_fl := f; m_mem := mm |}
  end.

Definition set_zf (m : mach) (z : option bool) : mach :=
  {| m_r1 := m_r1 m; m_r2 := m_r2 m; m_r3 := m_r3 m; m_zf := z;
     m_slot := m_slot m; m_fl := m_fl m; m_mem := m_mem m |}.

Definition upd {A} (eqb : A -> A -> bool) (k : A) (v : byte) (f : A -> byte) : A -> byte :=
  fun x => if eqb x k then v else f x.

Definition get8 (m : mach) (o : o8) : byte :=
  match o with
  | L r => rl (get32 m r)
  | H r => rh (get32 m r)
  | M r => m_mem m (to32 (get32 m r))
  | Slot g => m_slot m g
  | Flags => m_fl m
  | I b => b
  end.

Definition set8 (m : mach) (o : o8) (v : byte) : res mach :=
  match o with
  | L r => Ok (set32 m r {| rl := v; rh := rh (get32 m r); rt := rt (get32 m r) |})
  | H r => Ok (set32 m r {| rl := rl (get32 m r); rh := v; rt := rt (get32 m r) |})
  | M r => Ok {| m_r1 := m_r1 m; m_r2 := m_r2 m; m_r3 := m_r3 m; m_zf := m_zf m;
                 m_slot := m_slot m; m_fl := m_fl m;
                 m_mem := upd Z.eqb (to32 (get32 m r)) v (m_mem m) |}
  | Slot g => Ok {| m_r1 := m_r1 m; m_r2 := m_r2 m; m_r3 := m_r3 m; m_zf := m_zf m;
                    m_slot := upd gpr_eqb g v (m_slot m); m_fl := m_fl m; m_mem := m_mem m |}
  | Flags => Ok {| m_r1 := m_r1 m; m_r2 := m_r2 m; m_r3 := m_r3 m; m_zf := m_zf m;
                   m_slot := m_slot m; m_fl := v; m_mem := m_mem m |}
  | I _ => UB
  end.

Definition the_table (t : table) : list Z :=
  match t with
  | DwordAddr => tbl_dword_is_addr_not_bit
  | ByteDef => tbl_byte_defined
  | WordDef => tbl_word_defined
  | ByteAddr => tbl_byte_addr_not_bit
  | WordAddr => tbl_word_addr_not_bit
  | Sx1 => tbl_2_to_dword
  | Sx2 => tbl_4_to_dword
  end.

Definition shift_fun (k : shop) : byte -> byte :=
  match k with Shl => shl1 | Shr => shr1 | Sar => sar1 | Rol => rol1 | Ror => ror1 end.

(** The count in %cl is taken modulo 32, as the processor does. *)
Definition count (m : mach) (n : amount) : nat :=
  match n with
  | N k => k
  | CL => Z.to_nat (to_Z (and8 (rl (m_r3 m)) (of_Z 31)))
  end.

Inductive outcome := Go (m : mach) | Taken (l : label) (m : mach) | Slow | Bad.

Definition go8 (m : mach) (z : option bool) (d : o8) (v : byte) : outcome :=
  match set8 m d v with Ok m' => Go (set_zf m' z) | _ => Bad end.

Definition holds (c : cond) (z : bool) : bool := match c with E => z | NE => negb z end.

Definition exec (w : world) (i : ins) (m : mach) : outcome :=
  match i with
  | Lea d k => Go (set32 m d (of32 (w_ea w k)))
  | TestImm r b => Go (set_zf m (Some (eqb8 (and8 (rl (get32 m r)) b) zero8)))
  | Movzx16 d s => Go (set32 m d {| rl := rl (get32 m s); rh := rh (get32 m s); rt := 0 |})
  | Mov32 d s => Go (set32 m d (get32 m s))
  | Shr32 r n => Go (set_zf (set32 m r (of32 (to32 (get32 m r) / 2 ^ n))) None)
  | Shl32 r n => Go (set_zf (set32 m r (of32 (to32 (get32 m r) * 2 ^ n))) None)
  | And32 r lo hi =>
      Go (set_zf (set32 m r {| rl := and8 (rl (get32 m r)) lo;
                               rh := and8 (rh (get32 m r)) hi; rt := 0 |}) None)
  | AddTable d i =>
      Go (set_zf (set32 m d (of32 (to32 (get32 m d) + w_tab w (to32 (get32 m i))))) None)
  | Movzx8 d s => Go (set32 m d {| rl := get8 m s; rh := zero8; rt := 0 |})
  | Mov8 d s => go8 m (m_zf m) d (get8 m s)
  | And8 d s => go8 m None d (and8 (get8 m d) (get8 m s))
  | Or8 d s => go8 m None d (or8 (get8 m d) (get8 m s))
  | Dec8 d => go8 m None d (of_Z ((to_Z (get8 m d) - 1) mod 256))
  | Shift8 k d n => go8 m None d (times (count m n) (shift_fun k) (get8 m d))
  | Cmp8 a b => Go (set_zf m (Some (eqb8 (get8 m a) (get8 m b))))
  | CmpTab t disp base idx =>
      match lookup (the_table t)
              (disp + to32 (get32 m base)
               + match idx with Some r => to32 (get32 m r) | None => 0 end) with
      | Ok v => Go (set_zf m (Some (v =? 1)))
      | _ => Bad
      end
  | LdTab d t base =>
      match lookup (the_table t) (to32 (get32 m base)) with
      | Ok v => go8 m (m_zf m) d (of_Z v)
      | _ => Bad
      end
  | CmpApp v => Go (set_zf m (Some (w_app w =? v)))
  | Xchg32 a b => Go (set32 (set32 m a (get32 m b)) b (get32 m a))
  | Jslow c =>
      match m_zf m with
      | Some z => if holds c z then Slow else Go m
      | None => Bad
      end
  | Jcc c l =>
      match m_zf m with
      | Some z => if holds c z then Taken l m else Go m
      | None => Bad
      end
  | Lab _ => Go m
  end.

Definition label_eqb (a b : label) : bool :=
  match a, b with
  | SkipWrite, SkipWrite | PreserveMemoffs, PreserveMemoffs | Src2Defined, Src2Defined => true
  | _, _ => false
  end.

Inductive result := Done (m : mach) | ToSlow | Stuck.

(** All jumps go forward.  [skip] is the label being jumped to, if any. *)
Fixpoint run (w : world) (skip : option label) (p : list ins) (m : mach) : result :=
  match p with
  | nil => match skip with None => Done m | Some _ => Stuck end
  | i :: q =>
      match skip with
      | Some l =>
          match i with
          | Lab l' => run w (if label_eqb l l' then None else skip) q m
          | _ => run w skip q m
          end
      | None =>
          match exec w i m with
          | Go m' => run w None q m'
          | Taken l m' => run w (Some l) q m'
          | Slow => ToSlow
          | Bad => Stuck
          end
      end
  end.

(** ** Application instructions *)

Inductive size := S1 | S2 | S4.
Definition bytes (s : size) : Z := match s with S1 => 1 | S2 => 2 | S4 => 4 end.

(** Operands: a register or the part of it that the size and [hi] (the second
    byte, %ah and so on) select, the memory operand, the source operand of
    movs, a constant. *)
Inductive aop :=
  | AReg (g : gpr) (s : size) (hi : bool)
  | AMem (s : size)
  | AMem2 (s : size)
  | AImm (v : Z).

Definition size_eqb (a b : size) : bool :=
  match a, b with S1, S1 | S2, S2 | S4, S4 => true | _, _ => false end.

(** opnd_same *)
Definition aop_eqb (a b : aop) : bool :=
  match a, b with
  | AReg g s h, AReg g' s' h' => gpr_eqb g g' && size_eqb s s' && Bool.eqb h h'
  | AMem s, AMem s' => size_eqb s s'
  | AMem2 s, AMem2 s' => size_eqb s s'
  | AImm v, AImm v' => v =? v'
  | _, _ => false
  end.

(** Opcodes, as far as the generator tells them apart.  [Orot] stands for the
    other shifts of opc_is_gpr_shift, [Oxchg] for xchg and xadd, [Oother] for
    everything else. *)
Inductive opc :=
  | Oand | Otest | Oor | Oxor | Oshl | Oshr | Osar | Orot
  | Omovzx | Omovsx | Omovs | Osbb | Oxchg | Ocmpxchg | Oother.

(** [i_srcs] in DynamoRIO's order; [i_wfl] and [i_rfl]: the instruction writes,
    reads arithmetic flags; [i_chk]: the answer of instr_check_definedness
    (drmemory/slowpath_x86.c:380-417); [i_base]: the addressing registers of the
    memory operands. *)
Record inst := {
  i_opc : opc; i_dst : option aop; i_srcs : list aop;
  i_wfl : bool; i_rfl : bool; i_chk : bool; i_base : list gpr }.

(** ** The generator *)

Inductive offs := OImm (n : Z) | OReg (o : o8).
Definition o8_is_imm (o : o8) : bool := match o with I _ => true | _ => false end.

(** opnd_info_t *)
Record oi := { app : option aop; shadow : option o8; off : option offs }.
Definition no_oi : oi := {| app := None; shadow := None; off := None |}.

(** fastpath_info_t, the fields that matter here. *)
Record mi := {
  dst : oi; src0 : oi; src1 : oi; src2 : oi;
  load : bool; store : bool; mem2mem : bool;
  opsz : Z; src_opsz : Z; memsz : Z;
  memoffs : option offs;
  chkdef : bool; need_offs : bool; early : bool; num : Z }.

Definition is_mem (a : aop) : bool := match a with AMem _ | AMem2 _ => true | _ => false end.
Definition oreg (a : option aop) : bool := match a with Some (AReg _ _ _) => true | _ => false end.
Definition oaop_eqb (a b : option aop) : bool :=
  match a, b with Some x, Some y => aop_eqb x y | None, None => true | _, _ => false end.
Definition some {A} (o : option A) : bool := match o with Some _ => true | None => false end.
Definition asize (a : aop) : Z :=
  match a with AReg _ s _ => bytes s | AMem s => bytes s | AMem2 s => bytes s | AImm _ => 0 end.
Definition osize (a : option aop) : Z := match a with Some x => asize x | None => 0 end.

(** opnd_ok_for_fastpath for sources, fastpath_x86.c:333-383: constants are
    dropped, registers appended, memory prepended. *)
Fixpoint place (l : list aop) (acc : list aop) : list aop :=
  match l with
  | nil => acc
  | a :: q => place q (match a with
                       | AImm _ => acc
                       | AReg _ _ _ => acc ++ [a]
                       | _ => a :: acc
                       end)
  end.

Definition has_mem (l : list aop) : bool := existsb is_mem l.

(** The operands, and whether they load, store or copy memory:
    instr_ok_for_instrument_fastpath, fastpath_x86.c:386-755.  None if the
    instruction is left to the slow path. *)
Definition needs_shadow_op (o : opc) : bool :=
  match o with Oshl | Oshr | Osar => true | _ => false end.

Definition operands (i : inst) : option (option aop * list aop * bool * bool * bool) :=
  match i_opc i with
  | Oxchg | Ocmpxchg => Some (None, place (i_srcs i) [], has_mem (i_srcs i), false, false)
  | Omovs => Some (i_dst i, place (i_srcs i) [], false, true, true)
  | o =>
      let srcs := match o, i_srcs i with
                  | Osbb, [a; b] => if aop_eqb a b then [] else place (i_srcs i) []
                  | _, l => place l []
                  end in
      let st := match i_dst i with Some a => is_mem a | None => false end in
      if needs_shadow_op o && st &&
         match srcs with a :: _ => oaop_eqb (i_dst i) (Some a) | nil => false end &&
         (osize (i_dst i) <? 4)
      then None
      else Some (i_dst i, srcs, negb st && has_mem srcs, st, false)
  end.

Definition oi_of (l : list aop) (k : nat) : oi :=
  {| app := nth_error l k; shadow := None; off := None |}.

Definition allsrcs (o : opc) : bool :=   (* instr_needs_all_srcs_and_vals *)
  match o with Oand | Otest | Oor => true | _ => false end.

Definition gpr_shift (o : opc) : bool :=
  match o with Oshl | Oshr | Osar | Orot => true | _ => false end.

(** A shift by whole bytes. *)
Definition by_bytes (n : Z) : bool := n mod 8 =? 0.

(** adjust_opnds_for_fastpath, fastpath_x86.c:768-893, with
    set_check_definedness_pre_regs, 1026-1050, and the choice of
    need_offs_early, 3072-3087.  [reuse] is whether the memory operand uses one
    of the block's scratch registers (only asked with whole-block spills). *)
Definition adjust (whole reuse : bool) (i : inst) (d : option aop) (l : list aop)
    (ld st m2m : bool) : mi :=
  let o := i_opc i in
  let chk := i_chk i || match o with Oxchg | Ocmpxchg => true | _ => false end in
  let s0 := nth_error l 0 in
  let sz0 := osize d in
  let ssz0 := match s0 with
              | None => if i_rfl i then (if 0 <? sz0 then sz0 else 1) else 0
              | Some a => asize a
              end in
  let sz := if (sz0 =? 0) && i_wfl i then (if 0 <? ssz0 then ssz0 else 1) else sz0 in
  let msz := if ld then osize s0 else if st then osize d else 0 in
  let offs0 := if (ld || st) && (sz <? 4) then None else Some (OImm 0) in
  let mov := match o with Omovzx | Omovsx => true | _ => false end in
  let ext := mov && (sz =? 4) && ((ssz0 =? 1) || (ssz0 =? 2)) in
  let chk := chk || (mov && negb ext) in
  let ssz := if mov && negb ext then sz else ssz0 in
  let need := ext ||
    ((st || oreg d || (ld && i_wfl i && negb (i_chk i))) &&
     (msz <? 4) && negb (some offs0)) in
  let erl := (ld || st) && negb need && (msz <? 4) && negb (some offs0) && ld &&
             whole && reuse in
  let chk := chk || allsrcs o ||
    (gpr_shift o &&
     match i_srcs i with AImm n :: _ => negb (by_bytes n) | _ => true end) in
  {| dst := {| app := d; shadow := None; off := None |};
     src0 := oi_of l 0; src1 := oi_of l 1; src2 := oi_of l 2;
     load := ld; store := st; mem2mem := m2m;
     opsz := sz; src_opsz := ssz; memsz := msz; memoffs := offs0;
     chkdef := chk; need_offs := need; early := erl; num := 0 |}.

(** set_reg_shadow_opnds, fastpath_x86.c:910-932; reg_offs_in_dword,
    slowpath_x86.c:91-98. *)
Definition reg_offs (s : size) (hi : bool) : Z := match s with S1 => if hi then 1 else 0 | _ => 0 end.
Definition reg_oi (g : gpr) (s : size) (hi : bool) : oi :=
  {| app := Some (AReg g s hi); shadow := Some (Slot g); off := Some (OImm (reg_offs s hi)) |}.
Definition only (a : option aop) (s : option o8) : oi := {| app := a; shadow := s; off := None |}.

(** set_shadow_opnds, fastpath_x86.c:940-1018. *)
Definition shadow_dst (d : oi) : oi :=
  match app d with
  | Some (AReg g s hi) => reg_oi g s hi
  | Some (AMem s) => only (app d) (Some (M R1))
  | a => only a None
  end.
Definition shadow_src (st m2m : bool) (s : oi) : oi :=
  match app s with
  | Some (AReg g z hi) => reg_oi g z hi
  | Some (AImm _) | None => only (app s) None
  | a => only a (Some (if st && negb m2m then M R1 else L R2))
  end.
Definition one (s : oi) : Z := if some (app s) then 1 else 0.

Definition set_shadow (x : mi) : mi :=
  {| dst := shadow_dst (dst x);
     src0 := shadow_src (store x) (mem2mem x) (src0 x);
     src1 := shadow_src (store x) (mem2mem x) (src1 x);
     src2 := shadow_src (store x) (mem2mem x) (src2 x);
     load := load x; store := store x; mem2mem := mem2mem x;
     opsz := opsz x; src_opsz := src_opsz x; memsz := memsz x; memoffs := memoffs x;
     chkdef := chkdef x; need_offs := need_offs x; early := early x;
     num := one (src0 x) + one (src1 x) + one (src2 x) |}.

Definition offs_eqb (a b : option offs) : bool :=
  match a, b with
  | Some (OImm n), Some (OImm k) => n =? k
  | None, None => true
  | _, _ => false
  end.

(** fastpath_x86.c:322-328 *)
Definition is_alu (x : mi) : bool :=
  if store x then oaop_eqb (app (src0 x)) (app (dst x))
  else oaop_eqb (app (src1 x)) (app (dst x)).

(** Field updates. *)
Definition with_srcs (x : mi) (a b c : oi) (n : Z) : mi :=
  {| dst := dst x; src0 := a; src1 := b; src2 := c;
     load := load x; store := store x; mem2mem := mem2mem x;
     opsz := opsz x; src_opsz := src_opsz x; memsz := memsz x; memoffs := memoffs x;
     chkdef := chkdef x; need_offs := need_offs x; early := early x; num := n |}.
Definition with_chk (x : mi) (c : bool) : mi :=
  {| dst := dst x; src0 := src0 x; src1 := src1 x; src2 := src2 x;
     load := load x; store := store x; mem2mem := mem2mem x;
     opsz := opsz x; src_opsz := src_opsz x; memsz := memsz x; memoffs := memoffs x;
     chkdef := c; need_offs := need_offs x; early := early x; num := num x |}.
Definition with_dst (x : mi) (d : oi) : mi :=
  {| dst := d; src0 := src0 x; src1 := src1 x; src2 := src2 x;
     load := load x; store := store x; mem2mem := mem2mem x;
     opsz := opsz x; src_opsz := src_opsz x; memsz := memsz x; memoffs := memoffs x;
     chkdef := chkdef x; need_offs := need_offs x; early := early x; num := num x |}.
Definition with_memoffs (x : mi) (m : option offs) : mi :=
  {| dst := dst x; src0 := src0 x; src1 := src1 x; src2 := src2 x;
     load := load x; store := store x; mem2mem := mem2mem x;
     opsz := opsz x; src_opsz := src_opsz x; memsz := memsz x; memoffs := m;
     chkdef := chkdef x; need_offs := need_offs x; early := early x; num := num x |}.

(** set_check_definedness_post_regs, fastpath_x86.c:1104-1200.  The second
    component is check_eflags_defined. *)
Definition flags_oi (a : oi) : oi :=
  {| app := app a; shadow := Some Flags; off := Some (OImm 0) |}.
Definition post_regs (i : inst) (x : mi) : mi * bool :=
  let o := i_opc i in
  let mov := match o with Omovzx | Omovsx => true | _ => false end in
  let c1 := some (app (src0 x)) && (src_opsz x <? opsz x) && negb mov in
  let c2 := mem2mem x && negb ((memsz x =? 4) && negb (need_offs x) && negb (early x)) in
  let c3 := (opsz x <? 4) && (2 <=? num x) &&
    (if is_alu x
     then some (shadow (src2 x)) && negb (offs_eqb (off (src0 x)) (off (src2 x)))
     else some (shadow (src1 x)) && negb (offs_eqb (off (src1 x)) (off (src0 x)))) in
  let x := with_chk x (chkdef x || c1 || c2 || c3) in
  if negb (chkdef x) && i_rfl i && (4 <=? opsz x) then
    if negb (some (shadow (src0 x)))
    then (with_srcs x (flags_oi (src0 x)) (src1 x) (src2 x) (num x + 1), false)
    else if negb (some (shadow (src1 x)))
    then (with_srcs x (src0 x) (flags_oi (src1 x)) (src2 x) (num x + 1), false)
    else if negb (some (shadow (src2 x)))
    then (with_srcs x (src0 x) (src1 x) (flags_oi (src2 x)) (num x + 1), false)
    else (x, true)
  else (x, true).

(** result_is_always_defined, slowpath_x86.c:419-466, without the blocklist. *)
Definition always_defined (i : inst) : bool :=
  match i_opc i, i_srcs i with
  | Oand, AImm 0 :: _ => true
  | Otest, [_; AImm 0] => true
  | Oor, AImm (-1) :: _ => true
  | Oxor, [a; b] => aop_eqb a b
  | _, _ => false
  end.

(** fastpath_x86.c:3149-3163 *)
Definition mark_defined (i : inst) (x : mi) : bool :=
  always_defined i || (negb (some (app (src0 x))) && negb (i_rfl i)) ||
  (negb (load x) && (num x =? 0) && (store x || oreg (app (dst x)))).

(** add_addressing_register_checks, fastpath_x86.c:1850-1905: registers that an
    earlier instruction of the block already checked are left out by the caller. *)
Definition addressing (l : list gpr) : list ins :=
  flat_map (fun g => [Cmp8 (Slot g) (I zero8); Jslow NE]) l.

(** shadow_gen_translation_addr, drmemory/shadow.c:969-984 and Umbra 32-bit:
    the shadow address of the address in [a], using [b]. *)
Definition translate (a b : scr) : list ins :=
  [Mov32 b a; Shr32 b 16; Shr32 a 2; AddTable a b].

Definition low3 : byte := of_Z 3.

(** add_shadow_table_lookup, fastpath_x86.c:2062-2222, with value_in_reg2.
    Yields the code and the new memoffs. *)
Definition lookup_code (x : mi) (get_value zero : bool) : list ins * option offs :=
  let n := need_offs x || early x in
  let align := if 1 <? memsz x
               then [TestImm R1 (of_Z (if memsz x =? 4 then 3 else 1)); Jslow NE] else [] in
  let save := if n then [Movzx16 R3 R1] else [] in
  let val := if get_value then [Movzx8 R2 (M R1)] else [] in
  if n then
    let mo := if negb (need_offs x) && zero then R3 else if get_value then R1 else R2 in
    (align ++ save ++ translate R1 R2 ++ val ++
     [Mov8 (H mo) (L R3)] ++
     (if zero then [And32 mo zero8 low3] else [And8 (H mo) (I low3)]),
     Some (OReg (H mo)))
  else if zero then
    (align ++ translate R1 R2 ++ val ++ [Lea R1 Prim; And32 R1 low3 zero8; Shl32 R1 8],
     Some (OReg (H R1)))
  else (align ++ translate R1 R2 ++ val, memoffs x).

(** insert_check_defined, fastpath_x86.c:1438-1535, and the jump that follows
    each call.  [None] for an operand without a shadow. *)
Definition check_defined (whole zero : bool) (x : mi) (s : oi) : option (list ins) :=
  match shadow s with
  | None => None
  | Some sh =>
      let plain := [Cmp8 sh (I zero8)] in
      if whole && (src_opsz x <? 4) && zero then
        match sh with
        | L b | H b =>
            match memoffs x with
            | Some (OReg (H idx)) =>
                Some [CmpTab (if memsz x =? 1 then ByteDef else WordDef) 0 b (Some idx)]
            | None => Some plain
            | _ => None
            end
        | _ =>
            if mem2mem x then Some plain
            else
              let base := if store x then (if need_offs x then R3 else R2) else R1 in
              match app s with
              | Some (AReg _ z hi) =>
                  Some [Movzx8 base sh;
                        CmpTab (if src_opsz x =? 1 then ByteDef else WordDef)
                          (256 * reg_offs z hi) base None]
              | _ =>
                  match memoffs x with
                  | Some (OReg (H idx)) =>
                      Some [Movzx8 base sh;
                            CmpTab (if src_opsz x =? 1 then ByteDef else WordDef) 0 base (Some idx)]
                  | _ => None
                  end
              end
        end
      else Some plain
  end.

Definition obind {A B} (o : option A) (k : A -> option B) : option B :=
  match o with Some a => k a | None => None end.
Notation "'do' x <- o ; k" := (obind o (fun x => k))
  (at level 200, x name, o at level 100, k at level 200).
Notation "'do' ' p <- o ; k" := (obind o (fun x => match x with p => k end))
  (at level 200, p strict pattern, o at level 100, k at level 200).

(** The checks of the sources, fastpath_x86.c:3670-3805.  They are generated
    from the third to the first and inserted in front of each other.  [appval]
    is check_appval.  Yields the code, the shifted sources and checked_memsrc.
    A shift by %cl checks all its sources (pre_regs), as do the comparisons of
    cmpxchg, so always_check_definedness adds nothing for these instructions. *)
Definition check_sources (whole zero md : bool) (i : inst) (x : mi)
    : option (list ins * mi * bool) :=
  do '(c2, x) <-
    (if some (app (src2 x)) && negb md && chkdef x
     then do c <- check_defined whole zero x (src2 x);
          Some (c ++ [Jslow NE],
                with_srcs x (src0 x) (src1 x) (only (app (src2 x)) None) (num x - 1))
     else Some ([], x));
  let appval := allsrcs (i_opc i) && (src_opsz x =? 4) in
  do '(c1, x, checked2) <-
    (if some (app (src1 x)) && negb md && chkdef x
     then do c <- check_defined whole zero x (src1 x);
          let j := if appval && negb (oaop_eqb (app (src1 x)) (app (src0 x)))
                   then [Jcc E Src2Defined] ++
                        (if load x || store x then [Lea R3 Prim] else []) ++
                        [CmpApp (match i_opc i with Oor => -1 | _ => 0 end);
                         Jslow NE; Lab Src2Defined]
                   else [Jslow NE] in
          Some (c ++ j,
                with_srcs x (src0 x) (src2 x) (only (app (src1 x)) None) (num x - 1), true)
     else Some ([], x, false));
  do '(c0, x, memsrc) <-
    (if some (app (src0 x)) && some (shadow (src0 x)) && negb md && chkdef x
     then
       do '(c, ms) <-
         (if negb checked2 || negb (oaop_eqb (app (src2 x)) (app (src0 x)))
          then do c <- check_defined whole zero x (src0 x);
               Some (c ++ [Jslow NE], load x)
          else Some ([], false));
       Some (c, with_srcs x (src1 x) (src2 x) (only (app (src2 x)) None) (num x - 1), ms)
     else Some ([], x, false));
  Some (c0 ++ c1 ++ c2, x, memsrc).

(** The addressability checks, fastpath_x86.c:3838-4052.  Also yields the first
    source, which an alu store now finds in a register. *)
Definition check_addressable (x : mi) (memsrc : bool) : option (list ins * oi) :=
  let test r :=
    if (memsz x <? 4) && need_offs x
    then match memoffs x with
         | Some (OReg (H idx)) =>
             Some [CmpTab (if memsz x =? 1 then ByteAddr else WordAddr) 0 r (Some idx); Jslow NE]
         | _ => None
         end
    else Some [CmpTab DwordAddr 0 r None; Jslow NE] in
  if load x && negb memsrc then do c <- test R2; Some (c, src0 x)
  else if store x then
    let sc := if need_offs x then R3 else R2 in
    do c <- test sc;
    Some (Movzx8 sc (M R1) :: c,
          match shadow (src0 x) with
          | Some (M R1) => {| app := app (src0 x); shadow := Some (L sc); off := off (src0 x) |}
          | _ => src0 x
          end)
  else Some ([], src0 x).

(** insert_shadow_op, fastpath_x86.c:1552-1655.  The counts that are not
    multiples of eight are checked instead (pre_regs), so that part is dead. *)
Fixpoint sar_steps (n : nat) (r s : o8) : list ins :=
  match n with
  | O => []
  | S m => [Mov8 s r; Shift8 Sar r (N 2); Or8 r s] ++ sar_steps m r s
  end.
Definition shadow_op (i : inst) (r : o8) (s : option o8) : option (list ins) :=
  match i_opc i, i_srcs i with
  | Oshl, AImm n :: _ =>
      let n := Z.min n (8 * osize (i_dst i)) in
      Some [Shift8 Shl r (N (Z.to_nat (n / 8 * 2)))]
  | Oshr, AImm n :: _ =>
      let n := Z.min n (8 * osize (i_dst i)) in
      Some [Shift8 Shr r (N (Z.to_nat (n / 8 * 2)))]
  | Osar, AImm n :: _ =>
      let n := Z.min n (8 * osize (i_dst i)) in
      do s <- s; Some (sar_steps (Z.to_nat (n / 8)) r s)
  | _, _ => Some []
  end.

(** add_check_datastore, fastpath_x86.c:2235-2257 *)
Definition datastore (x : mi) (s d : o8) (l : label) : list ins :=
  if store x then [Cmp8 d s; Jcc E l] else [].

(** subdword_get_shift_value, fastpath_x86.c:2260-2277 *)
Definition shift_value (memoffs : o8) (ofnum : Z) : list ins :=
  [Mov8 (L R3) memoffs] ++
  (if ofnum =? 1 then [Dec8 (L R3); And8 (L R3) (I low3)] else []) ++
  [Shift8 Shl (L R3) (N 1)].

(** subdword_zero_rest_of_dword, fastpath_x86.c:2280-2291 *)
Definition keep_mask (sz ofnum : Z) : byte :=
  of_Z (if sz =? 1 then (if ofnum =? 1 then 12 else 3) else 15).
Definition rest_mask (sz ofnum : Z) : byte :=
  of_Z (if sz =? 1 then (if ofnum =? 1 then 243 else 252) else 240).

(** write_shadow_eflags, fastpath_x86.c:1687-1740 *)
Definition write_flags (i : inst) (v : o8) : list ins :=
  if i_wfl i then [Mov8 Flags v] else [].

Definition high_of (o : o8) : o8 := match o with L r => H r | _ => o end.
Definition scr_of (o : o8) : scr := match o with L r | H r | M r => r | _ => R1 end.

(** add_dst_shadow_write, fastpath_x86.c:2361-2935, for one destination: the
    arguments process_eflags and preserve are true and false, and
    alu_uncombined is [alu].  [sc] is the scratch register, always the low byte
    of one, or none. *)
Definition dst_write (i : inst) (x : mi) (d s : oi) (ssz dsz : Z) (sc : option o8)
    (alu : bool) : option (list ins) :=
  do sh <- shadow s;
  do pre <- (if o8_is_imm sh then Some [] else shadow_op i sh sc);
  let dsh := shadow d in
  let zero_imm := o8_is_imm sh in
  do body <-
    (if ssz =? 4 then
       Some (write_flags i sh ++
             match dsh with
             | Some dd => datastore x sh dd SkipWrite ++ [Mov8 dd sh]
             | None => []
             end ++ [Lab SkipWrite])
     else
       match zero_imm, off d with
       | true, Some (OImm ofd) =>
           Some (write_flags i sh ++
                 match dsh with
                 | Some dd => datastore x sh dd SkipWrite ++
                     [And8 dd (I (of_Z (255 - (2 ^ (dsz * 2) - 1) * 2 ^ (ofd * 2))))]
                 | None => []
                 end ++ [Lab SkipWrite])
       | _, _ =>
           (* dynamically-varying src.shadow or offset *)
           do sc <- sc;
           do '(head, shiftby, mo, opreg1, opreg2) <-
             match off d, off s with
             | None, Some (OImm ofs) | Some (OImm 0), Some (OImm ofs) =>
                 Some ([], if (ssz =? 2) || (ofs =? 0) then None else Some (N 2), None, sc, high_of sc)
             | Some (OImm _), Some (OImm ofs) =>
                 Some ([], if (ssz =? 2) || (ofs =? 1) then None else Some (N 6), None, sc, high_of sc)
             | _, _ =>
                 if negb (need_offs x || early x) then None   (* %cl is not ours *)
                 else
                   match memoffs x with
                   | Some (OReg mo) =>
                       match sc with
                       | L R3 => Some ([], Some CL, Some mo, mo, H R3)
                       | L r =>
                           match mo with
                           | H r' =>
                               if match r, r' with R1, R1 | R2, R2 => true | _, _ => false end
                               then Some ([Xchg32 R3 r], Some CL, Some (H R3), H R3, H r)
                               else None
                           | _ => None
                           end
                       | _ => None
                       end
                   | _ => None
                   end
             end;
           let dyn := match shiftby with Some CL => true | _ => false end in
           do mid <-
             (if zero_imm && negb alu then
                match mo with
                | Some m =>
                    do dd <- dsh;
                    Some (write_flags i sh ++ datastore x sh dd SkipWrite ++
                          shift_value m 0 ++
                          [Mov8 opreg1 (I (rest_mask dsz 0)); Shift8 Rol opreg1 CL;
                           And8 dd opreg1])
                | None => None
                end
              else if negb (ssz =? dsz) then
                (* movzx and movsx to four bytes *)
                do dd <- dsh;
                match off d with
                | Some (OImm ofd) =>
                    Some ((match mo with Some m => if dyn then shift_value m ofd else [] | None => [] end) ++
                          (match shiftby with Some a => [Shift8 Shr sh a] | None => [] end) ++
                          [And8 sh (I (keep_mask ssz ofd))] ++
                          (match i_opc i with
                           | Omovsx => [Movzx8 (scr_of sh) sh;
                                        LdTab sh (if ssz =? 1 then Sx1 else Sx2) (scr_of sh)]
                           | _ => []
                           end) ++
                          write_flags i sh ++ datastore x sh dd PreserveMemoffs ++
                          [Mov8 dd sh])
                | _ => None
                end
              else
                match off d, off s with
                | None, _ | Some (OImm _), _ =>
                    (* into a register, or only to the flags *)
                    let ofd := match off d with Some (OImm n) => n | _ => 0 end in
                    do alucode <-
                      (if alu then
                         do dd <- dsh;
                         Some ([Mov8 opreg2 dd; Or8 sh opreg2; Or8 dd sh;
                                And8 sh (I (keep_mask dsz ofd))])
                       else Some []);
                    let r := if alu then sh else opreg1 in
                    Some ((match mo with Some m => if dyn then shift_value m ofd else [] | None => [] end) ++
                          (match shiftby with Some a => [Shift8 Ror sh a] | None => [] end) ++
                          (if alu then [] else [Mov8 opreg1 sh]) ++
                          [And8 r (I (keep_mask dsz ofd))] ++
                          alucode ++
                          write_flags i r ++
                          (match dsh with Some dd => datastore x r dd PreserveMemoffs | None => [] end) ++
                          (match dsh with
                           | Some dd =>
                               if alu then []
                               else [Or8 dd r; Or8 sh (I (rest_mask dsz ofd)); And8 dd sh]
                           | None => []
                           end))
                | Some (OReg _), Some (OImm ofs) =>
                    (* from a register into memory *)
                    do dd <- dsh;
                    do m <- mo;
                    Some (shift_value m ofs ++
                          (if alu then [Mov8 opreg1 dd; Shift8 Shr opreg1 CL; Or8 opreg1 sh]
                           else [Mov8 opreg1 sh]) ++
                          [And8 opreg1 (I (keep_mask ssz ofs)); Shift8 Shl opreg1 CL] ++
                          write_flags i opreg1 ++ datastore x opreg1 dd PreserveMemoffs ++
                          (if alu then [Or8 dd opreg1]
                           else [Or8 dd opreg1; Or8 sh (I (rest_mask ssz ofs));
                                 Shift8 Rol sh CL; And8 dd sh]))
                | _, _ => None
                end);
           let back := match memoffs x, sc with
                       | Some (OImm _), _ => []
                       | _, L R3 => []
                       | _, L r => [Xchg32 R3 r]
                       | _, _ => []
                       end in
           Some (head ++ mid ++ [Lab PreserveMemoffs; Lab SkipWrite] ++ back)
       end);
  Some (pre ++ body).

(** add_dstX2_shadow_write, fastpath_x86.c:2940-2971, for one destination. *)
Definition dst_writes (i : inst) (x : mi) (s : oi) (ssz dsz : Z) (sc : option o8)
    (alu : bool) : option (list ins) :=
  if some (shadow (dst x)) || i_wfl i then dst_write i x (dst x) s ssz dsz sc alu
  else Some [].

(** load_reg_shadow_val, fastpath_x86.c:2302-2346 *)
Definition o8_same (a b : o8) : bool :=
  match a, b with
  | L R1, L R1 | L R2, L R2 | L R3, L R3 => true
  | _, _ => false
  end.
Definition load_val (t : o8) (s : oi) : option (list ins * oi) :=
  do sh <- shadow s;
  if o8_same sh t then Some ([], s)
  else Some ([Mov8 t sh], {| app := app s; shadow := Some t; off := off s |}).

(** "Combine sources and write result to the dests", fastpath_x86.c:4087-4245. *)
Definition uses (r : scr) (s : option o8) : bool :=
  match s with
  | Some (L r') | Some (H r') | Some (M r') =>
      match r, r' with R1, R1 | R2, R2 | R3, R3 => true | _, _ => false end
  | _ => false
  end.
Definition combine_write (i : inst) (x : mi) (has3 : bool) : option (list ins) :=
  let sc3 := if has3 then Some (L R3) else None in
  let sc := L (if uses R1 (shadow (dst x)) || uses R2 (shadow (src0 x)) then R2 else R1) in
  if num x =? 0 then
    let sz := if chkdef x && (opsz x <? 4) then 4 else opsz x in
    dst_writes i x {| app := app (src0 x); shadow := Some (I zero8); off := Some (OImm 0) |}
      sz sz (Some sc) false
  else if num x =? 1 then
    do '(c, s) <- load_val sc (src0 x);
    let x := if negb (needs_shadow_op (i_opc i)) && oaop_eqb (app s) (app (dst x))
             then with_dst x {| app := app (dst x); shadow := None; off := Some (OImm 0) |}
             else x in
    do k <- dst_writes i x s (src_opsz x) (opsz x) sc3 false;
    Some (c ++ k)
  else
    let alu := (opsz x <? 4) && is_alu x in
    if alu then
      let '(a, b) := if store x then (src1 x, src0 x) else (src0 x, src1 x) in
      do '(c, s) <- load_val sc a;
      let merge := match shadow (src2 x) with Some o => [Or8 sc o] | None => [] end in
      do k <- dst_writes i x s (src_opsz x) (opsz x) sc3 true;
      Some (c ++ merge ++ k)
    else
      do '(c, s) <- load_val sc (src0 x);
      do o1 <- shadow (src1 x);
      let merge := [Or8 sc o1] ++
                   match shadow (src2 x) with Some o => [Or8 sc o] | None => [] end in
      do k <- dst_writes i x s (src_opsz x) (opsz x) sc3 false;
      Some (c ++ merge ++ k).

(** Whether there is a third scratch register: need_nonoffs_reg3,
    fastpath_x86.c:3088-3107, and the call of pick_scratch_regs, 3116-3140.
    [x] before set_check_definedness_post_regs (1104), which adds to [chkdef]. *)
Definition third (i : inst) (x : mi) : bool :=
  let chk := chkdef x in
  let chk0 := i_chk i || match i_opc i with
                         | Oxchg | Ocmpxchg => true
                         | Omovzx | Omovsx => negb (need_offs x)
                         | _ => false
                         end in
  need_offs x || mem2mem x || early x ||
  ((opsz x <? 4) && (store x || oreg (app (dst x)) || (i_wfl i && negb chk0))) ||
  (negb chk && match i_opc i with Osar => true | _ => false end) ||
  (allsrcs (i_opc i) && (src_opsz x =? 4) && (load x || store x)).

(** The source of movs, fastpath_x86.c:3395-3470. *)
Definition second_mem (x : mi) : list ins * mi :=
  if mem2mem x then
    let code := (if 1 <? memsz x
                 then [TestImm R3 (of_Z (if memsz x =? 4 then 3 else 1)); Jslow NE] else []) ++
                translate R3 R2 ++ [Movzx8 R3 (M R3)] in
    if chkdef x
    then (code ++ [Cmp8 (L R3) (I zero8); Jslow NE],
          with_srcs x (only (app (src0 x)) None) (src1 x) (src2 x)
            (if 0 <? num x then num x - 1 else num x))
    else (code ++ [CmpTab DwordAddr 0 R3 None; Jslow NE],
          with_srcs x (only (app (src0 x)) (Some (L R3))) (src1 x) (src2 x) (num x))
  else ([], x).

Definition set_mem_offs (x : mi) : mi :=
  let put s := {| app := app s; shadow := shadow s; off := memoffs x |} in
  if load x then with_srcs x (put (src0 x)) (src1 x) (src2 x) (num x)
  else if store x then
    let x' := with_dst x (put (dst x)) in
    if oaop_eqb (app (dst x)) (app (src0 x))
    then with_srcs x' (put (src0 x)) (src1 x) (src2 x) (num x) else x'
  else x.

(** instrument_fastpath, fastpath_x86.c:3017-4440: the code before the checks of
    the addressing registers, whether there are such checks, the code after. *)
Definition parts (whole reuse : bool) (i : inst) : option (list ins * bool * list ins) :=
  do '(d, l, ld, st, m2m) <- operands i;
  let x := set_shadow (adjust whole reuse i d l ld st m2m) in
  let has3 := third i x in
  let '(x, check_fl) := post_regs i x in
  let md := mark_defined i x in
  let x := if md then with_srcs x (src0 x) (src1 x) (src2 x) 0 else x in
  let leas := (if ld || st then [Lea R1 Prim] else []) ++ (if m2m then [Lea R3 Second] else []) in
  let flcheck := if check_fl && i_rfl i then [Cmp8 Flags (I zero8); Jslow NE] else [] in
  let '(c_second, x) := second_mem x in
  let zero := (ld || st) && (memsz x <? 4) && ((negb md && chkdef x) || need_offs x) in
  let '(c_lookup, mo) := if ld || st then lookup_code x ld zero else ([], memoffs x) in
  let x := set_mem_offs (with_memoffs x mo) in
  do '(c_check, x, memsrc) <- check_sources whole zero md i x;
  do '(c_addr, s0) <- check_addressable x memsrc;
  let x := with_srcs x s0 (src1 x) (src2 x) (num x) in
  do c_write <- combine_write i x has3;
  Some (leas ++ flcheck, ld || st, c_second ++ c_lookup ++ c_check ++ c_addr ++ c_write).

Definition gen (whole reuse : bool) (i : inst) : option (list ins) :=
  do '(front, mem, back) <- parts whole reuse i;
  Some (front ++ (if mem then addressing (i_base i) else []) ++ back).
