(** What it means that an instruction does not launder uninitialised data:
    two executions that agree on every source byte the tool considers
    initialised (or has checked and reported) agree on every destination byte
    the tool marks as initialised.  The results of the instructions are given
    from the destination's side, as the processor's manuals do. *)
From Verif Require Import Base Def_Model.
Open Scope Z_scope.

(** Contents of an operand or register: byte [b]. *)
Definition value := Z -> Z.

(** Two contents of source [o] that the tool cannot tell apart. *)
Definition agree (leave : bool) (i : instr) (o : operand) (v w : value) : Prop :=
  forall b, 0 <= b < fed_size i o ->
    o_imm o = true \/ (o_check o = true /\ leave = false) \/ o_sh o b <> UNDEFINED ->
    v b = w b.

Definition agree_srcs (leave : bool) (i : instr) (vs ws : Z -> value) : Prop :=
  forall k o, nth_error (i_srcs i) k = Some o ->
    agree leave i o (vs (Z.of_nat k)) (ws (Z.of_nat k)).

Definition agree_old (i : instr) (vs ws : Z -> value) : Prop :=
  forall k d, nth_error (i_dsts i) k = Some d ->
    forall x, d_prior d x <> UNDEFINED -> vs (Z.of_nat k) x = ws (Z.of_nat k) x.

Definition agree_flags (leave : bool) (i : instr) (f fl fl' : Z) : Prop :=
  i_rflags i = false \/ (i_check i = true /\ leave = false) \/
  flag_state f 0 <> UNDEFINED -> fl = fl'.

(** Bytes of the operand written by the instruction. *)
Definition width (i : instr) (d : dest) : Z :=
  if subreg_nonlow (i_opc i) && negb (d_mem d) then d_regsize d else d_size d.

(** Which byte of the operand byte [x] of the register (or of memory) is: the
    one byte of an 8-bit operand may be the register's second. *)
Definition written (i : instr) (d : dest) (x : Z) : option Z :=
  let w := width i d in
  if d_mem d then if (0 <=? x) && (x <? w) then Some x else None
  else if w =? 1 then if x =? d_offs d then Some 0 else None
  else if (0 <=? x) && (x <? w) then Some x else None.

(** Contents of the destination after the instruction has produced [r]: bytes
    it does not write stay, except that writing a 32-bit register clears the
    rest of the 64-bit one. *)
Definition contents (x64 : bool) (i : instr) (d : dest) (r old : value) (x : Z) : Z :=
  match written i d x with
  | Some t => r t
  | None =>
      if x64 && (d_size d =? 4) && d_gpr d && (4 <=? x) && (x <? 8) then 0 else old x
  end.

(** The stack pointer of a push or pop is not part of this. *)
Definition counts (i : instr) (d : dest) : bool := d_mem d || negb (i_pushpop i && d_xsp d).

(** [res vs fl old k] is the value destination [k] gets. *)
Definition result := (Z -> value) -> Z -> (Z -> value) -> Z -> value.

Definition no_laundering (leave x64 : bool) (i : instr) (f : Z) (res : result) : Prop :=
  exists ds f', propagate leave x64 i f = Ok (ds, f') /\
    length ds = length (i_dsts i) /\
    forall vs ws old old' fl fl',
      agree_srcs leave i vs ws -> agree_old i old old' -> agree_flags leave i f fl fl' ->
      forall k d st x, nth_error (i_dsts i) k = Some d -> nth_error ds k = Some st ->
        counts i d = true -> (d_mem d = true -> 0 <= x < d_size d) ->
        st x <> UNDEFINED ->
        contents x64 i d (res vs fl old (Z.of_nat k)) (old (Z.of_nat k)) x =
        contents x64 i d (res ws fl' old' (Z.of_nat k)) (old' (Z.of_nat k)) x.

(** Destinations as the instruction set has them. *)
Definition wf_dest (i : instr) (d : dest) : Prop :=
  1 <= d_size d /\ 1 <= width i d <= 16 /\
  (d_mem d = false -> (width i d = 1 -> 0 <= d_offs d <= 1) /\
                      (width i d <> 1 -> d_offs d = 0)).

(** A source that is not a constant. *)
Definition real (o : operand) : Prop := o_imm o = false /\ o_check o = false.

Definition whole (o : operand) (n : Z) : Prop :=
  real o /\ o_size o = n /\ (o_mem o = false -> o_regsize o = n).

(** Nothing of the instruction is checked instead of propagated. *)
Definition simple (i : instr) : Prop :=
  i_always i = false /\ i_check i = false /\ i_rflags i = false /\ i_pushpop i = false.

(** A constant, such as the selector of a shuffle. *)
Definition constant (o : operand) : Prop := o_imm o = true.

(** One destination; one that names only a part of an mmx or xmm register. *)
Definition one_dest (i : instr) (d : dest) : Prop := i_dsts i = [d] /\ wf_dest i d.
Definition part_of_reg (d : dest) : Prop :=
  d_mem d = false /\ d_gpr d = false /\ d_offs d = 0 /\
  1 <= d_size d < d_regsize d /\ d_regsize d <= 16.

(** ** Results *)

(** Byte for byte: byte [j] is any function of the sources' bytes [j] and of
    the flags (moves, extensions with zeroes, logical operations, setcc); the
    stack pointer of a push or pop is not among them. *)
Definition byte_of_src (i : instr) (o : operand) (v : value) (j : Z) : option Z :=
  if negb (o_mem o) && i_pushpop i && o_xsp o then None
  else if j <? o_size o then Some (v j) else None.

Fixpoint srcs_at (i : instr) (l : list operand) (k : Z) (vs : Z -> value) (j : Z)
    : list (option Z) :=
  match l with
  | nil => nil
  | o :: l' => byte_of_src i o (vs k) j :: srcs_at i l' (k + 1) vs j
  end.

Definition bytewise (i : instr) (F : Z -> Z -> list (option Z) -> Z -> Z) : result :=
  fun vs fl _ k j => F k j (srcs_at i (i_srcs i) 0 vs j) (if i_rflags i then fl else 0).

Definition exchange : result := fun vs _ _ k => vs (1 - k).

(** cmpxchg8b: source 0 is the memory, 1 and 2 are eax and edx, 3 and 4 are ecx
    and ebx; destinations are the memory, eax and edx. *)
Definition equal8 (vs : Z -> value) : bool :=
  (vs 0 0 =? vs 1 0) && (vs 0 1 =? vs 1 1) && (vs 0 2 =? vs 1 2) && (vs 0 3 =? vs 1 3) &&
  (vs 0 4 =? vs 2 0) && (vs 0 5 =? vs 2 1) && (vs 0 6 =? vs 2 2) && (vs 0 7 =? vs 2 3).
Definition compare_exchange8 : result :=
  fun vs _ _ k j =>
    if k =? 0 then if equal8 vs then if j <? 4 then vs 4 j else vs 3 (j - 4) else vs 0 j
    else if k =? 1 then if equal8 vs then vs 1 j else vs 0 j
    else if equal8 vs then vs 2 j else vs 0 (4 + j).

Definition byte_swap (n : Z) : result := fun vs _ _ _ j => vs 0 (n - 1 - j).

(** Interleaving elements of [w] bytes from the low or high halves: even
    elements come from the destination (source 1), odd ones from source 0. *)
Definition interleave (high : bool) (n w : Z) : result :=
  fun vs _ _ _ j =>
    let e := j / w in
    vs (if Z.even e then 1 else 0)
       (e / 2 * w + j mod w + (if high then n / 2 else 0)).

(** Elements 0 and 1 are picked from the destination, 2 and 3 from the source;
    the constant is source 1 and the destination source 2. *)
Definition shuffle_ps (imm : Z) : result :=
  fun vs _ _ _ j =>
    let pick p := imm / p mod 4 * 4 + j mod 4 in
    if j <? 4 then vs 2 (pick 1)
    else if j <? 8 then vs 2 (pick 4)
    else if j <? 12 then vs 0 (pick 16)
    else vs 0 (pick 64).

Definition shuffle_pd (imm : Z) : result :=
  fun vs _ _ _ j =>
    if j <? 8 then vs 2 (imm mod 2 * 8 + j) else vs 0 (imm / 2 mod 2 * 8 + (j - 8)).

(** The number a source of [n] bytes stands for, unsigned and signed. *)
Fixpoint number (v : value) (n : nat) : Z :=
  match n with
  | O => 0
  | S n' => number v n' + v (Z.of_nat n') * 256 ^ Z.of_nat n'
  end.

Definition signed (v : value) (n : nat) : Z :=
  let x := number v n in
  if x <? 2 ^ (8 * Z.of_nat n - 1) then x else x - 2 ^ (8 * Z.of_nat n).

(** Shifts by bytes; [data] is the number of the shifted source. *)
Definition shift_bytes_right (data n c : Z) : result :=
  fun vs _ _ _ j => if j + c <? n then vs data (j + c) else 0.
Definition shift_bytes_left (data n c : Z) : result :=
  fun vs _ _ _ j => if 0 <=? j - c then vs data (j - c) else 0.

(** An element of [w] bytes, taken out and put at the bottom, or put in. *)
Definition extract (w imm : Z) : result :=
  fun vs _ _ _ j => if j <? w then vs 0 (imm * w + j) else 0.
Definition insert (w imm : Z) : result :=
  fun vs _ old k j =>
    if (imm * w <=? j) && (j <? imm * w + w) then vs 0 (j - imm * w) else old k j.
Definition insert3 (w imm : Z) : result :=
  fun vs _ _ _ j =>
    if (imm * w <=? j) && (j <? imm * w + w) then vs 1 (j - imm * w) else vs 0 j.

(** insertps: source element, destination element and zero mask. *)
Definition insert_ps (mem : bool) (imm : Z) : result :=
  fun vs _ old k j =>
    if Z.testbit (imm mod 16) (j / 4) then 0
    else if j / 4 =? imm / 16 mod 4
    then vs 0 ((if mem then 0 else imm / 64) * 4 + j mod 4)
    else old k j.

(** The halves of an xmm register: into the high half from [lo], or out of it. *)
Definition into_high (from : Z) : result :=
  fun vs _ old k j => if j <? 8 then old k j else vs 0 (j - 8 + from).
Definition from_high : result := fun vs _ _ _ j => vs 0 (j + 8).
Definition low_half : result := fun vs _ _ _ j => vs 0 j.

(** Bits.  Bit [p] of an element of [n] bytes; a byte from its bits. *)
Definition bit (v : value) (n p : Z) : bool :=
  (0 <=? p) && (p <? 8 * n) && Z.testbit (v (p / 8)) (p mod 8).

Definition byte_of (g : Z -> bool) : Z :=
  let b t := if g t then 2 ^ t else 0 in
  b 0 + b 1 + b 2 + b 3 + b 4 + b 5 + b 6 + b 7.

Definition shl (n c : Z) (v : value) (j : Z) : Z :=
  byte_of (fun t => bit v n (8 * j + t - c)).
Definition shr (n c : Z) (v : value) (j : Z) : Z :=
  byte_of (fun t => bit v n (8 * j + t + c)).
Definition sar (n c : Z) (v : value) (j : Z) : Z :=
  byte_of (fun t => bit v n (Z.min (8 * j + t + c) (8 * n - 1))).

Definition shift_op (o : opcode) (n c : Z) (v : value) : value :=
  match o with Op_shl => shl n c v | Op_shr => shr n c v | _ => sar n c v end.

(** The last bit shifted out. *)
Definition carry (o : opcode) (n c : Z) (v : value) : bool :=
  match o with
  | Op_shl => bit v n (8 * n - c)
  | Op_shr => bit v n (c - 1)
  | _ => bit v n (Z.min (c - 1) (8 * n - 1))
  end.

Definition shifted (o : opcode) (n c : Z) : result :=
  fun vs _ _ _ => shift_op o n c (vs 1).

(** Each element of [w] bytes on its own. *)
Definition packed (o : opcode) (data w c : Z) : result :=
  fun vs _ _ _ j =>
    shift_op o w c (fun b => vs data (j / w * w + b)) (j mod w).

(** Sign extension. *)
Definition sign_extend (n : Z) : result :=
  fun vs _ _ _ j =>
    if j <? n then vs 0 j
    else if Z.testbit (vs 0 (n - 1)) 7 then 255 else 0.

(** Rotation to the left by whole bytes. *)
Definition rotate_bytes (n c : Z) : result :=
  fun vs _ _ _ j => vs 1 ((j - c) mod n).

(** ** Families of instructions *)

(** Half taken and element size of an unpack. *)
Definition unpack (o : opcode) : option (bool * Z) :=
  match o with
  | Op_punpcklbw => Some (false, 1) | Op_punpcklwd => Some (false, 2)
  | Op_punpckldq => Some (false, 4) | Op_punpcklqdq => Some (false, 8)
  | Op_punpckhbw => Some (true, 1) | Op_punpckhwd => Some (true, 2)
  | Op_punpckhdq => Some (true, 4) | Op_punpckhqdq => Some (true, 8)
  | _ => None
  end.

(** Element sizes of extracts and of two- and three-operand inserts. *)
Definition extracted (o : opcode) : option Z :=
  match o with
  | Op_pextrb => Some 1 | Op_pextrw => Some 2 | Op_pextrd => Some 4 | _ => None
  end.

Definition inserted (o : opcode) : option Z :=
  match o with
  | Op_pinsrb => Some 1 | Op_pinsrw => Some 2 | Op_pinsrd => Some 4 | _ => None
  end.

Definition inserted3 (o : opcode) : option Z :=
  match o with
  | Op_vpinsrb => Some 1 | Op_vpinsrw => Some 2 | Op_vpinsrd => Some 4 | _ => None
  end.

Definition is_shift (o : opcode) : Prop := o = Op_shl \/ o = Op_shr \/ o = Op_sar.

(** Where the arithmetic shift is followed right. *)
Definition right_count (o : opcode) (n c : Z) : Prop :=
  o = Op_sar -> c mod 8 = 0 \/ 8 * (n - 1) <= c.

(** The operation and element size of a packed shift. *)
Definition packed_shift (o : opcode) : option (opcode * Z) :=
  match o with
  | Op_psrlw => Some (Op_shr, 2) | Op_psrld => Some (Op_shr, 4) | Op_psrlq => Some (Op_shr, 8)
  | Op_psraw => Some (Op_sar, 2) | Op_psrad => Some (Op_sar, 4)
  | Op_psllw => Some (Op_shl, 2) | Op_pslld => Some (Op_shl, 4) | Op_psllq => Some (Op_shl, 8)
  | _ => None
  end.

(** ** and, test, or *)

Definition bit_op (o : bitop) (x y : Z) : Z :=
  match o with Or => Z.lor x y | _ => Z.land x y end.

(** [v] is the number the tool read for an operand with contents [b]. *)
Definition reads (n v : Z) (b : value) : Prop :=
  0 <= v < 2 ^ 64 /\ forall j, 0 <= j < n -> v / 256 ^ j mod 256 = b j.

Definition agree_byte (sh : Z -> Z) (n : Z) (v w : value) : Prop :=
  forall j, 0 <= j < n -> sh j <> UNDEFINED -> v j = w j.

Definition bytes (n : Z) (v : value) : Prop := forall j, 0 <= j < n -> 0 <= v j < 256.

(** The zero bits among the low [m] bits of a constant form at most one run. *)
Definition one_run_of_zeros (m immed : Z) : Prop :=
  exists lo hi, forall p, 0 <= p < m ->
    (Z.testbit immed p = false <-> lo <= p < hi).

Fixpoint ones (immed : Z) (i : Z) (m : nat) : Z :=
  match m with
  | O => 0
  | S m' => (if Z.testbit immed i then 1 else 0) + ones immed (i + 1) m'
  end.

(** Both bytes are initialised, or one is and is a zero that decides the
    result. *)
Definition decided (i : bitinstr) (a0 a1 : value) (j : Z) : Prop :=
  (b_sh0 i j <> UNDEFINED /\ b_sh1 i j <> UNDEFINED) \/
  (b_op i <> Or /\ b_vals i <> None /\
   ((b_sh0 i j <> UNDEFINED /\ a0 j = 0) \/ (b_sh1 i j <> UNDEFINED /\ a1 j = 0))).

Definition read_right (i : bitinstr) (a0 a1 : value) : Prop :=
  forall v0 v1, b_vals i = Some (v0, v1) -> reads (b_size i) v0 a0 /\ reads (b_size i) v1 a1.
