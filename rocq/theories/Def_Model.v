(** Propagation of definedness through one instruction in the slow path.

    One state per byte; the states of all sources are combined into the array
    [comb->dst], from which the destinations take theirs.  Operands are
    records of sizes and states instead of DynamoRIO's [opnd_t]; opcodes that
    the code treats alike are one constructor. *)
From Verif Require Import Base.
Open Scope Z_scope.

(** drmemory/shadow.h:53-57 *)
Definition DEFINED := 0.
Definition UNADDRESSABLE := 1.
Definition BITLEVEL := 2.
Definition UNDEFINED := 3.

(** drmemory/slowpath_arch.h:34-35 *)
Definition ARRAY_LEN := 32.

(** The cases of [map_src_to_dst], drmemory/slowpath_x86.c:1050-1530.  The
    packed instructions stand for their legacy, floating-point and VEX forms,
    which share a case. *)
Inductive opcode :=
| Op_plain                                  (* default *)
| Op_shl | Op_shr | Op_sar                  (* GPR shifts *)
| Op_other_shift                            (* rol ror rcl rcr shld shrd *)
| Op_xchg | Op_xadd | Op_cmpxchg8b | Op_bswap
| Op_pusha | Op_popa                        (* 32-bit only *)
| Op_punpcklbw | Op_punpcklwd | Op_punpckldq | Op_punpcklqdq
| Op_punpckhbw | Op_punpckhwd | Op_punpckhdq | Op_punpckhqdq
| Op_shufps | Op_shufpd
| Op_pshuf                                  (* pshufw/d/hw/lw/b *)
| Op_psrlw | Op_psrld | Op_psrlq | Op_psraw | Op_psrad | Op_psrldq
| Op_psllw | Op_pslld | Op_psllq | Op_pslldq
| Op_vpshiftv                               (* vpsravd, vpsrlvd, ... *)
| Op_pextrb | Op_pextrw | Op_pextrd         (* pextrd: also extractps *)
| Op_pinsrb | Op_pinsrw | Op_pinsrd | Op_insertps
| Op_vpinsrb | Op_vpinsrw | Op_vpinsrd
| Op_movhps | Op_movlps
| Op_complex                                (* cvt*, blend*, palignr, ... *).

(** A source operand.  [o_size] is [opnd_get_size], [o_regsize] the size of
    the whole register, [o_regno] its distance from eax, [o_sh] the state of
    each byte: for a register what [get_shadow_register] returns, for memory
    what the memory reference feeds (see [MemRef_Model]).  [o_check] says the
    operand is checked rather than propagated: [instr_check_definedness] or
    [always_check_definedness], drmemory/slowpath_x86.c:359-415. *)
Record operand := {
  o_imm : bool;
  o_mem : bool;
  o_size : Z;
  o_regsize : Z;
  o_regno : Z;
  o_xsp : bool;
  o_check : bool;
  o_sh : Z -> Z
}.

(** A destination operand; [d_offs] is [reg_offs_in_dword], [d_prior] the
    states of the register before. *)
Record dest := {
  d_mem : bool;
  d_size : Z;
  d_regsize : Z;
  d_offs : Z;
  d_regno : Z;
  d_gpr : bool;
  d_xsp : bool;
  d_prior : Z -> Z
}.

(** [i_val] is what [get_cur_src_value] gives for the count or immediate
    operand, drmemory/slowpath.c:209-243; [i_wflags], [i_rflags]: writes or
    reads arithmetic flags; [i_check]: [instr_check_definedness];
    [i_pushpop]: [opc_is_push] or [opc_is_pop]. *)
Record instr := {
  i_opc : opcode;
  i_srcs : list operand;
  i_dsts : list dest;
  i_val : option Z;
  i_wflags : bool;
  i_rflags : bool;
  i_check : bool;
  i_always : bool;
  i_pushpop : bool
}.

Record comb := { c_dst : Z -> Z; c_eflags : Z }.

(** drmemory/slowpath_arch.h:72-84 *)
Definition combine (s1 s2 : Z) : Z :=
  if (s1 =? UNDEFINED) || (s2 =? UNDEFINED) then UNDEFINED else DEFINED.

(** [accum_shadow(&comb->dst[k], s)], drmemory/slowpath_arch.h:86-90; an index
    outside the array is undefined behaviour. *)
Definition accum (c : comb) (k s : Z) : res comb :=
  if (0 <=? k) && (k <? ARRAY_LEN)
  then Ok {| c_dst := fun x => if x =? k then combine (c_dst c k) s else c_dst c x;
             c_eflags := c_eflags c |}
  else UB.

Definition accum_flags (c : comb) (s : Z) : comb :=
  {| c_dst := c_dst c; c_eflags := combine (c_eflags c) s |}.

(** drmemory/slowpath_x86.c:925-950 *)
Definition subreg_nonlow (o : opcode) : bool :=
  match o with
  | Op_pextrb | Op_pextrw | Op_pextrd | Op_pinsrb | Op_pinsrw | Op_pinsrd
  | Op_vpinsrb | Op_vpinsrw | Op_vpinsrd | Op_insertps | Op_movhps => true
  | _ => false
  end.

(** drmemory/slowpath_x86.c:228-232 *)
Definition gpr_shift (o : opcode) : bool :=
  match o with Op_shl | Op_shr | Op_sar | Op_other_shift => true | _ => false end.

(** The loop of drmemory/slowpath_x86.c:1015-1016, [i] counting up to [m]. *)
Fixpoint sar_fill (c : comb) (offs opsz s : Z) (i : Z) (n : nat) : res comb :=
  match n with
  | O => Ok c
  | S n' =>
      let* c := accum c (offs + opsz - 1 - i) s in
      sar_fill c offs opsz s (i + 1) n'
  end.

(** drmemory/slowpath_x86.c:957-1034; the answer says whether the operation
    was handled.  [opc] is the operation, [shift0] the count. *)
Definition map_shift (c : comb) (opc : opcode) (shift0 : option Z)
    (b offs opsz s : Z) : res (bool * comb) :=
  match shift0 with
  | None => Ok (false, c)
  | Some sh =>
    let shift := if opsz * 8 <? sh then opsz * 8 else sh in
    if shift =? 0 then
      let* c := accum c (offs + b) s in Ok (true, c)
    else
    match opc with
    | Op_shl =>
        let map1 := b + shift / 8 in
        let map2 := b + (shift - 1) / 8 + 1 in
        if opsz <=? map1 then
          Ok (true, if map1 =? opsz then accum_flags c s else c)
        else
          let* c := accum c (offs + map1) s in
          let* c := if negb (map1 =? map2) && (map2 <? opsz)
                    then accum c (offs + map2) s else Ok c in
          Ok (true, accum_flags c s)
    | Op_shr | Op_sar =>
        let map1 := b - shift / 8 in
        let map2 := b - ((shift - 1) / 8 + 1) in
        if (match opc with Op_sar => true | _ => false end) && (b =? opsz - 1) then
          let m := Z.min (shift / 8 + 1) opsz in
          let* c := sar_fill c offs opsz s 0 (Z.to_nat m) in
          Ok (true, accum_flags c s)
        else
          let* c := if 0 <=? map1 then accum c (offs + map1) s else Ok c in
          let* c := if negb (map1 =? map2) && (0 <=? map2)
                    then accum c (offs + map2) s else Ok c in
          Ok (true, accum_flags c s)
    | _ => Ok (false, c)
    end
  end.

(** The packed shifts: element size [w], drmemory/slowpath_x86.c:1231-1315. *)
Definition map_packed (c : comb) (opc : opcode) (val : option Z) (w b s : Z)
    : res (bool * comb) :=
  let* (done, c) := map_shift c opc val (b mod w) (b - b mod w) w s in
  if done then Ok (true, c)
  else let* c := accum c b DEFINED in Ok (false, c).

(** [insertps]' zeroing, drmemory/slowpath_x86.c:1397-1407. *)
Fixpoint zero_lanes (c : comb) (zmask i : Z) (n : nat) : res comb :=
  match n with
  | O => Ok c
  | S n' =>
      let* c := if Z.testbit zmask 0 then accum c i DEFINED else Ok c in
      let* c := if Z.testbit zmask 1 then accum c (4 + i) DEFINED else Ok c in
      let* c := if Z.testbit zmask 2 then accum c (8 + i) DEFINED else Ok c in
      let* c := if Z.testbit zmask 3 then accum c (12 + i) DEFINED else Ok c in
      zero_lanes c zmask (i + 1) n'
  end.

Definition in_lane (b lane w : Z) : bool := (lane * w <=? b) && (b <? (lane + 1) * w).

(** The switch of drmemory/slowpath_x86.c:1068-1522: byte [b] of source [k],
    operand size [n], state [s].  The answer says that the case returned
    without reaching the flags at the end.  A failed [get_cur_src_value]
    leaves 0 in the immediate. *)
Definition map_switch (i : instr) (o : operand) (n k b s : Z) (c : comb)
    : res (bool * comb) :=
  let imm := match i_val i with Some v => v | None => 0 end in
  let at_ x := let* c := accum c x s in Ok (false, c) in
  let skip := Ok (false, c) in
  match i_opc i with
  | Op_xchg | Op_xadd => at_ (n * (1 - k) + b)
  | Op_cmpxchg8b =>
      at_ (n * (if (k =? 2) || (k =? 3) then 1 else 0) + b)
  | Op_bswap => let* c := accum c (n - 1 - b) s in Ok (true, c)
  | Op_pusha => if o_mem o || o_imm o then skip else at_ (n * o_regno o + b)
  | Op_punpcklbw => if b <? n / 2 then at_ (b * 2 + (1 - k)) else skip
  | Op_punpcklwd =>
      if b <? n / 2 then at_ (b / 2 * 4 + b mod 2 + 2 * (1 - k)) else skip
  | Op_punpckldq =>
      if b <? n / 2 then at_ (b / 4 * 8 + b mod 4 + 4 * (1 - k)) else skip
  | Op_punpcklqdq =>
      if b <? n / 2 then at_ (b / 8 * 16 + b mod 8 + 8 * (1 - k)) else skip
  | Op_punpckhbw => if n / 2 <=? b then at_ ((b - n / 2) * 2 + (1 - k)) else skip
  | Op_punpckhwd =>
      if n / 2 <=? b then at_ ((b - n / 2) / 2 * 4 + b mod 2 + 2 * (1 - k)) else skip
  | Op_punpckhdq =>
      if n / 2 <=? b then at_ ((b - n / 2) / 4 * 8 + b mod 4 + 4 * (1 - k)) else skip
  | Op_punpckhqdq =>
      if n / 2 <=? b then at_ ((b - n / 2) / 8 * 16 + b mod 8 + 8 * (1 - k)) else skip
  | Op_shufps =>
      let m := b mod 4 in
      let base := if 16 <=? b then 16 else 0 in
      let lane := b mod 16 / 4 in
      let pick p := p mod 4 =? lane in
      let* c :=
        if k =? 0 then
          let* c := if pick (imm / 16) then accum c (base + 8 + m) s else Ok c in
          if pick (imm / 64) then accum c (base + 12 + m) s else Ok c
        else
          let* c := if pick imm then accum c (base + m) s else Ok c in
          if pick (imm / 4) then accum c (base + 4 + m) s else Ok c in
      Ok (false, c)
  | Op_shufpd =>
      let m := b mod 8 in
      let base := if 16 <=? b then 16 else 0 in
      if imm =? b mod 16 / 8
      then at_ (if k =? 0 then base + 8 + m else base + m) else skip
  | Op_pshuf | Op_vpshiftv | Op_complex =>
      let* c := accum c b DEFINED in Ok (false, c)
  | Op_psrlw => map_packed c Op_shr (i_val i) 2 b s
  | Op_psrld => map_packed c Op_shr (i_val i) 4 b s
  | Op_psrlq => map_packed c Op_shr (i_val i) 8 b s
  | Op_psraw => map_packed c Op_sar (i_val i) 2 b s
  | Op_psrad => map_packed c Op_sar (i_val i) 4 b s
  | Op_psllw => map_packed c Op_shl (i_val i) 2 b s
  | Op_pslld => map_packed c Op_shl (i_val i) 4 b s
  | Op_psllq => map_packed c Op_shl (i_val i) 8 b s
  | Op_psrldq =>
      match i_val i with
      | Some v => let v := if n <? v then n else v in
                  if v <=? b then at_ (b - v) else skip
      | None => let* c := accum c b DEFINED in Ok (false, c)
      end
  | Op_pslldq =>
      match i_val i with
      | Some v => let v := if n <? v then n else v in
                  if b + v <? n then at_ (b + v) else skip
      | None => let* c := accum c b DEFINED in Ok (false, c)
      end
  | Op_pextrb => if b =? imm then at_ 0 else skip
  | Op_pextrw => if in_lane b imm 2 then at_ (b mod 2) else skip
  | Op_pextrd => if in_lane b imm 4 then at_ (b mod 4) else skip
  | Op_pinsrb => if b =? 0 then at_ imm else skip
  | Op_pinsrw => if b <? 2 then at_ (imm * 2 + b mod 2) else skip
  | Op_pinsrd => at_ (imm * 4 + b mod 4)
  | Op_insertps =>
      let count_s := if o_mem o || o_imm o then 0 else imm / 64 in
      let count_d := imm / 16 mod 4 in
      let* c := if in_lane b count_s 4 then accum c (count_d * 4 + b mod 4) s
                else Ok c in
      let* c := if b =? 0 then zero_lanes c (imm mod 16) 0 3 else Ok c in
      Ok (false, c)
  | Op_vpinsrb =>
      if k =? 0 then if negb (b =? imm) then at_ b else skip
      else if b =? 0 then at_ imm else skip
  | Op_vpinsrw =>
      if k =? 0 then if negb (in_lane b imm 2) then at_ b else skip
      else if b <? 2 then at_ (imm * 2 + b mod 2) else skip
  | Op_vpinsrd =>
      if k =? 0 then if negb (in_lane b imm 4) then at_ b else skip
      else at_ (imm * 4 + b mod 4)
  | Op_movhps =>
      if o_mem o then at_ (b + (n - 8))
      else if match i_dsts i with d :: _ => negb (d_mem d) | nil => false end
      then if b <? 8 then at_ (b + (n - 8)) else skip
      else if n - 8 <=? b then at_ (b - (n - 8)) else skip
  | Op_movlps =>
      if negb (o_mem o) && match i_dsts i with d :: _ => negb (d_mem d) | nil => false end
      then if n - 8 <=? b then at_ (b - (n - 8)) else skip
      else if b <? 8 then at_ b else skip
  | Op_plain | Op_popa | Op_shl | Op_shr | Op_sar | Op_other_shift => at_ b
  end.

(** drmemory/slowpath_x86.c:1041-1530 *)
Definition map_src_to_dst (i : instr) (o : operand) (n k b s : Z) (c : comb)
    : res comb :=
  let* (done, c) :=
    if gpr_shift (i_opc i) then map_shift c (i_opc i) (i_val i) b 0 n s
    else Ok (false, c) in
  if done then Ok c
  else
    let* (done, c) := map_switch i o n k b s c in
    if done then Ok c
    else Ok (if i_wflags i then accum_flags c s else c).

(** The byte loops of [integrate_register_shadow], drmemory/slowpath.c:362-373,
    and of a memory source, slowpath.c:1683-1690. *)
Fixpoint feed (i : instr) (o : operand) (n k b : Z) (m : nat) (c : comb) : res comb :=
  match m with
  | O => Ok c
  | S m' =>
      let* c := map_src_to_dst i o n k b (o_sh o b) c in
      feed i o n k (b + 1) m' c
  end.

(** Bytes looked at, and [comb->opsz]: drmemory/slowpath.c:362-371, 735-746.
    Memory operands always have their own size. *)
Definition fed_size (i : instr) (o : operand) : Z :=
  if subreg_nonlow (i_opc i) && negb (o_mem o) then o_regsize o else o_size o.

(** The source loop, drmemory/slowpath.c:685-771.  A checked operand is
    propagated only with -leave_uninit. *)
Fixpoint sources (leave : bool) (i : instr) (k : Z) (l : list operand) (c : comb)
    : res comb :=
  match l with
  | nil => Ok c
  | o :: l' =>
      let* c :=
        if o_imm o || i_always i || (o_check o && negb leave) then Ok c
        else if negb (o_mem o) && i_pushpop i && o_xsp o then Ok c
        else feed i o (fed_size i o) k 0 (Z.to_nat (fed_size i o)) c in
      sources leave i (k + 1) l' c
  end.

(** [SHADOW_DWORD2BYTE], drmemory/shadow.h:95, of the flags' shadow, which is
    one byte. *)
Definition flag_state (f i : Z) : Z := f mod 256 / 4 ^ i mod 4.

(** Flags as a source, drmemory/slowpath.c:337-347, 774-786. *)
Fixpoint spread (f : Z) (b : Z) (m : nat) (c : comb) : res comb :=
  match m with
  | O => Ok c
  | S m' => let* c := accum c b (flag_state f b) in spread f (b + 1) m' c
  end.

Definition flags_source (leave : bool) (i : instr) (f : Z) (c : comb) : res comb :=
  if i_rflags i && negb (i_always i) && (negb (i_check i) || leave) then
    let c := accum_flags c (flag_state f 0) in
    match i_dsts i with
    | nil => Ok c
    | d :: _ => spread f 0 (Z.to_nat (d_size d)) c
    end
  else Ok c.

(** drmemory/slowpath.c:284-324 *)
Definition init_comb (i : instr) : comb :=
  let partial :=
    match i_dsts i with
    | [d] => subreg_nonlow (i_opc i) && negb (d_mem d) && (d_size d <? d_regsize d)
    | _ => false
    end in
  {| c_dst := fun _ => if partial then BITLEVEL else DEFINED; c_eflags := DEFINED |}.

(** Where a destination's states start, drmemory/slowpath_x86.c:1992-2017. *)
Definition dest_shift (o : opcode) (k : Z) (d : dest) : Z :=
  match o with
  | Op_popa => d_regno d
  | Op_xchg | Op_xadd => k
  | Op_cmpxchg8b => if k =? 2 then 1 else 0
  | _ => 0
  end.

Definition read (c : comb) (k : Z) : res Z :=
  if (0 <=? k) && (k <? ARRAY_LEN) then Ok (c_dst c k) else UB.

(** The loop of drmemory/slowpath.c:410-417. *)
Fixpoint set_bytes (c : comb) (base b : Z) (m : nat) (r : Z -> Z) : res (Z -> Z) :=
  match m with
  | O => Ok r
  | S m' =>
      let* v := read c (base + b) in
      set_bytes c base (b + 1) m' (fun x => if x =? b then v else r x)
  end.

(** drmemory/slowpath.c:376-418 and slowpath_x86.c:1968-2040 (without the
    string operations' registers and ymm). *)
Definition assign_register (x64 : bool) (i : instr) (k : Z) (d : dest) (c : comb)
    : res (Z -> Z) :=
  let r := if x64 && (d_size d =? 4) && d_gpr d
           then fun x => if (4 <=? x) && (x <? 8) then DEFINED else d_prior d x
           else d_prior d in
  if i_pushpop i && d_xsp d then Ok r
  else
    let nonlow := subreg_nonlow (i_opc i) in
    let sz := if nonlow then d_regsize d else d_size d in
    let c :=
      if nonlow
      then {| c_dst := fun x => if (0 <=? x) && (x <? sz) && (c_dst c x =? BITLEVEL)
                                then r x else c_dst c x;
              c_eflags := c_eflags c |}
      else c in
    let base := dest_shift (i_opc i) k d * sz in
    let* v := read c base in
    set_bytes c base 1 (Z.to_nat (sz - 1)) (fun x => if x =? d_offs d then v else r x).

(** A memory destination takes [comb->dst] from its start, or DEFINED if the
    operands were checked or the result is always defined:
    drmemory/slowpath.c:842-877; without a source that counts as always
    defined, slowpath.c:787-792. *)
Fixpoint get_bytes (c : comb) (b : Z) (m : nat) : res (list Z) :=
  match m with
  | O => Ok nil
  | S m' =>
      let* v := read c b in
      let* l := get_bytes c (b + 1) m' in
      Ok (v :: l)
  end.

Definition assign_memory (leave : bool) (i : instr) (d : dest) (c : comb) : res (Z -> Z) :=
  let always := i_always i ||
    (match i_srcs i with nil => negb (i_rflags i) | _ => false end) in
  if always || (i_check i && negb leave) then Ok (fun _ => DEFINED)
  else let* l := get_bytes c 0 (Z.to_nat (d_size d)) in
       Ok (fun x => nth (Z.to_nat x) l DEFINED).

Fixpoint dests (leave x64 : bool) (i : instr) (k : Z) (l : list dest) (c : comb)
    : res (list (Z -> Z)) :=
  match l with
  | nil => Ok nil
  | d :: l' =>
      let* r := if d_mem d then assign_memory leave i d c
                else assign_register x64 i k d c in
      let* rs := dests leave x64 i (k + 1) l' c in
      Ok (r :: rs)
  end.

(** The slow path for everything but and, test and or: the new states of each
    destination (of the whole register, or of the memory operand), and the
    flags' shadow.  drmemory/slowpath.c:655-889 *)
Definition propagate (leave x64 : bool) (i : instr) (f : Z)
    : res (list (Z -> Z) * Z) :=
  let* c := sources leave i 0 (i_srcs i) (init_comb i) in
  let* c := flags_source leave i f c in
  let* ds := dests leave x64 i 0 (i_dsts i) c in
  Ok (ds, if i_wflags i then c_eflags c else f).

(** ** and, test, or *)

Inductive bitop := And | Test | Or.

(** [DWORD2BYTE], common/utils.h:609, on a [reg_t] of 4 or 8 bytes: the mask is
    an [int], so the one for byte 3 has all higher bits set too, and for a
    higher byte the shift is undefined. *)
Definition dword2byte (x64 : bool) (v n : Z) : res Z :=
  if n <? 3 then Ok (v / 256 ^ n mod 256)
  else if n =? 3 then
    Ok (if x64 then v mod 2 ^ 64 / 256 ^ 3 else v mod 2 ^ 32 / 256 ^ 3)
  else UB.

(** drmemory/slowpath_x86.c:1683-1712; [~0] is converted to [reg_t]. *)
Definition check_vals (strict x64 : bool) (o : bitop) (v n : Z) (bitmask : bool)
    : res bool :=
  let* x := dword2byte x64 v n in
  let ones := if x64 then 2 ^ 64 - 1 else 2 ^ 32 - 1 in
  match o with
  | Or => Ok (if strict then x =? ones else true)
  | Test => Ok (x =? 0)
  | And => Ok ((x =? 0) || (negb strict && bitmask))
  end.

(** The loop of drmemory/slowpath_x86.c:1763-1806 over the bits of the
    constant. *)
Record scan := {
  n_ones : Z; seq0 : Z; seq1 : Z;
  found_zero : bool; last_zero : bool; two_zeroes : bool; byte_only : bool
}.

Definition scan_bit (one : bool) (s : scan) : scan :=
  if one then
    {| n_ones := n_ones s + 1; seq0 := 0; seq1 := seq1 s + 1;
       found_zero := found_zero s; last_zero := false; two_zeroes := two_zeroes s;
       byte_only := byte_only s && (seq0 s mod 8 =? 0) |}
  else
    let again := negb (last_zero s) && found_zero s in
    {| n_ones := n_ones s; seq0 := seq0 s + 1; seq1 := 0;
       found_zero := if again then found_zero s else true;
       last_zero := if again then last_zero s else true;
       two_zeroes := if again then true else two_zeroes s;
       byte_only := byte_only s && (seq1 s mod 8 =? 0) |}.

Fixpoint scan_bits (immed i : Z) (m : nat) (s : scan) : scan :=
  match m with
  | O => s
  | S m' => scan_bits immed (i + 1) m' (scan_bit (Z.testbit immed i) s)
  end.

Definition bitmask_immed (strict : bool) (o : bitop) (sz immed : Z) : bool :=
  if negb strict && match o with And => true | _ => false end then
    let s := scan_bits immed 0 (Z.to_nat (sz * 8))
      {| n_ones := 0; seq0 := 0; seq1 := 0; found_zero := false;
         last_zero := false; two_zeroes := false; byte_only := true |} in
    negb (two_zeroes s) && (2 <? n_ones s)
  else false.

(** A bit operation on two operands of [b_size] bytes.  [b_vals] are the
    values read, if they could be; [b_immed] is the constant, if one operand
    is one; [b_acd]: the other is eax, ecx or edx.  [b_not_test] and
    [b_xor] are the answers of [check_and_not_test] and of
    [check_xor_bitfield], which look at the next instructions. *)
Record bitinstr := {
  b_op : bitop;
  b_size : Z;
  b_sh0 : Z -> Z;
  b_sh1 : Z -> Z;
  b_vals : option (Z * Z);
  b_immed : option Z;
  b_acd : bool;
  b_not_test : bool;
  b_xor : bool
}.

(** drmemory/slowpath_x86.c:1882-1890 *)
Definition magic (i : bitinstr) : bool :=
  match b_op i, b_immed i with
  | Or, _ | _, None => false
  | _, Some v =>
      (b_size i =? 4) && b_acd i &&
      ((v =? 2164326656 (* 0x81010100 *)) || (v =? 2155905152 (* 0x80808080 *)) ||
       (v =? 32896 (* 0x8080 *)))
  end.

(** The byte loop of drmemory/slowpath_x86.c:1918-1951: the combined states
    (first byte first) and whether something changed. *)
Fixpoint andor_loop (strict x64 bitmask : bool) (i : bitinstr) (b : Z) (m : nat)
    : res (bool * list Z) :=
  match m with
  | O => Ok (false, nil)
  | S m' =>
      let s0 := combine DEFINED (b_sh0 i b) in
      let s1 := combine DEFINED (b_sh1 i b) in
      let* (ch, s) :=
        if s0 =? UNDEFINED then
          match b_vals i with
          | Some (_, v1) =>
              if s1 =? DEFINED then
                let* ok := check_vals strict x64 (b_op i) v1 b bitmask in
                Ok (if ok then (true, DEFINED) else (false, UNDEFINED))
              else Ok (false, UNDEFINED)
          | None => Ok (false, UNDEFINED)
          end
        else if s1 =? UNDEFINED then
          match b_vals i with
          | Some (v0, _) =>
              let* ok := check_vals strict x64 (b_op i) v0 b bitmask in
              Ok (true, if ok then DEFINED else UNDEFINED)
          | None => Ok (true, UNDEFINED)
          end
        else Ok (false, DEFINED) in
      let* (chs, l) := andor_loop strict x64 bitmask i (b + 1) m' in
      Ok (ch || chs, s :: l)
  end.

Fixpoint repeatZ (v : Z) (m : nat) : list Z :=
  match m with O => nil | S m' => v :: repeatZ v m' end.

(** drmemory/slowpath_x86.c:1810-1957 *)
Definition check_andor_sources (strict x64 : bool) (i : bitinstr)
    : res (bool * list Z) :=
  let n := Z.to_nat (b_size i) in
  if magic i then Ok (true, repeatZ DEFINED n)
  else
    let bm :=
      match b_immed i with
      | Some v =>
          if strict then false
          else bitmask_immed strict (b_op i) (b_size i) v ||
               match b_op i with And => b_not_test i | _ => false end
      | None => false
      end in
    let* (ch, l) := andor_loop strict x64 bm i 0 n in
    match b_op i with
    | And => if negb strict && b_xor i
             then Ok (true, map (fun s => if s =? UNDEFINED then DEFINED else s) l)
             else Ok (ch, l)
    | _ => Ok (ch, l)
    end.

(** Any byte of the two sources undefined: what [map_src_to_dst] has put in the
    flags before, drmemory/slowpath_x86.c:1526-1528. *)
Fixpoint any_undef (sh : Z -> Z) (b : Z) (m : nat) : Z :=
  match m with
  | O => DEFINED
  | S m' => combine (sh b) (any_undef sh (b + 1) m')
  end.

(** drmemory/slowpath.c:795-813: the states of the result, and of the flags. *)
Definition andor (strict x64 : bool) (i : bitinstr) : res (list Z * Z) :=
  let n := Z.to_nat (b_size i) in
  let* (ch, l) := check_andor_sources strict x64 i in
  Ok (l, if ch then fold_right combine DEFINED l
         else combine (any_undef (b_sh0 i) 0 n) (any_undef (b_sh1 i) 0 n)).
