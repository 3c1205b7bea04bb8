(** Model of the register shadow: drmemory/shadow.c:1482-1996, X64 Linux.
    The thread-local [shadow_registers_t] and the [shadow_aux_registers_t] it
    points to are byte memories addressed by offset.
    Not modelled: the TLS slot itself, the operands the fast path builds to
    reach the same slots, ASSERTs (release build), logging. *)
From Verif Require Import Base Mem Shadow_Model.
Open Scope Z_scope.

(** DynamoRIO's register names, by class: [reg_id_t].  [Flags] is [REG_NULL],
    which [reg_shadow_addr] takes to mean eflags. *)
Inductive reg :=
| R64 (i : Z) | R32 (i : Z) | R16 (i : Z) | R8l (i : Z) | R8h (i : Z)
| Xmm (i : Z) | Ymm (i : Z) | Mm (i : Z) | Flags.

Record sregs := SR { tls : mem; aux : mem }.

(** shadow.c:1516-1551: offsets in [shadow_registers_t]. *)
Definition offs_eflags : Z := 32.
Definition offs_inheap : Z := 34.
(** shadow.c:1493-1500: offsets in [shadow_aux_registers_t]. *)
Definition offs_xmm : Z := 0.
Definition offs_ymmh : Z := 64.
Definition offs_mm : Z := 128.
Definition sizeof_sr : Z := 39. (* up to the padding; then comes the pointer [aux] *)
Definition sizeof_aux : Z := 144.

(** shadow.c:1781-1807 [reg_shadow_addr]: true = in the aux structure. *)
Definition reg_shadow_addr (r : reg) : bool * Z :=
  match r with
  | Flags => (false, offs_eflags)
  | R64 i | R32 i | R16 i | R8l i | R8h i => (false, 2 * i)
  | Ymm i => (true, offs_ymmh + 4 * i)
  | Xmm i => (true, offs_xmm + 4 * i)
  | Mm i => (true, offs_mm + 2 * i)
  end.

Definition part (s : sregs) (x : bool) : mem := if x then aux s else tls s.
Definition with_part (s : sregs) (x : bool) (mm : mem) : sregs :=
  if x then SR (tls s) mm else SR mm (aux s).

(** shadow.c:1809-1838 [get_shadow_register_common]. *)
Definition get_shadow_register (s : sregs) (r : reg) : res Z :=
  let '(x, a) := reg_shadow_addr r in
  match r with
  | Xmm _ | Ymm _ | Mm _ => loadn 4 (part s x) a
  | R8h _ => let* v := loadn 1 (part s x) a in Ok (Z.shiftr (Z.land v 0xc) 2)
  | R8l _ => let* v := loadn 1 (part s x) a in Ok (Z.land v 0x3)
  | R16 _ => let* v := loadn 1 (part s x) a in Ok (Z.land v 0xf)
  | R32 _ => loadn 1 (part s x) a
  | R64 _ => loadn 2 (part s x) a
  | Flags => Ok 0
  end.

(** shadow.c:1867-1882 [register_shadow_set_byte]: the loop leaves the address
    of the shadow byte and a shift below 8. *)
Definition set_byte (s : sregs) (r : reg) (bytenum val : Z) : res sregs :=
  let '(x, a) := reg_shadow_addr r in
  let shift := w32 (bytenum * 2) in
  let a := a + shift / 8 in
  let* b := loadn 1 (part s x) a in
  let* mm := storen 1 (part s x) a (set_2bits b val (shift mod 8)) in
  Ok (with_part s x mm).

(** shadow.c:1884-1892 [register_shadow_set_dword]. *)
Definition set_dword (s : sregs) (r : reg) (val : Z) : res sregs :=
  let '(x, a) := reg_shadow_addr r in
  let* mm := storen 1 (part s x) a (val mod 2 ^ 8) in Ok (with_part s x mm).
(** shadow.c:1895-1903, 1916-1924 [register_shadow_set_qword], [..._ptrsz]. *)
Definition set_qword (s : sregs) (r : reg) (val : Z) : res sregs :=
  let '(x, a) := reg_shadow_addr r in
  let* mm := storen 2 (part s x) a (val mod 2 ^ 16) in Ok (with_part s x mm).
(** shadow.c:1905-1913 [register_shadow_set_high_dword]. *)
Definition set_high_dword (s : sregs) (r : reg) (val : Z) : res sregs :=
  let '(x, a) := reg_shadow_addr r in
  let* mm := storen 1 (part s x) (a + 1) (val mod 2 ^ 8) in Ok (with_part s x mm).
(** shadow.c:1926-1934 [register_shadow_set_dqword]. *)
Definition set_dqword (s : sregs) (r : reg) (val : Z) : res sregs :=
  let '(x, a) := reg_shadow_addr r in
  let* mm := storen 4 (part s x) a val in Ok (with_part s x mm).

(** shadow.c:1936-1950 [get_shadow_eflags], [set_shadow_eflags]. *)
Definition get_eflags (s : sregs) : res Z := loadn 2 (tls s) offs_eflags.
Definition set_eflags (s : sregs) (val : Z) : res sregs :=
  let* mm := storen 2 (tls s) offs_eflags (val mod 2 ^ 8) in Ok (SR mm (aux s)).
(** shadow.c:1952-1969 [get_shadow_inheap], [set_shadow_inheap]. *)
Definition get_inheap (s : sregs) : res Z := loadn 1 (tls s) offs_inheap.
Definition set_inheap (s : sregs) (val : Z) : res sregs :=
  let* mm := storen 1 (tls s) offs_inheap (val mod 2 ^ 8) in Ok (SR mm (aux s)).

(** shadow.c:1974-1983 [is_shadow_register_defined]. *)
Definition is_defined (val : Z) : bool := val =? 0.

(** slowpath.c:423-436 [register_shadow_mark_defined] (only the byte loop needs
    [n]); slowpath_x86.c:85-98 [reg_offs_in_dword]. *)
Definition is_gpr (r : reg) : bool :=
  match r with R64 _ | R32 _ | R16 _ | R8l _ | R8h _ => true | _ => false end.
Fixpoint set_bytes (s : sregs) (r : reg) (from : Z) (vals : list Z) : res sregs :=
  match vals with
  | [] => Ok s
  | v :: vs => let* s := set_byte s r from v in set_bytes s r (from + 1) vs
  end.
Definition mark_defined (s : sregs) (r : reg) (sz : Z) : res sregs :=
  if (sz =? 8) && is_gpr r then set_qword s r 0
  else if (sz =? 4) && is_gpr r then set_dword s r 0
  else set_bytes s r 0 (repeat 0 (Z.to_nat sz)).
Definition reg_offs_in_dword (r : reg) : Z := match r with R8h _ => 1 | _ => 0 end.

(** slowpath.c:1829-1862 [check_register_defined], when none of the exceptions
    of [check_undefined_reg_exceptions] applies: whether an error is reported,
    and the new state.  [sz] is below 16 for a sub-register check. *)
Definition width (r : reg) : Z :=
  match r with R64 _ => 8 | R32 _ => 4 | R16 _ => 2 | R8l _ => 1 | R8h _ => 1
             | Xmm _ => 16 | Ymm _ => 32 | Mm _ => 8 | Flags => 4 end.
Definition check_register_defined (s : sregs) (r : reg) (sz : Z) : res (bool * sregs) :=
  let* shadow := get_shadow_register s r in
  let shadow := if sz <? width r then Z.land shadow (2 ^ (sz * 2) - 1) else shadow in
  if is_defined shadow then Ok (false, s)
  else let* s := mark_defined s r sz in Ok (true, s).
Definition check_eflags_defined (s : sregs) : res (bool * sregs) :=
  let* shadow := get_eflags s in
  if is_defined shadow then Ok (false, s) else let* s := set_eflags s 0 in Ok (true, s).

(** slowpath.c:407-420, the tail of [assign_register_shadow] (no shift): [vals]
    are the shadow values of the operand's bytes. *)
Definition assign (s : sregs) (r : reg) (vals : list Z) : res sregs :=
  match vals with
  | [] => Ok s
  | v :: vs => let* s := set_byte s r (reg_offs_in_dword r) v in set_bytes s r 1 vs
  end.
(** slowpath_x86.c:2035-2040: a 32-bit destination first defines the upper half. *)
Definition assign32 (s : sregs) (i : Z) (vals : list Z) : res sregs :=
  let* s := set_high_dword s (R32 i) 0 in assign s (R32 i) vals.
(** slowpath_x86.c:2019-2034: a VEX-encoded instruction with an xmm destination. *)
Definition define_ymmh (s : sregs) (i : Z) : res sregs :=
  set_bytes s (Ymm i) 16 (repeat 0 16).

(** shadow.c:1644-1695 [shadow_registers_thread_init]: the first thread, and
    a thread that starts later. *)
Definition filled_to (n v : Z) : mem := fun x => if (0 <=? x) && (x <? n) then Some v else None.
Definition init_first : sregs := SR (filled_to sizeof_sr 0) (filled_to sizeof_aux 0).
Definition init_later : res sregs :=
  let s := SR (filled_to sizeof_sr 0xff) (filled_to sizeof_aux 0xff) in
  let* t := storen 2 (tls s) offs_eflags 0xff in
  let* t := storen 2 t (2 * 4) 0 in   (* xsp *)
  let* t := storen 2 t (2 * 0) 0 in   (* xax *)
  let* t := storen 1 t offs_inheap 0 in
  Ok (SR t (aux s)).
