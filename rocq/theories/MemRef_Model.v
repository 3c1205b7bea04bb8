(** Model of the byte loop that checks one memory access in shadow mode
    ([handle_mem_ref_internal], drmemory/slowpath.c 1425-1747) and of the two
    helpers it calls that change shadow state ([memref_idx], slowpath.c
    1412-1418, and [handle_push_addressable], drmemory/stack.c 162-254).

    Simplifications.  Pattern mode (slowpath.c 1450-1451) returns before the
    loop and is not modelled here.  Statistics, logging and debug assertions
    are dropped.  Shadow memory is the byte-indexed function that the shadow
    area of this development proves the real tables to implement.  The loop
    counter is a C [uint]; it is modelled as unbounded, so results are for
    accesses of less than 2^32 bytes. *)
From Verif Require Import Base.
Open Scope Z_scope.

(** The four shadow states, drmemory/shadow.h 53-56. *)
Definition DEFINED := 0.
Definition UNADDRESSABLE := 1.
Definition BITLEVEL := 2.
Definition UNDEFINED := 3.

(** MEMREF_* flags, drmemory/slowpath.h 66-86, as one record of bits. *)
Record flags := {
  f_write : bool;          (* MEMREF_WRITE *)
  f_pushpop : bool;        (* MEMREF_PUSHPOP *)
  f_checkdef : bool;       (* MEMREF_CHECK_DEFINEDNESS *)
  f_values : bool;         (* MEMREF_USE_VALUES *)
  f_byte : bool;           (* MEMREF_SINGLE_BYTE *)
  f_word : bool;           (* MEMREF_SINGLE_WORD *)
  f_dword : bool;          (* MEMREF_SINGLE_DWORD *)
  f_movs : bool;           (* MEMREF_MOVS *)
  f_checkaddr : bool;      (* MEMREF_CHECK_ADDRESSABLE *)
  f_isread : bool;         (* MEMREF_IS_READ *)
  f_abort : bool           (* MEMREF_ABORT_AFTER_UNADDR *)
}.

(** MEMREF_ABORT_AFTER_SIZE, drmemory/slowpath.h 85. *)
Definition ABORT_SIZE := 4.

(** PAGE_SIZE as used by drmemory/stack.c 235. *)
Definition PAGE := 4096.

(** What the loop consults outside itself.  [e_unaddr a] and [e_undef a] are
    the answers of [check_unaddressable_exceptions] (drmemory/alloc_drmem.c
    2378-2501) and [check_undefined_exceptions] (drmemory/slowpath_x86.c
    905-922) for the byte at [a], together with the shadow states those
    functions store as a side effect (alloc_drmem.c 2323 and 2496,
    slowpath_x86.c 893).  [e_bounds] is [get_stack_region_bounds].
    [e_dst] is [comb->dst] and [e_movs] is [comb->movs_addr]. *)
Record env := {
  e_rz : Z;                              (* BEYOND_TOS_REDZONE_SIZE, stack.h 50-54 *)
  e_map4 : bool;                         (* MAP_4B_TO_1B, shadow.h 29 *)
  e_leave : bool;                        (* options.leave_uninit *)
  e_check_push : bool;                   (* options.check_push *)
  e_unaddr : Z -> bool * (Z -> option Z);
  e_undef : Z -> bool * (Z -> option Z);
  e_on_stack : Z -> bool;                (* slowpath.c 1517-1529 *)
  e_bounds : Z -> option (Z * Z);
  e_dst : Z -> Z;
  e_movs : Z
}.

(** drmemory/slowpath.c 1412-1418. *)
Definition memref_idx (f : flags) (i : Z) : Z :=
  if f_byte f then 0
  else if f_word f then i mod 2
  else if f_dword f then i mod 4 else i.

(** One reported range: [true] for report_unaddressable_access, [false] for
    report_undefined_read; first byte; length. *)
Definition report := (bool * Z * Z)%type.

(** Loop variables of slowpath.c 1430-1445, the shadow, the reports issued so
    far (newest first) and the values handed to [map_src_to_dst] (newest
    first). *)
Record st := {
  s_sh : Z -> Z;
  s_good : bool;                         (* allgood *)
  s_found : bool;                        (* found_bad_addr *)
  s_type : bool;                         (* bad_type = SHADOW_UNADDRESSABLE *)
  s_addr : Z;                            (* bad_addr *)
  s_end : Z;                             (* bad_end *)
  s_push : bool;                         (* handled_push_addr *)
  s_reports : list report;
  s_fed : list (Z * Z)
}.

Definition init (sh : Z -> Z) : st :=
  {| s_sh := sh; s_good := true; s_found := false; s_type := false;
     s_addr := 0; s_end := 0; s_push := false; s_reports := nil; s_fed := nil |}.

Definition with_sh (s : st) (sh : Z -> Z) : st :=
  {| s_sh := sh; s_good := s_good s; s_found := s_found s; s_type := s_type s;
     s_addr := s_addr s; s_end := s_end s; s_push := s_push s;
     s_reports := s_reports s; s_fed := s_fed s |}.

(** Shadow write of one byte, drmemory/shadow.c 453-511: with MAP_4B_TO_1B one
    shadow byte stands for the whole aligned 4-byte word. *)
Definition set_byte (e : env) (sh : Z -> Z) (a v : Z) : Z -> Z :=
  fun x => if e_map4 e
           then (if x / 4 =? a / 4 then v else sh x)
           else (if x =? a then v else sh x).

Definition set_range (sh : Z -> Z) (lo hi v : Z) : Z -> Z :=
  fun x => if (lo <=? x) && (x <? hi) then v else sh x.

(** Side effects of the exception routines. *)
Definition apply_marks (m : Z -> option Z) (sh : Z -> Z) : Z -> Z :=
  fun x => match m x with Some v => v | None => sh x end.

(** report_* calls: slowpath.c 1537-1539, 1543-1546, 1594-1597, 1603-1605,
    1735-1745. *)
Definition flush (s : st) : list report :=
  (s_type s, s_addr s, s_end s + 1 - s_addr s) :: s_reports s.

(** The bookkeeping of a byte found bad: slowpath.c 1532-1559 and 1589-1615.
    [unaddr] is the kind of the new bad byte.  The result is [None] when the
    loop breaks (1547-1550, 1598-1601). *)
Definition note_bad (f : flags) (unaddr : bool) (a : Z) (s : st) : st * bool :=
  let broke := f_abort f && s_found s && s_type s &&
               (if unaddr
                then (s_end s <? a - 1) ||
                     (ABORT_SIZE <=? s_end s + 1 - s_addr s)
                else true) in
  if broke then
    ({| s_sh := s_sh s; s_good := s_good s; s_found := false; s_type := s_type s;
        s_addr := s_addr s; s_end := s_end s; s_push := s_push s;
        s_reports := flush s; s_fed := s_fed s |}, true)
  else
    let extend := s_found s && Bool.eqb (s_type s) unaddr &&
                  negb (s_end s <? a - 1) in
    ({| s_sh := s_sh s; s_good := false; s_found := true;
        s_type := if extend then s_type s else unaddr;
        s_addr := if extend then s_addr s else a;
        s_end := a;
        s_push := s_push s;
        s_reports := if s_found s && negb extend then flush s else s_reports s;
        s_fed := s_fed s |}, false).

(** drmemory/stack.c 162-254: returns [handled] and the new shadow. *)
Definition handle_push_addressable (e : env) (a start : Z) (sh : Z -> Z)
  : bool * (Z -> Z) :=
  if e_check_push e then
    match e_bounds e a with
    | Some (stack_start, stack_size) =>
        let lo := if a - PAGE <? stack_start then stack_start else a - PAGE in
        let sh1 := set_range sh lo start UNADDRESSABLE in
        let rz := if start - e_rz e <? stack_start then start - stack_start
                  else e_rz e in
        (true, if 0 <? e_rz e then set_range sh1 (start - rz) start UNDEFINED
               else sh1)
    | None => (false, sh)
    end
  else (false, sh).

(** Unaddressable byte: slowpath.c 1489-1580. *)
Definition step_unaddr (e : env) (f : flags) (addr i : Z) (s : st) : st * bool :=
  let a := addr + i in
  if f_pushpop f && f_write f then
    let v := if f_values f then e_dst e (memref_idx f i) else DEFINED in
    let sh1 := set_byte e (s_sh s) a v in
    (with_sh s (if 0 <? e_rz e then set_byte e sh1 (a - e_rz e) UNDEFINED else sh1),
     false)
  else
    let '(ok, marks) := e_unaddr e a in
    let s1 := with_sh s (apply_marks marks (s_sh s)) in
    if ok then (s1, false)
    else
      let '(s2, broke) := note_bad f true a s1 in
      if broke then (s2, true)
      else if negb (e_on_stack e a) && negb (s_type s2)   (* 1567-1571 *)
           then (with_sh s2 (set_byte e (s_sh s2) a DEFINED), false)
           else (s2, false).

(** Addressable byte that is read: slowpath.c 1581-1637. *)
Definition step_read (e : env) (f : flags) (addr i shadow : Z) (s : st) : st * bool :=
  let a := addr + i in
  let '(s1, broke) :=
    if shadow =? UNDEFINED then
      let '(ok, marks) := e_undef e a in
      let s1 := with_sh s (apply_marks marks (s_sh s)) in
      if negb ok && f_checkdef f then
        let '(s2, broke) := note_bad f false a s1 in
        if broke then (s2, true)
        else ((if e_leave e then s2
               else with_sh s2 (set_byte e (s_sh s2) a DEFINED)), false)
      else (s1, false)
    else if f_checkdef f && (shadow =? BITLEVEL) then
      ({| s_sh := s_sh s; s_good := false; s_found := s_found s;
          s_type := s_type s; s_addr := s_addr s; s_end := s_end s;
          s_push := s_push s; s_reports := s_reports s; s_fed := s_fed s |}, false)
    else (s, false) in
  if broke then (s1, true)
  else if f_pushpop f then
    (with_sh s1
       (if 0 <? e_rz e
        then set_byte e (set_byte e (s_sh s1) a UNDEFINED) (a - e_rz e) UNADDRESSABLE
        else set_byte e (s_sh s1) a UNADDRESSABLE), false)
  else (s1, false).

(** Addressable byte that is written: slowpath.c 1638-1683. *)
Definition step_write (e : env) (f : flags) (addr i shadow : Z) (s : st) : st :=
  let a := addr + i in
  let s1 :=
    if f_pushpop f &&
       ((e_rz e =? 0) || negb (s_sh s (a - e_rz e) =? UNADDRESSABLE)) &&
       negb (s_push s) then
      let '(h, sh) := handle_push_addressable e a addr (s_sh s) in
      {| s_sh := sh; s_good := s_good s; s_found := s_found s; s_type := s_type s;
         s_addr := s_addr s; s_end := s_end s; s_push := h;
         s_reports := s_reports s; s_fed := s_fed s |}
    else s in
  let v := if f_values f then e_dst e (memref_idx f i) else DEFINED in
  if f_pushpop f && f_write f && (0 <? e_rz e) then
    with_sh s1 (set_byte e (set_byte e (s_sh s1) a v) (a - e_rz e) UNDEFINED)
  else
    let newval := if f_movs f then s_sh s1 (e_movs e + i) else v in
    if (shadow =? BITLEVEL) || (newval =? BITLEVEL) then s1
    else if shadow =? newval then s1
    else with_sh s1 (set_byte e (s_sh s1) a newval).

(** One iteration of slowpath.c 1486-1698 up to the MAP_4B_TO_1B skip. *)
Definition step (e : env) (f : flags) (addr i : Z) (s : st) : st * bool :=
  let shadow := s_sh s (addr + i) in
  let '(s1, broke) :=
    if shadow =? UNADDRESSABLE then step_unaddr e f addr i s
    else if negb (f_write f || f_checkaddr f) then step_read e f addr i shadow s
    else if negb (f_checkaddr f) then (step_write e f addr i shadow s, false)
    else (s, false) in
  if broke then (s1, true)
  else
    ((if negb (f_write f) && f_values f
      then {| s_sh := s_sh s1; s_good := s_good s1; s_found := s_found s1;
              s_type := s_type s1; s_addr := s_addr s1; s_end := s_end s1;
              s_push := s_push s1; s_reports := s_reports s1;
              s_fed := (memref_idx f i, shadow) :: s_fed s1 |}
      else s1), false).

(** ALIGN_FORWARD(x, 4). *)
Definition align4 (x : Z) : Z := (x + 3) / 4 * 4.

(** The MAP_4B_TO_1B skip, slowpath.c 1689-1697, followed by the [i++] of the
    loop header.  The pointer-overflow break (1692-1693) only concerns
    accesses starting in the last four bytes of the address space and is left
    out. *)
Definition advance (e : env) (addr sz i : Z) (s : st) : Z * st :=
  if e_map4 e then
    let i1 := align4 (addr + i + 1) - addr in
    (i1 + 1,
     if s_end s =? addr + i then
       {| s_sh := s_sh s; s_good := s_good s; s_found := s_found s;
          s_type := s_type s; s_addr := s_addr s;
          s_end := addr + (if sz <? i1 then sz else i1) - 1;
          s_push := s_push s; s_reports := s_reports s; s_fed := s_fed s |}
     else s)
  else (i + 1, s).

Fixpoint loop (fuel : nat) (e : env) (f : flags) (addr sz i : Z) (s : st) : res st :=
  match fuel with
  | O => Fuel
  | S k =>
      if i <? sz then
        let '(s1, broke) := step e f addr i s in
        if broke then Ok s1
        else let '(i1, s2) := advance e addr sz i s1 in loop k e f addr sz i1 s2
      else Ok s
  end.

(** Result: the return value, the reports in the order issued, the final
    shadow and the source values in the order handed on. *)
Record outcome := {
  o_clean : bool;
  o_reports : list report;
  o_shadow : Z -> Z;
  o_fed : list (Z * Z)
}.

(** drmemory/slowpath.c 1425-1747; the tail is 1735-1746. *)
Definition handle_mem_ref (e : env) (f : flags) (addr sz : Z) (sh : Z -> Z)
  : res outcome :=
  let* s := loop (S (Z.to_nat sz)) e f addr sz 0 (init sh) in
  Ok {| o_clean := s_good s;
        o_reports := rev (if s_found s then flush s else s_reports s);
        o_shadow := s_sh s;
        o_fed := rev (s_fed s) |}.
