(** Model of what is done around a system call of unknown parameters:
    drsyscall/drsyscall.c, as built for 64-bit Linux, with the client callbacks
    of Dr. Memory and analyze_unknown_syscalls on.

    Simplifications.  No other thread runs.  Addresses do not wrap around at
    2^64.  The buffer that a copy is made in is as long as the copy.  All six
    arguments are in registers, so that is_register_defined decides. *)
From Verif Require Import Base.
Local Open Scope Z_scope.

(* drsyscall/drsyscall.h:353,361. *)
Record options := Options { sentinels : bool; dword : bool }.

(* The shadow state of a byte as the callbacks at drsyscall/drsyscall.c:344-374
   see it. *)
Inductive sh := Unaddr | Undef | Def.
Definition is_undef (s : sh) : bool := match s with Undef => true | _ => false end.
Definition is_addr (s : sh) : bool := match s with Unaddr => false | _ => true end.

Definition memory := Z -> option Z.
Definition shadow := Z -> sh.

(* drsyscall/drsyscall.c:328 UNKNOWN_SYSVAL_SENTINEL. *)
Definition SENTINEL : Z := 171.
(* drsyscall/drsyscall_os.h:273 SYSCALL_ARG_TRACK_MAX_SZ. *)
Definition MAX_SZ : Z := 2048.

(* An argument register: whether it is defined, and its value. *)
Record param := Param { p_def : bool; p_val : Z }.

(* drsyscall/drsyscall_os.h:333-337: one place of the arrays sysarg_ptr,
   sysarg_sz and sysarg_val of cls_syscall_t. *)
Record slot := Slot { ptr : Z; sz : Z; val : list Z }.

Definition upd (m : memory) (a v : Z) : memory := fun x => if x =? a then Some v else m x.

(* safe_read of n bytes. *)
Fixpoint read (m : memory) (a : Z) (n : nat) : option (list Z) :=
  match n with
  | O => Some []
  | S n' =>
      match m a, read m (a + 1) n' with
      | Some b, Some l => Some (b :: l)
      | _, _ => None
      end
  end.

(* drsyscall/drsyscall.c:431-440: the test for an overlap with an argument
   before this one. *)
Definition overlaps (prevs : list slot) (start j : Z) : bool :=
  existsb (fun s => (ptr s <? start + j) && (start <? ptr s + sz s)) prevs.

(* drsyscall/drsyscall.c:430-443: how far the argument is taken to reach. *)
Fixpoint extent (shd : shadow) (prevs : list slot) (start : Z) (n : nat) (j : Z) : Z :=
  match n with
  | O => j
  | S n' =>
      if overlaps prevs start j || negb (is_addr (shd (start + j))) then j
      else extent shd prevs start n' (j + 1)
  end.

(* drsyscall/drsyscall.c:471-491: put a sentinel over each undefined byte, until
   one cannot be written. *)
Fixpoint plant (shd : shadow) (wr : Z -> bool) (a : Z) (n : nat) (m : memory) : memory :=
  match n with
  | O => m
  | S n' =>
      if is_undef (shd a) then
        if wr a then plant shd wr (a + 1) n' (upd m a SENTINEL) else m
      else plant shd wr (a + 1) n' m
  end.

(* drsyscall/drsyscall.c:406-503: one round of the loop of
   handle_pre_unknown_syscall.  A copy that cannot be made leaves the pointer
   null and the size 0; if nothing is to be copied, the size stays as it was. *)
Definition pre_arg (o : options) (shd : shadow) (wr : Z -> bool) (prevs : list slot)
    (p : param) (old : slot) (m : memory) : slot * memory :=
  let s0 := Slot 0 (sz old) (val old) in
  let start := p_val p in
  if p_def p && (start mod 4 =? 0) && is_addr (shd start) then
    let j := extent shd prevs start (Z.to_nat MAX_SZ) 0 in
    let s1 :=
      if 0 <? j then
        match read m start (Z.to_nat j) with
        | Some v => Slot start j v
        | None => Slot 0 0 (val old)
        end
      else s0 in
    (s1, if sentinels o then plant shd wr start (Z.to_nat (sz s1)) m else m)
  else (s0, m).

(* drsyscall/drsyscall.c:389-505 handle_pre_unknown_syscall. *)
Fixpoint pre_walk (o : options) (shd : shadow) (wr : Z -> bool) (prevs : list slot)
    (ps : list param) (olds : list slot) (m : memory) : list slot * memory :=
  match ps, olds with
  | p :: ps', old :: olds' =>
      let '(s, m) := pre_arg o shd wr prevs p old m in
      let '(l, m) := pre_walk o shd wr (prevs ++ [s]) ps' olds' m in
      (s :: l, m)
  | _, _ => ([], m)
  end.

(* drsyscall/drsyscall.c:533-536: the byte counts as written. *)
Definition written (o : options) (post old : Z) : bool :=
  if sentinels o then negb (post =? SENTINEL) else negb (post =? old).

(* drsyscall/drsyscall.c:548-560, and what Dr. Memory does with the report
   (drmemory/syscall.c:384-388, MEMREF_WRITE): bytes in the range that are
   addressable become defined. *)
Definition reported (o : options) (pc : Z) : Z * Z :=
  if dword o then (pc / 4 * 4, 4) else (pc, 1).
Definition mark (o : options) (pc : Z) (shd : shadow) : shadow :=
  let '(a, n) := reported o pc in
  fun x => if (a <=? x) && (x <? a + n) && is_addr (shd x) then Def else shd x.

(* drsyscall/drsyscall.c:523-560: one argument after the call, with a client. *)
Fixpoint look (o : options) (a : Z) (old post : list Z) (shd : shadow)
  : list (Z * Z) * shadow :=
  match old, post with
  | v :: old', q :: post' =>
      if is_undef (shd a) && written o q v then
        let '(l, shd) := look o (a + 1) old' post' (mark o a shd) in
        (reported o a :: l, shd)
      else look o (a + 1) old' post' shd
  | _, _ => ([], shd)
  end.

(* drsyscall/drsyscall.c:520-598 handle_post_unknown_syscall with a client. *)
Fixpoint look_all (o : options) (slots : list slot) (m : memory) (shd : shadow)
  : list (Z * Z) * shadow :=
  match slots with
  | [] => ([], shd)
  | s :: l =>
      let '(r, shd) :=
        if ptr s =? 0 then ([], shd)
        else match read m (ptr s) (Z.to_nat (sz s)) with
             | Some post => look o (ptr s) (val s) post shd
             | None => ([], shd)
             end in
      let '(r', shd) := look_all o l m shd in
      (r ++ r', shd)
  end.

(* drsyscall/drsyscall.c:523-571: one argument after the call, without a client:
   bytes that still hold the sentinel get their old value back. *)
Fixpoint restore (o : options) (shd : shadow) (wr : Z -> bool) (a : Z)
    (old post : list Z) (m : memory) : memory :=
  match old, post with
  | v :: old', q :: post' =>
      let m :=
        if is_undef (shd a) && negb (written o q v) &&
           (q =? SENTINEL) && negb (v =? SENTINEL) && wr a
        then upd m a v else m in
      restore o shd wr (a + 1) old' post' m
  | _, _ => m
  end.

(* drsyscall/drsyscall.c:520-598 handle_post_unknown_syscall without one, from
   drsys_event_post_syscall_last (2008-2009). *)
Fixpoint restore_all (o : options) (shd : shadow) (wr : Z -> bool) (slots : list slot)
    (m : memory) : memory :=
  match slots with
  | [] => m
  | s :: l =>
      let m :=
        if ptr s =? 0 then m
        else match read m (ptr s) (Z.to_nat (sz s)) with
             | Some post => restore o shd wr (ptr s) (val s) post m
             | None => m
             end in
      restore_all o shd wr l m
  end.

(* The kernel: the bytes it writes, over the memory it finds. *)
Definition kernel (w : Z -> option Z) (m : memory) : memory :=
  fun a => match w a with Some v => Some v | None => m a end.

(* One call, from the pre-syscall event to the last post-syscall event.
   Dr. Memory iterates over the memory arguments after the call only if it
   succeeded (drmemory/syscall.c:524-530).  The results are the arrays, the
   reports, the shadow and the memory. *)
Record outcome := Outcome
  { slots : list slot; reports : list (Z * Z); shd_end : shadow; mem_end : memory }.

Definition call (o : options) (wr : Z -> bool) (ps : list param) (olds : list slot)
    (shd : shadow) (m : memory) (w : Z -> option Z) (success : bool) : outcome :=
  let '(l, m1) := pre_walk o shd wr [] ps olds m in
  let m2 := kernel w m1 in
  let '(r, shd') := if success then look_all o l m2 shd else ([], shd) in
  Outcome l r shd' (restore_all o shd' wr l m2).
