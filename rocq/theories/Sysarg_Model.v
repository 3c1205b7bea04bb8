(** Model of the walk over the memory arguments of a known system call:
    drsyscall/drsyscall.c, as built for 64-bit Linux.  The client's callback
    is the one of drmemory/syscall.c, which always asks for the next argument,
    so [ii->abort] stays false and is left out.

    Simplifications.  The Windows-only branches, the secondary tables, the
    per-call special cases of drsyscall_linux.c (os_handle_pre_syscall) and the
    handlers of struct msghdr, struct msgbuf and arrays of strings are not
    modelled.  Names, types and messages attached to a report are dropped.
    An index outside an array is [UB]. *)
From Verif Require Import Base.
Local Open Scope Z_scope.

(** ** The table entries *)

(* drsyscall/drsyscall_os.h:101-152: the flags of sysinfo_arg_t that occur
   outside Windows-only code. *)
Inductive flag :=
| fREAD        (* SYSARG_READ *)
| fWRITE       (* SYSARG_WRITE *)
| fCOMPLEX     (* SYSARG_COMPLEX_TYPE *)
| fINOUT       (* SYSARG_LENGTH_INOUT *)
| fELEMENTS    (* SYSARG_SIZE_IN_ELEMENTS *)
| fINLINED     (* SYSARG_INLINED *)
| fCOUNT0      (* SYSARG_NO_WRITE_IF_COUNT_0 *)
| fTYPE        (* SYSARG_HAS_TYPE *)
| fNEXTNULL    (* SYSARG_IGNORE_IF_NEXT_NULL *)
| fPREVNULL    (* SYSARG_IGNORE_IF_PREV_NULL *)
| fNONMEM      (* SYSARG_NON_MEMARG *)
| fPLUS1.      (* SYSARG_SIZE_PLUS_1 *)

Definition flag_eqb (f g : flag) : bool :=
  match f, g with
  | fREAD, fREAD | fWRITE, fWRITE | fCOMPLEX, fCOMPLEX | fINOUT, fINOUT
  | fELEMENTS, fELEMENTS | fINLINED, fINLINED | fCOUNT0, fCOUNT0
  | fTYPE, fTYPE | fNEXTNULL, fNEXTNULL | fPREVNULL, fPREVNULL
  | fNONMEM, fNONMEM | fPLUS1, fPLUS1 => true
  | _, _ => false
  end.

(* drsyscall/drsyscall_os.h:218-236 sysinfo_arg_t.  A set of flags is the list
   of those that are on. *)
Record entry := Entry
  { param : Z; size : Z; flags : list flag; misc : Z }.

(* TEST(flag, arg->flags), used throughout drsyscall/drsyscall.c. *)
Definition has (f : flag) (e : entry) : bool := existsb (flag_eqb f) (flags e).

(* drsyscall/drsyscall_os.h:156-163: the two special sizes. *)
Definition SIZE_RETVAL : Z := -101.
Definition SIZE_IN_FIELD : Z := -102.

(* drsyscall/drsyscall.h:171-217: the types with a handler below. *)
Definition T_CSTRING : Z := 17.
Definition T_SOCKADDR : Z := 40.

(* drsyscall/drsyscall.c:1241 SIZE_DYNAMIC. *)
Definition SIZE_DYNAMIC : Z := 2 ^ 64 - 1.

(* drsyscall/drsyscall_os.h:33-37 MAX_ARGS_IN_ENTRY, SYSCALL_NUM_ARG_STORE. *)
Definition MAX_ARGS : Z := 6.

(* drsyscall/drsyscall.c:1029-1033 sysarg_invalid. *)
Definition invalid (e : entry) : bool :=
  (param e =? 0) && (size e =? 0) &&
  match flags e with [] => true | _ => false end.

(* drsyscall/drsyscall_os.h:291: the array syscall_info_t.arg, whose unwritten
   places a static initialiser leaves zero. *)
Definition zero_entry : entry := Entry 0 0 [] 0.
Definition array (t : list entry) : list entry :=
  t ++ repeat zero_entry (Z.to_nat MAX_ARGS - length t).

(** ** The state of one call *)

(* What the processor and the kernel supply: the six argument registers saved
   at drsyscall/drsyscall.c:1925-1956, the application's memory as safe_read
   sees it (None: not readable), and the result register. *)
Record world := World
  { args : Z -> Z; mem : Z -> option Z; ret : Z }.

(* drsyscall/drsyscall_os.h:311-329: cls_syscall_t, without the fields of
   unknown system calls.  Of extra_info only the two slots used here. *)
Record cls := Cls
  { known : Z -> Z; x_field : Z; x_sock : Z; first : bool }.

(* A call of the client's memory callback: drsyscall/drsyscall.c:797-840. *)
Record report := Report
  { r_ord : Z; r_in : bool; r_out : bool; r_start : Z; r_size : Z }.

Definition u64 (z : Z) : Z := z mod 2 ^ 64.
Definition u32 (z : Z) : Z := z mod 2 ^ 32.

(* pt->sysarg[n], an array of SYSCALL_NUM_ARG_STORE words
   (drsyscall/drsyscall_os.h:311). *)
Definition sysarg (w : world) (n : Z) : res Z :=
  if (0 <=? n) && (n <? MAX_ARGS) then Ok (args w n) else UB.

(* safe_read of n bytes into a zeroed little-endian integer. *)
Fixpoint safe_read (m : Z -> option Z) (a : Z) (n : nat) : option Z :=
  match n with
  | O => Some 0
  | S n' =>
      match m a, safe_read m (a + 1) n' with
      | Some b, Some r => Some (b + 256 * r)
      | _, _ => None
      end
  end.

(* drsyscall/drsyscall.c:797-840 report_memarg_ex with mode_from_flags
   (842-855): after the call, what is not an output is not reported. *)
Definition report_memarg (pre : bool) (ord : Z) (fl : list flag) (start sz : Z)
  : list report :=
  let i := existsb (flag_eqb fREAD) fl in
  let o := existsb (flag_eqb fWRITE) fl in
  if negb pre && negb o then [] else [Report ord i o start sz].

(** ** Sizes *)

(* drsyscall/drsyscall.c:1320-1323 and 1336-1339: the entry of parameter p at
   or after the given place, or else the empty entry that ends the array. *)
Fixpoint scan (l : list entry) (p : Z) : res entry :=
  match l with
  | [] => UB
  | e :: l' => if invalid e then Ok e else if param e =? p then Ok e else scan l' p
  end.

(* drsyscall/drsyscall.c:1319,1335. *)
Definition size_entry (t : list entry) (i : nat) (e : entry) : res entry :=
  let q := - size e in
  scan (skipn (if q <? param e then O else S i) (array t)) q.

(* drsyscall/drsyscall.c:1244-1380 sysarg_get_size for entry i of t. *)
Definition get_size (pre : bool) (w : world) (t : list entry) (i : nat)
    (e : entry) (start : Z) (s : cls) : res (Z * cls * list report) :=
  if (size e =? 0) && has fCOMPLEX e && (misc e =? T_CSTRING) then
    Ok (SIZE_DYNAMIC, s, [])
  else
    let* r :=
      if size e =? SIZE_RETVAL then
        Ok (if pre then 0 else ret w, s, [])
      else if size e =? SIZE_IN_FIELD then
        if pre then
          let rep := if start =? 0 then []
                     else report_memarg pre (param e) [fREAD] (start + misc e) 4 in
          let sz := if start =? 0 then 0
                    else if first s then
                      match safe_read (mem w) (start + misc e) 4 with
                      | Some v => v | None => 0 end
                    else x_field s in
          Ok (sz,
              if first s then Cls (known s) sz (x_sock s) (first s) else s,
              rep)
        else Ok (x_field s, s, [])
      else
        let* sz :=
          if 0 <? size e then Ok (size e)
          else
            let* v := sysarg w (- size e) in
            let* e' := size_entry t i e in
            Ok (if size e' =? 4 then u32 v else v) in
        if has fINOUT e then
          let* e' := size_entry t i e in
          let* p := sysarg w (- size e) in
          if (size e' <? 0) || (8 <? size e') then UB
          else Ok (if p =? 0 then 0
                   else match safe_read (mem w) p (Z.to_nat (size e')) with
                        | Some v => v | None => 0 end, s, [])
        else Ok (sz, s, []) in
    let '(sz, s', rep) := r in
    let sz := if has fPLUS1 e then u64 (sz + 1) else sz in
    if has fELEMENTS e then
      if 0 <? misc e then Ok (u64 (sz * misc e), s', rep)
      else
        let* k := sysarg w (- misc e) in
        let k := u32 k in
        let k := if k <? 2 ^ 31 then k else k - 2 ^ 32 in
        Ok (u64 (sz * k), s', rep)
    else Ok (sz, s', rep).

(* drsyscall/drsyscall.c:1382-1405 should_ignore_arg. *)
Definition should_ignore (w : world) (t : list entry) (i : nat) (e : entry)
  : res bool :=
  let look (k : Z) :=
    if (0 <=? k) && (k <? MAX_ARGS) then
      match nth_error (array t) (Z.to_nat k) with
      | Some e' => let* p := sysarg w (param e') in Ok (p =? 0)
      | None => UB
      end
    else Ok false in
  if has fNEXTNULL e then look (Z.of_nat i + 1)
  else if has fPREVNULL e then look (Z.of_nat i - 1)
  else Ok false.

(** ** The handlers of the two complex types *)

(* drsyscall/drsyscall.c:1074-1085: the number of bytes before the first that
   is zero or unreadable, at most n. *)
Fixpoint scan_string (m : Z -> option Z) (a : Z) (n : nat) : Z :=
  match n with
  | O => 0
  | S n' =>
      match m a with
      | None => 0
      | Some b => if b =? 0 then 0 else 1 + scan_string m (a + 1) n'
      end
  end.

(* drsyscall/drsyscall.c:1035-1037 MAX_PATH. *)
Definition MAX_PATH : Z := 4096.

(* drsyscall/drsyscall.c:1045-1089 handle_cstring, called with no safe copy and
   check_addr false (drsyscall/drsyscall_linux.c:1878-1887).  The boolean says
   that all checks are done. *)
Definition handle_cstring (pre : bool) (w : world) (ord : Z) (fl : list flag)
    (start sz : Z) : bool * list report :=
  let maxsz := if sz =? 0 then MAX_PATH else sz in
  if start =? 0 then (false, [])
  else if pre && negb (existsb (flag_eqb fREAD) fl) then (false, [])
  else if negb pre && negb (existsb (flag_eqb fWRITE) fl) then (false, [])
  else (true, report_memarg pre ord fl start
                (scan_string (mem w) start (Z.to_nat maxsz) + 1)).

(* drsyscall/drsyscall.c:1091-1103 safe_strnlen, which reads memory directly
   and so faults where it is not readable. *)
Fixpoint strnlen (m : Z -> option Z) (a : Z) (n : nat) : res Z :=
  match n with
  | O => Ok 0
  | S n' =>
      match m a with
      | None => UB
      | Some b => if b =? 0 then Ok 0
                  else let* r := strnlen m (a + 1) n' in Ok (1 + r)
      end
  end.

(* The offsets and sizes of the fields that drsyscall/drsyscall.c:1164-1217
   walks, per address family, in <netinet/in.h> and <linux/netlink.h>. *)
Definition sock_fields (family : Z) : list (Z * Z) :=
  if family =? 2 then [(2, 2); (4, 4)]
  else if family =? 10 then [(2, 2); (4, 4); (8, 16); (24, 4)]
  else if family =? 16 then [(2, 2); (4, 4); (8, 4)]
  else [].

(* drsyscall/drsyscall.c:1104-1228 handle_sockaddr.  110 is the size of struct
   sockaddr_un, whose path starts at 2. *)
Definition handle_sockaddr (pre : bool) (w : world) (s : cls) (ord : Z)
    (fl : list flag) (ptr socklen : Z) : res (cls * list report) :=
  let wr := existsb (flag_eqb fWRITE) fl in
  let s' := if first s && pre && wr
            then Cls (known s) (x_field s) socklen (first s) else s in
  let socklen :=
    if first s && pre && wr then socklen
    else if negb pre && wr then Z.min socklen (x_sock s)
    else socklen in
  if wr then Ok (s', report_memarg pre ord fl ptr socklen)
  else
    let r1 := if pre then report_memarg pre ord fl ptr 2 else [] in
    match safe_read (mem w) ptr 2 with
    | None => Ok (s', r1)
    | Some family =>
        if family =? 1 then
          let sz_left := u64 (socklen - 2) in
          let* len := strnlen (mem w) (ptr + 2) (Z.to_nat (Z.min sz_left 108)) in
          Ok (s', r1 ++ (if 0 <? len
                         then report_memarg pre ord fl (ptr + 2) len else []))
        else
          Ok (s', r1 ++ flat_map
                (fun f => if fst f + snd f <=? socklen
                          then report_memarg pre ord fl (ptr + fst f) (snd f)
                          else []) (sock_fields family))
    end.

(* drsyscall/drsyscall_linux.c:1932-1954 os_handle_syscall_arg_access, whose
   size parameter is a 32-bit one. *)
Definition os_access (pre : bool) (w : world) (s : cls) (e : entry)
    (start sz : Z) : res (bool * cls * list report) :=
  if negb (has fCOMPLEX e) then Ok (false, s, [])
  else if misc e =? T_CSTRING then
    let '(b, r) := handle_cstring pre w (param e) (flags e) start (u32 sz) in
    Ok (b, s, r)
  else if misc e =? T_SOCKADDR then
    let* r := handle_sockaddr pre w s (param e) (flags e) start (u32 sz) in
    let '(s', rep) := r in Ok (true, s', rep)
  else Ok (false, s, []).

(** ** The two walks *)

Definition set_known (s : cls) (p v : Z) : cls :=
  Cls (fun q => if q =? p then v else known s q) (x_field s) (x_sock s) (first s).

(* drsyscall/drsyscall.c:1410-1490 process_pre_syscall_reads_and_writes, from
   place i of the array on. *)
Fixpoint pre_loop (w : world) (t : list entry) (l : list entry) (i : nat)
    (last : Z) (s : cls) : res (cls * list report) :=
  match l with
  | [] => Ok (s, [])
  | e :: l' =>
      if invalid e then Ok (s, [])
      else if param e =? last then pre_loop w t l' (S i) last s
      else if has fINLINED e || has fNONMEM e
      then pre_loop w t l' (S i) (param e) s
      else
        let* start := sysarg w (param e) in
        let* g := get_size true w t i e start s in
        let '(sz, s, r1) := g in
        let s := set_known s (param e) sz in
        if negb (start =? 0) && (0 <? sz) then
          let real := if sz =? SIZE_DYNAMIC then 0 else sz in
          let* a := os_access true w s e start real in
          let '(skip, s, r2) := a in
          let* skip := if skip then Ok true else should_ignore w t i e in
          let r3 := if skip then []
                    else report_memarg true (param e) (flags e) start real in
          let* k := pre_loop w t l' (S i) (param e) s in
          Ok (fst k, r1 ++ r2 ++ r3 ++ snd k)
        else
          let* k := pre_loop w t l' (S i) (param e) s in
          Ok (fst k, r1 ++ snd k)
  end.

(* drsyscall/drsyscall.c:1492-1612 process_post_syscall_reads_and_writes, from
   place i of the array on; [prev] is the entry before. *)
Fixpoint post_loop (w : world) (t : list entry) (l : list entry) (i : nat)
    (prev : entry) (last last_size : Z) (s : cls) : res (list report) :=
  match l with
  | [] => Ok []
  | e :: l' =>
      if invalid e then Ok []
      else if negb (has fWRITE e) then post_loop w t l' (S i) e last last_size s
      else
        let* start := sysarg w (param e) in
        let* g := get_size false w t i e start s in
        let '(sz, _, _) := g in
        let sz := if known s (param e) <? sz then known s (param e) else sz in
        if param e =? last then
          let sz := if sz =? 0 then last_size else sz in
          let* sz :=
            if has fCOUNT0 e && (0 <? Z.of_nat i) then
              let* c := sysarg w (- size prev) in
              Ok (if c =? 0 then 0 else sz)
            else Ok sz in
          let* r :=
            if negb (start =? 0) && (0 <? sz) then
              let* a := os_access false w s e start sz in
              let '(skip, _, r2) := a in
              let* skip := if skip then Ok true else should_ignore w t i e in
              Ok (r2 ++ if skip then []
                        else report_memarg false (param e) (flags e) start sz)
            else Ok [] in
          let* k := post_loop w t l' (S i) e last last_size s in
          Ok (r ++ k)
        else
          let double :=
            match l' with
            | e1 :: _ => (param e1 =? param e) && negb (invalid e1)
            | [] => false
            end in
          let* r :=
            if double then Ok []
            else if negb (start =? 0) && (0 <? sz) then
              let* a := os_access false w s e start sz in
              let '(skip, _, r2) := a in
              Ok (r2 ++ if skip then []
                        else report_memarg false (param e) (flags e) start sz)
            else Ok [] in
          let* k := post_loop w t l' (S i) e (param e) sz s in
          Ok (r ++ k)
  end.

(** ** The events *)

(* drsyscall/drsyscall.c:1893-1901 drsys_event_pre_syscall. *)
Definition start_call (s : cls) : cls := Cls (known s) (x_field s) (x_sock s) true.

Definition not_first (s : cls) : cls := Cls (known s) (x_field s) (x_sock s) false.

(* drsyscall/drsyscall.c:1656-1707 drsys_iterate_memargs before the call, and
   1816-1852 drsys_iterate_args, before or after it, whose walk over the memory
   arguments is the same one with a callback that does nothing. *)
Definition iterate_pre (w : world) (t : list entry) (s : cls)
  : res (cls * list report) :=
  let* r := pre_loop w t (array t) 0 (-1) s in
  Ok (not_first (fst r), snd r).

Definition iterate_args (w : world) (t : list entry) (s : cls) : res cls :=
  let* r := iterate_pre w t s in Ok (fst r).

(* drsyscall/drsyscall_linux.c:1976-1985 os_syscall_succeeded, for a call other
   than mmap and mremap. *)
Definition succeeded (w : world) : bool := ret w <? 2 ^ 63.

(* drsyscall/drsyscall.c:1684-1707 drsys_iterate_memargs after the call. *)
Definition iterate_post (w : world) (t : list entry) (s : cls) : res (list report) :=
  if succeeded w then post_loop w t (array t) 0 zero_entry (-1) 0 s else Ok [].

(* drmemory/syscall.c:469-473 and 524-533: what Dr. Memory does around one system call.
   Before it, the arguments and then the memory arguments; after it, the memory
   arguments.  The results are what was reported before and after. *)
Definition session (before after : world) (t : list entry) (s : cls)
  : res (list report * list report) :=
  let* s1 := iterate_args before t (start_call s) in
  let* r := iterate_pre before t s1 in
  let* q := iterate_post after t (fst r) in
  Ok (snd r, q).
