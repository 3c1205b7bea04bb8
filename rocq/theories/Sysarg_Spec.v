(** What the Linux kernel does with the memory a system call is handed, after
    the manual pages, and what a checker that follows it must report.  Nothing
    here refers to the walk over the table; only the shape of the input
    (registers, memory, result) is shared with the model. *)
From Verif Require Import Base Sysarg_Model.
From Coq Require Import String.
Local Open Scope Z_scope.

(** ** Contracts *)

(** The length of a buffer: a constant, or n times argument q. *)
Inductive len := Bytes (n : Z) | Times (q n : Z).

(** One argument of a system call.
    [Value p n]: argument p is an n-byte number.
    [Reads p l]: the kernel reads l bytes at argument p.
    [ReadsString p]: it reads a string up to its terminating zero.
    [Writes p l]: it writes l bytes at argument p.
    [WritesCounted p q n]: argument p has room for (argument q) elements of n
      bytes, and the kernel writes as many of them as it returns.
    [WritesSized p q]: argument q points at a 32-bit length, which the caller
      sets to the room at argument p and the kernel to the length of the
      result, which it cuts off if there is no room.
    [Exchanges p n]: the kernel reads n bytes at argument p and writes n back. *)
Inductive use :=
| Value (p n : Z)
| Reads (p : Z) (l : len)
| ReadsString (p : Z)
| Writes (p : Z) (l : len)
| WritesCounted (p q n : Z)
| WritesSized (p q : Z)
| Exchanges (p n : Z).

Definition length_of (w : world) (l : len) : Z :=
  match l with Bytes n => n | Times q n => args w q * n end.

(** The 32-bit number stored at an address, lowest byte first. *)
Definition word32 (m : Z -> option Z) (a : Z) : option Z :=
  match m a, m (a + 1), m (a + 2), m (a + 3) with
  | Some b0, Some b1, Some b2, Some b3 =>
      Some (b0 + 2 ^ 8 * b1 + 2 ^ 16 * b2 + 2 ^ 24 * b3)
  | _, _, _, _ => None
  end.

Definition word16 (m : Z -> option Z) (a : Z) : option Z :=
  match m a, m (a + 1) with
  | Some b0, Some b1 => Some (b0 + 2 ^ 8 * b1)
  | _, _ => None
  end.

Definition size_at (w : world) (q : Z) : Z :=
  if args w q =? 0 then 0
  else match word32 (mem w) (args w q) with Some v => v | None => 0 end.

(** There is a string of n bytes at a, followed by a zero. *)
Definition string_at (m : Z -> option Z) (a n : Z) : Prop :=
  0 <= n /\ (forall k, 0 <= k < n -> exists b, m (a + k) = Some b /\ b <> 0) /\
  m (a + n) = Some 0.

(** What must hold of the memory before the call: a range (start, size) has to
    be defined ([true]) or only addressable ([false]).  A null pointer stands
    for an argument left out. *)
Definition range {A} (w : world) (p n : Z) (x : Z -> Z -> A) : list A :=
  if (args w p =? 0) || (n <=? 0) then [] else [x (args w p) n].

Definition needs1 (w : world) (str : Z -> Z) (u : use) : list (bool * Z * Z) :=
  let defined a n := (true, a, n) in
  let addressable a n := (false, a, n) in
  match u with
  | Value _ _ => []
  | Reads p l => range w p (length_of w l) defined
  | ReadsString p => range w p (str p + 1) defined
  | Writes p l => range w p (length_of w l) addressable
  | WritesCounted p q n => range w p (args w q * n) addressable
  | WritesSized p q => range w p (size_at w q) addressable
  | Exchanges p n => range w p n defined
  end.

(** What the kernel has written when the call returns successfully. *)
Definition writes1 (before after : world) (u : use) : list (Z * Z) :=
  match u with
  | Value _ _ | Reads _ _ | ReadsString _ => []
  | Writes p l => range before p (length_of before l) pair
  | WritesCounted p q n =>
      range before p (Z.min (ret after) (args before q) * n) pair
  | WritesSized p q =>
      range before p (Z.min (size_at before q) (size_at after q)) pair
  | Exchanges p n => range before p n pair
  end.

Definition needs (w : world) (str : Z -> Z) (c : list use) :=
  flat_map (needs1 w str) c.
Definition writes (before after : world) (c : list use) :=
  flat_map (writes1 before after) c.

(** A call that is made in earnest: strings are terminated and shorter than
    MAX_PATH, no length is so large that it wraps around, numbers passed in
    four bytes have nothing above them, and a counted result is not empty. *)
Definition earnest1 (before after : world) (str : Z -> Z) (u : use) : Prop :=
  match u with
  | Value p n => n = 4 -> args before p < 2 ^ 32
  | Reads p l | Writes p l => length_of before l < 2 ^ 64 - 1
  | ReadsString p =>
      args before p <> 0 ->
      string_at (mem before) (args before p) (str p) /\ str p < 4096
  | WritesCounted p q n =>
      args before q * n < 2 ^ 64 - 1 /\ 0 < ret after /\ ret after * n < 2 ^ 64
  | WritesSized p q => True
  | Exchanges p n => True
  end.

Definition bytes_in (m : Z -> option Z) : Prop :=
  forall a b, m a = Some b -> 0 <= b < 256.

Definition earnest (before after : world) (str : Z -> Z) (c : list use) : Prop :=
  (forall p, 0 <= args before p < 2 ^ 64) /\
  (forall p, args after p = args before p) /\
  bytes_in (mem before) /\ bytes_in (mem after) /\
  0 <= ret after < 2 ^ 63 /\
  Forall (earnest1 before after str) c.

(** A row of the table follows a contract: what is reported before the call is
    what the kernel needs, what is reported after it is what it has written. *)
Definition view_before (r : report) : bool * Z * Z := (r_in r, r_start r, r_size r).
Definition view_after (r : report) : Z * Z := (r_start r, r_size r).

Definition follows (t : list entry) (c : list use) : Prop :=
  forall before after str s,
    earnest before after str c ->
    exists pre post,
      session before after t s = Ok (pre, post) /\
      map view_before pre = needs before str c /\
      map view_after post = writes before after c.

(** ** Tables of any contents *)

Definition sole (t : list entry) (e : entry) : Prop :=
  filter (fun x => param x =? param e) t = [e].

(** A table row that is put together sensibly: what is written, or has its size
    in a field of its own, is an argument passed in memory; and an entry whose
    size is a field, or that describes a socket address to be written, is the
    only one for its argument, and not both (misc would have two meanings). *)
Definition sensible (t : list entry) : Prop :=
  forall e e', In e t -> In e' t -> has fWRITE e' = true \/ size e' = SIZE_IN_FIELD ->
    param e = param e' ->
    0 <= param e /\ has fINLINED e = false /\ has fNONMEM e = false /\
    (size e' = SIZE_IN_FIELD \/ has fCOMPLEX e' = true /\ misc e' = T_SOCKADDR /\ has fWRITE e' = true ->
     sole t e') /\
    (has fCOMPLEX e' = true -> size e' <> SIZE_IN_FIELD).

(** Besides, outputs are plain memory and are not subject to another argument
    being null. *)
Definition plain_outputs (t : list entry) : Prop :=
  forall e e', In e t -> In e' t -> has fWRITE e' = true -> param e = param e' ->
    has fCOMPLEX e = false /\ has fNEXTNULL e = false /\ has fPREVNULL e = false.

(** The range of one report lies in that of another about the same argument. *)
Definition inside (r r' : report) : Prop :=
  r_ord r = r_ord r' /\ r_start r = r_start r' /\ r_size r <= r_size r'.

(** ** The contracts of the calls in the table

    From the manual pages, section 2.  Not listed: the calls for which
    drsyscall_linux.c has code besides the table (_sysctl, rt_sigaction, futex,
    process_vm_readv, process_vm_writev, arch_prctl), those that pass a struct
    msghdr, a struct msgbuf, an array of strings or a socket address to be read
    (execve, sendmsg, recvmsg, msgsnd, msgrcv, connect, bind, sendto), and
    those whose effect depends on more than their lengths and their result
    (recvfrom, wait4, mincore, keyctl, set_robust_list, rseq). *)
Local Open Scope string_scope.

Definition path1 : list use := [ReadsString 0].

Definition kernel_contracts : list (string * list use) := [
  ("read", [WritesCounted 1 2 1]);
  ("write", [Reads 1 (Times 2 1)]);
  ("open", path1);
  ("creat", path1);
  ("link", [ReadsString 0; ReadsString 1]);
  ("unlink", path1);
  ("chdir", path1);
  ("time", [Writes 0 (Bytes 8)]);
  ("mknod", path1);
  ("chmod", path1);
  ("stat", [ReadsString 0; Writes 1 (Bytes 144)]);
  ("mount", [ReadsString 0; ReadsString 1; ReadsString 2]);
  ("fstat", [Writes 1 (Bytes 144)]);
  ("utime", [ReadsString 0; Reads 1 (Bytes 16)]);
  ("access", path1);
  ("rename", [ReadsString 0; ReadsString 1]);
  ("mkdir", path1);
  ("rmdir", path1);
  ("pipe", [Writes 0 (Bytes 8)]);
  ("times", [Writes 0 (Bytes 32)]);
  ("acct", path1);
  ("chroot", path1);
  ("ustat", [Writes 1 (Bytes 32)]);
  ("sethostname", [Reads 0 (Times 1 1)]);
  ("setrlimit", [Reads 1 (Bytes 16)]);
  ("getrusage", [Writes 1 (Bytes 144)]);
  ("gettimeofday", [Writes 0 (Bytes 16); Writes 1 (Bytes 8)]);
  ("settimeofday", [Reads 0 (Bytes 16); Reads 1 (Bytes 8)]);
  ("symlink", [ReadsString 0; ReadsString 1]);
  ("lstat", [ReadsString 0; Writes 1 (Bytes 144)]);
  ("readlink", [ReadsString 0; WritesCounted 1 2 1]);
  ("uselib", path1);
  ("swapon", path1);
  ("truncate", path1);
  ("statfs", [ReadsString 0; Writes 1 (Bytes 120)]);
  ("fstatfs", [Writes 1 (Bytes 120)]);
  ("syslog", [WritesCounted 1 2 1]);
  ("setitimer", [Reads 1 (Bytes 32); Writes 2 (Bytes 32)]);
  ("getitimer", [Writes 1 (Bytes 32)]);
  ("swapoff", path1);
  ("sysinfo", [Writes 0 (Bytes 112)]);
  ("setdomainname", [Reads 0 (Times 1 1)]);
  ("adjtimex", [Exchanges 0 208]);
  ("init_module", [Reads 0 (Times 1 1); ReadsString 2]);
  ("delete_module", path1);
  ("quotactl", [ReadsString 1]);
  ("getdents", [WritesCounted 1 2 1]);
  ("msync", []);
  ("sched_setparam", [Reads 1 (Bytes 4)]);
  ("sched_getparam", [Writes 1 (Bytes 4)]);
  ("sched_setscheduler", [Reads 2 (Bytes 4)]);
  ("nanosleep", [Reads 0 (Bytes 16)]);
  ("rt_sigprocmask", [Reads 1 (Bytes 8); Writes 2 (Bytes 8)]);
  ("rt_sigpending", [Writes 0 (Bytes 8)]);
  ("rt_sigtimedwait", [Reads 0 (Bytes 8); Writes 1 (Bytes 128); Reads 2 (Bytes 16)]);
  ("rt_sigqueueinfo", [Reads 2 (Bytes 128)]);
  ("pread64", [WritesCounted 1 2 1]);
  ("pwrite64", [Reads 1 (Times 2 1)]);
  ("getcwd", [WritesCounted 0 1 1]);
  ("capget", [Reads 0 (Bytes 8); Writes 1 (Bytes 24)]);
  ("capset", [Reads 0 (Bytes 8); Reads 1 (Bytes 24)]);
  ("sendfile", [Exchanges 2 8]);
  ("getrlimit", [Writes 1 (Bytes 16)]);
  ("lchown", path1);
  ("getresuid", [Writes 0 (Bytes 4); Writes 1 (Bytes 4); Writes 2 (Bytes 4)]);
  ("getresgid", [Writes 0 (Bytes 4); Writes 1 (Bytes 4); Writes 2 (Bytes 4)]);
  ("chown", path1);
  ("getdents64", [WritesCounted 1 2 1]);
  ("setxattr", [ReadsString 0; ReadsString 1; Reads 2 (Times 3 1)]);
  ("lsetxattr", [ReadsString 0; ReadsString 1; Reads 2 (Times 3 1)]);
  ("fsetxattr", [ReadsString 1; Reads 2 (Times 3 1)]);
  ("getxattr", [ReadsString 0; ReadsString 1; WritesCounted 2 3 1]);
  ("lgetxattr", [ReadsString 0; ReadsString 1; WritesCounted 2 3 1]);
  ("fgetxattr", [ReadsString 1; WritesCounted 2 3 1]);
  ("listxattr", [ReadsString 0; WritesCounted 1 2 1]);
  ("llistxattr", [ReadsString 0; WritesCounted 1 2 1]);
  ("flistxattr", [WritesCounted 1 2 1]);
  ("removexattr", [ReadsString 0; ReadsString 1]);
  ("lremovexattr", [ReadsString 0; ReadsString 1]);
  ("fremovexattr", [ReadsString 1]);
  ("sched_setaffinity", [Reads 2 (Times 1 1)]);
  ("sched_getaffinity", [WritesCounted 2 1 1]);
  ("epoll_ctl", [Reads 3 (Bytes 12)]);
  ("epoll_wait", [WritesCounted 1 2 12]);
  ("timer_create", [Reads 1 (Bytes 64); Writes 2 (Bytes 4)]);
  ("timer_settime", [Reads 2 (Bytes 32); Writes 3 (Bytes 32)]);
  ("timer_gettime", [Writes 1 (Bytes 32)]);
  ("clock_settime", [Reads 1 (Bytes 16)]);
  ("clock_gettime", [Writes 1 (Bytes 16)]);
  ("clock_getres", [Writes 1 (Bytes 16)]);
  ("clock_nanosleep", [Reads 2 (Bytes 16)]);
  ("utimes", [ReadsString 0; Reads 1 (Bytes 32)]);
  ("mq_unlink", path1);
  ("mq_timedsend", [Reads 1 (Times 2 1); Reads 4 (Bytes 16)]);
  ("mq_timedreceive", [WritesCounted 1 2 1; Writes 3 (Bytes 4); Reads 4 (Bytes 16)]);
  ("mq_notify", [Reads 1 (Bytes 64)]);
  ("waitid", [Writes 2 (Bytes 128); Writes 4 (Bytes 144)]);
  ("add_key", [ReadsString 0; ReadsString 1; Reads 2 (Times 3 1)]);
  ("request_key", [ReadsString 0; ReadsString 1; ReadsString 2]);
  ("inotify_add_watch", [ReadsString 1]);
  ("openat", [ReadsString 1]);
  ("mkdirat", [ReadsString 1]);
  ("mknodat", [ReadsString 1]);
  ("fchownat", [ReadsString 1]);
  ("futimesat", [ReadsString 1; Reads 2 (Bytes 32)]);
  ("unlinkat", [ReadsString 1]);
  ("renameat", [ReadsString 1; ReadsString 3]);
  ("linkat", [ReadsString 1; ReadsString 3]);
  ("symlinkat", [ReadsString 0; ReadsString 2]);
  ("readlinkat", [ReadsString 1; WritesCounted 2 3 1]);
  ("fchmodat", [ReadsString 1]);
  ("faccessat", [ReadsString 1]);
  ("epoll_pwait", [WritesCounted 1 2 12; Reads 4 (Bytes 8)]);
  ("utimensat", [ReadsString 1; Reads 2 (Bytes 32)]);
  ("signalfd", [Reads 1 (Bytes 8)]);
  ("timerfd_settime", [Reads 2 (Bytes 32); Writes 3 (Bytes 32)]);
  ("timerfd_gettime", [Writes 1 (Bytes 32)]);
  ("pipe2", [Writes 0 (Bytes 8); Value 1 4]);
  ("prlimit64", [Value 0 4; Value 1 4; Reads 2 (Bytes 16); Writes 3 (Bytes 16)]);
  ("syncfs", [Value 0 4]);
  ("finit_module", [Value 0 4; ReadsString 1; Value 2 4]);
  ("getrandom", [WritesCounted 0 1 1; Value 1 8; Value 2 4]);
  ("accept", [WritesSized 1 2; Exchanges 2 4]);
  ("getsockname", [WritesSized 1 2; Exchanges 2 4]);
  ("getpeername", [WritesSized 1 2; Exchanges 2 4]);
  ("socketpair", [Writes 3 (Bytes 8)]);
  ("setsockopt", [Reads 3 (Times 4 1)]);
  ("getsockopt", [WritesSized 3 4; Exchanges 4 4]);
  ("semop", [Reads 1 (Times 2 6)]);
  ("semtimedop", [Reads 1 (Times 2 6); Reads 3 (Bytes 16)]);
  ("newfstatat", [ReadsString 1; Writes 2 (Bytes 144)]);
  ("paccept", [WritesSized 1 2; Exchanges 2 4])
].

(** The calls for which the table does something else; each is taken up by a
    theorem of its own. *)
Definition departures : list string := [
  "accept"; "getsockname"; "getpeername"; "getsockopt"; "paccept";
  "sendfile"; "adjtimex"; "capget"; "capset"; "timer_create";
  "sched_getaffinity"; "mq_timedreceive"; "mq_timedsend"; "getrandom";
  "syslog"; "msync"; "nanosleep"; "clock_nanosleep" ].

(** The rows with outputs that are not plain: socket addresses, and structures
    with handlers that are not modelled. *)
Definition addressed : list string := [
  "accept"; "recvfrom"; "recvmsg"; "getsockname"; "getpeername"; "msgrcv"; "paccept" ].

Fixpoint member (n : string) (l : list string) : bool :=
  match l with [] => false | m :: l' => String.eqb n m || member n l' end.

(** What the table does for accept and its like: the length, which the kernel
    reads, is only required to be addressable. *)
Definition unread_length (p q : Z) : list use := [WritesSized p q; Writes q (Bytes 4)].

(** ** Socket addresses that the kernel reads *)

Local Close Scope string_scope.

(** The bytes of an address that carry meaning: family, port and address of
    AF_INET (2); all of struct sockaddr_in6 for AF_INET6 (10); all of struct
    sockaddr_nl for AF_NETLINK (16).  For AF_UNIX (1) it is the family and the
    name, which ends at a zero byte or at the end of the address. *)
Inductive significant (m : Z -> option Z) (a len : Z) : Z -> Prop :=
| sig_inet : word16 m a = Some 2 -> 16 <= len -> significant m a len 8
| sig_inet6 : word16 m a = Some 10 -> 28 <= len -> significant m a len 28
| sig_netlink : word16 m a = Some 16 -> 12 <= len -> significant m a len 12
| sig_unix n : word16 m a = Some 1 -> len <= 110 -> 0 <= n ->
    (forall k, 0 <= k < n -> exists b, m (a + 2 + k) = Some b /\ b <> 0) ->
    2 + n = len \/ (2 + n < len /\ m (a + 2 + n) = Some 0) ->
    significant m a len (2 + n).

(** A byte is required to be defined. *)
Definition demanded (l : list report) (a : Z) : Prop :=
  exists r, In r l /\ r_in r = true /\ r_start r <= a < r_start r + r_size r.

(** A call that is handed an address in argument p, of the length in q. *)
Definition takes_address (t : list entry) (p q : Z) : Prop :=
  forall before after s n,
    args before p <> 0 -> 0 <= args before q < 2 ^ 32 -> bytes_in (mem before) ->
    significant (mem before) (args before p) (args before q) n ->
    exists pre, session before after t s = Ok (pre, []) /\
      (forall a, demanded pre a <-> args before p <= a < args before p + n) /\
      Forall (fun r => r_ord r = p /\ r_out r = false) pre.
