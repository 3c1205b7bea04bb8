(** The rows of the system call table that list memory arguments:
    drsyscall/table_linux.c, the rows with a 64-bit number, in the order of
    the file.  The number in front of a row is its line there.  The sizes of
    the structures are those of 64-bit Linux and glibc, and stand for the
    sizeof expressions of the file; RET is SYSARG_POST_SIZE_RETVAL.  The row of
    ioctl, which only names its secondary table, is left out. *)
From Verif Require Import Base Sysarg_Model.
From Coq Require Import String.
Local Open Scope Z_scope.
Local Open Scope string_scope.

(* drsyscall/table_linux.c:44-1300 syscall_info. *)
Definition linux_table : list (string * list entry) := [
  (* :50 *)
  ("read",
    [Entry 1 (-2) [fWRITE] 0;
     Entry 1 SIZE_RETVAL [fWRITE] 0]);
  (* :56 *)
  ("write",
    [Entry 1 (-2) [fREAD] 0]);
  (* :61 *)
  ("open",
    [Entry 0 0 [fREAD; fCOMPLEX] T_CSTRING]);
  (* :72 *)
  ("creat",
    [Entry 0 0 [fREAD; fCOMPLEX] T_CSTRING]);
  (* :77 *)
  ("link",
    [Entry 0 0 [fREAD; fCOMPLEX] T_CSTRING;
     Entry 1 0 [fREAD; fCOMPLEX] T_CSTRING]);
  (* :83 *)
  ("unlink",
    [Entry 0 0 [fREAD; fCOMPLEX] T_CSTRING]);
  (* :88 *)
  ("execve",
    [Entry 0 0 [fREAD; fCOMPLEX] T_CSTRING;
     Entry 1 8 [fREAD; fCOMPLEX] 21;
     Entry 2 8 [fREAD; fCOMPLEX] 21]);
  (* :95 *)
  ("chdir",
    [Entry 0 0 [fREAD; fCOMPLEX] T_CSTRING]);
  (* :100 *)
  ("time",
    [Entry 0 8 [fWRITE] 0]);
  (* :105 *)
  ("mknod",
    [Entry 0 0 [fREAD; fCOMPLEX] T_CSTRING]);
  (* :110 *)
  ("chmod",
    [Entry 0 0 [fREAD; fCOMPLEX] T_CSTRING]);
  (* :129 *)
  ("stat",
    [Entry 0 0 [fREAD; fCOMPLEX] T_CSTRING;
     Entry 1 144 [fWRITE] 0]);
  (* :137 *)
  ("mount",
    [Entry 0 0 [fREAD; fCOMPLEX] T_CSTRING;
     Entry 1 0 [fREAD; fCOMPLEX] T_CSTRING;
     Entry 2 0 [fREAD; fCOMPLEX] T_CSTRING]);
  (* :165 *)
  ("fstat",
    [Entry 1 144 [fWRITE] 0]);
  (* :171 *)
  ("utime",
    [Entry 0 0 [fREAD; fCOMPLEX] T_CSTRING;
     Entry 1 16 [fREAD] 0]);
  (* :179 *)
  ("access",
    [Entry 0 0 [fREAD; fCOMPLEX] T_CSTRING]);
  (* :188 *)
  ("rename",
    [Entry 0 0 [fREAD; fCOMPLEX] T_CSTRING;
     Entry 1 0 [fREAD; fCOMPLEX] T_CSTRING]);
  (* :194 *)
  ("mkdir",
    [Entry 0 0 [fREAD; fCOMPLEX] T_CSTRING]);
  (* :199 *)
  ("rmdir",
    [Entry 0 0 [fREAD; fCOMPLEX] T_CSTRING]);
  (* :205 *)
  ("pipe",
    [Entry 0 8 [fWRITE] 0]);
  (* :210 *)
  ("times",
    [Entry 0 32 [fWRITE] 0]);
  (* :222 *)
  ("acct",
    [Entry 0 0 [fREAD; fCOMPLEX] T_CSTRING]);
  (* :244 *)
  ("chroot",
    [Entry 0 0 [fREAD; fCOMPLEX] T_CSTRING]);
  (* :253 *)
  ("ustat",
    [Entry 1 32 [fWRITE] 0]);
  (* :270 *)
  ("sethostname",
    [Entry 0 (-1) [fREAD] 0]);
  (* :275 *)
  ("setrlimit",
    [Entry 1 16 [fREAD] 0]);
  (* :285 *)
  ("getrusage",
    [Entry 1 144 [fWRITE] 0]);
  (* :290 *)
  ("gettimeofday",
    [Entry 0 16 [fWRITE] 0;
     Entry 1 8 [fWRITE] 0]);
  (* :296 *)
  ("settimeofday",
    [Entry 0 16 [fREAD] 0;
     Entry 1 8 [fREAD] 0]);
  (* :305 *)
  ("symlink",
    [Entry 0 0 [fREAD; fCOMPLEX] T_CSTRING;
     Entry 1 0 [fREAD; fCOMPLEX] T_CSTRING]);
  (* :319 *)
  ("lstat",
    [Entry 0 0 [fREAD; fCOMPLEX] T_CSTRING;
     Entry 1 144 [fWRITE] 0]);
  (* :325 *)
  ("readlink",
    [Entry 0 0 [fREAD; fCOMPLEX] T_CSTRING;
     Entry 1 (-2) [fWRITE] 0;
     Entry 1 SIZE_RETVAL [fWRITE] 0]);
  (* :332 *)
  ("uselib",
    [Entry 0 0 [fREAD; fCOMPLEX] T_CSTRING]);
  (* :337 *)
  ("swapon",
    [Entry 0 0 [fREAD; fCOMPLEX] T_CSTRING]);
  (* :347 *)
  ("truncate",
    [Entry 0 0 [fREAD; fCOMPLEX] T_CSTRING]);
  (* :359 *)
  ("statfs",
    [Entry 0 0 [fREAD; fCOMPLEX] T_CSTRING;
     Entry 1 120 [fWRITE] 0]);
  (* :365 *)
  ("fstatfs",
    [Entry 1 120 [fWRITE] 0]);
  (* :372 *)
  ("syslog",
    [Entry 1 (-2) [fWRITE] 0]);
  (* :377 *)
  ("setitimer",
    [Entry 1 32 [fREAD] 0;
     Entry 2 32 [fWRITE] 0]);
  (* :383 *)
  ("getitimer",
    [Entry 1 32 [fWRITE] 0]);
  (* :410 *)
  ("wait4",
    [Entry 1 4 [fWRITE] 0;
     Entry 3 144 [fWRITE] 0]);
  (* :416 *)
  ("swapoff",
    [Entry 0 0 [fREAD; fCOMPLEX] T_CSTRING]);
  (* :421 *)
  ("sysinfo",
    [Entry 0 112 [fWRITE] 0]);
  (* :430 *)
  ("setdomainname",
    [Entry 0 (-1) [fREAD] 0]);
  (* :441 *)
  ("adjtimex",
    [Entry 0 208 [fREAD] 0]);
  (* :449 *)
  ("init_module",
    [Entry 0 (-1) [fREAD] 0;
     Entry 2 0 [fREAD; fCOMPLEX] T_CSTRING]);
  (* :455 *)
  ("delete_module",
    [Entry 0 0 [fREAD; fCOMPLEX] T_CSTRING]);
  (* :461 *)
  ("quotactl",
    [Entry 1 0 [fREAD; fCOMPLEX] T_CSTRING]);
  (* :479 *)
  ("getdents",
    [Entry 1 (-2) [fWRITE] 0;
     Entry 1 SIZE_RETVAL [fWRITE] 0]);
  (* :487 *)
  ("msync",
    [Entry 0 (-1) [fREAD] 0]);
  (* :496 *)
  ("_sysctl",
    [Entry 0 80 [fREAD] 0]);
  (* :505 *)
  ("sched_setparam",
    [Entry 1 4 [fREAD] 0]);
  (* :510 *)
  ("sched_getparam",
    [Entry 1 4 [fWRITE] 0]);
  (* :515 *)
  ("sched_setscheduler",
    [Entry 2 4 [fREAD] 0]);
  (* :525 *)
  ("nanosleep",
    [Entry 0 16 [fREAD] 0;
     Entry 1 16 [fWRITE] 0]);
  (* :542 *)
  ("rt_sigaction",
    [Entry 2 32 [fWRITE] 0]);
  (* :545 *)
  ("rt_sigprocmask",
    [Entry 1 8 [fREAD] 0;
     Entry 2 8 [fWRITE] 0]);
  (* :551 *)
  ("rt_sigpending",
    [Entry 0 8 [fWRITE] 0]);
  (* :556 *)
  ("rt_sigtimedwait",
    [Entry 0 8 [fREAD] 0;
     Entry 1 128 [fWRITE] 0;
     Entry 2 16 [fREAD] 0]);
  (* :563 *)
  ("rt_sigqueueinfo",
    [Entry 2 128 [fREAD] 0]);
  (* :569 *)
  ("pread64",
    [Entry 1 (-2) [fWRITE] 0;
     Entry 1 SIZE_RETVAL [fWRITE] 0]);
  (* :575 *)
  ("pwrite64",
    [Entry 1 (-2) [fREAD] 0]);
  (* :585 *)
  ("getcwd",
    [Entry 0 (-1) [fWRITE] 0;
     Entry 0 SIZE_RETVAL [fWRITE] 0]);
  (* :591 *)
  ("capget",
    [Entry 0 8 [fREAD] 0;
     Entry 1 8 [fWRITE] 0]);
  (* :597 *)
  ("capset",
    [Entry 0 8 [fREAD] 0;
     Entry 1 8 [fREAD] 0]);
  (* :604 *)
  ("sendfile",
    [Entry 2 8 [fWRITE] 0]);
  (* :612 *)
  ("getrlimit",
    [Entry 1 16 [fWRITE] 0]);
  (* :645 *)
  ("lchown",
    [Entry 0 0 [fREAD; fCOMPLEX] T_CSTRING]);
  (* :660 *)
  ("getresuid",
    [Entry 0 4 [fWRITE] 0;
     Entry 1 4 [fWRITE] 0;
     Entry 2 4 [fWRITE] 0]);
  (* :668 *)
  ("getresgid",
    [Entry 0 4 [fWRITE] 0;
     Entry 1 4 [fWRITE] 0;
     Entry 2 4 [fWRITE] 0]);
  (* :675 *)
  ("chown",
    [Entry 0 0 [fREAD; fCOMPLEX] T_CSTRING]);
  (* :687 *)
  ("mincore",
    [Entry 2 (-1) [fWRITE] 0]);
  (* :693 *)
  ("getdents64",
    [Entry 1 (-2) [fWRITE] 0;
     Entry 1 SIZE_RETVAL [fWRITE] 0]);
  (* :705 *)
  ("setxattr",
    [Entry 0 0 [fREAD; fCOMPLEX] T_CSTRING;
     Entry 1 0 [fREAD; fCOMPLEX] T_CSTRING;
     Entry 2 (-3) [fREAD] 0]);
  (* :712 *)
  ("lsetxattr",
    [Entry 0 0 [fREAD; fCOMPLEX] T_CSTRING;
     Entry 1 0 [fREAD; fCOMPLEX] T_CSTRING;
     Entry 2 (-3) [fREAD] 0]);
  (* :719 *)
  ("fsetxattr",
    [Entry 1 0 [fREAD; fCOMPLEX] T_CSTRING;
     Entry 2 (-3) [fREAD] 0]);
  (* :725 *)
  ("getxattr",
    [Entry 0 0 [fREAD; fCOMPLEX] T_CSTRING;
     Entry 1 0 [fREAD; fCOMPLEX] T_CSTRING;
     Entry 2 (-3) [fWRITE] 0;
     Entry 2 SIZE_RETVAL [fWRITE] 0]);
  (* :733 *)
  ("lgetxattr",
    [Entry 0 0 [fREAD; fCOMPLEX] T_CSTRING;
     Entry 1 0 [fREAD; fCOMPLEX] T_CSTRING;
     Entry 2 (-3) [fWRITE] 0;
     Entry 2 SIZE_RETVAL [fWRITE] 0]);
  (* :741 *)
  ("fgetxattr",
    [Entry 1 0 [fREAD; fCOMPLEX] T_CSTRING;
     Entry 2 (-3) [fWRITE] 0;
     Entry 2 SIZE_RETVAL [fWRITE] 0]);
  (* :748 *)
  ("listxattr",
    [Entry 0 0 [fREAD; fCOMPLEX] T_CSTRING;
     Entry 1 (-2) [fWRITE] 0;
     Entry 1 SIZE_RETVAL [fWRITE] 0]);
  (* :755 *)
  ("llistxattr",
    [Entry 0 0 [fREAD; fCOMPLEX] T_CSTRING;
     Entry 1 (-2) [fWRITE] 0;
     Entry 1 SIZE_RETVAL [fWRITE] 0]);
  (* :762 *)
  ("flistxattr",
    [Entry 1 (-2) [fWRITE] 0;
     Entry 1 SIZE_RETVAL [fWRITE] 0]);
  (* :768 *)
  ("removexattr",
    [Entry 0 0 [fREAD; fCOMPLEX] T_CSTRING;
     Entry 1 0 [fREAD; fCOMPLEX] T_CSTRING]);
  (* :774 *)
  ("lremovexattr",
    [Entry 0 0 [fREAD; fCOMPLEX] T_CSTRING;
     Entry 1 0 [fREAD; fCOMPLEX] T_CSTRING]);
  (* :780 *)
  ("fremovexattr",
    [Entry 1 0 [fREAD; fCOMPLEX] T_CSTRING]);
  (* :791 *)
  ("futex",
    [Entry 0 4 [fREAD] 0]);
  (* :796 *)
  ("sched_setaffinity",
    [Entry 2 (-1) [fREAD] 0]);
  (* :801 *)
  ("sched_getaffinity",
    [Entry 2 (-1) [fWRITE] 0]);
  (* :820 *)
  ("epoll_ctl",
    [Entry 3 12 [fREAD] 0]);
  (* :825 *)
  ("epoll_wait",
    [Entry 1 (-2) [fWRITE; fELEMENTS] 12;
     Entry 1 SIZE_RETVAL [fWRITE; fELEMENTS] 12]);
  (* :833 *)
  ("timer_create",
    [Entry 1 64 [fREAD] 0;
     Entry 2 8 [fWRITE] 0]);
  (* :839 *)
  ("timer_settime",
    [Entry 2 32 [fREAD] 0;
     Entry 3 32 [fWRITE] 0]);
  (* :845 *)
  ("timer_gettime",
    [Entry 1 32 [fWRITE] 0]);
  (* :852 *)
  ("clock_settime",
    [Entry 1 16 [fREAD] 0]);
  (* :857 *)
  ("clock_gettime",
    [Entry 1 16 [fWRITE] 0]);
  (* :862 *)
  ("clock_getres",
    [Entry 1 16 [fWRITE] 0]);
  (* :867 *)
  ("clock_nanosleep",
    [Entry 2 16 [fREAD] 0;
     Entry 3 16 [fWRITE] 0]);
  (* :885 *)
  ("utimes",
    [Entry 0 0 [fREAD; fCOMPLEX] T_CSTRING;
     Entry 1 32 [fREAD] 0]);
  (* :897 *)
  ("mq_unlink",
    [Entry 0 0 [fREAD; fCOMPLEX] T_CSTRING]);
  (* :902 *)
  ("mq_timedsend",
    [Entry 1 (-2) [fREAD] 0]);
  (* :908 *)
  ("mq_timedreceive",
    [Entry 1 (-2) [fWRITE] 0;
     Entry 3 4 [fWRITE] 0]);
  (* :915 *)
  ("mq_notify",
    [Entry 1 64 [fREAD] 0]);
  (* :922 *)
  ("waitid",
    [Entry 2 128 [fWRITE] 0;
     Entry 4 144 [fWRITE] 0]);
  (* :929 *)
  ("add_key",
    [Entry 0 0 [fREAD; fCOMPLEX] T_CSTRING;
     Entry 1 0 [fREAD; fCOMPLEX] T_CSTRING;
     Entry 2 (-3) [fREAD] 0]);
  (* :936 *)
  ("request_key",
    [Entry 0 0 [fREAD; fCOMPLEX] T_CSTRING;
     Entry 1 0 [fREAD; fCOMPLEX] T_CSTRING;
     Entry 2 0 [fREAD; fCOMPLEX] T_CSTRING]);
  (* :943 *)
  ("keyctl",
    [Entry 1 0 [fREAD; fCOMPLEX] T_CSTRING;
     Entry 2 (-3) [fREAD] 0;
     Entry 2 SIZE_RETVAL [fREAD] 0;
     Entry 3 0 [fREAD; fCOMPLEX] T_CSTRING]);
  (* :954 *)
  ("inotify_add_watch",
    [Entry 1 0 [fREAD; fCOMPLEX] T_CSTRING]);
  (* :961 *)
  ("openat",
    [Entry 1 0 [fREAD; fCOMPLEX] T_CSTRING]);
  (* :966 *)
  ("mkdirat",
    [Entry 1 0 [fREAD; fCOMPLEX] T_CSTRING]);
  (* :971 *)
  ("mknodat",
    [Entry 1 0 [fREAD; fCOMPLEX] T_CSTRING]);
  (* :976 *)
  ("fchownat",
    [Entry 1 0 [fREAD; fCOMPLEX] T_CSTRING]);
  (* :981 *)
  ("futimesat",
    [Entry 1 0 [fREAD; fCOMPLEX] T_CSTRING;
     Entry 2 32 [fREAD] 0]);
  (* :996 *)
  ("unlinkat",
    [Entry 1 0 [fREAD; fCOMPLEX] T_CSTRING]);
  (* :1001 *)
  ("renameat",
    [Entry 1 0 [fREAD; fCOMPLEX] T_CSTRING;
     Entry 3 0 [fREAD; fCOMPLEX] T_CSTRING]);
  (* :1007 *)
  ("linkat",
    [Entry 1 0 [fREAD; fCOMPLEX] T_CSTRING;
     Entry 3 0 [fREAD; fCOMPLEX] T_CSTRING]);
  (* :1013 *)
  ("symlinkat",
    [Entry 0 0 [fREAD; fCOMPLEX] T_CSTRING;
     Entry 2 0 [fREAD; fCOMPLEX] T_CSTRING]);
  (* :1019 *)
  ("readlinkat",
    [Entry 1 0 [fREAD; fCOMPLEX] T_CSTRING;
     Entry 2 (-3) [fWRITE] 0;
     Entry 2 SIZE_RETVAL [fWRITE] 0]);
  (* :1026 *)
  ("fchmodat",
    [Entry 1 0 [fREAD; fCOMPLEX] T_CSTRING]);
  (* :1031 *)
  ("faccessat",
    [Entry 1 0 [fREAD; fCOMPLEX] T_CSTRING]);
  (* :1039 *)
  ("set_robust_list",
    [Entry 0 (-1) [fREAD] 0]);
  (* :1051 *)
  ("epoll_pwait",
    [Entry 1 (-2) [fWRITE; fELEMENTS] 12;
     Entry 1 SIZE_RETVAL [fWRITE; fELEMENTS] 12;
     Entry 4 8 [fREAD] 0]);
  (* :1058 *)
  ("utimensat",
    [Entry 1 0 [fREAD; fCOMPLEX] T_CSTRING;
     Entry 2 32 [fREAD] 0]);
  (* :1064 *)
  ("signalfd",
    [Entry 1 8 [fREAD] 0]);
  (* :1072 *)
  ("timerfd_settime",
    [Entry 2 32 [fREAD] 0;
     Entry 3 32 [fWRITE] 0]);
  (* :1078 *)
  ("timerfd_gettime",
    [Entry 1 32 [fWRITE] 0]);
  (* :1087 *)
  ("pipe2",
    [Entry 0 8 [fWRITE] 0;
     Entry 1 4 [fINLINED] 5]);
  (* :1103 *)
  ("prlimit64",
    [Entry 0 4 [fINLINED] 5;
     Entry 1 4 [fINLINED] 5;
     Entry 2 16 [fREAD] 0;
     Entry 3 16 [fWRITE] 0]);
  (* :1114 *)
  ("syncfs",
    [Entry 0 4 [fINLINED] 5]);
  (* :1121 *)
  ("process_vm_readv",
    [Entry 0 4 [fINLINED] 6;
     Entry 1 (-2) [fREAD; fELEMENTS] 16;
     Entry 2 8 [fINLINED] 6;
     Entry 3 (-4) [fREAD; fELEMENTS] 16;
     Entry 4 8 [fINLINED] 6;
     Entry 5 4 [fINLINED] 5]);
  (* :1131 *)
  ("process_vm_writev",
    [Entry 0 4 [fINLINED] 6;
     Entry 1 (-2) [fREAD; fELEMENTS] 16;
     Entry 2 8 [fINLINED] 6;
     Entry 3 (-4) [fREAD; fELEMENTS] 16;
     Entry 4 8 [fINLINED] 6;
     Entry 5 4 [fINLINED] 5]);
  (* :1142 *)
  ("finit_module",
    [Entry 0 4 [fINLINED] 5;
     Entry 1 0 [fREAD; fCOMPLEX] T_CSTRING;
     Entry 2 4 [fINLINED] 5]);
  (* :1150 *)
  ("getrandom",
    [Entry 0 (-1) [fWRITE] 0;
     Entry 1 8 [fINLINED] 5;
     Entry 2 4 [fINLINED] 5]);
  (* :1157 *)
  ("rseq",
    [Entry 0 (-1) [fREAD] 0;
     Entry 1 4 [fINLINED] 5;
     Entry 2 4 [fINLINED] 5;
     Entry 3 4 [fINLINED] 5]);
  (* :1172 *)
  ("connect",
    [Entry 1 (-2) [fREAD; fCOMPLEX] T_SOCKADDR]);
  (* :1177 *)
  ("accept",
    [Entry 1 (-2) [fWRITE; fINOUT; fCOMPLEX] T_SOCKADDR;
     Entry 2 4 [fWRITE; fTYPE] 6]);
  (* :1183 *)
  ("sendto",
    [Entry 1 (-2) [fREAD] 0;
     Entry 4 (-5) [fREAD; fCOMPLEX] T_SOCKADDR;
     Entry 5 4 [fINLINED] 6]);
  (* :1190 *)
  ("recvfrom",
    [Entry 1 (-2) [fWRITE] 0;
     Entry 4 (-5) [fWRITE; fINOUT; fCOMPLEX] T_SOCKADDR;
     Entry 5 4 [fREAD; fWRITE; fTYPE; fPREVNULL] 6]);
  (* :1197 *)
  ("sendmsg",
    [Entry 1 56 [fREAD; fCOMPLEX] 41]);
  (* :1202 *)
  ("recvmsg",
    [Entry 1 56 [fWRITE; fCOMPLEX] 41]);
  (* :1208 *)
  ("bind",
    [Entry 1 (-2) [fREAD; fCOMPLEX] T_SOCKADDR]);
  (* :1214 *)
  ("getsockname",
    [Entry 1 (-2) [fWRITE; fINOUT; fCOMPLEX] T_SOCKADDR;
     Entry 2 4 [fWRITE; fTYPE] 6]);
  (* :1220 *)
  ("getpeername",
    [Entry 1 (-2) [fWRITE; fINOUT; fCOMPLEX] T_SOCKADDR;
     Entry 2 4 [fWRITE; fTYPE] 6]);
  (* :1226 *)
  ("socketpair",
    [Entry 3 8 [fWRITE] 0]);
  (* :1231 *)
  ("setsockopt",
    [Entry 3 (-4) [fREAD] 0]);
  (* :1236 *)
  ("getsockopt",
    [Entry 3 (-4) [fWRITE; fINOUT] 0;
     Entry 4 4 [fWRITE; fTYPE] 6]);
  (* :1243 *)
  ("semop",
    [Entry 1 (-2) [fREAD; fELEMENTS] 6]);
  (* :1251 *)
  ("msgsnd",
    [Entry 1 (-2) [fREAD; fCOMPLEX] 42]);
  (* :1256 *)
  ("msgrcv",
    [Entry 1 (-2) [fWRITE; fCOMPLEX] 42]);
  (* :1262 *)
  ("arch_prctl",
    [Entry 0 4 [fINLINED] 5]);
  (* :1280 *)
  ("semtimedop",
    [Entry 1 (-2) [fREAD; fELEMENTS] 6;
     Entry 3 16 [fREAD] 0]);
  (* :1287 *)
  ("newfstatat",
    [Entry 1 0 [fREAD; fCOMPLEX] T_CSTRING;
     Entry 2 144 [fWRITE] 0]);
  (* :1293 *)
  ("paccept",
    [Entry 1 (-2) [fWRITE; fINOUT; fCOMPLEX] T_SOCKADDR;
     Entry 2 4 [fWRITE] 5])
].

Fixpoint lookup (n : string) (t : list (string * list entry))
  : option (list entry) :=
  match t with
  | [] => None
  | (m, e) :: t' => if String.eqb n m then Some e else lookup n t'
  end.
