(** Memory arguments of known system calls: theorems. *)
From Coq Require Import String.
From Verif Require Import Base Sysarg_Model Sysarg_Table Sysarg_Spec Sysarg_Proofs2
  Sysarg_Proofs3 Sysarg_Proofs4 Sysarg_Proofs5.
Local Open Scope Z_scope.

(** ** C50 *)

(** For a row of any contents, as long as it is sensible: what is reported
    depends on the call alone, not on what earlier calls left in the state. *)
Theorem C50_history : forall before after t s1 s2,
  sensible t -> (forall p, args after p = args before p) ->
  session before after t s1 = session before after t s2.
Proof. exact history. Qed.

(** If its outputs are plain memory, then all that is marked as written after
    the call belongs to an output of the row, and lies in a range that was
    reported, and so checked, before the call; unless a range reported there
    was empty. *)
Theorem C50_within : forall before after t s pre post,
  sensible t -> plain_outputs t -> (forall p, args after p = args before p) ->
  session before after t s = Ok (pre, post) ->
  (forall r, In r pre -> 0 < r_size r) ->
  forall r, In r post ->
    r_out r = true /\ 0 < r_size r /\
    (exists e, In e t /\ has fWRITE e = true /\ param e = r_ord r) /\
    exists r', In r' pre /\ inside r r'.
Proof. exact within. Qed.

(** A call that fails marks nothing. *)
Theorem C50_failed : forall before after t s pre post,
  2 ^ 63 <= ret after -> session before after t s = Ok (pre, post) -> post = [].
Proof.
  intros before after t s pre post F E. unfold session, iterate_post, succeeded in E.
  destruct (Z.ltb_spec (ret after) (2 ^ 63)); [lia|].
  apply bind_ok in E as (a & _ & E). apply bind_ok in E as (b & _ & E).
  cbn [bind] in E. injection E as _ <-. reflexivity.
Qed.

(** What is checked before the call does not depend on what the result register
    holds then. *)
Theorem C50_before : forall a m r1 r2 t s,
  iterate_pre (World a m r1) t s = iterate_pre (World a m r2) t s.
Proof.
  intros a m r1 r2 t s. unfold iterate_pre.
  assert (E : forall l i last s,
    pre_loop (World a m r1) t l i last s = pre_loop (World a m r2) t l i last s).
  { induction l as [|e l IH]; intros i last s0; [reflexivity|]. cbn [pre_loop].
    change (get_size true (World a m r1)) with (get_size true (World a m r2)).
    change (os_access true (World a m r1)) with (os_access true (World a m r2)).
    change (should_ignore (World a m r1)) with (should_ignore (World a m r2)).
    change (sysarg (World a m r1)) with (sysarg (World a m r2)).
    rewrite !IH. destruct (sysarg (World a m r2) (param e)) as [start| |]; try reflexivity.
    cbn [bind]. destruct (get_size true (World a m r2) t i e start s0) as [[[sz s1] r0]| |];
      try reflexivity.
    cbn [bind]. rewrite IH.
    destruct (os_access true (World a m r2) (set_known s1 (param e) sz) e start
                (if sz =? SIZE_DYNAMIC then 0 else sz)) as [[[k s2] r3]| |]; try reflexivity.
    cbn [bind]. now rewrite IH. }
  now rewrite E.
Qed.

(** All rows of the Linux table are sensible, and all but the seven in
    [addressed] have plain outputs. *)
Theorem C50_rows : forall n t, lookup n linux_table = Some t ->
  sensible t /\ (member n addressed = false -> plain_outputs t).
Proof. intros n t L. split; [exact (table_sensible n t L)|exact (plain_rows n t L)]. Qed.

(** read(3, 0x1000, 100) that returns 7. *)
Definition at6 (a0 a1 a2 a3 a4 a5 p : Z) : Z :=
  nth (Z.to_nat p) [a0; a1; a2; a3; a4; a5] 0.
Definition blank (a : Z) : option Z := Some 0.
Definition read_call (len r : Z) : world := World (at6 3 4096 len 0 0 0) blank r.
Definition stale : cls := Cls (fun _ => 1000000) 77 88 false.

Example C50_case_read :
  session (read_call 100 0) (read_call 100 7) (row "read") stale =
  Ok ([Report 1 false true 4096 100], [Report 1 false true 4096 7]).
Proof. vm_compute. reflexivity. Qed.

Example C50_case_row : sensible (row "read") /\ plain_outputs (row "read").
Proof.
  destruct (C50_rows "read" (row "read") eq_refl) as [A B]. split; [exact A|now apply B].
Qed.

(** A call that claims to have read more than there was room for. *)
Example C50_case_clamped :
  session (read_call 100 0) (read_call 100 5000) (row "read") stale =
  Ok ([Report 1 false true 4096 100], [Report 1 false true 4096 100]).
Proof. vm_compute. reflexivity. Qed.

Example C50_case_failed :
  session (read_call 100 0) (read_call 100 (2 ^ 64 - 14)) (row "read") stale =
  Ok ([Report 1 false true 4096 100], []).
Proof. vm_compute. reflexivity. Qed.

(** Windows rows give the size in a field: a row of that kind. *)
Definition field_row := [Entry 2 SIZE_IN_FIELD [fWRITE] 0].
Example C50_case_field :
  sensible field_row /\ plain_outputs field_row /\
  let w := World (at6 0 0 64 0 0 0) (fun a => Some (if a =? 64 then 40 else 0)) 0 in
  session w w field_row stale =
  Ok ([Report 2 true false 64 4; Report 2 false true 64 40], [Report 2 false true 64 40]).
Proof.
  split; [apply sensible_b_ok; reflexivity|]. split; [apply plain_b_ok; reflexivity|].
  vm_compute. reflexivity.
Qed.

(** REFUTED for an argument that is to be ignored when the one before it is
    null: recvfrom(3, buf, 16, 0, NULL, &len).  Before the call the length is
    left out; after it its four bytes are marked written all the same. *)
Definition recvfrom_call : world := World (at6 3 4096 16 0 0 8192) blank 16.
Theorem C50_ignored_refuted :
  exists pre post r,
    session recvfrom_call recvfrom_call (row "recvfrom") stale = Ok (pre, post) /\
    In r post /\ r_out r = true /\ r_size r = 4 /\ r_start r = 8192 /\
    ~ exists r', In r' pre /\ inside r r'.
Proof.
  eexists _, _, _. split; [vm_compute; reflexivity|].
  split; [right; left; reflexivity|]. repeat (split; [reflexivity|]).
  intros (r' & [<-|[]] & H & _). discriminate H.
Qed.

(** REFUTED for a size of 2^64 - 1, which the code uses for "found out later":
    read(3, buf, -1) is reported as a range of no bytes, and then what it wrote
    is marked, though the buffer was never checked. *)
Theorem C50_huge_refuted :
  session (read_call (2 ^ 64 - 1) 0) (read_call (2 ^ 64 - 1) 4096) (row "read") stale =
  Ok ([Report 1 false true 4096 0], [Report 1 false true 4096 4096]).
Proof. vm_compute. reflexivity. Qed.

(** ** C51 *)

(** The rows follow the manual pages, other than the eighteen departures. *)
Theorem C51_table : forall n c,
  In (n, c) kernel_contracts -> member n departures = false ->
  exists t, lookup n linux_table = Some t /\ follows t c.
Proof. exact table_follows. Qed.

(** What the five calls with a length that is both read and written do instead. *)
Theorem C51_unread_length :
  follows (row "accept") (unread_length 1 2) /\
  follows (row "getsockname") (unread_length 1 2) /\
  follows (row "getpeername") (unread_length 1 2) /\
  follows (row "getsockopt") (unread_length 3 4) /\
  follows (row "paccept") (unread_length 1 2).
Proof. exact unread_follows. Qed.

(** connect and bind require exactly the bytes of the address that matter. *)
Theorem C51_address : forall n, In n ["connect"; "bind"]%string ->
  exists t, lookup n linux_table = Some t /\ takes_address t 1 2.
Proof. exact address_rows. Qed.

(** There is something to follow. *)
Example C51_case_count :
  List.length kernel_contracts = 132%nat /\
  List.length (filter (fun x => member (fst x) departures) kernel_contracts) = 18%nat.
Proof. vm_compute. auto. Qed.

Example C51_case_contract :
  In ("read"%string, [WritesCounted 1 2 1]) kernel_contracts /\
  member "read" departures = false /\
  earnest (read_call 100 0) (read_call 100 7) (fun _ => 0) [WritesCounted 1 2 1].
Proof.
  split; [left; reflexivity|]. split; [reflexivity|].
  assert (B : bytes_in blank) by (intros a b E; injection E as <-; lia).
  split; [|split; [auto|split; [exact B|split; [exact B|split; [cbn; lia|]]]]].
  - intros p. cbn [args read_call]. unfold at6.
    destruct (Z.to_nat p) as [|[|[|[|[|[|[|?]]]]]]]; cbn [nth]; lia.
  - constructor; [|constructor]. cbn [earnest1 args read_call ret]. change (at6 3 4096 100 0 0 0 2) with 100. lia.
Qed.

(** stat("ab", 0x2000). *)
Definition ab (a : Z) : option Z :=
  Some (if a =? 4096 then 97 else if a =? 4097 then 98 else 0).
Example C51_case_stat :
  let w := World (at6 4096 8192 0 0 0 0) ab 0 in
  session w w (row "stat") stale =
  Ok ([Report 0 true false 4096 3; Report 1 false true 8192 144],
      [Report 1 false true 8192 144]).
Proof. vm_compute. reflexivity. Qed.

(** An AF_INET address of 16 bytes: family, port and address. *)
Definition inet (a : Z) : option Z := Some (if a =? 4096 then 2 else 0).
Example C51_case_connect :
  significant inet 4096 16 8 /\
  let w := World (at6 3 4096 16 0 0 0) inet 0 in
  session w w (row "connect") stale =
  Ok ([Report 1 true false 4096 2; Report 1 true false 4098 2; Report 1 true false 4100 4], []).
Proof. split; [constructor; [reflexivity|lia]|vm_compute; reflexivity]. Qed.

(** REFUTED: none of the departures follows its contract.
    - accept, getsockname, getpeername, getsockopt, paccept: the length, which
      the kernel reads, need not be defined;
    - sendfile: nor the offset;
    - adjtimex: what is written back is not marked;
    - capget, capset: the size of a pointer stands for that of the structure;
    - timer_create: eight bytes are marked, the kernel writes four;
    - sched_getaffinity, mq_timedreceive, getrandom, syslog: the whole buffer is
      marked, however little was written;
    - mq_timedsend, mq_timedreceive: the timeout is not checked;
    - msync: the range is required to be defined, though it is not read;
    - nanosleep, clock_nanosleep: the remaining time is marked on success, when
      it is not written. *)
Theorem C51_departures_refuted : forall n c,
  In (n, c) kernel_contracts -> member n departures = true ->
  exists t, lookup n linux_table = Some t /\ ~ follows t c.
Proof. exact departures_real. Qed.

Theorem C51_departures_listed : forall n, member n departures = true ->
  exists c, In (n, c) kernel_contracts.
Proof. exact departures_listed. Qed.

(** REFUTED at the end of a file, which [earnest] excludes: when read returns 0
    the whole buffer is marked as written. *)
Theorem C51_end_of_file_refuted :
  session (read_call 100 0) (read_call 100 0) (row "read") stale =
    Ok ([Report 1 false true 4096 100], [Report 1 false true 4096 100]) /\
  writes (read_call 100 0) (read_call 100 0) [WritesCounted 1 2 1] = [].
Proof. split; vm_compute; reflexivity. Qed.

(** REFUTED for a name in the abstract namespace of AF_UNIX, which starts with
    a zero byte: none of the ten bytes of the name is required to be defined. *)
Definition abstract (a : Z) : option Z :=
  Some (if a =? 4096 then 1 else if a <? 4099 then 0 else 120).
Theorem C51_abstract_name_refuted :
  let w := World (at6 3 4096 12 0 0 0) abstract 0 in
  session w w (row "connect") stale = Ok ([Report 1 true false 4096 2], []).
Proof. vm_compute. reflexivity. Qed.

(** REFUTED for a name that runs into memory that cannot be read: the kernel
    would return EFAULT, but the length is found with plain loads, which fault. *)
Definition edge (a : Z) : option Z :=
  if a <? 4100 then Some (if a =? 4097 then 0 else 1) else None.
Theorem C51_unreadable_name_refuted :
  let w := World (at6 3 4096 12 0 0 0) edge 0 in
  session w w (row "connect") stale = UB.
Proof. vm_compute. reflexivity. Qed.

(** REFUTED for keyctl: the second entry of its buffer is not marked as an
    output, so that what KEYCTL_READ returns is never marked. *)
Theorem C51_keyctl_refuted :
  let w := World (at6 11 0 4096 64 0 0) blank 64 in
  session w w (row "keyctl") stale =
    Ok ([Report 2 true false 4096 64; Report 3 true false 64 1], []).
Proof. vm_compute. reflexivity. Qed.

Print Assumptions C50_history.
Print Assumptions C50_within.
Print Assumptions C50_failed.
Print Assumptions C50_before.
Print Assumptions C50_rows.
Print Assumptions C50_ignored_refuted.
Print Assumptions C50_huge_refuted.
Print Assumptions C51_table.
Print Assumptions C51_unread_length.
Print Assumptions C51_address.
Print Assumptions C51_departures_refuted.
Print Assumptions C51_departures_listed.
Print Assumptions C51_end_of_file_refuted.
Print Assumptions C51_abstract_name_refuted.
Print Assumptions C51_unreadable_name_refuted.
Print Assumptions C51_keyctl_refuted.
