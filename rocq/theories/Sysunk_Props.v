(** System calls of unknown parameters: theorems. *)
From Verif Require Import Base Sysunk_Model Sysunk_Spec Sysunk_Proofs3.
Local Open Scope Z_scope.

(** ** C52 *)

(** Without sentinels the program finds the memory as the kernel left it. *)
Theorem C52_untouched : forall o wr ps olds shd m w ok,
  sentinels o = false -> mem_end (call o wr ps olds shd m w ok) = kernel w m.
Proof. exact untouched. Qed.

(** Without sentinels, shadow changes only from undefined to defined, only if
    the call succeeds, and only for a byte that the kernel changed and that can
    be reached from an argument, or in the same word as such a byte. *)
Theorem C52_marks_only : forall o wr ps olds shd m w ok a,
  sentinels o = false -> sound shd m ->
  let c := call o wr ps olds shd m w ok in
  shd_end c a <> shd a ->
  ok = true /\ shd a = Undef /\ shd_end c a = Def /\
  exists p pc, In p ps /\ reaches shd p pc /\ shd pc = Undef /\
    (exists v, w pc = Some v /\ m pc <> Some v) /\ together o a pc.
Proof. exact plain_only. Qed.

(** And if the pointers are in good order, all such bytes become defined,
    whatever earlier calls left behind. *)
Theorem C52_marks_all : forall o wr ps olds shd m w p pc a v,
  sentinels o = false -> sound shd m -> left_over olds ->
  List.length ps = List.length olds -> apart shd ps ->
  In p ps -> reaches shd p pc -> shd pc = Undef -> w pc = Some v -> m pc <> Some v ->
  together o a pc -> is_addr (shd a) = true ->
  shd_end (call o wr ps olds shd m w true) a = Def.
Proof.
  intros o wr ps olds shd m w p pc a v. intros. eapply plain_all; eauto. exists v. auto.
Qed.

(** With sentinels and byte granularity, if the pointers are in good order,
    undefined bytes within reach can be written, and the kernel puts no 0xab in
    an undefined byte: the program finds the memory as the kernel left it, the
    call having succeeded or not. *)
Theorem C52_sentinels_memory : forall o wr ps olds shd m w ok a,
  sentinels o = true -> dword o = false ->
  (forall p x, In p ps -> reaches shd p x -> shd x = Undef -> wr x = true) ->
  sound shd m -> left_over olds -> List.length ps = List.length olds -> apart shd ps ->
  (forall x, shd x = Undef -> w x <> Some SENTINEL) ->
  mem_end (call o wr ps olds shd m w ok) a = kernel w m a.
Proof. intros. apply sent_mem; auto. Qed.

(** Then the bytes that become defined are exactly the undefined ones within
    reach that the kernel wrote, changed or not. *)
Theorem C52_sentinels_marks : forall o wr ps olds shd m w ok a,
  sentinels o = true -> dword o = false ->
  (forall p x, In p ps -> reaches shd p x -> shd x = Undef -> wr x = true) ->
  sound shd m -> left_over olds -> List.length ps = List.length olds -> apart shd ps ->
  (forall x, shd x = Undef -> w x <> Some SENTINEL) ->
  let c := call o wr ps olds shd m w ok in
  (shd_end c a <> shd a -> shd_end c a = Def) /\
  (shd_end c a <> shd a <->
   ok = true /\ shd a = Undef /\ (exists v, w a = Some v) /\
   exists p, In p ps /\ reaches shd p a).
Proof. intros. split; [intros; eapply sent_shadow_def; eauto|apply sent_shadow; auto]. Qed.

(** *** Cases *)

(** Eight undefined bytes at 4096, then eight defined, and nothing else; all
    hold 7.  The first argument points there. *)
Definition c_shd : shadow :=
  fun a => if (4096 <=? a) && (a <? 4104) then Undef
           else if (4104 <=? a) && (a <? 4112) then Def else Unaddr.
Definition c_mem : memory := fun a => if (4096 <=? a) && (a <? 4112) then Some 7 else None.
Definition c_ps : list param := [Param true 4096; Param true 3; Param false 4096].
Definition c_olds : list slot := [Slot 0 0 []; Slot 4096 2048 []; Slot 0 12 []].
Definition c_wr (a : Z) : bool := true.
Definition plain := Options false false.
Definition words := Options false true.
Definition guard := Options true false.
Definition both := Options true true.

(* The kernel writes 7 to 4096, 1 to 4097 and 2 to 4105. *)
Definition c_w (a : Z) : option Z :=
  if a =? 4096 then Some 7 else if a =? 4097 then Some 1 else if a =? 4105 then Some 2 else None.

Definition row (f : Z -> sh) : list sh := map f [4095; 4096; 4097; 4098; 4099; 4100; 4104; 4105].
Definition bytes (f : memory) : list (option Z) :=
  map f [4095; 4096; 4097; 4098; 4099; 4100; 4104; 4105].

Example C52_case_apart : apart c_shd c_ps /\ left_over c_olds /\ sound c_shd c_mem.
Proof.
  split; [|split; [repeat constructor; cbn; lia|]].
  - cbn [apart c_ps]. split; [|split; [|split; [|exact I]]].
    + intros _. split; [cbn; lia|]. intros q [<-|[<-|[]]] (D & _) L; cbn in *; [lia|discriminate].
    + intros (_ & X & _). discriminate X.
    + intros (X & _). discriminate X.
  - intros a. unfold c_shd, c_mem.
    destruct (Z.leb_spec 4096 a), (Z.ltb_spec a 4104), (Z.leb_spec 4104 a), (Z.ltb_spec a 4112);
      cbn; try discriminate; lia.
Qed.

(** The byte that was written but not changed is missed. *)
Example C52_case_plain :
  let c := call plain c_wr c_ps c_olds c_shd c_mem c_w true in
  row (shd_end c) = [Unaddr; Undef; Def; Undef; Undef; Undef; Def; Def] /\
  bytes (mem_end c) = [None; Some 7; Some 1; Some 7; Some 7; Some 7; Some 7; Some 2] /\
  reports c = [(4097, 1)].
Proof. vm_compute. auto. Qed.

(** With words it is not, but two that were not written are taken along. *)
Example C52_case_words :
  let c := call words c_wr c_ps c_olds c_shd c_mem c_w true in
  row (shd_end c) = [Unaddr; Def; Def; Def; Def; Undef; Def; Def] /\ reports c = [(4096, 4)].
Proof. vm_compute. auto. Qed.

Example C52_case_sentinels :
  let c := call guard c_wr c_ps c_olds c_shd c_mem c_w true in
  row (shd_end c) = [Unaddr; Def; Def; Undef; Undef; Undef; Def; Def] /\
  bytes (mem_end c) = [None; Some 7; Some 1; Some 7; Some 7; Some 7; Some 7; Some 2] /\
  reports c = [(4096, 1); (4097, 1)].
Proof. vm_compute. auto. Qed.

Example C52_case_failed :
  let c := call guard c_wr c_ps c_olds c_shd c_mem c_w false in
  row (shd_end c) = row c_shd /\
  bytes (mem_end c) = [None; Some 7; Some 1; Some 7; Some 7; Some 7; Some 7; Some 2].
Proof. vm_compute. auto. Qed.

(** *** What does not hold *)

(** Each hypothesis is needed.  If the kernel writes 0xab to an undefined byte,
    that byte is set back and stays undefined. *)
Theorem C52_kernel_sentinel_refuted : exists ps olds shd m w,
  apart shd ps /\ left_over olds /\ sound shd m /\
  let c := call guard c_wr ps olds shd m w true in
  w 4096 = Some 171 /\ mem_end c 4096 = Some 7 /\ shd_end c 4096 = Undef.
Proof.
  exists c_ps, c_olds, c_shd, c_mem, (fun a => if a =? 4096 then Some 171 else None).
  destruct C52_case_apart as (A & B & C). split; [exact A|]. split; [exact B|].
  split; [exact C|]. vm_compute. auto.
Qed.

(** Sentinels together with word granularity: the bytes next to one that the
    kernel wrote keep the sentinel, and are taken to be defined. *)
Theorem C52_sentinel_words_refuted : exists ps olds shd m w,
  apart shd ps /\ left_over olds /\ sound shd m /\ (forall x, w x <> Some SENTINEL) /\
  let c := call both c_wr ps olds shd m w true in
  w 4098 = None /\ m 4098 = Some 7 /\ mem_end c 4098 = Some 171 /\ shd_end c 4098 = Def.
Proof.
  exists c_ps, c_olds, c_shd, c_mem, c_w.
  destruct C52_case_apart as (A & B & C). split; [exact A|]. split; [exact B|].
  split; [exact C|]. split.
  - intros x. unfold c_w, SENTINEL. destruct (x =? 4096), (x =? 4097), (x =? 4105); discriminate.
  - vm_compute. auto.
Qed.

(** A pointer into the reach of an earlier one: its size is what an earlier
    call left, and sentinels that go beyond the earlier argument are never set
    back.  Here 4100 is within the first argument, which ends at 4104 because
    another byte there is unaddressable. *)
Definition d_shd : shadow :=
  fun a => if ((4096 <=? a) && (a <? 4104)) || ((4105 <=? a) && (a <? 4112)) then Undef else Unaddr.
Theorem C52_stale_size_refuted : exists ps olds shd m,
  left_over olds /\ sound shd m /\
  let c := call guard c_wr ps olds shd m (fun _ => None) true in
  m 4106 = Some 7 /\ mem_end c 4106 = Some 171 /\
  map (fun s => (ptr s, sz s)) (slots c) = [(4096, 8); (0, 12)].
Proof.
  exists [Param true 4096; Param true 4100], [Slot 0 0 []; Slot 0 12 []], d_shd, c_mem.
  split; [repeat constructor; cbn; lia|]. split.
  - intros a. unfold d_shd, c_mem.
    destruct (Z.leb_spec 4096 a), (Z.ltb_spec a 4104), (Z.leb_spec 4105 a), (Z.ltb_spec a 4112);
      cbn; try discriminate; lia.
  - vm_compute. auto.
Qed.

(** So a size left by an earlier call decides what the program finds. *)
Theorem C52_history_refuted : exists ps olds olds' shd m,
  left_over olds /\ left_over olds' /\ sound shd m /\
  mem_end (call guard c_wr ps olds shd m (fun _ => None) true) 4106 <>
  mem_end (call guard c_wr ps olds' shd m (fun _ => None) true) 4106.
Proof.
  exists [Param true 4096; Param true 4100], [Slot 0 0 []; Slot 0 12 []], [Slot 0 0 []; Slot 0 0 []],
    d_shd, c_mem.
  split; [repeat constructor; cbn; lia|]. split; [repeat constructor; cbn; lia|]. split.
  - intros a. unfold d_shd, c_mem.
    destruct (Z.leb_spec 4096 a), (Z.ltb_spec a 4104), (Z.leb_spec 4105 a), (Z.ltb_spec a 4112);
      cbn; try discriminate; lia.
  - vm_compute. discriminate.
Qed.

(** A pointer below 2048 is lost to a null slot with a size left by an earlier
    call, also without sentinels. *)
Definition low_shd : shadow := fun a => if (1024 <=? a) && (a <? 1032) then Undef else Unaddr.
Theorem C52_low_refuted : exists shd m w,
  sound shd m /\
  let ps := [Param true 1; Param true 1024] in
  let olds := [Slot 0 2048 []; Slot 0 0 []] in
  let c := call plain c_wr ps olds shd m w true in
  reaches shd (Param true 1024) 1024 /\ shd 1024 = Undef /\ w 1024 = Some 1 /\
  m 1024 = Some 0 /\ shd_end c 1024 = Undef.
Proof.
  exists low_shd, (fun _ => Some 0), (fun _ => Some 1).
  split; [intros a _; discriminate|]. cbn zeta. split; [|vm_compute; repeat split; reflexivity].
  split; [repeat split|]. split; [cbn; lia|]. cbn [p_val]. intros x X.
  now replace x with 1024 by lia.
Qed.

(** A client that goes over the memory arguments twice before the call: the
    second time the sentinels are what is saved. *)
Theorem C52_twice_refuted : exists ps olds shd m,
  apart shd ps /\ left_over olds /\ sound shd m /\
  let r := pre_walk guard shd c_wr [] ps olds m in
  let r := pre_walk guard shd c_wr [] ps (fst r) (snd r) in
  m 4096 = Some 7 /\ restore_all guard shd c_wr (fst r) (snd r) 4096 = Some 171.
Proof.
  exists c_ps, c_olds, c_shd, c_mem.
  destruct C52_case_apart as (A & B & C). split; [exact A|]. split; [exact B|].
  split; [exact C|]. vm_compute. auto.
Qed.

Print Assumptions C52_untouched.
Print Assumptions C52_marks_only.
Print Assumptions C52_marks_all.
Print Assumptions C52_sentinels_memory.
Print Assumptions C52_sentinels_marks.
Print Assumptions C52_kernel_sentinel_refuted.
Print Assumptions C52_sentinel_words_refuted.
Print Assumptions C52_stale_size_refuted.
Print Assumptions C52_history_refuted.
Print Assumptions C52_low_refuted.
Print Assumptions C52_twice_refuted.
