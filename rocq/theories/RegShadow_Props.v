(** C20: the shadow of registers is one state per register byte. *)
From Verif Require Import Base Mem Shadow_Model RegShadow_Model RegShadow_Spec RegShadow_Proofs RegShadow_Proofs2.
Open Scope Z_scope.

(** Every history of calls, from the first thread's registers: no access leaves
    the structures, and every answer is the one the byte states require. *)
Theorem C20_history_first os : Forall legal os ->
  exists s, run init_first os = Ok (s, snd (spec_run start_first os)).
Proof.
  intros L. destruct (run_rep os _ _ rep_first L) as (s & E & _). exists s. exact E.
Qed.
Print Assumptions C20_history_first.

Theorem C20_history_later os : Forall legal os ->
  exists s0 s, init_later = Ok s0 /\ run s0 os = Ok (s, snd (spec_run start_later os)).
Proof.
  intros L. destruct rep_later as (s0 & E0 & R0). destruct (run_rep os _ _ R0 L) as (s & E & _).
  exists s0, s. auto.
Qed.
Print Assumptions C20_history_later.

(** A history with sub-registers, a 32-bit write, SSE and flags: after AH is made
    undefined, AX shows it and AL does not; a 32-bit write to RBX defines its
    upper half; checking EAX reports once. *)
Definition sample : list rop :=
  [Assign (R8h 0) [3]; Get (R8l 0); Get (R16 0); Get (R8h 0); Get (R64 0); Get (R64 1);
   SetQword (R64 3) 0xffff; Assign32 3 [0; 3; 0; 0]; Get (R64 3);
   SetByte (Xmm 15) 15 3; Get (Xmm 15); Get (Xmm 14); Get (Ymm 0);
   SetFlags 0x103; GetFlags; CheckFlags; CheckFlags; Check (R32 0) 4; Check (R32 0) 4; Get (R64 0)].
Definition answers_of (r : res (sregs * list (option Z))) : option (list (option Z)) :=
  match r with Ok (_, l) => Some l | _ => None end.
Example C20_sample_legal : Forall legal sample.
Proof.
  repeat constructor; cbn; try lia; try congruence; intros i E; try discriminate; injection E; lia.
Qed.
Example C20_sample_answers :
  answers_of (run init_first sample) =
  Some [None; Some 0; Some 12; Some 3; Some 12; Some 0; None; None; Some 12;
        None; Some (3 * 4 ^ 15); Some 0; Some 0; None; Some 3; Some 1; Some 0; Some 1; Some 0; Some 0].
Proof. vm_compute. reflexivity. Qed.
Example C20_later_answers :
  match init_later with
  | Ok s => answers_of (run s [Get (R64 0); Get (R64 4); Get (R64 5); Get (Xmm 3); GetFlags; GetHeap])
  | _ => None end = Some [Some 0; Some 0; Some 0xffff; Some 0xffffffff; Some 0xff; Some 0].
Proof. vm_compute. reflexivity. Qed.

(** Reading an MMX register after any such history: its own eight states are
    right, but the upper half of the answer is the next register's. *)
Theorem C20_mmx_read os i : Forall legal os -> 0 <= i < 7 ->
  exists s v, run init_first os = Ok (s, snd (spec_run start_first os)) /\
    get_shadow_register s (Mm i) = Ok v /\
    v mod 2 ^ 16 = pack (D (fst (spec_run start_first os)) (Mmx i)) 0 8.
Proof.
  intros L Hi. destruct (run_rep os _ _ rep_first L) as (s & E & R).
  exists s. eexists. split; [exact E|]. split; [apply (get_mm_rep s _ i R Hi)|].
  rewrite Z.mul_comm, Z_mod_plus_full.
  assert (M : forall k, 0 <= k < 8 -> 0 <= D (fst (spec_run start_first os)) (Mmx i) k < 4).
  { intros k Hk. apply (rep_states s _ (Mmx i) k R); cbn; lia. }
  pose proof (pack_mod (D (fst (spec_run start_first os)) (Mmx i)) 8 0 0 ltac:(intros k Hk; apply M; lia)) as Q.
  exact Q.
Qed.
Print Assumptions C20_mmx_read.
Example C20_mmx_read_case :
  match run init_first [SetByte (Mm 3) 7 3] with
  | Ok (s, _) => get_shadow_register s (Mm 3) | _ => UB end = Ok (3 * 4 ^ 7).
Proof. vm_compute. reflexivity. Qed.

(** Refuted: "checking a fully defined register reports nothing".  MM0 is
    defined, MM1 is not, and checking MM0 reports an error. *)
Theorem C20_mmx_neighbour_refuted :
  exists s s', run init_first [SetByte (Mm 1) 0 3] = Ok (s, [None]) /\
    (forall k, D (fst (spec_run start_first [SetByte (Mm 1) 0 3])) (Mmx 0) k = 0) /\
    check_register_defined s (Mm 0) 8 = Ok (true, s').
Proof.
  eexists. eexists. split; [vm_compute; reflexivity|]. split; [intros k; reflexivity|].
  vm_compute. reflexivity.
Qed.
Print Assumptions C20_mmx_neighbour_refuted.

(** Refuted: "no access leaves the structures": reading MM7 does. *)
Theorem C20_mmx7_refuted : get_shadow_register init_first (Mm 7) = UB.
Proof. vm_compute. reflexivity. Qed.
Print Assumptions C20_mmx7_refuted.

(** Refuted: "a reported register byte is marked defined and no other is".  AH
    undefined and AL undefined; checking AH reports it, leaves AH undefined (so
    it is reported again) and turns AL into defined without any report. *)
Theorem C20_high_byte_refuted :
  exists s, answers_of (run init_first
      [Assign (R8h 0) [3]; Assign (R8l 0) [3]; Check (R8h 0) 1; Check (R8h 0) 1; Check (R8l 0) 1; Get (R16 0)])
    = Some [None; None; Some 1; Some 1; Some 0; s] /\ s = Some (4 * 3).
Proof. eexists. split; vm_compute; reflexivity. Qed.
Print Assumptions C20_high_byte_refuted.

(** Refuted: "a VEX-encoded write of an xmm register defines the upper half of
    the same register and nothing else".  For XMM2 it defines YMM3's; for XMM15
    it defines MM0 and MM1. *)
Definition after_vex (i : Z) (rs : list reg) : list (res Z) :=
  match init_later with
  | Ok s0 => match define_ymmh s0 i with Ok s => map (get_shadow_register s) rs | _ => [] end
  | _ => []
  end.
Theorem C20_vex_refuted :
  after_vex 2 [Ymm 2; Ymm 3] = [Ok 0xffffffff; Ok 0] /\ after_vex 15 [Ymm 15; Mm 0; Mm 2] = [Ok 0xffffffff; Ok 0; Ok 0xffffffff].
Proof. split; vm_compute; reflexivity. Qed.
Print Assumptions C20_vex_refuted.
