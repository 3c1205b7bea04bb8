(** C46-C49: the fast path. *)
From Verif Require Import Base ShadowTables_Model FastPath_Model FastPath_Spec FastPath_Run
  FastPath_Proofs1 FastPath_Proofs2 FastPath_Proofs3 FastPath_Proofs4 FastPath_Proofs5 FastPath_Proofs6
  FastPath_Proofs7 FastPath_Proofs8 FastPath_Proofs9.
Open Scope Z_scope.

(** Concrete machines: the shadow of the primary operand's dword is [p], of the
    source of movs [q]; the registers but %eax and %ebx are defined. *)
Definition at_ (a b v : Z) : world :=
  {| w_tab := fun _ => 0; w_ea := fun k => match k with Prim => a | Second => b end; w_app := v |}.
Definition with_ (a b f p q : Z) : mach :=
  {| m_r1 := of32 0; m_r2 := of32 0; m_r3 := of32 0; m_zf := None;
     m_slot := fun g => match g with EAX => of_Z a | EBX => of_Z b | _ => zero8 end;
     m_fl := of_Z f; m_mem := fun x => if x =? 16384 then of_Z p else if x =? 32768 then of_Z q else of_Z 85 |}.
Definition all4 (x : byte) : list st := map (lane x) [0; 1; 2; 3].
(** The bytes of the dword of [o], before and after. *)
Definition ALL (o : aop) (v v' : view) : list st * list st := (all4 (home v o), all4 (home v' o)).

(** ** C46: accesses *)

Theorem C46_access : forall whole reuse i, family i -> guarded whole reuse i.
Proof. exact all_guarded. Qed.

(** A load of the two bytes at 65538 completes when these are addressable, even though the two before them are not. *)
Example C46_case :
  seen true true (i_mov S2 (Rg EBX false) Me false [EAX]) (at_ 65538 0 0) (with_ 0 255 0 5 0) (ALL (AReg EBX S4 false))
  = Some ([U; U; U; U], [D; D; U; U]).
Proof. vm_compute. reflexivity. Qed.

(** It goes to the slow path one dword-half lower, at an odd address, and with an undefined address register. *)
Example C46_case_slow :
  (seen true true (i_mov S2 (Rg EBX false) Me false [EAX]) (at_ 65536 0 0) (with_ 0 255 0 5 0) (fun _ _ => tt),
   seen true true (i_mov S2 (Rg EBX false) Me false [EAX]) (at_ 65537 0 0) (with_ 0 255 0 0 0) (fun _ _ => tt),
   seen true true (i_mov S2 (Rg EBX false) Me false [EAX]) (at_ 65538 0 0) (with_ 3 255 0 5 0) (fun _ _ => tt))
  = (None, None, None).
Proof. vm_compute. reflexivity. Qed.

(** ** C47: propagation, byte by byte *)

Theorem C47_copies : forall whole reuse s d o fl base, writable d ->
  fast whole reuse (i_mov s d o fl base) (ready s d o) (post_mov s d o fl).
Proof. intros; apply fast_of_good, good_mov; assumption. Qed.

(** A store of %ax, of which %ah is undefined, to the upper half of a dword. *)
Example C47_case_copies :
  seen true true (i_mov S2 Me (Rg EAX false) false []) (at_ 65538 0 0) (with_ 12 0 0 195 0) (ALL (AMem S4))
  = Some ([U; D; D; U], [U; D; D; U]).
Proof. vm_compute. reflexivity. Qed.

Theorem C47_arithmetic : forall whole reuse op s d o rfl base, alu_op op rfl -> writable d -> one_mem d o ->
  fast whole reuse (i_alu op s d o rfl base) (fine_alu s d o rfl) (post_alu op s d o rfl).
Proof. intros; apply fast_of_good, good_alu; assumption. Qed.

(** add (mem),%eax: bytes 1 of the one and 3 of the other are undefined;
    so are the flags then.  xor %eax,%eax makes %eax and the flags defined. *)
Example C47_case_arithmetic :
  (seen true true (i_alu Oother S4 (Rg EAX false) Me false []) (at_ 65536 0 0) (with_ 12 0 0 192 0)
     (fun v v' => (ALL (AReg EAX S4 false) v v', v_fl v')),
   seen true true (i_alu Oxor S4 (Rg EAX false) (Rg EAX false) false []) (at_ 0 0 0) (with_ 252 0 3 0 0)
     (fun v v' => (ALL (AReg EAX S4 false) v v', v_fl v')))
  = (Some ([D; U; D; D], [D; U; D; U], of_Z 204), Some ([D; U; U; U], [D; D; D; D], zero8)).
Proof. vm_compute. reflexivity. Qed.

Theorem C47_extensions : forall whole reuse op ss g o base, op = Omovzx \/ op = Omovsx -> ss <> S4 -> writable o ->
  fast whole reuse (i_ext op S4 ss g o base) (fun v => usable v (bytes ss) (aop_of ss o)) (post_ext op ss g o).
Proof. intros; apply fast_of_good, good_ext; assumption. Qed.

(** movzx and movsx to %ebx of the undefined byte at 65537. *)
Example C47_case_extensions :
  (seen true true (i_ext Omovzx S4 S1 EBX Me []) (at_ 65537 0 0) (with_ 0 252 0 12 0) (ALL (AReg EBX S4 false)),
   seen true true (i_ext Omovsx S4 S1 EBX Me []) (at_ 65537 0 0) (with_ 0 252 0 12 0) (ALL (AReg EBX S4 false)))
  = (Some ([D; U; U; U], [U; D; D; D]), Some ([D; U; U; U], [U; U; U; U])).
Proof. vm_compute. reflexivity. Qed.

Theorem C47_string : forall whole reuse s base, fast whole reuse (i_movs s base) (fine_movs s) (post_movs s).
Proof. intros; apply fast_of_good, good_movs. Qed.

(** movsl of a dword with two undefined bytes. *)
Example C47_case_string :
  seen true true (i_movs S4 []) (at_ 65536 131072 0) (with_ 0 0 0 3 240) (ALL (AMem S4))
  = Some ([U; D; D; D], [D; D; U; U]).
Proof. vm_compute. reflexivity. Qed.

Theorem C47_flag_bytes : forall whole reuse d base, writable d ->
  fast whole reuse (i_setf d base) (fun v => usable v 1 (aop_of S1 d) /\ v_fl v = zero8) (post_setf d).
Proof. intros; apply fast_of_good, good_setf; assumption. Qed.

(** setcc to the undefined byte at 65537, with defined and with undefined flags. *)
Example C47_case_flag_bytes :
  (seen true true (i_setf Me []) (at_ 65537 0 0) (with_ 0 0 0 15 0) (ALL (AMem S4)),
   seen true true (i_setf Me []) (at_ 65537 0 0) (with_ 0 0 3 15 0) (ALL (AMem S4)))
  = (Some ([U; U; D; D], [U; D; D; D]), None).
Proof. vm_compute. reflexivity. Qed.

(** A store of %ah, undefined, to the first byte of a dword leaves that byte defined: the shadow is taken from the wrong lane. *)
Theorem C47_high_store_refuted : forall whole reuse,
  seen whole reuse (i_mov S1 Me (Rg EAX true) false []) (at_ 65536 0 0) (with_ 12 0 0 0 0)
    (fun v v' => (state v (AReg EAX S1 true) 0, state v' (AMem S1) 0)) = Some (U, D).
Proof. intros [] []; vm_compute; reflexivity. Qed.

(** So does add %ah,(mem); even the flags come out defined. *)
Theorem C47_high_add_refuted : forall whole reuse,
  seen whole reuse (i_alu Oother S1 Me (Rg EAX true) false []) (at_ 65536 0 0) (with_ 12 0 0 0 0)
    (fun v v' => (state v (AReg EAX S1 true) 0, state v' (AMem S1) 0, v_fl v')) = Some (U, D, zero8).
Proof. intros [] []; vm_compute; reflexivity. Qed.

(** sbb %eax,%eax sets all of %eax to the carry flag.  If a byte operation left the flags undefined, only one byte of %eax is marked so. *)
Theorem C47_flag_spread_refuted : forall whole reuse,
  seen whole reuse (i_alu Osbb S4 (Rg EAX false) (Rg EAX false) true []) (at_ 0 0 0) (with_ 0 0 3 0 0)
    (fun v v' => all4 (v_slot v' EAX)) = Some [U; D; D; D].
Proof. intros [] []; vm_compute; reflexivity. Qed.

(** ** C48: checked instructions *)

Theorem C48_compare : forall whole reuse s a b chk base, writable a -> one_mem a b ->
  fast whole reuse (i_cmp Oother s a b chk base) (fine_check s a b) (post_cmp s a b chk).
Proof. intros; apply fast_of_good, good_cmp; assumption. Qed.

(** cmp of a byte of memory and %bl: completes beside undefined bytes, does not complete
    on the undefined byte.  cmp of a dword without the check marks the flags. *)
Example C48_case_compare :
  (seen true false (i_cmp Oother S1 Me (Rg EBX false) true []) (at_ 65537 0 0) (with_ 0 0 3 195 0) (fun v v' => v_fl v'),
   seen true false (i_cmp Oother S1 Me (Rg EBX false) true []) (at_ 65536 0 0) (with_ 0 0 3 195 0) (fun v v' => v_fl v'),
   seen true false (i_cmp Oother S4 Me (Rg EBX false) false []) (at_ 65536 0 0) (with_ 0 0 0 195 0) (fun v v' => v_fl v'))
  = (Some zero8, None, Some (of_Z 195)).
Proof. vm_compute. reflexivity. Qed.

Theorem C48_test : forall whole reuse s a b base, writable a -> one_mem a b ->
  fast whole reuse (i_cmp Otest s a b true base) (fine_check s a b) (post_test s a b).
Proof. intros; apply fast_of_good, good_test; assumption. Qed.

(** test %eax,(mem) with %eax undefined: completes if the memory is defined and zero, and only then. *)
Example C48_case_test :
  (seen true false (i_cmp Otest S4 Me (Rg EAX false) true []) (at_ 65536 0 0) (with_ 255 0 3 0 0) (fun v v' => v_fl v'),
   seen true false (i_cmp Otest S4 Me (Rg EAX false) true []) (at_ 65536 0 1) (with_ 255 0 3 0 0) (fun v v' => v_fl v'),
   seen true false (i_cmp Otest S4 Me (Rg EAX false) true []) (at_ 65536 0 0) (with_ 255 0 3 3 0) (fun v v' => v_fl v'))
  = (Some zero8, None, None).
Proof. vm_compute. reflexivity. Qed.

Theorem C48_logic : forall whole reuse op s d o base, op = Oand \/ op = Oor -> writable d -> one_mem d o ->
  fast whole reuse (i_logic op s d o base) (fine_check s d o) (post_logic op s d o).
Proof. intros; apply fast_of_good, good_logic; assumption. Qed.

(** or (mem),%eax with %eax undefined: completes if the memory is defined and has all bits set. *)
Example C48_case_logic :
  (seen true false (i_logic Oor S4 (Rg EAX false) Me []) (at_ 65536 0 (-1)) (with_ 255 0 3 0 0) (ALL (AReg EAX S4 false)),
   seen true false (i_logic Oor S4 (Rg EAX false) Me []) (at_ 65536 0 0) (with_ 255 0 3 0 0) (ALL (AReg EAX S4 false)),
   seen true false (i_logic Oand S4 (Rg EAX false) (Im 0) []) (at_ 65536 0 9) (with_ 255 0 3 0 0) (ALL (AReg EAX S4 false)))
  = (Some ([U; U; U; U], [D; D; D; D]), None, Some ([U; U; U; U], [D; D; D; D])).
Proof. vm_compute. reflexivity. Qed.

Theorem C48_shift : forall whole reuse op s d n base, writable d -> shifted op s d -> by_bytes n = false ->
  fast whole reuse (i_shift op s d n base) (fun v => clean s v d) (post_shift_checked s d).
Proof. intros; apply fast_of_good, good_shift_checked; assumption. Qed.

(** shr $3,%eax, defined and not. *)
Example C48_case_shift :
  (seen true false (i_shift Oshr S4 (Rg EAX false) 3 []) (at_ 0 0 0) (with_ 0 0 255 0 0) (fun v v' => (ALL (AReg EAX S4 false) v v', v_fl v')),
   seen true false (i_shift Oshr S4 (Rg EAX false) 3 []) (at_ 0 0 0) (with_ 192 0 255 0 0) (fun v v' => (ALL (AReg EAX S4 false) v v', v_fl v')))
  = (Some ([D; D; D; D], [D; D; D; D], zero8), None).
Proof. vm_compute. reflexivity. Qed.

Theorem C48_widen : forall whole reuse op g o base, op = Omovzx \/ op = Omovsx -> writable o ->
  fast whole reuse (i_ext op S2 S1 g o base) (fun v => clean S1 v o) (post_ext2 g o).
Proof. intros; apply fast_of_good, good_ext2; assumption. Qed.

(** movzbw from memory, of a defined and of an undefined byte. *)
Example C48_case_widen :
  (seen true false (i_ext Omovzx S2 S1 EBX Me []) (at_ 65537 0 0) (with_ 0 15 0 0 0) (ALL (AReg EBX S4 false)),
   seen true false (i_ext Omovzx S2 S1 EBX Me []) (at_ 65537 0 0) (with_ 0 15 0 12 0) (ALL (AReg EBX S4 false)))
  = (Some ([U; U; D; D], [D; D; D; D]), None).
Proof. vm_compute. reflexivity. Qed.

Theorem C48_exchange : forall whole reuse s a b wfl base, writable a -> writable b -> one_mem a b ->
  fast whole reuse (i_xchg s a b wfl base) (fine_check s a b) (post_xchg s [a; b] wfl).
Proof. intros; apply fast_of_good, good_xchg; assumption. Qed.

(** xchg of %bl and a byte of memory, with other bytes of the memory's dword undefined. *)
Example C48_case_exchange :
  (seen true false (i_xchg S1 Me (Rg EBX false) false []) (at_ 65537 0 0) (with_ 0 0 0 195 0) (ALL (AMem S4)),
   seen true false (i_xchg S1 Me (Rg EBX false) false []) (at_ 65536 0 0) (with_ 0 0 0 195 0) (ALL (AMem S4)))
  = (Some ([U; D; D; U], [U; D; D; U]), None).
Proof. vm_compute. reflexivity. Qed.

Theorem C48_cmpxchg : forall whole reuse s a g hi base, writable a ->
  fast whole reuse (i_cmpxchg s a (Rg g hi) base)
    (fun v => fine_check s a (Rg g hi) v /\ clean s v (Rg EAX false)) (post_xchg s [a; Rg g hi; Rg EAX false] true).
Proof. intros; apply fast_of_good, good_cmpxchg; assumption. Qed.

(** cmpxchg %ebx,(mem): each of the three has to be defined. *)
Example C48_case_cmpxchg :
  map (fun m => seen true false (i_cmpxchg S4 Me (Rg EBX false) []) (at_ 65536 0 0) m (fun v v' => v_fl v'))
    [with_ 0 0 3 0 0; with_ 12 0 3 0 0; with_ 0 12 3 0 0; with_ 0 0 3 12 0]
  = [Some zero8; None; None; None].
Proof. vm_compute. reflexivity. Qed.

(** A checked instruction on one or two bytes of memory or of a register marks the whole dword defined, undefined neighbours too: and (mem8),%al; or $1,(mem8); rol $1,(mem8); movzbw (mem8),%ax. *)
Theorem C48_neighbours_refuted : forall reuse,
  map (fun io => seen true reuse (fst io) (at_ 65536 0 0) (with_ 192 0 0 192 0) (ALL (snd io)))
    [(i_logic Oand S1 (Rg EAX false) Me [], AReg EAX S4 false);
     (i_logic Oor S1 Me (Im 1) [], AMem S4);
     (i_shift Orot S1 Me 1 [], AMem S4);
     (i_ext Omovzx S2 S1 EAX Me [], AReg EAX S4 false)]
  = repeat (Some ([D; D; D; U], [D; D; D; D])) 4.
Proof. intros []; vm_compute; reflexivity. Qed.

(** The same without whole-block register sharing: or $-1,%ax and and $0,%al with the other bytes of %eax undefined. *)
Theorem C48_neighbours_always_refuted : forall whole reuse,
  map (fun i => seen whole reuse i (at_ 0 0 0) (with_ 192 0 0 0 0) (ALL (AReg EAX S4 false)))
    [i_logic Oor S2 (Rg EAX false) (Im (-1)) []; i_logic Oand S1 (Rg EAX false) (Im 0) []]
  = repeat (Some ([D; D; D; U], [D; D; D; D])) 2.
Proof. intros [] []; vm_compute; reflexivity. Qed.

(** movsb and movsw next to unaddressable bytes mark those addressable and defined. *)
Theorem C48_redzone_refuted : forall whole reuse s, s <> S4 ->
  seen whole reuse (i_movs s []) (at_ 65536 131072 0) (with_ 0 0 0 80 0) (ALL (AMem S4))
  = Some ([D; D; Una; Una], [D; D; D; D]).
Proof. intros [] [] [] N; try (exfalso; apply N; reflexivity); vm_compute; reflexivity. Qed.

(** ** C49: shifts by whole bytes *)

Theorem C49_shifts : forall whole reuse op s d m base, op <> Orot -> writable d -> shifted op s d -> 0 <= m < 4 ->
  fast whole reuse (i_shift op s d (8 * m) base)
    (fun v => usable v (bytes s) (aop_of s d)) (post_shift_bytes op s d m).
Proof. intros; apply fast_of_good, good_shift_bytes; assumption. Qed.

(** shl $8 and shr $16 of %eax, whose bytes 1 and 2 are undefined. *)
Example C49_case :
  (seen true false (i_shift Oshl S4 (Rg EAX false) 8 []) (at_ 0 0 0) (with_ 60 0 0 0 0) (ALL (AReg EAX S4 false)),
   seen true false (i_shift Oshr S4 (Rg EAX false) 16 []) (at_ 0 0 0) (with_ 60 0 0 0 0) (ALL (AReg EAX S4 false)))
  = (Some ([D; U; U; D], [D; D; U; U]), Some ([D; U; U; D], [U; D; D; D])).
Proof. vm_compute. reflexivity. Qed.

(** Shifts of one or two bytes of memory get no code: they are always left to the slow path. *)
Theorem C49_narrow : forall whole reuse op s n base, op = Oshl \/ op = Oshr \/ op = Osar -> s <> S4 ->
  gen whole reuse (i_shift op s Me n base) = None.
Proof. intros whole reuse op [] n base [->|[->| ->]] N; reflexivity || congruence. Qed.

(** Not exact below four bytes, nor for sar: shr $8,%ax marks byte 1, which is
    zero after, undefined because the neighbour, byte 2, is; sar $8,%eax keeps
    byte 1 undefined though it now holds the defined byte 2. *)
Theorem C49_excess_refuted : forall whole reuse,
  (seen whole reuse (i_shift Oshr S2 (Rg EAX false) 8 []) (at_ 0 0 0) (with_ 48 0 0 0 0) (ALL (AReg EAX S4 false)),
   seen whole reuse (i_shift Osar S4 (Rg EAX false) 8 []) (at_ 0 0 0) (with_ 12 0 0 0 0) (ALL (AReg EAX S4 false)))
  = (Some ([D; D; U; D], [D; U; U; D]), Some ([D; U; D; D], [U; U; D; D])).
Proof. intros [] []; vm_compute; reflexivity. Qed.

(** shl $32,%eax changes nothing, for the processor uses the count modulo 32; %eax comes out defined. *)
Theorem C49_modulo_refuted : forall whole reuse,
  seen whole reuse (i_shift Oshl S4 (Rg EAX false) 32 []) (at_ 0 0 0) (with_ 255 0 0 0 0) (ALL (AReg EAX S4 false))
  = Some ([U; U; U; U], [D; D; D; D]).
Proof. intros [] []; vm_compute; reflexivity. Qed.

(** The carry flag after shl $8,%eax is a bit of the byte shifted out.  If that is undefined the flags come out defined nevertheless. *)
Theorem C49_carry_refuted : forall whole reuse,
  seen whole reuse (i_shift Oshl S4 (Rg EAX false) 8 []) (at_ 0 0 0) (with_ 192 0 0 0 0)
    (fun v v' => (lane (v_slot v EAX) 3, v_fl v')) = Some (U, zero8).
Proof. intros [] []; vm_compute; reflexivity. Qed.

(** rol $8,%eax moves the undefined byte 3 to byte 0; the shadow stays in place. *)
Theorem C49_rotate_refuted : forall whole reuse,
  seen whole reuse (i_shift Orot S4 (Rg EAX false) 8 []) (at_ 0 0 0) (with_ 192 0 0 0 0) (ALL (AReg EAX S4 false))
  = Some ([D; D; D; U], [D; D; D; U]).
Proof. intros [] []; vm_compute; reflexivity. Qed.

Print Assumptions C46_access.
Print Assumptions C47_copies.
Print Assumptions C47_arithmetic.
Print Assumptions C47_extensions.
Print Assumptions C47_string.
Print Assumptions C47_flag_bytes.
Print Assumptions C47_high_store_refuted.
Print Assumptions C47_high_add_refuted.
Print Assumptions C47_flag_spread_refuted.
Print Assumptions C48_compare.
Print Assumptions C48_test.
Print Assumptions C48_logic.
Print Assumptions C48_shift.
Print Assumptions C48_widen.
Print Assumptions C48_exchange.
Print Assumptions C48_cmpxchg.
Print Assumptions C48_neighbours_refuted.
Print Assumptions C48_neighbours_always_refuted.
Print Assumptions C48_redzone_refuted.
Print Assumptions C49_shifts.
Print Assumptions C49_narrow.
Print Assumptions C49_excess_refuted.
Print Assumptions C49_modulo_refuted.
Print Assumptions C49_carry_refuted.
Print Assumptions C49_rotate_refuted.
