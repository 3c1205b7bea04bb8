(** Property theorems about the propagation of definedness. *)
From Verif Require Import Base Def_Model Def_Spec Def_Proofs Def_Proofs2 Def_Proofs3
  Def_Proofs4 Def_Proofs5 Def_Proofs6 Def_Proofs7 Def_Proofs8.
Open Scope Z_scope.

Ltac meets :=
  repeat first [ reflexivity | discriminate | (cbn; lia) | (vm_compute; congruence) | split | intro | left; reflexivity
               | right; split; reflexivity ].

(** ** Instructions that pass on what they should *)

(** Byte for byte: moves, zero extension, logical operations, setcc; also of
    instructions all of whose operands are checked, with and without
    -leave_uninit. *)
Theorem C23_bytewise leave x64 i f F :
  i_opc i = Op_plain -> i_always i = false ->
  (i_check i = true -> forall k o, nth_error (i_srcs i) k = Some o -> o_check o = true) ->
  (forall k d, nth_error (i_dsts i) k = Some d -> wf_dest i d) ->
  (forall k o, nth_error (i_srcs i) k = Some o -> o_size o <= ARRAY_LEN) ->
  (i_rflags i = true ->
     length (i_dsts i) = 1%nat /\
     (flag_state f 0 = UNDEFINED -> forall d, nth_error (i_dsts i) 0 = Some d ->
        forall j, 0 <= j < d_size d -> flag_state f j = UNDEFINED)) ->
  no_laundering leave x64 i f (bytewise i F).
Proof. exact (bytewise_ok leave x64 i f F). Qed.
Print Assumptions C23_bytewise.

(** Flags marked as initialised: all sources were. *)
Theorem C23_flags leave x64 i f ds f' :
  i_opc i = Op_plain -> i_always i = false -> i_wflags i = true ->
  propagate leave x64 i f = Ok (ds, f') -> f' <> UNDEFINED ->
  forall vs ws fl fl', agree_srcs leave i vs ws -> agree_flags leave i f fl fl' ->
  (forall k o b, nth_error (i_srcs i) k = Some o ->
     negb (o_mem o) && i_pushpop i && o_xsp o = false -> 0 <= b < o_size o ->
     vs (Z.of_nat k) b = ws (Z.of_nat k) b) /\
  (i_rflags i = true -> fl = fl').
Proof. exact (plain_flags leave x64 i f ds f'). Qed.
Print Assumptions C23_flags.

Example C23_case_bytewise :
  no_laundering false true (ins Op_plain [reg 4 (but 1); mem 4 (but 2)] [to_reg 4] None true false)
    0 (bytewise (ins Op_plain [reg 4 (but 1); mem 4 (but 2)] [to_reg 4] None true false)
         (fun _ _ l _ => match l with [Some a; Some b] => Z.lxor a b | _ => 0 end)) /\
  show 5 (propagate false true
    (ins Op_plain [reg 4 (but 1); mem 4 (but 2)] [to_reg 4] None true false) 0) =
  Some ([[0; 3; 3; 0; 3]], 3).
Proof.
  split; [|vm_compute; reflexivity].
  apply C23_bytewise; try reflexivity; try discriminate.
  - intros [|[|k]] d H; try discriminate H. injection H as <-. meets.
  - intros [|[|[|k]]] d H; try discriminate H; injection H as <-; cbn; unfold ARRAY_LEN; lia.
Qed.

Theorem C23_exchange leave x64 i f a b d0 d1 n :
  i_opc i = Op_xchg -> i_always i = false -> i_check i = false -> i_rflags i = false ->
  i_pushpop i = false ->
  i_srcs i = [a; b] -> i_dsts i = [d0; d1] -> 1 <= n <= 16 ->
  real a -> real b -> o_size a = n -> o_size b = n ->
  wf_dest i d0 -> wf_dest i d1 -> d_size d0 = n -> d_size d1 = n -> d_mem d1 = false ->
  no_laundering leave x64 i f exchange.
Proof. exact (exchange_ok leave x64 i f a b d0 d1 n). Qed.
Print Assumptions C23_exchange.

Example C23_case_exchange :
  no_laundering false true (ins Op_xchg [mem 2 (but 0); reg 2 (but 1)] [to_mem 2; to_reg 2]
    None false false) 0 exchange /\
  show 2 (propagate false true (ins Op_xchg [mem 2 (but 0); reg 2 (but 1)]
    [to_mem 2; to_reg 2] None false false) 0) = Some ([[0; 3]; [3; 0]], 0).
Proof.
  split; [|vm_compute; reflexivity].
  eapply (C23_exchange _ _ _ _ _ _ _ _ 2); meets.
Qed.

(** cmpxchg8b: the operands that are compared are checked and reported; what is
    stored then follows ebx and ecx. *)
Theorem C23_cmpxchg8b x64 i f m a d c b dm da dd :
  i_opc i = Op_cmpxchg8b -> i_always i = false -> i_check i = false -> i_rflags i = false ->
  i_pushpop i = false -> i_srcs i = [m; a; d; c; b] -> i_dsts i = [dm; da; dd] ->
  o_check m = true -> o_check a = true -> o_check d = true -> real c -> real b ->
  o_size m = 8 -> o_size a = 4 -> o_size d = 4 -> o_size c = 4 -> o_size b = 4 ->
  wf_dest i dm -> wf_dest i da -> wf_dest i dd -> d_mem dm = true -> d_mem da = false -> d_mem dd = false ->
  d_size dm = 8 -> d_size da = 4 -> d_size dd = 4 ->
  no_laundering false x64 i f compare_exchange8.
Proof. exact (cmpxchg8b_ok x64 i f m a d c b dm da dd). Qed.
Print Assumptions C23_cmpxchg8b.

Definition cx8 : instr :=
  ins Op_cmpxchg8b [check (mem 8 (but 6)); check (reg 4 def); check (reg 4 def); reg 4 (but 1); reg 4 (but 3)]
    [to_mem 8; to_reg 4; to_reg 4] None true false.
Example C23_case_cmpxchg8b :
  no_laundering false true cx8 0 compare_exchange8 /\
  show 8 (propagate false true cx8 0) =
  Some ([[0; 0; 0; 3; 0; 3; 0; 0]; [0; 0; 0; 3; 3; 3; 3; 3]; [0; 3; 0; 0; 3; 3; 3; 3]], 3).
Proof.
  split; [|vm_compute; reflexivity].
  eapply C23_cmpxchg8b; meets.
Qed.

Theorem C23_byte_swap leave x64 i f a d n :
  i_opc i = Op_bswap -> i_always i = false -> i_check i = false -> i_rflags i = false ->
  i_pushpop i = false -> i_srcs i = [a] -> i_dsts i = [d] -> 1 <= n <= 16 ->
  real a -> o_size a = n -> wf_dest i d -> d_size d = n ->
  no_laundering leave x64 i f (byte_swap n).
Proof. exact (byte_swap_ok leave x64 i f a d n). Qed.
Print Assumptions C23_byte_swap.

Example C23_case_byte_swap :
  no_laundering false true (ins Op_bswap [reg 4 (but 1)] [to_reg 4] None false false) 0
    (byte_swap 4) /\
  show 4 (propagate false true (ins Op_bswap [reg 4 (but 1)] [to_reg 4] None false false) 0) =
  Some ([[0; 0; 3; 0]], 0).
Proof.
  split; [|vm_compute; reflexivity].
  eapply (C23_byte_swap _ _ _ _ _ _ 4); meets.
Qed.

(** Unpacks in their legacy operand order. *)
Theorem C23_unpack leave x64 i f a b d n high w :
  simple i -> unpack (i_opc i) = Some (high, w) -> n = 8 \/ n = 16 -> w < n ->
  i_srcs i = [a; b] -> real a -> real b -> o_size a = n -> o_size b = n ->
  one_dest i d -> d_size d = n ->
  no_laundering leave x64 i f (interleave high n w).
Proof. exact (unpack_ok leave x64 i f a b d n high w). Qed.
Print Assumptions C23_unpack.

Example C23_case_unpack :
  no_laundering false true (ins Op_punpckhwd [mem 16 (but 9); reg 16 (but 14)] [to_reg 16]
    None false false) 0 (interleave true 16 2) /\
  show 16 (propagate false true (ins Op_punpckhwd [mem 16 (but 9); reg 16 (but 14)]
    [to_reg 16] None false false) 0) =
  Some ([[0; 0; 0; 3; 0; 0; 0; 0; 0; 0; 0; 0; 3; 0; 0; 0]], 0).
Proof.
  split; [|vm_compute; reflexivity].
  eapply (C23_unpack _ _ _ _ _ _ _ 16); meets.
Qed.

Theorem C23_shuffle_ps leave x64 i f a im b d imm :
  simple i -> i_opc i = Op_shufps -> i_val i = Some imm -> 0 <= imm < 256 ->
  i_srcs i = [a; im; b] -> constant im -> real a -> real b -> o_size a = 16 -> o_size b = 16 ->
  one_dest i d -> d_size d = 16 ->
  no_laundering leave x64 i f (shuffle_ps imm).
Proof. exact (shuffle_ps_ok leave x64 i f a im b d imm). Qed.
Print Assumptions C23_shuffle_ps.

Example C23_case_shuffle_ps :
  no_laundering false true (ins Op_shufps [mem 16 (but 5); imm8; reg 16 (but 13)] [to_reg 16]
    (Some 71) false false) 0 (shuffle_ps 71) /\
  show 16 (propagate false true (ins Op_shufps [mem 16 (but 5); imm8; reg 16 (but 13)]
    [to_reg 16] (Some 71) false false) 0) =
  Some ([[0; 3; 0; 0; 0; 0; 0; 0; 0; 0; 0; 0; 0; 3; 0; 0]], 0).
Proof.
  split; [|vm_compute; reflexivity].
  eapply C23_shuffle_ps; meets.
Qed.

(** Only with the selector 0. *)
Theorem C23_shuffle_pd leave x64 i f a im b d :
  simple i -> i_opc i = Op_shufpd -> i_val i = Some 0 ->
  i_srcs i = [a; im; b] -> constant im -> real a -> real b -> o_size a = 16 -> o_size b = 16 ->
  one_dest i d -> d_size d = 16 ->
  no_laundering leave x64 i f (shuffle_pd 0).
Proof. exact (shuffle_pd_ok leave x64 i f a im b d). Qed.
Print Assumptions C23_shuffle_pd.

Example C23_case_shuffle_pd :
  no_laundering false true (ins Op_shufpd [mem 16 (but 5); imm8; reg 16 (but 3)] [to_reg 16]
    (Some 0) false false) 0 (shuffle_pd 0) /\
  show 16 (propagate false true (ins Op_shufpd [mem 16 (but 5); imm8; reg 16 (but 3)]
    [to_reg 16] (Some 0) false false) 0) =
  Some ([[0; 0; 0; 3; 0; 0; 0; 0; 0; 0; 0; 0; 0; 3; 0; 0]], 0).
Proof.
  split; [|vm_compute; reflexivity].
  eapply C23_shuffle_pd; meets.
Qed.

(** Shifts of a whole register by bytes, two or three operands. *)
Theorem C23_byte_shift leave x64 i f a im d n c data :
  simple i -> i_opc i = Op_psrldq \/ i_opc i = Op_pslldq -> i_val i = Some c -> 0 <= c ->
  (data = 0 /\ i_srcs i = [a; im]) \/ (data = 1 /\ i_srcs i = [im; a]) ->
  constant im -> real a -> o_size a = n -> one_dest i d -> d_size d = n ->
  no_laundering leave x64 i f
    match i_opc i with
    | Op_psrldq => shift_bytes_right data n c
    | _ => shift_bytes_left data n c
    end.
Proof. exact (byte_shift_ok leave x64 i f a im d n c data). Qed.
Print Assumptions C23_byte_shift.

Example C23_case_byte_shift :
  no_laundering false true (ins Op_psrldq [imm8; reg 16 (but 5)] [to_reg 16]
    (Some 3) false false) 0 (shift_bytes_right 1 16 3) /\
  show 16 (propagate false true (ins Op_psrldq [imm8; reg 16 (but 5)] [to_reg 16]
    (Some 3) false false) 0) =
  Some ([[0; 0; 3; 0; 0; 0; 0; 0; 0; 0; 0; 0; 0; 0; 0; 0]], 0).
Proof.
  split; [|vm_compute; reflexivity].
  apply (C23_byte_shift false true (ins Op_psrldq [imm8; reg 16 (but 5)] [to_reg 16]
    (Some 3) false false) 0 (reg 16 (but 5)) imm8 (to_reg 16) 16 3 1);
  first [now left|now right|meets].
Qed.

(** Extracts, if the selector is in range. *)
Theorem C23_extract leave x64 i f a im d w imm :
  simple i -> extracted (i_opc i) = Some w -> i_val i = Some imm ->
  0 <= imm -> (imm + 1) * w <= o_regsize a ->
  i_srcs i = [a; im] -> constant im -> real a -> o_mem a = false ->
  one_dest i d ->
  no_laundering leave x64 i f (extract w imm).
Proof. exact (extract_ok leave x64 i f a im d w imm). Qed.
Print Assumptions C23_extract.

Example C23_case_extract :
  no_laundering false true (ins Op_pextrw [reg_part 2 16 (but 7); imm8] [to_part 4 8 undef]
    (Some 3) false false) 0 (extract 2 3) /\
  show 8 (propagate false true (ins Op_pextrw [reg_part 2 16 (but 7); imm8]
    [to_part 4 8 undef] (Some 3) false false) 0) =
  Some ([[0; 3; 3; 3; 3; 3; 3; 3]], 0).
Proof.
  split; [|vm_compute; reflexivity].
  eapply (C23_extract _ _ _ _ (reg_part 2 16 (but 7))); meets.
Qed.

(** Inserts, if the selector is in range: the other bytes of the register keep
    their states. *)
Theorem C23_insert leave x64 i f a im d w imm :
  simple i -> inserted (i_opc i) = Some w -> i_val i = Some imm ->
  0 <= imm -> (imm + 1) * w <= d_regsize d ->
  i_srcs i = [a; im] -> constant im -> real a ->
  w <= (if o_mem a then o_size a else o_regsize a) ->
  i_dsts i = [d] -> part_of_reg d ->
  no_laundering leave x64 i f (insert w imm).
Proof. exact (insert_ok leave x64 i f a im d w imm). Qed.
Print Assumptions C23_insert.

Example C23_case_insert :
  no_laundering false true (ins Op_pinsrw [reg_part 2 4 (but 0); imm8] [to_part 2 8 (but 7)]
    (Some 2) false false) 0 (insert 2 2) /\
  show 8 (propagate false true (ins Op_pinsrw [reg_part 2 4 (but 0); imm8]
    [to_part 2 8 (but 7)] (Some 2) false false) 0) =
  Some ([[0; 0; 0; 0; 3; 0; 0; 3]], 0).
Proof.
  split; [|vm_compute; reflexivity].
  eapply (C23_insert _ _ _ _ (reg_part 2 4 (but 0)) _ (to_part 2 8 (but 7))); meets.
Qed.

Theorem C23_insert3 leave x64 i f h a im d w imm :
  simple i -> inserted3 (i_opc i) = Some w -> i_val i = Some imm ->
  0 <= imm -> (imm + 1) * w <= 16 ->
  i_srcs i = [h; a; im] -> constant im -> real h -> real a ->
  o_mem h = false -> o_regsize h = 16 ->
  w <= (if o_mem a then o_size a else o_regsize a) ->
  one_dest i d -> width i d = 16 ->
  no_laundering leave x64 i f (insert3 w imm).
Proof. exact (insert3_ok leave x64 i f h a im d w imm). Qed.
Print Assumptions C23_insert3.

Example C23_case_insert3 :
  no_laundering false true (ins Op_vpinsrd [reg_part 12 16 (but 9); mem 4 (but 0); imm8]
    [to_part 16 16 undef] (Some 1) false false) 0 (insert3 4 1) /\
  show 16 (propagate false true (ins Op_vpinsrd [reg_part 12 16 (but 9); mem 4 (but 0); imm8]
    [to_part 16 16 undef] (Some 1) false false) 0) =
  Some ([[0; 0; 0; 0; 3; 0; 0; 0; 0; 3; 0; 0; 0; 0; 0; 0]], 0).
Proof.
  split; [|vm_compute; reflexivity].
  eapply (C23_insert3 _ _ _ _ (reg_part 12 16 (but 9)) (mem 4 (but 0)) _
    (to_part 16 16 undef)); meets.
Qed.

Theorem C23_insert_ps leave x64 i f a im d imm :
  simple i -> i_opc i = Op_insertps -> i_val i = Some imm -> 0 <= imm < 256 ->
  i_srcs i = [a; im] -> constant im -> real a ->
  (if o_mem a then o_size a = 4 else o_regsize a = 16) ->
  i_dsts i = [d] -> part_of_reg d -> d_regsize d = 16 ->
  no_laundering leave x64 i f (insert_ps (o_mem a) imm).
Proof. exact (insert_ps_ok leave x64 i f a im d imm). Qed.
Print Assumptions C23_insert_ps.

Example C23_case_insert_ps :
  no_laundering false true (ins Op_insertps [reg_part 4 16 (but 10); imm8]
    [to_part 12 16 (but 15)] (Some 145) false false) 0 (insert_ps false 145) /\
  show 16 (propagate false true (ins Op_insertps [reg_part 4 16 (but 10); imm8]
    [to_part 12 16 (but 15)] (Some 145) false false) 0) =
  Some ([[0; 0; 0; 0; 0; 0; 3; 0; 0; 0; 0; 0; 0; 0; 0; 3]], 0).
Proof.
  split; [|vm_compute; reflexivity].
  eapply (C23_insert_ps _ _ _ _ (reg_part 4 16 (but 10)) _ (to_part 12 16 (but 15))); meets.
Qed.

(** Half moves: register to register, and stores. *)
Theorem C23_into_high leave x64 i f a d :
  simple i -> i_opc i = Op_movhps -> i_srcs i = [a] -> real a ->
  o_mem a = false -> o_regsize a = 16 ->
  i_dsts i = [d] -> part_of_reg d -> d_regsize d = 16 ->
  no_laundering leave x64 i f (into_high 0).
Proof. exact (into_high_ok leave x64 i f a d). Qed.
Print Assumptions C23_into_high.

Theorem C23_from_high leave x64 i f a d :
  simple i -> i_srcs i = [a] -> real a -> o_mem a = false ->
  (i_opc i = Op_movhps /\ o_regsize a = 16 /\ d_mem d = true \/
   i_opc i = Op_movlps /\ o_size a = 16 /\ d_mem d = false) ->
  one_dest i d -> d_size d = 8 ->
  no_laundering leave x64 i f from_high.
Proof. exact (from_high_ok leave x64 i f a d). Qed.
Print Assumptions C23_from_high.

Theorem C23_low_half leave x64 i f a d :
  simple i -> i_opc i = Op_movlps -> i_srcs i = [a] -> real a -> o_mem a = negb (d_mem d) ->
  8 <= o_size a <= 16 -> one_dest i d -> d_size d = 8 ->
  no_laundering leave x64 i f low_half.
Proof. exact (low_half_ok leave x64 i f a d). Qed.
Print Assumptions C23_low_half.

Example C23_case_halves :
  (no_laundering false true (ins Op_movhps [reg_part 8 16 (but 2)] [to_part 8 16 (but 1)]
     None false false) 0 (into_high 0) /\
   no_laundering false true (ins Op_movhps [reg_part 8 16 (but 10)] [to_mem 8]
     None false false) 0 from_high /\
   no_laundering false true (ins Op_movlps [mem 8 (but 2)] [to_part 8 16 (but 9)]
     None false false) 0 low_half) /\
  show 16 (propagate false true (ins Op_movhps [reg_part 8 16 (but 2)]
    [to_part 8 16 (but 1)] None false false) 0) =
    Some ([[0; 3; 0; 0; 0; 0; 0; 0; 0; 0; 3; 0; 0; 0; 0; 0]], 0) /\
  show 8 (propagate false true (ins Op_movhps [reg_part 8 16 (but 10)] [to_mem 8]
    None false false) 0) = Some ([[0; 0; 3; 0; 0; 0; 0; 0]], 0) /\
  show 16 (propagate false true (ins Op_movlps [mem 8 (but 2)] [to_part 8 16 (but 9)]
    None false false) 0) =
    Some ([[0; 0; 3; 0; 0; 0; 0; 0; 0; 3; 0; 0; 0; 0; 0; 0]], 0).
Proof.
  split; [|vm_compute; repeat split]. split; [|split].
  - eapply (C23_into_high _ _ _ _ (reg_part 8 16 (but 2)) (to_part 8 16 (but 1))); meets.
  - eapply (C23_from_high _ _ _ _ (reg_part 8 16 (but 10)) (to_mem 8)); first [now left; repeat split|meets].
  - eapply (C23_low_half _ _ _ _ (mem 8 (but 2)) (to_part 8 16 (but 9))); meets.
Qed.

(** Shifts of general registers with a count the tool reads as the processor
    does; the arithmetic shift only by whole bytes, or so far that nothing but
    the sign's byte is left. *)
Theorem C23_shift leave x64 i f cn a d n c :
  simple i -> is_shift (i_opc i) -> i_val i = Some c -> 0 <= c -> right_count (i_opc i) n c ->
  i_srcs i = [cn; a] -> constant cn \/ (o_check cn = true /\ leave = false) ->
  real a -> o_size a = n -> one_dest i d -> d_size d = n ->
  no_laundering leave x64 i f (shifted (i_opc i) n c).
Proof. exact (shifted_ok leave x64 i f cn a d n c). Qed.
Print Assumptions C23_shift.

(** The flags of such a shift, by a count other than 0. *)
Theorem C23_shift_flags leave x64 i f cn a n c ds f' :
  simple i -> is_shift (i_opc i) -> i_wflags i = true -> i_val i = Some c ->
  1 <= c <= 8 * n -> i_srcs i = [cn; a] -> real a -> o_size a = n ->
  propagate leave x64 i f = Ok (ds, f') -> f' <> UNDEFINED ->
  forall vs ws, agree_srcs leave i vs ws ->
    carry (i_opc i) n c (vs 1) = carry (i_opc i) n c (ws 1) /\
    forall j, 0 <= j < n ->
      shift_op (i_opc i) n c (vs 1) j = shift_op (i_opc i) n c (ws 1) j.
Proof. exact (shift_flags_ok leave x64 i f cn a n c ds f'). Qed.
Print Assumptions C23_shift_flags.

(** What the shifts and the carry mean in terms of numbers. *)
Theorem C23_shift_meaning n c v j :
  (0 < n)%nat -> bytes (Z.of_nat n) v -> 0 <= c -> 0 <= j < Z.of_nat n ->
  shl (Z.of_nat n) c v j = number v n * 2 ^ c / 256 ^ j mod 256 /\
  shr (Z.of_nat n) c v j = number v n / 2 ^ c / 256 ^ j mod 256 /\
  sar (Z.of_nat n) c v j = signed v n / 2 ^ c / 256 ^ j mod 256.
Proof. exact (shift_meaning n c v j). Qed.
Print Assumptions C23_shift_meaning.

Theorem C23_carry_meaning n c v :
  (0 < n)%nat -> bytes (Z.of_nat n) v -> 1 <= c <= 8 * Z.of_nat n ->
  carry Op_shl (Z.of_nat n) c v = Z.odd (number v n / 2 ^ (8 * Z.of_nat n - c)) /\
  carry Op_shr (Z.of_nat n) c v = Z.odd (number v n / 2 ^ (c - 1)) /\
  carry Op_sar (Z.of_nat n) c v = Z.odd (signed v n / 2 ^ (c - 1)).
Proof. exact (carry_meaning n c v). Qed.
Print Assumptions C23_carry_meaning.

Example C23_case_shift :
  no_laundering false true (ins Op_shl [checked; reg 4 (but 1)] [to_reg 4] (Some 5) true false)
    0 (shifted Op_shl 4 5) /\
  show 4 (propagate false true
    (ins Op_shl [checked; reg 4 (but 1)] [to_reg 4] (Some 5) true false) 0) =
    Some ([[0; 3; 3; 0]], 3) /\
  show 4 (propagate false true
    (ins Op_shl [checked; reg 4 (but 2)] [to_reg 4] (Some 24) true false) 0) =
    Some ([[0; 0; 0; 0]], 0) /\
  show 4 (propagate false true
    (ins Op_sar [checked; reg 4 (but 3)] [to_reg 4] (Some 16) true false) 0) =
    Some ([[0; 3; 3; 3]], 3) /\
  map (shl 4 5 (fun b => b + 1)) [0; 1; 2; 3] = [32; 64; 96; 128] /\
  map (sar 4 20 (fun _ => 200)) [0; 1; 2; 3] = [140; 252; 255; 255].
Proof.
  split; [|vm_compute; repeat split].
  eapply (C23_shift _ _ (ins Op_shl [checked; reg 4 (but 1)] [to_reg 4] (Some 5) true false)
    0 checked (reg 4 (but 1)) (to_reg 4));
    first [now left|now right|meets].
Qed.

(** Packed shifts by a count that is the same in both executions. *)
Theorem C23_packed leave x64 i f cn a d n c op w data :
  simple i -> packed_shift (i_opc i) = Some (op, w) -> i_val i = Some c -> 0 <= c ->
  right_count op w c -> n = 8 \/ n = 16 ->
  (data = 0 /\ i_srcs i = [a; cn]) \/ (data = 1 /\ i_srcs i = [cn; a]) ->
  constant cn \/ o_size cn <= 16 -> real a -> o_size a = n -> one_dest i d -> d_size d = n ->
  no_laundering leave x64 i f (packed op data w c).
Proof. exact (packed_ok leave x64 i f cn a d n c op w data). Qed.
Print Assumptions C23_packed.

Example C23_case_packed :
  no_laundering false true (ins Op_psrld [imm8; reg 8 (but 6)] [to_reg 8] (Some 12) false false)
    0 (packed Op_shr 1 4 12) /\
  show 8 (propagate false true
    (ins Op_psrld [imm8; reg 8 (but 6)] [to_reg 8] (Some 12) false false) 0) =
    Some ([[0; 0; 0; 0; 3; 3; 0; 0]], 0).
Proof.
  split; [|vm_compute; reflexivity].
  eapply (C23_packed _ _ _ _ imm8 (reg 8 (but 6)) (to_reg 8) 8);
    first [now left|now right|meets].
Qed.

(** ** Instructions that launder *)

Ltac agreement :=
  let k := fresh in let o := fresh in let Hk := fresh in
  let b := fresh "b" in let Hb := fresh in let Hs := fresh in
  intros k o Hk b Hb Hs;
  destruct k as [|[|[|[|[|[|[|[|[|k]]]]]]]]]; try discriminate Hk;
  injection Hk as <-; try reflexivity;
  cbn in Hs |- *; unfold but, undef in Hs;
  try (destruct (b =? _));
  let Hl := fresh in destruct Hs as [Hs|[[Hs Hl]|Hs]]; try discriminate Hs; try discriminate Hl;
  try (exfalso; apply Hs; reflexivity); try reflexivity; exfalso; apply Hs; reflexivity.

Ltac launder vs ws k x :=
  eapply (launders _ _ _ _ _ vs ws (fun _ _ => 0) (fun _ _ => 0) 0 0 k _ x);
  [ agreement | intros ? ? ? ? ?; reflexivity | intros _; reflexivity
  | reflexivity | reflexivity | first [discriminate | intros _; cbn; lia]
  | vm_compute; reflexivity ].

(** cmpxchg8b with -leave_uninit: the comparison is over all bytes, the states
    are passed on byte by byte. *)
Theorem C23_cmpxchg8b_leave_refuted :
  ~ no_laundering true true
      (ins Op_cmpxchg8b [check (mem 8 (but 0)); check (reg 4 def); check (reg 4 def); reg 4 def; reg 4 def]
         [to_mem 8; to_reg 4; to_reg 4] None true false) 0 compare_exchange8.
Proof.
  launder (fun k (b : Z) => if k =? 0 then 0 else if k =? 3 then 1 else 0)
          (fun k (b : Z) => if k =? 0 then if b =? 0 then 1 else 0 else if k =? 3 then 1 else 0) 0%nat 4.
Qed.
Print Assumptions C23_cmpxchg8b_leave_refuted.

(** sar eax, 1 with only the top byte uninitialised: bit 0 of that byte moves
    into byte 2, which is marked as initialised. *)
Theorem C23_sar_refuted :
  ~ no_laundering false true
      (ins Op_sar [imm8; reg 4 (but 3)] [to_reg 4] (Some 1) true false) 0 (shifted Op_sar 4 1).
Proof.
  launder (src 1 (fun b => if b =? 3 then 1 else 0)) (src 1 (fun _ => 0)) 0%nat 2.
Qed.
Print Assumptions C23_sar_refuted.

(** The same in each element of psrad. *)
Theorem C23_psra_refuted :
  ~ no_laundering false true
      (ins Op_psrad [imm8; reg 8 (but 3)] [to_reg 8] (Some 1) false false) 0
      (packed Op_sar 1 4 1).
Proof.
  launder (src 1 (fun b => if b =? 3 then 1 else 0)) (src 1 (fun _ => 0)) 0%nat 2.
Qed.
Print Assumptions C23_psra_refuted.

(** The processor takes a count of 32 for 0; the tool takes everything for
    shifted out. *)
Theorem C23_count_refuted :
  ~ no_laundering false true
      (ins Op_shl [checked; reg 4 undef] [to_reg 4] (Some 32) true false) 0
      (shifted Op_shl 4 (32 mod 32)).
Proof. launder (src 1 (fun _ => 255)) (src 1 (fun _ => 0)) 0%nat 0. Qed.
Print Assumptions C23_count_refuted.

(** Rotates are taken to leave each byte where it is. *)
Theorem C23_rotate_refuted :
  ~ no_laundering false true
      (ins Op_other_shift [imm8; reg 4 (but 0)] [to_reg 4] (Some 8) true false) 0
      (rotate_bytes 4 1).
Proof.
  launder (src 1 (fun b => if b =? 0 then 1 else 0)) (src 1 (fun _ => 0)) 0%nat 1.
Qed.
Print Assumptions C23_rotate_refuted.

(** A shift by 0 leaves the flags as they are; the tool marks uninitialised
    flags as initialised. *)
Theorem C23_zero_count_flags_refuted :
  match propagate false true
    (ins Op_shl [checked; reg 4 undef] [to_reg 4] (Some 0) true false) UNDEFINED with
  | Ok (_, f') => f' = DEFINED
  | _ => False
  end.
Proof. vm_compute. reflexivity. Qed.
Print Assumptions C23_zero_count_flags_refuted.

(** Packed shifts whose count is itself uninitialised, or is in memory. *)
Theorem C23_packed_count_refuted :
  ~ no_laundering false true
      (ins Op_psrlq [reg 16 undef; reg 16 def] [to_reg 16] (Some 64) false false) 0
      (fun vs fl old k => packed Op_shr 1 8 (vs 0 0) vs fl old k).
Proof.
  launder (fun k (b : Z) => if k =? 0 then 64 else 255)
          (fun k (b : Z) => if k =? 0 then 0 else 255) 0%nat 0.
Qed.
Print Assumptions C23_packed_count_refuted.

Theorem C23_packed_memory_count_refuted :
  ~ no_laundering false true
      (ins Op_psrlq [mem 16 def; reg 16 undef] [to_reg 16] None false false) 0
      (packed Op_shr 1 8 8).
Proof. launder (src 1 (fun _ => 255)) (src 1 (fun _ => 0)) 0%nat 0. Qed.
Print Assumptions C23_packed_memory_count_refuted.

(** pshufd is taken to produce initialised data only. *)
Theorem C23_pshuf_refuted :
  ~ no_laundering false true
      (ins Op_pshuf [reg 16 undef; imm8] [to_reg 16] (Some 0) false false) 0
      (fun vs _ _ _ j => vs 0 (j mod 4)).
Proof. launder (src 0 (fun _ => 255)) (src 0 (fun _ => 0)) 0%nat 0. Qed.
Print Assumptions C23_pshuf_refuted.

(** xadd: the sum stored to memory is marked from the register alone. *)
Theorem C23_xadd_refuted :
  ~ no_laundering false true
      (ins Op_xadd [mem 1 undef; reg 1 def] [to_mem 1; to_reg 1] None true false) 0
      (fun vs _ _ k j => if k =? 0 then (vs 0 0 + vs 1 0) mod 256 else vs 0 0).
Proof. launder (src 0 (fun _ => 255)) (src 0 (fun _ => 0)) 0%nat 0. Qed.
Print Assumptions C23_xadd_refuted.

(** pusha: the lowest slot holds edi but is given the state of eax. *)
Theorem C23_pusha_refuted :
  ~ no_laundering false false
      (ins Op_pusha [gpr 0 def; gpr 1 def; gpr 2 def; gpr 3 def; gpr 4 def; gpr 5 def;
                     gpr 6 def; gpr 7 undef] [to_mem 32] None false false) 0
      (fun vs _ _ _ j => vs (7 - j / 4) (j mod 4)).
Proof. launder (src 7 (fun _ => 255)) (src 7 (fun _ => 0)) 0%nat 0. Qed.
Print Assumptions C23_pusha_refuted.

(** Sign extension through the slow path. *)
Theorem C23_sign_extend_refuted :
  ~ no_laundering false true
      (ins Op_plain [mem 1 undef] [to_reg 4] None false false) 0 (sign_extend 1).
Proof. launder (src 0 (fun _ => 255)) (src 0 (fun _ => 0)) 0%nat 1. Qed.
Print Assumptions C23_sign_extend_refuted.

(** sbb eax, eax with an uninitialised carry: only the lowest byte is marked. *)
Theorem C23_flags_source_refuted :
  ~ no_laundering false true
      (ins Op_plain [imm8] [to_reg 4] None true true) UNDEFINED
      (fun _ fl _ _ _ => if fl =? 1 then 255 else 0).
Proof.
  eapply (launders _ _ _ _ _ (fun _ _ => 0) (fun _ _ => 0) (fun _ _ => 0) (fun _ _ => 0)
            1 0 0%nat _ 1).
  - agreement.
  - intros ? ? ? ? ?. reflexivity.
  - intros [H|[[H _]|H]]; [discriminate H|discriminate H|]. exfalso. apply H. reflexivity.
  - reflexivity.
  - reflexivity.
  - discriminate.
  - vm_compute. reflexivity.
Qed.
Print Assumptions C23_flags_source_refuted.

(** vpunpckl* name the operands the other way round. *)
Theorem C23_vex_unpack_refuted :
  ~ no_laundering false true
      (ins Op_punpcklbw [reg 16 (but 0); reg 16 def] [to_reg 16] None false false) 0
      (fun vs fl old k => interleave false 16 1 (fun s => vs (1 - s)) fl old k).
Proof.
  launder (src 0 (fun b => if b =? 0 then 1 else 0)) (src 0 (fun _ => 0)) 0%nat 0.
Qed.
Print Assumptions C23_vex_unpack_refuted.

(** shufpd compares the whole selector. *)
Theorem C23_shuffle_pd_refuted imm : imm = 1 \/ imm = 2 \/ imm = 3 ->
  ~ no_laundering false true
      (ins Op_shufpd [reg 16 undef; imm8; reg 16 def] [to_reg 16] (Some imm) false false) 0
      (shuffle_pd imm) \/
  ~ no_laundering false true
      (ins Op_shufpd [reg 16 (but 0); imm8; reg 16 def] [to_reg 16] (Some imm) false false) 0
      (shuffle_pd imm).
Proof.
  intros [->|[->| ->]].
  - right. launder (src 0 (fun b => if b =? 0 then 1 else 0)) (src 0 (fun _ => 0)) 0%nat 8.
  - left. launder (src 0 (fun _ => 255)) (src 0 (fun _ => 0)) 0%nat 8.
  - left. launder (src 0 (fun _ => 255)) (src 0 (fun _ => 0)) 0%nat 8.
Qed.
Print Assumptions C23_shuffle_pd_refuted.

(** The processor ignores the high bits of the selector; the tool does not. *)
Theorem C23_extract_refuted :
  ~ no_laundering false true
      (ins Op_pextrw [reg_part 2 16 undef; imm8] [to_part 4 8 def] (Some 8) false false) 0
      (extract 2 (8 mod 8)).
Proof. launder (src 0 (fun _ => 255)) (src 0 (fun _ => 0)) 0%nat 0. Qed.
Print Assumptions C23_extract_refuted.

(** A selector out of range makes an insert write outside of the array. *)
Theorem C23_insert_refuted :
  propagate false true
    (ins Op_pinsrb [reg_part 1 4 def; imm8] [to_part 1 16 def] (Some 33) false false) 0 = UB.
Proof. vm_compute. reflexivity. Qed.
Print Assumptions C23_insert_refuted.

(** pinsrq is treated like pinsrd. *)
Theorem C23_insert_quad_refuted :
  ~ no_laundering false true
      (ins Op_pinsrd [reg_part 8 8 undef; imm8] [to_part 8 16 def] (Some 1) false false) 0
      (insert 8 1).
Proof. launder (src 0 (fun _ => 255)) (src 0 (fun _ => 0)) 0%nat 8. Qed.
Print Assumptions C23_insert_quad_refuted.

(** Loading the high half from memory marks the low half instead. *)
Theorem C23_load_high_refuted :
  ~ no_laundering false true
      (ins Op_movhps [mem 8 undef] [to_part 8 16 def] None false false) 0 (into_high 0).
Proof. launder (src 0 (fun _ => 255)) (src 0 (fun _ => 0)) 0%nat 8. Qed.
Print Assumptions C23_load_high_refuted.

(** ** and, test, or *)

(** In strict mode, but for three constants and operands above 4 bytes: a byte
    of the result, or the flags, marked as initialised do not depend on
    uninitialised bytes. *)
Theorem C24_strict x64 i a0 a1 :
  magic i = false -> 1 <= b_size i <= 4 -> read_right i a0 a1 ->
  exists l f', andor true x64 i = Ok (l, f') /\ Z.of_nat (length l) = b_size i /\
    (forall b0 b1,
      agree_byte (b_sh0 i) (b_size i) a0 b0 -> agree_byte (b_sh1 i) (b_size i) a1 b1 ->
      (forall k s, nth_error l k = Some s -> s <> UNDEFINED ->
        let j := Z.of_nat k in
        bit_op (b_op i) (a0 j) (a1 j) = bit_op (b_op i) (b0 j) (b1 j)) /\
      (f' <> UNDEFINED -> forall j, 0 <= j < b_size i ->
        bit_op (b_op i) (a0 j) (a1 j) = bit_op (b_op i) (b0 j) (b1 j))) /\
    (forall k s, nth_error l k = Some s -> s <> UNDEFINED -> decided i a0 a1 (Z.of_nat k)).
Proof. exact (andor_sound x64 i a0 a1). Qed.
Print Assumptions C24_strict.

(** And a byte is marked exactly if both bytes are initialised, or one is and
    is a zero of an and or test; an or has no such exception. *)
Theorem C24_exact x64 i a0 a1 :
  magic i = false -> 1 <= b_size i <= 4 -> read_right i a0 a1 ->
  (forall v0 v1, b_vals i = Some (v0, v1) -> v0 < 2 ^ 32 /\ v1 < 2 ^ 32) ->
  exists l f', andor true x64 i = Ok (l, f') /\ Z.of_nat (length l) = b_size i /\
    forall k s, nth_error l k = Some s -> (s <> UNDEFINED <-> decided i a0 a1 (Z.of_nat k)).
Proof. exact (andor_exact x64 i a0 a1). Qed.
Print Assumptions C24_exact.

Definition bits (o : bitop) (n : Z) (s0 s1 : Z -> Z) (v0 v1 : Z) (immed : option Z) : bitinstr :=
  {| b_op := o; b_size := n; b_sh0 := s0; b_sh1 := s1; b_vals := Some (v0, v1);
     b_immed := immed; b_acd := true; b_not_test := false; b_xor := false |}.

Definition value_of (v : Z) : value := fun j => v / 256 ^ j mod 256.

Lemma value_reads n v : 0 <= v < 2 ^ 64 -> reads n v (value_of v).
Proof. intros H. split; [exact H|]. intros j Hj. reflexivity. Qed.

Example C24_case :
  let i := bits And 4 (fun b => if b =? 0 then DEFINED else UNDEFINED) def
             305419896 (* 0x12345678 *) 16711935 (* 0x00ff00ff *) (Some 16711935) in
  magic i = false /\ read_right i (value_of 305419896) (value_of 16711935) /\
  andor true true i = Ok ([0; 0; 3; 0], 3) /\
  andor true true (bits Or 4 (but 1) def 0 65280 (Some 65280)) = Ok ([0; 3; 0; 0], 3).
Proof.
  cbv zeta. split; [reflexivity|]. split.
  - intros v0 v1 H. injection H as <- <-. split; apply value_reads; lia.
  - vm_compute. split; reflexivity.
Qed.

(** Three constants are taken to decide the result whatever the mode is. *)
Theorem C24_magic_refuted :
  exists i l f' a0 a1 b0,
    b_size i = 4 /\ read_right i a0 a1 /\ andor true true i = Ok (l, f') /\
    agree_byte (b_sh0 i) 4 a0 b0 /\ nth_error l 3 = Some DEFINED /\ f' = DEFINED /\
    bit_op (b_op i) (a0 3) (a1 3) <> bit_op (b_op i) (b0 3) (a1 3).
Proof.
  exists (bits And 4 undef def 4294967295 2155905152 (Some 2155905152)).
  do 2 eexists. exists (value_of 4294967295), (value_of 2155905152), (value_of 0).
  split; [reflexivity|]. split.
  { intros v0 v1 H. injection H as <- <-. split; apply value_reads; lia. }
  split; [vm_compute; reflexivity|]. split.
  { intros j Hj H. exfalso. apply H. reflexivity. }
  split; [reflexivity|]. split; [reflexivity|]. vm_compute. discriminate.
Qed.
Print Assumptions C24_magic_refuted.

(** An 8-byte operand makes the tool shift an int by 32 bits or more. *)
Theorem C24_quad_refuted :
  andor true true (bits And 8 undef def 0 255 (Some 255)) = UB.
Proof. vm_compute. reflexivity. Qed.
Print Assumptions C24_quad_refuted.

(** Outside of strict mode a constant counts as a bit mask exactly if its zero
    bits form at most one run and more than two bits are set. *)
Theorem C24_bitmask sz immed : 0 <= sz ->
  bitmask_immed false And sz immed = true <->
  one_run_of_zeros (sz * 8) immed /\ 2 < ones immed 0 (Z.to_nat (sz * 8)).
Proof. exact (bitmask_exact sz immed). Qed.
Print Assumptions C24_bitmask.

Example C24_case_bitmask :
  map (bitmask_immed false And 1) [240; 231; 219; 255; 3; 0] =
  [true; true; false; true; false; false].
Proof. vm_compute. reflexivity. Qed.
