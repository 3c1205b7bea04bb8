(** C37: the fast path's table lookups agree with the states of the four bytes
    they index.  [pack a b c d] is the shadow byte whose states are, from the
    lowest address, [a], [b], [c], [d] (0 defined, 1 unaddressable, 2 bit-level,
    3 undefined). *)
From Verif Require Import Base ShadowTables_Model.
Open Scope Z_scope.

Definition pack (a b c d : Z) : Z := a + 4 * b + 16 * c + 64 * d.
Definition is_state (s : Z) : Prop := 0 <= s <= 3.
(** Entry 1 means the fast path goes on, anything else means it does not. *)
Definition answers (r : res Z) (P : Prop) : Prop := exists v, r = Ok v /\ (v = 1 <-> P).
(** The state of byte [offs] of the dword. *)
Definition at_offs (a b c d offs : Z) : Z :=
  if offs =? 0 then a else if offs =? 1 then b else if offs =? 2 then c else d.
(** Neither unaddressable nor bit-level. *)
Definition plain (s : Z) : Prop := s <> 1 /\ s <> 2.

Lemma all4 (f : Z -> bool) : f 0 && f 1 && f 2 && f 3 = true -> forall s, is_state s -> f s = true.
Proof.
  intros H s Hs. unfold is_state in Hs.
  apply andb_true_iff in H. destruct H as (H & H3). apply andb_true_iff in H. destruct H as (H & H2).
  apply andb_true_iff in H. destruct H as (H0 & H1).
  assert (C : s = 0 \/ s = 1 \/ s = 2 \/ s = 3) by lia.
  destruct C as [->|[->|[->| ->]]]; assumption.
Qed.
Definition forall4 (f : Z -> bool) : bool := f 0 && f 1 && f 2 && f 3.
Lemma sweep (f : Z -> Z -> Z -> Z -> Z -> bool) :
  forall4 (fun a => forall4 (fun b => forall4 (fun c => forall4 (fun d => forall4 (fun o => f a b c d o))))) = true ->
  forall a b c d o, is_state a -> is_state b -> is_state c -> is_state d -> is_state o -> f a b c d o = true.
Proof.
  intros H a b c d o Ha Hb Hc Hd Ho.
  pose proof (all4 _ H a Ha) as H1. cbv beta in H1. pose proof (all4 _ H1 b Hb) as H2. cbv beta in H2.
  pose proof (all4 _ H2 c Hc) as H3. cbv beta in H3. pose proof (all4 _ H3 d Hd) as H4. cbv beta in H4.
  exact (all4 _ H4 o Ho).
Qed.
Definition entry (r : res Z) (p : bool) : bool := match r with Ok v => Bool.eqb (v =? 1) p | _ => false end.
Lemma entry_ok r p (P : Prop) : entry r p = true -> (p = true <-> P) -> answers r P.
Proof.
  unfold entry, answers. destruct r as [v| |]; try discriminate. intros E HP. exists v. split; [reflexivity|].
  apply Bool.eqb_prop in E. rewrite <- HP, <- E. symmetry. apply Z.eqb_eq.
Qed.
Definition plainb (s : Z) : bool := negb (s =? 1) && negb (s =? 2).
Lemma plainb_ok s : plainb s = true <-> plain s. Proof. unfold plainb, plain. lia. Qed.
Definition is_val (r : res Z) (v : Z) : bool := match r with Ok w => w =? v | _ => false end.
Lemma is_val_ok r v : is_val r v = true -> r = Ok v.
Proof. unfold is_val. destruct r; try discriminate. intros H. f_equal. lia. Qed.

(** A byte access continues exactly when its byte is defined, whatever the
    other three bytes are. *)
Theorem C37_byte_defined a b c d offs :
  is_state a -> is_state b -> is_state c -> is_state d -> is_state offs ->
  answers (lookup4 tbl_byte_defined offs (pack a b c d)) (at_offs a b c d offs = 0).
Proof.
  intros Ha Hb Hc Hd Ho. apply entry_ok with (at_offs a b c d offs =? 0); [|apply Z.eqb_eq].
  refine (sweep (fun a b c d o => entry (lookup4 tbl_byte_defined o (pack a b c d)) (at_offs a b c d o =? 0)) _ a b c d offs Ha Hb Hc Hd Ho).
  vm_compute. reflexivity.
Qed.
Print Assumptions C37_byte_defined.
Example C37_byte_defined_case : lookup4 tbl_byte_defined 2 (pack 1 3 0 2) = Ok 1 /\ lookup4 tbl_byte_defined 1 (pack 1 3 0 2) = Ok 0.
Proof. split; vm_compute; reflexivity. Qed.

(** A byte access may propagate exactly when its byte is neither unaddressable
    nor bit-level. *)
Theorem C37_byte_addr_not_bit a b c d offs :
  is_state a -> is_state b -> is_state c -> is_state d -> is_state offs ->
  answers (lookup4 tbl_byte_addr_not_bit offs (pack a b c d)) (plain (at_offs a b c d offs)).
Proof.
  intros Ha Hb Hc Hd Ho. apply entry_ok with (plainb (at_offs a b c d offs)); [|apply plainb_ok].
  refine (sweep (fun a b c d o => entry (lookup4 tbl_byte_addr_not_bit o (pack a b c d)) (plainb (at_offs a b c d o))) _ a b c d offs Ha Hb Hc Hd Ho).
  vm_compute. reflexivity.
Qed.
Print Assumptions C37_byte_addr_not_bit.
Example C37_byte_addr_not_bit_case :
  lookup4 tbl_byte_addr_not_bit 1 (pack 1 3 0 2) = Ok 1 /\ lookup4 tbl_byte_addr_not_bit 3 (pack 1 3 0 2) = Ok 0.
Proof. split; vm_compute; reflexivity. Qed.

(** A two-byte access at an even offset continues exactly when both its bytes
    are defined; at an odd offset it never does. *)
Theorem C37_word_defined a b c d offs :
  is_state a -> is_state b -> is_state c -> is_state d -> is_state offs ->
  answers (lookup4 tbl_word_defined offs (pack a b c d))
    (offs mod 2 = 0 /\ at_offs a b c d offs = 0 /\ at_offs a b c d (offs + 1) = 0).
Proof.
  intros Ha Hb Hc Hd Ho.
  apply entry_ok with ((offs mod 2 =? 0) && (at_offs a b c d offs =? 0) && (at_offs a b c d (offs + 1) =? 0));
    [|rewrite !andb_true_iff, !Z.eqb_eq; tauto].
  refine (sweep (fun a b c d o => entry (lookup4 tbl_word_defined o (pack a b c d))
     ((o mod 2 =? 0) && (at_offs a b c d o =? 0) && (at_offs a b c d (o + 1) =? 0))) _ a b c d offs Ha Hb Hc Hd Ho).
  vm_compute. reflexivity.
Qed.
Print Assumptions C37_word_defined.
Example C37_word_defined_case : lookup4 tbl_word_defined 2 (pack 1 3 0 0) = Ok 1 /\ lookup4 tbl_word_defined 0 (pack 1 0 0 0) = Ok 0.
Proof. split; vm_compute; reflexivity. Qed.

Theorem C37_word_addr_not_bit a b c d offs :
  is_state a -> is_state b -> is_state c -> is_state d -> is_state offs ->
  answers (lookup4 tbl_word_addr_not_bit offs (pack a b c d))
    (offs mod 2 = 0 /\ plain (at_offs a b c d offs) /\ plain (at_offs a b c d (offs + 1))).
Proof.
  intros Ha Hb Hc Hd Ho.
  apply entry_ok with ((offs mod 2 =? 0) && plainb (at_offs a b c d offs) && plainb (at_offs a b c d (offs + 1)));
    [|rewrite !andb_true_iff, !plainb_ok, !Z.eqb_eq; tauto].
  refine (sweep (fun a b c d o => entry (lookup4 tbl_word_addr_not_bit o (pack a b c d))
     ((o mod 2 =? 0) && plainb (at_offs a b c d o) && plainb (at_offs a b c d (o + 1)))) _ a b c d offs Ha Hb Hc Hd Ho).
  vm_compute. reflexivity.
Qed.
Print Assumptions C37_word_addr_not_bit.
Example C37_word_addr_not_bit_case :
  lookup4 tbl_word_addr_not_bit 0 (pack 3 0 1 1) = Ok 1 /\ lookup4 tbl_word_addr_not_bit 2 (pack 0 0 3 1) = Ok 0.
Proof. split; vm_compute; reflexivity. Qed.

(** A four-byte access. *)
Theorem C37_dword a b c d : is_state a -> is_state b -> is_state c -> is_state d ->
  answers (lookup tbl_dword_is_addressable (pack a b c d)) (a <> 1 /\ b <> 1 /\ c <> 1 /\ d <> 1) /\
  answers (lookup tbl_dword_is_addr_not_bit (pack a b c d)) (plain a /\ plain b /\ plain c /\ plain d).
Proof.
  intros Ha Hb Hc Hd. assert (Z0 : is_state 0) by (unfold is_state; lia). split.
  - apply entry_ok with (negb (a =? 1) && negb (b =? 1) && negb (c =? 1) && negb (d =? 1)); [|lia].
    refine (sweep (fun a b c d o => entry (lookup tbl_dword_is_addressable (pack a b c d))
      (negb (a =? 1) && negb (b =? 1) && negb (c =? 1) && negb (d =? 1))) _ a b c d 0 Ha Hb Hc Hd Z0).
    vm_compute. reflexivity.
  - apply entry_ok with (plainb a && plainb b && plainb c && plainb d); [|rewrite !andb_true_iff, !plainb_ok; tauto].
    refine (sweep (fun a b c d o => entry (lookup tbl_dword_is_addr_not_bit (pack a b c d))
      (plainb a && plainb b && plainb c && plainb d)) _ a b c d 0 Ha Hb Hc Hd Z0).
    vm_compute. reflexivity.
Qed.
Print Assumptions C37_dword.
Example C37_dword_case : lookup tbl_dword_is_addressable (pack 0 2 3 0) = Ok 1 /\ lookup tbl_dword_is_addr_not_bit (pack 0 2 3 0) = Ok 0.
Proof. split; vm_compute; reflexivity. Qed.

(** Sign extension: when all other fields have been zeroed, a one-byte source at
    any offset spreads its state over the dword, and a two-byte source at an even
    offset keeps its low byte's state and spreads its high byte's. *)
Theorem C37_movsx s t : is_state s -> is_state t ->
  (forall offs, is_state offs -> lookup tbl_2_to_dword (s * 4 ^ offs) = Ok (pack s s s s)) /\
  lookup tbl_4_to_dword (pack s t 0 0) = Ok (pack s t t t) /\
  lookup tbl_4_to_dword (pack 0 0 s t) = Ok (pack s t t t).
Proof.
  intros Hs Ht. assert (Z0 : is_state 0) by (unfold is_state; lia). split; [|split].
  - intros o Ho. apply is_val_ok.
    refine (sweep (fun a b c d o => is_val (lookup tbl_2_to_dword (a * 4 ^ o)) (pack a a a a)) _ s 0 0 0 o Hs Z0 Z0 Z0 Ho).
    vm_compute. reflexivity.
  - apply is_val_ok.
    refine (sweep (fun a b c d o => is_val (lookup tbl_4_to_dword (pack a b 0 0)) (pack a b b b)) _ s t 0 0 0 Hs Ht Z0 Z0 Z0).
    vm_compute. reflexivity.
  - apply is_val_ok.
    refine (sweep (fun a b c d o => is_val (lookup tbl_4_to_dword (pack 0 0 a b)) (pack a b b b)) _ s t 0 0 0 Hs Ht Z0 Z0 Z0).
    vm_compute. reflexivity.
Qed.
Print Assumptions C37_movsx.
Example C37_movsx_case : lookup tbl_2_to_dword (3 * 4 ^ 1) = Ok 255 /\ lookup tbl_4_to_dword (pack 0 3 0 0) = Ok (pack 0 3 3 3).
Proof. split; vm_compute; reflexivity. Qed.
