(** What the register shadow is for: a state for every byte of every register,
    without any layout. *)
From Verif Require Import Base RegShadow_Model.
Open Scope Z_scope.

(** The registers that have a state of their own; the names RAX, EAX, AX, AL
    and AH all look into the first of the sixteen general registers. *)
Inductive full := General (i : Z) | Sse (i : Z) | SseHigh (i : Z) | Mmx (i : Z).
Definition full_eqb (a b : full) : bool :=
  match a, b with
  | General i, General j | Sse i, Sse j | SseHigh i, SseHigh j | Mmx i, Mmx j => i =? j
  | _, _ => false
  end.
Definition bytes (c : full) : Z := match c with General _ | Mmx _ => 8 | _ => 16 end.
Definition real (c : full) : Prop :=
  match c with General i | Sse i | SseHigh i => 0 <= i < 16 | Mmx i => 0 <= i < 8 end.

(** The register a name belongs to, the first of its bytes there, and how many.
    A ymm name stands for the upper half only ([get_shadow_register]'s comment,
    shadow.c:1840-1844). *)
Definition whole (r : reg) : full :=
  match r with
  | R64 i | R32 i | R16 i | R8l i | R8h i => General i
  | Xmm i => Sse i | Ymm i => SseHigh i | Mm i => Mmx i | Flags => General 0
  end.
Definition first (r : reg) : Z := match r with R8h _ => 1 | _ => 0 end.
Definition span (r : reg) : Z := match r with Ymm _ => 16 | r => width r end.
Definition named (r : reg) : Prop :=
  real (whole r) /\ r <> Flags /\ (forall i, r = R8h i -> i < 4).

(** States: 0 defined, 1 unaddressable, 2 bit-level, 3 undefined. *)
Record astate := A { D : full -> Z -> Z; F : Z; H : Z }.
Definition put (d : full -> Z -> Z) (c : full) (lo n : Z) (f : Z -> Z) : full -> Z -> Z :=
  fun c' k => if full_eqb c' c && (lo <=? k) && (k <? lo + n) then f (k - lo) else d c' k.
(** Field [k] of a number, and a number made of [n] fields. *)
Definition field (v k : Z) : Z := v / 4 ^ k mod 4.
Fixpoint pack (f : Z -> Z) (lo : Z) (n : nat) : Z :=
  match n with O => 0 | S n => f lo + 4 * pack f (lo + 1) n end.
Definition allz (f : Z -> Z) (lo : Z) (n : nat) : bool := pack f lo n =? 0.

Inductive rop :=
| SetByte (r : reg) (k v : Z)      (* register_shadow_set_byte *)
| SetDword (r : reg) (v : Z)       (* register_shadow_set_dword *)
| SetQword (r : reg) (v : Z)       (* register_shadow_set_qword / ptrsz *)
| SetHigh (r : reg) (v : Z)        (* register_shadow_set_high_dword *)
| SetDqword (r : reg) (v : Z)      (* register_shadow_set_dqword *)
| Assign (r : reg) (vs : list Z)   (* tail of assign_register_shadow *)
| Assign32 (i : Z) (vs : list Z)   (* the same for a 32-bit destination *)
| Mark (r : reg) (n : Z)           (* register_shadow_mark_defined *)
| SetFlags (v : Z) | SetHeap (v : Z)
| Get (r : reg) | GetFlags | GetHeap
| Check (r : reg) (n : Z)          (* check_register_defined *)
| CheckFlags.

Definition state (v : Z) : Prop := 0 <= v < 4.
(** The calls of the history theorem.  Left out, and decided by the refutations:
    reading an MMX register, and marking or checking a high-byte register
    (ymm names are never checked: slowpath_x86.c:270-286). *)
Definition high8 (r : reg) : bool := match r with R8h _ => true | _ => false end.
Definition mmx (r : reg) : bool := match r with Mm _ => true | _ => false end.
Definition checkable (r : reg) : bool := match r with Mm _ | R8h _ | Ymm _ => false | _ => true end.
Definition legal (o : rop) : Prop :=
  match o with
  | SetByte r k v => named r /\ 0 <= k < bytes (whole r) /\ state v
  | SetDword r v | SetQword r v | SetHigh r v => named r /\ is_gpr r = true /\ 0 <= v
  | SetDqword r v => named r /\ is_gpr r = false /\ mmx r = false /\ 0 <= v
  | Assign r vs => named r /\ Z.of_nat (length vs) = span r /\ Forall state vs
  | Assign32 i vs => 0 <= i < 16 /\ length vs = 4%nat /\ Forall state vs
  | Mark r n => named r /\ high8 r = false /\ 0 <= n <= span r
  | SetFlags v | SetHeap v => 0 <= v
  | Get r => named r /\ mmx r = false
  | Check r n => named r /\ checkable r = true /\ 1 <= n <= span r
  | GetFlags | GetHeap | CheckFlags => True
  end.

(** What each call does and answers ([None]: no answer). *)
Definition spec (a : astate) (o : rop) : astate * option Z :=
  let set c lo n f := (A (put (D a) c lo n f) (F a) (H a), None) in
  match o with
  | SetByte r k v => set (whole r) k 1 (fun _ => v)
  | SetDword r v => set (whole r) 0 4 (field v)
  | SetQword r v => set (whole r) 0 8 (field v)
  | SetHigh r v => set (whole r) 4 4 (field v)
  | SetDqword r v => set (whole r) 0 16 (field v)
  | Assign r vs => set (whole r) (first r) (span r) (fun j => nth (Z.to_nat j) vs 0)
  | Assign32 i vs => set (General i) 0 8 (fun j => nth (Z.to_nat j) vs 0)
  | Mark r n => set (whole r) (first r) n (fun _ => 0)
  | SetFlags v => (A (D a) (v mod 256) (H a), None)
  | SetHeap v => (A (D a) (F a) (v mod 256), None)
  | Get r => (a, Some (pack (D a (whole r)) (first r) (Z.to_nat (span r))))
  | GetFlags => (a, Some (F a))
  | GetHeap => (a, Some (H a))
  | Check r n =>
      if allz (D a (whole r)) (first r) (Z.to_nat n) then (a, Some 0)
      else (A (put (D a) (whole r) (first r) n (fun _ => 0)) (F a) (H a), Some 1)
  | CheckFlags => if F a =? 0 then (a, Some 0) else (A (D a) 0 (H a), Some 1)
  end.
Fixpoint spec_run (a : astate) (os : list rop) : astate * list (option Z) :=
  match os with
  | [] => (a, [])
  | o :: os => let '(a, r) := spec a o in let '(a, rs) := spec_run a os in (a, r :: rs)
  end.

(** The same calls on the model. *)
Definition quiet (x : res sregs) : res (sregs * option Z) := let* s := x in Ok (s, None).
Definition ask (s : sregs) (x : res Z) : res (sregs * option Z) := let* v := x in Ok (s, Some v).
Definition told (x : res (bool * sregs)) : res (sregs * option Z) :=
  let* (b, s) := x in Ok (s, Some (if b then 1 else 0)).
Definition step (s : sregs) (o : rop) : res (sregs * option Z) :=
  match o with
  | SetByte r k v => quiet (set_byte s r k v)
  | SetDword r v => quiet (set_dword s r v)
  | SetQword r v => quiet (set_qword s r v)
  | SetHigh r v => quiet (set_high_dword s r v)
  | SetDqword r v => quiet (set_dqword s r v)
  | Assign r vs => quiet (assign s r vs)
  | Assign32 i vs => quiet (assign32 s i vs)
  | Mark r n => quiet (mark_defined s r n)
  | SetFlags v => quiet (set_eflags s v)
  | SetHeap v => quiet (set_inheap s v)
  | Get r => ask s (get_shadow_register s r)
  | GetFlags => ask s (get_eflags s)
  | GetHeap => ask s (get_inheap s)
  | Check r n => told (check_register_defined s r n)
  | CheckFlags => told (check_eflags_defined s)
  end.
Fixpoint run (s : sregs) (os : list rop) : res (sregs * list (option Z)) :=
  match os with
  | [] => Ok (s, [])
  | o :: os => let* (s, r) := step s o in let* (s, rs) := run s os in Ok (s, r :: rs)
  end.

(** The states a thread starts with: all defined in the first thread; in a later
    one only RSP and RAX (the call that created it returned in them). *)
Definition start_first : astate := A (fun _ _ => 0) 0 0.
Definition start_later : astate :=
  A (fun c _ => match c with General i => if (i =? 0) || (i =? 4) then 0 else 3 | _ => 3 end) 0xff 0.
