(** What the reports of one memory access must say, stated without the loop:
    which bytes are bad, and that a list of ranges is exactly the list of
    maximal runs of bad bytes. *)
From Verif Require Import Base MemRef_Model.
Open Scope Z_scope.

Definition is_push (f : flags) := f_pushpop f && f_write f.

(** Plain reads: the bytes' own states matter. *)
Definition is_read (f : flags) := negb (f_write f || f_checkaddr f).

(** The exception routine consulted for a byte in state [v], if any, stores
    states of its own; [after e f a v x w] is what they leave at [x], where
    [w] was before. *)
Definition after (e : env) (f : flags) (a v x w : Z) : Z :=
  if (v =? UNADDRESSABLE) && negb (is_push f)
  then match snd (e_unaddr e a) x with Some u => u | None => w end
  else if (v =? UNDEFINED) && is_read f
  then match snd (e_undef e a) x with Some u => u | None => w end
  else w.

(** [world k] is shadow memory when the access reaches byte [k], as far as
    bytes from [k] on are concerned: the initial shadow plus whatever the
    exception routines stored while earlier bytes were looked at. *)
Fixpoint world (e : env) (f : flags) (addr : Z) (sh : Z -> Z) (k : nat) : Z -> Z :=
  match k with
  | O => sh
  | S j =>
      let w := world e f addr sh j in
      let a := addr + Z.of_nat j in
      fun x => after e f a (w a) x (w x)
  end.

(** The state of byte [a] when the access reaches it. *)
Definition state_at e f addr sh (a : Z) : Z :=
  world e f addr sh (Z.to_nat (a - addr)) a.

(** A byte is bad if it is unaddressable (and is not the slot of a push), or
    if it is uninitialised and the access is a read that must be checked; in
    both cases unless excused.  [Some true] is unaddressable. *)
Definition bad e f addr sh (a : Z) : option bool :=
  let v := state_at e f addr sh a in
  if (v =? UNADDRESSABLE) && negb (is_push f) && negb (fst (e_unaddr e a))
  then Some true
  else if (v =? UNDEFINED) && is_read f && f_checkdef f && negb (fst (e_undef e a))
  then Some false
  else None.

(** [runs b lo hi L]: [L], read from its last element to its first, lists the
    maximal runs of bytes of [lo, hi) on which [b] is [Some] of one kind. *)
Fixpoint runs (b : Z -> option bool) (lo hi : Z) (L : list report) : Prop :=
  match L with
  | nil => forall x, lo <= x < hi -> b x = None
  | (kind, start, len) :: L' =>
      lo <= start /\ 0 < len /\ start + len <= hi /\
      (forall x, start <= x < start + len -> b x = Some kind) /\
      (forall x, start + len <= x < hi -> b x = None) /\
      (lo < start -> b (start - 1) <> Some kind) /\
      runs b lo start L'
  end.

(** How many of the ranges of kind [kind] contain byte [x]. *)
Definition covers (kind : bool) (x : Z) (L : list report) : nat :=
  length (filter (fun r : report =>
                    let '(k, start, len) := r in
                    Bool.eqb k kind && (start <=? x) && (x <? start + len)) L).

(** No exception routine consulted for a byte of [from, addr + sz) stores
    anything at [x]. *)
Definition untouched (e : env) (addr sz from x : Z) : Prop :=
  forall a, from <= a < addr + sz ->
            snd (e_unaddr e a) x = None /\ snd (e_undef e a) x = None.

(** The byte of the value that byte [i] of the access goes with: of a repeated
    access of single bytes, words or dwords, the byte within one of them. *)
Definition operand_byte (f : flags) (i : Z) : Z :=
  if f_byte f then 0 else if f_word f then i mod 2 else if f_dword f then i mod 4 else i.

(** The state a store gives to byte [x]: that of the corresponding byte of
    the value stored, which for a memory copy is the source byte's state. *)
Definition stored e f addr sh (x : Z) : Z :=
  let i := x - addr in
  if f_movs f then world e f addr sh (Z.to_nat i) (e_movs e + i)
  else if f_values f then e_dst e (operand_byte f i) else DEFINED.

(** For a memory copy: the source byte of [x] is not one of the bytes this
    same access has already overwritten. *)
Definition source_intact e f addr (x : Z) : Prop :=
  f_movs f = true -> ~ (addr <= e_movs e + (x - addr) < x).

(** The state byte [x] of an access must have afterwards. *)
Definition expected e f addr sh (x : Z) : Z :=
  let v := state_at e f addr sh x in
  if f_write f && negb (f_checkaddr f) && negb (v =? UNADDRESSABLE)
  then stored e f addr sh x
  else match bad e f addr sh x with
       | Some false => if e_leave e then after e f x v x v else DEFINED
       | _ => after e f x v x v
       end.

(** The bit-level state is only a marker and takes part in no access. *)
Definition no_bitlevel e f addr sz sh : Prop :=
  forall x, addr <= x < addr + sz ->
    state_at e f addr sh x <> BITLEVEL /\
    (f_write f = true -> stored e f addr sh x <> BITLEVEL).

(** Words, for the mode with one state per aligned 4-byte word. *)
Definition same_word (x y : Z) : Prop := x / 4 = y / 4.

(** In that mode only addressability counts. *)
Definition word_bad (e : env) (sh : Z -> Z) (x : Z) : bool :=
  (sh x =? UNADDRESSABLE) && negb (fst (e_unaddr e x)).

(** How many leading bytes of the access that mode looks at: all, except a
    last byte that is alone in its word. *)
Definition looked_at (addr sz : Z) : Z :=
  if (1 <? sz) && ((addr + sz) mod 4 =? 1) then sz - 1 else sz.

(** The state a push gives to byte [i] of its slot. *)
Definition slot (e : env) (f : flags) (i : Z) : Z :=
  if f_values f then e_dst e (operand_byte f i) else DEFINED.

(** The state a pop leaves behind: beyond the top of the stack comes the red
    zone, if the ABI has one, and then inaccessible memory. *)
Definition popped (e : env) : Z :=
  if 0 <? e_rz e then UNDEFINED else UNADDRESSABLE.
