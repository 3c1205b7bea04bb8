(** When the program cannot tell that something was overwritten. *)
From Verif Require Import Base Live_Model.

(** What instructions read and write: registers, flags and all else. *)
Inductive loc := Reg (r : nat) | Flag (f : flag) | Rest.

Definition reads (i : instr) (l : loc) : Prop :=
  match l with
  | Reg r => i_reads i r = true
  | Flag f => mr (i_flags i) f = true
  | Rest => True
  end.

Definition overwrites (i : instr) (l : loc) : Prop :=
  match l with
  | Reg r => i_exact i r = true
  | Flag f => mw (i_flags i) f = true
  | Rest => False
  end.

(** The block: what is executed together, which is up to and including the
    first branch. *)
Fixpoint block (l : list instr) : list instr :=
  match l with
  | [] => []
  | i :: r => if i_cti i then [i] else i :: block r
  end.

(** The block without its branch. *)
Fixpoint body (l : list instr) : list instr :=
  match l with
  | [] => []
  | i :: r => if i_cti i then [] else i :: body r
  end.

(** A place is overwritten before it is read. *)
Definition dead (x : loc) (l : list instr) : Prop :=
  exists p i r, l = p ++ i :: r /\ (forall j, In j p -> ~ reads j x) /\ ~ reads i x /\ overwrites i x.

(** A place is read before it is overwritten. *)
Definition live (x : loc) (l : list instr) : Prop :=
  exists p i r, l = p ++ i :: r /\ (forall j, In j p -> ~ overwrites j x) /\ reads i x.

Section Run.
Variable V : Type.
(** What an instruction does. *)
Variable exec : instr -> (loc -> V) -> (loc -> V).

(** What DynamoRIO says about an instruction is true: the new contents of a
    place depend on what is read, and on the old contents of the place itself
    unless it is overwritten. *)
Definition faithful (i : instr) : Prop := forall s s',
  (forall x, reads i x -> s x = s' x) ->
  forall x, overwrites i x \/ s x = s' x -> exec i s x = exec i s' x.

Definition run (l : list instr) (s : loc -> V) : loc -> V := fold_left (fun s i => exec i s) l s.
End Run.
