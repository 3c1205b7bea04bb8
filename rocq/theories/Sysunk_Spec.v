(** What should come of a system call of unknown parameters: which bytes may
    and which must be taken as written, and what the program finds in memory. *)
From Verif Require Import Base Sysunk_Model.
Local Open Scope Z_scope.

(** An argument that looks like a pointer to memory. *)
Definition points (shd : shadow) (p : param) : Prop :=
  p_def p = true /\ p_val p mod 4 = 0 /\ is_addr (shd (p_val p)) = true.

(** Byte a can be reached from the argument: it is less than 2048 bytes above
    it, and there is nothing unaddressable in between. *)
Definition reaches (shd : shadow) (p : param) (a : Z) : Prop :=
  points shd p /\ p_val p <= a < p_val p + 2048 /\
  forall x, p_val p <= x <= a -> is_addr (shd x) = true.

(** The same four-byte word, or the same byte. *)
Definition together (o : options) (a b : Z) : Prop :=
  if dword o then a / 4 = b / 4 else a = b.

(** The pointers of a call are in good order if none of them is below 2048,
    and none points into the 2047 bytes above one that comes before it. *)
Fixpoint apart (shd : shadow) (ps : list param) : Prop :=
  match ps with
  | [] => True
  | p :: l =>
      (points shd p ->
       2048 <= p_val p /\
       forall q, In q l -> points shd q -> p_val p < p_val q -> p_val p + 2048 <= p_val q) /\
      apart shd l
  end.

(** What is addressable can be read. *)
Definition sound (shd : shadow) (m : memory) : Prop :=
  forall a, is_addr (shd a) = true -> m a <> None.

(** The arrays as an earlier call of any kind leaves them. *)
Definition left_over (olds : list slot) : Prop :=
  Forall (fun s => 0 <= sz s <= 2048) olds.
