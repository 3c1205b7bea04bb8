(** Byte-addressed memory used by the string models and their specifications.
    [None] = the byte is not accessible: any access to it is [UB]. *)
From Verif Require Import Base.
Open Scope Z_scope.

Definition mem : Type := Z -> option Z.

Definition upd (m : mem) (a v : Z) : mem := fun x => if x =? a then Some v else m x.

(** Little-endian load/store of [w] consecutive bytes. *)
Fixpoint loadn (w : nat) (m : mem) (a : Z) : res Z :=
  match w with
  | O => Ok 0
  | S w' => match m a with
            | None => UB
            | Some b => let* r := loadn w' m (a + 1) in Ok (b + 256 * r)
            end
  end.

Fixpoint storen (w : nat) (m : mem) (a v : Z) : res mem :=
  match w with
  | O => Ok m
  | S w' => match m a with
            | None => UB
            | Some _ => storen w' (upd m a (v mod 256)) (a + 1) (v / 256)
            end
  end.

(** Every stored value is a byte. *)
Definition mem_ok (m : mem) : Prop := forall a b, m a = Some b -> 0 <= b < 256.

(** The [n] bytes starting at [a] are accessible. *)
Definition mapped (m : mem) (a n : Z) : Prop := forall x, a <= x < a + n -> m x <> None.

(** The elements [l], each [w] bytes wide, are stored consecutively at [a]. *)
Fixpoint elems_at (w : nat) (m : mem) (a : Z) (l : list Z) : Prop :=
  match l with
  | [] => True
  | v :: l' => loadn w m a = Ok v /\ elems_at w m (a + Z.of_nat w) l'
  end.

(** [m'] is [m] with the [n] bytes at [dst] replaced by the bytes that [m]
    holds at [src], and nothing else changed. *)
Definition copied (m m' : mem) (dst src n : Z) : Prop :=
  forall x, m' x = if (dst <=? x) && (x <? dst + n) then m (src + (x - dst)) else m x.

(** [m'] is [m] with the [n] bytes at [dst] set to [v]. *)
Definition filled (m m' : mem) (dst v n : Z) : Prop :=
  forall x, m' x = if (dst <=? x) && (x <? dst + n) then Some v else m x.
