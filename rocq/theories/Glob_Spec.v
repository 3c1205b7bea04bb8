(** Independent specification of wildcard matching. *)
From Verif Require Import Base.
Open Scope Z_scope.

(** [eqc a b]: character [a] of the text is accepted by literal [b]. *)
Inductive glob (eqc : Z -> Z -> Prop) : list Z -> list Z -> Prop :=
| glob_nil : glob eqc [] []
| glob_star t1 t2 p : glob eqc t2 p -> glob eqc (t1 ++ t2) (42 (* '*' *) :: p)
| glob_any c t p : glob eqc t p -> glob eqc (c :: t) (63 (* '?' *) :: p)
| glob_lit c d t p : d <> 42 -> eqc c d -> glob eqc t p -> glob eqc (c :: t) (d :: p).

Definition eq_case (fold : Z -> Z) (ic : bool) (a b : Z) : Prop :=
  if ic then fold a = fold b else a = b.

(** A C string: no embedded terminator. *)
Definition no_nul (s : list Z) : Prop := ~ In 0 s.

(** A case-folding function that does not confuse the terminator. *)
Definition fold_ok (fold : Z -> Z) : Prop := forall c, fold c = fold 0 -> c = 0.

(** NUL-separated, double-NUL-terminated list of strings. *)
Definition encode_list (ps : list (list Z)) : list Z :=
  concat (map (fun p => p ++ [0]) ps) ++ [0].
