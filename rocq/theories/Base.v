(** Shared vocabulary of the models: outcomes with explicit undefined
    behaviour and explicit fuel exhaustion.  No model of code lives here. *)
From Coq Require Export ZArith List Lia Bool.
From Coq Require Export ZifyBool ZifyNat ZifyN.
Export ListNotations.

(** Outcome of a modelled C function. [UB] = the C code would execute
    undefined behaviour (out-of-bounds access, fault, division by zero);
    [Fuel] = the model's loop bound was too small (never a real outcome). *)
Inductive res (A : Type) : Type :=
| Ok (a : A)
| UB
| Fuel.
Arguments Ok {A} a.
Arguments UB {A}.
Arguments Fuel {A}.

Definition bind {A B} (x : res A) (f : A -> res B) : res B :=
  match x with Ok a => f a | UB => UB | Fuel => Fuel end.

Declare Scope res_scope.
Delimit Scope res_scope with res.
Notation "'let*' x := e 'in' k" := (bind e (fun x => k))
  (at level 200, x pattern, right associativity) : res_scope.
Open Scope res_scope.

Definition of_option {A} (o : option A) : res A :=
  match o with Some a => Ok a | None => UB end.

Lemma bind_ok {A B} (x : res A) (f : A -> res B) b :
  bind x f = Ok b -> exists a, x = Ok a /\ f a = Ok b.
Proof. destruct x; simpl; intros; try discriminate; eauto. Qed.
