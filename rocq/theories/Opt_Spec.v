(** Options as the user writes them, and what they mean. *)
From Verif Require Import Base.
Open Scope Z_scope.

(** A word, as it is or in quotes. *)
Inductive item := Plain (w : list Z) | Quoted (q : Z) (w : list Z).

Definition word (i : item) : list Z := match i with Plain w => w | Quoted _ w => w end.
Definition show (i : item) : list Z :=
  match i with Plain w => w | Quoted q w => q :: w ++ [q] end.

Definition space (c : Z) : Prop := 9 <= c <= 13 \/ c = 32.
Definition quote (c : Z) : Prop := c = 34 \/ c = 39 \/ c = 96.   (* double, single, backquote *)
Definition blank (s : list Z) : Prop := forall c, In c s -> space c.

Definition good (i : item) : Prop :=
  match i with
  | Plain w => (forall c, In c w -> ~ space c) /\ exists c r, w = c :: r /\ ~ quote c
  | Quoted q w => quote q /\ ~ In q w
  end.

(** Words, each with the white space before it, and what follows the last. *)
Fixpoint text (l : list (list Z * item)) : list Z :=
  match l with
  | [] => []
  | (sp, i) :: r => sp ++ show i ++ text r
  end.

Definition line_ok (l : list (list Z * item)) : Prop :=
  forall sp i, In (sp, i) l -> blank sp /\ good i.
Definition apart (l : list (list Z * item)) : Prop :=
  forall sp i, In (sp, i) (tl l) -> sp <> [].

(** The kinds of options. *)
Inductive kind := KBool | KNum (neg : bool) (min max : Z) | KStr | KMulti.

(** An option: its name, perhaps another one, its kind. *)
Record option_ := { o_name : list Z; o_alias : option (list Z); o_kind : kind }.

Definition names (o : option_) : list (list Z) :=
  o_name o :: match o_alias o with Some a => [a] | None => [] end.
Definition on_ (n : list Z) : list Z := 45 :: n.                       (* -n *)
Definition off_ (n : list Z) : list Z := [45; 110; 111; 95] ++ n.      (* -no_n *)

(** What a user can set an option to. *)
Inductive setting :=
| Flag (k : nat) (name : list Z) (b : bool)
| Val (k : nat) (name : list Z) (v : list Z).

Definition key (s : setting) : nat := match s with Flag k _ _ => k | Val k _ _ => k end.

Definition words_of (s : setting) : list (list Z) :=
  match s with
  | Flag _ n b => [if b then on_ n else off_ n]
  | Val _ n v => [on_ n; v]
  end.

Inductive meaning := MBool (b : bool) | MNum (n : Z) | MStr (s : list Z) | MList (l : list (list Z)).

Section Meaning.
Variable numeral : list Z -> Z -> Prop.
Variable os : list option_.

Definition valid (s : setting) : Prop :=
  exists o, nth_error os (key s) = Some o /\
  match s with
  | Flag _ n _ => o_kind o = KBool /\ In n (names o)
  | Val _ n v =>
    In n (names o) /\
    match o_kind o with
    | KBool => False
    | KNum neg mn mx =>
      exists x, numeral v x /\ mn <= x <= mx /\ v <> [] /\ (neg = true \/ forall r, v <> 45 :: r)
    | KStr => forall r, v <> 45 :: r
    | KMulti => ~ In 0 v
    end
  end.

(** What one setting says of its option. *)
Definition says1 (o : option_) (s : setting) (m : meaning) : Prop :=
  match s, o_kind o with
  | Flag _ _ b, _ => m = MBool b
  | Val _ _ v, KNum _ _ _ => exists x, numeral v x /\ m = MNum x
  | Val _ _ v, _ => m = MStr v
  end.

Definition on_k (k : nat) (ss : list setting) : list setting :=
  filter (fun s => Nat.eqb (key s) k) ss.

(** The last setting of an option counts; one that can be repeated collects
    all of them that are not empty. *)
Definition means (k : nat) (o : option_) (ss : list setting) (default m : meaning) : Prop :=
  match o_kind o with
  | KMulti =>
    exists d, default = MList d /\
      m = MList (d ++ concat (map (fun s => match s with
                                            | Val _ _ (c :: r) => [c :: r]
                                            | _ => []
                                            end) (on_k k ss)))
  | _ =>
    match rev (on_k k ss) with
    | [] => m = default
    | s :: _ => says1 o s m
    end
  end.
End Meaning.
