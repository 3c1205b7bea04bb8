(** What a client of Umbra may expect of the registry of maps, written without
    the slots, counters and locks of the code. *)
From Coq Require Import ZArith List Bool Lia.
Import ListNotations.
From Verif Require Import UmbraMaps_Model.
Open Scope Z_scope.

(** How many components use Umbra, the maps that exist (name, scale, place),
    whether a map was destroyed since Umbra started, and the next name. *)
Record ideal := Ideal {
  users : nat; maps : list (Z * Z * nat); shrunk : bool; fresh : Z }.
Definition start : ideal := Ideal 0 [] false 1.

Definition taken (s : ideal) (i : nat) : bool :=
  existsb (fun x => Nat.eqb (snd x) i) (maps s).
Definition place (s : ideal) : nat := if taken s 0 then 1 else 0.
Definition known (s : ideal) (p : Z) : bool := existsb (fun x => fst (fst x) =? p) (maps s).
Definition same_scale (s : ideal) (k : Z) : bool :=
  forallb (fun x => snd (fst x) =? k) (maps s).

(** Options that can be honoured at all. *)
Definition byte_default (o : ops) : bool := (o_dsize o =? 1) && (o_dflt o <=? 255).
Definition known_scale (o : ops) : bool := (0 <=? o_scale o) && (o_scale o <=? 4).

(** The wished-for answers: two maps at most, all of one scale. *)
Definition ideal_step (arch : nat -> ops -> status) (s : ideal) (c : call) : ideal * answer :=
  match c with
  | Init true true true => (Ideal (S (users s)) (maps s) (shrunk s) (fresh s), (S_ok, None))
  | Init _ _ _ => (s, (if Nat.eqb (users s) 0 then S_error else S_ok, None))
  | Exit =>
    match users s with
    | O => (s, (S_error, None))
    | S O => (Ideal 0 [] false (fresh s), (S_ok, None))
    | S n => (Ideal n (maps s) (shrunk s) (fresh s), (S_ok, None))
    end
  | Create null o =>
    if Nat.eqb (users s) 0 then (s, (S_call, None))
    else if null then (s, (S_param, None))
    else if (2 <=? length (maps s))%nat then (s, (S_feature, None))
    else if negb (byte_default o) then (s, (S_notimpl, None))
    else
      let s' := Ideal (users s) (maps s) (shrunk s) (fresh s + 1) in
      if o_cb o then (s', (S_notimpl, None))
      else if negb (known_scale o) then (s', (S_feature, None))
      else match arch (place s) o with
           | S_ok =>
             if same_scale s (o_scale o)
             then (Ideal (users s) ((fresh s, o_scale o, place s) :: maps s) (shrunk s)
                         (fresh s + 1), (S_ok, Some (fresh s)))
             else (s', (S_feature, None))
           | e => (s', (e, None))
           end
  | Destroy None => (s, (S_param, None))
  | Destroy (Some p) =>
    (Ideal (users s) (filter (fun x => negb (fst (fst x) =? p)) (maps s)) true (fresh s),
     (S_ok, None))
  end.

Fixpoint ideal_run (arch : nat -> ops -> status) (s : ideal) (l : list call)
  : ideal * list answer :=
  match l with
  | [] => (s, [])
  | c :: l' =>
    let '(s1, a) := ideal_step arch s c in
    let '(s2, r) := ideal_run arch s1 l' in (s2, a :: r)
  end.

(** A careful client: start-up succeeds, no more exits than inits, maps are
    destroyed once and before the last exit, a map is not wanted in the same
    session after one was destroyed, and all maps have one scale. *)
Definition careful (s : ideal) (c : call) : bool :=
  match c with
  | Init v a d => v && a && d
  | Exit => match users s with
            | O => false
            | S O => match maps s with [] => true | _ => false end
            | _ => true
            end
  | Create null o =>
    Nat.eqb (users s) 0 || null || (2 <=? length (maps s))%nat ||
    (negb (shrunk s) && same_scale s (o_scale o)) ||
    negb (byte_default o) || o_cb o || negb (known_scale o)
  | Destroy None => true
  | Destroy (Some p) => known s p
  end.

(** The options of a create that the code gives up on after allocating. *)
Definition clean (arch : nat -> ops -> status) (s : ideal) (c : call) : bool :=
  match c with
  | Create null o =>
    Nat.eqb (users s) 0 || null || (2 <=? length (maps s))%nat || negb (byte_default o) ||
    (negb (o_cb o) && known_scale o &&
     match arch (place s) o with S_ok => true | _ => false end)
  | _ => true
  end.

Fixpoint always (arch : nat -> ops -> status) (P : ideal -> call -> bool) (s : ideal)
         (l : list call) : bool :=
  match l with
  | [] => true
  | c :: l' => P s c && always arch P (fst (ideal_step arch s c)) l'
  end.

(** The maps that the code has, as the ideal describes them. *)
Definition described (m : umap) : Z * Z * nat := (m_id m, m_scale m, m_index m).
