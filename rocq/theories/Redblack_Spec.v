(** Specification of the interval index: a finite set of intervals, as an
    ascending list.  Independent of trees, colours and pointers. *)
From Coq Require Import ZArith List Bool.
Import ListNotations.
Open Scope Z_scope.

(** (start, size, client data) *)
Definition entry := (Z * Z * Z)%type.
Definition e_base (e : entry) : Z := fst (fst e).
Definition e_size (e : entry) : Z := snd (fst e).
Definition e_client (e : entry) : Z := snd e.

(** the mathematical interval [start, start+size) *)
Definition inside (a : Z) (e : entry) : bool := (e_base e <=? a) && (a <? e_base e + e_size e).
Definition meets (s t : Z) (e : entry) : bool := (s <? e_base e + e_size e) && (e_base e <? t).
Definition ovl (e e' : entry) : bool := meets (e_base e) (e_base e + e_size e) e'.
Definition same_start (e e' : entry) : bool := e_base e =? e_base e'.
(** intervals a client can store: non-empty and ending below 2^64 *)
Definition valid (e : entry) : Prop := 0 <= e_base e /\ 0 < e_size e /\ e_base e + e_size e < 2 ^ 64.

(** ascending by start / ascending and pairwise disjoint *)
Fixpoint ascending (l : list entry) : Prop :=
  match l with
  | [] => True
  | e :: l' => (forall e', In e' l' -> e_base e < e_base e') /\ ascending l'
  end.
Definition disjoint (l : list entry) : Prop :=
  forall l1 e l2, l = l1 ++ e :: l2 -> forall e', In e' (l1 ++ l2) -> ovl e e' = false.

Fixpoint put (e : entry) (l : list entry) : list entry :=
  match l with
  | [] => [e]
  | e' :: l' => if e_base e <? e_base e' then e :: l else e' :: put e l'
  end.

(** what a client does with the index *)
Inductive op :=
| Insert (e : entry)
| RemoveStart (b : Z)     (* remove the interval starting at b, if any *)
| RemoveAt (a : Z)        (* remove the interval containing a, if any *)
| SetClient (b c : Z)     (* re-label the interval starting at b, if any *)
| Clear.

Definition relabel (b c : Z) (e : entry) : entry :=
  if e_base e =? b then (e_base e, e_size e, c) else e.

(** [clash]: which stored interval makes an insertion be refused *)
Definition sp_step (clash : entry -> entry -> bool) (l : list entry) (o : op) : list entry :=
  match o with
  | Insert e => if existsb (clash e) l then l else put e l
  | RemoveStart b => filter (fun e => negb (e_base e =? b)) l
  | RemoveAt a => filter (fun e => negb (inside a e)) l
  | SetClient b c => map (relabel b c) l
  | Clear => []
  end.
Definition sp_run clash (os : list op) : list entry := fold_left (sp_step clash) os [].

(** client data released by each operation *)
Definition sp_released (l : list entry) (o : op) : list Z :=
  map e_client (match o with
  | RemoveStart b => filter (fun e => e_base e =? b) l
  | RemoveAt a => filter (inside a) l
  | Clear => l
  | _ => []
  end).
Fixpoint sp_freed clash (l : list entry) (os : list op) : list Z :=
  match os with
  | [] => []
  | o :: os' => sp_released l o ++ sp_freed clash (sp_step clash l o) os'
  end.

Definition op_valid (o : op) : Prop := match o with Insert e => valid e | _ => True end.

(** the caller never inserts an interval that overlaps a stored one with a
    different start (required only of the release build, which compares
    start addresses) *)
Fixpoint clean (l : list entry) (os : list op) : Prop :=
  match os with
  | [] => True
  | o :: os' => match o with Insert e => existsb (ovl e) l = existsb (same_start e) l | _ => True end /\
                clean (sp_step ovl l o) os'
  end.
Definition legal (dbg : bool) (os : list op) : Prop :=
  Forall op_valid os /\ (dbg = true \/ clean [] os).
Definition no_remove_at (o : op) : Prop := match o with RemoveAt _ => False | _ => True end.

(** a walk over the list that may stop early *)
Fixpoint walk {S} (cb : S -> entry -> S * bool) (s : S) (l : list entry) : S :=
  match l with
  | [] => s
  | e :: l' => let (s', go) := cb s e in if go then walk cb s' l' else s'
  end.

(** what the header promises: the entry with the greatest start not above [a];
    the entry with the least start among those ending at or after [a] *)
Definition is_next_lower (a : Z) (l : list entry) (r : option entry) : Prop :=
  match r with
  | Some e => In e l /\ e_base e <= a /\ (forall e', In e' l -> e_base e' <= a -> e_base e' <= e_base e)
  | None => forall e', In e' l -> a < e_base e'
  end.
Definition is_next_higher (a : Z) (l : list entry) (r : option entry) : Prop :=
  match r with
  | Some e => In e l /\ a <= e_base e + e_size e /\
              (forall e', In e' l -> a <= e_base e' + e_size e' -> e_base e <= e_base e')
  | None => forall e', In e' l -> e_base e' + e_size e' < a
  end.
