(** What the region tables should say, over plain lists of regions. *)
From Coq Require Import ZArith List Bool.
Import ListNotations.
Open Scope Z_scope.

(** start, end, flags *)
Definition region := (Z * Z * Z)%type.
Definition r_start (r : region) := fst (fst r).
Definition r_end (r : region) := snd (fst r).
Definition r_flags (r : region) := snd r.
Definition contains (r : region) (a : Z) : bool := (r_start r <=? a) && (a <? r_end r).
Definition touches (s e : Z) (r : region) : bool := (s <? r_end r) && (r_start r <? e).

(** What is left of a region when [s, e) is taken away. *)
Definition without (s e : Z) (r : region) : list region :=
  if touches s e r then
    (if r_start r <? s then [(r_start r, s, r_flags r)] else []) ++
    (if e <? r_end r then [(e, r_end r, r_flags r)] else [])
  else [r].

Inductive change := Grow (s e f : Z) | Shrink (s e : Z) | Resize (s e : Z).
Definition after (L : list region) (c : change) : list region :=
  match c with
  | Grow s e f => (s, e, f) :: L
  | Shrink s e => flat_map (without s e) L
  | Resize s e => map (fun r => if contains r s then (r_start r, e, r_flags r) else r) L
  end.
Definition answer (L : list region) (c : change) : list bool :=
  match c with
  | Grow _ _ _ => []
  | Shrink s e => [existsb (touches s e) L]
  | Resize s _ => [existsb (fun r => contains r s) L]
  end.
(** The documented calling discipline; [strict] are the debug build's assertions. *)
Definition proper (strict : bool) (L : list region) (c : change) : Prop :=
  match c with
  | Grow s e _ => 0 <= s < e /\ e < 2 ^ 64 /\ forall r, In r L -> touches s e r = false
  | Shrink s e => 0 <= s < e /\ e < 2 ^ 64 /\
      (forall r r', In r L -> In r' L -> touches s e r = true -> touches s e r' = true -> r = r') /\
      (strict = true -> forall r, In r L -> touches s e r = true -> e <= r_end r)
  | Resize s e => e < 2 ^ 64 /\ forall r, In r L -> contains r s = true ->
      r_start r < e /\ (strict = true -> r_start r = s) /\
      forall r', In r' L -> r' <> r -> touches (r_start r) e r' = false
  end.
Fixpoint proper_all (strict : bool) (L : list region) (l : list change) : Prop :=
  match l with [] => True | c :: l => proper strict L c /\ proper_all strict (after L c) l end.
Definition result (L : list region) (l : list change) : list region := fold_left after l L.
Fixpoint answers (L : list region) (l : list change) : list bool :=
  match l with [] => [] | c :: l => answer L c ++ answers (after L c) l end.

(** * Mappings: only the set of addresses matters *)
Inductive mchange :=
  | MAdd (b s : Z)               (* map [b, b+s) *)
  | MDrop (b s : Z)              (* unmap [b, b+s) *)
  | MMove (ob os nb ns : Z).     (* remap: if any of [ob, ob+os) is mapped, unmap it and map [nb, nb+ns) *)
Definition within (b s a : Z) : Prop := b <= a < b + s.
(** Is address [a] mapped after a history, most recent change first? *)
Fixpoint held (h : list mchange) (a : Z) : Prop :=
  match h with
  | [] => False
  | MAdd b s :: h => held h a \/ within b s a
  | MDrop b s :: h => held h a /\ ~ within b s a
  | MMove ob os nb ns :: h => (held h a /\ ~ within ob os a) \/ ((exists x, within ob os x /\ held h x) /\ within nb ns a)
  end.
(** The answers: an unmapping reports whether it found anything. *)
Fixpoint replies (past : list mchange) (l : list mchange) (ans : list bool) : Prop :=
  match l with
  | [] => ans = []
  | c :: l => match c with
              | MDrop b s => exists r ans', ans = r :: ans' /\ (r = true <-> exists x, within b s x /\ held past x) /\ replies (c :: past) l ans'
              | _ => replies (c :: past) l ans
              end
  end.
(** The intervals kept: a new mapping is merged with the one it overlaps. *)
Definition crosses (b s : Z) (i : Z * Z) : bool := (b <? snd i) && (fst i <? b + s).
Definition cut (b s : Z) (i : Z * Z) : list (Z * Z) :=
  if crosses b s i
  then (if fst i <? b then [(fst i, b)] else []) ++ (if b + s <? snd i then [(b + s, snd i)] else [])
  else [i].
Definition add_iv (b s : Z) (J : list (Z * Z)) : list (Z * Z) :=
  match filter (crosses b s) J with
  | [] => (b, b + s) :: J
  | i :: _ => (Z.min b (fst i), Z.max (b + s) (snd i)) :: filter (fun j => negb (crosses b s j)) J
  end.
Definition kept1 (J : list (Z * Z)) (c : mchange) : list (Z * Z) :=
  match c with
  | MAdd b s => add_iv b s J
  | MDrop b s => flat_map (cut b s) J
  | MMove ob os nb ns => if existsb (crosses ob os) J then add_iv nb ns (flat_map (cut ob os) J) else J
  end.
Definition kept (l : list mchange) : list (Z * Z) := fold_left kept1 l [].
(** A new mapping may overlap one kept interval; the release build compares starts
    only, so there it must be one with the same start. *)
Definition range_ok (b s : Z) : Prop := 0 <= b /\ 0 < s /\ b + s < 2 ^ 64.
Definition add_ok (strict : bool) (J : list (Z * Z)) (b s : Z) : Prop :=
  range_ok b s /\ (length (filter (crosses b s) J) <= 1)%nat /\
  (strict = false -> forall i, In i J -> crosses b s i = true -> fst i = b).
Definition mproper (strict : bool) (J : list (Z * Z)) (c : mchange) : Prop :=
  match c with
  | MAdd b s => add_ok strict J b s
  | MDrop b s => range_ok b s
  | MMove ob os nb ns => range_ok ob os /\ (existsb (crosses ob os) J = true -> add_ok strict (flat_map (cut ob os) J) nb ns)
  end.
Fixpoint mproper_all (strict : bool) (J : list (Z * Z)) (l : list mchange) : Prop :=
  match l with [] => True | c :: l => mproper strict J c /\ mproper_all strict (kept1 J c) l end.

(** What the client's callbacks are told: additions and removals. *)
Inductive notice := NAdd (s e : Z) | NDel (s e : Z).
Definition notices1 (L : list region) (c : change) : list notice :=
  match c with
  | Grow s e _ => [NAdd s e]
  | Shrink s e => if existsb (touches s e) L then [NDel s e] else []
  | Resize s e => map (fun r => NAdd (r_start r) e) (filter (fun r => contains r s) L)
  end.
Fixpoint notices (L : list region) (l : list change) : list notice :=
  match l with [] => [] | c :: l => notices1 L c ++ notices (after L c) l end.
