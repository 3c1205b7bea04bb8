(** What the mutator promises, over sets of bit numbers. *)
From Coq Require Import ZArith List Bool.
Import ListNotations.
Open Scope Z_scope.

(** All increasing lists of [b] numbers from [lo, lo + cnt), in lexicographic order. *)
Fixpoint subsets (lo : Z) (cnt b : nat) : list (list Z) :=
  match b, cnt with
  | O, _ => [[]]
  | S _, O => []
  | S b', S c => map (cons lo) (subsets (lo + 1) c b') ++ subsets (lo + 1) c b
  end.
(** Every [s]-th element, and the last one. *)
Fixpoint keep {A} (s wait : nat) (l : list A) : list A :=
  match l with
  | [] => []
  | x :: l' => match wait, l' with
               | O, _ => x :: keep s (Nat.pred s) l'
               | S w, [] => [x]
               | S w, _ => keep s w l'
               end
  end.
(** The sets of bits flipped by successive values of a buffer of [n] bits: one bit,
    then two, and so on. *)
Definition bit_sets (s n : nat) : list (list Z) :=
  flat_map (fun b => keep s 0 (subsets 0 n b)) (seq 1 n).

(** Bit [t] of byte [j] is number [place j t]. *)
Definition mask (place : Z -> Z -> Z) (S : list Z) (j : Z) : Z :=
  fold_right Z.add 0 (map (fun t => if existsb (Z.eqb (place j t)) S then 2 ^ t else 0) [0; 1; 2; 3; 4; 5; 6; 7]).
Fixpoint flip_from (place : Z -> Z -> Z) (S : list Z) (j : Z) (base : list Z) : list Z :=
  match base with [] => [] | v :: base => Z.lxor v (mask place S j) :: flip_from place S (j + 1) base end.
Definition flipped (place : Z -> Z -> Z) (base S : list Z) : list Z := flip_from place S 0 base.
(** Consecutive numbers go to consecutive bytes. *)
Definition spread (size j t : Z) : Z := j + t * size.
(** Consecutive numbers go to consecutive bits. *)
Definition packed (j t : Z) : Z := 8 * j + t.

Definition byte (v : Z) : Prop := 0 <= v < 256.
Definition bytes (l : list Z) : Prop := Forall byte l.
Definition value (l : list Z) : Z := fold_right (fun b v => b + 256 * v) 0 l.

(** The values for a history of requests and feedback; [vals] turns a base into the
    next value.  The base is the seed, which positive feedback replaces by the last
    value, or the caller's buffer when the mutator is not seed-centric. *)
Inductive request := Ask (b : list Z) | Tell (v : Z).
Fixpoint expected (centric : bool) (seed cur : list Z) (vals : list (list Z -> list Z)) (l : list request) : list (list Z) :=
  match l with
  | [] => []
  | Ask b :: l =>
      match vals with
      | [] => []
      | f :: vals => let v := f (if centric then seed else b) in v :: expected centric seed v vals l
      end
  | Tell v :: l => expected centric (if 0 <? v then cur else seed) cur vals l
  end.
Definition asks (l : list request) : nat := length (filter (fun r => match r with Ask _ => true | _ => false end) l).

(** Random bit mutation: every value flips, in its base, as many distinct bits as the
    ordered walk would have. *)
Definition flips_some (base : list Z) (k : nat) (v : list Z) : Prop :=
  exists S, NoDup S /\ length S = k /\ (forall x, In x S -> 0 <= x < 8 * Z.of_nat (length base)) /\ v = flipped packed base S.
(** [outs] are acceptable values: the i-th one satisfies the i-th predicate. *)
Fixpoint accepted (centric : bool) (seed cur : list Z) (preds : list (list Z -> list Z -> Prop)) (l : list request) (outs : list (list Z)) : Prop :=
  match l with
  | [] => outs = []
  | Ask b :: l =>
      match preds, outs with
      | P :: preds, v :: outs => P (if centric then seed else b) v /\ accepted centric seed v preds l outs
      | _, _ => False
      end
  | Tell v :: l => accepted centric (if 0 <? v then cur else seed) cur preds l outs
  end.

(** A dictionary word over a buffer at offset [offs], with a blank on either side
    where there is room. *)
Definition placed (base : list Z) (offs : Z) (t : list Z) : list Z :=
  map (fun n => let i := Z.of_nat n in
                if (offs <=? i) && (i <? offs + Z.of_nat (length t)) then nth (Z.to_nat (i - offs)) t 0
                else if (i =? offs - 1) || (i =? offs + Z.of_nat (length t)) then 32
                else nth n base 0)
      (seq 0 (length base)).
