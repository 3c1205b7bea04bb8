(** Pointers between blocks, and what the leak scan should find. *)
From Coq Require Import Relation_Operators.
From Verif Require Import Base Leak_Model.
Open Scope Z_scope.

Section Spec.
Context (e : env).
Definition holds (c : chunk) (a : Z) : Prop := base c <= a < base c + len c.
(** Value [v] is a pointer to block [c]: to its start or, by the heuristics, a
    legitimate pointer to its middle; otherwise a doubtful one. *)
Definition aims (v : Z) (firm : bool) (c : chunk) : Prop :=
  if firm then v = base c \/ (holds c v /\ v <> base c /\ legit e v (base c) (base c + len c) = true)
  else holds c v /\ v <> base c /\ legit e v (base c) (base c + len c) = false.
(** The word at [a] is such a pointer, from outside of the block, and not text. *)
Definition refs (a de : Z) (firm : bool) (c : chunk) : Prop :=
  (exists v, rd e a = Some v /\ aims v firm c) /\ ~ holds c a /\ (a <= PAGE_SIZE \/ is_string e a de = false).
Definition root (firm : bool) (c : chunk) : Prop :=
  (exists r v, In (r, v) (regs e) /\ aims v firm c) \/ (exists a de, In (a, de) (root_words e) /\ refs a de firm c).
Definition link (firm : bool) (b c : chunk) : Prop := exists a de, In (a, de) (words e (base b) (base b + len b)) /\ refs a de firm c.
Inductive Reach : chunk -> Prop :=
  | reach_root c : In c (chunks e) -> root true c -> Reach c
  | reach_link b c : Reach b -> In c (chunks e) -> link true b c -> Reach c.
Definition path : chunk -> chunk -> Prop := clos_refl_trans _ (fun b c => In c (chunks e) /\ link true b c).

(** Blocks are disjoint and not empty, the scanned words of a block lie in it. *)
Record proper : Prop := {
  p_len : forall c, In c (chunks e) -> 0 < len c;
  p_low : forall c, In c (chunks e) -> PAGE_SIZE < base c /\ low e <= base c;
  p_nodup : NoDup (map base (chunks e));
  p_disj : forall c d a, In c (chunks e) -> In d (chunks e) -> holds c a -> holds d a -> c = d;
  p_words : forall c a de, In c (chunks e) -> In (a, de) (words e (base c) (base c + len c)) -> holds c a;
  p_regs : forall r v, In (r, v) (regs e) -> 0 <= r <= PAGE_SIZE }.
End Spec.
Definition total {A} (g : A -> Z) (l : list A) : Z := fold_right (fun x n => g x + n) 0 l.

(** What a leak check may say. *)
Section Verdict.
Context (e : env) (fs : list found).
Definition reported (r : bool) (c : chunk) : Prop := exists f, In f fs /\ f_start f = base c /\ f_reach f = r.
Record classified : Prop := {
  c_block : forall f, In f fs -> exists c, In c (chunks e) /\ f_start f = base c /\ f_size f = len c;
  c_reach : forall c, In c (chunks e) -> (Reach e c <-> reported true c);
  c_unreach : forall c, In c (chunks e) -> ~ Reach e c -> exists b, In b (chunks e) /\ ~ Reach e b /\ reported false b /\ path e b c;
  c_leak : forall c, In c (chunks e) -> reported false c -> ~ Reach e c;
  c_possible : forall f c, In f fs -> In c (chunks e) -> f_start f = base c -> f_reach f = false -> f_maybe f = true ->
    root e false c \/ exists b, In b (chunks e) /\ link e false b c;
  c_plain : forall f c, In f fs -> In c (chunks e) -> f_start f = base c -> f_reach f = false -> f_maybe f = false ->
    ~ root e false c /\ forall b, In b (chunks e) -> link e false b c -> ~ Reach e b /\ ~ reported false b;
  c_direct : forall b c, In b (chunks e) -> In c (chunks e) -> reported false b -> reported false c -> link e true b c -> b = c;
  c_once : NoDup (map f_start (filter f_count fs));
  c_all : forall f, In f fs -> f_count f = true \/ (f_show f = true /\ f_reach f = true /\ show_reachable e = true);
  c_shown : map f_start (filter f_show fs) = if show_reachable e then map f_start (filter (fun f => f_count f && f_reach f) fs) else [] }.
(** [own] gives each unreachable block its direct leak. *)
Record attributed : Prop := {
  a_unreach : exists U, NoDup U /\ (forall c, In c U <-> In c (chunks e) /\ ~ Reach e c) /\
    total (fun f => f_size f + f_indirect f) (filter (fun f => f_count f && negb (f_reach f)) fs) = total len U /\
    exists own : chunk -> Z,
      (forall d, In d U -> exists c, In c U /\ own d = base c /\ reported false c /\ path e c d) /\
      (forall c, In c U -> (reported false c <-> own c = base c)) /\
      (forall f, In f fs -> f_reach f = false -> f_indirect f = total len (filter (fun d => (own d =? f_start f) && negb (base d =? f_start f)) U));
  a_reach : forall f, In f fs -> f_reach f = true -> f_indirect f = 0 }.
End Verdict.
