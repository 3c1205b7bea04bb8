(** The words a leak check should look at, and what text is. *)
From Coq Require Import Sorting.Sorted.
From Verif Require Import Base Leak_Model LeakScan_Model.
Open Scope Z_scope.

(** The facts, address by address. *)
Record truth := Truth { scannable : Z -> bool; defd : Z -> bool; heap : Z -> bool; stack : Z -> bool }.
(** The answers agree with the facts.  A stack is at the start of its mapping. *)
Record agrees (m : machine) (t : truth) : Prop := {
  g_query : forall pc, 0 <= pc -> exists qe b, query m pc = Some (qe, b) /\ pc < qe /\ qe mod PTR = 0 /\ forall x, pc <= x < qe -> scannable t x = negb b;
  g_next : forall s e, match next_def m s e with
    | Some p => s <= p < e /\ defd t p = true /\ forall w, w mod PTR = 0 -> s <= w < p -> exists x, w <= x < w + PTR /\ defd t x = false
    | None => forall w, w mod PTR = 0 -> s <= w -> w + PTR <= e -> exists x, w <= x < w + PTR /\ defd t x = false end;
  g_end : forall s e, s < e -> s <= end_def m s e <= e /\ (forall x, s <= x < end_def m s e -> defd t x = true) /\ (end_def m s e = e \/ defd t (end_def m s e) = false);
  g_heap : forall a, match heap_end m a with
    | Some q => a < q /\ q mod PTR = 0 /\ forall x, a <= x < q -> heap t x = true
    | None => heap t a = false end;
  g_stack : forall a, match stack_end m a with
    | Some q => a < q /\ forall x, a <= x < q -> stack t x = true
    | None => stack t a = false end;
  g_first : forall r qe b, query m r = Some (qe, b) -> forall x y, r <= x <= y -> y < qe -> stack t y = true -> stack t x = true;
  g_top : forall r qe b a q, query m r = Some (qe, b) -> r <= a < qe -> stack_end m a = Some q -> q < qe -> stack t q = false }.
(** A word to look at. *)
Definition wanted (m : machine) (t : truth) (skip_heap : bool) (start end_ w : Z) : Prop :=
  w mod PTR = 0 /\ start <= w /\ w + PTR <= end_ /\ scannable t w = true /\
  (have_info m = false \/ at_exit m = true -> stack t w = false) /\
  (have_info m = true -> forall x, w <= x < w + PTR -> defd t x = true) /\
  (skip_heap = true -> heap t w = false).
Definition exactly (P : Z -> Prop) (l : list Z) : Prop := StronglySorted Z.lt l /\ forall w, In w l <-> P w.

(** Text: runs of characters, each closed by a zero, with any further zeros. *)
Definition run (l : list Z) : Prop := Forall (fun b => 0 < b < 128) l.
Inductive padded : list (list Z) -> list Z -> Prop :=
  | pad_nil : padded [] []
  | pad_zero rs p : padded rs p -> padded rs (0 :: p)
  | pad_run r rs p : run r -> r <> [] -> padded rs p -> padded (r :: rs) (r ++ 0 :: p).
Definition long (n : Z) (r : list Z) : Prop := n <= Z.of_nat (length r).
(** Three strings of ten, or one of more than 128 after at most two others. *)
Definition text (l : list Z) : Prop := exists rs p q, l = p ++ q /\ padded rs p /\ Forall (long 10) rs /\
  (length rs = 3%nat \/ (length rs <= 2)%nat /\ exists r q', q = r ++ q' /\ run r /\ long 129 r).

(** Reachability told from memory alone: chains of pointers in wanted words. *)
Section Chains.
Context (m : machine) (t : truth) (top : Z) (cs : list chunk) (mem : Z -> option Z) (lg : Z -> Z -> Z -> bool) (rs : list (Z * Z)).
Definition points (v : Z) (c : chunk) : Prop :=
  v = base c \/ (base c < v < base c + len c /\ lg v (base c) (base c + len c) = true).
Definition word_to (a : Z) (c : chunk) : Prop := (exists v, mem a = Some v /\ points v c) /\ ~ (base c <= a < base c + len c).
Inductive Chain : chunk -> Prop :=
  | ch_reg r v c : In c cs -> In (r, v) rs -> points v c -> Chain c
  | ch_root a c : In c cs -> wanted m t true 0 top a -> word_to a c -> Chain c
  | ch_block a b c : Chain b -> In c cs -> wanted m t false (base b) (base b + len b) a -> word_to a c -> Chain c.
End Chains.
