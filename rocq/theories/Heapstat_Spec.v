(** What is expected of Dr. Heapstat's figures, apart from how it keeps
    them. *)
From Verif Require Import Base Heapstat_Model.
Local Open Scope Z_scope.

(** the number of snapshots is even (the option asks for a power of two) *)
Definition c_ok (c : cfg) : Prop :=
  (2 <= c_n c)%nat /\ Nat.even (c_n c) = true /\
  0 < c_freq c < 2 ^ 31 /\ 0 <= c_hdr c <= 16 /\ 0 <= c_thr c <= 99.

(** * The heap itself *)

Definition size_ok (req pad : Z) : Prop :=
  0 <= req /\ 0 <= pad /\ 0 < req + pad /\ req + pad + 16 < 2 ^ 31.
Definition op_ok (o : op) : Prop :=
  match o with
  | Add _ _ req pad => size_ok req pad
  | Realloc _ req pad => size_ok req pad
  | _ => True
  end.

(** the blocks after an operation *)
Definition heap1 (bs : list blk) (o : op) : list blk :=
  match o with
  | Add h id req pad =>
      if existsb (fun b => b_h b =? h) bs then bs else mkB h id req pad :: bs
  | Free h => filter (fun b => negb (b_h b =? h)) bs
  | Realloc h req pad =>
      map (fun b => if b_h b =? h then mkB h (b_id b) req pad else b) bs
  | _ => bs
  end.
Definition heap (ops : list op) : list blk := fold_left heap1 ops [].

(** sums over blocks, of all callstacks or of one *)
Fixpoint tot (f : blk -> Z) (bs : list blk) : Z :=
  match bs with [] => 0 | b :: r => f b + tot f r end.
Definition sel (id : Z) (f : blk -> Z) (b : blk) : Z := if b_id b =? id then f b else 0.
Definition one (b : blk) : Z := 1.
(** what a block takes up, as drheapstat counts it *)
Definition space (c : cfg) (b : blk) : Z := b_req b + b_pad b + c_hdr c.

(** something holds of the heap at all times *)
Definition always (P : list blk -> Prop) (ops : list op) : Prop :=
  forall a b, ops = a ++ b -> P (heap a).
Definition few (bs : list blk) : Prop := Z.of_nat (List.length bs) < 2 ^ 32.

(** no block is resized in place *)
Definition no_realloc (ops : list op) : Prop :=
  Forall (fun o => match o with Realloc _ _ _ => False | _ => True end) ops.

(** * A snapshot that shows a heap *)

Definition node_shows (c : cfg) (bs : list blk) (n : node) : Prop :=
  n_inst n = tot (sel (n_id n) one) bs /\
  n_asked n = tot (sel (n_id n) b_req) bs mod 2 ^ 32 /\
  n_usable n = tot (sel (n_id n) b_pad) bs mod 2 ^ 16 /\
  n_occ n = tot (sel (n_id n) (fun _ => c_hdr c)) bs mod 2 ^ 16.
Definition shows (c : cfg) (bs : list blk) (s : snap) : Prop :=
  s_asked s = tot b_req bs mod 2 ^ 64 /\
  s_usable s = tot (fun b => b_req b + b_pad b) bs mod 2 ^ 64 /\
  s_occ s = tot (space c) bs mod 2 ^ 64 /\
  NoDup (map n_id (s_used s)) /\
  (forall id, In id (map n_id (s_used s)) <-> exists b, In b bs /\ b_id b = id) /\
  Forall (node_shows c bs) (s_used s).

(** * The peak *)

(** [x] is at most [t] percent above [p] *)
Definition near (t x p : Z) : Prop := 100 * (x - p) <= t * p.
Definition small (c : cfg) (bs : list blk) : Prop := 100 * tot (space c) bs < 2 ^ 64.
(** a block that is not made smaller in place does not take up less *)
Definition grows (bs : list blk) (o : op) : Prop :=
  match o with
  | Realloc h req pad =>
      forall b, In b bs -> b_h b = h -> b_req b <= req -> b_req b + b_pad b <= req + pad
  | _ => True
  end.
Fixpoint all_grow (bs : list blk) (ops : list op) : Prop :=
  match ops with [] => True | o :: r => grows bs o /\ all_grow (heap1 bs o) r end.

(** * Time *)

(** how many calls of the allocator, and how many bytes, an operation counts
    for *)
Definition present (bs : list blk) (h : Z) : bool := existsb (fun b => b_h b =? h) bs.
Definition calls1 (bs : list blk) (o : op) : Z :=
  match o with
  | Add h _ _ _ => if present bs h then 0 else 1
  | Free h => if present bs h then 1 else 0
  | Realloc h _ _ => if present bs h then 1 else 0
  | _ => 0
  end.
Definition bytes1 (c : cfg) (bs : list blk) (o : op) : Z :=
  match o with
  | Add h id req pad => if present bs h then 0 else req + pad + c_hdr c
  | Free h => match find (fun b => b_h b =? h) bs with
              | Some b => space c b | None => 0 end
  | Realloc h req pad => match find (fun b => b_h b =? h) bs with
                         | Some b => Z.abs (req + pad - (b_req b + b_pad b)) | None => 0 end
  | _ => 0
  end.
Fixpoint total (f : list blk -> op -> Z) (bs : list blk) (ops : list op) : Z :=
  match ops with [] => 0 | o :: r => f bs o + total f (heap1 bs o) r end.
Definition no_tick (ops : list op) : Prop := ~ In Tick ops.

(** a snapshot that was taken during some operation and shows the heap after
    it *)
Definition taken (c : cfg) (ops : list op) (s : snap) : Prop :=
  exists a o b ya yb, ops = a ++ o :: b /\ run c a = Ok ya /\ run c (a ++ [o]) = Ok yb /\
    stamp (y_st ya) < s_stamp s <= stamp (y_st yb) /\ shows c (heap (a ++ [o])) s.

(** * Last accesses *)

Definition acc_ok (cur : Z) (a : acc) : Prop :=
  0 <= a_id a < 2 ^ 32 /\ 0 <= a_bytes a < 2 ^ 32 /\ 0 <= a_last a <= cur.
