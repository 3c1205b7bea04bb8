(** What the delayed-free queue promises, over lists of blocks. *)
From Coq Require Import ZArith List Bool.
Import ListNotations.
Open Scope Z_scope.

(** start (with redzone), whole size, has a redzone, call stack of the free *)
Record block := Block { b_addr : Z; b_size : Z; b_rz : bool; b_stack : Z }.

Fixpoint total (q : list block) : Z :=
  match q with [] => 0 | b :: q => b_size b + total q end.
Definition apart (a b : block) : Prop :=
  b_addr a + b_size a <= b_addr b \/ b_addr b + b_size b <= b_addr a.
Definition proper (b : block) : Prop :=
  0 < b_addr b /\ 0 < b_size b /\ b_addr b + b_size b < 2 ^ 64.

(** A delayed block with its serial number: how many frees were delayed before it. *)
Definition dentry := (Z * block)%type.
Definition blocks (q : list dentry) : list block := map snd q.
Definition without (j : Z) (q : list dentry) : list dentry := filter (fun p => negb (fst p =? j)) q.

(** Serial numbers a free looks at when the byte limit [max] is exceeded and [k]
    frees have been delayed: not those delayed more than [n] frees ago and, once [n]
    frees have been delayed, only up to the last multiple of [n]. *)
Definition candidate (n k j : Z) : bool :=
  if k <? n then true else (k - n <=? j) && (j <? k - k mod n).

(** One free: what is passed to the real free routine (0: nothing), the delayed
    blocks and the number of delayed frees afterwards. *)
Definition next (n max k : Z) (q : list dentry) (b : block) : Z * list dentry * Z :=
  if max <? b_size b then (b_addr b, q, k)
  else if b_size b + total (blocks q) <=? max then
    match find (fun p => fst p =? k - n) q with
    | Some p => (b_addr (snd p), without (k - n) q ++ [(k, b)], k + 1)
    | None => (0, q ++ [(k, b)], k + 1)
    end
  else
    match find (fun p => candidate n k (fst p) && (b_size b <=? b_size (snd p))) q with
    | Some p => (b_addr (snd p), without (fst p) q ++ [(k, b)], k + 1)
    | None => (b_addr b, q, k)
    end.

(** A history of frees: the answers, what is delayed in the end, and the count. *)
Fixpoint history (n max k : Z) (q : list dentry) (bs : list block) : list Z * list dentry * Z :=
  match bs with
  | [] => ([], q, k)
  | b :: bs =>
      let '(r, q, k) := next n max k q b in
      let '(rs, q, k) := history n max k q bs in (r :: rs, q, k)
  end.

(** Every block freed is a real one and lies apart from everything delayed. *)
Fixpoint legal (n max k : Z) (q : list dentry) (bs : list block) : Prop :=
  match bs with
  | [] => True
  | b :: bs => proper b /\ (forall x, In x (blocks q) -> apart b x) /\
      let '(_, q, k) := next n max k q b in legal n max k q bs
  end.

(** The byte limit never forces out a block that is not the oldest once [n] frees
    have been delayed. *)
Fixpoint gentle (n max k : Z) (q : list dentry) (bs : list block) : Prop :=
  match bs with
  | [] => True
  | b :: bs =>
      (k < n \/ max < b_size b \/ b_size b + total (blocks q) <= max \/
       (forall p, In p q -> b_size (snd p) < b_size b) \/
       exists x q', q = (k - n, x) :: q' /\ b_size b <= b_size x) /\
      let '(_, q, k) := next n max k q b in gentle n max k q bs
  end.

(** [x] shares a byte with [st, en). *)
Definition touches (st en : Z) (x : block) : Prop := b_addr x < en /\ st < b_addr x + b_size x.
(** The block without its redzones and the stack of its free. *)
Definition described (rz : Z) (x : block) : Z * Z * Z :=
  let r := if b_rz x then rz else 0 in (b_addr x + r, b_addr x + b_size x - r, b_stack x).
