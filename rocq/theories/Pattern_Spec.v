(** What is expected of pattern mode, apart from how it does it. *)
From Verif Require Import Base Pattern_Model.
Local Open Scope Z_scope.

(** The byte of the pattern that belongs at [x]: the low one at even
    addresses. *)
Definition patb (c : cfg) (x : Z) : Z :=
  if Z.even x then pat c mod 256 else pat c / 256 mod 256.

Definition good_cfg (c : cfg) : Prop :=
  0 < pat c < 2 ^ 16 /\ 0 < rz c /\ (4 | rz c).

(** the bytes a chunk takes up, with its redzones *)
Definition extent (c : cfg) (k : chunk) (x : Z) : Prop :=
  base k - rz c <= x < base k + pad k + rz c.
(** the bytes the program may use *)
Definition live_in (k : chunk) (x : Z) : Prop :=
  freed k = false /\ base k <= x < base k + req k.
Definition live (h : list chunk) (x : Z) : Prop := exists k, In k h /\ live_in k x.
(** a reference within one block *)
Definition within (h : list chunk) (a size : Z) : Prop :=
  exists k, In k h /\ freed k = false /\ base k <= a /\ a + size <= base k + req k.

(** [lo, hi) is a stretch of a chunk that the program may not use: what is
    before its block, what is after it, or, once freed, everything. *)
Definition zone (c : cfg) (k : chunk) (lo hi : Z) : Prop :=
  if freed k then lo = base k - rz c /\ hi = base k + pad k + rz c
  else (lo = base k - rz c /\ hi = base k) \/
       (lo = base k + req k /\ hi = base k + pad k + rz c).

(** chunks do not overlap *)
Definition apart (c : cfg) (j k : chunk) : Prop :=
  forall x, extent c j x -> extent c k x -> False.

(** What the allocator and the program may do. *)
Definition allowed (c : cfg) (h : list chunk) (o : op) : Prop :=
  match o with
  | Malloc k => freed k = false /\ 0 <= req k <= pad k /\ (4 | base k) /\ (4 | pad k) /\
                forall j, In j h -> apart c j k
  | Free b => exists k, In k h /\ base k = b /\ freed k = false
  | Reuse b => exists k, In k h /\ base k = b /\ freed k = true
  | Realloc b n => exists k, In k h /\ base k = b /\ freed k = false /\ 0 <= n <= pad k
  | Write a v => True
  | Access refs _ _ => forall a s, In (a, s) refs -> 1 <= s
  end.

Inductive legal (c : cfg) (rd : Z -> bool) (ex : Z -> Z -> bool) : state -> list op -> Prop :=
| legal_nil : forall s, legal c rd ex s []
| legal_cons : forall s o l,
    allowed c (heap s) o -> legal c rd ex (step c rd ex s o) l -> legal c rd ex s (o :: l).

(** Bytes someone has written to, or at which a reference began, since the
    tool last had a reason to put the pattern there. *)
Definition touch (c : cfg) (h : list chunk) (o : op) (t : Z -> Prop) (x : Z) : Prop :=
  match o with
  | Malloc k => t x /\ ~ extent c k x
  | Free b => t x /\ ~ (exists k, In k h /\ base k = b /\ base k <= x < base k + req k)
  | Reuse b => t x
  | Realloc b n =>
      t x /\ ~ (exists k, In k h /\ base k = b /\ base k + n <= x < base k + req k) /\
             ~ (exists k, In k h /\ base k = b /\ req k < n /\ base k + n <= x < base k + pad k + rz c)
  | Write a _ => t x \/ x = a
  | Access refs _ _ => t x \/ exists s, In (x, s) refs
  end.
Fixpoint touched (c : cfg) (rd : Z -> bool) (ex : Z -> Z -> bool) (s : state) (l : list op)
  (t : Z -> Prop) : Z -> Prop :=
  match l with
  | [] => t
  | o :: r => touched c rd ex (step c rd ex s o) r (touch c (heap s) o t)
  end.

Definition start (m : mem) : state := St [] m [].

(** Where a reference has to be for it to be noticed, in the zone [lo, hi). *)
Definition noticed (lo hi a size : Z) (four low : bool) : Prop :=
  lo <= a /\
  if 2 <? size then Z.even a = true /\ a + 4 <= hi
  else if size =? 2 then
    Z.even a = true /\
    if four then a + 4 <= hi \/ (low = false /\ lo + 2 <= a /\ a + 2 <= hi) else a + 2 <= hi
  else
    if four then a + 4 <= hi \/ (low = false /\ Z.odd a = true /\ lo + 2 <= a /\ a + 2 <= hi)
    else a + 2 <= hi.

(** ---- elision ---- *)

(** The values of the registers before each instruction. *)
Definition values_ok (l : list instr) (v : nat -> Z -> Z) : Prop :=
  forall n i r, nth_error l n = Some i -> ~ In r (writes i) -> v (S n) r = v n r.
(** No instruction overwrites the base of its only reference. *)
Definition keeps_base (l : list instr) : Prop :=
  forall i b d, In i l -> refs i = [Simple b d] -> ~ In b (writes i).
(** Whatever stretch of at least the size of a redzone a reference falls in,
    a check that remains looks at an address in it. *)
Definition guarded (rzs : Z) (l : list instr) (v : nat -> Z -> Z) (ks : list (nat * Z * Z)) : Prop :=
  forall n i b d lo hi,
    nth_error l n = Some i -> In (Simple b d) (refs i) ->
    rzs <= hi - lo -> lo <= v n b + d < hi ->
    exists m e, In (m, b, e) ks /\ lo <= v m b + e < hi /\ v m b = v n b.
