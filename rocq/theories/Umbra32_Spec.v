(** What a client of 32-bit Umbra may rely on.  The shadow bytes are numbered:
    application address [x] has [num] bytes starting at number [x * num / den];
    a flat map gives the value of each number, and says which 64K blocks of the
    application have shadow. *)
From Verif Require Import Base Umbra32_Model.
Open Scope Z_scope.

(** Shadow bytes per application byte (umbra.h:92-98). *)
Definition num (s : scale) : Z := match s with Up2 => 2 | _ => 1 end.
Definition den (s : scale) : Z := match s with Down8 => 8 | Down4 => 4 | Down2 => 2 | _ => 1 end.

(** Number of the first shadow byte of [x]; shadow bytes per 64K. *)
Definition slot (s : scale) (x : Z) : Z := x * num s / den s.
Definition SLOTS (s : scale) : Z := 65536 * num s / den s.

(** The place of shadow byte [k], when block [i] of the table is at [base i]. *)
Definition place (s : scale) (base : Z -> Z) (k : Z) : Z := base (k / SLOTS s) + k mod SLOTS s.

(** A usable map, and DynamoRIO's allocators: a block in user space, not at the
    very bottom or top, and apart from all those in use. *)
Definition apart (m : umap) (a b : Z) : Prop := a + alloc_size m <= b \/ b + alloc_size m <= a.
Record map_ok (m : umap) : Prop := {
  mo_dflt : 0 <= dflt m <= 255;
  mo_rz : 0 <= o_rz m <= 2 ^ 20 /\ o_rz m mod 256 = 0;
  mo_rzv : 0 <= o_rzv m <= 255;
  mo_alloc : forall l n a, alloc m l n = Some a ->
    SLOTS (sc m) <= a /\ a + alloc_size m < 2 ^ 32 /\ forall r, In r l -> apart m a (r_at r)
}.
(** The allocator refused a request. *)
Definition refused (m : umap) : Prop := exists l n, alloc m l n = None.

(** * Histories *)
Inductive uop :=
| OCreate (shared : bool) (x n v : Z)  (* umbra_create_shadow_memory *)
| ODelete (x n : Z)                    (* umbra_delete_shadow_memory *)
| OSet (x n v : Z)                     (* umbra_shadow_set_range *)
| OWrite (x n : Z) (l : list Z)        (* umbra_write_shadow_memory *)
| ORead (x n : Z)                      (* umbra_read_shadow_memory *)
| OCopy (s d n : Z)                    (* umbra_shadow_copy_range *)
| OFind (x n v : Z)                    (* umbra_value_in_shadow_memory *)
| OReplace (x : Z)                     (* umbra_replace_shared_shadow_memory *)
| OShared (v : Z)                      (* umbra_create_shared_shadow_block *)
| OClear.                              (* umbra_clear_redundant_blocks *)
Inductive answer := ADone | ASize (n : option Z) | ABytes (l : list Z) | AFound (r : option Z) | AAddr (a : option Z)
  | ACount (n : Z).

Definition do_op (m : umap) (st : ustate) (op : uop) : out (ustate * status * answer) :=
  match op with
  | OCreate sh x n v => let! r := umbra_create m st sh x n v in Ret (fst r, snd r, ADone)
  | ODelete x n => let! r := umbra_delete m st x n in Ret (fst r, snd r, ADone)
  | OSet x n v => let! r := umbra_set_range m st x n v in Ret (fst (fst r), snd (fst r), ASize (snd r))
  | OWrite x n l => let! r := umbra_write m st x n (Z.of_nat (length l)) l in
                    Ret (fst (fst r), snd (fst r), ASize (Some (snd r)))
  | ORead x n => let! r := umbra_read m st x n (n * num (sc m) / den (sc m)) in
                 Ret (st, fst r, ABytes (snd r))
  | OCopy s d n => let! r := umbra_copy_range m st s d n in
                   Ret (fst (fst r), snd (fst r), ASize (Some (snd r)))
  | OFind x n v => let! r := umbra_value_in m st x n v in Ret (st, fst r, AFound (snd r))
  | OReplace x => let! r := replace_shared m st x in Ret (fst r, S_ok, AAddr (Some (snd r)))
  | OShared v => let! r := create_shared m st v in
                 Ret (fst (fst r), snd (fst r), AAddr (snd r))
  | OClear => let! r := clear_redundant m st in Ret (fst (fst r), snd (fst r), ACount (snd r))
  end.
Fixpoint do_ops (m : umap) (st : ustate) (ops : list uop)
  : out (ustate * list (status * answer)) :=
  match ops with
  | [] => Ret (st, [])
  | op :: ops' =>
    let! r := do_op m st op in
    let '(st1, s, a) := r in
    let! q := do_ops m st1 ops' in
    Ret (fst q, (s, a) :: snd q)
  end.

(** A legal range: in the address space, whole granules, a size that scales,
    and not ending on the first byte of a block. *)
Record range_ok (s : scale) (x n : Z) : Prop := {
  ro_x : 0 <= x; ro_n : 0 < n; ro_top : x + n <= 2 ^ 32; ro_size : n * num s < 2 ^ 32;
  ro_wx : x mod den s = 0; ro_wn : n mod den s = 0;
  ro_last : (x + n - 1) mod 65536 <> 0 }.
Definition op_ok (m : umap) (op : uop) : Prop :=
  match op with
  | OCreate _ x n v => range_ok (sc m) x n /\ 0 <= v < 255
  | ODelete x n | ORead x n => range_ok (sc m) x n
  | OSet x n v => range_ok (sc m) x n /\ x + n < 2 ^ 32 /\ 0 <= v <= 255
  | OWrite x n l => range_ok (sc m) x n /\ Z.of_nat (length l) = n * num (sc m) / den (sc m) /\
                    forall v, In v l -> 0 <= v < 256
  | OCopy s d n => range_ok (sc m) s n /\ range_ok (sc m) d n /\ s <> d /\
                   ~ (s < d < s + n) /\ (d - s) mod 65536 <> 1
  | OFind x n v => range_ok (sc m) x n /\ 0 <= v <= 255
  | OReplace x => 0 <= x < 2 ^ 32
  | OShared v => 0 <= v <= 255
  | OClear => True
  end.

(** [e]: how far from [x] the range [x, x+n) has shadow without a gap. *)
Definition reach (A : Z -> Prop) (x n e : Z) : Prop :=
  x <= e <= x + n /\ (forall y, x <= y < e -> A (y / 65536)) /\ (e < x + n -> ~ A (e / 65536)).
(** The shadow bytes of [x, y). *)
Definition within (s : scale) (x y k : Z) : Prop := slot s x <= k < slot s y.
Definition updated (s : scale) (V V' : Z -> Z) (x y : Z) (f : Z -> Z) : Prop :=
  forall k, (within s x y k -> V' k = f (k - slot s x)) /\ (~ within s x y k -> V' k = V k).
Definition same {T} (V V' : Z -> T) : Prop := forall k, V' k = V k.
(** The number of shadow bytes dealt with, told on success. *)
Definition sized (r : status * answer) (k : Z) : Prop :=
  exists q, snd r = ASize q /\ (fst r = S_ok -> q = Some k).
Definition ok_iff (st : status) (P : Prop) : Prop := (st = S_ok /\ P) \/ (st = S_param /\ ~ P).

(** What each call does to the values [V] and to the blocks [A] with shadow,
    and what it answers.  A call that meets a block without shadow stops there
    and says so; what precedes it is done. *)
Definition step (m : umap) (A : Z -> Prop) (V : Z -> Z) (op : uop) (r : status * answer)
           (A' : Z -> Prop) (V' : Z -> Z) : Prop :=
  let s := sc m in
  match op with
  | OCreate _ x n v =>
      r = (S_ok, ADone) /\ updated s V V' x (x + n) (fun _ => v) /\
      forall b, A' b <-> A b \/ exists y, x <= y < x + n /\ b = y / 65536
  | ODelete x n =>
      exists e, reach A x n e /\ ok_iff (fst r) (e = x + n) /\ snd r = ADone /\
      updated s V V' x e (fun _ => dflt m) /\ forall b, A' b <-> A b
  | OSet x n v =>
      exists e, reach A x n e /\ ok_iff (fst r) (e = x + n) /\ sized r (slot s (x + n) - slot s x) /\
      updated s V V' x e (fun _ => v) /\ forall b, A' b <-> A b
  | OWrite x n l =>
      exists e, reach A x n e /\ ok_iff (fst r) (e = x + n) /\ sized r (slot s (x + n) - slot s x) /\
      updated s V V' x e (fun i => nth (Z.to_nat i) l 0) /\ forall b, A' b <-> A b
  | ORead x n =>
      exists e l, reach A x n e /\ ok_iff (fst r) (e = x + n) /\ snd r = ABytes l /\
      Z.of_nat (length l) = slot s e - slot s x /\
      (forall i, 0 <= i < slot s e - slot s x -> nth (Z.to_nat i) l 0 = V (slot s x + i)) /\
      same V V' /\ forall b, A' b <-> A b
  | OCopy x d n =>
      exists ex ed p, reach A x n ex /\ reach A d n ed /\ p = Z.min (ex - x) (ed - d) /\
      ok_iff (fst r) (p = n) /\ sized r (slot s (x + n) - slot s x) /\
      updated s V V' d (d + p) (fun i => V (slot s x + i)) /\ forall b, A' b <-> A b
  | OFind x n v =>
      exists e f, reach A x n e /\ snd r = AFound f /\
      match f with
      | Some y => fst r = S_ok /\ exists k, within s x e k /\ V k = v /\
                    (forall j, slot s x <= j < k -> V j <> v) /\ y = k * den s / num s
      | None => ok_iff (fst r) (e = x + n) /\ forall k, within s x e k -> V k <> v
      end /\ same V V' /\ forall b, A' b <-> A b
  | OReplace x =>
      fst r = S_ok /\ same V V' /\ forall b, A' b <-> A b \/ b = x / 65536
  | OShared _ => (fst r = S_ok \/ fst r = S_nomem) /\ same V V' /\ forall b, A' b <-> A b
  | OClear => fst r = (if on_touch m then S_ok else S_param) /\ same V V' /\ forall b, A' b <-> A b
  end.

Inductive history (m : umap) : (Z -> Prop) -> (Z -> Z) -> list uop -> list (status * answer) ->
                               (Z -> Prop) -> (Z -> Z) -> Prop :=
| h_nil (A : Z -> Prop) (V : Z -> Z) : history m A V [] [] A V
| h_cons (A : Z -> Prop) (V : Z -> Z) op r (A1 : Z -> Prop) (V1 : Z -> Z) ops outs
         (A2 : Z -> Prop) (V2 : Z -> Z) :
    step m A V op r A1 V1 -> history m A1 V1 ops outs A2 V2 ->
    history m A V (op :: ops) (r :: outs) A2 V2.

(** At the start: everything shows the default value, and has shadow if and
    only if the map creates it on touch. *)
Definition A0 (m : umap) (b : Z) : Prop := on_touch m = true /\ 0 <= b < 65536.
Definition V0 (m : umap) (_ : Z) : Z := dflt m.

(** * What memory shows *)

(** The block of the table for application block [i]. *)
Definition base (m : umap) (st : ustate) (i : Z) : Z := app_to_shadow m st (i * 65536).

(** A block that application code may write directly, and one it may only
    read; [r_at] is where the allocation starts. *)
Definition block_at (m : umap) (st : ustate) (b : Z) (body : prot) : Prop :=
  exists r, In r (live st) /\ r_at r + rz m = b /\ r_body r = body.

Record shows (m : umap) (st : ustate) (A : Z -> Prop) (V : Z -> Z) : Prop := {
  (* the value of each shadow byte is where all three translations say *)
  sh_val : forall x, 0 <= x < 2 ^ 32 -> forall j, 0 <= j < num (sc m) ->
    smem st (app_to_shadow m st x + j) = V (slot (sc m) x + j);
  sh_x86 : forall x, 0 <= x < 2 ^ 32 -> inline_x86 m st x = app_to_shadow m st x;
  sh_arm : forall x tbl, 0 <= x < 2 ^ 32 -> 0 <= tbl -> tbl + 2 ^ 18 <= 2 ^ 32 -> tbl mod 4 = 0 ->
    inline_arm m st tbl x = app_to_shadow m st x;
  (* the kind of block *)
  sh_info : forall x, 0 <= x < 2 ^ 32 ->
    let i := x / 65536 in
    exists t, get_shadow m st x =
      (app_to_shadow m st x, Info (i * 65536) 65536 (base m st i) (SLOTS (sc m)) t) /\
    match t with
    | NotAlloc => ~ A i /\ block_at m st (base m st i) ReadOnly
    | Shared => A i /\ block_at m st (base m st i) ReadOnly
    | Normal => A i /\ block_at m st (base m st i) ReadWrite /\
                forall j, 0 <= j < 65536 -> j <> i -> base m st j <> base m st i
    | _ => False
    end;
  (* blocks do not meet *)
  sh_apart : forall i j, 0 <= i < 65536 -> 0 <= j < 65536 -> base m st i <> base m st j ->
    base m st i + SLOTS (sc m) <= base m st j \/ base m st j + SLOTS (sc m) <= base m st i
}.

(** Redzones around each block of the table: the fill value, no access, or (for
    read-only blocks) read-only. *)
Definition redzones (m : umap) (st : ustate) : Prop :=
  forall i, 0 <= i < 65536 -> let b := base m st i in
  exists r, In r (live st) /\ r_at r + rz m = b /\
    (faulty m = true -> r_red r = match r_body r with ReadWrite => NoAccess | _ => ReadOnly end) /\
    (faulty m = false -> forall a, (b - rz m <= a < b \/
        b + SLOTS (sc m) <= a < b + SLOTS (sc m) + rz m) -> smem st a = o_rzv m).

(** * States reached *)
Definition run (m : umap) (f : Z -> Z) (ops : list uop) : out (ustate * list (status * answer)) :=
  let! r := map_init m f in do_ops m (fst r) ops.
Definition reachable (m : umap) (st : ustate) : Prop :=
  exists f ops outs, Forall (op_ok m) ops /\ run m f ops = Ret (st, outs).

(** The type told by [umbra_get_shadow_memory] for the block [i]. *)
Definition type_of (m : umap) (st : ustate) (i : Z) : stype := i_type (snd (get_shadow m st (i * 65536))).
(** [a] lies in the block at [b], or in its redzones. *)
Definition around (m : umap) (b a : Z) : Prop := b - rz m <= a < b + SLOTS (sc m) + rz m.
Definition in_body (m : umap) (b a : Z) : bool := (b <=? a) && (a <? b + SLOTS (sc m)).
(** The shadow byte [j] of [x]. *)
Definition byte (m : umap) (st : ustate) (x j : Z) : Z := smem st (app_to_shadow m st x + j).

(** The part of a list that a callback sees which stops when [cb] of its call is
    false. *)
Fixpoint until (cb : nat -> bool) (l : list info) (k : nat) : list info :=
  match l with [] => [] | x :: l' => x :: (if cb k then until cb l' (S k) else []) end.

(** * A concrete allocator: every 4M, upwards, below 2G *)
Definition bump (l : list region) (_ : nat) : option Z :=
  let a := fold_right (fun r a => Z.max (r_at r + 2 ^ 22) a) (2 ^ 22) l in
  if a <? 2 ^ 31 then Some a else None.
