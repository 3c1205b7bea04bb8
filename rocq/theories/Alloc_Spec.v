(** The heap as its client sees it: the blocks it was given, computed from its calls
    and the answers alone. *)
From Coq Require Import Permutation.
From Verif Require Import Base Alloc_Model.
Open Scope Z_scope.

(** address, bytes asked for, kind of call *)
Definition block : Type := Z * Z * Z.
Definition ptr (b : block) : Z := fst (fst b).
Definition len (b : block) : Z := snd (fst b).
Definition kindb (b : block) : Z := snd b.
Definition lookup (v : list block) (p : Z) : option block := find (fun b => ptr b =? p) v.
Definition without (v : list block) (p : Z) : list block := filter (fun b => negb (ptr b =? p)) v.
Definition give (v : list block) (p n ty : Z) : list block := if p =? 0 then v else (p, n, ty) :: v.
Definition view_step (c : cfg) (v : list block) (k : call) (a : answer) : list block :=
  match k, a with
  | Malloc n _ _ ty, Ptr p => give v p n ty
  | Free p _, _ => without v p
  | Realloc p n, Ptr q =>
      if p =? 0 then give v q n TYPE_MALLOC
      else if n =? 0 then without v p
      else match lookup v p with
           | Some b =>
               if q =? 0 then v
               else (q, n, if q =? p then kindb b else TYPE_MALLOC) :: without v p
           | None => match pre_us c p with Some _ => give v q n TYPE_MALLOC | None => v end
           end
  | _, _ => v
  end.

(** What is assumed of the kernel: fresh mappings are page-aligned and lie over no region
    in use, and neither do grown ones; the brk stays within 4GB of where it was. *)
Definition apart (r r' : Z * Z) : Prop := snd r <= fst r' \/ snd r' <= fst r.
Definition kernel_ok (o : os) (s : state) : Prop :=
  (forall n b, o_map o n = Some b -> 0 < b /\ b mod 4096 = 0 /\ Forall (fun r => apart (b, b + n) (r_lo r, r_hi r)) (regions s)) /\
  (forall base n, o_grow o base n = true -> n < 2 ^ 32 /\
     forall r, In r (regions s) -> r_lo r <> base -> apart (base, base + n) (r_lo r, r_hi r)) /\
  (forall b a, o_brk o b = true -> List.head (arenas s) = Some a -> b - a_base a < 2 ^ 32 /\
     forall r, In r (regions s) -> r_lo r <> a_base a -> apart (a_base a, b) (r_lo r, r_hi r)).
(** The code gets out of memory exhaustion safely only with nothing in quarantine or in
    the main arena alone ([C11_oom_refuted]). *)
Definition memory_ok (o : os) (s : state) : Prop :=
  length (arenas s) = 1%nat \/ o_map o ARENA_INITIAL_SIZE <> None \/ dfront s = 0.
(** Sizes and alignments the 32-bit arithmetic is good for ([C11_near_4gb_refuted]). *)
Definition in_range (n al : Z) : Prop :=
  2 ^ 32 <= n \/ (al <> 0 /\ IS_POWER_OF_2 al = false) \/ n + al + 2 ^ 19 <= 2 ^ 32.
Definition call_ok (k : call) : Prop :=
  match k with
  | Malloc n al _ _ => 0 <= n /\ 0 <= al /\ in_range n al
  | Realloc _ n => 0 <= n /\ in_range n 0
  | _ => True
  end.
(** [alloc_ops]: redzone sizes that are multiples of 16 *)
Definition config_ok (c : cfg) : Prop :=
  0 <= redzone c <= 65536 /\ redzone c mod 16 = 0 /\ 0 <= delay_frees c /\ 0 <= delay_frees_maxsz c.

(** Histories: calls, and the application's own stores into its blocks.  No block is given
    out on top of one that was there before the tool. *)
Inductive reach (c : cfg) : state -> list block -> Prop :=
| reach_init brk m : 0 < brk -> brk mod 4096 = 0 -> reach c (init c brk m) []
| reach_call s v o k s' a r : reach c s v -> kernel_ok o s -> memory_ok o s -> call_ok k ->
    step c o s k = Ok (s', a, r) -> (forall q, a = Ptr q -> pre_us c q = None) -> reach c s' (view_step c v k a)
| reach_store s v b x y : reach c s v -> In b v -> ptr b <= x < ptr b + len b ->
    reach c (with_mem s (upd (mem s) x y)) v.

(** The quarantine: oldest first, with the size of each chunk. *)
Fixpoint queue_from (n : nat) (s : state) (p : Z) : list (Z * Z) :=
  match n with
  | O => []
  | S n => match hd s p with Some h => (p, h_alloc h) :: queue_from n s (h_nxt h) | None => [] end
  end.
Definition quarantine (s : state) : list (Z * Z) := queue_from (Z.to_nat (dchunks s)) s (dfront s).
Definition total (q : list (Z * Z)) : Z := fold_right Z.add 0 (map snd q).
Definition within (c : cfg) (q : list (Z * Z)) : Prop :=
  q = [] \/ (Z.of_nat (length q) < delay_frees c /\ total q < delay_frees_maxsz c).
(** the longest end of [q] that is within the limits *)
Definition newest (c : cfg) (q q' : list (Z * Z)) : Prop :=
  exists k, q' = skipn k q /\ within c q' /\ forall j, (j < k)%nat -> ~ within c (skipn j q).
(** the block at [p] has a mapping of its own *)
Definition mapped (s : state) (p : Z) : bool := match hd s p with Some h => h_mmap h | None => false end.
Definition capacity (s : state) (p : Z) : Z := match hd s p with Some h => h_alloc h | None => 0 end.

(** *** what calls do *)
(** Blocks that stay keep their contents, as far as they stay. *)
Definition kept (v v' : list block) (s s' : state) : Prop :=
  forall b b' x, In b v -> In b' v' -> ptr b = ptr b' -> ptr b <= x < ptr b + Z.min (len b) (len b') -> mem s' x = mem s x.
Definition copied (s s' : state) (p q n : Z) : Prop :=
  forall i, 0 <= i < n -> mem s' (q + i) = mem s (p + i).
(** The quarantine stays; only without memory for an arena are its oldest chunks taken. *)
Definition same_queue (o : os) (s s' : state) : Prop :=
  exists k, quarantine s' = skipn k (quarantine s) /\ (k <> 0%nat -> o_map o ARENA_INITIAL_SIZE = None).
Definition queue_free (c : cfg) (s s' : state) (p : Z) : Prop :=
  if mapped s p then quarantine s' = quarantine s
  else newest c (quarantine s ++ [(p, capacity s p)]) (quarantine s').
(** reasons to answer NULL *)
Definition refuse (o : os) (n al : Z) : Prop :=
  2 ^ 32 <= n \/ (al <> 0 /\ IS_POWER_OF_2 al = false) \/ exists m, o_map o m = None.
(** kinds 0 are unknown *)
Definition mismatch (b : block) (ty : Z) : list report :=
  if negb (kindb b =? 0) && negb (ty =? 0) && negb (kindb b =? ty) then [Mismatch (ptr b) (kindb b) ty] else [].
(** Reports for what is no block: none for what was there before the tool; else
    "invalid", after a mismatch with a block one word off (delete of an array and the
    like). *)
Definition bad_report (c : cfg) (v : list block) (p ty : Z) : list report :=
  match pre_us c p with
  | Some _ => []
  | None => match lookup v (p - 8), lookup v (p + 8) with
            | Some b, _ | None, Some b => mismatch b ty
            | None, None => []
            end ++ [Invalid p]
  end.
