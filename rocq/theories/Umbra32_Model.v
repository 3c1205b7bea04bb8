(** Model of umbra/umbra_32.c: the shadow table of 32-bit Umbra, and of the
    exported entry points of umbra/umbra.c that reach it.
    Simplified: one map and one thread (the map lock is not modelled); values
    are one byte wide ([value_size] is 1 everywhere: the entry points refuse
    or assert anything else); the debug-build assertions are left out; the
    shadow table itself is a function from index to entry. *)
From Verif Require Import Base.
Open Scope Z_scope.

Definition w32 (x : Z) : Z := x mod 2 ^ 32.

(** Outcomes: [Bad] = an access to memory that is not there or not permitted,
    or freeing what is not allocated; [Stuck] = the model's loop bound was too
    small; [Dead] = the process ends because no memory could be allocated. *)
Inductive out (A : Type) := Ret (a : A) | Bad | Stuck | Dead.
Arguments Ret {A} a.
Arguments Bad {A}.
Arguments Stuck {A}.
Arguments Dead {A}.
Definition obind {A B} (x : out A) (f : A -> out B) : out B :=
  match x with Ret a => f a | Bad => Bad | Stuck => Stuck | Dead => Dead end.
Notation "'let!' x := e 'in' k" := (obind e (fun x => k))
  (at level 200, x pattern, right associativity).

(** umbra.h:92-98 [umbra_map_scale_t]; umbra.c:150-167: the shifts. *)
Inductive scale := Down8 | Down4 | Down2 | Same1 | Up2.
Definition shift (s : scale) : Z :=
  match s with Down8 => 3 | Down4 => 2 | Down2 => 1 | Same1 => 0 | Up2 => 1 end.
(** umbra.h:101-102. *)
Definition is_up (s : scale) : bool := match s with Up2 => true | _ => false end.
Definition is_down (s : scale) : bool := match s with Same1 | Up2 => false | _ => true end.

(** umbra.c:51-59 [umbra_map_scale_app_to_shadow]. *)
Definition to_shadow (s : scale) (v : Z) : Z :=
  if is_down s then Z.shiftr v (shift s)
  else if is_up s then w32 (Z.shiftl v (shift s)) else v.
(** umbra.c:61-69 [umbra_map_scale_shadow_to_app]. *)
Definition to_app (s : scale) (v : Z) : Z :=
  if is_down s then w32 (Z.shiftl v (shift s))
  else if is_up s then Z.shiftr v (shift s) else v.

(** The memory that DynamoRIO's allocators handed out for shadow blocks: where,
    from which allocator ([global_alloc] or [nonheap_alloc]), and the
    protection of the two redzones and of the block between them.  All have
    size [shadow_block_alloc_size]. *)
Inductive heap := Heap | Pages.
Inductive prot := NoAccess | ReadOnly | ReadWrite.
Record region := Rg { r_at : Z; r_heap : heap; r_red : prot; r_body : prot }.

(** umbra.h:212-278 [umbra_map_options_t]; [alloc] stands for DynamoRIO's
    allocators: the address of the next block, given those in use and the
    number of allocations made before ([None] = out of memory). *)
Record umap := UMap {
  sc : scale; on_touch : bool; dflt : Z;
  o_rz : Z; o_rzv : Z; faulty : bool;
  alloc : list region -> nat -> option Z }.

(** umbra_32.c:585-586: a faulty redzone is one page. *)
Definition PAGE : Z := 4096.
Definition rz (m : umap) : Z := if faulty m then PAGE else o_rz m.

(** umbra_32.c:61-69. *)
Definition APP_BLOCK_BITS : Z := 16.
Definition APP_BLOCK_SIZE : Z := 2 ^ 16.
Definition ENTRIES : Z := 2 ^ 16.
Definition table_offset (x : Z) : Z := Z.land x (APP_BLOCK_SIZE - 1).
Definition table_index (x : Z) : Z := Z.shiftr x APP_BLOCK_BITS.
Definition table_app_base (i : Z) : Z := w32 (Z.shiftl i APP_BLOCK_BITS).

(** umbra_32.c:598-601. *)
Definition sh_bs (m : umap) : Z := to_shadow (sc m) APP_BLOCK_SIZE.
Definition alloc_size (m : umap) : Z := sh_bs m + 2 * rz m.

(** The map (umbra_private.h:51-76): table, special blocks with their values
    in order of creation, start of the default block; the shadow memory, the
    blocks in use and the number of allocations. *)
Record ustate := St {
  table : Z -> Z; specials : list (Z * Z); dblock : Z;
  smem : Z -> Z; live : list region; tick : nat }.
Definition with_table (st : ustate) (t : Z -> Z) : ustate :=
  St t (specials st) (dblock st) (smem st) (live st) (tick st).
Definition with_specials (st : ustate) (l : list (Z * Z)) : ustate :=
  St (table st) l (dblock st) (smem st) (live st) (tick st).
Definition with_dblock (st : ustate) (b : Z) : ustate :=
  St (table st) (specials st) b (smem st) (live st) (tick st).
Definition with_smem (st : ustate) (f : Z -> Z) : ustate :=
  St (table st) (specials st) (dblock st) f (live st) (tick st).
Definition with_live (st : ustate) (l : list region) : ustate :=
  St (table st) (specials st) (dblock st) (smem st) l (tick st).

(** * Memory *)

Definition grants (write : bool) (p : prot) : bool :=
  match p with NoAccess => false | ReadOnly => negb write | ReadWrite => true end.

(** Is [a, a+n) inside the allocation [r] with the needed permissions? *)
Definition inside (m : umap) (write : bool) (a n : Z) (r : region) : bool :=
  let b := r_at r + rz m in
  let e := b + sh_bs m in
  (r_at r <=? a) && (a + n <=? r_at r + alloc_size m) &&
  (((b <=? a) && (a + n <=? e)) || grants write (r_red r)) &&
  ((a + n <=? b) || (e <=? a) || grants write (r_body r)).
Definition can (m : umap) (st : ustate) (write : bool) (a n : Z) : bool :=
  (n <=? 0) || existsb (inside m write a n) (live st).

(** [memset]. *)
Definition m_set (m : umap) (st : ustate) (a v n : Z) : out ustate :=
  if can m st true a n then
    Ret (with_smem st (fun x => if (a <=? x) && (x <? a + n) then v mod 256 else smem st x))
  else Bad.
(** [memcpy] out of the shadow memory. *)
Definition m_read (m : umap) (st : ustate) (a n : Z) : out (list Z) :=
  if can m st false a n then
    Ret (map (fun i => smem st (a + Z.of_nat i)) (seq 0 (Z.to_nat n)))
  else Bad.
(** The source of [memmove]: the client's buffer or a place in the shadow
    memory (umbra_32.c:852-856). *)
Inductive buf := Bytes (l : list Z) | At (a : Z).
Definition fetch (m : umap) (st : ustate) (b : buf) (off n : Z) : out (Z -> Z) :=
  match b with
  | Bytes l => if (n <=? 0) || (off + n <=? Z.of_nat (length l))
               then Ret (fun i => nth (Z.to_nat (off + i)) l 0) else Bad
  | At a => if can m st false (a + off) n then Ret (fun i => smem st (a + off + i)) else Bad
  end.
Definition m_move (m : umap) (st : ustate) (a : Z) (b : buf) (off n : Z) : out ustate :=
  let! f := fetch m st b off n in
  if can m st true a n then
    Ret (with_smem st (fun x => if (a <=? x) && (x <? a + n) then f (x - a) else smem st x))
  else Bad.
(** [memchr]: the value is converted to a byte. *)
Fixpoint chr_loop (n : nat) (f : Z -> Z) (a v : Z) : option Z :=
  match n with
  | O => None
  | S n' => if f a =? v then Some a else chr_loop n' f (a + 1) v
  end.
Definition m_chr (m : umap) (st : ustate) (a v n : Z) : out (option Z) :=
  if can m st false a n then Ret (chr_loop (Z.to_nat n) (smem st) a (v mod 256)) else Bad.

(** [global_alloc] and [nonheap_alloc] of one block; what a new block holds is
    whatever [smem] says. *)
Definition new_region (m : umap) (st : ustate) (h : heap) : out (ustate * Z) :=
  match alloc m (live st) (tick st) with
  | None => Dead
  | Some a => Ret (St (table st) (specials st) (dblock st) (smem st)
                      (Rg a h ReadWrite ReadWrite :: live st) (S (tick st)), a)
  end.
(** [global_free] and [nonheap_free]. *)
Definition is_heap (h k : heap) : bool :=
  match h, k with Heap, Heap | Pages, Pages => true | _, _ => false end.
Fixpoint drop (a : Z) (h : heap) (l : list region) : out (list region) :=
  match l with
  | [] => Bad
  | r :: l' => if r_at r =? a then if is_heap (r_heap r) h then Ret l' else Bad
               else let! l'' := drop a h l' in Ret (r :: l'')
  end.
Definition free_region (st : ustate) (a : Z) (h : heap) : out ustate :=
  let! l := drop a h (live st) in Ret (with_live st l).

(** [dr_memory_protect] of both redzones, or of the whole allocation. *)
Definition protect_red (st : ustate) (a : Z) (p : prot) : ustate :=
  with_live st (map (fun r => if r_at r =? a then Rg a (r_heap r) p (r_body r) else r) (live st)).
Definition protect_all (st : ustate) (a : Z) (p : prot) : ustate :=
  with_live st (map (fun r => if r_at r =? a then Rg a (r_heap r) p p else r) (live st)).

(** * The table *)

(** umbra_32.c:75-80 [shadow_table_get_block_offset]. *)
Definition block_offset (m : umap) (x : Z) : Z := to_shadow (sc m) (table_offset x).

(** umbra_32.c:95-130 [shadow_table_init_redzone]. *)
Definition init_redzone (m : umap) (st : ustate) (a : Z) : out (ustate * Z) :=
  if rz m =? 0 then Ret (st, a)
  else if faulty m then Ret (protect_red st a NoAccess, a + rz m)
  else
    let! st1 := m_set m st a (o_rzv m) (rz m) in
    let! st2 := m_set m st1 (a + rz m + sh_bs m) (o_rzv m) (rz m) in
    Ret (st2, a + rz m).

(** umbra_32.c:132-152 [shadow_table_create_block]. *)
Definition block_heap (m : umap) : heap := if faulty m then Pages else Heap.
Definition create_block (m : umap) (st : ustate) : out (ustate * Z) :=
  let! r := new_region m st (block_heap m) in
  let '(st, a) := r in init_redzone m st a.

(** umbra_32.c:82-93 [shadow_table_delete_block]. *)
Definition delete_block (m : umap) (st : ustate) (b : Z) : out ustate :=
  free_region st (b - rz m) (block_heap m).

(** umbra_32.c:181-210 [shadow_table_create_special_block_helper]. *)
Definition special_helper (m : umap) (st : ustate) (v : Z) : out (ustate * Z) :=
  let! r := new_region m st Pages in
  let '(st, a) := r in
  let! r := init_redzone m st a in
  let '(st, b) := r in
  let! st := m_set m st b v (sh_bs m) in
  Ret (protect_all st (b - rz m) ReadOnly, b).

(** umbra_32.c:221-238 [shadow_table_lookup_special_block]. *)
Fixpoint lookup (v : Z) (l : list (Z * Z)) : option Z :=
  match l with
  | [] => None
  | (b, w) :: l' => if w =? v then Some b else lookup v l'
  end.

(** umbra_private.h:42; umbra_32.c:240-262 [shadow_table_create_special_block]. *)
Definition MAX_SPECIAL : nat := 8.
Definition create_special (m : umap) (st : ustate) (v : Z) : out (ustate * option Z) :=
  match lookup v (specials st) with
  | Some b => Ret (st, Some b)
  | None =>
    if (MAX_SPECIAL <=? length (specials st))%nat then Ret (st, None)
    else
      let! r := special_helper m st v in
      let '(st, b) := r in
      Ret (with_specials st (specials st ++ [(b, v)]), Some b)
  end.

(** umbra_32.c:264-274 [shadow_table_set_block]: the displacement. *)
Definition set_block (m : umap) (st : ustate) (i b : Z) : ustate :=
  with_table st (fun j => if j =? i then w32 (b - to_shadow (sc m) (table_app_base i))
                          else table st j).
(** umbra_32.c:276-282 [shadow_table_get_block]. *)
Definition get_block (m : umap) (st : ustate) (i : Z) : Z :=
  w32 (table st i + to_shadow (sc m) (table_app_base i)).
(** umbra_32.c:284-289 [shadow_table_app_to_shadow]. *)
Definition app_to_shadow (m : umap) (st : ustate) (x : Z) : Z :=
  w32 (get_block m st (table_index x) + block_offset m x).

(** umbra_32.c:304-341 [shadow_table_insert_app_to_shadow_arch] (X86): what the
    emitted [mov; shr; shr/shl; add] compute. *)
Definition inline_x86 (m : umap) (st : ustate) (x : Z) : Z :=
  let idx := Z.shiftr x APP_BLOCK_BITS in
  let a := if is_down (sc m) then Z.shiftr x (shift (sc m))
           else if is_up (sc m) then w32 (Z.shiftl x (shift (sc m))) else x in
  w32 (a + table st idx).
(** umbra_32.c:349-401 (ARM): the table lies at [tbl]; entry [i] is the word at
    [tbl + 4 * i]. *)
Definition inline_arm (m : umap) (st : ustate) (tbl x : Z) : Z :=
  let p := w32 (tbl + Z.shiftr x 14) in
  let p := Z.land p (2 ^ 32 - 1 - 3) in
  let e := table st ((p - tbl) / 4) in
  if is_down (sc m) then w32 (e + Z.shiftr x (shift (sc m)))
  else if is_up (sc m) then w32 (e + w32 (Z.shiftl x (shift (sc m))))
  else w32 (x + e).

(** umbra_32.c:406-425 [shadow_table_is_in_default_block]: also says whether in
    the redzone. *)
Definition is_in_default (m : umap) (st : ustate) (a : Z) : bool :=
  (w32 (dblock st - rz m) <=? a) && (a <? w32 (dblock st + sh_bs m + rz m)).
Definition outside_body (m : umap) (b a : Z) : bool :=
  negb (rz m =? 0) && ((a <? b) || (w32 (b + sh_bs m) <=? a)).

(** umbra_32.c:427-432. *)
Definition use_default (m : umap) (st : ustate) (x : Z) : bool :=
  is_in_default m st (app_to_shadow m st x).

(** umbra_32.c:434-466 [shadow_table_is_in_special_block]: start and value of
    the block. *)
Definition in_block (m : umap) (b a : Z) : bool :=
  (w32 (b - rz m) <=? a) && (a <? w32 (b + sh_bs m + rz m)).
Fixpoint find_special (m : umap) (a : Z) (l : list (Z * Z)) : option (Z * Z) :=
  match l with
  | [] => None
  | (b, v) :: l' => if in_block m b a then Some (b, v) else find_special m a l'
  end.
Definition is_in_special (m : umap) (st : ustate) (a : Z) : option (Z * Z) :=
  find_special m a (specials st).
(** umbra_32.c:468-475. *)
Definition use_special (m : umap) (st : ustate) (x : Z) : option (Z * Z) :=
  is_in_special m st (app_to_shadow m st x).
(** umbra_32.c:477-483. *)
Definition is_in_normal (m : umap) (st : ustate) (a : Z) : bool :=
  negb (is_in_default m st a) &&
  match is_in_special m st a with None => true | Some _ => false end.

(** umbra_32.c:485-504 [shadow_table_replace_block]. *)
Definition replace_block (m : umap) (st : ustate) (x : Z) : out ustate :=
  let go v :=
    let! r := create_block m st in
    let '(st, b) := r in
    let! st := m_set m st b v (sh_bs m) in
    Ret (set_block m st (table_index x) b) in
  if use_default m st x then go (dflt m)
  else match use_special m st x with
       | Some (_, v) => go v
       | None => Ret st
       end.

(** * Start and end of a map *)

Inductive status := S_ok | S_param | S_badsize | S_notimpl | S_feature | S_nomem.

(** umbra_32.c:506-529 [shadow_table_init], from arbitrary memory; the loop
    over all entries sets each to the same block. *)
Definition fresh (f : Z -> Z) : ustate := St (fun _ => 0) [] 0 f [] 0.
Definition all_to (m : umap) (st : ustate) (b : Z) : ustate :=
  with_table st (fun i => w32 (b - to_shadow (sc m) (table_app_base i))).
Definition table_init (m : umap) (f : Z -> Z) : out ustate :=
  if negb (on_touch m) then
    let! r := special_helper m (fresh f) (dflt m) in
    let '(st, b) := r in
    Ret (all_to m (with_dblock st b) b)
  else
    let! r := create_special m (fresh f) (dflt m) in
    let '(st, b) := r in
    Ret (with_dblock (all_to m st (match b with Some b => b | None => 0 end)) 0).

(** umbra.c:125-129 and umbra_32.c:572-610: the checks, then the table. *)
Definition map_init (m : umap) (f : Z -> Z) : out (ustate * status) :=
  if 255 <? dflt m then Ret (fresh f, S_notimpl)
  else if negb (o_rz m =? 0) && (255 <? o_rzv m) then Ret (fresh f, S_notimpl)
  else if negb (o_rz m =? 0) && negb (o_rz m mod 256 =? 0) then Ret (fresh f, S_param)
  else let! st := table_init m f in Ret (st, S_ok).

(** umbra_32.c:531-555 [shadow_table_exit]. *)
Fixpoint exit_blocks (n : nat) (i : Z) (m : umap) (st : ustate) : out ustate :=
  match n with
  | O => Ret st
  | S n' =>
    let b := get_block m st i in
    let! st := if is_in_normal m st b then delete_block m st b else Ret st in
    exit_blocks n' (i + 1) m st
  end.
Fixpoint exit_specials (m : umap) (l : list (Z * Z)) (st : ustate) : out ustate :=
  match l with
  | [] => Ret st
  | (b, _) :: l' =>
    let! st := if b =? 0 then Ret st else free_region st (b - rz m) Pages in
    exit_specials m l' st
  end.
Definition table_exit (m : umap) (st : ustate) : out ustate :=
  let! st := exit_blocks (Z.to_nat ENTRIES) 0 m st in
  let! st := exit_specials m (specials st) st in
  if on_touch m then Ret st else free_region st (dblock st - rz m) Pages.

(** * The range functions *)

(** utils.h:620 [POINTER_OVERFLOW_ON_ADD]. *)
Definition add_ovf (a b : Z) : bool := w32 (a + b) <? a.
Definition align_block (x : Z) : Z := Z.land x (2 ^ 32 - 1 - (APP_BLOCK_SIZE - 1)).

(** umbra_private.h:105-122 [APP_RANGE_LOOP]: [body blk start iter_size] runs
    for each block; its second result leaves the loop. *)
Fixpoint range_loop {A B} (n : nat) (addr src_end blk : Z)
         (body : Z -> Z -> Z -> A -> out (A * option B)) (a : A) : out (A * option B) :=
  match n with
  | O => Stuck
  | S n' =>
    if blk <? src_end then
      let blk_end := w32 (blk + (APP_BLOCK_SIZE - 1)) in
      let start := if blk <? addr then addr else blk in
      let end_ := if src_end <? blk_end then src_end else blk_end in
      let! r := body blk start (w32 (end_ - start + 1)) a in
      match r with
      | (a', None) =>
        range_loop n' addr src_end
                   (if add_ovf blk_end 1 then src_end else w32 (blk_end + 1)) body a'
      | (a', Some b) => Ret (a', Some b)
      end
    else Ret (a, None)
  end.
Definition app_range_loop {A B} (addr size : Z)
           (body : Z -> Z -> Z -> A -> out (A * option B)) (a : A) : out (A * option B) :=
  let src_end := w32 (addr + w32 (size - 1)) in
  let blk := align_block addr in
  range_loop (S (S (Z.to_nat ((src_end - blk) / APP_BLOCK_SIZE)))) addr src_end blk body a.
Definition stop_status {A} (r : A * option status) : A * status :=
  (fst r, match snd r with None => S_ok | Some s => s end).

(** umbra_32.c:771-811 [umbra_shadow_set_range_arch]; also the shadow bytes
    set ([None]: [*shadow_size] is left alone). *)
Definition set_range (m : umap) (st : ustate) (addr size v : Z)
  : out (ustate * status * option Z) :=
  if 255 <? v then Ret (st, S_notimpl, Some 0)
  else if add_ovf addr (w32 (size - 1)) then Ret (st, S_badsize, None)
  else
    let! r := app_range_loop addr size
      (fun blk start iter a =>
         let '(st, tot) := a in
         let s := app_to_shadow m st start in
         if is_in_default m st s then Ret ((st, tot), Some S_param)
         else
           let n := to_shadow (sc m) iter in
           let! r := match is_in_special m st s with
                     | Some _ => let! st := replace_block m st blk in
                                 Ret (st, app_to_shadow m st start)
                     | None => Ret (st, s)
                     end in
           let '(st, s) := r in
           let! st := m_set m st s v n in
           Ret ((st, w32 (tot + n)), None)) (st, 0) in
    let '(st, tot, o) := r in
    Ret (match o with None => (st, S_ok, Some tot) | Some e => (st, e, None) end).

(** umbra_32.c:618-681 [umbra_create_shadow_memory_arch]; [shared] = the flag
    UMBRA_CREATE_SHADOW_SHARED_READONLY. *)
Definition create (m : umap) (st : ustate) (shared : bool) (addr size v : Z)
  : out (ustate * status) :=
  if 255 <=? v then Ret (st, S_feature)
  else if add_ovf addr (w32 (size - 1)) then Ret (st, S_badsize)
  else
    let src_end := w32 (addr + w32 (size - 1)) in
    let! r := app_range_loop addr size
      (fun blk start iter st =>
         let set st :=
           let! r := set_range m st start iter v in
           let '(st, e, _) := r in
           Ret (st, match e with S_ok => None | _ => Some e end) in
         if use_default m st blk then
           let! r := if shared && (((addr <=? blk) &&
                                    (w32 (blk + (APP_BLOCK_SIZE - 1)) <=? src_end)) ||
                                   (dflt m =? v))
                     then create_special m st v else Ret (st, None) in
           match r with
           | (st, Some b) => Ret (set_block m st (table_index blk) b, None)
           | (st, None) => let! st := replace_block m st blk in set st
           end
         else set st) st in
    Ret (stop_status r).

(** umbra_32.c:683-694 [umbra_delete_shadow_memory_arch]. *)
Definition delete (m : umap) (st : ustate) (addr size : Z) : out (ustate * status) :=
  let! r := set_range m st addr size (dflt m) in Ret (fst r).

(** umbra_32.c:696-729 [umbra_read_shadow_memory_arch]: [cap] is the incoming
    [*shadow_size]; the bytes stored into the buffer. *)
Definition read (m : umap) (st : ustate) (addr size cap : Z) : out (status * list Z) :=
  if cap <? to_shadow (sc m) size then Ret (S_badsize, [])
  else if add_ovf addr (w32 (size - 1)) then Ret (S_badsize, [])
  else
    let! r := app_range_loop addr size
      (fun blk start iter acc =>
         let s := app_to_shadow m st start in
         if is_in_default m st s then Ret (acc, Some S_param)
         else
           let! l := m_read m st s (to_shadow (sc m) iter) in
           Ret (acc ++ l, None)) [] in
    Ret (match snd r with None => S_ok | Some e => e end, fst r).

(** umbra_32.c:731-769 [umbra_write_shadow_memory_arch]; also the outgoing
    [*shadow_size]. *)
Definition write (m : umap) (st : ustate) (addr size cap : Z) (b : buf)
  : out (ustate * status * Z) :=
  if cap <? to_shadow (sc m) size then Ret (st, S_badsize, 0)
  else if add_ovf addr (w32 (size - 1)) then Ret (st, S_badsize, cap)
  else
    let! r := app_range_loop addr size
      (fun blk start iter a =>
         let '(st, tot) := a in
         let s := app_to_shadow m st start in
         if is_in_default m st s then Ret ((st, tot), Some S_param)
         else
           let! r := match is_in_special m st s with
                     | Some _ => let! st := replace_block m st blk in
                                 Ret (st, app_to_shadow m st start)
                     | None => Ret (st, s)
                     end in
           let '(st, s) := r in
           let n := to_shadow (sc m) iter in
           let! st := m_move m st s b tot n in
           Ret ((st, tot + n), None)) (st, 0) in
    let '(st, tot, o) := r in
    Ret (match o with None => (st, S_ok, tot) | Some e => (st, e, cap) end).

(** umbra_32.c:813-881 [umbra_shadow_copy_range_arch].  Whether the tail could
    be read is only asserted. *)
Definition copy (m : umap) (st : ustate) (src dst size : Z) : out (ustate * status * Z) :=
  if add_ovf src (w32 (size - 1)) || add_ovf dst (w32 (size - 1))
  then Ret (st, S_badsize, 0)
  else
    let overlap := (src <? dst) && (dst <=? w32 (src + w32 (size - 1))) in
    let tail := if overlap then w32 (w32 (src + w32 (size - 1)) - dst + 1) else 0 in
    let! saved := if overlap then
                    let! r := read m st dst tail (to_shadow (sc m) tail) in
                    (* the buffer has [tail] bytes *)
                    if Z.of_nat (length (snd r)) <=? tail then Ret (snd r) else Bad
                  else Ret [] in
    let sz := if overlap then w32 (dst - src) else size in
    let! r := app_range_loop src sz
      (fun blk start iter a =>
         let '(st, d, tot) := a in
         let s := app_to_shadow m st start in
         if is_in_default m st s then Ret ((st, d, tot), Some S_param)
         else
           let! w := write m st d iter (to_shadow (sc m) iter) (At s) in
           let '(st, e, k) := w in
           Ret (match e with
                | S_ok => ((st, w32 (d + iter), w32 (tot + k)), None)
                | _ => ((st, d, w32 (tot + k)), Some e)
                end)) (st, dst, 0) in
    let '(st, d, tot, o) := r in
    match o with
    | Some e => Ret (st, e, tot)
    | None =>
      if overlap then
        let! w := write m st (w32 (d + w32 (d - src))) tail (to_shadow (sc m) tail)
                        (Bytes saved) in
        let '(st, e, k) := w in Ret (st, e, w32 (tot + k))
      else Ret (st, S_ok, tot)
    end.

(** umbra_32.c:883-928 [umbra_value_in_shadow_memory_arch]: the address found. *)
Definition value_in (m : umap) (st : ustate) (addr size v : Z) : out (status * option Z) :=
  if 65535 <? v then Ret (S_notimpl, None)
  else if add_ovf addr (w32 (size - 1)) then Ret (S_badsize, None)
  else
    let! r := app_range_loop addr size
      (fun blk start iter (_ : unit) =>
         if use_default m st blk then Ret (tt, Some (S_param, None))
         else match use_special m st blk with
              | Some (_, w) => Ret (tt, if w =? v then Some (S_ok, Some start) else None)
              | None =>
                let s := app_to_shadow m st start in
                let! f := m_chr m st s v (to_shadow (sc m) iter) in
                Ret (tt, match f with
                         | Some a => Some (S_ok, Some (w32 (start + to_app (sc m) (a - s))))
                         | None => None
                         end)
              end) tt in
    Ret (match snd r with None => (S_ok, None) | Some x => x end).

(** * Queries *)

(** umbra.h:145-167 [umbra_shadow_memory_type_t]; the redzone bit apart. *)
Inductive stype := Unknown | NotShadow | Normal | Shared | NotAlloc.
Record info := Info { i_app : Z; i_app_size : Z; i_shadow : Z; i_shadow_size : Z; i_type : stype }.

(** umbra_32.c:947-971 [umbra_iterate_shadow_memory_arch]: the blocks given to
    the callback, whose k-th call returns [cb k]. *)
Fixpoint iterate_loop (n : nat) (i : Z) (m : umap) (st : ustate) (cb : nat -> bool) (k : nat)
  : list info :=
  match n with
  | O => []
  | S n' =>
    let x := table_app_base i in
    let s := app_to_shadow m st x in
    if is_in_default m st s then iterate_loop n' (i + 1) m st cb k
    else
      let t := match is_in_special m st s with Some _ => Shared | None => Normal end in
      Info x APP_BLOCK_SIZE s (sh_bs m) t ::
        (if cb k then iterate_loop n' (i + 1) m st cb (S k) else [])
  end.
Definition iterate (m : umap) (st : ustate) (cb : nat -> bool) : list info :=
  iterate_loop (Z.to_nat ENTRIES) 0 m st cb 0.

(** umbra_32.c:973-988 [umbra_shadow_memory_is_shared_arch]. *)
Definition is_shared (m : umap) (st : ustate) (a : Z) : stype * bool :=
  match is_in_special m st a with
  | Some (b, _) => (Shared, outside_body m b a)
  | None => (Unknown, false)
  end.

(** umbra_32.c:990-1026 [umbra_get_shadow_memory_type_arch]: the type and the
    redzone bit; [is_app] = [umbra_address_is_app_memory]. *)
Fixpoint walk_table (n : nat) (i : Z) (m : umap) (st : ustate) (a : Z) : stype * bool :=
  match n with
  | O => (NotShadow, false)
  | S n' =>
    let b := get_block m st i in
    let e := w32 (b + sh_bs m) in
    if (w32 (b - rz m) <=? a) && (a <? w32 (e + rz m))
    then (Normal, (a <? b) || (e <=? a))
    else walk_table n' (i + 1) m st a
  end.
Definition get_type (m : umap) (st : ustate) (is_app : bool) (a : Z) : stype * bool :=
  let t := is_shared m st a in
  if is_in_default m st a then (NotAlloc, outside_body m (dblock st) a)
  else match fst t with
       | Shared => t
       | _ => if is_app then (Unknown, false) else walk_table (Z.to_nat ENTRIES) 0 m st a
       end.

(** umbra_32.c:1028-1056 [umbra_get_shadow_memory_arch]. *)
Definition get_shadow (m : umap) (st : ustate) (x : Z) : Z * info :=
  let b := align_block x in
  let t := if use_default m st x then NotAlloc
           else match use_special m st x with Some _ => Shared | None => Normal end in
  (app_to_shadow m st x, Info b APP_BLOCK_SIZE (app_to_shadow m st b) (sh_bs m) t).

(** umbra_32.c:1067-1075 [umbra_replace_shared_shadow_memory_arch]. *)
Definition replace_shared (m : umap) (st : ustate) (x : Z) : out (ustate * Z) :=
  let! st := replace_block m st x in Ret (st, app_to_shadow m st x).

(** umbra_32.c:1077-1087 [umbra_create_shared_shadow_block_arch]. *)
Definition create_shared (m : umap) (st : ustate) (v : Z) : out (ustate * status * option Z) :=
  let! r := create_special m st v in
  Ret (fst r, match snd r with None => S_nomem | Some _ => S_ok end, snd r).
(** umbra_32.c:1089-1104 [umbra_get_shared_shadow_block_arch]: [*block] on
    return, [before] on entry. *)
Definition get_shared (st : ustate) (v before : Z) : status * Z :=
  match lookup v (specials st) with Some b => (S_ok, b) | None => (S_ok, before) end.

(** umbra_32.c:1113-1162 [umbra_clear_redundant_blocks]. *)
Fixpoint all_default (n : nat) (f : Z -> Z) (a v : Z) : bool :=
  match n with
  | O => true
  | S n' => if f a =? v then all_default n' f (a + 1) v else false
  end.
Fixpoint clear_loop (n : nat) (i : Z) (m : umap) (st : ustate) (count : Z) : out (ustate * Z) :=
  match n with
  | O => Ret (st, count)
  | S n' =>
    let b := get_block m st i in
    if negb (is_in_normal m st b) then clear_loop n' (i + 1) m st count
    else if negb (can m st false b (sh_bs m)) then Bad
    else if negb (all_default (Z.to_nat (sh_bs m)) (smem st) b (dflt m mod 256))
    then clear_loop n' (i + 1) m st count
    else
      match lookup (dflt m) (specials st) with
      | None => Bad
      | Some s =>
        let! st := delete_block m st b in
        clear_loop n' (i + 1) m (set_block m st i s) (count + 1)
      end
  end.
Definition clear_redundant (m : umap) (st : ustate) : out (ustate * status * Z) :=
  if negb (on_touch m) then Ret (st, S_param, 0)
  else let! r := clear_loop (Z.to_nat ENTRIES) 0 m st 0 in Ret (fst r, S_ok, snd r).

(** * The exported entry points: umbra.c:416-762. *)
Definition umbra_create (m : umap) (st : ustate) (sh : bool) (addr size v : Z) :=
  if size =? 0 then Ret (st, S_ok) else create m st sh addr size v.
Definition umbra_delete (m : umap) (st : ustate) (addr size : Z) :=
  if size =? 0 then Ret (st, S_ok) else delete m st addr size.
Definition umbra_read (m : umap) (st : ustate) (addr size cap : Z) :=
  if size =? 0 then Ret (S_ok, []) else read m st addr size cap.
Definition umbra_write (m : umap) (st : ustate) (addr size cap : Z) (l : list Z) :=
  if size =? 0 then Ret (st, S_ok, 0) else write m st addr size cap (Bytes l).
Definition umbra_set_range (m : umap) (st : ustate) (addr size v : Z) :=
  if w32 (addr + size) <? addr then Ret (st, S_param, None)
  else if size =? 0 then Ret (st, S_ok, Some 0) else set_range m st addr size v.
Definition umbra_copy_range (m : umap) (st : ustate) (src dst size : Z) :=
  if (size =? 0) || (src =? dst) then Ret (st, S_ok, 0) else copy m st src dst size.
Definition umbra_value_in (m : umap) (st : ustate) (addr size v : Z) :=
  if size =? 0 then Ret (S_ok, None) else value_in m st addr size v.
