(** Model of pattern mode, /repo/drmemory/pattern.c: a two-byte value is
    written around heap blocks and over freed ones, each memory reference is
    preceded by comparisons with that value, and a match is looked into.
    The configuration is the default one on x86: -replace_malloc, no
    -pattern_use_malloc_tree; elision of checks is modelled apart, below.

    Simplifications.  Memory is a total function from addresses, which are
    unbounded, to bytes; which addresses can be read is a parameter.  Splitting
    and coalescing of free chunks, blocks without redzones (allocated before
    the tool took over) and large blocks outside of the arena are left out. *)
From Verif Require Import Base.
Local Open Scope Z_scope.

Definition mem := Z -> Z.
Definition upd (m : mem) (a v : Z) : mem := fun x => if x =? a then v else m x.
(** little-endian *)
Fixpoint load (n : nat) (m : mem) (a : Z) : Z :=
  match n with O => 0 | S n' => m a + 256 * load n' m (a + 1) end.
Fixpoint store (n : nat) (m : mem) (a v : Z) : mem :=
  match n with O => m | S n' => store n' (upd m a (v mod 256)) (a + 1) (v / 256) end.
(** memset to 0 *)
Definition clear (m : mem) (a n : Z) : mem :=
  fun x => if (a <=? x) && (x <? a + n) then 0 else m x.

(** common/utils.h:181-185 *)
Definition aligned (a n : Z) : bool := a mod n =? 0.
Definition align_fwd (a n : Z) : Z := (a + n - 1) / n * n.
Definition align_back (a n : Z) : Z := a / n * n.

(** the options: the pattern as given (two bytes), the redzone size *)
Record cfg := Cfg { pat : Z; rz : Z }.
(** options.c:533: what options.pattern holds *)
Definition pattern (c : cfg) : Z := Z.lor (pat c) (Z.shiftl (pat c) 16).
(** pattern.c:51-52; pattern_reverse is set in pattern_init, 1553-1572 *)
Definition swap_byte (x : Z) : Z := Z.lor (Z.land 255 (Z.shiftr x 8)) (Z.shiftl (Z.land 255 x) 8).
Definition pattern_reverse (c : cfg) : Z :=
  Z.lor (swap_byte (pattern c)) (Z.shiftl (swap_byte (pattern c)) 16).

(** ---- filling ---- *)

(** pattern.c:1351-1354: [n] iterations *)
Fixpoint fill (c : cfg) (n : nat) (m : mem) (a : Z) : mem :=
  match n with O => m | S n' => fill c n' (store 4 m a (pattern c)) (a + 4) end.
(** pattern_write_pattern: pattern.c:1329-1355 *)
Definition write_pattern (c : cfg) (m : mem) (start end_ : Z) : mem :=
  let m := if negb (aligned start 2) then store 4 m start (pattern_reverse c)
           else if negb (aligned start 4) then store 2 m start (pat c)
           else m in
  let a := align_fwd start 4 in
  fill c (Z.to_nat ((end_ - a + 3) / 4)) m a.

(** A chunk of the replacement allocator: malloc_info_t's base, request_size
    and pad_size (all with redzones), and whether it is on a free list. *)
Record chunk := Chunk { base : Z; req : Z; pad : Z; freed : bool }.

(** pattern_handle_malloc: pattern.c:1357-1380 *)
Definition handle_malloc (c : cfg) (m : mem) (k : chunk) : mem :=
  let m := write_pattern c m (base k - rz c) (base k) in
  write_pattern c m (base k + req k) (base k + pad k + rz c).
(** pattern_handle_delayed_free: pattern.c:1421-1435 *)
Definition handle_free (c : cfg) (m : mem) (k : chunk) : mem :=
  write_pattern c m (base k) (base k + req k).
(** pattern_handle_real_free, delayed: pattern.c:1387-1393, from
    client_handle_free_reuse, alloc_drmem.c:935-942 *)
Definition handle_reuse (c : cfg) (m : mem) (k : chunk) : mem :=
  clear m (base k - rz c) (pad k + 2 * rz c).
(** pattern_handle_realloc in place: pattern.c:1456-1475; [pad] stays *)
Definition handle_realloc (c : cfg) (m : mem) (k : chunk) (newreq : Z) : mem :=
  if req k <? newreq then
    let rm := pad k - req k + rz c in
    let add := pad k - newreq + rz c in
    let m := clear m (base k + req k) rm in
    write_pattern c m (base k + newreq) (base k + newreq + add)
  else if newreq <? req k then write_pattern c m (base k + newreq) (base k + req k)
  else m.

(** ---- checks ---- *)

(** A comparison: displacement from the reference, bytes, value. *)
Record check := Check { off : Z; width : nat; imm : Z }.
(** pattern_create_check_opnds: pattern.c:272-368.  [four] is
    pattern_4byte_check_only, [low] that the displacement of the operand is
    within 2 of INT_MIN.  At 358 it is refs[1], not refs[2], that is moved. *)
Definition checks (c : cfg) (size : Z) (four low : bool) : list check :=
  let P := pattern c in
  let R := pattern_reverse c in
  if 2 <? size then [Check 0 4 P]
  else if size =? 2 then
    if negb four then [Check 0 2 (P mod 2 ^ 16)]
    else Check 0 4 P :: (if low then [] else [Check (-2) 4 P])
  else
    if negb four then [Check 0 2 (P mod 2 ^ 16); Check 0 2 (R mod 2 ^ 16)]
    else if low then [Check 0 4 P; Check 0 4 R]
    else [Check 0 4 P; Check (-2) 4 R; Check 0 4 P; Check 0 4 R].

Section Access.
Variable c : cfg.
Variable rd : Z -> bool.   (* addresses that can be read *)

Fixpoint can_read (n : nat) (a : Z) : bool :=
  match n with O => true | S n' => rd a && can_read n' (a + 1) end.
(** cmp; jne; ud2a: pattern.c:122-270.  A fault of the cmp itself skips the
    check: pattern_handle_segv_fault, 1061-1178. *)
Definition fires (m : mem) (a : Z) (k : check) : bool :=
  can_read (width k) (a + off k) && (load (width k) m (a + off k) =? imm k).

(** pattern_addr_pre_check: pattern.c:1265-1314 *)
Definition COUNT : Z := rz c / 4.
Fixpoint count (n : nat) (m : mem) (a step : Z) : Z :=
  match n with
  | O => 0
  | S n' => if can_read 4 a && (load 4 m a =? pattern c) then 1 + count n' m (a + step) step
            else 0
  end.
Definition pre_check (m : mem) (addr : Z) : bool :=
  let a := align_back addr 4 in
  let f := count (Z.to_nat COUNT) m (a + 4) 4 in
  if COUNT / 2 <? f then true
  else COUNT / 2 <? f + count (Z.to_nat COUNT) m a (-4).

(** alloc_replace_overlaps_region in an arena: common/alloc_replace.c:2472-2503.
    The first chunk that overlaps; the caller then looks at its flags. *)
Fixpoint overlap (h : list chunk) (start end_ : Z) : option chunk :=
  match h with
  | [] => None
  | k :: r => if (start <? base k + pad k + rz c) && (base k - rz c <=? end_) then Some k
              else overlap r start end_
  end.
(** region_in_redzone: alloc_drmem.c:2646-2714 *)
Definition in_redzone (h : list chunk) (addr size : Z) : bool :=
  match overlap h addr (addr + size) with
  | Some k =>
      negb (freed k) &&
      (((addr <? base k) && (base k - rz c <? addr + size)) ||
       ((addr <? base k + pad k + 2 * rz c) && (base k + req k <? addr + size)))
  | None => false
  end.
(** overlaps_delayed_free: alloc_drmem.c:1017-1053 *)
Definition in_freed (h : list chunk) (addr size : Z) : bool :=
  match overlap h addr (addr + size) with Some k => freed k | None => false end.

(** A report: address and size.  check_unaddressable_exceptions may swallow
    it; that is a parameter. *)
Variable excepted : Z -> Z -> bool.

(** pattern_handle_mem_ref: pattern.c:1488-1547 *)
Definition mem_ref (h : list chunk) (m : mem) (addr size : Z) : mem * list (Z * Z) :=
  let n := if size <=? 2 then 2%nat else 4%nat in
  let v := load n m addr in
  if can_read n addr &&
     ((v mod 2 ^ 16 =? pattern c mod 2 ^ 16) || (v mod 2 ^ 16 =? pattern_reverse c mod 2 ^ 16)) &&
     (if size <=? 2 then true else (v =? pattern c) || (v =? pattern_reverse c)) &&
     pre_check m addr && (in_redzone h addr size || in_freed h addr size)
  then (upd m addr 0, if excepted addr size then [] else [(addr, size)])
  else (m, []).

(** pattern_handle_ill_fault: pattern.c:935-999, all references of the
    instruction *)
Fixpoint ill_fault (h : list chunk) (m : mem) (refs : list (Z * Z)) : mem * list (Z * Z) :=
  match refs with
  | [] => (m, [])
  | (a, s) :: r => let '(m1, p1) := mem_ref h m a s in
                   let '(m2, p2) := ill_fault h m1 r in (m2, p1 ++ p2)
  end.
(** the checks in order: pattern.c:390-397, 678-691 *)
Fixpoint run_checks (h : list chunk) (refs : list (Z * Z)) (l : list (Z * check)) (m : mem)
  : mem * list (Z * Z) :=
  match l with
  | [] => (m, [])
  | (a, k) :: r =>
      let '(m1, p1) := if fires m a k then ill_fault h m refs else (m, []) in
      let '(m2, p2) := run_checks h refs r m1 in (m2, p1 ++ p2)
  end.
Definition access (h : list chunk) (m : mem) (refs : list (Z * Z)) (four low : bool)
  : mem * list (Z * Z) :=
  run_checks h refs
    (flat_map (fun r => map (fun k => (fst r, k)) (checks c (snd r) four low)) refs) m.

(** ---- a run ---- *)

Inductive op :=
| Malloc (k : chunk)
| Free (b : Z)
| Reuse (b : Z)              (* a freed chunk is taken for a new block *)
| Realloc (b newreq : Z)     (* in place *)
| Write (a v : Z)            (* by the program or the allocator *)
| Access (refs : list (Z * Z)) (four low : bool).

(** the chunks of the arena in the order of their addresses *)
Fixpoint insert (k : chunk) (h : list chunk) : list chunk :=
  match h with
  | [] => [k]
  | x :: r => if base k <? base x then k :: h else x :: insert k r
  end.
Definition change (f : chunk -> chunk) (b : Z) (h : list chunk) : list chunk :=
  map (fun k => if base k =? b then f k else k) h.
Definition find (b : Z) (h : list chunk) : option chunk :=
  List.find (fun k => base k =? b) h.

Record state := St { heap : list chunk; memory : mem; reports : list (Z * Z) }.
Definition step (s : state) (o : op) : state :=
  let h := heap s in
  let m := memory s in
  match o with
  | Malloc k => St (insert k h) (handle_malloc c m k) (reports s)
  | Free b =>
      match find b h with
      | Some k => St (change (fun k => Chunk (base k) (req k) (pad k) true) b h)
                     (handle_free c m k) (reports s)
      | None => s
      end
  | Reuse b =>
      match find b h with
      | Some k => St (filter (fun k => negb (base k =? b)) h) (handle_reuse c m k) (reports s)
      | None => s
      end
  | Realloc b n =>
      match find b h with
      | Some k => St (change (fun k => Chunk (base k) n (pad k) (freed k)) b h)
                     (handle_realloc c m k n) (reports s)
      | None => s
      end
  | Write a v => St h (upd m a v) (reports s)
  | Access refs four low =>
      let '(m', p) := access h m refs four low in St h m' (reports s ++ p)
  end.
Definition run (s : state) (l : list op) : state := fold_left step l s.
End Access.

(** ---- -pattern_opt_elide_overlap: pattern.c:452-641 ---- *)

(** A reference [base + disp], or one of another form (with an index, say). *)
Inductive ref := Simple (b : Z) (disp : Z) | Other.
(** An instruction: the registers it writes, its references. *)
Record instr := Instr { writes : list Z; refs : list ref }.

(** elide_ref_check_info_t: the displacement and the labels around the check,
    here the index of the instruction the check precedes *)
Record info := Info { disp : Z; at_ : nat }.
Inductive cover := CNone | CLeft (l : info) | CBoth (l r : info).

(** the covers, and the checks that are in the block: instruction, base,
    displacement *)
Record block := Block { covers : Z -> cover; kept : list (nat * Z * Z) }.

(** pattern_opt_elide_overlap_update_regs: pattern.c:471-484 *)
Definition update_regs (cv : Z -> cover) (w : list Z) : Z -> cover :=
  fun r => if existsb (Z.eqb r) w then CNone else cv r.

(** pattern_opt_elide_overlap_ignore_refs: pattern.c:486-533 *)
Definition ignored (rzs : Z) (cv : Z -> cover) (l : list ref) : bool :=
  match l with
  | [] => true
  | [Simple b d] =>
      match cv b with
      | CNone => false
      | CLeft x => disp x =? d
      | CBoth x y => (disp x =? d) || (disp y =? d) ||
                     ((disp y - disp x <=? rzs) && (disp x <? d) && (d <? disp y))
      end
  | _ => false
  end.

(** pattern_remove_check: pattern.c:452-469 *)
Definition remove_check (l : list (nat * Z * Z)) (x : info) : list (nat * Z * Z) :=
  filter (fun t => negb (Nat.eqb (fst (fst t)) (at_ x))) l.

(** pattern_opt_elide_overlap_update_checks: pattern.c:535-641; [n] is the
    instruction at hand *)
Definition update_checks (rzs : Z) (n : nat) (b d : Z) (k : block) : block :=
  let set x l := Block (fun r => if r =? b then x else covers k r) l in
  let me := Info d n in
  match covers k b with
  | CNone => set (CLeft me) (kept k)
  | CLeft x => if disp x <? d then set (CBoth x me) (kept k) else set (CBoth me x) (kept k)
  | CBoth x y =>
      if d <? disp x then
        if disp y - d <=? rzs then set (CBoth me y) (remove_check (kept k) x)
        else set (CBoth me x) (kept k)
      else if disp y <? d then
        if d - disp x <=? rzs then set (CBoth x me) (remove_check (kept k) y)
        else set (CBoth y me) (kept k)
      else if disp y - d <=? d - disp x then
        if d - disp x <=? rzs then set (CBoth x me) (kept k) else set (CBoth me y) (kept k)
      else
        if disp y - d <=? rzs then set (CBoth me y) (kept k) else set (CBoth x me) (kept k)
  end.

Definition add_checks (n : nat) (l : list ref) (ks : list (nat * Z * Z)) : list (nat * Z * Z) :=
  ks ++ flat_map (fun r => match r with Simple b d => [(n, b, d)] | Other => [] end) l.

(** pattern_instrument_check: pattern.c:643-693, the part about elision *)
Definition instrument (rzs : Z) (n : nat) (i : instr) (k : block) : block :=
  let cv := update_regs (covers k) (writes i) in
  match refs i with
  | [] => Block cv (kept k)
  | l =>
      if ignored rzs cv l then Block cv (kept k)
      else
        let k' := match l with
                  | [Simple b d] => update_checks rzs n b d (Block cv (kept k))
                  | _ => Block cv (kept k)
                  end in
        Block (covers k') (add_checks n l (kept k'))
  end.
Fixpoint instrument_all (rzs : Z) (n : nat) (l : list instr) (k : block) : block :=
  match l with
  | [] => k
  | i :: r => instrument_all rzs (S n) r (instrument rzs n i k)
  end.
Definition elide (rzs : Z) (l : list instr) : list (nat * Z * Z) :=
  kept (instrument_all rzs 0 l (Block (fun _ => CNone) [])).
