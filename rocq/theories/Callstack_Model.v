(** Model of the module table, module lookup caches and stored call stacks
    (common/callstack.c).  64-bit Linux build.  Pointers to modname_info_t are
    positions in the list of all infos ever created (they are never freed while
    running); locks, statistics, symbol lookup and the walk of the application
    stack that produces the program counters are not modelled. *)
From Verif Require Import Base Redblack_Model.
Open Scope Z_scope.

(** callstack.c:182, 219; PAGE_SIZE *)
Definition MAX_MODOFFS_STORED : Z := 16777215.
Definition MAX_MODNAMES_STORED : Z := 255.
Definition PAGE_SIZE : Z := 4096.
Definition INT_MAX : Z := 2147483647.

(** ---- module names (callstack.c:145-166, 210-226) ---- *)
(** modname_info_t: the key (full path) and the first array index, -1 if the
    array was full.  The other fields only affect printing. *)
Record minfo := MI { mi_path : Z; mi_index : Z }.
(** modname_table as the list of infos; modname_array from index 1 (index 0 is
    reserved for system calls), so modname_array_end = 1 + length arr. *)
Record names := NM { infos : list minfo; arr : list nat }.
Definition array_end (nm : names) : Z := 1 + Z.of_nat (length (arr nm)).

(** hashtable_lookup by path *)
Fixpoint find_path (p : Z) (l : list minfo) (i : nat) : option nat :=
  match l with
  | [] => None
  | m :: l' => if mi_path m =? p then Some i else find_path p l' (S i)
  end.
(** callstack.c:2763-2785, one array entry for every 16M of module size; the
    flag is false if the array overflowed.  At most 255 iterations. *)
Fixpoint fill (fuel : nat) (a : list nat) (i : nat) (sz : Z) : res (list nat * bool) :=
  match fuel with
  | O => Fuel
  | S fuel => if MAX_MODNAMES_STORED <=? 1 + Z.of_nat (length a) then Ok (a, false)
              else let a := a ++ [i] in
                   if sz <=? MAX_MODOFFS_STORED then Ok (a, true) else fill fuel a i (sz - MAX_MODOFFS_STORED)
  end.
(** add_new_module, callstack.c:2717-2797 *)
Definition add_new_module (nm : names) (path sz : Z) : res (names * nat) :=
  match find_path path (infos nm) 0 with
  | Some i => Ok (nm, i)
  | None =>
    let i := length (infos nm) in
    let* (a, ok) := fill 256 (arr nm) i sz in
    Ok (NM (infos nm ++ [MI path (if ok then array_end nm else -1)]) a, i)
  end.

(** ---- module tree and caches (callstack.c:228-243) ---- *)
Record mods := MD {
  nms : names; mtree : tree;
  min_start : Z; max_end : Z;                         (* modtree_min_start, modtree_max_end *)
  last_start : Z; last_size : Z; last_info : Z;       (* module_lookup *)
  last_hit : Z; last_miss : Z }.                      (* is_in_module *)
Definition init_mods : mods := MD (NM [] []) rb_tree_create 0 0 0 0 0 0 0.
Definition set_tree st t := MD (nms st) t (min_start st) (max_end st) (last_start st) (last_size st) (last_info st) (last_hit st) (last_miss st).

(** the client pointer stored in a tree node *)
Definition info_ptr (i : nat) : Z := Z.of_nat i + 1.
Definition ptr_info (p : Z) : nat := Z.to_nat (p - 1).

(** callstack_module_add_region, callstack.c:2813-2832 *)
Definition add_region (dbg : bool) (st : mods) (start stop : Z) (i : nat) : res mods :=
  let* (t, _) := rb_insert dbg (mtree st) start (stop - start) (info_ptr i) in
  Ok (MD (nms st) t
        (if (start <? min_start st) || (min_start st =? 0) then start else min_start st)
        (if max_end st <? stop then stop else max_end st)
        (last_start st) (last_size st) (last_info st) (last_hit st) (last_miss st)).
(** callstack_module_remove_region, callstack.c:2835-2848 *)
Definition remove_region (st : mods) (start stop : Z) : res mods :=
  let* h := rb_find (mtree st) start in
  match h with
  | None => Ok st
  | Some x => let* _ := rb_node_fields (mtree st) x in let* t := rb_delete (mtree st) x in Ok (set_tree st t)
  end.

(** module_data_t: bounds, path, segments ([] = contiguous) *)
Record module_data := Dll { m_start : Z; m_stop : Z; m_path : Z; m_segs : list (Z * Z) }.
(** the loop over segments joining adjacent ones, callstack.c:2893-2910 (and
    2936-2953 on unload) *)
Fixpoint seg_regions (seg_base prev_end : Z) (l : list (Z * Z)) : list (Z * Z) :=
  match l with
  | [] => [(seg_base, prev_end)]
  | (s, e) :: l' => if prev_end <? s then (seg_base, prev_end) :: seg_regions s e l' else seg_regions seg_base e l'
  end.
Definition regions (m : module_data) : list (Z * Z) :=
  match m_segs m with
  | [] => [(m_start m, m_stop m)]
  | (s, e) :: l => seg_regions s e l
  end.
Fixpoint add_regions (dbg : bool) (st : mods) (l : list (Z * Z)) (i : nat) : res mods :=
  match l with
  | [] => Ok st
  | (s, e) :: l' => let* st := add_region dbg st s e i in add_regions dbg st l' i
  end.
Fixpoint remove_regions (st : mods) (l : list (Z * Z)) : res mods :=
  match l with
  | [] => Ok st
  | (s, e) :: l' => let* st := remove_region st s e in remove_regions st l'
  end.

(** callstack_module_load, callstack.c:2870-2916 (without the bounds of
    DynamoRIO's and the tool's own library) *)
Definition callstack_module_load (dbg : bool) (st : mods) (m : module_data) : res mods :=
  let* (nm, i) := add_new_module (nms st) (m_path m) (m_stop m - m_start m) in
  let st := MD nm (mtree st) (min_start st) (max_end st) (last_start st) (last_size st) (last_info st) (last_hit st) (last_miss st) in
  let* st := add_regions dbg st (regions m) i in
  Ok (MD (nms st) (mtree st) (min_start st) (max_end st) (last_start st) (last_size st) (last_info st) 0 0).

(** callstack_module_unload, callstack.c:2918-2974; rb_max_node and rb_min_node
    return the sentinel (not NULL) for an empty tree *)
Definition callstack_module_unload (st : mods) (m : module_data) : res mods :=
  let* st := remove_regions st (regions m) in
  let* x := rb_max_node (mtree st) in
  let* (b, s, _) := rb_node_fields (mtree st) x in
  let mx := add64 b s in
  let* y := rb_min_node (mtree st) in
  let* (mn, _, _) := rb_node_fields (mtree st) y in
  Ok (MD (nms st) (mtree st) mn mx 0 (last_size st) (last_info st) 0 0).

(** module_lookup, callstack.c:2976-3009: start, size, info *)
Definition module_lookup (st : mods) (pc : Z) : res (mods * option (Z * Z * nat)) :=
  if negb (last_start st =? 0) && (last_start st <=? pc) && (pc <? add64 (last_start st) (last_size st))
  then Ok (st, Some (last_start st, last_size st, ptr_info (last_info st)))
  else
    let* h := rb_in_node (mtree st) pc in
    match h with
    | None => Ok (st, None)
    | Some x => let* (b, s, c) := rb_node_fields (mtree st) x in
                Ok (MD (nms st) (mtree st) (min_start st) (max_end st) b s c (last_hit st) (last_miss st),
                    Some (b, s, ptr_info c))
    end.

(** is_in_module, callstack.c:3011-3042 *)
Definition align_back (pc : Z) : Z := pc - pc mod PAGE_SIZE.
Definition is_in_module (st : mods) (pc : Z) : res (mods * bool) :=
  if (pc <? min_start st) || (max_end st <=? pc) then Ok (st, false)
  else if align_back pc =? last_miss st then Ok (st, false)
  else if align_back pc =? last_hit st then Ok (st, true)
  else
    let* h := rb_in_node (mtree st) pc in
    let r := match h with Some _ => true | None => false end in
    Ok (MD (nms st) (mtree st) (min_start st) (max_end st) (last_start st) (last_size st) (last_info st)
           (if r then align_back pc else last_hit st) (if r then last_miss st else align_back pc), r).

(** module_lookup_user_data, callstack.c:3061-3067; the data is identified with
    the info that holds it.  [start] and [size] are the caller's variables, which
    the header says are filled in. *)
Definition module_lookup_user_data (st : mods) (pc start size : Z) : res (mods * option nat * Z * Z) :=
  let* (st, r) := module_lookup st pc in
  Ok (st, match r with Some (_, _, i) => Some i | None => None end, start, size).

(** ---- stored call stacks (callstack.c:106-209) ---- *)
(** frame_loc_t: an address, or the out-of-line system call record (number,
    secondary number, auxiliary string pointer) *)
Inductive loc := LA (a : Z) | LS (s : Z * Z * Z).
(** packed_frame_t: modoffs has 24 bits, modname_idx 8 *)
Record pframe := PF { p_loc : loc; p_offs : Z; p_idx : Z }.
(** full_frame_t *)
Inductive fmod := NoMod | Syscall | Mod (i : nat).
Record fframe := FF { f_loc : loc; f_offs : Z; f_mod : fmod }.
Inductive frames_t := Packed (l : list pframe) | Full (l : list fframe).
(** packed_callstack_t without the reference count; [nonnull]: the frames pointer *)
Record pcs := PCS { frames : frames_t; nonnull : bool; first_sys : bool; first_ret : bool }.
Definition num_frames (p : pcs) : nat := match frames p with Packed l => length l | Full l => length l end.

(** the splitting loop, callstack.c:905-917, with the bitfield truncation of
    the stored values; idx stays below 255 so 256 iterations suffice *)
Fixpoint split_offs (fuel : nat) (sz idx : Z) : res (Z * Z) :=
  match fuel with
  | O => Fuel
  | S fuel => if MAX_MODOFFS_STORED <? sz then
                let sz := sz - MAX_MODOFFS_STORED in
                if idx + 1 =? MAX_MODNAMES_STORED then Ok (sz, idx) else split_offs fuel sz (idx + 1)
              else Ok (sz, idx)
  end.

(** address_to_frame for a stored stack, callstack.c:873-958: appends at most
    one frame *)
Definition address_to_frame (st : mods) (fs : frames_t) (pc : Z) (skip_non_module : bool) : res (mods * frames_t) :=
  let* (st, r) := module_lookup st pc in
  match r with
  | Some (b, _, i) =>
    let sz := pc - b in
    match fs with
    | Packed l =>
      let* m := of_option (nth_error (infos (nms st)) i) in
      let* (o, idx) := split_offs 257 sz (mi_index m) in
      Ok (st, Packed (l ++ [PF (LA pc) (o mod 2 ^ 24) (idx mod 2 ^ 8)]))
    | Full l => Ok (st, Full (l ++ [FF (LA pc) sz (Mod i)]))
    end
  | None =>
    if skip_non_module then Ok (st, fs) else
    match fs with
    | Packed l => Ok (st, Packed (l ++ [PF (LA pc) MAX_MODOFFS_STORED MAX_MODNAMES_STORED]))
    | Full l => Ok (st, Full (l ++ [FF (LA pc) 0 NoMod]))
    end
  end.
Fixpoint add_frames (st : mods) (fs : frames_t) (l : list (Z * bool)) : res (mods * frames_t) :=
  match l with
  | [] => Ok (st, fs)
  | (pc, skip) :: l' => let* (st, fs) := address_to_frame st fs pc skip in add_frames st fs l'
  end.

(** packed_callstack_record, callstack.c:2115-2193.  [top]: the optional location
    passed in; [walk]: the program counters (with the skip_non_module flag) that
    print_callstack hands to address_to_frame, at most max_frames in all;
    [junk]: the uninitialised modoffs of a packed system call frame. *)
Inductive app_loc := AtPc (pc : Z) | AtSyscall (s : Z * Z * Z).
Definition record (st : mods) (top : option app_loc) (walk : list (Z * bool)) (junk : Z) : res (mods * pcs) :=
  let packed := array_end (nms st) <? MAX_MODNAMES_STORED in
  let empty := if packed then Packed [] else Full [] in
  let* (st, fs, sys) :=
    match top with
    | None => Ok (st, empty, false)
    | Some (AtSyscall s) => Ok (st, if packed then Packed [PF (LS s) junk 0] else Full [FF (LS s) junk Syscall], true)
    | Some (AtPc pc) => let* (st, fs) := address_to_frame st empty pc false in Ok (st, fs, false)
    end in
  let* (st, fs) := add_frames st fs walk in
  let p := PCS fs true sys false in
  Ok (st, PCS fs (negb (Nat.eqb (num_frames p) 0)) sys false).

(** packed_callstack_frame_modinfo, callstack.c:2201-2246: None for a system
    call, else the module (None = not in a module) and the offset.  The product
    is an int: overflow is undefined behaviour. *)
Definition frame_modinfo (nm : names) (p : pcs) (n : nat) : res (option (option nat * Z)) :=
  match frames p with
  | Full l => let* f := of_option (nth_error l n) in
              Ok (match f_mod f with Syscall => None | NoMod => Some (None, f_offs f) | Mod i => Some (Some i, f_offs f) end)
  | Packed l => let* f := of_option (nth_error l n) in
                if p_idx f =? 0 then Ok None
                else if p_offs f <? MAX_MODOFFS_STORED then
                  let* i := of_option (nth_error (arr nm) (Z.to_nat (p_idx f - 1))) in
                  let* m := of_option (nth_error (infos nm) i) in
                  if mi_index m <? p_idx f then
                    let d := (p_idx f - mi_index m) * MAX_MODOFFS_STORED in
                    if INT_MAX <? d then UB else Ok (Some (Some i, p_offs f + d))
                  else Ok (Some (Some i, p_offs f))
                else Ok (Some (None, 0))
  end.
(** PCS_FRAME_LOC, callstack.c:203 *)
Definition frame_loc (p : pcs) (n : nat) : res loc :=
  match frames p with
  | Packed l => let* f := of_option (nth_error l n) in Ok (p_loc f)
  | Full l => let* f := of_option (nth_error l n) in Ok (f_loc f)
  end.

(** what packed_frame_to_symbolized shows of a frame, callstack.c:2248-2310:
    the system call, or the address and (if in a module) path and offset *)
Inductive shown := ShSys (s : Z * Z * Z) | ShPc (a : Z) (m : option (Z * Z)).
Definition frame_to_symbolized (nm : names) (p : pcs) (n : nat) : res shown :=
  let* r := frame_modinfo nm p n in
  let* l := frame_loc p n in
  match r, l with
  | None, LS s => Ok (ShSys s)
  | Some (None, _), LA a => Ok (ShPc a None)
  | Some (Some i, o), LA a => let* m := of_option (nth_error (infos nm) i) in Ok (ShPc a (Some (mi_path m, o)))
  | _, _ => UB     (* an address used as a pointer or vice versa *)
  end.
Fixpoint sym_loop (nm : names) (p : pcs) (n k : nat) : res (list shown) :=
  match k with
  | O => Ok []
  | S k => let* f := frame_to_symbolized nm p n in let* l := sym_loop nm p (S n) k in Ok (f :: l)
  end.
Definition to_symbolized (nm : names) (p : pcs) : res (list shown) := sym_loop nm p 0 (num_frames p).

(** packed_callstack_clone, callstack.c:2431-2468; [alloc0]: whether
    global_alloc(0) returns a non-NULL pointer *)
Definition clone (alloc0 : bool) (p : pcs) : pcs :=
  PCS (frames p) (negb (Nat.eqb (num_frames p) 0) || alloc0) (first_sys p) (first_ret p).

(** packed_callstack_hash, callstack.c:2470-2480 *)
Fixpoint hash_loop (p : pcs) (h : Z) (i k : nat) : res Z :=
  match k with
  | O => Ok h
  | S k => if negb (first_sys p) || (0 <? Z.of_nat i) then
             let* l := frame_loc p i in
             match l with LA a => hash_loop p (Z.lxor h (a mod 2 ^ 32)) (S i) k | LS _ => UB end
           else hash_loop p h (S i) k
  end.
Definition hash (p : pcs) : res Z := hash_loop p 0 0 (num_frames p).

(** packed_callstack_cmp, callstack.c:2482-2526.  memcmp of the frame arrays is
    equality of all fields (the structs have no padding); it is only reached
    when neither stack starts with a system call. *)
Definition loc_eqb (a b : loc) : bool :=
  match a, b with
  | LA x, LA y => x =? y
  | LS (x1, x2, x3), LS (y1, y2, y3) => (x1 =? y1) && (x2 =? y2) && (x3 =? y3)
  | _, _ => false
  end.
Definition fmod_eqb (a b : fmod) : bool :=
  match a, b with
  | NoMod, NoMod | Syscall, Syscall => true
  | Mod i, Mod j => Nat.eqb i j
  | _, _ => false
  end.
Definition pframe_eqb (a b : pframe) : bool := loc_eqb (p_loc a) (p_loc b) && (p_offs a =? p_offs b) && (p_idx a =? p_idx b).
Definition fframe_eqb (a b : fframe) : bool := loc_eqb (f_loc a) (f_loc b) && (f_offs a =? f_offs b) && fmod_eqb (f_mod a) (f_mod b).
Fixpoint all_eqb {A} (eqb : A -> A -> bool) (l m : list A) : bool :=
  match l, m with
  | [], [] => true
  | a :: l', b :: m' => eqb a b && all_eqb eqb l' m'
  | _, _ => false
  end.
Definition opt_eqb (a b : option nat) : bool :=
  match a, b with None, None => true | Some i, Some j => Nat.eqb i j | _, _ => false end.
Fixpoint cmp_loop (nm : names) (p q : pcs) (i k : nat) : res bool :=
  match k with
  | O => Ok true
  | S k =>
    let* r1 := frame_modinfo nm p i in
    let* r2 := frame_modinfo nm q i in
    match r1, r2 with
    | None, None => let* l1 := frame_loc p i in let* l2 := frame_loc q i in
                    if loc_eqb l1 l2 then cmp_loop nm p q (S i) k else Ok false
    | Some (m1, o1), Some (m2, o2) =>
        let* l1 := frame_loc p i in let* l2 := frame_loc q i in
        if loc_eqb l1 l2 && opt_eqb m1 m2 && (o1 =? o2) then cmp_loop nm p q (S i) k else Ok false
    | _, _ => Ok false
    end
  end.
Definition cmp (nm : names) (p q : pcs) : res bool :=
  if negb (nonnull p) then Ok (negb (nonnull q))
  else if negb (nonnull q) then Ok false
  else if negb (Nat.eqb (num_frames p) (num_frames q)) then Ok false
  else
    let walk := cmp_loop nm p q 0 (num_frames p) in
    if first_sys p || first_sys q then walk
    else match frames p, frames q with
         | Packed l, Packed m => Ok (all_eqb pframe_eqb l m)
         | Full l, Full m => Ok (all_eqb fframe_eqb l m)
         | _, _ => walk
         end.

(** ---- the table of shared stacks ---- *)
(** Heap of call stack objects (address, stack, reference count), the entries of
    the hashtable (alloc_drmem.c alloc_stack_table), and the next address. *)
Record table := TB { objs : list (nat * (pcs * Z)); entries : list nat; next : nat }.
Definition init_table : table := TB [] [] 0.
Fixpoint get (l : list (nat * (pcs * Z))) (x : nat) : option (pcs * Z) :=
  match l with
  | [] => None
  | (y, v) :: l' => if Nat.eqb y x then Some v else get l' x
  end.
Definition del (l : list (nat * (pcs * Z))) (x : nat) := filter (fun y => negb (Nat.eqb (fst y) x)) l.

(** packed_callstack_free, callstack.c:2388-2416: the new count *)
Definition pcs_free (tb : table) (x : nat) : res (table * Z) :=
  let* (p, n) := of_option (get (objs tb) x) in
  let n := (n - 1) mod 2 ^ 32 in
  Ok (TB (if n =? 0 then del (objs tb) x else (x, (p, n)) :: del (objs tb) x) (entries tb) (next tb), n).
(** packed_callstack_add_ref, callstack.c:2423-2429 *)
Definition pcs_add_ref (tb : table) (x : nat) : res table :=
  let* (p, n) := of_option (get (objs tb) x) in
  Ok (TB ((x, (p, (n + 1) mod 2 ^ 32)) :: del (objs tb) x) (entries tb) (next tb)).
(** hashtable_lookup with the hash and compare callbacks
    packed_callstack_hash/packed_callstack_cmp: the first entry in the hash's
    bucket that compares equal ([bucket] is DynamoRIO's choice of bucket) *)
Fixpoint lookup (bucket : Z -> Z) (nm : names) (tb : table) (p : pcs) (l : list nat) : res (option nat) :=
  match l with
  | [] => Ok None
  | x :: l' =>
    let* (q, _) := of_option (get (objs tb) x) in
    let* h1 := hash p in let* h2 := hash q in
    if bucket h1 =? bucket h2 then
      let* b := cmp nm q p in
      if b then Ok (Some x) else lookup bucket nm tb p l'
    else lookup bucket nm tb p l'
  end.
(** packed_callstack_add_to_table, callstack.c:2571-2600, on a freshly recorded
    stack (reference count 1) *)
Definition add_to_table (bucket : Z -> Z) (nm : names) (tb : table) (p : pcs) : res (table * nat) :=
  let x := next tb in
  let tb := TB ((x, (p, 1)) :: objs tb) (entries tb) (S x) in
  let* e := lookup bucket nm tb p (entries tb) in
  match e with
  | None => let* tb := pcs_add_ref (TB (objs tb) (entries tb ++ [x]) (next tb)) x in Ok (tb, x)
  | Some y => let* (tb, _) := pcs_free tb x in let* tb := pcs_add_ref tb y in Ok (tb, y)
  end.
(** packed_callstack_destroy, callstack.c:2552-2568; the loop runs count times *)
Fixpoint destroy_loop (fuel : nat) (tb : table) (x : nat) : res table :=
  match fuel with
  | O => Fuel
  | S f => let* (tb, n) := pcs_free tb x in if n =? 0 then Ok tb else destroy_loop f tb x
  end.
Definition destroy (tb : table) (x : nat) : res table :=
  let* (_, n) := of_option (get (objs tb) x) in destroy_loop (Z.to_nat n) tb x.
(** hashtable_remove with alloc_callstack_free as the payload destructor *)
Definition table_remove (bucket : Z -> Z) (nm : names) (tb : table) (p : pcs) : res table :=
  let* e := lookup bucket nm tb p (entries tb) in
  match e with
  | None => Ok tb
  | Some y => destroy (TB (objs tb) (filter (fun z => negb (Nat.eqb z y)) (entries tb)) (next tb)) y
  end.
(** shared_callstack_free, drmemory/alloc_drmem.c:370-389 *)
Definition shared_callstack_free (bucket : Z -> Z) (nm : names) (tb : table) (x : nat) : res table :=
  let* (tb, n) := pcs_free tb x in
  if n =? 1 then let* (p, _) := of_option (get (objs tb) x) in table_remove bucket nm tb p else Ok tb.
