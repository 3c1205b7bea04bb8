(** Model of the Umbra shadow-memory framework, 64-bit Linux build, one map.
    Source: umbra/umbra_64.c, umbra/umbra.c, umbra/umbra_private.h.

    Simplifications (also listed in DESIGN.md):
    - locks are no-ops: the functions run to completion one at a time;
    - one map is live at a time (its index is a parameter); the loops over
      [map_idx] therefore look only at this map's slot;
    - [value_size] is always 1 except in the search function;
    - [dr_raw_mem_alloc] at a fixed address is the oracle [alloc] and yields
      zero-filled memory when it succeeds;
    - the address-space scan of [umbra_address_space_init] is given as the list
      of non-free regions that the operating system reports. *)
From Verif Require Import Base Mem.
Open Scope Z_scope.

Definition W64 : Z := 2 ^ 64.
Definition w64 (x : Z) : Z := x mod W64.

(** umbra.h:92-98: scales; umbra.c:176-195: the shift of each scale. *)
Inductive scale := Down8 | Down4 | Down2 | Same1 | Up2.

Definition shift (s : scale) : Z :=
  match s with Down8 => 3 | Down4 => 2 | Down2 => 1 | Same1 => 0 | Up2 => 1 end.
Definition is_up (s : scale) : bool := match s with Up2 => true | _ => false end.

(** umbra.c:51-59 [umbra_map_scale_app_to_shadow]. *)
Definition to_shadow (s : scale) (v : Z) : Z :=
  if is_up s then w64 (Z.shiftl v (shift s)) else Z.shiftr v (shift s).
(** umbra.c:61-69 [umbra_map_scale_shadow_to_app]. *)
Definition to_app (s : scale) (v : Z) : Z :=
  if is_up s then Z.shiftr v (shift s) else w64 (Z.shiftl v (shift s)).

(** The map (umbra_private.h): scale, index, create-on-touch flag, default
    value; [pie_alt] = [map_disp[UP_2X]] was replaced at start-up
    (umbra_64.c:748-751); [alloc] = does [dr_raw_mem_alloc] at this address
    succeed. *)
Record umap := UMap {
  sc : scale; idx : Z; on_touch : bool; dflt : Z; pie_alt : bool; alloc : Z -> bool }.

(** umbra_64.c:245-277. *)
Definition SEG_BITS : Z := 40.
Definition SEG_SIZE : Z := 2 ^ 40.
Definition NUM_SEGMENTS : Z := 16.
Definition ALLOC_UNIT : Z := 2 ^ 16.

(** umbra_64.c:874 [map->mask]. *)
Definition mask : Z := Z.lor (SEG_SIZE - 1) (Z.shiftl (NUM_SEGMENTS - 1) SEG_BITS).

(** umbra_64.c:320-338 [map_disp]. *)
Definition map_disp (s : scale) (alt : bool) : Z :=
  match s with
  | Down8 => 0x900000000000
  | Down4 => 0x440000000000
  | Down2 => 0x220000000000
  | Same1 => 0x120000000000
  | Up2 => if alt then Z.shiftl 0x58 36 else Z.shiftl 0x48 36
  end.

(** umbra_64.c:882-892 [map->disp]. *)
Definition disp (m : umap) : Z :=
  map_disp (sc m) (pie_alt m) +
  (if 0 <? idx m then to_app (sc m) (idx m * 2 * NUM_SEGMENTS * SEG_SIZE) else 0).

(** umbra_64.c:861-869: block sizes. *)
Definition app_bs (m : umap) : Z :=
  if is_up (sc m) then ALLOC_UNIT else to_app (sc m) ALLOC_UNIT.
Definition sh_bs (m : umap) : Z :=
  if is_up (sc m) then to_shadow (sc m) ALLOC_UNIT else ALLOC_UNIT.

(** umbra_64.c:436-467 [umbra_xl8_app_to_shadow]. *)
Definition xl8 (m : umap) (pc : Z) : Z :=
  let addr := w64 (Z.land pc mask + disp m) in
  let addr := if negb (pc =? 0) && (addr =? disp m) then w64 (addr + (mask + 1)) else addr in
  match sc m with
  | Down8 => Z.shiftr addr 3
  | Down4 => Z.shiftr addr 2
  | Down2 => Z.shiftr addr 1
  | Same1 => addr
  | Up2 => w64 (Z.shiftl addr 1)
  end.

(** umbra_64.c:472-495 [umbra_xl8_shadow_to_app]. *)
Definition xl8_back (m : umap) (s : Z) : Z :=
  let addr := match sc m with
              | Down8 => w64 (Z.shiftl s 3)
              | Down4 => w64 (Z.shiftl s 2)
              | Down2 => w64 (Z.shiftl s 1)
              | Same1 => s
              | Up2 => Z.shiftr s 1
              end in
  w64 (addr - disp m).

(** umbra_64.c:1315-1334 [umbra_insert_app_to_shadow_arch]: the arithmetic of
    the emitted [and; add; shl/shr]. *)
Definition xl8_inline (m : umap) (pc : Z) : Z :=
  let addr := w64 (Z.land pc mask + disp m) in
  match sc m with
  | Up2 => w64 (Z.shiftl addr (shift (sc m)))
  | Same1 => addr
  | _ => Z.shiftr addr (shift (sc m))
  end.

(** umbra_64.c:294-312 [app_segment_t], restricted to one map; [hasmap] is
    [map[idx] != NULL]; the bitmap is the set of its 1-bits (byte, bit) together
    with its size in bytes. *)
Record seg := Seg {
  ab : Z; ae : Z; used : bool; hasmap : bool;
  sb : Z; se : Z; rb : Z; re : Z; nbytes : Z; bits : list (Z * Z) }.

Definition empty_seg : seg := Seg 0 0 false false 0 0 0 0 0 [].
Definition app_seg (b e : Z) : seg := Seg b e false false 0 0 0 0 0 [].

Definition with_app (s : seg) (b e : Z) : seg :=
  Seg b e (used s) (hasmap s) (sb s) (se s) (rb s) (re s) (nbytes s) (bits s).
Definition with_used (s : seg) (u : bool) : seg :=
  Seg (ab s) (ae s) u (hasmap s) (sb s) (se s) (rb s) (re s) (nbytes s) (bits s).
Definition with_bits (s : seg) (l : list (Z * Z)) : seg :=
  Seg (ab s) (ae s) (used s) (hasmap s) (sb s) (se s) (rb s) (re s) (nbytes s) l.

(** umbra_64.c:362-413: the predefined segments, with and without vsyscall. *)
Definition segs_initial (vsyscall : bool) : list seg :=
  if vsyscall then
    [app_seg 0x7F0000000000 0x7FFFFF400000;
     app_seg 0xFFFFFFFFFF400000 0xFFFFFFFFFF800000;
     app_seg 0x7FFFFF800000 0x800000000000;
     empty_seg; empty_seg; empty_seg; empty_seg; empty_seg]
  else [empty_seg; empty_seg; empty_seg; empty_seg;
        empty_seg; empty_seg; empty_seg; empty_seg].

Fixpoint set_nth {A} (i : nat) (x : A) (l : list A) : list A :=
  match i, l with
  | _, [] => []
  | O, _ :: l' => x :: l'
  | S i', y :: l' => y :: set_nth i' x l'
  end.

(** umbra_64.c:498-506 [segment_overlap]. *)
Definition segment_overlap (b1 e1 b2 e2 : Z) : bool :=
  if (e1 =? 0) || (e2 =? 0) then false
  else negb ((e2 <=? b1) || (e1 <=? b2)).

(** umbra_64.c:508-527: the fields that [umbra_add_shadow_segment] fills in. *)
Definition shadowed (m : umap) (s : seg) : seg :=
  let b := xl8 m (ab s) in
  let e := xl8 m (ae s) in
  Seg (ab s) (ae s) (used s) true b e (xl8 m b) (xl8 m e)
      (w64 (e - b) / sh_bs m / 8) [].

(** umbra_64.c:532-620: the conflict checks of the new segment [s] (slot [i])
    against the segment [t] of slot [j]; true = no conflict. *)
Definition no_conflict (i : nat) (s : seg) (j : nat) (t : seg) : bool :=
  if negb (used t) then true
  else
    negb (negb (Nat.eqb i j) && segment_overlap (ab s) (ae s) (ab t) (ae t)) &&
    (negb (hasmap t) ||
     (negb (segment_overlap (ab s) (ae s) (sb t) (se t)) &&
      negb (segment_overlap (ab s) (ae s) (rb t) (re t)) &&
      negb (segment_overlap (sb s) (se s) (ab t) (ae t)) &&
      negb (negb (Nat.eqb i j) && segment_overlap (sb s) (se s) (sb t) (se t)) &&
      negb (segment_overlap (sb s) (se s) (rb t) (re t)) &&
      negb (segment_overlap (rb s) (re s) (ab t) (ae t)) &&
      negb (segment_overlap (rb s) (re s) (sb t) (se t)))).

Fixpoint no_conflicts (i : nat) (s : seg) (j : nat) (l : list seg) : bool :=
  match l with
  | [] => true
  | t :: l' => no_conflict i s j t && no_conflicts i s (S j) l'
  end.

(** umbra_64.c:508-628 [umbra_add_shadow_segment] on slot [i]. *)
Definition add_shadow_segment (m : umap) (i : nat) (ss : list seg) : list seg * bool :=
  let s := shadowed m (nth i ss empty_seg) in
  let ss' := set_nth i s ss in
  (ss', no_conflicts i s 0 ss').

Definition add_shadow_opt (mo : option umap) (i : nat) (ss : list seg) : list seg * bool :=
  match mo with None => (ss, true) | Some m => add_shadow_segment m i ss end.

Definition seg_base (pc : Z) : Z := Z.land pc (W64 - 1 - (SEG_SIZE - 1)).
Definition align_forward (x a : Z) : Z := Z.land (w64 (x + (a - 1))) (W64 - 1 - (a - 1)).
Definition align_backward (x a : Z) : Z := Z.land x (W64 - 1 - (a - 1)).

(** umbra_64.c:652-663: drop the segments that the extended one absorbs. *)
Definition absorb (sbase sbound : Z) (ss : list seg) : list seg :=
  map (fun t => if used t && (ab t =? sbase) && (ae t =? sbound)
                then with_used (with_app t 0 0) false else t) ss.

(** umbra_64.c:630-718 [umbra_add_app_segment]; [n] slots left, [i] current. *)
Fixpoint add_app_loop (n i : nat) (mo : option umap) (base size : Z) (ss : list seg)
  : list seg * bool :=
  match n with
  | O => (ss, false)
  | S n' =>
    let s := nth i ss empty_seg in
    let sbase := seg_base base in
    let send := align_forward (w64 (base + size)) SEG_SIZE in
    let lim := w64 (base + size) in
    if negb (ae s =? 0) then
      if (ab s <=? base) && (lim <=? ae s) then
        (set_nth i (with_used s true) ss, true)
      else if (ab s <? lim) && (lim <? ae s) then
        let ss1 := absorb sbase (ab s) ss in
        let s1 := nth i ss1 empty_seg in
        let ss2 := set_nth i (with_app s1 sbase (ae s1)) ss1 in
        let '(ss3, ok) := add_shadow_opt mo i ss2 in
        let s3 := nth i ss3 empty_seg in
        if ok then (set_nth i (with_used s3 true) ss3, true)
        else (set_nth i (with_app s3 (ab s3) 0) ss3, false)
      else if (ab s <? base) && (base <? ae s) then
        let ss2 := set_nth i (with_used (with_app s (ab s) send) true) ss in
        let '(ss3, ok) := add_shadow_opt mo i ss2 in
        let s3 := nth i ss3 empty_seg in
        if ok then (ss3, true)
        else (set_nth i (with_app s3 (ab s3) 0) ss3, false)
      else add_app_loop n' (S i) mo base size ss
    else
      let ss2 := set_nth i (with_app s sbase send) ss in
      let '(ss3, ok) := add_shadow_opt mo i ss2 in
      let s3 := nth i ss3 empty_seg in
      if ok then (set_nth i (with_used s3 true) ss3, true)
      else (set_nth i (with_app s3 (ab s3) 0) ss3, false)
  end.

Definition add_app_segment (mo : option umap) (base size : Z) (ss : list seg)
  : list seg * bool := add_app_loop (length ss) 0 mo base size ss.

(** umbra_64.c:721-745 [umbra_address_space_init]: every non-free region. *)
Fixpoint scan (regions : list (Z * Z)) (ss : list seg) : option (list seg) :=
  match regions with
  | [] => Some ss
  | (b, n) :: r =>
    let '(ss', ok) := add_app_segment None b n ss in
    if ok then scan r ss' else None
  end.

(** umbra_64.c:746-764: which of the two PIE segments is in use. *)
Definition pie_used (b : Z) (ss : list seg) : bool :=
  existsb (fun s => used s && (ab s =? b)) ss.
Definition PIE_DEF : Z := Z.shiftl 0x55 40.
Definition PIE_ALT : Z := Z.shiftl 0x56 40.

(** umbra_64.c:817-849 [umbra_arch_init]: segments, and the [pie_alt] flag. *)
Definition arch_init (vsyscall : bool) (regions : list (Z * Z)) : option (list seg * bool) :=
  match scan regions (segs_initial vsyscall) with
  | None => None
  | Some ss =>
    if pie_used PIE_DEF ss && pie_used PIE_ALT ss then None
    else Some (ss, pie_used PIE_ALT ss)
  end.

(** umbra_64.c:893-902: the segment loop of [umbra_map_arch_init]. *)
Fixpoint map_init_loop (n i : nat) (m : umap) (ss : list seg) : option (list seg) :=
  match n with
  | O => Some ss
  | S n' =>
    if used (nth i ss empty_seg) then
      let '(ss', ok) := add_shadow_segment m i ss in
      if ok then map_init_loop n' (S i) m ss' else None
    else map_init_loop n' (S i) m ss
  end.
Definition map_arch_init (m : umap) (ss : list seg) : option (list seg) :=
  map_init_loop (length ss) 0 m ss.

(** The state of the map: its segments and the shadow memory itself. *)
Record ustate := USt { segs : list seg; sm : mem }.
Definition with_segs (st : ustate) (l : list seg) : ustate := USt l (sm st).
Definition with_sm (st : ustate) (m : mem) : ustate := USt (segs st) m.

(** umbra_64.c:279-284. *)
Definition bm_byte (m : umap) (a base : Z) : Z := (a - base) / (sh_bs m * 8).
Definition bm_bit (m : umap) (a base : Z) : Z := Z.land ((a - base) / sh_bs m) 7.

Definition covers (s : seg) (a : Z) : bool :=
  used s && hasmap s && (sb s <=? a) && (a <? se s).

Definition bit_in (p : Z * Z) (l : list (Z * Z)) : bool :=
  existsb (fun q => (fst q =? fst p) && (snd q =? snd p)) l.

(** umbra_64.c:768-787 [umbra_set_shadow_bitmap]; an index beyond the bitmap is
    undefined behaviour. *)
Fixpoint set_bitmap (m : umap) (a : Z) (l : list seg) : res (list seg) :=
  match l with
  | [] => Ok []
  | s :: l' =>
    if covers s a then
      let p := (bm_byte m a (sb s), bm_bit m a (sb s)) in
      if fst p <? nbytes s then Ok (with_bits s (p :: bits s) :: l') else UB
    else let* l'' := set_bitmap m a l' in Ok (s :: l'')
  end.

(** umbra_64.c:789-811 [umbra_shadow_block_exist]. *)
Fixpoint block_exist_in (m : umap) (a : Z) (l : list seg) : res bool :=
  match l with
  | [] => Ok false
  | s :: l' =>
    if covers s a then
      let p := (bm_byte m a (sb s), bm_bit m a (sb s)) in
      if fst p <? nbytes s then Ok (bit_in p (bits s)) else UB
    else block_exist_in m a l'
  end.
Definition block_exist (m : umap) (st : ustate) (a : Z) : res bool :=
  block_exist_in m a (segs st).

(** utils.h:620 [POINTER_OVERFLOW_ON_ADD]. *)
Definition add_ovf (a b : Z) : bool := w64 (a + b) <? a.

(** umbra_private.h:105-124 [APP_RANGE_LOOP]: [body blk start iter_size] is run
    for each block; its second result stops the loop ([break] or [return]).
    [n] bounds the iterations and is chosen sufficient below. *)
Fixpoint range_loop {A B} (n : nat) (bs addr src_end blk : Z)
         (body : Z -> Z -> Z -> A -> res (A * option B)) (a : A) : res (A * option B) :=
  match n with
  | O => Fuel
  | S n' =>
    if blk <? src_end then
      let blk_end := w64 (blk + (bs - 1)) in
      let start := if blk <? addr then addr else blk in
      let end_ := if src_end <? blk_end then src_end else blk_end in
      let* r := body blk start (w64 (end_ - start + 1)) a in
      match r with
      | (a', None) =>
        range_loop n' bs addr src_end
                   (if add_ovf blk_end 1 then src_end else w64 (blk_end + 1)) body a'
      | (a', Some b) => Ok (a', Some b)
      end
    else Ok (a, None)
  end.

Definition app_range_loop {A B} (m : umap) (addr size : Z)
           (body : Z -> Z -> Z -> A -> res (A * option B)) (a : A) : res (A * option B) :=
  let src_end := w64 (addr + w64 (size - 1)) in
  let blk := align_backward addr (app_bs m) in
  range_loop (S (S (Z.to_nat ((src_end - blk) / app_bs m)))) (app_bs m) addr src_end blk body a.

(** The memory routines used on the shadow memory: an inaccessible byte is
    undefined behaviour. *)
Fixpoint all_mapped (n : nat) (m : mem) (a : Z) : bool :=
  match n with
  | O => true
  | S n' => match m a with None => false | Some _ => all_mapped n' m (a + 1) end
  end.
Definition m_set (m : mem) (a v n : Z) : res mem :=
  if all_mapped (Z.to_nat n) m a
  then Ok (fun x => if (a <=? x) && (x <? a + n) then Some v else m x) else UB.
Fixpoint m_read (n : nat) (m : mem) (a : Z) : res (list Z) :=
  match n with
  | O => Ok []
  | S n' => match m a with
            | None => UB
            | Some b => let* r := m_read n' m (a + 1) in Ok (b :: r)
            end
  end.
(** Copy [n] bytes given by [src] (offset to byte) to address [a]. *)
Definition m_put (m : mem) (a n : Z) (src : Z -> option Z) : res mem :=
  if all_mapped (Z.to_nat n) m a && all_mapped (Z.to_nat n) src 0
  then Ok (fun x => if (a <=? x) && (x <? a + n) then src (x - a) else m x) else UB.
Fixpoint m_chr (n : nat) (m : mem) (a v : Z) : res (option Z) :=
  match n with
  | O => Ok None
  | S n' => match m a with
            | None => UB
            | Some b => if b =? v then Ok (Some a) else m_chr n' m (a + 1) v
            end
  end.

Inductive status := S_ok | S_feature | S_badsize | S_badaddr | S_param | S_error | S_notimpl.

Definition is_ok (s : status) : bool := match s with S_ok => true | _ => false end.

(** umbra_64.c:956-978: allocate the block if it does not exist. *)
Definition alloc_block (m : umap) (st : ustate) (shadow_blk : Z) : res ustate :=
  let* e := block_exist m st shadow_blk in
  if e then Ok st
  else if alloc m shadow_blk then
    let mem' := fun x => if (shadow_blk <=? x) && (x <? shadow_blk + sh_bs m)
                         then Some 0 else sm st x in
    let* l := set_bitmap m shadow_blk (segs st) in
    Ok (USt l mem')
  else Ok st.

(** umbra_64.c:934-987 [umbra_create_shadow_memory_arch]; [sr] is the
    range setter it calls. *)
Definition create_with (sr : ustate -> Z -> Z -> Z -> res (ustate * status))
           (m : umap) (st : ustate) (addr size value : Z) : res (ustate * status) :=
  if 255 <=? value then Ok (st, S_feature)
  else if add_ovf addr (w64 (size - 1)) then Ok (st, S_badsize)
  else
    let '(ss, ok) := add_app_segment (Some m) addr size (segs st) in
    let st := with_segs st ss in
    if negb ok then Ok (st, S_badaddr)
    else
      let* r := app_range_loop m addr size
        (fun blk start iter st =>
           let* st1 := alloc_block m st (xl8 m blk) in
           let* r := sr st1 start iter value in
           let '(st2, s) := r in
           if is_ok s then Ok (st2, None) else Ok (st2, Some S_error)) st in
      let '(st', o) := r in
      Ok (st', match o with None => S_ok | Some s => s end).

(** The create-on-touch step shared by all range functions
    (e.g. umbra_64.c:1028-1039); [cr] creates shadow memory. *)
Definition touch (cr : ustate -> Z -> Z -> Z -> res (ustate * status))
           (m : umap) (st : ustate) (shadow_start blk : Z) : res (ustate * option status) :=
  let* e := block_exist m st shadow_start in
  if e then Ok (st, None)
  else if negb (on_touch m) then Ok (st, Some S_param)
  else
    let* r := cr st blk (app_bs m) (dflt m) in
    let '(st', s) := r in
    if is_ok s then Ok (st', None) else Ok (st', Some s).

(** umbra_64.c:1084-1128 [umbra_shadow_set_range_arch].  It and
    [umbra_create_shadow_memory_arch] call each other: [depth] bounds that
    recursion and [Fuel] means it does not end within [depth] levels. *)
Fixpoint set_range_d (depth : nat) (m : umap) (st : ustate) (addr size value : Z)
  : res (ustate * status * Z) :=
  match depth with
  | O => Fuel
  | S d =>
    if 255 <? value then Ok (st, S_notimpl, 0)
    else if add_ovf addr (w64 (size - 1)) then Ok (st, S_badsize, 0)
    else
      let* r := app_range_loop m addr size
        (fun blk start iter a =>
           let '(st, tot) := a in
           let* t := touch (create_with (fun st a n v =>
                              let* r := set_range_d d m st a n v in
                              let '(st', s, _) := r in Ok (st', s)) m)
                           m st (xl8 m start) blk in
           match t with
           | (st', Some s) => Ok ((st', tot), Some s)
           | (st', None) =>
             let n := to_shadow (sc m) iter in
             let* mm := m_set (sm st') (xl8 m start) value n in
             Ok ((with_sm st' mm, tot + n), None)
           end) (st, 0) in
      let '(st', tot, o) := r in
      Ok (st', match o with None => S_ok | Some s => s end, tot)
  end.

Definition DEPTH : nat := 4.

Definition set_range_arch := set_range_d DEPTH.
Definition create_arch (m : umap) :=
  create_with (fun st a n v =>
                 let* r := set_range_d DEPTH m st a n v in
                 let '(st', s, _) := r in Ok (st', s)) m.

(** umbra_64.c:989-999 [umbra_delete_shadow_memory_arch]. *)
Definition delete_arch (m : umap) (st : ustate) (addr size : Z) :=
  set_range_arch m st addr size (dflt m).

(** umbra_64.c:1001-1043 [umbra_read_shadow_memory_arch]: [cap] is the incoming
    [*shadow_size]; the result carries the bytes copied to the buffer. *)
Definition read_arch (m : umap) (st : ustate) (addr size cap : Z)
  : res (ustate * status * list Z) :=
  if cap <? to_shadow (sc m) size then Ok (st, S_badsize, [])
  else if add_ovf addr (w64 (size - 1)) then Ok (st, S_badsize, [])
  else
    let* r := app_range_loop m addr size
      (fun blk start iter a =>
         let '(st, out) := a in
         let* t := touch (create_arch m) m st (xl8 m start) blk in
         match t with
         | (st', Some s) => Ok ((st', out), Some s)
         | (st', None) =>
           let* l := m_read (Z.to_nat (to_shadow (sc m) iter)) (sm st') (xl8 m start) in
           Ok ((st', out ++ l), None)
         end) (st, []) in
    let '(st', out, o) := r in
    Ok (st', match o with None => S_ok | Some s => s end, out).

(** umbra_64.c:1045-1082 [umbra_write_shadow_memory_arch]: [buf] gives the
    buffer bytes by offset in the current state (the buffer may itself lie in
    shadow memory, as in the copy function). *)
Definition write_arch (m : umap) (st : ustate) (addr size cap : Z)
           (buf : ustate -> Z -> option Z) : res (ustate * status * Z) :=
  if cap <? to_shadow (sc m) size then Ok (st, S_badsize, 0)
  else if add_ovf addr (w64 (size - 1)) then Ok (st, S_badsize, cap)
  else
    let* r := app_range_loop m addr size
      (fun blk start iter a =>
         let '(st, tot) := a in
         let* t := touch (create_arch m) m st (xl8 m start) blk in
         match t with
         | (st', Some s) => Ok ((st', tot), Some s)
         | (st', None) =>
           let n := to_shadow (sc m) iter in
           let* mm := m_put (sm st') (xl8 m start) n (fun i => buf st' (tot + i)) in
           Ok ((with_sm st' mm, tot + n), None)
         end) (st, 0) in
    let '(st', tot, o) := r in
    match o with None => Ok (st', S_ok, tot) | Some s => Ok (st', s, cap) end.

Definition buf_of_list (l : list Z) : ustate -> Z -> option Z :=
  fun _ i => if i <? 0 then None else nth_error l (Z.to_nat i).

(** umbra_64.c:1130-1207 [umbra_shadow_copy_range_arch].  The result of the
    tail read is ignored in the release build. *)
Definition copy_arch (m : umap) (st : ustate) (src dst size : Z)
  : res (ustate * status * Z) :=
  if add_ovf src (w64 (size - 1)) || add_ovf dst (w64 (size - 1)) then Ok (st, S_badsize, 0)
  else
    let overlap := (src <? dst) && (dst <=? w64 (src + w64 (size - 1))) in
    let tail := if overlap then w64 (w64 (src + w64 (size - 1)) - dst + 1) else 0 in
    let* r0 := if overlap
               then let* r := read_arch m st dst tail (to_shadow (sc m) tail) in
                    let '(st', _, l) := r in
                    (* the buffer has [tail] bytes: a longer read overflows it *)
                    if Z.of_nat (length l) <=? tail then Ok (st', l) else UB
               else Ok (st, []) in
    let '(st, tailbuf) := r0 in
    let sz := if overlap then w64 (dst - src) else size in
    let* r := app_range_loop m src sz
      (fun blk start iter a =>
         let '(st, d, tot) := a in
         let* t := touch (create_arch m) m st (xl8 m start) blk in
         match t with
         | (st', Some s) => Ok ((st', d, tot), Some (s, true))
         | (st', None) =>
           let n := to_shadow (sc m) iter in
           let* w := write_arch m st' d iter n (fun st i => sm st (xl8 m start + i)) in
           let '(st2, s, k) := w in
           if is_ok s then Ok ((st2, w64 (d + iter), tot + k), None)
           else Ok ((st2, d, tot + k), Some (S_param, false))
         end) (st, dst, 0) in
    let '(st, d, tot, o) := r in
    match o with
    | Some (s, _) => Ok (st, s, tot)
    | None =>
      if overlap then
        let* w := write_arch m st (w64 (d + w64 (d - src))) tail (to_shadow (sc m) tail)
                             (buf_of_list tailbuf) in
        let '(st2, s, k) := w in
        Ok (st2, s, tot + k)
      else Ok (st, S_ok, tot)
    end.

(** A [char] (signed on this target) compared with a [byte]. *)
Definition schar (v : Z) : Z := if v mod 256 <? 128 then v mod 256 else v mod 256 - 256.

(** umbra_64.c:1257-1270: the two-byte search. *)
Fixpoint find2 (n : nat) (m : mem) (start size first value : Z) : res (option Z) :=
  match n with
  | O => Fuel
  | S n' =>
    let* r := m_chr (Z.to_nat (size - 1 - (first - start))) m first (value mod 256) in
    match r with
    | None => Ok None
    | Some a =>
      match m (a + 1) with
      | None => UB
      | Some b => if b =? schar (value / 256) then Ok (Some a)
                  else find2 n' m start size (a + 1) value
      end
    end
  end.

(** umbra_64.c:1209-1286 [umbra_value_in_shadow_memory_arch]: the result carries
    [Some a] when [*found] is set and [*app_addr = a]. *)
Definition value_in_arch (m : umap) (st : ustate) (addr size value vsize : Z)
  : res (ustate * status * option Z) :=
  if (65535 <? value) || negb ((vsize =? 1) || (vsize =? 2)) then Ok (st, S_notimpl, None)
  else if add_ovf addr (w64 (size - 1)) then Ok (st, S_badsize, None)
  else
    let* r := app_range_loop m addr size
      (fun blk start iter st =>
         let shadow_start := xl8 m start in
         let* e := block_exist m st shadow_start in
         if negb e then
           if negb (on_touch m) then Ok (st, Some (S_param, None))
           else
             let* r := create_arch m st blk (app_bs m) (dflt m) in
             let '(st', s) := r in
             if negb (is_ok s) then Ok (st', Some (s, None))
             else if (value =? dflt m) && (vsize =? 1) then Ok (st', Some (S_ok, Some start))
             else Ok (st', None)
         else
           let n := to_shadow (sc m) iter in
           let* f := if vsize =? 1 then m_chr (Z.to_nat n) (sm st) shadow_start (value mod 256)
                     else if 0 <? n then
                       find2 (S (Z.to_nat n)) (sm st) shadow_start n shadow_start value
                     else Ok None in
           match f with
           | None => Ok (st, None)
           | Some a =>
             let found := w64 (start + to_app (sc m) (a - shadow_start)) in
             if w64 (addr + size) <? found then Ok (st, Some (S_ok, None))
             else Ok (st, Some (S_ok, Some found))
           end) st in
    let '(st', o) := r in
    match o with
    | None => Ok (st', S_ok, None)
    | Some (s, f) => Ok (st', s, f)
    end.

Inductive stype := NotShadow | NotAlloc | Normal.

(** umbra_64.c:1389-1418 [umbra_get_shadow_memory_type_arch]. *)
Fixpoint get_type_in (m : umap) (st : ustate) (a : Z) (l : list seg) : res stype :=
  match l with
  | [] => Ok NotShadow
  | s :: l' =>
    if ((ab s <=? a) && (a <? ae s)) || ((rb s <=? a) && (a <=? re s)) then Ok NotShadow
    else if (sb s <=? a) && (a <=? se s) then
      let* e := block_exist m st a in
      Ok (if e then Normal else NotAlloc)
    else get_type_in m st a l'
  end.
Definition get_type (m : umap) (st : ustate) (a : Z) : res stype :=
  get_type_in m st a (segs st).

(** umbra_64.c:1420-1443 [umbra_get_shadow_memory_arch]. *)
Record info := Info { i_app_base : Z; i_app_size : Z; i_sh_base : Z; i_sh_size : Z;
                      i_type : stype }.
Definition get_shadow_memory (m : umap) (st : ustate) (addr : Z) : res (Z * info) :=
  let b := align_backward addr (app_bs m) in
  let s := xl8 m b in
  let* t := get_type m st s in
  Ok (xl8 m addr, Info b (app_bs m) s (sh_bs m) t).

(** umbra_64.c:1564-1592 [umbra_handle_fault], the fault inside a shadow range. *)
Fixpoint fault_app (m : umap) (target : Z) (l : list seg) : option Z :=
  match l with
  | [] => None
  | s :: l' =>
    if hasmap s && (sb s <=? target) && (target <? se s)
    then Some (w64 (ab s + to_app (sc m) (target - sb s)))
    else fault_app m target l'
  end.
Definition handle_fault (m : umap) (st : ustate) (target : Z) : res (ustate * bool) :=
  match fault_app m target (segs st) with
  | Some a => let* r := create_arch m st a 8 (dflt m) in Ok (fst r, true)
  | None => Ok (st, false)
  end.

(** umbra.c:430-628: the exported entry points. *)
Definition umbra_create (m : umap) (st : ustate) (addr size value : Z) : res (ustate * status) :=
  if size =? 0 then Ok (st, S_ok) else create_arch m st addr size value.
Definition umbra_delete (m : umap) (st : ustate) (addr size : Z) : res (ustate * status) :=
  if size =? 0 then Ok (st, S_ok)
  else let* r := delete_arch m st addr size in Ok (fst r).
Definition umbra_read (m : umap) (st : ustate) (addr size cap : Z) :=
  if size =? 0 then Ok (st, S_ok, []) else read_arch m st addr size cap.
Definition umbra_write (m : umap) (st : ustate) (addr size cap : Z) (buf : list Z) :=
  if size =? 0 then Ok (st, S_ok, 0)
  else write_arch m st addr size cap (buf_of_list buf).
Definition umbra_set_range (m : umap) (st : ustate) (addr size value : Z) :=
  if w64 (addr + size) <? addr then Ok (st, S_param, 0)
  else if size =? 0 then Ok (st, S_ok, 0) else set_range_arch m st addr size value.
Definition umbra_copy_range (m : umap) (st : ustate) (src dst size : Z) :=
  if (size =? 0) || (src =? dst) then Ok (st, S_ok, 0) else copy_arch m st src dst size.
Definition umbra_value_in (m : umap) (st : ustate) (addr size value vsize : Z) :=
  if size =? 0 then Ok (st, S_ok, None) else value_in_arch m st addr size value vsize.
