(** Model of Dr. Memory's application-memory shadow: drmemory/shadow.c on top of
    the Umbra model, X64 Linux, two bits per byte (MAP_4B_TO_1B false).
    Not modelled: logging, ASSERTs (release build), 32-bit shared blocks,
    concurrent access. *)
From Verif Require Import Base Mem Umbra_Model.
Open Scope Z_scope.

Definition w32 (x : Z) : Z := x mod 2 ^ 32.

(** shadow.h:55-58. *)
Definition DEFINED : Z := 0.
Definition UNADDR : Z := 1.
Definition BITLEVEL : Z := 2.
Definition UNDEFINED : Z := 3.

(** shadow.h:69-72, shadow.c:216-230 [shadow_value_byte_2_dword]. *)
Definition byte_2_dword (v : Z) : Z :=
  if v =? UNADDR then 0x55 else if v =? UNDEFINED then 0xff
  else if v =? DEFINED then 0 else if v =? BITLEVEL then 0xaa else 0x55.

(** shadow.h:74-77, shadow.c:259-262: [val_to_qword]. *)
Definition val_to_qword (v : Z) : Z := byte_2_dword v * 257.

(** shadow.c:74-81 [set_2bits_inline]. *)
Definition set_2bits (orig val shift : Z) : Z :=
  let orig := Z.land orig (Z.lor (w32 (Z.shiftl (Z.lor 0xfffffffc val) shift))
                                 (w32 (Z.lnot (w32 (Z.shiftl 0xffffffff shift))))) in
  Z.lor orig (w32 (Z.shiftl val shift)).

(** shadow.c:57-70 [bitmapx2_get]: the bitmap is an array of [uint]. *)
Definition bitmapx2_get (mm : mem) (bm i : Z) : res Z :=
  let* w := loadn 4 mm (bm + 4 * (i / 16)) in
  Ok (Z.land (Z.shiftr w (i mod 16 * 2)) 3).
(** shadow.c:90-102 [bitmapx2_set]. *)
Definition bitmapx2_set (mm : mem) (bm i val : Z) : res mem :=
  let* w := loadn 4 mm (bm + 4 * (i / 16)) in
  storen 4 mm (bm + 4 * (i / 16)) (set_2bits w val (i mod 16 * 2)).
(** shadow.c:104-119 [bitmapx2_byte], [bitmapx2_ushort]. *)
Definition bitmapx2_bits (mm : mem) (bm i mask : Z) : res Z :=
  let* w := loadn 4 mm (bm + 4 * (i / 16)) in
  Ok (Z.land (Z.shiftr w (i mod 16 * 2)) mask).

(** [umbra_shadow_memory_info_init]: a zeroed cache. *)
Definition info0 : info := Info 0 0 0 0 NotShadow.

(** shadow.c:362-371: the query common to the accessors. *)
Definition get_info (m : umap) (st : ustate) (inf : info) (addr : Z) : res info :=
  if (addr <? i_app_base inf) || (w64 (i_app_base inf + i_app_size inf) <=? addr)
  then let* r := get_shadow_memory m st addr in Ok (snd r)
  else Ok inf.

Definition is_normal (t : stype) : bool := match t with Normal => true | _ => false end.

(** shadow.c:358-382 [shadow_get_byte]. *)
Definition get_byte (m : umap) (st : ustate) (inf : info) (addr : Z) : res (Z * info) :=
  let* inf := get_info m st inf addr in
  if is_normal (i_type inf) then
    let* v := bitmapx2_get (sm st) (i_sh_base inf) (w32 (addr - i_app_base inf)) in Ok (v, inf)
  else Ok (UNADDR, inf).

(** shadow.c:386-410 [shadow_get_dword]. *)
Definition get_dword (m : umap) (st : ustate) (inf : info) (addr : Z) : res (Z * info) :=
  let* inf := get_info m st inf addr in
  if is_normal (i_type inf) then
    let* v := bitmapx2_bits (sm st) (i_sh_base inf)
                (w32 (w64 (align_backward addr 4 - i_app_base inf))) 0xff in
    Ok (v, inf)
  else Ok (0x55, inf).

(** shadow.c:412-437 [shadow_get_qword]. *)
Definition get_qword (m : umap) (st : ustate) (inf : info) (addr : Z) : res (Z * info) :=
  let* inf := get_info m st inf addr in
  if is_normal (i_type inf) then
    let* v := bitmapx2_bits (sm st) (i_sh_base inf)
                (w32 (w64 (align_backward addr 8 - i_app_base inf))) 0xffff in
    Ok (v, inf)
  else Ok (0x55, inf).

(** shadow.c:450-511 [shadow_set_byte]; [UB] also stands for [dr_abort]. *)
Definition set_byte (m : umap) (st : ustate) (inf : info) (addr val : Z) : res (ustate * info) :=
  let* inf := get_info m st inf addr in
  let put st inf :=
    let* mm := bitmapx2_set (sm st) (i_sh_base inf) (w32 (addr - i_app_base inf)) val in
    Ok (with_sm st mm, inf) in
  match i_type inf with
  | NotShadow => UB
  | NotAlloc =>
    let* g := get_byte m st inf addr in
    if val =? fst g then Ok (st, inf)
    else
      let* r := umbra_create m st (i_app_base inf) (i_app_size inf) 0x55 in
      let '(st1, s) := r in
      if negb (is_ok s) then UB
      else
        let* q := get_shadow_memory m st1 addr in
        put st1 (snd q)
  | Normal => put st inf
  end.

(** The byte loops of [shadow_set_range] (shadow.c:630-637, 650-656). *)
Fixpoint set_while (n : nat) (m : umap) (st : ustate) (inf : info) (pc lim val : Z)
  : res (ustate * info) :=
  match n with
  | O => Fuel
  | S n' =>
    if pc <? lim then
      let* r := set_byte m st inf pc val in
      let '(st, inf) := r in
      if add_ovf pc 1 then Ok (st, inf) else set_while n' m st inf (w64 (pc + 1)) lim val
    else Ok (st, inf)
  end.

(** shadow.c:604-658 [shadow_set_range]; a failing [umbra_shadow_set_range] is
    ignored in the release build. *)
Definition set_range (m : umap) (st : ustate) (start end_ val : Z) : res ustate :=
  if end_ <=? start then Ok st
  else
    let as_ := align_forward start 4 in
    let ae_ := align_backward end_ 4 in
    let* r := set_while 5 m st info0 start (Z.min as_ end_) val in
    let '(st, inf) := r in
    let* st := if as_ <? ae_ then
                 let* r := umbra_set_range m st as_ (ae_ - as_) (byte_2_dword val) in
                 Ok (fst (fst r))
               else Ok st in
    if as_ <=? ae_ then
      let* r := set_while 5 m st inf ae_ end_ val in
      Ok (fst r)
    else Ok st.

(** The index loops: [i] is a [uint], so a size of 2^32 or more never ends. *)
Fixpoint get_loop (n : nat) (m : umap) (st : ustate) (inf : info) (start i size : Z)
  : res (list Z * info) :=
  match n with
  | O => Fuel
  | S n' =>
    if i <? size then
      let* r := get_byte m st inf (w64 (start + i)) in
      let* q := get_loop n' m st (snd r) start (w32 (i + 1)) size in
      Ok (fst r :: fst q, snd q)
    else Ok ([], inf)
  end.
Fixpoint put_loop (n : nat) (m : umap) (st : ustate) (inf : info) (start i size : Z)
         (src : list Z) : res (ustate * info) :=
  match n with
  | O => Fuel
  | S n' =>
    if i <? size then
      match src with
      | [] => UB
      | v :: src' =>
        let* r := set_byte m st inf (w64 (start + i)) v in
        put_loop n' m (fst r) (snd r) start (w32 (i + 1)) size src'
      end
    else Ok (st, inf)
  end.
Definition fuel (size : Z) : nat := S (Z.to_nat size).

(** shadow.c:660-730 [shadow_copy_range]. *)
Definition copy_range (m : umap) (st : ustate) (old_start new_start size : Z) : res ustate :=
  let head_bit := old_start mod 4 in
  if negb (head_bit =? new_start mod 4) then
    let* r := get_loop (fuel size) m st info0 old_start 0 size in
    let* q := put_loop (fuel size) m st info0 new_start 0 size (fst r) in
    Ok (fst q)
  else
    let old_end0 := w64 (old_start + size) in
    let tail_bit := old_end0 mod 4 in
    let head_n := if head_bit =? 0 then 0 else 4 - head_bit in
    let* h := get_loop (fuel head_n) m st info0 old_start 0 head_n in
    let old_end := if tail_bit =? 0 then old_end0 else align_backward old_end0 4 in
    let* t := get_loop (fuel tail_bit) m st (snd h) old_end 0 tail_bit in
    let old_pc := align_forward old_start 4 in
    let* st := if old_pc <? old_end then
                 let* r := umbra_copy_range m st old_pc (align_forward new_start 4)
                                            (old_end - old_pc) in
                 Ok (fst (fst r))
               else Ok st in
    let* a := put_loop (fuel head_n) m st info0 new_start 0 head_n (fst h) in
    let* b := put_loop (fuel tail_bit) m (fst a) (snd a)
                (align_backward (w64 (new_start + size)) 4) 0 tail_bit (fst t) in
    Ok (fst b).

(** shadow.c:732-755 [shadow_set_non_matching_range]. *)
Fixpoint non_matching_loop (n : nat) (m : umap) (st : ustate) (inf : info) (cur end_ val val_not : Z)
  : res ustate :=
  match n with
  | O => Fuel
  | S n' =>
    if cur =? end_ then Ok st
    else
      let* g := get_byte m st inf cur in
      let '(v, inf) := g in
      let* r := if v =? val_not then Ok (st, inf) else set_byte m st inf cur val in
      non_matching_loop n' m (fst r) (snd r) (w64 (cur + 1)) end_ val val_not
  end.
Definition set_non_matching (m : umap) (st : ustate) (start size val val_not : Z) : res ustate :=
  non_matching_loop (fuel size) m st info0 start (w64 (start + size)) val val_not.

(** shadow.c:757-768 [dqword_to_val]. *)
Definition dqword_to_val (d : Z) : option Z :=
  if d =? 0x55555555 then Some UNADDR else if d =? 0xffffffff then Some UNDEFINED
  else if d =? 0 then Some DEFINED else if d =? 0xaaaaaaaa then Some BITLEVEL else None.

(** shadow.c:784-838 [shadow_check_range]; [want_end]: [bad_end] is not NULL.
    The result is [res], [*bad_start] with [*bad_state], and [*bad_end]. *)
Record check := Check { c_res : bool; c_bad : option (Z * Z); c_end : option Z }.
Fixpoint check_loop (n : nat) (m : umap) (st : ustate) (inf : info) (pc lim expect : Z)
         (want_end : bool) (bad : option (Z * Z)) (last : Z) : res check :=
  let finish pc val :=
    match bad with
    | None => Check true None None
    | Some (s, b) => Check false bad (if want_end && (val =? b) then Some pc else None)
    end in
  match n with
  | O => Fuel
  | S n' =>
    if pc <? lim then
      let* g := get_byte m st inf pc in
      let '(v, inf) := g in
      let '(val, incr) :=
        if negb (pc mod 16 =? 0) then (v, 1)
        else match dqword_to_val v with
             | None => (v, 1)
             | Some d => (d, 16)
             end in
      match bad with
      | Some (s, b) =>
        if negb (val =? b) || negb want_end then
          Ok (Check false bad (if want_end then Some pc else None))
        else check_loop n' m st inf (w64 (pc + incr)) lim expect want_end bad val
      | None =>
        if negb (val =? expect)
        then check_loop n' m st inf (w64 (pc + incr)) lim expect want_end (Some (pc, val)) val
        else check_loop n' m st inf (w64 (pc + incr)) lim expect want_end None val
      end
    else Ok (finish pc last)
  end.
Definition check_range (m : umap) (st : ustate) (start size expect : Z) (want_end : bool) : res check :=
  check_loop (fuel size) m st info0 start (w64 (start + size)) expect want_end None 0.

(** shadow.c:848-873 [shadow_check_range_backward]: [Some a] = mismatch at [a]. *)
Fixpoint back_loop (n : nat) (m : umap) (st : ustate) (inf : info) (pc stop expect : Z)
  : res (option Z) :=
  match n with
  | O => Fuel
  | S n' =>
    if stop <? pc then
      let* g := get_byte m st inf pc in
      if negb (fst g =? expect) then Ok (Some pc)
      else back_loop n' m st (snd g) (w64 (pc - 1)) stop expect
    else Ok None
  end.
Definition check_backward (m : umap) (st : ustate) (start size expect : Z) : res (option Z) :=
  back_loop (fuel size) m st info0 start (w64 (start - size)) expect.

(** shadow.c:878-895 [shadow_next_dword]. *)
Definition next_dword (m : umap) (st : ustate) (start end_ expect : Z) : res (ustate * option Z) :=
  let* r := umbra_value_in m st start (w64 (end_ - start)) (byte_2_dword expect) 1 in
  Ok (fst (fst r), snd r).

(** shadow.c:939-960 [shadow_next_ptrsz]. *)
Definition next_ptrsz (m : umap) (st : ustate) (start end_ expect : Z) : res (ustate * option Z) :=
  if end_ <? start then Ok (st, None)
  else
    let* r := umbra_value_in m st start (w64 (end_ - start)) (val_to_qword expect) 2 in
    Ok (fst (fst r), snd r).

(** shadow.c:911-922: the backward byte search inside one block. *)
Fixpoint prev_in (n : nat) (mm : mem) (base shadow v : Z) : res (option Z) :=
  match n with
  | O => Fuel
  | S n' =>
    if base <=? shadow then
      match mm shadow with
      | None => UB
      | Some b => if b =? v then Ok (Some shadow) else prev_in n' mm base (shadow - 1) v
      end
    else Ok None
  end.
(** shadow.c:897-934 [shadow_prev_dword]. *)
Fixpoint prev_loop (n : nat) (m : umap) (st : ustate) (inf : info) (pc end_ expect : Z) : res (option Z) :=
  match n with
  | O => Fuel
  | S n' =>
    if end_ <? pc then
      let* g := get_byte m st inf pc in
      let inf := snd g in
      let ss := i_sh_base inf + (pc - i_app_base inf) * 4 / 16 in
      let* f := prev_in (S (Z.to_nat (ss - i_sh_base inf + 1))) (sm st) (i_sh_base inf) ss
                        (byte_2_dword expect) in
      match f with
      | Some a => let pc := pc - (ss - a) * 4 in Ok (if end_ <? pc then Some pc else None)
      | None => prev_loop n' m st inf (i_app_base inf - 1) end_ expect
      end
    else Ok None
  end.
Definition prev_dword (m : umap) (st : ustate) (start end_ expect : Z) : res (option Z) :=
  prev_loop (S (S (Z.to_nat ((start - end_) / app_bs m + 1)))) m st info0 start end_ expect.

(** shadow.c:173-182, 552-580 [shadow_save_region]: the buffer has exactly the
    bytes requested of the allocator, with arbitrary content [garbage]; the
    loop writes whole [uint]s. *)
Definition saved_bytes (size : Z) : Z := align_forward size 4 / 4.
Definition fresh (n : Z) (garbage : Z -> Z) : mem :=
  fun a => if (0 <=? a) && (a <? n) then Some (garbage a mod 256) else None.
Fixpoint save_loop (n : nat) (m : umap) (st : ustate) (inf : info) (buf : mem) (start i size : Z) : res mem :=
  match n with
  | O => Fuel
  | S n' =>
    if i <? size then
      let* g := get_byte m st inf (w64 (start + i)) in
      let* buf := bitmapx2_set buf 0 i (fst g) in
      save_loop n' m st (snd g) buf start (w32 (i + 1)) size
    else Ok buf
  end.
Definition save_region (m : umap) (st : ustate) (garbage : Z -> Z) (start size : Z) : res mem :=
  save_loop (fuel size) m st info0 (fresh (saved_bytes size) garbage) start 0 size.

(** shadow.c:582-592 [shadow_restore_region]. *)
Fixpoint restore_loop (n : nat) (m : umap) (st : ustate) (inf : info) (buf : mem) (start i size : Z) : res ustate :=
  match n with
  | O => Fuel
  | S n' =>
    if i <? size then
      let* v := bitmapx2_get buf 0 i in
      let* r := set_byte m st inf (w64 (start + i)) v in
      restore_loop n' m (fst r) (snd r) buf start (w32 (i + 1)) size
    else Ok st
  end.
Definition restore_region (m : umap) (st : ustate) (buf : mem) (start size : Z) : res ustate :=
  restore_loop (fuel size) m st info0 buf start 0 size.
