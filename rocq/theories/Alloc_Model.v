(** The replacement allocator: common/alloc_replace.c (Linux, 64-bit, headers in the
    heap).  A chunk is named by the address handed to the application; its header lies
    at a fixed distance below (alloc_replace.c:795-822) and is a record here, so a
    pointer to a header is the chunk's address.  What each write of a header does to
    the bytes of memory is kept as well ([mem], with arbitrary bytes [junk] written).
    The kernel's answers are given with each call.  Left out: locks, the client's
    callbacks and user_data, statistics, and heaps of other modules (Windows). *)
From Verif Require Import Base.
Open Scope Z_scope.

(** alloc_replace.c:113-124 *)
Definition CHUNK_ALIGNMENT := 16.
Definition CHUNK_MIN_SIZE := 16.
Definition CHUNK_MIN_MMAP := 128 * 1024.
Definition ARENA_INITIAL_SIZE := 4 * 1024 * 1024.
Definition PAGE_SIZE := 4096.
Definition LARGE_MALLOC_MIN_SIZE := 12 * 1024.  (* alloc_private.h:374 *)
Definition UINT_MAX := 2 ^ 32 - 1.
Definition USHRT_MAX := 65535.
(** heapsz_t arithmetic (alloc_replace.c:127) *)
Definition u32 (x : Z) := x mod 2 ^ 32.
(** utils.h:181-184, 197, for powers of two *)
Definition ALIGNED (x a : Z) : bool := x mod a =? 0.
Definition ALIGN_FORWARD (x a : Z) : Z := (x + (a - 1)) / a * a.
Definition IS_POWER_OF_2 (x : Z) : bool := negb (x =? 0) && (Z.land x (x - 1) =? 0).

(** alloc_replace.c:129-136 [free_list_sizes] *)
Definition free_list_sizes : list Z :=
  [16; 24; 32; 40; 64; 96; 128; 192; 256; 384; 512; 1024; 2048; 4096; 8192; 16384; 32768].
Definition NUM_FREE_LISTS : nat := 17.
Definition bucket_size (b : nat) : Z := nth b free_list_sizes 0.

(** alloc_replace.c:166-222, 245-259 [chunk_header_t, free_header_t]: the flags used here
    one by one, MALLOC_ALLOCATOR_* as [h_type]; the three views of the union as three
    fields, [None] where another view has been written since; NULL is 0.  [h_far] is the
    size stored "immediately prior to the redzone" (set_prev_size_field). *)
Record hdr := Hdr {
  h_alloc : Z; h_freed : bool; h_mmap : bool; h_pfree : bool; h_delay : bool; h_skip : bool;
  h_type : Z; h_diff : option Z; h_shr : option Z; h_prv : option Z; h_nxt : Z; h_far : Z }.
Definition set_alloc h v := Hdr v (h_freed h) (h_mmap h) (h_pfree h) (h_delay h) (h_skip h) (h_type h) (h_diff h) (h_shr h) (h_prv h) (h_nxt h) (h_far h).
Definition set_freed h v := Hdr (h_alloc h) v (h_mmap h) (h_pfree h) (h_delay h) (h_skip h) (h_type h) (h_diff h) (h_shr h) (h_prv h) (h_nxt h) (h_far h).
Definition set_pfree h v := Hdr (h_alloc h) (h_freed h) (h_mmap h) v (h_delay h) (h_skip h) (h_type h) (h_diff h) (h_shr h) (h_prv h) (h_nxt h) (h_far h).
Definition set_delay h v := Hdr (h_alloc h) (h_freed h) (h_mmap h) (h_pfree h) v (h_skip h) (h_type h) (h_diff h) (h_shr h) (h_prv h) (h_nxt h) (h_far h).
Definition set_skip h v := Hdr (h_alloc h) (h_freed h) (h_mmap h) (h_pfree h) (h_delay h) v (h_type h) (h_diff h) (h_shr h) (h_prv h) (h_nxt h) (h_far h).
Definition set_type h v := Hdr (h_alloc h) (h_freed h) (h_mmap h) (h_pfree h) (h_delay h) (h_skip h) v (h_diff h) (h_shr h) (h_prv h) (h_nxt h) (h_far h).
Definition set_diff h v := Hdr (h_alloc h) (h_freed h) (h_mmap h) (h_pfree h) (h_delay h) (h_skip h) (h_type h) (Some v) (h_shr h) None (h_nxt h) (h_far h).
Definition set_shr h v := Hdr (h_alloc h) (h_freed h) (h_mmap h) (h_pfree h) (h_delay h) (h_skip h) (h_type h) (h_diff h) (Some v) None (h_nxt h) (h_far h).
Definition set_prv h v := Hdr (h_alloc h) (h_freed h) (h_mmap h) (h_pfree h) (h_delay h) (h_skip h) (h_type h) None None (Some v) (h_nxt h) (h_far h).
Definition set_nxt h v := Hdr (h_alloc h) (h_freed h) (h_mmap h) (h_pfree h) (h_delay h) (h_skip h) (h_type h) (h_diff h) (h_shr h) (h_prv h) v (h_far h).
Definition set_far h v := Hdr (h_alloc h) (h_freed h) (h_mmap h) (h_pfree h) (h_delay h) (h_skip h) (h_type h) (h_diff h) (h_shr h) (h_prv h) (h_nxt h) v.

(** alloc_replace.c:290-338 [arena_header_t]: address, start_chunk, next_chunk,
    commit_end (= reserve_end on Linux) and prev_free_sz; next_arena is the list order *)
Record arena := Arena { a_base : Z; a_start : Z; a_next : Z; a_commit : Z; a_pfsz : Z }.
(** heap_region_add &c. (C09 is about the tree): start, end and whether HEAP_MMAP *)
Record region := Region { r_lo : Z; r_hi : Z; r_mmap : bool }.
Record state := St {
  hd : Z -> option hdr;                  (* readable headers with the magic *)
  arenas : list arena;                   (* the main arena first *)
  front : nat -> Z; last : nat -> Z;     (* free lists *)
  dfront : Z; dlast : Z; dchunks : Z; dbytes : Z;
  cur_brk : Z;
  mhead : Z -> option (Z * Z);           (* mmap_header_t: chunk and map_size, by map *)
  regions : list region;
  large : list (Z * Z);                  (* the large malloc table: start and size *)
  mem : Z -> Z }.
Definition with_hd s v := St v (arenas s) (front s) (last s) (dfront s) (dlast s) (dchunks s) (dbytes s) (cur_brk s) (mhead s) (regions s) (large s) (mem s).
Definition with_arenas s v := St (hd s) v (front s) (last s) (dfront s) (dlast s) (dchunks s) (dbytes s) (cur_brk s) (mhead s) (regions s) (large s) (mem s).
Definition with_front s v := St (hd s) (arenas s) v (last s) (dfront s) (dlast s) (dchunks s) (dbytes s) (cur_brk s) (mhead s) (regions s) (large s) (mem s).
Definition with_last s v := St (hd s) (arenas s) (front s) v (dfront s) (dlast s) (dchunks s) (dbytes s) (cur_brk s) (mhead s) (regions s) (large s) (mem s).
Definition with_delay s f l n b := St (hd s) (arenas s) (front s) (last s) f l n b (cur_brk s) (mhead s) (regions s) (large s) (mem s).
Definition with_brk s v := St (hd s) (arenas s) (front s) (last s) (dfront s) (dlast s) (dchunks s) (dbytes s) v (mhead s) (regions s) (large s) (mem s).
Definition with_mhead s v := St (hd s) (arenas s) (front s) (last s) (dfront s) (dlast s) (dchunks s) (dbytes s) (cur_brk s) v (regions s) (large s) (mem s).
Definition with_regions s v := St (hd s) (arenas s) (front s) (last s) (dfront s) (dlast s) (dchunks s) (dbytes s) (cur_brk s) (mhead s) v (large s) (mem s).
Definition with_large s v := St (hd s) (arenas s) (front s) (last s) (dfront s) (dlast s) (dchunks s) (dbytes s) (cur_brk s) (mhead s) (regions s) v (mem s).
Definition with_mem s v := St (hd s) (arenas s) (front s) (last s) (dfront s) (dlast s) (dchunks s) (dbytes s) (cur_brk s) (mhead s) (regions s) (large s) v.
Definition upd {A} (f : Z -> A) (x : Z) (v : A) : Z -> A := fun y => if y =? x then v else f y.
Definition updn {A} (f : nat -> A) (x : nat) (v : A) : nat -> A := fun y => if (y =? x)%nat then v else f y.
Fixpoint set_nth {A} (l : list A) (i : nat) (v : A) : list A :=
  match l, i with [], _ => [] | _ :: t, O => v :: t | x :: t, S j => x :: set_nth t j v end.

(** alloc_ops and the blocks that were there before the tool (pre_us_table: request and
    alloc size; nothing ever marks one of them freed) *)
Record cfg := Cfg {
  redzone : Z; shared : bool; delay_frees : Z; delay_frees_maxsz : Z;
  pre_us : Z -> option (Z * Z);
  junk : Z -> Z }.
(** One call's answers of the kernel: mmap of a size; mremap of a base to a size; brk
    to an address (granted, or left as it was). *)
Record os := Os { o_map : Z -> option Z; o_grow : Z -> Z -> bool; o_brk : Z -> bool }.

Section Alloc.
Context (c : cfg).

(** alloc_replace.c:5258-5293, sizeof(chunk_header_t) = 32 and sizeof(free_header_t) = 40 *)
Definition header_size : Z := if shared c then 32 else 48.
Definition header_beyond_redzone : Z :=
  if negb (shared c) then header_size
  else if redzone c <? header_size then header_size - redzone c else 0.
Definition redzone_beyond_header : Z :=
  if negb (shared c) then redzone c
  else if redzone c <? header_size then 0 else (redzone c - header_size) / 2.
(** alloc_replace.c:844-849 [inter_chunk_space] *)
Definition inter : Z :=
  redzone c + header_beyond_redzone + (if shared c then 0 else redzone c).
(** alloc_replace.c:795-822 [header_from_ptr, ptr_from_header] *)
Definition header_at (p : Z) : Z := p - redzone_beyond_header - header_size.

(** Reading a header, through a pointer that is trusted *)
Definition geth (s : state) (p : Z) : res hdr := of_option (hd s p).
Definition scribble (s : state) (lo hi : Z) : state :=
  with_mem s (fun x => if (lo <=? x) && (x <? hi) then junk c x else mem s x).
(** Writing to fields of chunk_header_t *)
Definition seth (s : state) (p : Z) (h : hdr) : state :=
  scribble (with_hd s (upd (hd s) p (Some h))) (header_at p) (header_at p + 32).
(** Writing free_header_t.next *)
Definition setnext (s : state) (p : Z) (v : Z) : res state :=
  let* h := geth s p in
  Ok (scribble (with_hd s (upd (hd s) p (Some (set_nxt h v)))) (header_at p + 32) (header_at p + 40)).
Definition upd_arena (s : state) (i : nat) (f : arena -> arena) : state :=
  with_arenas s (match nth_error (arenas s) i with Some a => set_nth (arenas s) i (f a) | None => arenas s end).
Definition set_a_pfsz a v := Arena (a_base a) (a_start a) (a_next a) (a_commit a) v.

(** alloc_replace.c:766-770 [chunk_request_size] *)
Definition chunk_request_size (h : hdr) : res Z :=
  let* d := of_option (h_diff h) in Ok (u32 (h_alloc h - d)).

(** alloc_replace.c:1135-1140 [arena_delayed_list_full] *)
Definition delayed_list_full (s : state) : bool :=
  (delay_frees c <=? dchunks s) || (delay_frees_maxsz c <=? dbytes s).

(** the walk over [next_arena] from arena number [i]: first arena holding [p] *)
Fixpoint arena_of (l : list arena) (i : nat) (p : Z) : option (nat * arena) :=
  match l with
  | [] => None
  | a :: t => if (a_start a <=? p) && (p <? a_commit a) then Some (i, a) else arena_of t (S i) p
  end.
Definition container (s : state) (i : nat) (p : Z) : option (nat * arena) :=
  arena_of (skipn i (arenas s)) i p.

(** alloc_replace.c:1142-1164 [next_chunk_forward]: the next chunk, or the arena that
    ends here, or neither *)
Inductive next := Next (n : Z) | Ends (j : nat) | Nowhere.
Definition next_chunk_forward (s : state) (i : nat) (p : Z) : res next :=
  let* h := geth s p in
  match container s i p with
  | Some (j, a) =>
      let n := p + h_alloc h + inter in
      Ok (if n <? a_next a then Next n else Ends j)
  | None => Ok Nowhere
  end.

(** alloc_replace.c:1168-1196 [set_prev_size_field] *)
Definition set_prev_size_field (s : state) (i : nat) (p : Z) : res state :=
  let* h := geth s p in
  let* nx := next_chunk_forward s i p in
  match nx with
  | Next n =>
      let* hn := geth s n in
      let hn := set_pfree hn true in
      if h_alloc h / CHUNK_MIN_SIZE <=? USHRT_MAX then
        Ok (seth s n (set_shr hn (h_alloc h / CHUNK_MIN_SIZE)))
      else
        let rz := header_at n - inter in
        Ok (scribble (seth s n (set_far (set_shr hn 0) (h_alloc h))) (rz - 4) rz)
  | Ends j => Ok (upd_arena s j (fun a => set_a_pfsz a (h_alloc h)))
  | Nowhere => UB        (* container is NULL *)
  end.

(** alloc_replace.c:1198-1210 [get_prev_size_field] *)
Definition get_prev_size_field (h : hdr) : res Z :=
  let* v := of_option (h_shr h) in
  Ok (if v =? 0 then h_far h else u32 (v * CHUNK_MIN_SIZE)).

(** alloc_replace.c:1221-1235 [bucket_index]; IF_GCC_WARN drops its argument, so a size
    below the first bucket would index before the table *)
Fixpoint bucket_down (sz : Z) (b : nat) : res nat :=
  if sz <? bucket_size b then match b with O => UB | S b' => bucket_down sz b' end else Ok b.
Definition bucket_index (h : hdr) : res nat :=
  bucket_down (h_alloc h) (if bucket_size 6 <? h_alloc h then 16%nat else 6%nat).

(** alloc_replace.c:1237-1257 [remove_from_free_list]; [b] is [None] for UINT_MAX *)
Definition remove_from_free_list (s : state) (t : Z) (b : option nat) : res state :=
  let* h := geth s t in
  let* prv := of_option (h_prv h) in
  let* k := match b with
            | Some k => Ok k
            | None => if (prv =? 0) || (h_nxt h =? 0) then bucket_index h else Ok O
            end in
  let* s := if prv =? 0 then Ok (with_front s (updn (front s) k (h_nxt h)))
            else setnext s prv (h_nxt h) in
  if h_nxt h =? 0 then Ok (with_last s (updn (last s) k prv))
  else let* hn := geth s (h_nxt h) in
       Ok (seth s (h_nxt h) (set_prv hn prv)).

(** alloc_replace.c:1259-1277 [add_to_free_list] *)
Definition add_to_free_list (s : state) (p : Z) : res state :=
  let* h := geth s p in
  let* b := bucket_index h in
  let* s := setnext s p 0 in
  let* h := geth s p in
  let* s := if last s b =? 0 then
              Ok (seth (with_front s (updn (front s) b p)) p (set_prv h 0))
            else setnext (seth s p (set_prv h (last s b))) (last s b) p in
  Ok (with_last s (updn (last s) b p)).

(** memory returned to the kernel: its headers can no longer be read *)
Definition unmap (s : state) (lo hi : Z) : state :=
  with_hd s (fun p => if (lo <? header_at p + 32) && (header_at p <? hi) then None else hd s p).
Definition set_region (s : state) (lo hi : Z) : state :=
  with_regions s (map (fun r => if r_lo r =? lo then Region lo hi (r_mmap r) else r) (regions s)).
Definition del_region (s : state) (lo : Z) : state :=
  with_regions s (filter (fun r => negb (r_lo r =? lo)) (regions s)).

(** the sub-arenas after number [i]: one that is exactly this chunk *)
Fixpoint whole_arena (l : list arena) (i : nat) (lo hi : Z) : option (nat * arena) :=
  match l with
  | [] => None
  | a :: t => if (a_start a =? lo) && (a_next a =? hi) then Some (i, a) else whole_arena t (S i) lo hi
  end.
Fixpoint remove_nth {A} (l : list A) (i : nat) : list A :=
  match l, i with [], _ => [] | _ :: t, O => t | x :: t, S j => x :: remove_nth t j end.

(** alloc_replace.c:1279-1336 [consider_giving_back_memory]: whether the chunk remains *)
Definition consider_giving_back (o : os) (s : state) (i : nat) (p : Z) : res (state * bool) :=
  let* h := geth s p in
  if ARENA_INITIAL_SIZE / 2 <=? h_alloc h then
    let* a := of_option (nth_error (arenas s) i) in
    let fin := p + h_alloc h + inter in
    let want := ALIGN_FORWARD p PAGE_SIZE in
    let new_brk := if o_brk o want then want else cur_brk s in
    if (a_commit a =? cur_brk s) && (fin =? a_next a) && (new_brk <=? cur_brk s) then
      let s := unmap s new_brk (cur_brk s) in
      let s := set_region s (a_base a) new_brk in
      let s := with_brk s new_brk in
      Ok (upd_arena s i (fun a => Arena (a_base a) (a_start a) p new_brk 0), false)
    else
      match whole_arena (skipn (S i) (arenas s)) (S i) p fin with
      | Some (j, b) =>
          let s := with_arenas s (remove_nth (arenas s) j) in
          let s := del_region s (a_base b) in
          (* arena_deallocate, alloc_replace.c:1031-1041 *)
          Ok (if a_commit b =? cur_brk s then s else unmap s (a_base b) (a_commit b), false)
      | None => Ok (s, true)
      end
  else Ok (s, true).

(** alloc_replace.c:1338-1417 [coalesce_adjacent_frees]: the merged chunk, unless given
    back *)
Definition coalesce (o : os) (s : state) (i : nat) (cur : Z) : res (state * option Z) :=
  let* h := geth s cur in
  let* (s, tofree) :=
    if h_pfree h then
      let* psz := get_prev_size_field h in
      let prev := cur - inter - psz in
      let* s := remove_from_free_list s prev None in
      let* hp := geth s prev in
      Ok (seth s prev (set_alloc hp (u32 (h_alloc hp + (h_alloc h + inter)))), prev)
    else Ok (s, cur) in
  let* nx := next_chunk_forward s i tofree in
  let* mergeable := match nx with
                    | Next n => let* hn := geth s n in
                                Ok (if h_freed hn && negb (h_delay hn) then Some n else None)
                    | _ => Ok None
                    end in
  let* s :=
    match mergeable with
    | Some n =>
        let* s := remove_from_free_list s n None in
        let* hn := geth s n in
        let* ht := geth s tofree in
        let s := seth s tofree (set_alloc ht (u32 (h_alloc ht + (h_alloc hn + inter)))) in
        set_prev_size_field s i tofree
    | None => if negb (tofree =? cur) then set_prev_size_field s i tofree else Ok s
    end in
  let* (s, kept) := consider_giving_back o s i tofree in
  Ok (s, if kept then Some tofree else None).

(** alloc_replace.c:1419-1453 [shift_from_delay_list_to_free_list] *)
Definition shift_from_delay_list (o : os) (s : state) (i : nat) : res (state * bool) :=
  let cur := dfront s in
  if cur =? 0 then Ok (s, false)
  else
    let* h := geth s cur in
    let s := seth s cur (set_delay h false) in
    let s := with_delay s (h_nxt h) (if cur =? dlast s then 0 else dlast s)
                        (dchunks s - 1) (dbytes s - h_alloc h) in
    let* (s, kept) := coalesce o s i cur in
    match kept with
    | None => Ok (s, true)
    | Some p =>
        let* s := set_prev_size_field s i p in
        let* s := add_to_free_list s p in
        Ok (s, true)
    end.

(** the loop at alloc_replace.c:1474-1480; [delayed_chunks] bounds its turns *)
Fixpoint shift_while_full (fuel : nat) (o : os) (s : state) (i : nat) : res state :=
  match fuel with
  | O => Fuel
  | S f =>
      if delayed_list_full s then
        let* (s, more) := shift_from_delay_list o s i in
        if more then shift_while_full f o s i else Ok s
      else Ok s
  end.

(** alloc_replace.c:1455-1481 [add_to_delay_list] *)
Definition add_to_delay_list (o : os) (s : state) (i : nat) (p : Z) : res state :=
  let* s := setnext s p 0 in
  let* h := geth s p in
  let s := seth s p (set_delay h true) in
  let* s := if dlast s =? 0 then Ok (with_delay s p (dlast s) (dchunks s) (dbytes s))
            else setnext s (dlast s) p in
  let s := with_delay s (dfront s) p (dchunks s + 1) (dbytes s + h_alloc h) in
  shift_while_full (S (S (Z.to_nat (dchunks s)))) o s i.

(** alloc_replace.c:1483-1506 [search_free_list_bucket] *)
Fixpoint search_from (fuel : nat) (s : state) (cur aligned : Z) : res Z :=
  match fuel with
  | O => Fuel
  | S f => if cur =? 0 then Ok 0
           else let* h := geth s cur in
                if h_alloc h <? aligned then search_from f s (h_nxt h) aligned else Ok cur
  end.
(** a bound on the number of chunks: the bytes in use in the arenas *)
Definition heap_bytes (s : state) : Z :=
  fold_right (fun a n => Z.max 0 (a_next a - a_start a) + n) 0 (arenas s).
Definition search_free_list_bucket (s : state) (aligned : Z) (b : nat) : res (state * Z) :=
  let* cur := search_from (S (Z.to_nat (heap_bytes s))) s (front s b) aligned in
  if cur =? 0 then Ok (s, 0)
  else let* s := remove_from_free_list s cur (Some b) in Ok (s, cur).

(** alloc_replace.c:1508-1550 [split_piece_for_free_list] *)
Definition blank_hdr (p : Z) : hdr :=
  Hdr 0 false false false false false 0 None None None (junk c p) (junk c p).
Definition split_piece (o : os) (s : state) (i : nat) (p fp fsz psz : Z) : res state :=
  let* h := geth s p in
  let s := seth s p (set_alloc h (u32 psz)) in
  let fh := match hd s fp with Some x => x | None => blank_hdr fp end in
  let fh := set_diff fh 0 in
  let s := seth s fp (Hdr (u32 fsz) true (h_mmap h) (h_pfree h) (h_delay h) (h_skip h) (h_type h)
                          (h_diff fh) (h_shr fh) (h_prv fh) (h_nxt fh) (h_far fh)) in
  let* (s, kept) := coalesce o s i fp in
  match kept with
  | None => Ok s
  | Some q => let* s := set_prev_size_field s i q in add_to_free_list s q
  end.

(** alloc_replace.c:1552-1644 [find_free_list_entry]: 0 for NULL *)
Fixpoint bucket_up (sz : Z) (k : nat) (b : nat) : nat :=
  match k with
  | O => b
  | S k' => if bucket_size b <? sz then bucket_up sz k' (S b) else b
  end.
Fixpoint bucket_nonempty (s : state) (k : nat) (b : nat) : nat :=
  match k with
  | O => b
  | S k' => if front s b =? 0 then bucket_nonempty s k' (S b) else b
  end.
Definition find_free_list_entry (o : os) (s : state) (i : nat) (aligned : Z) : res (state * Z) :=
  let b := bucket_up aligned 16 0 in
  let b := bucket_nonempty s (16 - b) b in
  let* (s, p) :=
    if front s b =? 0 then Ok (s, 0)
    else if (b =? 16)%nat then search_free_list_bucket s aligned b
    else
      let p := front s b in
      let* h := geth s p in
      let s := with_front s (updn (front s) b (h_nxt h)) in
      if p =? last s b then Ok (with_last s (updn (last s) b (h_nxt h)), p)
      else let* hn := geth s (h_nxt h) in
           Ok (seth s (h_nxt h) (set_prv hn 0), p) in
  if p =? 0 then Ok (s, 0)
  else
    let* h := geth s p in
    let* s := if aligned + CHUNK_MIN_SIZE + inter <? h_alloc h then
                split_piece o s i p (p + aligned + inter) (h_alloc h - (aligned + inter)) aligned
              else Ok s in
    let* h := geth s p in
    let s := seth s p (set_type (set_freed h false) 0) in
    let* nx := next_chunk_forward s i p in
    let* s := match nx with
              | Next n => let* hn := geth s n in Ok (seth s n (set_pfree hn false))
              | Ends j => Ok (upd_arena s j (fun a => set_a_pfsz a 0))
              | Nowhere => Ok s
              end in
    Ok (s, p).

(** alloc_replace.c:961-1028 [arena_init] for a sub-arena: sizeof(arena_header_t) = 72 *)
Definition arena_init (base size hsize : Z) : arena :=
  let st := base + ALIGN_FORWARD hsize CHUNK_ALIGNMENT + inter in
  Arena base st st (base + size) 0.
(** alloc_replace.c:1059-1077 [arena_create] *)
Definition arena_create (o : os) (s : state) : state * option nat :=
  match o_map o ARENA_INITIAL_SIZE with
  | None => (s, None)
  | Some b =>
      let s := with_regions s (Region b (b + ARENA_INITIAL_SIZE) false :: regions s) in
      (with_arenas s (arenas s ++ [arena_init b ARENA_INITIAL_SIZE 72]), Some (length (arenas s)))
  end.
(** alloc_replace.c:1079-1133 [arena_extend] of arena number [i] *)
Definition arena_extend (o : os) (s : state) (i : nat) (add : Z) : res (state * option nat) :=
  let aligned_add := u32 (ALIGN_FORWARD add PAGE_SIZE) in
  let* a := of_option (nth_error (arenas s) i) in
  if a_commit a =? cur_brk s then
    let want := cur_brk s + aligned_add in
    let new_brk := if o_brk o want then want else cur_brk s in
    if cur_brk s + add <=? new_brk then
      let s := with_brk s new_brk in
      let s := upd_arena s i (fun a => Arena (a_base a) (a_start a) (a_next a) new_brk (a_pfsz a)) in
      Ok (set_region s (a_base a) new_brk, Some i)
    else Ok (arena_create o s)
  else
    let new_size := a_commit a - a_base a + aligned_add in
    if o_grow o (a_base a) new_size then
      let s := upd_arena s i (fun a => Arena (a_base a) (a_start a) (a_next a) (a_base a + new_size) (a_pfsz a)) in
      Ok (set_region s (a_base a) (a_base a + new_size), Some i)
    else Ok (arena_create o s).

(** alloc_replace.c:1775-1784: the first arena with room, else the last one extended *)
Fixpoint arena_with_room (l : list arena) (i : nat) (add : Z) : option nat :=
  match l with
  | [] => None
  | a :: t => if a_next a + add <=? a_commit a then Some i else arena_with_room t (S i) add
  end.
(** alloc_replace.c:1785-1804, when no memory is to be had *)
Fixpoint drain (fuel : nat) (o : os) (s : state) (i : nat) (aligned : Z) : res (state * Z) :=
  match fuel with
  | O => Fuel
  | S f =>
      if aligned <=? dbytes s then
        let* (s, more) := shift_from_delay_list o s i in
        if more then
          let* (s, p) := find_free_list_entry o s i aligned in
          if p =? 0 then drain f o s i aligned else Ok (s, p)
        else Ok (s, 0)
      else Ok (s, 0)
  end.

(** alloc_replace.c:1805-1829: a new chunk at [next_chunk] of arena [i] *)
Definition carve (s : state) (i : nat) (aligned add : Z) : res (state * Z) :=
  let* a := of_option (nth_error (arenas s) i) in
  let p := a_next a in
  let old := match hd s p with Some x => x | None => blank_hdr p end in
  let s := seth s p (Hdr aligned false false false false false 0 None None None (h_nxt old) (h_far old)) in
  let s := upd_arena s i (fun a => Arena (a_base a) (a_start a) (p + add) (a_commit a) (a_pfsz a)) in
  if a_pfsz a =? 0 then Ok (s, p)
  else
    let* s := set_prev_size_field s i (p - inter - a_pfsz a) in
    Ok (upd_arena s i (fun a => set_a_pfsz a 0), p).

(** alloc_replace.c:1755-1830: where no large mapping is needed; the chunk (0 for
    failure) and the arena variable at the end *)
Definition small_chunk (o : os) (s : state) (aligned : Z) : res (state * Z * nat) :=
  let* (s, p) := find_free_list_entry o s 0 aligned in
  if negb (p =? 0) then Ok (s, p, O)
  else
    let add := u32 (aligned + inter) in
    let lasti := Nat.pred (length (arenas s)) in
    let* (s, i) := match arena_with_room (arenas s) 0 add with
                   | Some i => Ok (s, Some i)
                   | None => arena_extend o s lasti add
                   end in
    match i with
    | None =>
        let* (s, p) := drain (S (S (Z.to_nat (dchunks s)))) o s lasti aligned in
        Ok (s, p, lasti)
    | Some i => let* (s, p) := carve s i aligned add in Ok (s, p, i)
    end.

(** alloc_replace.c:1710-1753: a chunk in a mapping of its own *)
Definition large_chunk (o : os) (s : state) (aligned alignment : Z) : res (state * Z) :=
  let map_size := ALIGN_FORWARD (aligned + 16 + redzone c * 2 + header_beyond_redzone) PAGE_SIZE in
  match o_map o map_size with
  | None => Ok (s, 0)
  | Some m =>
      let r := m + 16 + redzone c + header_beyond_redzone in
      let r := if ALIGNED r alignment then r else ALIGN_FORWARD r alignment in
      let dist := header_at r - m in
      if UINT_MAX <? dist then Ok (s, 0)
      else
        let s := scribble (with_mhead s (upd (mhead s) m (Some (r, map_size)))) m (m + 16) in
        let s := seth s r (Hdr (u32 (m + map_size - redzone c - r)) false true false false false 0
                               None (Some dist) None (junk c r) (junk c r)) in
        Ok (with_regions s (Region m (m + map_size) true :: regions s), r)
  end.

Definition memset0 (s : state) (p n : Z) : state :=
  with_mem s (fun x => if (p <=? x) && (x <? p + n) then 0 else mem s x).
Definition large_add (s : state) (p n : Z) : state := with_large s ((p, n) :: large s).
Definition large_remove (s : state) (p : Z) : state :=
  with_large s (filter (fun x => negb (fst x =? p)) (large s)).

(** alloc_replace.c:1666-1876 [replace_alloc_common]: 0 for NULL *)
Definition alloc_common (o : os) (s : state) (req alignment : Z) (zero : bool) (ty : Z) : res (state * Z) :=
  if (UINT_MAX <? req) || (ALIGN_FORWARD req PAGE_SIZE <? req) then Ok (s, 0)
  else if negb (alignment =? 0) && negb (IS_POWER_OF_2 alignment) then Ok (s, 0)
  else
    let alignment := if alignment <? CHUNK_ALIGNMENT then CHUNK_ALIGNMENT else alignment in
    let aligned := u32 (ALIGN_FORWARD req CHUNK_ALIGNMENT) in
    let aligned := if CHUNK_ALIGNMENT <? alignment
                   then u32 (aligned + (alignment + CHUNK_MIN_SIZE + inter)) else aligned in
    let aligned := if aligned <? CHUNK_MIN_SIZE then CHUNK_MIN_SIZE else aligned in
    let* (s, p, i) :=
      if CHUNK_MIN_MMAP <=? u32 (aligned + header_size) then
        let* (s, p) := large_chunk o s aligned alignment in Ok (s, p, O)
      else small_chunk o s aligned in
    if p =? 0 then Ok (s, 0)
    else
      let* h := geth s p in
      let h := set_diff h (u32 (h_alloc h - req)) in
      let s := seth s p (set_type h ty) in
      let* (s, p) :=
        if ALIGNED p alignment then Ok (s, p)
        else
          let q := ALIGN_FORWARD (p + (CHUNK_MIN_SIZE + inter)) alignment in
          let* h := geth s p in
          let nq := match hd s q with Some x => x | None => blank_hdr q end in
          let s := seth s q (set_far (set_nxt h (h_nxt nq)) (h_far nq)) in
          let* s := split_piece o s i q p (q - p - inter) (h_alloc h - (q - p)) in
          let* h := geth s q in
          Ok (seth s q (set_diff h (u32 (h_alloc h - req))), q) in
      let s := if zero then memset0 s p req else s in
      let* h := geth s p in
      let* n := chunk_request_size h in
      Ok (if LARGE_MALLOC_MIN_SIZE <=? n then large_add s p req else s, p).

(** alloc_replace.c:851-892 [is_valid_chunk], 903-913 [ptr_is_in_arena] and 918-931
    [is_live_alloc] *)
Definition is_live_alloc (s : state) (p : Z) : bool :=
  negb (p =? 0) && ALIGNED p CHUNK_ALIGNMENT &&
  match hd s p with
  | None => false
  | Some h => negb (h_freed h) &&
              (h_mmap h || match container s 0 p with Some _ => true | None => false end)
  end.

Inductive report := Invalid (p : Z) | Mismatch (p : Z) (alloc_type free_type : Z).
(** alloc_replace.c:1878-1919 [check_type_match], with no private debug delete *)
Definition check_type_match (s : state) (p ty : Z) (ignore : bool) : res (list report) :=
  let* h := geth s p in
  Ok (if negb ignore && negb (h_type h =? 0) && negb (ty =? 0) && negb (h_type h =? ty)
      then [Mismatch p (h_type h) ty] else []).

(** alloc_replace.c:1936-2086 [replace_free_common] *)
Definition free_common (o : os) (s : state) (p ty : Z) (ignore : bool) : res (state * list report) :=
  if negb (is_live_alloc s p) then
    match pre_us c p with
    | Some _ => Ok (s, [])
    | None =>
        let* r := if p =? 0 then Ok []
                  else if is_live_alloc s (p - 8) then check_type_match s (p - 8) ty ignore
                  else if is_live_alloc s (p + 8) then check_type_match s (p + 8) ty ignore
                  else Ok [] in
        Ok (s, r ++ [Invalid p])
    end
  else
    let* r := check_type_match s p ty ignore in
    let* h := geth s p in
    let* n := chunk_request_size h in
    let s := seth s p (set_freed h true) in
    let s := if LARGE_MALLOC_MIN_SIZE <=? n then large_remove s p else s in
    if h_mmap h then
      let* d := of_option (h_shr h) in
      let m := header_at p - d in
      let* (_, msz) := of_option (mhead s m) in
      let s := del_region s m in
      let s := with_mhead s (upd (mhead s) m None) in
      Ok (unmap s m (m + msz), r)
    else
      let* s := add_to_delay_list o s 0 p in
      Ok (s, r).

Definition memcpy (s : state) (dst src n : Z) : state :=
  with_mem s (fun x => if (dst <=? x) && (x <? dst + n) then mem s (x - dst + src) else mem s x).

(** alloc_replace.c:2097-2204 [replace_realloc_common] as called for realloc
    (alloc_replace.c:2672-2688, ALLOC_ALLOW_NULL) *)
Definition realloc_common (o : os) (s : state) (p size ty : Z) : res (state * Z * list report) :=
  if p =? 0 then
    let* (s, q) := alloc_common o s size 0 false ty in Ok (s, q, [])
  else if size =? 0 then
    let* (s, r) := free_common o s p ty false in Ok (s, 0, r)
  else if is_live_alloc s p then
    let* h := geth s p in
    let* old := chunk_request_size h in
    if size <=? h_alloc h then
      let s := if LARGE_MALLOC_MIN_SIZE <=? old then large_remove s p else s in
      let h := set_diff h (u32 (h_alloc h - size)) in
      let s := seth s p h in
      let* n := chunk_request_size h in
      Ok (if LARGE_MALLOC_MIN_SIZE <=? n then large_add s p n else s, p, [])
    else
      let* (s, q) := alloc_common o s size 0 false ty in
      if q =? 0 then Ok (s, 0, [])
      else
        let s := memcpy s q p (Z.min size old) in
        let* h := geth s q in
        let s := seth s q (set_skip h true) in
        let* (s, r) := free_common o s p ty true in
        let* h := geth s q in
        Ok (seth s q (set_skip h false), q, r)
  else
    match pre_us c p with
    | None => Ok (s, 0, [Invalid p])
    | Some (old, _) =>
        let* (s, q) := alloc_common o s size 0 false ty in
        if q =? 0 then Ok (s, 0, [])
        else
          let s := memcpy s q p (Z.min size old) in
          let* (s, r) := free_common o s p ty true in
          Ok (s, q, r)
    end.

(** alloc_replace.c:2206-2245 [replace_size_common]: [None] for (size_t)-1 *)
Definition size_common (s : state) (p : Z) : res (option Z * list report) :=
  if is_live_alloc s p then
    let* h := geth s p in
    let* n := chunk_request_size h in Ok (Some n, [])
  else match pre_us c p with
       | Some (n, _) => Ok (Some n, [])
       | None => Ok (None, [Invalid p])
       end.

(** alloc_replace.c:2296-2301 [skip_chunk_in_iter, only_live] and 2303-2351
    [alloc_iter_own_arena]: start and request size of what is visited *)
Fixpoint iter_arena (fuel : nat) (s : state) (cur fin : Z) : res (list (Z * Z)) :=
  match fuel with
  | O => Fuel
  | S f =>
      if cur <? fin then
        let* h := geth s cur in
        let* l := iter_arena f s (cur + h_alloc h + inter) fin in
        if h_freed h || h_skip h then Ok l
        else let* n := chunk_request_size h in Ok ((cur, n) :: l)
      else Ok []
  end.
Definition iter_region (s : state) (r : region) : res (list (Z * Z)) :=
  if r_mmap r then
    let* (p, _) := of_option (mhead s (r_lo r)) in
    let* h := geth s p in
    if h_freed h || h_skip h then Ok []
    else let* n := chunk_request_size h in Ok [(p, n)]
  else
    (* the arena's header is at the start of the region *)
    match find (fun a => a_base a =? r_lo r) (arenas s) with
    | None => UB
    | Some a => iter_arena (S (Z.to_nat (a_next a - a_start a))) s (a_start a) (a_next a)
    end.
(** alloc_replace.c:2353-2376 [alloc_iterate] *)
Fixpoint iterate (s : state) (l : list region) : res (list (Z * Z)) :=
  match l with
  | [] => Ok []
  | r :: t => let* x := iter_region s r in let* y := iterate s t in Ok (x ++ y)
  end.
Definition alloc_iterate (s : state) : res (list (Z * Z)) := iterate s (regions s).

(** alloc_replace.c:5311-5321: the first page of the brk; sizeof(arena_header_t) +
    sizeof(free_lists_t) = 376 *)
Definition init (brk : Z) (m : Z -> Z) : state :=
  let a := arena_init brk PAGE_SIZE 376 in
  St (fun _ => None) [a] (fun _ => 0) (fun _ => 0) 0 0 0 0 (brk + PAGE_SIZE) (fun _ => None)
     [Region brk (brk + PAGE_SIZE) false] [] m.

(** Calls of the application.  [Malloc] stands for malloc, calloc ([zero]), the
    memaligns ([alignment]) and operator new ([ty]); [Free] for free and delete. *)
Inductive call :=
| Malloc (req alignment : Z) (zero : bool) (ty : Z)
| Free (p ty : Z)
| Realloc (p size : Z)
| Size (p : Z).
Inductive answer := Ptr (p : Z) | Done | Bytes (n : option Z).
Definition TYPE_MALLOC := 1.
Definition step (o : os) (s : state) (k : call) : res (state * answer * list report) :=
  match k with
  | Malloc req al z ty => let* (s, p) := alloc_common o s req al z ty in Ok (s, Ptr p, [])
  | Free p ty => let* (s, r) := free_common o s p ty false in Ok (s, Done, r)
  | Realloc p n => let* (s, q, r) := realloc_common o s p n TYPE_MALLOC in Ok (s, Ptr q, r)
  | Size p => let* (n, r) := size_common s p in Ok (s, Bytes n, r)
  end.
End Alloc.
