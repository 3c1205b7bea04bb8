(** Model of Dr. Heapstat's accounting of heap usage and of its snapshots,
    /repo/drheapstat/drheapstat.c, and of the compressed form in which a
    snapshot keeps the last access of each block, /repo/drheapstat/staleness.c.
    The configuration is the default one: a constant number of snapshots (no
    -dump).

    Simplifications.  The linked list of a snapshot (heap_used_t.next,
    per_callstack_t.used and prev_used) is a list of nodes, and the node of a
    callstack is the one with its id: copy_snapshot re-points every callstack
    at the live list.  The 64-bit time stamps are unbounded.  The locks are
    left out: all of this runs under the malloc lock. *)
From Verif Require Import Base.
Local Open Scope Z_scope.

Definition u16 (z : Z) : Z := z mod 2 ^ 16.
Definition u32 (z : Z) : Z := z mod 2 ^ 32.
Definition u64 (z : Z) : Z := z mod 2 ^ 64.
(** conversion to int *)
Definition s32 (z : Z) : Z :=
  let v := z mod 2 ^ 32 in if v <? 2 ^ 31 then v else v - 2 ^ 32.
Definition fits (z : Z) : bool := (- 2 ^ 31 <=? z) && (z <? 2 ^ 31).

(** drheapstat.c:247-255, heap_used_t *)
Record node := mkN {
  n_id : Z; n_inst : Z; n_asked : Z; n_usable : Z; n_occ : Z }.

(** drheapstat.c:258-268, per_snapshot_t *)
Record snap := mkS {
  s_stamp : Z; s_mallocs : Z; s_asked : Z; s_usable : Z; s_occ : Z;
  s_used : list node }.
Definition snap0 : snap := mkS 0 0 0 0 0 [].
Definition set_stamp (s : snap) (t : Z) : snap :=
  mkS t (s_mallocs s) (s_asked s) (s_usable s) (s_occ s) (s_used s).

(** -time_bytes, -time_allocs; -time_clock and -time_instrs, whose
    snapshots are taken by a timer and by the counting of instructions *)
Inductive unit_t := Ubytes | Uallocs | Uother.

(** the options, with HEADER_SIZE (drheapstat.c:119-124) and the first
    dump_freq (reset_intervals, drheapstat.c:189-210) *)
Record cfg := mkC {
  c_n : nat; c_thr : Z; c_unit : unit_t; c_hdr : Z; c_freq : Z }.

(** the globals, drheapstat.c:77-79, 238-239, 270-278 *)
Record st := mkW {
  snaps : list snap; idx : nat; fills : Z; freq : Z; stamp : Z;
  peak : snap; af_cur : Z; af_last : Z; bcount : Z; acount : Z }.

Definition slot (l : list snap) (i : nat) : snap := nth i l snap0.
Fixpoint upd (l : list snap) (i : nat) (v : snap) : list snap :=
  match l, i with
  | [], _ => []
  | _ :: l', O => v :: l'
  | x :: l', S i' => x :: upd l' i' v
  end.
Definition live (w : st) : snap := slot (snaps w) (idx w).

(** snapshot_init (drheapstat.c:858-866) and reset_intervals *)
Definition init (c : cfg) : st :=
  mkW (repeat snap0 (c_n c)) 0 0 (c_freq c) 0 snap0 0 0 (s32 (c_freq c)) (s32 (c_freq c)).

(** drheapstat.c:518-524 *)
Definition exceeds (new old pct : Z) : bool :=
  u64 (u32 pct * old) <? u64 (100 * Z.abs (new - old)).

(** check_for_peak, drheapstat.c:530-563.  The third argument of the second
    comparison is what the source has. *)
Definition check_peak (c : cfg) (w : st) : st :=
  let s := live w in
  if s_occ (peak w) <? s_occ s then
    if exceeds (s_occ s) (s_occ (peak w)) (c_thr c)
       || exceeds (af_cur w) (af_last w) (s_occ (peak w))
       || exceeds (s_stamp s) (s_stamp (peak w)) (c_thr c)
    then mkW (snaps w) (idx w) (fills w) (freq w) (stamp w) s
             (af_cur w) (af_cur w) (bcount w) (acount w)
    else w
  else w.

(** the search for the snapshot to overwrite, drheapstat.c:599-610 *)
Fixpoint next_slot (fuel : nat) (l : list snap) (i : nat) (fl fr : Z)
  : res (nat * Z * Z) :=
  match fuel with
  | O => Fuel
  | S fuel' =>
      let '(i1, fl1, fr1) :=
        if (List.length l <=? S i)%nat then (O, fl + 1, u32 (2 * fr)) else (S i, fl, fr) in
      let t := s_stamp (slot l i1) in
      if 0 <? t then
        if fr1 =? 0 then UB
        else if t mod fr1 =? 0 then next_slot fuel' l i1 fl1 fr1
        else Ok (i1, fl1, fr1)
      else Ok (i1, fl1, fr1)
  end.

(** take_snapshot without -dump, drheapstat.c:566-616: first the live
    snapshot gets its stamp (586-588) *)
Definition stamped (w : st) : st :=
  let t := stamp w + freq w in
  mkW (upd (snaps w) (idx w) (set_stamp (live w) t)) (idx w) (fills w) (freq w) t (peak w)
      (af_cur w) (af_last w) (bcount w) (acount w).
(** and the last step is copy_snapshot (drheapstat.c:469-516), which copies
    the stamp along *)
Definition take (c : cfg) (w : st) : res st :=
  let w1 := check_peak c (stamped w) in
  let l1 := snaps (stamped w) in
  let* (i, fl, fr) := next_slot (64 * S (List.length l1)) l1 (idx w) (fills w) (freq w) in
  Ok (mkW (upd l1 i (slot l1 (idx w))) i fl fr (stamp (stamped w)) (peak w1)
          (af_cur w1) (af_last w1) (bcount w1) (acount w1)).

(** account_for_bytes_pre, drheapstat.c:621-682, on the live snapshot.  A
    missing node (a null pointer) and an overflowing int are undefined. *)
Definition has (id : Z) (l : list node) : bool := existsb (fun n => n_id n =? id) l.
Definition bump (id d asked usable occ : Z) (rl : bool) (n : node) : node :=
  if n_id n =? id
  then mkN id (if rl then n_inst n else u32 (n_inst n + d))
           (u32 (n_asked n + asked)) (u16 (n_usable n + usable)) (u16 (n_occ n + occ))
  else n.
Definition account_pre (s : snap) (id asked usable occ : Z) (rl : bool) : res snap :=
  let sum := asked + usable in
  if negb (fits sum && fits (sum + occ)) then UB else
  let used1 := if 0 <? sum
               then if has id (s_used s) then s_used s else mkN id 0 0 0 0 :: s_used s
               else s_used s in
  if negb (has id used1) then UB else
  let d := if 0 <? sum then 1 else -1 in
  let used2 := map (bump id d asked usable occ rl) used1 in
  let used3 := filter (fun n => negb ((n_id n =? id) && (n_inst n =? 0))) used2 in
  Ok (mkS (s_stamp s) (u64 (s_mallocs s + d)) (u64 (s_asked s + asked))
          (u64 (s_usable s + sum)) (u64 (s_occ s + (sum + occ))) used3).

Definition with_live (w : st) (s : snap) : st :=
  mkW (upd (snaps w) (idx w) s) (idx w) (fills w) (freq w) (stamp w)
      (peak w) (af_cur w) (af_last w) (bcount w) (acount w).
Definition with_counts (w : st) (cur b a : Z) : st :=
  mkW (snaps w) (idx w) (fills w) (freq w) (stamp w) (peak w) cur (af_last w) b a.

(** the loop of account_for_bytes_post, drheapstat.c:698-701: diff is an
    int, dump_freq a uint *)
Fixpoint post_loop (c : cfg) (fuel : nat) (diff : Z) (w : st) : res st :=
  if bcount w <? diff then
    match fuel with
    | O => Fuel
    | S fuel' => let* w1 := take c w in post_loop c fuel' (s32 (diff - freq w1)) w1
    end
  else Ok w.

(** account_for_bytes_post, drheapstat.c:689-717 *)
Definition account_post (c : cfg) (w : st) (asked usable occ : Z) : res st :=
  let* w1 :=
    match c_unit c with
    | Ubytes =>
        let diff := Z.abs (asked + usable + occ) in
        if negb (fits (asked + usable + occ)) then UB else
        if bcount w <? diff then
          let* w1 := post_loop c (Z.to_nat diff) diff w in
          Ok (with_counts w1 (af_cur w1) (s32 (freq w1)) (acount w1))
        else Ok (with_counts w (af_cur w) (bcount w - diff) (acount w))
    | Uallocs =>
        let a := acount w - 1 in
        if a <=? 0 then
          let* w1 := take c (with_counts w (af_cur w) (bcount w) a) in
          Ok (with_counts w1 (af_cur w1) (bcount w1) (s32 (freq w1)))
        else Ok (with_counts w (af_cur w) (bcount w) a)
    | Uother => Ok w
    end in
  Ok (with_counts w1 (af_cur w1 + 1) (bcount w1) (acount w1)).

(** a block as the allocator's table has it: its handle (address), the
    callstack of its allocation, malloc_info_t's request_size and pad_size,
    the latter "request_size plus padding" (common/alloc.h:128-140) *)
Record blk := mkB { b_h : Z; b_id : Z; b_req : Z; b_pad : Z }.
Record sys := mkY { y_st : st; y_blks : list blk }.

Inductive op :=
| Add (h id req pad : Z)
| Free (h : Z)
| Realloc (h req pad : Z)
| Tick
| Dump (elapsed : Z).

Definition find_blk (h : Z) (l : list blk) : option blk := find (fun b => b_h b =? h) l.

(** client_add_malloc_pre and _post (drheapstat.c:734-831), with the
    callstack's id given *)
Definition do_add (c : cfg) (y : sys) (h id req pad : Z) : res sys :=
  match find_blk h (y_blks y) with
  | Some _ => Ok y
  | None =>
      let w := y_st y in
      let a := s32 req in let p := s32 pad in let hd := c_hdr c in
      let* s := account_pre (live w) id a p hd false in
      let* w1 := account_post c (with_live w s) a p hd in
      Ok (mkY w1 (mkB h id req pad :: y_blks y))
  end.

(** client_remove_malloc_pre and _post (drheapstat.c:833-856) *)
Definition do_free (c : cfg) (y : sys) (h : Z) : res sys :=
  match find_blk h (y_blks y) with
  | None => Ok y
  | Some b =>
      let w := check_peak c (y_st y) in
      let* s := account_pre (live w) (b_id b) (s32 (- b_req b)) (s32 (- b_pad b))
                            (- c_hdr c) false in
      let* w1 := account_post c (with_live w s) (s32 (b_req b)) (s32 (b_pad b)) (c_hdr c) in
      Ok (mkY w1 (filter (fun x => negb (b_h x =? h)) (y_blks y)))
  end.

(** client_handle_realloc for a block that stays where it is,
    drheapstat.c:926-950 *)
Definition do_realloc (c : cfg) (y : sys) (h req pad : Z) : res sys :=
  match find_blk h (y_blks y) with
  | None => Ok y
  | Some b =>
      let dr := req - b_req b in let dp := pad - b_pad b in
      let w := if dr <? 0 then check_peak c (y_st y) else y_st y in
      let* s := account_pre (live w) (b_id b) (s32 dr) (s32 dp) 0 true in
      let* w1 := account_post c (with_live w s) (s32 dr) (s32 dp) 0 in
      Ok (mkY w1 (map (fun x => if b_h x =? h then mkB h (b_id x) req pad else x)
                      (y_blks y)))
  end.

(** snapshot_dump_all (drheapstat.c:869-903) up to the printing.  For
    -time_clock and -time_instrs what has passed since the last snapshot is
    given. *)
Definition partial_stamp (c : cfg) (w : st) (elapsed : Z) : Z :=
  match c_unit c with
  | Ubytes => stamp w + u32 (freq w - bcount w)
  | Uallocs => stamp w + u32 (freq w - acount w)
  | Uother => stamp w + elapsed
  end.
Definition do_dump (c : cfg) (y : sys) (elapsed : Z) : sys :=
  let w := y_st y in
  mkY (check_peak c (with_live w (set_stamp (live w) (partial_stamp c w elapsed))))
      (y_blks y).
(** which snapshots it prints, after the peak *)
Definition dumped (c : cfg) (w : st) : list nat :=
  if fills w =? 0 then seq 0 (S (idx w)) else seq 0 (c_n c).

Definition step (c : cfg) (y : sys) (o : op) : res sys :=
  match o with
  | Add h id req pad => do_add c y h id req pad
  | Free h => do_free c y h
  | Realloc h req pad => do_realloc c y h req pad
  | Tick => let* w := take c (y_st y) in Ok (mkY w (y_blks y))
  | Dump e => Ok (do_dump c y e)
  end.
Fixpoint run_from (c : cfg) (y : sys) (ops : list op) : res sys :=
  match ops with
  | [] => Ok y
  | o :: r => let* y1 := step c y o in run_from c y1 r
  end.
Definition run (c : cfg) (ops : list op) : res sys := run_from c (mkY (init c) []) ops.

(** * What a snapshot keeps of last accesses *)

(** a live block as malloc_iterate hands it over: the id of its callstack,
    its size, stale_per_alloc_t.last_access *)
Record acc := mkA { a_id : Z; a_bytes : Z; a_last : Z }.

(** staleness.h:86-127.  The bit-fields of an entry hold values modulo
    their width; [e_u] is the union as one 32-bit word, the id in its low 19
    bits. *)
Record ent := mkE { e_ext : bool; e_last : Z; e_u : Z }.
Inductive data := Lg (l : list acc) | Sm (main : list ent) (ext : list (Z * Z)) (cap : Z).
Record stale := mkT { t_n : Z; t_data : data }.

(** staleness.h:74-82 *)
Definition MAX_STAMP : Z := (2 ^ 32 - 1) / 2.
Definition MAX_ID : Z := 2 ^ 19 - 1.
Definition MAX_SZ : Z := 2 ^ 13 - 1.

Definition pack (id sz : Z) : Z := id mod 2 ^ 19 + 2 ^ 19 * (sz mod 2 ^ 13).

(** alloc_itercb_snapshot, staleness.c:491-545.  The arrays grow at their
    ends; writing past the capacity of the extension array is undefined. *)
Definition snap_cb (d : data) (a : acc) : res data :=
  let sz := u32 (a_bytes a) in
  match d with
  | Lg l => Ok (Lg (l ++ [mkA (a_id a) sz (a_last a)]))
  | Sm main ext cap =>
      if (a_id a <=? MAX_ID) && (sz <=? MAX_SZ)
      then Ok (Sm (main ++ [mkE false (a_last a mod 2 ^ 31) (pack (a_id a) sz)]) ext cap)
      else
        let n := Z.of_nat (List.length ext) in
        let cap1 := if cap <=? n then (if cap =? 0 then 512 else u32 (2 * cap)) else cap in
        if cap1 <=? n then UB
        else Ok (Sm (main ++ [mkE true (a_last a mod 2 ^ 31) n])
                    (ext ++ [(a_id a, sz)]) cap1)
  end.
Fixpoint snap_iter (d : data) (l : list acc) : res data :=
  match l with
  | [] => Ok d
  | a :: r => let* d1 := snap_cb d a in snap_iter d1 r
  end.

(** staleness_take_snapshot, staleness.c:548-588; [live_n] is
    num_live_mallocs.  Writing past the main array is undefined. *)
Definition stale_take (cur : Z) (live_n : Z) (l : list acc) : res stale :=
  if live_n <? Z.of_nat (List.length l) then UB else
  let* d := snap_iter (if MAX_STAMP <? cur then Lg [] else Sm [] [] 0) l in
  Ok (mkT live_n d).

(** the accessors, staleness.c:454-489 *)
Definition get_id (t : stale) (i : nat) : res Z :=
  match t_data t with
  | Lg l => let* a := of_option (nth_error l i) in Ok (a_id a)
  | Sm main ext _ =>
      let* e := of_option (nth_error main i) in
      if e_ext e
      then let* x := of_option (nth_error ext (Z.to_nat (e_u e))) in Ok (fst x)
      else Ok (e_u e mod 2 ^ 19)
  end.
Definition get_bytes (t : stale) (i : nat) : res Z :=
  match t_data t with
  | Lg l => let* a := of_option (nth_error l i) in Ok (a_bytes a)
  | Sm main ext _ =>
      let* e := of_option (nth_error main i) in
      if e_ext e
      then let* x := of_option (nth_error ext (Z.to_nat (e_u e))) in Ok (snd x)
      else Ok (e_u e / 2 ^ 19)
  end.
Definition get_last (t : stale) (i : nat) : res Z :=
  match t_data t with
  | Lg l => let* a := of_option (nth_error l i) in Ok (a_last a)
  | Sm main _ _ => let* e := of_option (nth_error main i) in Ok (e_last e)
  end.
