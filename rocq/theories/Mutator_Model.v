(** Model of the fuzzer's mutator: drfuzz/drfuzz_mutator.c:43-934 except the
    dictionary file parser (207-301) and the textual option parser.  A buffer is a
    list of bytes.  Not modelled: allocation, freeing, logging. *)
From Verif Require Import Base.
Open Scope Z_scope.

Definition u32 (v : Z) : Z := v mod 2 ^ 32.
Definition u64 (v : Z) : Z := v mod 2 ^ 64.
(** conversion to [short] wraps (gcc) *)
Definition s16 (v : Z) : Z := (v + 2 ^ 15) mod 2 ^ 16 - 2 ^ 15.
Definition len {A} (l : list A) : Z := Z.of_nat (length l).
Definition get (l : list Z) (i : Z) : res Z :=
  if (0 <=? i) && (i <? len l) then Ok (nth (Z.to_nat i) l 0) else UB.
Definition set (l : list Z) (i v : Z) : res (list Z) :=
  if (0 <=? i) && (i <? len l)
  then Ok (firstn (Z.to_nat i) l ++ v :: skipn (S (Z.to_nat i)) l) else UB.

(** drfuzz_mutator.c:60-102. *)
Inductive alg := ARandom | AOrdered.
Inductive unit_ := UBits | UNum | UToken.
Record options := Opts { o_alg : alg; o_unit : unit_; o_centric : bool; o_clock : bool;
                         o_sparsity : Z; o_max : Z; o_seed : Z }.
(** drfuzz_mutator.c:763-769 [bitflip_t]; the shuffle workspace is cleared before
    every use and not kept here. [None]: the index array has been freed. *)
Record flipper := F { bit_count : Z; bits_to_flip : Z; index : option (list Z) }.
(** drfuzz_mutator.c:118-130 [mutator_t]. *)
Record mutator := M { current : list Z; input : list Z; size : Z; count : Z; opts : options;
                      flip : flipper; dict : list (list Z) }.
Definition with_flip (m : mutator) (f : flipper) := M (current m) (input m) (size m) (count m) (opts m) f (dict m).
Definition with_count (m : mutator) (c : Z) := M (current m) (input m) (size m) c (opts m) (flip m) (dict m).
Definition with_current (m : mutator) (v : list Z) := M v (input m) (size m) (count m) (opts m) (flip m) (dict m).
Definition with_input (m : mutator) (v : list Z) := M (current m) v (size m) (count m) (opts m) (flip m) (dict m).
Definition with_seed (m : mutator) (v : Z) :=
  let o := opts m in
  M (current m) (input m) (size m) (count m) (Opts (o_alg o) (o_unit o) (o_centric o) (o_clock o) (o_sparsity o) (o_max o) v) (flip m) (dict m).

(** drfuzz_mutator.c:605-613 [generate_random_number]. *)
Definition random (m : mutator) : Z * mutator :=
  let s := o_seed (opts m) in
  let s := Z.lxor s (Z.shiftr s 12) in
  let s := Z.lxor s (u64 (Z.shiftl s 25)) in
  let s := Z.lxor s (Z.shiftr s 27) in
  (u64 (s * 0x2545f4914f6cdd1d), with_seed m s).

(** drfuzz_mutator.c:775-782 [bitflip_start_inner_loops], [n] rounds left. *)
Fixpoint start_inner_loops (n : nat) (l : list Z) (i : Z) : res (list Z) :=
  match n with
  | O => Ok l
  | S n => let* p := get l (i - 1) in
           let* l := set l i (u32 (p + 1)) in
           start_inner_loops n l (i + 1)
  end.
(** drfuzz_mutator.c:786-797 [bitflip_init_bits_to_flip]; the allocated array holds
    [junk]. *)
Definition init_bits_to_flip (junk : Z) (f : flipper) (bits : Z) : res flipper :=
  let* l := set (repeat junk (Z.to_nat bits)) 0 0 in
  let* l := start_inner_loops (Z.to_nat (bits - 1)) l 1 in
  Ok (F (bit_count f) bits (Some l)).
(** drfuzz_mutator.c:800-810 [bitflip_create]. *)
Definition bitflip_create (junk sz : Z) : res flipper :=
  init_bits_to_flip junk (F (u32 (8 * sz)) 0 None) 1.

(** drfuzz_mutator.c:823-827 [flip_bit]: byte and bit number. *)
Definition flip_byte_bit (b : list Z) (byte bit : Z) : res (list Z) :=
  let* v := get b byte in
  set b byte (Z.lxor v (Z.shiftl 1 bit) mod 256).
Definition flip_bit (b : list Z) (i : Z) : res (list Z) := flip_byte_bit b (Z.shiftr i 3) (Z.land i 7).

(** drfuzz_mutator.c:830-853 [bitflip_shuffle_and_flip], [n] picks left. *)
Fixpoint shuffle_loop (n : nat) (m : mutator) (sh : Z -> Z) (i pick_count : Z) (b : list Z) : res (list Z * mutator) :=
  match n with
  | O => Ok (b, m)
  | S n =>
      let (r, m) := random m in
      if pick_count =? 0 then UB else
      let pick := u32 (i + r mod pick_count) in
      let bc := bit_count (flip m) in
      if (pick <? bc) && (i <? bc) then
        let absolute := fun k => u32 (k + sh k) in
        let* b := flip_bit b (absolute pick) in
        let v := s16 (u32 (absolute i - pick)) in
        shuffle_loop n m (fun k => if k =? pick then v else sh k) (i + 1) (u32 (pick_count - 1)) b
      else UB
  end.
Definition shuffle_and_flip (m : mutator) (b : list Z) : res (list Z * mutator) :=
  let f := flip m in
  let total_picks := u32 (bit_count f - bits_to_flip f) in
  shuffle_loop (Z.to_nat (bit_count f - total_picks)) m (fun _ => 0) 0 (bit_count f) b.

(** drfuzz_mutator.c:896-903: the innermost index that can move, [n] positions left. *)
Fixpoint move_index (n : nat) (f : flipper) (l : list Z) : res (list Z) :=
  match n with
  | O => Ok l
  | S n =>
      let i := Z.of_nat n in
      let* v := get l i in
      if v <? u32 (bit_count f - u32 (bits_to_flip f - i)) then
        let* l := set l i (u32 (v + 1)) in
        start_inner_loops (Z.to_nat (bits_to_flip f - (i + 1))) l (i + 1)
      else move_index n f l
  end.
(** drfuzz_mutator.c:886-905. *)
Fixpoint skip_loop (fuel : nat) (f : flipper) (l : list Z) (skip : Z) : res (list Z) :=
  match fuel with
  | O => Fuel
  | S fuel =>
      let last := bits_to_flip f - 1 in
      let* v := get l last in
      if u32 (v + skip) <? bit_count f then set l last (u32 (v + skip))
      else
        let skip := u32 (skip - u32 (bit_count f - v)) in
        let* l := set l last (u32 (bit_count f - 1)) in
        let* l := move_index (Z.to_nat (bits_to_flip f - 1)) f l in
        skip_loop fuel f l skip
  end.
(** drfuzz_mutator.c:870-906 [bitflip_increment]. *)
Definition increment (junk : Z) (m : mutator) : res mutator :=
  let f := flip m in
  let skip := if o_sparsity (opts m) =? 0 then 1 else o_sparsity (opts m) in
  match index f with
  | None => UB
  | Some l =>
      let* v := get l 0 in
      if v =? u32 (bit_count f - bits_to_flip f) then
        if bits_to_flip f <? bit_count f
        then let* f := init_bits_to_flip junk f (bits_to_flip f + 1) in Ok (with_flip m f)
        else Ok (with_flip m (F (bit_count f) (bits_to_flip f) None))
      else
        let* l := skip_loop (S (Z.to_nat skip)) f l skip in
        Ok (with_flip m (F (bit_count f) (bits_to_flip f) (Some l)))
  end.

(** drfuzz_mutator.c:914-923 [distributed_flip_bit], 926-934
    [bitflip_distribute_index_and_flip]. *)
Fixpoint distribute_and_flip (l : list Z) (sz : Z) (b : list Z) : res (list Z) :=
  match l with
  | [] => Ok b
  | i :: l => let* b := flip_byte_bit b (i mod sz) (i / sz) in distribute_and_flip l sz b
  end.

(** The low [n] bytes of [v], little-endian. *)
Fixpoint le_bytes (n : nat) (v : Z) : list Z :=
  match n with O => [] | S n => v mod 256 :: le_bytes n (v / 256) end.
(** drfuzz_mutator.c:518-541 [write_scalar] at offset [at_]: beyond eight bytes it
    copies from behind the local variable. *)
Definition write_scalar (b : list Z) (at_ n v : Z) : res (list Z) :=
  if (n <=? 8) && (0 <=? at_) && (at_ + n <=? len b)
  then Ok (firstn (Z.to_nat at_) b ++ le_bytes (Z.to_nat n) v ++ skipn (Z.to_nat (at_ + n)) b) else UB.

(** drfuzz_mutator.c:615-644 [get_next_random_number]: [n] whole words left. *)
Fixpoint random_words (n : nat) (m : mutator) (i : Z) (b : list Z) : res (list Z * mutator) :=
  match n with
  | O => Ok (b, m)
  | S n => let (r, m) := random m in
           let* b := write_scalar b i 8 r in random_words n m (i + 8) b
  end.
Definition random_number (m : mutator) (b : list Z) : res (list Z * mutator) :=
  if o_max (opts m) =? 0 then
    let* (b, m) := random_words (Z.to_nat (size m / 8)) m 0 b in
    let rem := size m mod 8 in
    if 0 <? rem then
      let (r, m) := random m in
      let* b := write_scalar b (size m / 8 * 8) rem (Z.land r (2 ^ (rem * 8) - 1)) in Ok (b, m)
    else Ok (b, m)
  else if 8 <? size m then UB (* an error status; [check_options] excludes it *)
  else
    let (r, m) := random m in
    let* b := write_scalar b 0 (size m) (r mod o_max (opts m)) in Ok (b, m).

(** Copying [l] into [b] at offset [at_]. *)
Definition blit (b : list Z) (at_ : Z) (l : list Z) : res (list Z) :=
  if (0 <=? at_) && (at_ + len l <=? len b)
  then Ok (firstn (Z.to_nat at_) b ++ l ++ skipn (Z.to_nat (at_ + len l)) b) else UB.
Definition entry (m : mutator) (i : Z) : res (list Z) :=
  if (0 <=? i) && (i <? len (dict m)) then Ok (nth (Z.to_nat i) (dict m) []) else UB.

(** drfuzz_mutator.c:557-576 [get_next_ordered_token]. *)
Definition ordered_token (m : mutator) (b : list Z) : res (list Z * mutator) :=
  let* t := entry m (count m) in
  let m := with_count m (u64 (count m + 1)) in
  let* b := blit b 0 (firstn (Z.to_nat (Z.min (len t) (size m))) t) in
  let* b := (if len t <? size m then set b (len t) 32 else Ok b) in
  Ok (b, m).
(** drfuzz_mutator.c:646-671 [get_next_random_token]. *)
Definition random_token (m : mutator) (b : list Z) : res (list Z * mutator) :=
  let (which, m) := random m in
  let (where_, m) := random m in
  if len (dict m) =? 0 then UB else
  let* t := entry m (which mod len (dict m)) in
  let offs := if size m <=? len t then 0 else where_ mod (size m - len t) in
  let* b := blit b offs (firstn (Z.to_nat (Z.min (len t) (size m))) t) in
  let* b := (if 0 <? offs then set b (offs - 1) 32 else Ok b) in
  let* b := (if offs + len t <? size m then set b (offs + len t) 32 else Ok b) in
  Ok (b, m).

(** drfuzz_mutator.c:543-555, 578-603, 673-686: the value for each unit. *)
Definition next_value (junk : Z) (m : mutator) (b : list Z) : res (list Z * mutator) :=
  match o_alg (opts m), o_unit (opts m) with
  | AOrdered, UBits =>
      match index (flip m) with
      | None => UB
      | Some l => let* b := distribute_and_flip l (size m) b in
                  let* m := increment junk m in Ok (b, m)
      end
  | AOrdered, UNum =>
      let* b := write_scalar b 0 (size m) (count m) in Ok (b, with_count m (u64 (count m + 1)))
  | AOrdered, UToken => ordered_token m b
  | ARandom, UBits =>
      let* (b, m) := shuffle_and_flip m b in
      let* m := increment junk m in Ok (b, m)
  | ARandom, UNum => random_number m b
  | ARandom, UToken => random_token m b
  end.
(** drfuzz_mutator.c:688-712 [drfuzz_mutator_get_next_value]: the caller's buffer
    of [size] bytes is overwritten. *)
Definition get_next_value (junk : Z) (m : mutator) (b : list Z) : res (list Z * mutator) :=
  let b := if o_centric (opts m) then input m else b in
  let* (b, m) := next_value junk m b in
  Ok (b, with_current m b).
(** drfuzz_mutator.c:482-507 [drfuzz_mutator_has_next_value]. *)
Definition has_next_value (m : mutator) : bool :=
  match o_unit (opts m), o_alg (opts m) with
  | UNum, ARandom => true
  | UNum, AOrdered => if o_max (opts m) =? 0 then count m <? 2 ^ 64 - 1 else count m <? o_max (opts m)
  | UBits, _ => match index (flip m) with Some _ => true | None => false end
  | UToken, ARandom => true
  | UToken, AOrdered => count m <? len (dict m)
  end.
(** drfuzz_mutator.c:727-745 [drfuzz_mutator_feedback]. *)
Definition feedback (m : mutator) (v : Z) : mutator :=
  if v <=? 0 then m else
  match o_unit (opts m) with
  | UBits => if o_centric (opts m) then with_input m (current m) else m
  | _ => m
  end.

(** drfuzz_mutator.c:56-58 [EXCEEDS_CAPACITY]; a shift by 64 bits or more gives the
    unspecified value [oob]. *)
Definition exceeds_capacity (oob x sz : Z) : bool :=
  if sz =? 8 then false else (if 64 <=? sz * 8 then oob else 2 ^ (sz * 8)) <? x.
(** drfuzz_mutator.c:392-438: the checks at the end of
    [drfuzz_mutator_set_options]; [None] is an error.  [clock] is the time. *)
Definition check_options (oob clock : Z) (o : options) (user_seed user_sparsity user_units user_alg user_dict : bool) (sz : Z) : option options :=
  if negb user_dict && match o_unit o with UToken => true | _ => false end then None else
  if user_dict && user_units && match o_unit o with UToken => false | _ => true end then None else
  let o := if user_dict then
             Opts (if user_alg then o_alg o else ARandom) UToken (o_centric o) (o_clock o) (o_sparsity o) (o_max o) (o_seed o)
           else o in
  if o_centric o && match o_unit o with UNum => true | _ => false end then None else
  let seed := if o_clock o then clock else o_seed o in
  if o_clock o && user_seed then None else
  if user_sparsity && (0 <? o_sparsity o) && match o_unit o with UNum => true | _ => false end then None else
  if (0 <? o_max o) && (8 <? sz) then None else
  Some (Opts (o_alg o) (o_unit o) (o_centric o) (o_clock o) (o_sparsity o)
             (if exceeds_capacity oob (o_max o) sz then 0 else o_max o) seed).
(** drfuzz_mutator.c:445-480 [drfuzz_mutator_start] after the options are parsed. *)
Definition start (junk : Z) (seed : list Z) (o : options) (d : list (list Z)) : res mutator :=
  let* f := (match o_unit o with
             | UBits => bitflip_create junk (len seed)
             | _ => Ok (F 0 0 None)
             end) in
  Ok (M seed seed (len seed) 0 o f d).

(** A history of calls: feedback or a request for the next value with the given
    buffer content. *)
Inductive op := Next (b : list Z) | Feedback (v : Z).
Fixpoint run (junk : Z) (m : mutator) (l : list op) : res (list (list Z) * mutator) :=
  match l with
  | [] => Ok ([], m)
  | Next b :: l => let* (v, m) := get_next_value junk m b in
                   let* (r, m) := run junk m l in Ok (v :: r, m)
  | Feedback v :: l => run junk (feedback m v) l
  end.
