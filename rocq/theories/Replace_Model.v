(** Model of the libc replacement routines, /repo/drmemory/replace.c:178-845.
    [char]/[unsigned char] routines are the instance [w = 1] and [wchar_t]
    routines (4 bytes on Linux) the instance [w = 4] of one definition when
    the C text is identical up to the element type.  Pointers are integers;
    [None] is NULL.  Loops bounded by [size] recurse on it (a [nat]); loops
    that run to a terminator take fuel.  Loop counters of type size_t that
    are decremented past 0 ([size-- > 0]) are not used afterwards, so the
    wrap is not observable and is omitted. *)
From Verif Require Import Base Mem.
Open Scope Z_scope.

Definition ALIGNED4 (a : Z) : bool := a mod 4 =? 0.
Definition W64 : Z := 2 ^ 64.

(** ---- memset: replace.c:184-203 ---- *)
(** replace.c:189-192 *)
Fixpoint memset_head (size : nat) (m : mem) (p val : Z) : res (mem * Z * nat) :=
  if ALIGNED4 p then Ok (m, p, size) else
  match size with
  | O => Ok (m, p, O)
  | S n => let* m' := storen 1 m p val in memset_head n m' (p + 1) val
  end.
(** replace.c:193-197 *)
Fixpoint memset_quads (size : nat) (m : mem) (p val4 : Z) : res (mem * Z * nat) :=
  match size with
  | S (S (S (S n))) => let* m' := storen 4 m p val4 in memset_quads n m' (p + 4) val4
  | _ => Ok (m, p, size)
  end.
(** replace.c:198-201 *)
Fixpoint memset_tail (size : nat) (m : mem) (p val : Z) : res mem :=
  match size with
  | O => Ok m
  | S n => let* m' := storen 1 m p val in memset_tail n m' (p + 1) val
  end.
(** replace.c:184-203 *)
Definition replace_memset (m : mem) (dst val_in : Z) (size : nat) : res (mem * Z) :=
  let val := val_in mod 256 in
  let val4 := Z.lor (Z.lor (Z.lor (Z.shiftl val 24) (Z.shiftl val 16)) (Z.shiftl val 8)) val in
  let* (m1, p1, s1) := memset_head size m dst val in
  let* (m2, p2, s2) := memset_quads s1 m1 p1 val4 in
  let* m3 := memset_tail s2 m2 p2 val in
  Ok (m3, dst).
(** replace.c:218-222 *)
Definition replace_bzero (m : mem) (dst : Z) (size : nat) : res mem :=
  let* (m', _) := replace_memset m dst 0 size in Ok m'.
(** replace.c:205-212; [val] is a wchar_t, stored as 4 bytes *)
Fixpoint wmemset_loop (size : nat) (m : mem) (p val : Z) : res mem :=
  match size with
  | O => Ok m
  | S n => let* m' := storen 4 m p val in wmemset_loop n m' (p + 4) val
  end.
Definition replace_wmemset (m : mem) (dst val : Z) (size : nat) : res (mem * Z) :=
  let* m' := wmemset_loop size m dst val in Ok (m', dst).

(** ---- forward copying loops, shared text of memcpy (224-252) and the
    forward half of memmove (739-767) ---- *)
(** [ *d++ = *s++; size--] while d is unaligned: replace.c:235-238, 752-755 *)
Fixpoint copy_head (size : nat) (m : mem) (d s : Z) : res (mem * Z * Z * nat) :=
  if ALIGNED4 d then Ok (m, d, s, size) else
  match size with
  | O => Ok (m, d, s, O)
  | S n => let* b := loadn 1 m s in
           let* m' := storen 1 m d b in copy_head n m' (d + 1) (s + 1)
  end.
(** replace.c:239-244, 756-761 *)
Fixpoint copy_quads (size : nat) (m : mem) (d s : Z) : res (mem * Z * Z * nat) :=
  match size with
  | S (S (S (S n))) =>
      let* v := loadn 4 m s in
      let* m' := storen 4 m d v in copy_quads n m' (d + 4) (s + 4)
  | _ => Ok (m, d, s, size)
  end.
(** replace.c:245-248, 249-251, 762-765, 767-770 *)
Fixpoint copy_tail (size : nat) (m : mem) (d s : Z) : res mem :=
  match size with
  | O => Ok m
  | S n => let* b := loadn 1 m s in
           let* m' := storen 1 m d b in copy_tail n m' (d + 1) (s + 1)
  end.
Definition copy_forward (m : mem) (dst src : Z) (size : nat) : res mem :=
  if Z.land dst 3 =? Z.land src 3 then
    let* (m1, d1, s1, n1) := copy_head size m dst src in
    let* (m2, d2, s2, n2) := copy_quads n1 m1 d1 s1 in
    copy_tail n2 m2 d2 s2
  else copy_tail size m dst src.
(** replace.c:224-252 *)
Definition replace_memcpy (m : mem) (dst src : Z) (size : nat) : res (mem * Z) :=
  let* m' := copy_forward m dst src size in Ok (m', dst).
(** replace.c:259-270, Linux: [replace_memcpy(dst, src, size * sizeof(wchar_t))];
    the size_t multiplication wraps. *)
Definition replace_wmemcpy (m : mem) (dst src : Z) (size : nat) : res (mem * Z) :=
  replace_memcpy m dst src (Z.to_nat ((4 * Z.of_nat size) mod W64)).

(** ---- backward half of memmove: replace.c:768-797 ---- *)
Fixpoint copyb_head (size : nat) (m : mem) (d s : Z) : res (mem * Z * Z * nat) :=
  if ALIGNED4 d then Ok (m, d, s, size) else
  match size with
  | O => Ok (m, d, s, O)
  | S n => let* b := loadn 1 m (s - 1) in
           let* m' := storen 1 m (d - 1) b in copyb_head n m' (d - 1) (s - 1)
  end.
Fixpoint copyb_quads (size : nat) (m : mem) (d s : Z) : res (mem * Z * Z * nat) :=
  match size with
  | S (S (S (S n))) =>
      let* v := loadn 4 m (s - 4) in
      let* m' := storen 4 m (d - 4) v in copyb_quads n m' (d - 4) (s - 4)
  | _ => Ok (m, d, s, size)
  end.
Fixpoint copyb_tail (size : nat) (m : mem) (d s : Z) : res mem :=
  match size with
  | O => Ok m
  | S n => let* b := loadn 1 m (s - 1) in
           let* m' := storen 1 m (d - 1) b in copyb_tail n m' (d - 1) (s - 1)
  end.
Definition copy_backward (m : mem) (dst src : Z) (size : nat) : res mem :=
  let d := dst + Z.of_nat size in
  let s := src + Z.of_nat size in
  if Z.land dst 3 =? Z.land src 3 then
    let* (m1, d1, s1, n1) := copyb_head size m d s in
    let* (m2, d2, s2, n2) := copyb_quads n1 m1 d1 s1 in
    copyb_tail n2 m2 d2 s2
  else copyb_tail size m d s.
(** replace.c:739-801; the comparison is on ptr_uint_t, hence the wrap. *)
Definition replace_memmove (m : mem) (dst src : Z) (size : nat) : res (mem * Z) :=
  let* m' := if Z.of_nat size <=? (dst - src) mod W64
             then copy_forward m dst src size
             else copy_backward m dst src size in
  Ok (m', dst).

(** ---- searching ---- *)
(** replace.c:271-282 (w = 1, c = (unsigned char) find), 284-293 (w = 4) *)
Fixpoint memchr_loop (w : nat) (m : mem) (s c : Z) (size : nat) : res (option Z) :=
  match size with
  | O => Ok None
  | S n => let* v := loadn w m s in
           if v =? c then Ok (Some s) else memchr_loop w m (s + Z.of_nat w) c n
  end.
Definition replace_memchr (m : mem) (s find : Z) (size : nat) : res (option Z) :=
  memchr_loop 1 m s (find mod 256) size.
Definition replace_wmemchr (m : mem) (s c : Z) (size : nat) : res (option Z) :=
  memchr_loop 4 m s c size.
(** replace.c:295-306 *)
Fixpoint memrchr_loop (m : mem) (s c : Z) (size : nat) : res (option Z) :=
  match size with
  | O => Ok None
  | S n => let* v := loadn 1 m s in
           if v =? c then Ok (Some s) else memrchr_loop m (s - 1) c n
  end.
Definition replace_memrchr (m : mem) (p find : Z) (size : nat) : res (option Z) :=
  memrchr_loop m (p + Z.of_nat size - 1) (find mod 256) size.
(** replace.c:308-318 *)
Fixpoint rawmemchr_loop (fuel : nat) (m : mem) (s c : Z) : res Z :=
  match fuel with
  | O => Fuel
  | S f => let* v := loadn 1 m s in
           if v =? c then Ok s else rawmemchr_loop f m (s + 1) c
  end.
Definition replace_rawmemchr (fuel : nat) (m : mem) (s find : Z) : res Z :=
  rawmemchr_loop fuel m s (find mod 256).
(** replace.c:320-334 (w = 1), 336-350 (w = 4) *)
Fixpoint strchr_loop (w fuel : nat) (m : mem) (s c : Z) : res (option Z) :=
  match fuel with
  | O => Fuel
  | S f => let* v := loadn w m s in
           if v =? c then Ok (Some s)
           else if v =? 0 then Ok None
           else strchr_loop w f m (s + Z.of_nat w) c
  end.
Definition wide_mask (w : nat) : Z := 2 ^ (8 * Z.of_nat w).
Definition replace_strchr (w fuel : nat) (m : mem) (s find : Z) : res (option Z) :=
  strchr_loop w fuel m s (find mod wide_mask w).
(** replace.c:352-368, 370-386 *)
Fixpoint strrchr_loop (w fuel : nat) (m : mem) (s c : Z) (last : option Z) : res (option Z) :=
  match fuel with
  | O => Fuel
  | S f => let* v := loadn w m s in
           let last' := if v =? c then Some s else last in
           if v =? 0 then Ok last' else strrchr_loop w f m (s + Z.of_nat w) c last'
  end.
Definition replace_strrchr (w fuel : nat) (m : mem) (s find : Z) : res (option Z) :=
  strrchr_loop w fuel m s (find mod wide_mask w) None.
(** replace.c:388-400 *)
Fixpoint strchrnul_loop (fuel : nat) (m : mem) (s c : Z) : res Z :=
  match fuel with
  | O => Fuel
  | S f => let* v := loadn 1 m s in
           if v =? 0 then Ok s
           else if v =? c then Ok s
           else strchrnul_loop f m (s + 1) c
  end.
Definition replace_strchrnul (fuel : nat) (m : mem) (s find : Z) : res Z :=
  strchrnul_loop fuel m s (find mod 256).

(** ---- length: replace.c:403-437 ---- *)
(** end pointer of [while ( *s != 0) s++]; also the first loop of strcat *)
Fixpoint strend (w fuel : nat) (m : mem) (s : Z) : res Z :=
  match fuel with
  | O => Fuel
  | S f => let* v := loadn w m s in
           if v =? 0 then Ok s else strend w f m (s + Z.of_nat w)
  end.
(** pointer difference is in elements *)
Definition replace_strlen (w fuel : nat) (m : mem) (str : Z) : res Z :=
  let* e := strend w fuel m str in Ok ((e - str) / Z.of_nat w).
Fixpoint strnlen_loop (w : nat) (m : mem) (s : Z) (max : nat) : res Z :=
  match max with
  | O => Ok s
  | S n => let* v := loadn w m s in
           if v =? 0 then Ok s else strnlen_loop w m (s + Z.of_nat w) n
  end.
Definition replace_strnlen (w : nat) (m : mem) (str : Z) (max : nat) : res Z :=
  let* e := strnlen_loop w m str max in Ok ((e - str) / Z.of_nat w).

(** ---- comparison ---- *)
(** body shared by strcmp/strncmp/wcscmp/wcsncmp/strcasecmp/strncasecmp,
    replace.c:440-582: [Some r] = return r, [None] = advance.
    [fold] is app_tolower followed by the cast, or the identity. *)
Definition cmp_body (fold : Z -> Z) (v1 v2 : Z) : option Z :=
  let l1 := fold v1 in
  let l2 := fold v2 in
  if l1 =? 0 then (if l2 =? 0 then Some 0 else Some (-1))
  else if l2 =? 0 then Some 1
  else if l1 <? l2 then Some (-1)
  else if l2 <? l1 then Some 1
  else None.
(** replace.c:483-503 strcmp, 515-536 strcasecmp, 563-582 wcscmp.  The two
    loads are done up front: the C text reads *s2 in every path as well. *)
Fixpoint strcmp_loop (w : nat) (fold : Z -> Z) (fuel : nat) (m : mem) (s1 s2 : Z) : res Z :=
  match fuel with
  | O => Fuel
  | S f => let* v1 := loadn w m s1 in
           let* v2 := loadn w m s2 in
           match cmp_body fold v1 v2 with
           | Some r => Ok r
           | None => strcmp_loop w fold f m (s1 + Z.of_nat w) (s2 + Z.of_nat w)
           end
  end.
(** replace.c:439-460 strncmp, 462-481 wcsncmp, 538-561 strncasecmp *)
Fixpoint strncmp_loop (w : nat) (fold : Z -> Z) (m : mem) (s1 s2 : Z) (size : nat) : res Z :=
  match size with
  | O => Ok 0
  | S n => let* v1 := loadn w m s1 in
           let* v2 := loadn w m s2 in
           match cmp_body fold v1 v2 with
           | Some r => Ok r
           | None => strncmp_loop w fold m (s1 + Z.of_nat w) (s2 + Z.of_nat w) n
           end
  end.
(** replace.c:505-511 *)
Definition replace_tolower_ascii (c : Z) : Z :=
  if (65 <=? c) && (c <=? 90) then c - (65 - 97) else c.
(** replace.c:804-818: operands promote to int, no overflow for bytes *)
Fixpoint memcmp_loop (m : mem) (s1 s2 : Z) (size : nat) : res Z :=
  match size with
  | O => Ok 0
  | S n => let* v1 := loadn 1 m s1 in
           let* v2 := loadn 1 m s2 in
           if negb (v1 - v2 =? 0) then Ok (v1 - v2)
           else memcmp_loop m (s1 + 1) (s2 + 1) n
  end.
(** replace.c:820-832: wchar_t is a signed 32-bit int on Linux; the
    subtraction is an int subtraction and overflows (UB) out of range. *)
Definition to_int32 (v : Z) : Z := if v <? 2 ^ 31 then v else v - 2 ^ 32.
Fixpoint wmemcmp_loop (m : mem) (s1 s2 : Z) (size : nat) : res Z :=
  match size with
  | O => Ok 0
  | S n => let* v1 := loadn 4 m s1 in
           let* v2 := loadn 4 m s2 in
           let d := to_int32 v1 - to_int32 v2 in
           if (d <? - 2 ^ 31) || (2 ^ 31 <=? d) then UB
           else if negb (d =? 0) then Ok d
           else wmemcmp_loop m (s1 + 4) (s2 + 4) n
  end.

(** ---- copying strings ---- *)
(** replace.c:584-593 strcpy, 595-604 wcscpy, 623-632 stpcpy: returns the
    final memory and the address of the written terminator *)
Fixpoint strcpy_loop (w fuel : nat) (m : mem) (d s : Z) : res (mem * Z) :=
  match fuel with
  | O => Fuel
  | S f => let* v := loadn w m s in
           if v =? 0 then let* m' := storen w m d 0 in Ok (m', d)
           else let* m' := storen w m d v in
                strcpy_loop w f m' (d + Z.of_nat w) (s + Z.of_nat w)
  end.
Definition replace_strcpy (w fuel : nat) (m : mem) (dst src : Z) : res (mem * Z) :=
  let* (m', _) := strcpy_loop w fuel m dst src in Ok (m', dst).
Definition replace_stpcpy (fuel : nat) (m : mem) (dst src : Z) : res (mem * Z) :=
  strcpy_loop 1 fuel m dst src.
(** replace.c:606-621 *)
Fixpoint strncpy_loop (m : mem) (d s : Z) (size : nat) : res (mem * Z * nat) :=
  match size with
  | O => Ok (m, d, O)
  | S n => let* v := loadn 1 m s in
           if v =? 0 then Ok (m, d, size)
           else let* m' := storen 1 m d v in strncpy_loop m' (d + 1) (s + 1) n
  end.
Fixpoint zero_loop (m : mem) (d : Z) (size : nat) : res mem :=
  match size with
  | O => Ok m
  | S n => let* m' := storen 1 m d 0 in zero_loop m' (d + 1) n
  end.
Definition replace_strncpy (m : mem) (dst src : Z) (size : nat) : res (mem * Z) :=
  let* (m1, d, n) := strncpy_loop m dst src size in
  let* m2 := zero_loop m1 d n in
  Ok (m2, dst).
(** replace.c:634-642 *)
Definition replace_strcat (fuel : nat) (m : mem) (dst src : Z) : res (mem * Z) :=
  let* d := strend 1 fuel m dst in
  let* (m', _) := strcpy_loop 1 fuel m d src in
  Ok (m', dst).
(** replace.c:644-660 *)
Definition replace_strncat (fuel : nat) (m : mem) (dst src : Z) (size : nat) : res (mem * Z) :=
  let* d := strend 1 fuel m dst in
  let* (m1, d1, _) := strncpy_loop m d src size in
  let* m2 := storen 1 m1 d1 0 in
  Ok (m2, dst).

(** ---- spans: replace.c:662-690.  [bool table[UCHAR_MAX]] has 255 entries;
    index 255 is out of bounds. ---- *)
Definition UCHAR_MAX : Z := 255.
Definition table := Z -> bool.
Definition tbl_get (t : table) (i : Z) : res bool := if i <? UCHAR_MAX then Ok (t i) else UB.
Definition tbl_set (t : table) (i : Z) (b : bool) : res table :=
  if i <? UCHAR_MAX then Ok (fun x => if x =? i then b else t x) else UB.
Fixpoint span_table (fuel : nat) (m : mem) (a : Z) (b : bool) (t : table) : res table :=
  match fuel with
  | O => Fuel
  | S f => let* v := loadn 1 m a in
           if v =? 0 then Ok t
           else let* t' := tbl_set t v b in span_table f m (a + 1) b t'
  end.
Fixpoint span_loop (fuel : nat) (m : mem) (cur : Z) (t : table) : res Z :=
  match fuel with
  | O => Fuel
  | S f => let* v := loadn 1 m cur in
           if v =? 0 then Ok cur
           else let* b := tbl_get t v in
                if b then span_loop f m (cur + 1) t else Ok cur
  end.
(** [b] = true: strspn (table initialised to false); [b] = false: strcspn *)
Definition replace_span (b : bool) (fuel : nat) (m : mem) (str set : Z) : res Z :=
  let* t := span_table fuel m set b (fun _ => negb b) in
  let* e := span_loop fuel m str t in
  Ok (e - str).
Definition replace_strspn := replace_span true.
Definition replace_strcspn := replace_span false.

(** ---- strstr / wcsstr: replace.c:692-734 ---- *)
(** [hs], [n] pointers; w scales the pointer differences *)
Fixpoint strstr_loop (w fuel : nat) (m : mem) (needle hs n : Z) : res (option Z) :=
  match fuel with
  | O => Fuel
  | S f =>
    let wz := Z.of_nat w in
    let* h := loadn w m hs in
    if h =? 0 then Ok None else
    let* nv := loadn w m n in
    let '(hs1, n1) :=
      if negb (h =? nv) && (needle <? n) then (hs - (n - wz - needle), needle) else (hs, n) in
    let* h1 := loadn w m hs1 in
    let* nv1 := loadn w m n1 in
    if h1 =? nv1 then
      let n2 := n1 + wz in
      let* e := loadn w m n2 in
      if e =? 0 then Ok (Some (hs1 - (n2 - wz - needle)))
      else strstr_loop w f m needle (hs1 + wz) n2
    else strstr_loop w f m needle (hs1 + wz) n1
  end.
Definition replace_strstr (w fuel : nat) (m : mem) (haystack needle : Z) : res (option Z) :=
  let* v := loadn w m needle in
  if v =? 0 then Ok (Some haystack)
  else strstr_loop w fuel m needle haystack needle.
