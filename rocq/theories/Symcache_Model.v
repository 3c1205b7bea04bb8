(** Model of the symbol cache, /repo/drsymcache/drsymcache.c, as built for
    Linux: the table of offsets of each symbol, the text file it is written to
    at the end of a run and read from at the start of the next, and the
    interface the rest of the tool uses.  The Windows and Mac branches of the
    header line are not modelled.  Simplifications, all stated where they are
    made: locks, memory management, logging and asserts are omitted; a hash
    table is a list of pairs, and the order in which it is walked is a
    parameter; file contents are lists of byte values. *)
From Coq Require Import String Ascii.
From Verif Require Import Base.
Open Scope Z_scope.
Open Scope list_scope.

Notation bytes := (list Z).
Definition len {A} (l : list A) : Z := Z.of_nat (List.length l).

(** the bytes of a C string literal *)
Fixpoint lit (s : string) : bytes :=
  match s with
  | EmptyString => []
  | String a r => Z.of_N (N_of_ascii a) :: lit r
  end.

(** strcmp of two NUL-terminated strings being 0 *)
Fixpoint str_eqb (a b : bytes) : bool :=
  match a, b with
  | [], [] => true
  | x :: a', y :: b' => (x =? y) && str_eqb a' b'
  | _, _ => false
  end.

(** ---- the offsets of one symbol ---- *)

(** drsymcache.c:134-150.  The iteration cache (148-149) is never read. *)
Record olist := mkOL {
  ol_num : Z;                    (* 135 *)
  ol_list : list Z;              (* 139-141, head first *)
  ol_table : option (list Z)     (* 145: the keys, which are also the payloads *)
}.
(** the table of a module: drsymcache.c:96; keys are symbol names *)
Definition table := list (bytes * olist).

Definition W64 : Z := 2 ^ 64.

(** hashtable_lookup on the table of a module *)
Fixpoint sym_find (tb : table) (sym : bytes) : option olist :=
  match tb with
  | [] => None
  | (k, o) :: r => if str_eqb k sym then Some o else sym_find r sym
  end.
(** hashtable_add of the possibly updated list: drsymcache.c:276.  The list
    is changed in place when the symbol is there already. *)
Fixpoint sym_put (tb : table) (sym : bytes) (o : olist) : table :=
  match tb with
  | [] => [(sym, o)]
  | (k, o') :: r => if str_eqb k sym then (k, o) :: r else (k, o') :: sym_put r sym o
  end.
(** hashtable_lookup(olist->table, key) != NULL: a payload of 0 is NULL *)
Definition off_find (t : list Z) (k : Z) : bool :=
  negb (k =? 0) && existsb (Z.eqb k) t.
(** hashtable_add(olist->table, key, key): no effect when the key is there *)
Definition off_add (t : list Z) (k : Z) : list Z :=
  if existsb (Z.eqb k) t then t else t ++ [k].
Definition off_remove (t : list Z) (k : Z) : list Z :=
  filter (fun x => negb (x =? k)) t.
(** (void * )(offs + 1), a pointer-sized unsigned *)
Definition key_of (offs : Z) : Z := (offs + 1) mod W64.

(** OFFSET_LIST_MIN_TABLE: drsymcache.c:131 *)
Definition MIN_TABLE : Z := 3.

(** what symcache_symbol_add does: dr_abort, or a table and its result *)
Inductive added :=
| AAbort
| ADone (tb : table) (changed : bool).

(** drsymcache.c:250-281: allocate the entry, append it, keep the table *)
Definition symbol_append (tb : table) (sym : bytes) (o : olist) (offs : Z) : added :=
  let l := ol_list o ++ [offs] in
  let n := ol_num o + 1 in
  let t :=
    if MIN_TABLE <=? n then
      match ol_table o with
      | None => Some (fold_left (fun t e => off_add t (key_of e)) l [])   (* 265-272 *)
      | Some t => Some (off_add t (key_of offs))                          (* 273-274 *)
      end
    else ol_table o in
  ADone (sym_put tb sym (mkOL n l t)) true.

(** symcache_symbol_add: drsymcache.c:198-282 *)
Definition symbol_add (tb : table) (sym : bytes) (offs : Z) : added :=
  match sym_find tb sym with
  | Some o =>
      if (ol_num o =? 1) && (hd 0 (ol_list o) =? 0) then
        let t := match ol_table o with
                 | Some t => Some (off_add (off_remove t (key_of (hd 0 (ol_list o))))
                                           (key_of offs))
                 | None => None
                 end in
        ADone (sym_put tb sym (mkOL (ol_num o) (offs :: tl (ol_list o)) t)) true
      else if (ol_num o =? 1) && (offs =? 0) then AAbort
      else if match ol_table o with
              | Some t => off_find t (key_of offs)                (* 228-232 *)
              | None => existsb (Z.eqb offs) (ol_list o)          (* 234-239 *)
              end
      then ADone tb false
      else symbol_append tb sym o offs
  | None => symbol_append tb sym (mkOL 0 [] None) offs            (* 242-246 *)
  end.

(** ---- printing: what dr_snprintf does for %u, %x, %10u and %02x ---- *)
Definition dig (d : Z) : Z := if d <? 10 then 48 + d else 97 + (d - 10).
Fixpoint digits (f : nat) (b n : Z) (acc : bytes) : bytes :=
  match f with
  | O => acc
  | S f' => if n <? b then dig n :: acc else digits f' b (n / b) (dig (n mod b) :: acc)
  end.
Definition fmt (b n : Z) : bytes := digits 64 b n [].
Definition pad_left (w : nat) (c : Z) (s : bytes) : bytes :=
  repeat c (w - List.length s) ++ s.

(** ---- writing ---- *)

(** drsymcache.c:52, 59, 69, 74, 399 *)
Definition HEADER : bytes := lit "Dr. Memory symbol cache version".
Definition VERSION : Z := 16.
Definition BUFFER_SIZE : Z := 4096.
Definition SIZE_DIGITS : nat := 10.
Definition MAX_SYMLEN : Z := 256.
Definition NL : Z := 10.
Definition COMMA : Z := 44.

(** mod_cache_t: drsymcache.c:91-121, Linux fields.  The name is kept with
    the module. *)
Record modcache := mkMC {
  c_from_file : bool;   (* 94 *)
  c_appended : bool;    (* 95 *)
  c_table : table;      (* 97 *)
  c_size : Z;           (* 99 *)
  c_time : Z;           (* 107 *)
  c_md5 : bytes;        (* 113 *)
  c_dbg : bool          (* 121 *)
}.

(** The file being written and the valid part of the buffer; the length of
    the latter is [sofar]. *)
Definition wst : Type := bytes * bytes.

(** dr_write_file, whose result FLUSH_BUFFER ignores (utils.h:554-558): when
    the disk has room for [cap] bytes of this file only, the rest is lost *)
Definition disk_append (cap : option Z) (f data : bytes) : bytes :=
  match cap with
  | None => f ++ data
  | Some c => f ++ firstn (Z.to_nat (c - len f)) data
  end.

(** BUFFERED_WRITE: utils.h:541-546, 560-577.  Asserts are off in a release
    build: once one string has filled the buffer, the next call writes
    [buf[bufsz]] at 571. *)
Definition buffered_write (cap : option Z) (st : wst) (s : bytes) : res wst :=
  let '(f, b) := st in
  if len b + len s <? BUFFER_SIZE then Ok (f, b ++ s)
  else if BUFFER_SIZE <=? len b then UB
  else
    let f' := disk_append cap f b in
    if len s <? BUFFER_SIZE then Ok (f', s)
    else Ok (f', firstn (Z.to_nat (BUFFER_SIZE - 1)) s ++ [0]).

Fixpoint write_all (cap : option Z) (st : wst) (ps : list bytes) : res wst :=
  match ps with
  | [] => Ok st
  | p :: r => let* st' := buffered_write cap st p in write_all cap st' r
  end.

(** drsymcache.c:323-324 *)
Definition header_line : bytes := HEADER ++ lit " " ++ fmt 10 VERSION ++ [NL].
(** drsymcache.c:362-369; the 64-bit offset is printed by %x, which takes 32 bits *)
Definition sym_lines (e : bytes * olist) : list bytes :=
  fst e :: map (fun o => lit ",0x" ++ fmt 16 (o mod 2 ^ 32) ++ [NL]) (ol_list (snd e)).
(** the calls of BUFFERED_WRITE in order: drsymcache.c:323-371 *)
Definition pieces (mc : modcache) (entries : table) : list bytes :=
  header_line ::
  (pad_left SIZE_DIGITS 32 (fmt 10 0) ++ [COMMA]) ::                    (* 327-328 *)
  (fmt 10 (c_size mc) ++ [COMMA] ++ fmt 10 (c_time mc)) ::              (* 338-339 *)
  map (fun b => COMMA :: pad_left 2 48 (fmt 16 b)) (c_md5 mc) ++        (* 342-343 *)
  [NL] ::                                                               (* 352 *)
  (fmt 10 (if c_dbg mc then 1 else 0) ++ [NL]) ::                       (* 354 *)
  flat_map sym_lines entries.                                           (* 355-371 *)

(** drsymcache.c:374-381: seek back and write the size over the placeholder *)
Definition patch_size (cap : option Z) (f : bytes) : option bytes :=
  let loc := List.length header_line in
  let s := firstn SIZE_DIGITS (pad_left SIZE_DIGITS 32 (fmt 10 (len f mod 2 ^ 32))) in
  if match cap with Some c => c <? Z.of_nat (loc + SIZE_DIGITS) | None => false end then None
  else Some (firstn loc f ++ s ++ skipn (loc + SIZE_DIGITS) f).

(** symcache_write_symfile: drsymcache.c:284-398.  The result is the file
    that replaces the previous one, or [None] when that one stays.  [ord] is
    the order in which the hash table is walked; [can] says whether the
    temporary file can be created and renamed (309-321, 394-397). *)
Definition write_symfile (ord : table -> table) (can : bool) (cap : option Z) (mc : modcache)
  : res (option bytes) :=
  if c_from_file mc && negb (c_appended mc) then Ok None                (* 304-305 *)
  else match c_table mc with
  | [] => Ok None                                                       (* 306-307 *)
  | _ =>
      if negb can then Ok None else
      let* st := write_all cap ([], []) (pieces mc (ord (c_table mc))) in
      Ok (patch_size cap (disk_append cap (fst st) (snd st)))           (* 374-381 *)
  end.

(** ---- reading ---- *)

(** A pointer into the mapped file is the rest of the mapping from there on.
    The mapping extends with zeroes to the end of the last page; reading past
    that is undefined. *)
Definition pad_len (f : bytes) : Z := (- len f) mod 4096.
Definition mapped (f : bytes) : bytes := f ++ repeat 0 (Z.to_nat (pad_len f)).

(** strchr *)
Fixpoint strchr (l : bytes) (c : Z) : res (option bytes) :=
  match l with
  | [] => UB
  | x :: r => if x =? c then Ok (Some l) else if x =? 0 then Ok None else strchr r c
  end.
(** strncmp(l, h, strlen(h)) == 0 *)
Fixpoint starts_with (l h : bytes) {struct h} : res bool :=
  match h with
  | [] => Ok true
  | c :: h' => match l with
               | [] => UB
               | x :: r => if x =? c then starts_with r h' else Ok false
               end
  end.

(** dr_sscanf (DynamoRIO), as the C standard has sscanf *)
Definition is_space (c : Z) : bool := (c =? 32) || ((9 <=? c) && (c <=? 13)).
Fixpoint skip_ws (l : bytes) : res bytes :=
  match l with
  | [] => UB
  | x :: r => if is_space x then skip_ws r else Ok l
  end.
Definition dig_val (b c : Z) : option Z :=
  if (48 <=? c) && (c <=? 57) then Some (c - 48)
  else if (b =? 16) && (97 <=? c) && (c <=? 102) then Some (c - 87)
  else if (b =? 16) && (65 <=? c) && (c <=? 70) then Some (c - 55)
  else None.
Fixpoint scan_digits (b : Z) (l : bytes) (acc : Z) (seen : bool) : res (option Z * bytes) :=
  match l with
  | [] => UB
  | x :: r => match dig_val b x with
              | Some d => scan_digits b r (acc * b + d) true
              | None => Ok (if seen then Some acc else None, l)
              end
  end.
Definition scan_sign (l : bytes) : bool * bytes :=
  match l with
  | x :: r => if x =? 45 then (true, r) else if x =? 43 then (false, r) else (false, l)
  | [] => (false, l)
  end.
Definition scan_prefix (b : Z) (l : bytes) : bytes :=
  match l with
  | x :: y :: r => if (b =? 16) && (x =? 48) && ((y =? 120) || (y =? 88)) then r else l
  | _ => l
  end.
(** one conversion of an integer of [w] bits in base [b] *)
Definition scan_int (b w : Z) (l : bytes) : res (option Z * bytes) :=
  let* l1 := skip_ws l in
  let '(neg, l2) := scan_sign l1 in
  let* (v, l3) := scan_digits b (scan_prefix b l2) 0 false in
  Ok (option_map (fun v => (if neg then - v else v) mod 2 ^ w) v, l3).
(** literal characters of the format *)
Fixpoint scan_lit (s : bytes) (l : bytes) : res (option bytes) :=
  match s with
  | [] => Ok (Some l)
  | c :: s' => match l with
               | [] => UB
               | x :: r => if x =? c then scan_lit s' r else Ok None
               end
  end.

(** dr_sscanf(line, "%u,%llu,%u", ...) == 3: drsymcache.c:493-494 *)
Definition scan_header (line : bytes) : res (option (Z * Z * Z)) :=
  let* (a, l1) := scan_int 10 32 line in
  match a with None => Ok None | Some a =>
  let* l2 := scan_lit [COMMA] l1 in
  match l2 with None => Ok None | Some l2 =>
  let* (b, l3) := scan_int 10 64 l2 in
  match b with None => Ok None | Some b =>
  let* l4 := scan_lit [COMMA] l3 in
  match l4 with None => Ok None | Some l4 =>
  let* (c, _) := scan_int 10 32 l4 in
  Ok (option_map (fun c => (a, b, c)) c)
  end end end end.

(** dr_sscanf(line, ",%x", &val) == 1 (511) and ",0x%x" (595) *)
Definition scan_after (s line : bytes) : res (option Z) :=
  let* l1 := scan_lit s line in
  match l1 with
  | None => Ok None
  | Some l1 => let* (v, _) := scan_int 16 32 l1 in Ok v
  end.

(** drsymcache.c:509-524: [n] more bytes; the pointer ends at the last comma *)
Fixpoint read_md5 (n : nat) (line : bytes) (acc : bytes) : res (option (bytes * bytes)) :=
  match n with
  | O => Ok (Some (acc, line))
  | S n' =>
      let* v := scan_after [COMMA] line in
      match v with
      | None => Ok None
      | Some v =>
          if 255 <? v then Ok None else
          match n' with
          | O => Ok (Some (acc ++ [v], line))
          | S _ => let* l := strchr (tl line) COMMA in
                   match l with
                   | None => Ok None
                   | Some l => read_md5 n' l (acc ++ [v])
                   end
          end
      end
  end.

(** what symcache_read_symfile leaves: dr_abort from symcache_symbol_add, or
    its result, the table and has_debug_info *)
Inductive rd :=
| RAbort
| RDone (ok : bool) (tb : table) (dbg : bool).

(** drsymcache.c:578-617 *)
Fixpoint read_lines (fuel : nat) (pad : Z) (line symbol : bytes) (tb : table) (dbg : bool)
  : res rd :=
  match fuel with
  | O => Fuel
  | S fuel' =>
      if len line <=? pad then Ok (RDone true tb dbg) else              (* 579 *)
      let* comma := strchr line COMMA in                                (* 580 *)
      let* newline := strchr line NL in                                 (* 581 *)
      let symlen := match comma with Some c => len line - len c | None => 0 end in
      let symbol' := if (0 <? symlen) && (symlen <? MAX_SYMLEN)
                     then firstn (Z.to_nat symlen) line else symbol in  (* 588-591 *)
      let* offs := match comma with
                   | Some c => if (symlen <? MAX_SYMLEN) && negb (str_eqb symbol' [])
                               then scan_after (lit ",0x") c else Ok None
                   | None => Ok None
                   end in                                               (* 592-593 *)
      match offs with
      | None => Ok (RDone true tb dbg)                                  (* 605-615 *)
      | Some offs =>
          match symbol_add tb symbol' offs with                         (* 603 *)
          | AAbort => Ok RAbort
          | ADone tb' _ =>
              match newline with
              | Some n => read_lines fuel' pad (tl n) symbol' tb' dbg
              | None => Ok (RDone true tb' dbg)                         (* 584 *)
              end
          end
      end
  end.

(** the pointer behind the next newline; [None] is NULL *)
Definition next_line (line : bytes) : res (option bytes) :=
  let* l := strchr line NL in Ok (option_map (@tl Z) l).
(** strchr(line, ',') + 1, which is dereferenced afterwards: 498-500 *)
Definition past_comma (line : bytes) : res bytes :=
  let* l := strchr line COMMA in
  match l with Some l => Ok (tl l) | None => UB end.

(** drsymcache.c:454-552, Linux: does the header line agree with the module
    and with the size of the file?  [None] is [goto done]; otherwise the
    pointer reached. *)
Definition read_consistency (fsize : Z) (mc : modcache) (line : bytes) : res (option bytes) :=
  let* h := scan_header line in
  match h with
  | None => Ok None
  | Some (cache_file_size, module_file_size, timestamp) =>
      let* l1 := past_comma line in
      let* l2 := past_comma l1 in
      let* l3 := strchr l2 COMMA in
      match l3 with
      | None => Ok None
      | Some l3 =>
          let* m := read_md5 16 l3 [] in
          match m with
          | None => Ok None
          | Some (md5, l4) =>
              if negb (module_file_size =? c_size mc) || negb (timestamp =? c_time mc) ||
                 negb (str_eqb md5 (c_md5 mc)) then Ok None             (* 525-530 *)
              else if negb (cache_file_size =? fsize mod 2 ^ 32) then Ok None (* 548-552 *)
              else Ok (Some l4)
          end
      end
  end.

(** symcache_read_symfile once the file is mapped: drsymcache.c:436-634.
    [syms] is module_has_symbols(mod), [mc] the module's entry so far. *)
Definition read_fail (syms : bool) (mc : modcache) : rd := RDone false (c_table mc) syms.
Definition read_mapped (f : bytes) (syms : bool) (mc : modcache) : res rd :=
  let map := mapped f in
  let* same := starts_with map HEADER in
  if negb same then Ok (read_fail syms mc) else                     (* 436-439 *)
  let* (ver, _) := scan_int 10 32 (skipn (List.length HEADER + 1) map) in
  if negb (match ver with Some v => v =? VERSION | None => false end)
  then Ok (read_fail syms mc) else                                  (* 444-450 *)
  let* line := next_line map in                                     (* 451-453 *)
  match line with
  | None => UB                      (* 455 is skipped; 554: strchr(NULL, ...) *)
  | Some line =>
      let* ok := read_consistency (len f) mc line in
      match ok with
      | None => Ok (read_fail syms mc)
      | Some line =>
          let* line := next_line line in                            (* 554-556 *)
          match line with
          | None => UB              (* 557 is skipped; 575: strchr(NULL, ...) *)
          | Some line =>
              let* (d, _) := scan_int 10 32 line in
              match d with
              | None => Ok (read_fail syms mc)                      (* 559-562 *)
              | Some d =>
                  if (d =? 0) && syms then Ok (read_fail syms mc)   (* 570-573 *)
                  else
                    let dbg := if d =? 0 then c_dbg mc else true in
                    let* line := next_line line in                  (* 576-578 *)
                    match line with
                    | None => Ok (RDone true (c_table mc) dbg)
                    | Some line =>
                        read_lines (S (List.length map)) (pad_len f) line []
                                   (c_table mc) dbg
                    end
              end
          end
      end
  end.

(** symcache_read_symfile: drsymcache.c:406-634.  The only failure to map is
    that of an empty file. *)
Definition read_symfile (file : option bytes) (syms : bool) (mc : modcache) : res rd :=
  match file with
  | None => Ok (read_fail syms mc)                                      (* 421-422 *)
  | Some [] => Ok (read_fail syms mc)                                   (* 432-435 *)
  | Some f => read_mapped f syms mc
  end.

(** ---- modules ---- *)

(** what the tool knows of a module: its path and preferred name, the size of
    its file, its timestamp, the MD5 of its first 1024 bytes, whether it has
    symbols, and whether it is large enough to be cached *)
Record image := mkMod {
  m_path : bytes; m_name : bytes;
  m_size : Z; m_time : Z; m_md5 : bytes;
  m_syms : bool; m_big : bool
}.

Fixpoint assoc {A} (l : list (bytes * A)) (k : bytes) : option A :=
  match l with
  | [] => None
  | (x, v) :: r => if str_eqb x k then Some v else assoc r k
  end.
Definition remove {A} (l : list (bytes * A)) (k : bytes) : list (bytes * A) :=
  filter (fun p => negb (str_eqb (fst p) k)) l.
Definition update {A} (l : list (bytes * A)) (k : bytes) (v : A) : list (bytes * A) :=
  (k, v) :: remove l k.

(** symcache_table keyed by path (85), with the name under which each module
    is saved (93), and the files of the cache directory *)
Record state := mkSt {
  s_mods : list (bytes * (bytes * modcache));
  s_files : list (bytes * bytes)
}.

Inductive outcome := Aborted | Running (s : state).

(** symcache_module_load: drsymcache.c:771-846 *)
Definition module_load (s : state) (m : image) : res outcome :=
  if negb (m_big m) then Ok (Running s) else                            (* 785-788 *)
  match assoc (s_mods s) (m_path m) with
  | Some _ => Ok (Running s)                                            (* 795-796 *)
  | None =>
      let mc := mkMC false false [] (m_size m) (m_time m) (m_md5 m) false in
      let* r := read_symfile (assoc (s_files s) (m_name m)) (m_syms m) mc in
      match r with
      | RAbort => Ok Aborted
      | RDone ok tb dbg =>
          Ok (Running (mkSt (update (s_mods s) (m_path m)
                (m_name m, mkMC ok false tb (m_size m) (m_time m) (m_md5 m) dbg))
                (s_files s)))
      end
  end.

(** symcache_module_save_common: drsymcache.c:848-867 *)
Definition module_save (ord : table -> table) (s : state) (m : image) (rm : bool) : res state :=
  match assoc (s_mods s) (m_path m) with
  | None => Ok s
  | Some (_, mc) =>
      let* w := write_symfile ord true None mc in
      let files := match w with
                   | Some f => update (s_files s) (m_name m) f
                   | None => s_files s
                   end in
      Ok (mkSt (if rm then remove (s_mods s) (m_path m) else s_mods s) files)
  end.

(** drsymcache_add: drsymcache.c:936-962 *)
Definition cache_add (s : state) (m : image) (sym : bytes) (offs : Z) : outcome :=
  match assoc (s_mods s) (m_path m) with
  | None => Running s                                                   (* 951-955 *)
  | Some (n, mc) =>
      match symbol_add (c_table mc) sym offs with
      | AAbort => Aborted
      | ADone tb changed =>
          let app := if changed && c_from_file mc then true else c_appended mc in
          Running (mkSt (update (s_mods s) (m_path m)
                  (n, mkMC (c_from_file mc) app tb (c_size mc) (c_time mc) (c_md5 mc) (c_dbg mc)))
                  (s_files s))
      end
  end.

(** drsymcache_lookup: drsymcache.c:964-1007; [None] is NOT_FOUND.  The array
    has [ol_num] elements; writing more is out of bounds. *)
Definition cache_lookup (s : state) (m : image) (sym : bytes) : res (option (list Z)) :=
  match assoc (s_mods s) (m_path m) with
  | None => Ok None
  | Some (_, mc) =>
      match sym_find (c_table mc) sym with
      | None => Ok None
      | Some o => if ol_num o <? len (ol_list o) then UB else Ok (Some (ol_list o))
      end
  end.

(** symcache_module_has_data behind drsymcache_module_is_cached and
    drsymcache_module_has_debug_info: drsymcache.c:893-934.  All return
    success; [before] is what *res held. *)
Definition has_data (s : state) (m : image) (require_syms : bool) (before : bool) : bool :=
  match assoc (s_mods s) (m_path m) with
  | None => before
  | Some (_, mc) => negb (match c_table mc with [] => true | _ => false end) &&
                    (negb require_syms || c_dbg mc)
  end.

(** drsymcache_exit: drsymcache.c:723-735 *)
Fixpoint exit_all (ord : table -> table) (l : list (bytes * (bytes * modcache)))
  (files : list (bytes * bytes)) : res (list (bytes * bytes)) :=
  match l with
  | [] => Ok files
  | (_, (n, mc)) :: r =>
      let* w := write_symfile ord true None mc in
      exit_all ord r (match w with Some f => update files n f | None => files end)
  end.
Definition cache_exit (ord : table -> table) (s : state) : res state :=
  let* files := exit_all ord (s_mods s) (s_files s) in Ok (mkSt [] files).

(** A run: module events, uses of the cache, the end of the process in the
    regular way and otherwise. *)
Inductive op :=
| Load (m : image)
| Save (m : image)
| Unload (m : image)
| Add (m : image) (sym : bytes) (offs : Z)
| Exit
| Crash.

Definition step (ord : table -> table) (s : state) (o : op) : res outcome :=
  match o with
  | Load m => module_load s m
  | Save m => let* s' := module_save ord s m false in Ok (Running s')
  | Unload m => let* s' := module_save ord s m true in Ok (Running s')
  | Add m sym offs => Ok (cache_add s m sym offs)
  | Exit => let* s' := cache_exit ord s in Ok (Running s')
  | Crash => Ok (Running (mkSt [] (s_files s)))
  end.
Fixpoint run (ord : table -> table) (s : state) (l : list op) : res outcome :=
  match l with
  | [] => Ok (Running s)
  | o :: r =>
      let* x := step ord s o in
      match x with
      | Aborted => Ok Aborted
      | Running s' => run ord s' r
      end
  end.
