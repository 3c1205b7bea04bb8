(** What the error counters should say, in terms of the whole history. *)
From Verif Require Import Base Report_Model.
Open Scope Z_scope.

(** One recorded occurrence: what would be decided about it were it the first of
    its kind (suppressed by which suppression, likely false positive, to be printed
    in full), and the bytes it leaks. *)
Record item := I { i_type : Z; i_pcs : Z; i_supp : option (Z * bool); i_fp : bool; i_num : bool; i_bytes : Z }.
Definition eqk (x y : item) : bool := (i_type y =? i_type x) && (i_pcs y =? i_pcs x).
Definition cnt {A} (f : A -> bool) (l : list A) : Z := Z.of_nat (length (filter f l)).
Definition sum {A} (g : A -> Z) (f : A -> bool) (l : list A) : Z := fold_right (fun x n => (if f x then g x else 0) + n) 0 l.

(** The first occurrence of each kind, in order. *)
Fixpoint news (seen P : list item) : list item :=
  match P with
  | [] => []
  | x :: P => if existsb (eqk x) seen then news seen P else x :: news (x :: seen) P
  end.
Definition kinds (P : list item) : list item := news [] P.
(** The first occurrence of the kind of [x]. *)
Definition origin (P : list item) (x : item) : item := match find (eqk x) P with Some f => f | None => x end.
Definition unsupp (x : item) : bool := match i_supp x with None => true | Some _ => false end.
Definition numbered (x : item) : bool := unsupp x && i_num x.
(** Numbers are dealt in order of first occurrence, separately for likely false positives. *)
Fixpoint number (N : list item) (f : item) : Z :=
  match N with
  | [] => 0
  | g :: N => if eqk f g then 1 else (if numbered g && eqb (i_fp g) (i_fp f) then 1 else 0) + number N f
  end.
Definition id_of (P : list item) (f : item) : Z := if numbered f then number (kinds P) f else 0.
Definition entry (P : list item) (f : item) : stored :=
  E (i_type f) (i_pcs f) (id_of P f) (cnt (eqk f) P) (i_supp f) (unsupp f && i_fp f).

Definition leaky (x : item) : bool := type_is_leak (i_type x).
Definition unique (P : list item) (b : bool) (t : Z) : Z := cnt (fun f => (i_type f =? t) && eqb (i_fp f) b && unsupp f) (kinds P).
Definition of_set (P : list item) (b : bool) (t : Z) (x : item) : bool := (i_type x =? t) && eqb (i_fp (origin P x)) b && unsupp (origin P x).
Definition total (P : list item) (b : bool) (t : Z) : Z := cnt (of_set P b t) P.
Definition bytes (P : list item) (b : bool) (t : Z) : Z := sum i_bytes (of_set P b t) P.
Definition reported (P : list item) (b : bool) : Z := cnt (fun f => eqb (i_fp f) b && unsupp f && negb (leaky f)) (kinds P).
Definition potential_leaks (P : list item) : Z := cnt (fun f => i_fp f && unsupp f && leaky f) (kinds P).
Definition by_default (d : bool) (x : item) : bool := match i_supp x with Some (_, d') => eqb d d' | None => false end.
Definition by_spec (i : Z) (x : item) : bool := match i_supp x with Some (j, _) => i =? j | None => false end.
Definition supp_errors (P : list item) (d : bool) : Z := cnt (fun x => negb (leaky x) && by_default d (origin P x)) P.
Definition supp_leaks_of (P : list item) (d : bool) : Z := cnt (fun x => leaky x && by_default d (origin P x)) P.
(** an error suppression counts every occurrence, a leak suppression every kind *)
Definition used_of (P : list item) (i : Z) : Z :=
  cnt (fun x => negb (leaky x) && by_spec i (origin P x)) P + cnt (fun f => leaky f && by_spec i f) (kinds P).
Definition spec_bytes_of (P : list item) (i : Z) : Z := sum i_bytes (fun x => leaky x && by_spec i (origin P x)) P.

(** The reports printed: each numbered kind at its first occurrence, with
    [-show_duplicates] every further occurrence of an error as well. *)
Fixpoint prints (dup : bool) (pre P : list item) : list (bool * Z * Z * Z) :=
  match P with
  | [] => []
  | x :: P =>
      let new := negb (existsb (eqk x) pre) in
      let f := origin (pre ++ [x]) x in
      (if numbered f && (new || (dup && negb (leaky x))) then [(i_fp f, number (kinds (pre ++ [x])) f, i_type f, i_pcs f)] else [])
      ++ prints dup (pre ++ [x]) P
  end.

(** Which calls are recorded at all: those before a limit is reached, not covered by
    a whole-module suppression, and not early leaks to be ignored. *)
Record acc := A { a_items : list item; a_whole : list (Z * bool); a_throttled : Z; a_leaks : Z; a_ignored : Z; a_throttled_leaks : Z }.
Definition acc0 := A [] [] 0 0 0 0.
Definition error_item t p m fp := I t p m fp true 0.
Definition leak_item (o : opts) (l : leak) : item :=
  I (leak_type o l) (l_pcs l) (if l_reachable l && negb (l_show_reachable l) then None else l_match l) (l_fp l)
    (negb ((l_maybe l && negb (possible_leaks o)) || (l_reachable l && negb (o_show_reachable o)))) (l_size l + l_indirect l).
Definition admit1 (o : opts) (a : acc) (e : event) : acc :=
  match e with
  | Error t p m fp w =>
      if (0 <=? report_max o) && (report_max o <=? reported (a_items a) false + reported (a_items a) true)
      then A (a_items a) (a_whole a) (a_throttled a + 1) (a_leaks a) (a_ignored a) (a_throttled_leaks a)
      else match w with
           | [] => A (a_items a ++ [error_item t p m fp]) (a_whole a) (a_throttled a) (a_leaks a) (a_ignored a) (a_throttled_leaks a)
           | _ => A (a_items a) (a_whole a ++ w) (a_throttled a) (a_leaks a) (a_ignored a) (a_throttled_leaks a)
           end
  | Leak l =>
      if l_reachable l && negb (l_count_reachable l) then a
      else if (0 <=? report_leak_max o) && (report_leak_max o <=? a_leaks a)
      then A (a_items a) (a_whole a) (a_throttled a) (a_leaks a) (a_ignored a) (a_throttled_leaks a + 1)
      else if leak_type o l =? ERROR_MAX_VAL
      then A (a_items a) (a_whole a) (a_throttled a) (a_leaks a + 1) (a_ignored a + 1) (a_throttled_leaks a)
      else A (a_items a ++ [leak_item o l]) (a_whole a) (a_throttled a) (a_leaks a + 1) (a_ignored a) (a_throttled_leaks a)
  | Fork => acc0
  end.
Definition admit (o : opts) (l : list event) : acc := fold_left (admit1 o) l acc0.

(** Errors are not leaks; forks are treated apart. *)
Definition proper_event (e : event) : Prop := match e with Error t _ _ _ _ => 0 <= t < ERROR_LEAK | Leak _ => True | Fork => False end.

(** A state without any error yet. *)
Record Fresh (s : st) : Prop := {
  f_errs : errs s = []; f_id : error_id s = 0; f_idp : error_id_potential s = 0;
  f_unique : forall b t, num_unique s b t = 0; f_total : forall b t, num_total s b t = 0; f_bytes : forall b t, num_bytes s b t = 0;
  f_reported : forall b, num_reported s b = 0; f_tl : forall b, num_total_leaks s b = 0; f_matched : forall b, matched s b = 0;
  f_sl : forall b, supp_leaks s b = 0; f_ign : leaks_ignored s = 0; f_th : throttled s = 0; f_thl : throttled_leaks s = 0 }.

(** Everything agrees with the history; counters are 32 bits wide. *)
Record Agree (o : opts) (s0 s : st) (a : acc) : Prop := {
  g_errs : errs s = map (entry (a_items a)) (kinds (a_items a));
  g_id : error_id s = u32 (cnt (fun f => numbered f && eqb (i_fp f) false) (kinds (a_items a)));
  g_idp : error_id_potential s = u32 (cnt (fun f => numbered f && eqb (i_fp f) true) (kinds (a_items a)));
  g_unique : forall b t, num_unique s b t = u32 (unique (a_items a) b t);
  g_total : forall b t, num_total s b t = u32 (total (a_items a) b t);
  g_bytes : forall b t, num_bytes s b t = u32 (bytes (a_items a) b t);
  g_reported : forall b, num_reported s b = u32 (reported (a_items a) b);
  g_leaks : num_total_leaks s true = u32 (potential_leaks (a_items a)) /\
            num_total_leaks s false = u32 (a_leaks a - potential_leaks (a_items a));
  g_matched : forall d, matched s d = u32 (supp_errors (a_items a) d + cnt (fun m => eqb d (snd m)) (a_whole a));
  g_supp_leaks : forall d, supp_leaks s d = u32 (supp_leaks_of (a_items a) d);
  g_ignored : leaks_ignored s = u32 (a_ignored a);
  g_throttled : throttled s = u32 (a_throttled a);
  g_throttled_leaks : throttled_leaks s = u32 (a_throttled_leaks a);
  g_used : forall i, u32 (used s i) = u32 (used s0 i + used_of (a_items a) i + cnt (fun m => i =? fst m) (a_whole a));
  g_spec_bytes : forall i, u32 (spec_bytes s i) = u32 (spec_bytes s0 i + spec_bytes_of (a_items a) i);
  g_printed : printed s = printed s0 ++ prints (show_duplicates o) [] (a_items a) }.
