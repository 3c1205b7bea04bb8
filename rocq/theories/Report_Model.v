(** Error recording: drmemory/report.c.  A call stack is a label (its comparison is
    C31's subject), the hash table of stored errors is a list searched by key, the
    suppression match (C28) and the likely-false-positive test are given with each
    call.  Printing is reduced to which error is printed with which number. *)
From Verif Require Import Base.
Open Scope Z_scope.

Definition u32 (x : Z) : Z := x mod 2 ^ 32.

(** report.c:93-107 (Linux numbering), 109-113 *)
Definition ERROR_LEAK := 4.
Definition ERROR_POSSIBLE_LEAK := 5.
Definition ERROR_REACHABLE_LEAK := 6.
Definition ERROR_MAX_VAL := 7.
Definition type_is_leak (t : Z) : bool := (ERROR_LEAK <=? t) && (t <=? ERROR_REACHABLE_LEAK).

(** report.c:236-250 [stored_error_t]; the matched specification with its default flag. *)
Record stored := E { e_type : Z; e_pcs : Z; e_id : Z; e_count : Z; e_supp : option (Z * bool); e_pot : bool }.
(** report.c:46-66, 160-173, 261-273; two-index arrays are functions. *)
Record st := S {
  errs : list stored;
  error_id : Z; error_id_potential : Z;
  num_unique : bool -> Z -> Z; num_total : bool -> Z -> Z; num_bytes : bool -> Z -> Z;
  num_reported : bool -> Z; num_total_leaks : bool -> Z;
  matched : bool -> Z;            (* num_suppressions_matched_{default,user} *)
  supp_leaks : bool -> Z;         (* num_suppressed_leaks_{default,user} *)
  leaks_ignored : Z; throttled : Z; throttled_leaks : Z;
  used : Z -> Z; spec_bytes : Z -> Z;   (* per suppression: count_used, bytes_leaked *)
  printed : list (bool * Z * Z * Z) (* potential file?, number, type, stack *) }.
Record opts := O { report_max : Z; report_leak_max : Z; show_duplicates : bool; check_leaks : bool;
                   possible_leaks : bool; o_show_reachable : bool; ignore_early_leaks : bool; verbose2 : bool }.

Definition add1 (f : Z -> Z) (i d : Z) : Z -> Z := fun j => if j =? i then u32 (f j + d) else f j.
Definition addb (f : bool -> Z) (b : bool) (d : Z) : bool -> Z := fun c => if eqb c b then u32 (f c + d) else f c.
Definition add2 (f : bool -> Z -> Z) (b : bool) (i d : Z) : bool -> Z -> Z :=
  fun c j => if eqb c b && (j =? i) then u32 (f c j + d) else f c j.

(** Functional updates of single fields. *)
Definition w_errs v s := S v (error_id s) (error_id_potential s) (num_unique s) (num_total s) (num_bytes s) (num_reported s) (num_total_leaks s) (matched s) (supp_leaks s) (leaks_ignored s) (throttled s) (throttled_leaks s) (used s) (spec_bytes s) (printed s).
Definition w_ids a b s := S (errs s) a b (num_unique s) (num_total s) (num_bytes s) (num_reported s) (num_total_leaks s) (matched s) (supp_leaks s) (leaks_ignored s) (throttled s) (throttled_leaks s) (used s) (spec_bytes s) (printed s).
Definition w_unique v s := S (errs s) (error_id s) (error_id_potential s) v (num_total s) (num_bytes s) (num_reported s) (num_total_leaks s) (matched s) (supp_leaks s) (leaks_ignored s) (throttled s) (throttled_leaks s) (used s) (spec_bytes s) (printed s).
Definition w_total v s := S (errs s) (error_id s) (error_id_potential s) (num_unique s) v (num_bytes s) (num_reported s) (num_total_leaks s) (matched s) (supp_leaks s) (leaks_ignored s) (throttled s) (throttled_leaks s) (used s) (spec_bytes s) (printed s).
Definition w_bytes v s := S (errs s) (error_id s) (error_id_potential s) (num_unique s) (num_total s) v (num_reported s) (num_total_leaks s) (matched s) (supp_leaks s) (leaks_ignored s) (throttled s) (throttled_leaks s) (used s) (spec_bytes s) (printed s).
Definition w_reported v s := S (errs s) (error_id s) (error_id_potential s) (num_unique s) (num_total s) (num_bytes s) v (num_total_leaks s) (matched s) (supp_leaks s) (leaks_ignored s) (throttled s) (throttled_leaks s) (used s) (spec_bytes s) (printed s).
Definition w_total_leaks v s := S (errs s) (error_id s) (error_id_potential s) (num_unique s) (num_total s) (num_bytes s) (num_reported s) v (matched s) (supp_leaks s) (leaks_ignored s) (throttled s) (throttled_leaks s) (used s) (spec_bytes s) (printed s).
Definition w_matched v s := S (errs s) (error_id s) (error_id_potential s) (num_unique s) (num_total s) (num_bytes s) (num_reported s) (num_total_leaks s) v (supp_leaks s) (leaks_ignored s) (throttled s) (throttled_leaks s) (used s) (spec_bytes s) (printed s).
Definition w_supp_leaks v s := S (errs s) (error_id s) (error_id_potential s) (num_unique s) (num_total s) (num_bytes s) (num_reported s) (num_total_leaks s) (matched s) v (leaks_ignored s) (throttled s) (throttled_leaks s) (used s) (spec_bytes s) (printed s).
Definition w_ignored v s := S (errs s) (error_id s) (error_id_potential s) (num_unique s) (num_total s) (num_bytes s) (num_reported s) (num_total_leaks s) (matched s) (supp_leaks s) v (throttled s) (throttled_leaks s) (used s) (spec_bytes s) (printed s).
Definition w_throttled v s := S (errs s) (error_id s) (error_id_potential s) (num_unique s) (num_total s) (num_bytes s) (num_reported s) (num_total_leaks s) (matched s) (supp_leaks s) (leaks_ignored s) v (throttled_leaks s) (used s) (spec_bytes s) (printed s).
Definition w_throttled_leaks v s := S (errs s) (error_id s) (error_id_potential s) (num_unique s) (num_total s) (num_bytes s) (num_reported s) (num_total_leaks s) (matched s) (supp_leaks s) (leaks_ignored s) (throttled s) v (used s) (spec_bytes s) (printed s).
Definition w_used v s := S (errs s) (error_id s) (error_id_potential s) (num_unique s) (num_total s) (num_bytes s) (num_reported s) (num_total_leaks s) (matched s) (supp_leaks s) (leaks_ignored s) (throttled s) (throttled_leaks s) v (spec_bytes s) (printed s).
Definition w_spec_bytes v s := S (errs s) (error_id s) (error_id_potential s) (num_unique s) (num_total s) (num_bytes s) (num_reported s) (num_total_leaks s) (matched s) (supp_leaks s) (leaks_ignored s) (throttled s) (throttled_leaks s) (used s) v (printed s).
Definition w_print v s := S (errs s) (error_id s) (error_id_potential s) (num_unique s) (num_total s) (num_bytes s) (num_reported s) (num_total_leaks s) (matched s) (supp_leaks s) (leaks_ignored s) (throttled s) (throttled_leaks s) (used s) (spec_bytes s) v.

Definition init : st := S [] 0 0 (fun _ _ => 0) (fun _ _ => 0) (fun _ _ => 0) (fun _ => 0) (fun _ => 0) (fun _ => 0) (fun _ => 0) 0 0 0 (fun _ => 0) (fun _ => 0) [].

(** report.c:309-317 [stored_error_cmp]; the table. *)
Definition same (t p : Z) (e : stored) : bool := (e_type e =? t) && (e_pcs e =? p).
Definition lookup (s : st) (t p : Z) : option stored := find (same t p) (errs s).
Definition update (s : st) (e : stored) : st :=
  w_errs (map (fun x => if same (e_type e) (e_pcs e) x then e else x) (errs s)) s.

(** report.c:2099-2108 [acquire_error_number] *)
Definition acquire_error_number (s : st) (e : stored) : st * stored :=
  let n := u32 ((if e_pot e then error_id_potential s else error_id s) + 1) in
  let e := E (e_type e) (e_pcs e) n (e_count e) (e_supp e) (e_pot e) in
  let s := if e_pot e then w_ids (error_id s) n s else w_ids n (error_id_potential s) s in
  let s := update s e in
  (w_unique (add2 (num_unique s) (e_pot e) (e_type e) 1) s, e).

(** report.c:2118-2229 [record_error], the call stack already taken. *)
Definition record_error (s : st) (t p : Z) : st * stored :=
  let (s, e) := match lookup s t p with
                | None => let e := E t p 0 0 None false in (w_errs (errs s ++ [e]) s, e)
                | Some e => (s, e)
                end in
  let e := E (e_type e) (e_pcs e) (e_id e) (u32 (e_count e + 1)) (e_supp e) (e_pot e) in
  let s := update s e in
  let s := match e_supp e with None => w_total (add2 (num_total s) (e_pot e) t 1) s | Some _ => s end in
  (s, e).

(** report.c:1110-1149 [on_suppression_list]: the match is given, its use is counted. *)
Definition on_suppression_list (s : st) (m : option (Z * bool)) : st * option (Z * bool) :=
  match m with Some (i, _) => (w_used (add1 (used s) i 1) s, m) | None => (s, None) end.
(** report.c:1154-1201 [report_in_suppressed_module]: [whole] are the matching whole-module suppressions. *)
Definition in_suppressed_module (s : st) (whole : list (Z * bool)) : st * bool :=
  (fold_left (fun s (m : Z * bool) => w_used (add1 (used s) (fst m) 1) (w_matched (addb (matched s) (snd m) 1) s)) whole s,
   match whole with [] => false | _ => true end).

(** report.c:2580-2608 [print_error_report], the results files only. *)
Definition print (s : st) (reporting : bool) (e : stored) : st :=
  if reporting then w_print (printed s ++ [(e_pot e, e_id e, e_type e, e_pcs e)]) s else s.

(** report.c:2686-2855 [report_error].  [fp]: the answer of
    [error_is_likely_false_positive]. *)
Definition report_error (o : opts) (s : st) (t p : Z) (m : option (Z * bool)) (fp : bool) (whole : list (Z * bool)) : st :=
  if (0 <=? report_max o) && (report_max o <=? u32 (num_reported s false + num_reported s true))
  then w_throttled (u32 (throttled s + 1)) s
  else
    let (s, out) := in_suppressed_module s whole in
    if out then s else
    let (s, e) := record_error s t p in
    let '(s, reporting) :=
      (if 1 <? e_count e then
         match e_supp e with
         | Some (i, d) => (w_matched (addb (matched s) d 1) (w_used (add1 (used s) i 1) s), false)
         | None => (s, true)
         end
       else (s, false)) in
    if (1 <? e_count e) && negb (show_duplicates o) then s else
    let '(s, e, reporting) :=
      (if e_count e =? 1 then
         let (s, r) := on_suppression_list s m in
         match r with
         | Some (i, d) =>
             let e := E (e_type e) (e_pcs e) (e_id e) (e_count e) r (e_pot e) in
             let s := update s e in
             let s := w_matched (addb (matched s) d 1) s in
             (w_total (add2 (num_total s) false t (-1)) s, e, false)
         | None =>
             if fp then
               let e := E (e_type e) (e_pcs e) (e_id e) (e_count e) (e_supp e) true in
               let (s, e) := acquire_error_number s e in
               let s := w_total (add2 (num_total s) false t (-1)) s in
               let s := w_total (add2 (num_total s) true t 1) s in
               (w_reported (addb (num_reported s) true 1) s, e, true)
             else
               let (s, e) := acquire_error_number s e in
               (w_reported (addb (num_reported s) false 1) s, e, true)
         end
       else (s, e, reporting)) in
    print s reporting e.

(** report.c:3295-3519 [report_leak] for a known malloc block. *)
Record leak := L { l_size : Z; l_indirect : Z; l_early : bool; l_reachable : bool; l_maybe : bool; l_pcs : Z;
                   l_count_reachable : bool; l_show_reachable : bool; l_match : option (Z * bool); l_fp : bool }.
Definition leak_type (o : opts) (l : leak) : Z :=
  if l_reachable l && negb (l_early l) then ERROR_REACHABLE_LEAK
  else if l_early l && ignore_early_leaks o then ERROR_MAX_VAL
  else if l_maybe l then ERROR_POSSIBLE_LEAK
  else ERROR_LEAK.
Definition report_leak (o : opts) (s : st) (l : leak) : st :=
  if l_reachable l && negb (l_count_reachable l) then s else
  if (0 <=? report_leak_max o) && (report_leak_max o <=? u32 (num_total_leaks s false + num_total_leaks s true))
  then w_throttled_leaks (u32 (throttled_leaks s + 1)) s
  else
    let s := w_total_leaks (addb (num_total_leaks s) false 1) s in
    let t := leak_type o l in
    let s := if negb (l_reachable l && negb (l_early l)) && (l_early l && ignore_early_leaks o)
             then w_ignored (u32 (leaks_ignored s + 1)) s else s in
    let bytes := l_size l + l_indirect l in
    if t =? ERROR_MAX_VAL then s
    else if check_leaks o then
      let (s, e) := record_error s t (l_pcs l) in
      if 1 <? e_count e then
        match e_supp e with
        | Some (i, d) => w_spec_bytes (add1 (spec_bytes s) i bytes) (w_supp_leaks (addb (supp_leaks s) d 1) s)
        | None => w_bytes (add2 (num_bytes s) (e_pot e) t bytes) s
        end
      else
        let (s, r) := (if l_reachable l && negb (l_show_reachable l) then (s, None) else on_suppression_list s (l_match l)) in
        match r with
        | None =>
            let reporting := negb ((l_maybe l && negb (possible_leaks o)) || (l_reachable l && negb (o_show_reachable o))) in
            let '(s, e, set) :=
              (if e_id e =? 0 then
                 let '(s, e, set) :=
                   (if l_fp l then
                      let e := E (e_type e) (e_pcs e) (e_id e) (e_count e) (e_supp e) true in
                      let s := update s e in
                      let (s, e) := if reporting then acquire_error_number s e else (s, e) in
                      let s := w_total_leaks (addb (num_total_leaks s) false (-1)) s in
                      let s := w_total_leaks (addb (num_total_leaks s) true 1) s in
                      let s := w_total (add2 (num_total s) false t (-1)) s in
                      (w_total (add2 (num_total s) true t 1) s, e, true)
                    else let (s, e) := if reporting then acquire_error_number s e else (s, e) in (s, e, e_pot e)) in
                 (if reporting then s else w_unique (add2 (num_unique s) (e_pot e) t 1) s, e, set)
               else (w_unique (add2 (num_unique s) true t 1) s, e, e_pot e)) in   (* 3472: ERROR_SET(err) of a pointer *)
            let s := w_bytes (add2 (num_bytes s) set t bytes) s in
            print s reporting e
        | Some (i, d) =>
            let already := match e_supp e with Some _ => true | None => false end in
            let e := E (e_type e) (e_pcs e) (e_id e) (e_count e) r (e_pot e) in
            let s := update s e in
            let s := w_supp_leaks (addb (supp_leaks s) d 1) s in
            let s := w_spec_bytes (add1 (spec_bytes s) i bytes) s in
            if already then s else w_total (add2 (num_total s) false t (-1)) s
        end
    else
      let s := w_unique (add2 (num_unique s) false t 1) s in
      let s := w_bytes (add2 (num_bytes s) false t bytes) s in
      let reporting := (t =? ERROR_LEAK) || ((t =? ERROR_POSSIBLE_LEAK) && possible_leaks o) || ((t =? ERROR_REACHABLE_LEAK) && l_show_reachable l) in
      let reporting := reporting && negb (l_maybe l && negb (possible_leaks o)) && negb (l_reachable l && negb (o_show_reachable o)) in
      if reporting then w_print (printed s ++ [(false, 0, t, l_pcs l)]) s else s.

(** report.c:3241-3293: a leak scan that is not the last one is bracketed by
    [report_leak_stats_checkpoint] and [report_leak_stats_revert]. *)
Definition keep_leaks (f g : bool -> Z -> Z) : bool -> Z -> Z := fun b t => if type_is_leak t then f b t else g b t.
Definition revert (saved s : st) : st :=
  w_errs (map (fun e => if type_is_leak (e_type e) then E (e_type e) (e_pcs e) (e_id e) 0 (e_supp e) (e_pot e) else e) (errs s))
  (w_ignored (leaks_ignored saved) (w_supp_leaks (supp_leaks saved) (w_unique (keep_leaks (num_unique saved) (num_unique s))
  (w_total (keep_leaks (num_total saved) (num_total s)) (w_bytes (keep_leaks (num_bytes saved) (num_bytes s))
  (w_total_leaks (num_total_leaks saved) (w_throttled_leaks (throttled_leaks saved) s))))))).
(** report.c:1668-1719 [report_fork_init] *)
Definition report_fork_init (s : st) : st :=
  S [] 0 0 (fun _ _ => 0) (fun _ _ => 0) (fun b t => if (ERROR_LEAK <=? t) && (t <? ERROR_REACHABLE_LEAK) then 0 else num_bytes s b t)
    (fun _ => 0) (fun _ => 0) (fun _ => 0) (fun _ => 0) 0 0 0 (used s) (spec_bytes s) (printed s).

Inductive event :=
  | Error (t p : Z) (m : option (Z * bool)) (fp : bool) (whole : list (Z * bool))
  | Leak (l : leak)
  | Fork.
Definition step (o : opts) (s : st) (e : event) : st :=
  match e with
  | Error t p m fp w => report_error o s t p m fp w
  | Leak l => report_leak o s l
  | Fork => report_fork_init s
  end.
Definition run (o : opts) (s : st) (l : list event) : st := fold_left (step o) l s.
(** report.c:1741-1750 [report_errors_found] *)
Definition report_errors_found (o : opts) (s : st) : bool :=
  (0 <? num_reported s false) || (0 <? num_bytes s false ERROR_LEAK) || (0 <? num_bytes s false ERROR_POSSIBLE_LEAK) ||
  (o_show_reachable o && (0 <? num_bytes s false ERROR_REACHABLE_LEAK)).
