(** Model of what the instrumentation takes to be dead, drmemory/
    fastpath_x86.c:138-203, and of how it saves the arithmetic flags,
    drmemory/spill.c:899-931. *)
From Verif Require Import Base.
Open Scope Z_scope.

(** The six arithmetic flags. *)
Inductive flag := CF | PF | AF | ZF | SF | OF.
Definition flags : list flag := [CF; PF; AF; ZF; SF; OF].
Definition flag_eqb (a b : flag) : bool :=
  match a, b with
  | CF, CF | PF, PF | AF, AF | ZF, ZF | SF, SF | OF, OF => true
  | _, _ => false
  end.

(** The EFLAGS_READ_ and EFLAGS_WRITE_ bits of these six flags. *)
Record mask := { mr : flag -> bool; mw : flag -> bool }.
Definition no_flags (f : flag) : bool := false.
Definition all_flags (f : flag) : bool := true.
Definition ZERO : mask := {| mr := no_flags; mw := no_flags |}.
Definition READ_6 : mask := {| mr := all_flags; mw := no_flags |}.
Definition WRITE_6 : mask := {| mr := no_flags; mw := all_flags |}.
Definition WRITE_OF : mask := {| mr := no_flags; mw := flag_eqb OF |}.
Definition any (p : flag -> bool) : bool := existsb p flags.
Definition all (p : flag -> bool) : bool := forallb p flags.

(** An instruction by the answers of DynamoRIO about it:
    instr_get_arith_flags, instr_is_cti, instr_reads_from_reg and
    instr_writes_to_exact_reg. *)
Record instr := {
  i_flags : mask;
  i_cti : bool;
  i_reads : nat -> bool;
  i_exact : nat -> bool
}.

(** fastpath.h:33-37 *)
Inductive lv := LIVE_UNKNOWN | LIVE_LIVE | LIVE_DEAD.

(** fastpath_x86.c:166-182, with [aflags_known] and [res] before and after *)
Definition aflags_step (i : instr) (st : bool * mask) : bool * mask :=
  let '(known, res) := st in
  if known then st
  else
    let merge := i_flags i in
    let '(known, res) :=
      if any (mr merge) then
        (* !TESTALL((merge & EFLAGS_READ_6), EFLAGS_WRITE_TO_READ(res)) *)
        if negb (all (fun f => negb (mr merge f) || mw res f)) then (true, READ_6)
        else (known, res)
      else (known, res) in
    if any (mw merge) then
      let res := {| mr := mr res; mw := fun f => mw res f || mw merge f |} in
      if all (mw res) && negb (any (mr res)) then (true, WRITE_6) else (known, res)
    else (known, res).

(** fastpath_x86.c:185-196 for the registers from 0 up to [n] *)
Definition live_step (n : nat) (i : instr) (live : nat -> lv) (r : nat) : lv :=
  if Nat.ltb r n then
    match live r with
    | LIVE_UNKNOWN =>
      if i_reads i r then LIVE_LIVE else if i_exact i r then LIVE_DEAD else LIVE_UNKNOWN
    | v => v
    end
  else live r.

(** fastpath_x86.c:164-199 *)
Fixpoint scan (n : nat) (l : list instr) (st : bool * mask) (live : nat -> lv)
  : (bool * mask) * (nat -> lv) :=
  match l with
  | [] => (st, live)
  | i :: r =>
    let st := aflags_step i st in
    if i_cti i then (st, live) else scan n r st (live_step n i live)
  end.

(** fastpath_x86.c:146-203 get_aflags_and_reg_liveness; [garbage] is what the
    array holds before.  XAX is register 0. *)
Definition get_aflags_and_reg_liveness (nregs : nat) (l : list instr) (garbage : nat -> lv)
    (aflags_only : bool) : mask * (nat -> lv) :=
  let n := if aflags_only then 1%nat else nregs in
  let live := fun r => if Nat.ltb r n then LIVE_UNKNOWN else garbage r in
  let '((known, res), live) := scan n l (false, ZERO) live in
  if negb known && mw res OF && negb (mr res OF) then (WRITE_OF, live) else (res, live).

(** The test [==] of masks *)
Definition mask_eqb (a b : mask) : bool :=
  all (fun f => Bool.eqb (mr a f) (mr b f) && Bool.eqb (mw a f) (mw b f)).

(** * Saving the flags *)
(** eax and the flags *)
Record cpu := { eax : Z; fl : flag -> bool }.
Definition b2z (b : bool) : Z := if b then 1 else 0.
Definition al (x : Z) : Z := x mod 256.
Definition ah (x : Z) : Z := (x / 256) mod 256.
Definition set_al (x v : Z) : Z := (x / 256) * 256 + v.
Definition set_ah (x v : Z) : Z := (x / 65536) * 65536 + v * 256 + x mod 256.

(** The instructions lahf, seto %al, add $0x7f,%al and sahf *)
Definition lahf (c : cpu) : cpu :=
  {| eax := set_ah (eax c)
       (128 * b2z (fl c SF) + 64 * b2z (fl c ZF) + 16 * b2z (fl c AF) + 4 * b2z (fl c PF) + 2 +
        b2z (fl c CF));
     fl := fl c |}.
Definition seto_al (c : cpu) : cpu := {| eax := set_al (eax c) (b2z (fl c OF)); fl := fl c |}.
Definition even_parity (v : Z) : bool :=
  negb (fold_left (fun b k => xorb b (Z.testbit v k)) [0; 1; 2; 3; 4; 5; 6; 7] false).
Definition add_al_7f (c : cpu) : cpu :=
  let a := al (eax c) in
  let v := (a + 127) mod 256 in
  {| eax := set_al (eax c) v;
     fl := fun f => match f with
                    | CF => 256 <=? a + 127
                    | PF => even_parity v
                    | AF => 16 <=? a mod 16 + 15
                    | ZF => v =? 0
                    | SF => 128 <=? v
                    | OF => (a <? 128) && (128 <=? v)
                    end |}.
Definition sahf (c : cpu) : cpu :=
  let h := ah (eax c) in
  {| eax := eax c;
     fl := fun f => match f with
                    | CF => Z.testbit h 0
                    | PF => Z.testbit h 2
                    | AF => Z.testbit h 4
                    | ZF => Z.testbit h 6
                    | SF => Z.testbit h 7
                    | OF => fl c OF
                    end |}.

(** spill.c:899-914 insert_save_aflags_nospill *)
Definition save_aflags (save_oflag : bool) (c : cpu) : cpu :=
  let c := lahf c in if save_oflag then seto_al c else c.

(** spill.c:916-931 insert_restore_aflags_nospill *)
Definition restore_aflags (restore_oflag : bool) (c : cpu) : cpu :=
  let c := if restore_oflag then add_al_7f c else c in sahf c.

(** What spill.c:942 and 954-955 pass, and whether the flags are saved at all
    (spill.c:1008, fastpath_x86.c:3317): [aflags] is the outcome above. *)
Definition save_if_live (aflags : mask) (c : cpu) : cpu :=
  if mask_eqb aflags WRITE_6 then c else save_aflags (negb (mask_eqb aflags WRITE_OF)) c.
Definition restore_if_live (aflags : mask) (c : cpu) : cpu :=
  if mask_eqb aflags WRITE_6 then c else restore_aflags (negb (mask_eqb aflags WRITE_OF)) c.
