(** C68: what the instrumentation overwrites without saving it is nothing the
    program can tell. *)
From Verif Require Import Base Live_Model Live_Spec Live_Proofs.
Open Scope Z_scope.

(** A register is found dead, or live, exactly if it is overwritten before it
    is read, or read before it is overwritten, ahead of the next branch. *)
Theorem C68_registers : forall nregs l garbage (only : bool) r, (r < (if only then 1 else nregs))%nat ->
  let R := get_aflags_and_reg_liveness nregs l garbage only in
  (snd R r = LIVE_DEAD <-> dead (Reg r) (body l)) /\ (snd R r = LIVE_LIVE <-> live (Reg r) (body l)).
Proof. exact regs_ok. Qed.
Print Assumptions C68_registers.

(** The outcome for the flags is EFLAGS_WRITE_6 exactly if all six are
    overwritten before they are read, EFLAGS_WRITE_OF exactly if OF is, not
    all are, and none is read before; and it has a bit of EFLAGS_READ_6
    exactly if one is read before it is overwritten. *)
Theorem C68_flags : forall nregs l garbage (only : bool),
  let R := get_aflags_and_reg_liveness nregs l garbage only in
  (mask_eqb (fst R) WRITE_6 = true <-> forall f, dead (Flag f) (block l)) /\
  (mask_eqb (fst R) WRITE_OF = true <->
    dead (Flag OF) (block l) /\ (exists f, ~ dead (Flag f) (block l)) /\
    forall f, ~ live (Flag f) (block l)) /\
  ((exists f, mr (fst R) f = true) <-> exists f, live (Flag f) (block l)).
Proof. exact flags_ok. Qed.
Print Assumptions C68_flags.

(** If the machine is changed only in registers and flags found dead, then
    all else stays the same throughout the block, and everything is the same
    at its end. *)
Theorem C68_same : forall V exec nregs l garbage (only : bool) s s',
  (forall i, In i (block l) -> faithful V exec i) ->
  let R := get_aflags_and_reg_liveness nregs l garbage only in
  let D x := match x with
             | Reg r => (r < (if only then 1 else nregs))%nat /\ snd R r = LIVE_DEAD
             | Flag f => mask_eqb (fst R) WRITE_6 = true \/ mask_eqb (fst R) WRITE_OF = true /\ f = OF
             | Rest => False
             end in
  (forall x, D x \/ s x = s' x) ->
  (forall p q x, block l = p ++ q -> D x \/ run V exec p s x = run V exec p s' x) /\
  forall x, run V exec (block l) s x = run V exec (block l) s' x.
Proof. exact same_ok. Qed.
Print Assumptions C68_same.

(** Flags that are not found dead are saved and come back as they were,
    whatever happens to the flags in between, if eax is left alone. *)
Theorem C68_saved : forall aflags c c', eax c' = eax (save_if_live aflags c) ->
  forall f, mask_eqb aflags WRITE_6 = true \/ mask_eqb aflags WRITE_OF = true /\ f = OF \/
    fl (restore_if_live aflags c') f = fl c f.
Proof. exact save_restore. Qed.
Print Assumptions C68_saved.

(** * Cases *)
Definition set (l : list flag) (f : flag) : bool := existsb (flag_eqb f) l.
Definition ins (rd wr : list flag) (cti : bool) (rr rw : list nat) : instr :=
  {| i_flags := {| mr := set rd; mw := set wr |}; i_cti := cti;
     i_reads := fun r => existsb (Nat.eqb r) rr; i_exact := fun r => existsb (Nat.eqb r) rw |}.

(** mov (%ebx),%eax; inc %ecx; adc %ecx,%edx; jz *)
Definition mov := ins [] [] false [3%nat] [0%nat].
Definition inc := ins [] [PF; AF; ZF; SF; OF] false [1%nat] [1%nat].
Definition adc := ins [CF] flags false [1; 2]%nat [2%nat].
Definition add := ins [] flags false [1; 2]%nat [2%nat].
Definition jz := ins [ZF] [] true [] [].
Definition show (p : mask * (nat -> lv)) :=
  (map (mr (fst p)) flags, map (mw (fst p)) flags, map (snd p) (seq 0 4)).
Definition ask (l : list instr) := show (get_aflags_and_reg_liveness 4 l (fun _ => LIVE_LIVE) false).

Example C68_registers_case :
  snd (ask [mov; inc; add; jz]) = [LIVE_DEAD; LIVE_LIVE; LIVE_LIVE; LIVE_LIVE] /\
  snd (ask [inc; jz; mov]) = [LIVE_UNKNOWN; LIVE_LIVE; LIVE_UNKNOWN; LIVE_UNKNOWN] /\
  map (snd (get_aflags_and_reg_liveness 4 [mov; inc] (fun _ => LIVE_LIVE) true)) (seq 0 4) =
    [LIVE_DEAD; LIVE_LIVE; LIVE_LIVE; LIVE_LIVE].
Proof. vm_compute. repeat split. Qed.

Definition eq_with (l : list instr) (m : mask) : bool :=
  mask_eqb (fst (get_aflags_and_reg_liveness 4 l (fun _ => LIVE_LIVE) false)) m.

Example C68_flags_case :
  map (eq_with [mov; inc; add; jz]) [WRITE_6; WRITE_OF; READ_6] = [true; false; false] /\
  map (eq_with [mov; inc; jz; add]) [WRITE_6; WRITE_OF; READ_6] = [false; true; false] /\
  map (eq_with [mov; jz; add]) [WRITE_6; WRITE_OF; READ_6] = [false; false; true] /\
  existsb id (fst (fst (ask [mov; inc; adc]))) = true /\
  map (eq_with [mov]) [WRITE_6; WRITE_OF; READ_6; ZERO] = [false; false; false; true].
Proof. vm_compute. repeat split. Qed.

(** An instruction that computes something from what it reads. *)
Definition exec (i : instr) (s : loc -> Z) (x : loc) : Z :=
  let sum := fold_right Z.add 0 (map (fun r => if i_reads i r then s (Reg r) else 0) (seq 0 4)) +
    (if mr (i_flags i) CF then s (Flag CF) else 0) in
  match x with
  | Reg r => if i_exact i r then sum + Z.of_nat r else s x
  | Flag f => if mw (i_flags i) f then sum mod 2 else s x
  | Rest => s Rest + sum
  end.

Example C68_same_case :
  (forall i, In i (block [mov; inc; add; jz]) -> faithful Z exec i) /\
  let s := fun x => match x with Reg r => Z.of_nat r * 7 | _ => 0 end in
  let s' := fun x => match x with Reg 0 => 99 | Flag _ => 1 | y => s y end in
  map (fun x => (run Z exec [mov; inc; add; jz] s x, run Z exec [mov; inc; add; jz] s' x))
    [Reg 0; Reg 1; Reg 2; Flag CF; Flag ZF; Rest] =
  [(21, 21); (8, 8); (24, 24); (0, 0); (0, 0); (50, 50)].
Proof.
  split.
  - intros i _ s s' H x Hx. unfold exec.
    assert (E : fold_right Z.add 0 (map (fun r => if i_reads i r then s (Reg r) else 0) (seq 0 4)) +
        (if mr (i_flags i) CF then s (Flag CF) else 0) =
      fold_right Z.add 0 (map (fun r => if i_reads i r then s' (Reg r) else 0) (seq 0 4)) +
        (if mr (i_flags i) CF then s' (Flag CF) else 0)).
    { f_equal; [f_equal; apply map_ext; intros r; destruct (i_reads i r) eqn:Q; auto|
        destruct (mr (i_flags i) CF) eqn:Q; auto]; apply H; exact Q. }
    rewrite E. destruct x as [r|f|]; cbn in Hx.
    + destruct (i_exact i r); auto. destruct Hx; [discriminate|auto].
    + destruct (mw (i_flags i) f); auto. destruct Hx; [discriminate|auto].
    + f_equal. apply H. exact I.
  - vm_compute. reflexivity.
Qed.

Example C68_saved_case :
  let c := {| eax := 305419896; fl := set [CF; OF; SF] |} in
  let m := {| eax := eax (save_if_live READ_6 c); fl := fun _ => true |} in
  eax m = 305431297 /\ map (fl (restore_if_live READ_6 m)) flags = map (fl c) flags /\
  map (fl (restore_if_live WRITE_OF {| eax := eax (save_if_live WRITE_OF c); fl := no_flags |})) flags =
    [true; false; false; false; true; false].
Proof. vm_compute. repeat split. Qed.
