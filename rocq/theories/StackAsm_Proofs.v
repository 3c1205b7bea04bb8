(** Running the generated code: steps, loops within one shadow block. *)
From Verif Require Import Base MemRef_Model Stack_Model StackAsm_Model.
Open Scope Z_scope.

Definition steps (mode : bool) (h : hw) (prog p : list instr) (m : mach)
           (p' : list instr) (m' : mach) : Prop :=
  exists n, forall k, run (n + k) mode h prog p m = run k mode h prog p' m'.

Lemma steps_refl mode h prog p m : steps mode h prog p m p m.
Proof. exists 0%nat. reflexivity. Qed.
Lemma steps_trans mode h prog p m p1 m1 p2 m2 :
  steps mode h prog p m p1 m1 -> steps mode h prog p1 m1 p2 m2 ->
  steps mode h prog p m p2 m2.
Proof.
  intros (a & A) (b & B). exists (a + b)%nat. intros k.
  rewrite <- Nat.add_assoc, A. apply B.
Qed.
Lemma steps_step mode h prog i q m q1 m1 p2 m2 :
  exec mode h prog i q m = Ok (inl (q1, m1)) ->
  steps mode h prog q1 m1 p2 m2 -> steps mode h prog (i :: q) m p2 m2.
Proof.
  intros E (n & N). exists (S n). intros k. cbn [run Nat.add]. rewrite E. apply N.
Qed.
Lemma steps_jcc mode h prog c l q m b p2 m2 :
  holds c (m_fl m) = Some b ->
  steps mode h prog (if b then from l prog else q) m p2 m2 ->
  steps mode h prog (Jcc c l :: q) m p2 m2.
Proof.
  intros E H. eapply steps_step; [|exact H].
  cbn [exec]. rewrite E. destruct b; reflexivity.
Qed.
Lemma steps_end mode h prog i q m p m1 e m2 :
  steps mode h prog p m (i :: q) m1 ->
  exec mode h prog i q m1 = Ok (inr (e, m2)) ->
  exists n, forall k, run (n + k) mode h prog p m = Ok (e, m2).
Proof.
  intros (n & N) E. exists (n + 1)%nat. intros k.
  rewrite <- Nat.add_assoc, N. cbn [run Nat.add]. rewrite E. reflexivity.
Qed.

Lemma w32_is x y k : x = y + k * 2 ^ 32 -> 0 <= y < 2 ^ 32 -> w32 x = y.
Proof. intros -> H. unfold w32. rewrite Z.mod_add by lia. apply Z.mod_small, H. Qed.
Lemma land3 x : Z.land x 3 = x mod 4.
Proof. change 3 with (Z.ones 2). rewrite Z.land_ones by lia. reflexivity. Qed.
Lemma shr_div x n : 0 <= n -> Z.shiftr x n = x / 2 ^ n.
Proof. apply Z.shiftr_div_pow2. Qed.
Lemma land_same x : Z.land x x = x.
Proof. apply Z.land_diag. Qed.

Lemma s32_pos x : 0 <= x < 2 ^ 31 -> s32 x = x.
Proof.
  intros H. unfold s32. rewrite (w32_is x x 0) by lia.
  replace (x <? 2 ^ 31) with true by lia. reflexivity.
Qed.
Lemma s32_neg x : - 2 ^ 31 <= x < 0 -> s32 (x + 2 ^ 32) = x.
Proof.
  intros H. unfold s32. rewrite (w32_is _ (x + 2 ^ 32) 0) by lia.
  replace (x + 2 ^ 32 <? 2 ^ 31) with false by lia. lia.
Qed.

(** Simplify the words of the goal that are in range up to one wrap. *)
Ltac norm1 :=
  match goal with
  | |- context [w32 ?x] =>
      lazymatch x with
      | context [w32 _] => fail
      | _ => first [ rewrite (w32_is x x 0) by lia
                   | rewrite (w32_is x (x + 4294967296) (-1)) by lia
                   | rewrite (w32_is x (x - 4294967296) 1) by lia ]
      end
  end.
Ltac norm := repeat norm1; rewrite ?land3, ?land_same.
Ltac sym :=
  eapply steps_step;
  [ cbv beta iota zeta delta [exec get put set_reg set_fl set_slot m_reg m_slot m_eax m_ebx
      m_ecx m_edx m_esp m_fl m_s0 m_s1 m_s2 m_mem m_call]; reflexivity | ]; norm.
Ltac jcc b := eapply (steps_jcc _ _ _ _ _ _ _ b);
  [ cbv beta iota zeta delta [holds m_fl]; solve [ reflexivity | f_equal; lia ]
  | cbv beta iota ].

Lemma writable1 h a : 0 <= a < 2 ^ 32 -> writable h a 1 = h_writable h a.
Proof.
  intros H. unfold writable. change (map Z.of_nat (seq 0 (Z.to_nat 1))) with [0].
  cbn [forallb]. rewrite andb_true_r. f_equal. apply (w32_is _ _ 0); lia.
Qed.
Lemma writable4 h a : 0 <= a -> a + 4 <= 2 ^ 32 ->
  (forall x, a <= x < a + 4 -> h_writable h x = true) -> writable h a 4 = true.
Proof.
  intros H1 H2 H. unfold writable. apply forallb_forall. intros x Hx.
  apply in_map_iff in Hx. destruct Hx as (n & <- & Hn). apply in_seq in Hn.
  rewrite (w32_is _ (a + Z.of_nat n) 0) by lia. apply H. lia.
Qed.
Lemma writable4_not h a : 0 <= a -> a + 4 <= 2 ^ 32 ->
  h_writable h a = false -> writable h a 4 = false.
Proof.
  intros H1 H2 H. unfold writable.
  change (map Z.of_nat (seq 0 (Z.to_nat 4))) with [0; 1; 2; 3]. cbn [forallb].
  rewrite (w32_is (a + 0) a 0) by lia. rewrite H. reflexivity.
Qed.

(** [n] bytes from [p] on set to [v]. *)
Definition fill (mm : Z -> Z) (p n v x : Z) : Z :=
  if (p <=? x) && (x <? p + n) then v else mm x.

Section Code.
Variables (h : hw) (map4 shared : bool) (act : action) (ty : etype) (thr : Z).
Let code := fastpath_code map4 shared act ty thr.
Let go := steps true h code.
Hypothesis act_ok : act <> ACT_ZERO.

Definition slow_code : list instr := after_nop code.

(** The byte the routine stores for one dword, and the dword it stores for four
    of them, agree. *)
Lemma dword_range v : v = 0 \/ v = 1 \/ v = 3 -> 0 <= dword_of map4 v < 256.
Proof. unfold dword_of. destruct map4; lia. Qed.
Lemma dqword_byte v i : v = 0 \/ v = 1 \/ v = 3 -> 0 <= i < 4 ->
  w32 (dqword_of map4 v) / 2 ^ (8 * i) mod 256 = dword_of map4 v.
Proof.
  intros Hv Hi. unfold dqword_of, dword_of.
  assert (i = 0 \/ i = 1 \/ i = 2 \/ i = 3) as Ei by lia.
  destruct map4, Hv as [-> | [-> | ->]], Ei as [-> | [-> | [-> | ->]]]; reflexivity.
Qed.

Ltac segment := unfold code; destruct ty, shared; reflexivity.
Ltac step_over := unfold slow_code, code; destruct ty, shared; reflexivity.

Lemma seg_pop_unaligned : from pop_unaligned code =
  [ Test (R ECX) (R ECX); Jcc JE pop_one_done;
    Test (R EDX) (I 3); Jcc JE pop_aligned;
    Store8 EDX (old_dword map4); Dec ECX; Inc EDX; Jmp pop_unaligned;
    Label pop_aligned ] ++ from pop_aligned code.
Proof. segment. Qed.
Lemma seg_pop_aligned : from pop_aligned code =
  [ Mov (R EAX) (R ECX); Shr ECX 2; Label pop_aligned_loop ]
  ++ from pop_aligned_loop code.
Proof. segment. Qed.
Lemma seg_pop_aligned_loop : from pop_aligned_loop code =
  [ Test (R ECX) (R ECX); Jcc JE pop_aligned_done;
    Store32 EDX (old_dqword map4); Dec ECX; Add (R EDX) (I 4); Jmp pop_aligned_loop;
    Label pop_aligned_done ] ++ from pop_aligned_done code.
Proof. segment. Qed.
Lemma seg_pop_aligned_done : from pop_aligned_done code =
  [ Mov (R ECX) (R EAX); And (R ECX) (I 3); Label pop_unaligned_loop ]
  ++ from pop_unaligned_loop code.
Proof. segment. Qed.
Lemma seg_pop_unaligned_loop : from pop_unaligned_loop code =
  [ Test (R ECX) (R ECX); Jcc JE pop_unaligned_done;
    Store8 EDX (old_dword map4); Dec ECX; Inc EDX; Jmp pop_unaligned_loop;
    Label pop_unaligned_done ] ++ from pop_unaligned_done code.
Proof. segment. Qed.
Lemma seg_pop_unaligned_done : from pop_unaligned_done code =
  Label pop_one_done :: from pop_one_done code.
Proof. segment. Qed.
Lemma nop_pop_aligned : after_nop (from pop_aligned code) = slow_code.
Proof. step_over. Qed.
Lemma nop_pop_aligned_done : after_nop (from pop_aligned_done code) = slow_code.
Proof. step_over. Qed.
Lemma nop_pop_unaligned_done : after_nop (from pop_unaligned_done code) = slow_code.
Proof. step_over. Qed.

Lemma fill_more mm mm' p n v k :
  0 <= n -> 0 <= k ->
  (forall x, mm' x = fill (fill mm p n v) (p + n) k v x) ->
  forall x, mm' x = fill mm p (n + k) v x.
Proof.
  intros Hn Hk H x. rewrite H. unfold fill.
  destruct (Z.leb_spec (p + n) x), (Z.ltb_spec x (p + n + k)), (Z.leb_spec p x),
    (Z.ltb_spec x (p + n)), (Z.ltb_spec x (p + (n + k))); cbn [andb]; try reflexivity; lia.
Qed.

Lemma fill_ext mm mm1 mm' p n v : (forall x, mm1 x = mm x) ->
  (forall x, mm' x = fill mm1 p n v x) -> forall x, mm' x = fill mm p n v x.
Proof. intros E H x. rewrite H. unfold fill. rewrite E. reflexivity. Qed.

Let U := old_dword map4.

(** The last up to three bytes, and what follows. *)
Lemma pop_tail : forall (n : nat) p eax ebx esp fl s0 s1 s2 mm call,
  0 <= p -> p + Z.of_nat n < 2 ^ 32 -> Z.of_nat n < 2 ^ 31 ->
  (forall x, p <= x < p + Z.of_nat n -> h_writable h x = true) ->
  exists mm' fl', go (from pop_unaligned_loop code)
    (Mach eax ebx (Z.of_nat n) p esp fl s0 s1 s2 mm call)
    (from pop_one_done code)
    (Mach eax ebx 0 (p + Z.of_nat n) esp fl' s0 s1 s2 mm' call) /\
    forall x, mm' x = fill mm p (Z.of_nat n) U x.
Proof.
  induction n as [|n IH]; intros p eax ebx esp fl s0 s1 s2 mm call Hp Hn Hs Hw.
  - exists mm. eexists. split.
    + unfold go. rewrite seg_pop_unaligned_loop. cbn [app].
      sym. jcc true.
      rewrite seg_pop_unaligned_done. sym.
      replace (p + Z.of_nat 0) with p by lia. apply steps_refl.
    + intros x. unfold fill. replace ((p <=? x) && (x <? p + Z.of_nat 0)) with false by lia.
      reflexivity.
  - assert (HU : 0 <= U < 256) by (apply dword_range; auto).
    destruct (IH (p + 1) eax ebx esp FNone s0 s1 s2 (fun y => if y =? p then U else mm y) call)
      as (mm' & fl' & G & M); try lia.
    { intros x Hx. apply Hw. lia. }
    exists mm', fl'. split.
    + unfold go. rewrite seg_pop_unaligned_loop. cbn [app].
      sym. jcc false.
      eapply steps_step.
      { cbn [exec m_reg m_edx]. rewrite writable1 by lia. rewrite (Hw p) by lia.
        cbn [set_mem]. rewrite (Z.mod_small (old_dword map4) 256) by exact HU. reflexivity. }
      sym. sym. sym. replace (Z.of_nat (S n) - 1) with (Z.of_nat n) by lia.
      replace (p + Z.of_nat (S n)) with (p + 1 + Z.of_nat n) by lia. exact G.
    + intros x. rewrite M. unfold fill.
      destruct (Z.leb_spec (p + 1) x), (Z.ltb_spec x (p + 1 + Z.of_nat n)), (Z.leb_spec p x),
        (Z.ltb_spec x (p + Z.of_nat (S n))), (Z.eqb_spec x p); cbn [andb];
        try reflexivity; lia.
Qed.

Lemma fold_store mm p v a b c d e f s0 s1 s2 call : v = 0 \/ v = 1 \/ v = 3 ->
  0 <= p -> p + 4 < 2 ^ 32 ->
  exists mm', fold_left (fun m i => set_mem m (w32 (p + i))
      (w32 (dqword_of map4 v) / 2 ^ (8 * i) mod 256)) [0; 1; 2; 3]
      (Mach a b c d e f s0 s1 s2 mm call) = Mach a b c d e f s0 s1 s2 mm' call /\
    forall x, mm' x = fill mm p 4 (dword_of map4 v) x.
Proof.
  intros Hv Hp Hp4. cbn [fold_left set_mem]. eexists. split; [reflexivity|].
  intros x. cbv beta. rewrite !dqword_byte by (auto; lia).
  rewrite (w32_is (p + 0) p 0), (w32_is (p + 1) (p + 1) 0), (w32_is (p + 2) (p + 2) 0),
    (w32_is (p + 3) (p + 3) 0) by lia.
  unfold fill.
  destruct (Z.eqb_spec x (p + 3)), (Z.eqb_spec x (p + 2)), (Z.eqb_spec x (p + 1)),
    (Z.eqb_spec x p), (Z.leb_spec p x), (Z.ltb_spec x (p + 4)); cbn [andb];
    try reflexivity; lia.
Qed.

Lemma pop_dwords : forall (n : nat) r p ebx esp fl s0 s1 s2 mm call,
  0 <= p -> 0 <= r < 4 -> p + 4 * Z.of_nat n + r < 2 ^ 32 ->
  (forall x, p <= x < p + 4 * Z.of_nat n + r -> h_writable h x = true) ->
  exists mm' fl', go (from pop_aligned_loop code)
    (Mach (4 * Z.of_nat n + r) ebx (Z.of_nat n) p esp fl s0 s1 s2 mm call)
    (from pop_one_done code)
    (Mach (4 * Z.of_nat n + r) ebx 0 (p + 4 * Z.of_nat n + r) esp fl' s0 s1 s2 mm' call) /\
    forall x, mm' x = fill mm p (4 * Z.of_nat n + r) U x.
Proof.
  assert (Q : forall (n : nat) a r p ebx esp fl s0 s1 s2 mm call,
  0 <= p -> 0 <= r < 4 -> a mod 4 = r -> 0 <= a < 2 ^ 32 -> p + 4 * Z.of_nat n + r < 2 ^ 32 ->
  (forall x, p <= x < p + 4 * Z.of_nat n + r -> h_writable h x = true) ->
  exists mm' fl', go (from pop_aligned_loop code)
    (Mach a ebx (Z.of_nat n) p esp fl s0 s1 s2 mm call)
    (from pop_one_done code)
    (Mach a ebx 0 (p + 4 * Z.of_nat n + r) esp fl' s0 s1 s2 mm' call) /\
    forall x, mm' x = fill mm p (4 * Z.of_nat n + r) U x).
  { induction n as [|n IH]; intros a r p ebx esp fl s0 s1 s2 mm call Hp Hr Ha Ha2 Hn Hw.
    - destruct (pop_tail (Z.to_nat r) p a ebx esp FNone s0 s1 s2 mm call)
        as (mm' & fl' & G & M); try lia.
      { intros x Hx. apply Hw. lia. }
      rewrite Z2Nat.id in * by lia.
      exists mm', fl'. split.
      + unfold go. rewrite seg_pop_aligned_loop. cbn [app].
        sym. jcc true. rewrite seg_pop_aligned_done. cbn [app].
        sym. sym. sym. rewrite Ha, ?(w32_is r r 0) by lia.
        replace (p + 4 * Z.of_nat 0 + r) with (p + r) by lia. exact G.
      + replace (4 * Z.of_nat 0 + r) with r by lia. exact M.
    - destruct (fold_store mm p UNADDRESSABLE a ebx (Z.of_nat (S n)) p esp
                  (FTest (Z.of_nat (S n))) s0 s1 s2 call)
        as (mm1 & F & M1); try lia; [auto|].
      destruct (IH a r (p + 4) ebx esp FNone s0 s1 s2 mm1 call)
        as (mm' & fl' & G & M); try lia.
      { intros x Hx. apply Hw. lia. }
      exists mm', fl'. split.
      + unfold go. rewrite seg_pop_aligned_loop. cbn [app].
        sym. jcc false.
        eapply steps_step.
        { cbn [exec m_reg m_edx]. rewrite writable4; [|lia|lia|intros x Hx; apply Hw; lia].
          unfold old_dqword. rewrite F. reflexivity. }
        sym. sym. sym. replace (Z.of_nat (S n) - 1) with (Z.of_nat n) by lia.
        replace (p + 4 * Z.of_nat (S n) + r) with (p + 4 + 4 * Z.of_nat n + r) by lia.
        exact G.
      + replace (4 * Z.of_nat (S n) + r) with (4 + (4 * Z.of_nat n + r)) by lia.
        apply fill_more; [lia|lia|].
        intros x. rewrite M. unfold fill at 1 2. rewrite M1. reflexivity. }
  intros n r p ebx esp fl s0 s1 s2 mm call Hp Hr Hn Hw.
  apply (Q n); auto; lia.
Qed.

(** The increasing store loop over one writable block. *)
Lemma pop_fill : forall (n : nat) p eax ebx esp fl s0 s1 s2 mm call,
  0 <= p -> p + Z.of_nat n < 2 ^ 32 -> Z.of_nat n < 2 ^ 31 ->
  (forall x, p <= x < p + Z.of_nat n -> h_writable h x = true) ->
  exists mm' fl' eax', go (from pop_unaligned code)
    (Mach eax ebx (Z.of_nat n) p esp fl s0 s1 s2 mm call)
    (from pop_one_done code)
    (Mach eax' ebx 0 (p + Z.of_nat n) esp fl' s0 s1 s2 mm' call) /\
    forall x, mm' x = fill mm p (Z.of_nat n) U x.
Proof.
  induction n as [|n IH]; intros p eax ebx esp fl s0 s1 s2 mm call Hp Hn Hs Hw.
  - exists mm. eexists _, eax. split.
    + unfold go. rewrite seg_pop_unaligned. cbn [app].
      sym. jcc true.
      replace (p + Z.of_nat 0) with p by lia. apply steps_refl.
    + intros x. unfold fill. replace ((p <=? x) && (x <? p + Z.of_nat 0)) with false by lia.
      reflexivity.
  - destruct (Z.eq_dec (p mod 4) 0) as [E|E].
    + pose proof (Z.div_mod (Z.of_nat (S n)) 4 ltac:(lia)) as DM.
      pose proof (Z.mod_pos_bound (Z.of_nat (S n)) 4 ltac:(lia)) as MB.
      assert (0 <= Z.of_nat (S n) / 4) by (apply Z.div_pos; lia).
      destruct (pop_dwords (Z.to_nat (Z.of_nat (S n) / 4)) (Z.of_nat (S n) mod 4) p ebx esp
                  FNone s0 s1 s2 mm call) as (mm' & fl' & G & M); try lia.
      { intros x Hx. apply Hw. lia. }
      rewrite Z2Nat.id in * by lia.
      exists mm', fl', (Z.of_nat (S n)). split.
      * unfold go. rewrite seg_pop_unaligned. cbn [app].
        sym. jcc false. sym. jcc true.
        rewrite seg_pop_aligned. cbn [app].
        sym. sym. sym.
        rewrite shr_div by lia. change (2 ^ 2) with 4.
        rewrite ?(w32_is (Z.of_nat (S n) / 4) (Z.of_nat (S n) / 4) 0) by lia.
        replace (4 * (Z.of_nat (S n) / 4) + Z.of_nat (S n) mod 4)
          with (Z.of_nat (S n)) in G by lia.
        replace (p + 4 * (Z.of_nat (S n) / 4) + Z.of_nat (S n) mod 4)
          with (p + Z.of_nat (S n)) in G by lia.
        exact G.
      * replace (4 * (Z.of_nat (S n) / 4) + Z.of_nat (S n) mod 4)
          with (Z.of_nat (S n)) in M by lia. exact M.
    + assert (HU : 0 <= U < 256) by (apply dword_range; auto).
      destruct (IH (p + 1) eax ebx esp FNone s0 s1 s2
                  (fun y => if y =? p then U else mm y) call)
        as (mm' & fl' & eax' & G & M); try lia.
      { intros x Hx. apply Hw. lia. }
      exists mm', fl', eax'. split.
      * unfold go. rewrite seg_pop_unaligned. cbn [app].
        sym. jcc false. sym. jcc false.
        eapply steps_step.
        { cbn [exec m_reg m_edx]. rewrite writable1 by lia. rewrite (Hw p) by lia.
          cbn [set_mem]. rewrite (Z.mod_small (old_dword map4) 256) by exact HU. reflexivity. }
        sym. sym. sym. replace (Z.of_nat (S n) - 1) with (Z.of_nat n) by lia.
        replace (p + Z.of_nat (S n)) with (p + 1 + Z.of_nat n) by lia. exact G.
      * intros x. rewrite M. unfold fill.
        destruct (Z.leb_spec (p + 1) x), (Z.ltb_spec x (p + 1 + Z.of_nat n)),
          (Z.leb_spec p x), (Z.ltb_spec x (p + Z.of_nat (S n))), (Z.eqb_spec x p);
          cbn [andb]; try reflexivity; lia.
Qed.

(** ... and over a block that may not be written: a fault at the first store. *)
Lemma pop_fault n p eax ebx esp fl s0 s1 s2 mm call :
  0 <= p -> p + n < 2 ^ 32 -> 0 < n < 2 ^ 31 -> p + 4 < 2 ^ 32 ->
  h_writable h p = false ->
  exists m', go (from pop_unaligned code)
    (Mach eax ebx n p esp fl s0 s1 s2 mm call) slow_code m' /\
    m_esp m' = esp /\ m_s0 m' = s0 /\ m_s1 m' = s1 /\ m_s2 m' = s2 /\ m_mem m' = mm /\
    m_call m' = call.
Proof.
  intros Hp Hn Hn0 Hp4 Hw.
  destruct (Z.eq_dec (p mod 4) 0) as [E|E].
  - destruct (Z_lt_dec n 4) as [L|L].
    + eexists. split; [|shelve]. unfold go. rewrite seg_pop_unaligned. cbn [app].
      sym. jcc false. sym. jcc true.
      rewrite seg_pop_aligned. cbn [app]. sym. sym. sym.
      rewrite shr_div by lia. change (2 ^ 2) with 4. rewrite (Z.div_small n 4) by lia.
      rewrite ?(w32_is 0 0 0) by lia.
      rewrite seg_pop_aligned_loop. cbn [app]. sym. jcc true.
      rewrite seg_pop_aligned_done. cbn [app]. sym. sym. sym.
      rewrite (Z.mod_small n 4) by lia. rewrite ?(w32_is n n 0) by lia.
      rewrite seg_pop_unaligned_loop. cbn [app]. sym. jcc false.
      eapply steps_step.
      { cbn [exec m_reg m_edx]. rewrite writable1 by lia. rewrite Hw.
        cbn [fault after_nop]. rewrite nop_pop_unaligned_done. reflexivity. }
      apply steps_refl.
      Unshelve. cbn. repeat split.
    + eexists. split; [|shelve]. unfold go. rewrite seg_pop_unaligned. cbn [app].
      sym. jcc false. sym. jcc true.
      rewrite seg_pop_aligned. cbn [app]. sym. sym. sym.
      rewrite shr_div by lia. change (2 ^ 2) with 4.
      pose proof (Z.div_mod n 4 ltac:(lia)). pose proof (Z.mod_pos_bound n 4 ltac:(lia)).
      rewrite ?(w32_is (n / 4) (n / 4) 0) by lia.
      rewrite seg_pop_aligned_loop. cbn [app]. sym. jcc false.
      eapply steps_step.
      { cbn [exec m_reg m_edx]. rewrite writable4_not by (auto; lia).
        cbn [fault after_nop]. rewrite nop_pop_aligned_done. reflexivity. }
      apply steps_refl.
      Unshelve. cbn. repeat split.
  - eexists. split; [|shelve]. unfold go. rewrite seg_pop_unaligned. cbn [app].
    sym. jcc false. sym. jcc false.
    eapply steps_step.
    { cbn [exec m_reg m_edx]. rewrite writable1 by lia. rewrite Hw.
      cbn [fault after_nop]. rewrite nop_pop_aligned. reflexivity. }
    apply steps_refl.
    Unshelve. cbn. repeat split.
Qed.

(** ** The decreasing loop *)

Lemma seg_push_unaligned : from push_unaligned code =
  [ Test (R ECX) (R ECX); Jcc JE push_one_done;
    Test (R EDX) (I 3); Jcc JE push_aligned;
    Store8 EDX (new_dword map4 act); Inc ECX; Dec EDX; Jmp push_unaligned;
    Label push_aligned ] ++ from push_aligned code.
Proof. segment. Qed.
Lemma seg_push_aligned : from push_aligned code =
  [ Store8 EDX (new_dword map4 act); Inc ECX; Sub (R EDX) (I 4);
    Neg ECX; Mov (R EAX) (R ECX); Sar ECX 2; Label push_aligned_loop ]
  ++ from push_aligned_loop code.
Proof. segment. Qed.
Lemma seg_push_aligned_loop : from push_aligned_loop code =
  [ Test (R ECX) (R ECX); Jcc JE push_aligned_done;
    Store32 EDX (new_dqword map4 act); Dec ECX; Sub (R EDX) (I 4); Jmp push_aligned_loop;
    Label push_aligned_done ] ++ from push_aligned_done code.
Proof. segment. Qed.
Lemma seg_push_aligned_done : from push_aligned_done code =
  [ Add (R EDX) (I 3); Mov (R ECX) (R EAX); And (R ECX) (I 3); Label push_unaligned_loop ]
  ++ from push_unaligned_loop code.
Proof. segment. Qed.
Lemma seg_push_unaligned_loop : from push_unaligned_loop code =
  [ Test (R ECX) (R ECX); Jcc JE push_unaligned_done;
    Store8 EDX (new_dword map4 act); Dec ECX; Dec EDX; Jmp push_unaligned_loop;
    Label push_unaligned_done ] ++ from push_unaligned_done code.
Proof. segment. Qed.
Lemma seg_push_unaligned_done : from push_unaligned_done code =
  Label push_one_done :: from push_one_done code.
Proof. segment. Qed.
Lemma nop_push_aligned : after_nop (from push_aligned code) = slow_code.
Proof. step_over. Qed.
Lemma nop_push_aligned_loop : after_nop (from push_aligned_loop code) = slow_code.
Proof. step_over. Qed.

Let V := new_dword map4 act.
Lemma fresh_val : fresh act = 0 \/ fresh act = 1 \/ fresh act = 3.
Proof. destruct act; cbn; auto. Qed.
Lemma V_range : 0 <= V < 256.
Proof. apply dword_range, fresh_val. Qed.

Lemma push_tail : forall (n : nat) p eax ebx esp fl s0 s1 s2 mm call,
  Z.of_nat n <= p < 2 ^ 32 -> Z.of_nat n < 2 ^ 31 ->
  (forall x, p - Z.of_nat n < x <= p -> h_writable h x = true) ->
  exists mm' fl', go (from push_unaligned_loop code)
    (Mach eax ebx (Z.of_nat n) p esp fl s0 s1 s2 mm call)
    (from push_one_done code)
    (Mach eax ebx 0 (p - Z.of_nat n) esp fl' s0 s1 s2 mm' call) /\
    forall x, mm' x = fill mm (p + 1 - Z.of_nat n) (Z.of_nat n) V x.
Proof.
  induction n as [|n IH]; intros p eax ebx esp fl s0 s1 s2 mm call Hp Hs Hw.
  - exists mm. eexists. split.
    + unfold go. rewrite seg_push_unaligned_loop. cbn [app].
      sym. jcc true.
      rewrite seg_push_unaligned_done. sym.
      replace (p - Z.of_nat 0) with p by lia. apply steps_refl.
    + intros x. unfold fill.
      replace ((p + 1 - Z.of_nat 0 <=? x) && (x <? p + 1 - Z.of_nat 0 + Z.of_nat 0))
        with false by lia.
      reflexivity.
  - pose proof V_range as HV.
    destruct (IH (p - 1) eax ebx esp FNone s0 s1 s2 (fun y => if y =? p then V else mm y) call)
      as (mm' & fl' & G & M); try lia.
    { intros x Hx. apply Hw. lia. }
    exists mm', fl'. split.
    + unfold go. rewrite seg_push_unaligned_loop. cbn [app].
      sym. jcc false.
      eapply steps_step.
      { cbn [exec m_reg m_edx]. rewrite writable1 by lia. rewrite (Hw p) by lia.
        cbn [set_mem]. rewrite (Z.mod_small (new_dword map4 act) 256) by exact HV.
        reflexivity. }
      sym. sym. sym. replace (Z.of_nat (S n) - 1) with (Z.of_nat n) by lia.
      replace (p - Z.of_nat (S n)) with (p - 1 - Z.of_nat n) by lia. exact G.
    + intros x. rewrite M. unfold fill.
      destruct (Z.leb_spec (p - 1 + 1 - Z.of_nat n) x),
        (Z.ltb_spec x (p - 1 + 1 - Z.of_nat n + Z.of_nat n)),
        (Z.leb_spec (p + 1 - Z.of_nat (S n)) x),
        (Z.ltb_spec x (p + 1 - Z.of_nat (S n) + Z.of_nat (S n))), (Z.eqb_spec x p);
        cbn [andb]; try reflexivity; lia.
Qed.

Lemma push_dwords : forall (n : nat) a r p ebx esp fl s0 s1 s2 mm call,
  0 <= r < 4 -> a mod 4 = r -> 0 <= a < 2 ^ 32 ->
  4 * Z.of_nat n <= p -> p + 4 < 2 ^ 32 -> r <= p + 3 - 4 * Z.of_nat n ->
  (forall x, p + 4 - 4 * Z.of_nat n - r <= x < p + 4 -> h_writable h x = true) ->
  exists mm' fl', go (from push_aligned_loop code)
    (Mach a ebx (Z.of_nat n) p esp fl s0 s1 s2 mm call)
    (from push_one_done code)
    (Mach a ebx 0 (p + 3 - 4 * Z.of_nat n - r) esp fl' s0 s1 s2 mm' call) /\
    forall x, mm' x = fill mm (p + 4 - 4 * Z.of_nat n - r) (4 * Z.of_nat n + r) V x.
Proof.
  induction n as [|n IH]; intros a r p ebx esp fl s0 s1 s2 mm call Hr Ha Ha2 Hn Hp Hrp Hw.
  - destruct (push_tail (Z.to_nat r) (p + 3) a ebx esp FNone s0 s1 s2 mm call)
      as (mm' & fl' & G & M); try lia.
    { intros x Hx. apply Hw. lia. }
    rewrite Z2Nat.id in * by lia.
    exists mm', fl'. split.
    + unfold go. rewrite seg_push_aligned_loop. cbn [app].
      sym. jcc true. rewrite seg_push_aligned_done. cbn [app].
      sym. sym. sym. sym. rewrite Ha, ?(w32_is r r 0) by lia.
      replace (p + 3 - 4 * Z.of_nat 0 - r) with (p + 3 - r) by lia. exact G.
    + replace (p + 4 - 4 * Z.of_nat 0 - r) with (p + 3 + 1 - r) by lia.
      replace (4 * Z.of_nat 0 + r) with r by lia. exact M.
  - destruct (fold_store mm p (fresh act) a ebx (Z.of_nat (S n)) p esp
                (FTest (Z.of_nat (S n))) s0 s1 s2 call fresh_val)
      as (mm1 & F & M1); try lia.
    destruct (IH a r (p - 4) ebx esp FNone s0 s1 s2 mm1 call)
      as (mm' & fl' & G & M); try lia.
    { intros x Hx. apply Hw. lia. }
    exists mm', fl'. split.
    + unfold go. rewrite seg_push_aligned_loop. cbn [app].
      sym. jcc false.
      eapply steps_step.
      { cbn [exec m_reg m_edx]. rewrite writable4; [|lia|lia|intros x Hx; apply Hw; lia].
        unfold new_dqword. rewrite F. reflexivity. }
      sym. sym. sym. replace (Z.of_nat (S n) - 1) with (Z.of_nat n) by lia.
      replace (p + 3 - 4 * Z.of_nat (S n) - r) with (p - 4 + 3 - 4 * Z.of_nat n - r) by lia.
      exact G.
    + intros x. rewrite M. unfold fill. rewrite M1. unfold fill.
      change (dword_of map4 (fresh act)) with V.
      destruct (Z.leb_spec (p - 4 + 4 - 4 * Z.of_nat n - r) x),
        (Z.ltb_spec x (p - 4 + 4 - 4 * Z.of_nat n - r + (4 * Z.of_nat n + r))),
        (Z.leb_spec p x), (Z.ltb_spec x (p + 4)),
        (Z.leb_spec (p + 4 - 4 * Z.of_nat (S n) - r) x),
        (Z.ltb_spec x (p + 4 - 4 * Z.of_nat (S n) - r + (4 * Z.of_nat (S n) + r)));
        cbn [andb]; try reflexivity; lia.
Qed.

(** The decreasing store loop over one writable block. *)
Lemma push_fill : forall (n : nat) p eax ebx esp fl s0 s1 s2 mm call,
  Z.of_nat n + 4 <= p -> p + 4 < 2 ^ 32 -> Z.of_nat n < 2 ^ 31 ->
  (forall x, p - Z.of_nat n < x <= p -> h_writable h x = true) ->
  exists mm' fl' eax' edx', go (from push_unaligned code)
    (Mach eax ebx (w32 (- Z.of_nat n)) p esp fl s0 s1 s2 mm call)
    (from push_one_done code)
    (Mach eax' ebx 0 edx' esp fl' s0 s1 s2 mm' call) /\
    forall x, mm' x = fill mm (p + 1 - Z.of_nat n) (Z.of_nat n) V x.
Proof.
  pose proof V_range as HV.
  induction n as [|n IH]; intros p eax ebx esp fl s0 s1 s2 mm call Hp Hp2 Hs Hw.
  - exists mm. eexists _, eax, p. split.
    + unfold go. rewrite seg_push_unaligned. cbn [app].
      change (w32 (- Z.of_nat 0)) with 0.
      sym. jcc true. apply steps_refl.
    + intros x. unfold fill.
      replace ((p + 1 - Z.of_nat 0 <=? x) && (x <? p + 1 - Z.of_nat 0 + Z.of_nat 0))
        with false by lia.
      reflexivity.
  - rewrite (w32_is (- Z.of_nat (S n)) (2 ^ 32 - Z.of_nat (S n)) (-1)) by lia.
    destruct (Z.eq_dec (p mod 4) 0) as [E|E].
    + pose proof (Z.div_mod (Z.of_nat n) 4 ltac:(lia)) as DM.
      pose proof (Z.mod_pos_bound (Z.of_nat n) 4 ltac:(lia)) as MB.
      assert (0 <= Z.of_nat n / 4) by (apply Z.div_pos; lia).
      destruct (push_dwords (Z.to_nat (Z.of_nat n / 4)) (Z.of_nat n) (Z.of_nat n mod 4)
                  (p - 4) ebx esp FNone s0 s1 s2 (fun y => if y =? p then V else mm y) call)
        as (mm' & fl' & G & M); try lia.
      { intros x Hx. apply Hw. lia. }
      rewrite Z2Nat.id in * by lia.
      exists mm', fl'. eexists _, _. split.
      * unfold go. rewrite seg_push_unaligned. cbn [app].
        sym. jcc false. sym. jcc true.
        rewrite seg_push_aligned. cbn [app].
        eapply steps_step.
        { cbn [exec m_reg m_edx]. rewrite writable1 by lia. rewrite (Hw p) by lia.
          cbn [set_mem]. rewrite (Z.mod_small (new_dword map4 act) 256) by exact HV.
          reflexivity. }
        eapply steps_step;
          [ cbv beta iota zeta delta [exec get put set_reg set_fl m_reg m_ecx]; reflexivity | ].
        sym.
        eapply steps_step;
          [ cbv beta iota zeta delta [exec get put set_reg set_fl m_reg m_ecx]; reflexivity | ].
        replace (w32 (- w32 (2 ^ 32 - Z.of_nat (S n) + 1))) with (Z.of_nat n).
        2:{ destruct n.
            - reflexivity.
            - rewrite (w32_is (2 ^ 32 - Z.of_nat (S (S n)) + 1)
                         (2 ^ 32 - Z.of_nat (S n)) 0) by lia.
              symmetry. apply (w32_is _ _ (-1)); lia. }
        sym. sym. sym.
        rewrite s32_pos by lia.
        rewrite shr_div by lia. change (2 ^ 2) with 4.
        rewrite ?(w32_is (Z.of_nat n / 4) (Z.of_nat n / 4) 0) by lia.
        exact G.
      * intros x. rewrite M. unfold fill.
        destruct (Z.leb_spec (p - 4 + 4 - 4 * (Z.of_nat n / 4) - Z.of_nat n mod 4) x),
          (Z.ltb_spec x (p - 4 + 4 - 4 * (Z.of_nat n / 4) - Z.of_nat n mod 4 +
                         (4 * (Z.of_nat n / 4) + Z.of_nat n mod 4))),
          (Z.eqb_spec x p),
          (Z.leb_spec (p + 1 - Z.of_nat (S n)) x),
          (Z.ltb_spec x (p + 1 - Z.of_nat (S n) + Z.of_nat (S n)));
          cbn [andb]; try reflexivity; lia.
    + destruct (IH (p - 1) eax ebx esp FNone s0 s1 s2
                  (fun y => if y =? p then V else mm y) call)
        as (mm' & fl' & eax' & edx' & G & M); try lia.
      { intros x Hx. apply Hw. lia. }
      exists mm', fl', eax', edx'. split.
      * unfold go. rewrite seg_push_unaligned. cbn [app].
        sym. jcc false. sym. jcc false.
        eapply steps_step.
        { cbn [exec m_reg m_edx]. rewrite writable1 by lia. rewrite (Hw p) by lia.
          cbn [set_mem]. rewrite (Z.mod_small (new_dword map4 act) 256) by exact HV.
          reflexivity. }
        eapply steps_step;
          [ cbv beta iota zeta delta [exec get put set_reg set_fl m_reg m_ecx]; reflexivity | ].
        sym. sym.
        replace (w32 (2 ^ 32 - Z.of_nat (S n) + 1)) with (w32 (- Z.of_nat n)).
        2:{ unfold w32. replace (2 ^ 32 - Z.of_nat (S n) + 1)
              with (- Z.of_nat n + 1 * 2 ^ 32) by lia.
            rewrite Z.mod_add by lia. reflexivity. }
        exact G.
      * intros x. rewrite M. unfold fill.
        destruct (Z.leb_spec (p - 1 + 1 - Z.of_nat n) x),
          (Z.ltb_spec x (p - 1 + 1 - Z.of_nat n + Z.of_nat n)),
          (Z.leb_spec (p + 1 - Z.of_nat (S n)) x),
          (Z.ltb_spec x (p + 1 - Z.of_nat (S n) + Z.of_nat (S n))), (Z.eqb_spec x p);
          cbn [andb]; try reflexivity; lia.
Qed.

Lemma push_fault n p eax ebx esp fl s0 s1 s2 mm call :
  0 <= p < 2 ^ 32 -> 0 < n < 2 ^ 31 ->
  h_writable h p = false ->
  exists m', go (from push_unaligned code)
    (Mach eax ebx (2 ^ 32 - n) p esp fl s0 s1 s2 mm call) slow_code m' /\
    m_esp m' = esp /\ m_s0 m' = s0 /\ m_s1 m' = s1 /\ m_s2 m' = s2 /\ m_mem m' = mm /\
    m_call m' = call.
Proof.
  intros Hp Hn0 Hw.
  destruct (Z.eq_dec (p mod 4) 0) as [E|E].
  - eexists. split; [|shelve]. unfold go. rewrite seg_push_unaligned. cbn [app].
    sym. jcc false. sym. jcc true.
    rewrite seg_push_aligned. cbn [app].
    eapply steps_step.
    { cbn [exec m_reg m_edx]. rewrite writable1 by lia. rewrite Hw.
      cbn [fault after_nop]. rewrite nop_push_aligned_loop. reflexivity. }
    apply steps_refl.
    Unshelve. cbn. repeat split.
  - eexists. split; [|shelve]. unfold go. rewrite seg_push_unaligned. cbn [app].
    sym. jcc false. sym. jcc false.
    eapply steps_step.
    { cbn [exec m_reg m_edx]. rewrite writable1 by lia. rewrite Hw.
      cbn [fault after_nop]. rewrite nop_push_aligned. reflexivity. }
    apply steps_refl.
    Unshelve. cbn. repeat split.
Qed.
End Code.
