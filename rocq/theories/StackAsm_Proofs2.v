(** The generated fast path as a whole. *)
From Verif Require Import Base MemRef_Model Stack_Model StackAsm_Model StackAsm_Spec
  StackAsm_Proofs.
Open Scope Z_scope.

Lemma s32_w32 x : - 2 ^ 31 <= x < 2 ^ 31 -> s32 (w32 x) = x.
Proof.
  intros H. destruct (Z_lt_dec x 0).
  - rewrite (w32_is x (x + 2 ^ 32) (-1)) by lia. apply s32_neg. lia.
  - rewrite (w32_is x x 0) by lia. apply s32_pos. lia.
Qed.
Lemma w32_eq x y k : x = y + k * 2 ^ 32 -> w32 x = w32 y.
Proof. intros ->. unfold w32. apply Z.mod_add. lia. Qed.
Lemma w32_in x : 0 <= w32 x < 2 ^ 32.
Proof. apply Z.mod_pos_bound. lia. Qed.
Lemma w32_add_l x y : w32 (w32 x + y) = w32 (x + y).
Proof. unfold w32. apply Zplus_mod_idemp_l. Qed.
Lemma w32_add_r x y : w32 (x + w32 y) = w32 (x + y).
Proof. unfold w32. apply Zplus_mod_idemp_r. Qed.
Lemma w32_sub_l x y : w32 (w32 x - y) = w32 (x - y).
Proof. unfold w32. apply Zminus_mod_idemp_l. Qed.
Lemma w32_sub_r x y : w32 (x - w32 y) = w32 (x - y).
Proof. unfold w32. apply Zminus_mod_idemp_r. Qed.
Lemma w32_w32 x : w32 (w32 x) = w32 x.
Proof. unfold w32. apply Z.mod_mod. lia. Qed.
Lemma w32_shl2 x : w32 (Z.shiftl (w32 x) 2) = w32 (4 * x).
Proof.
  rewrite Z.shiftl_mul_pow2 by lia. change (2 ^ 2) with 4. unfold w32.
  rewrite Zmult_mod_idemp_l. f_equal. lia.
Qed.
Lemma w32_small x : 0 <= x < 2 ^ 32 -> w32 x = x.
Proof. intros H. apply (w32_is _ _ 0); lia. Qed.

Ltac sym0 :=
  eapply steps_step;
  [ cbv beta iota zeta delta [exec get put set_reg set_fl set_slot m_reg m_slot m_eax m_ebx
      m_ecx m_edx m_esp m_fl m_s0 m_s1 m_s2 m_mem m_call]; reflexivity | ].

Section Fast.
Variables (h : hw) (base : Z -> Z) (wr : Z -> bool).
Hypothesis TB : tables h base wr.
Variables (map4 shared : bool) (act : action) (ty : etype) (thr : Z).
Let code := fastpath_code map4 shared act ty thr.
Let go := steps true h code.
Let slow := slow_code map4 shared act ty thr.
Let U := old_dword map4.
Let V := new_dword map4 act.
Let phys := phys base.
Hypothesis ty_ok : ty <> INVALID.
Hypothesis act_ok : act <> ACT_ZERO.

Ltac segment := unfold code; destruct ty, shared; reflexivity.

Lemma seg_lookup : from loop_shadow_lookup code =
  [ Cmp (R ECX) (I 0); Jcc JG shadow_lookup;
    Jcc JE loop_done; Sub (R EDX) (I 4); Label shadow_lookup ] ++ from shadow_lookup code.
Proof. segment. Qed.
Lemma seg_shadow_lookup : from shadow_lookup code =
  [ Mov (R EAX) (R EDX); Test8 EDX 3; Jcc JNE slowpath;
    Mov (R EBX) (R EDX); Shr EBX 16; Shr EDX 2; AddTable EDX EBX;
    Mov (R EBX) (R EAX); Movzx16 EBX; Shr EBX 2; Neg EBX; Add (R EBX) (R EDX);
    Cmp (R ECX) (I 0); Jcc JL loop_push;
    Add (R EBX) (I BLOCK); Sub (R EBX) (R EDX); Cmp (R EBX) (R ECX);
    Jcc JAE pop_one_block; Sub (R ECX) (R EBX); Xchg ECX EBX; Jmp pop_unaligned;
    Label pop_one_block ] ++ from pop_one_block code.
Proof. segment. Qed.
Lemma seg_pop_one_block : from pop_one_block code =
  [ Xor (R EBX) (R EBX); Label pop_unaligned ] ++ from pop_unaligned code.
Proof. segment. Qed.
Lemma seg_pop_one_done : from pop_one_done code =
  [ Test (R EBX) (R EBX); Jcc JE loop_done; Mov (R ECX) (R EBX);
    Jmp loop_next_shadow; Label loop_next_shadow ] ++ from loop_next_shadow code.
Proof. segment. Qed.
Lemma seg_loop_push : from loop_push code =
  [ Dec EBX; Sub (R EBX) (R EDX); Cmp (R EBX) (R ECX);
    Jcc JBE push_one_block; Sub (R ECX) (R EBX); Xchg ECX EBX; Jmp push_unaligned;
    Label push_one_block ] ++ from push_one_block code.
Proof. segment. Qed.
Lemma seg_push_one_block : from push_one_block code =
  [ Xor (R EBX) (R EBX); Label push_unaligned ] ++ from push_unaligned code.
Proof. segment. Qed.
Lemma seg_push_one_done : from push_one_done code =
  [ Test (R EBX) (R EBX); Jcc JE loop_done; Mov (R ECX) (R EBX);
    Jmp loop_next_shadow; Label loop_done ] ++ from loop_done code.
Proof. segment. Qed.
Lemma seg_slowpath : from slowpath code = Nop :: slow.
Proof. unfold slow, slow_code. segment. Qed.

(** The word the routine finds again when it crosses a block. *)
Definition again (esp s1 : Z) : Z := if is_abs ty then s1 else start_sp ty esp + s1.

Lemma boundary c eax ebx edx esp fl s0 s1 s2 mm call :
  - 2 ^ 29 <= c < 2 ^ 29 -> 0 <= esp < 2 ^ 32 -> 0 <= s1 < 2 ^ 32 ->
  exists ebx' fl', go (from loop_next_shadow code)
    (Mach eax ebx (w32 c) edx esp fl s0 s1 s2 mm call)
    (from loop_shadow_lookup code)
    (Mach eax ebx' (w32 c) (w32 (again esp s1 - 4 * c)) esp fl' s0 s1 s2 mm call).
Proof.
  intros Hc He Hs.
  assert (Q : w32 (Z.shiftr (s32 (w32 (4 * c))) 2) = w32 c).
  { rewrite s32_w32 by lia. rewrite shr_div by lia. change (2 ^ 2) with 4.
    rewrite Z.mul_comm, Z.div_mul by lia. reflexivity. }
  destruct ty eqn:ET; try congruence; eexists _, _; unfold go.
  - replace (from loop_next_shadow code) with
      ([ Mov (R EDX) (R ESP); Mov (R EBX) (Slot S1); Sub (R EBX) (R EDX); Add (R EDX) (R EBX);
         Shl ECX 2; Sub (R EDX) (R ECX); Sar ECX 2; Jmp loop_shadow_lookup;
         Label loop_push ] ++ from loop_push code)
      by (unfold code; destruct shared; reflexivity).
    cbn [app]. do 8 sym0. rewrite w32_shl2, Q.
    replace (w32 (w32 (w32 esp + w32 (w32 s1 - w32 esp)) - w32 (4 * c)))
      with (w32 (again esp s1 - 4 * c)); [apply steps_refl|].
    unfold again. rewrite ET. cbn [is_abs].
    rewrite w32_sub_r, w32_sub_l, (w32_small esp), (w32_small s1) by lia.
    rewrite <- (w32_sub_l (esp + _)), w32_add_r, w32_sub_l. f_equal. lia.
  - replace (from loop_next_shadow code) with
      ([ Mov (R EDX) (R ESP); Mov (R EBX) (Slot S1); Sub (R EBX) (R EDX); Add (R EDX) (R EBX);
         Shl ECX 2; Sub (R EDX) (R ECX); Sar ECX 2; Jmp loop_shadow_lookup;
         Label loop_push ] ++ from loop_push code)
      by (unfold code; destruct shared; reflexivity).
    cbn [app]. do 8 sym0. rewrite w32_shl2, Q.
    replace (w32 (w32 (w32 esp + w32 (w32 s1 - w32 esp)) - w32 (4 * c)))
      with (w32 (again esp s1 - 4 * c)); [apply steps_refl|].
    unfold again. rewrite ET. cbn [is_abs].
    rewrite w32_sub_r, w32_sub_l, (w32_small esp), (w32_small s1) by lia.
    rewrite <- (w32_sub_l (esp + _)), w32_add_r, w32_sub_l. f_equal. lia.
  - replace (from loop_next_shadow code) with
      ([ Mov (R EDX) (R ESP); Add (R EDX) (Slot S1);
         Shl ECX 2; Sub (R EDX) (R ECX); Sar ECX 2; Jmp loop_shadow_lookup;
         Label loop_push ] ++ from loop_push code)
      by (unfold code; destruct shared; reflexivity).
    cbn [app]. do 6 sym0. rewrite w32_shl2, Q.
    replace (w32 (w32 (w32 esp + s1) - w32 (4 * c)))
      with (w32 (again esp s1 - 4 * c)); [apply steps_refl|].
    unfold again, start_sp. rewrite ET. cbn [is_abs].
    rewrite w32_sub_r, w32_sub_l, (w32_small esp) by lia. reflexivity.
  - replace (from loop_next_shadow code) with
      ([ Mov (R EDX) (R ESP); Add (R EDX) (Slot S1);
         Shl ECX 2; Sub (R EDX) (R ECX); Sar ECX 2; Jmp loop_shadow_lookup;
         Label loop_push ] ++ from loop_push code)
      by (unfold code; destruct shared; reflexivity).
    cbn [app]. do 6 sym0. rewrite w32_shl2, Q.
    replace (w32 (w32 (w32 esp + s1) - w32 (4 * c)))
      with (w32 (again esp s1 - 4 * c)); [apply steps_refl|].
    unfold again, start_sp. rewrite ET. cbn [is_abs].
    rewrite w32_sub_r, w32_sub_l, (w32_small esp) by lia. reflexivity.
  - replace (from loop_next_shadow code) with
      ([ Mov (R EDX) (R ESP); Add (R EDX) (I 4); Add (R EDX) (Slot S1);
         Shl ECX 2; Sub (R EDX) (R ECX); Sar ECX 2; Jmp loop_shadow_lookup;
         Label loop_push ] ++ from loop_push code)
      by (unfold code; destruct shared; reflexivity).
    cbn [app]. do 7 sym0. rewrite w32_shl2, Q.
    replace (w32 (w32 (w32 (w32 esp + w32 4) + s1) - w32 (4 * c)))
      with (w32 (again esp s1 - 4 * c)); [apply steps_refl|].
    unfold again, start_sp. rewrite ET. cbn [is_abs].
    rewrite w32_sub_r, w32_sub_l, (w32_small esp), (w32_small 4) by lia.
    replace (w32 (esp + 4) + s1 - 4 * c) with (w32 (esp + 4) + (s1 - 4 * c)) by lia.
    rewrite w32_add_l. f_equal. lia.
  - replace (from loop_next_shadow code) with
      ([ Mov (R EDX) (R ESP); Add (R EDX) (Slot S1);
         Shl ECX 2; Sub (R EDX) (R ECX); Sar ECX 2; Jmp loop_shadow_lookup;
         Label loop_push ] ++ from loop_push code)
      by (unfold code; destruct shared; reflexivity).
    cbn [app]. do 6 sym0. rewrite w32_shl2, Q.
    replace (w32 (w32 (w32 esp + s1) - w32 (4 * c)))
      with (w32 (again esp s1 - 4 * c)); [apply steps_refl|].
    unfold again, start_sp. rewrite ET. cbn [is_abs].
    rewrite w32_sub_r, w32_sub_l, (w32_small esp) by lia. reflexivity.
Qed.

(** The shadow bytes of [lo, hi) hold [v], all others what they held. *)
Definition painted (lo hi v : Z) (mm0 mm : Z -> Z) : Prop :=
  (forall a, lo <= a < hi -> a mod 4 = 0 -> wr (a / 65536) = true /\ mm (phys a) = v) /\
  (forall y, (forall a, lo <= a < hi -> a mod 4 = 0 -> y <> phys a) -> mm y = mm0 y).

Lemma painted_none lo v mm : painted lo lo v mm mm.
Proof. split; [intros a H; lia|reflexivity]. Qed.

(** Extending the painted area by [n] dwords within one block. *)
Lemma painted_step lo hi v mm0 mm mm' p q a n : lo mod 4 = 0 -> hi mod 4 = 0 ->
  painted lo hi v mm0 mm -> a mod 4 = 0 -> 0 < n ->
  a mod 65536 / 4 + n <= BLOCK -> wr (a / 65536) = true ->
  (a = hi /\ p = lo /\ q = a + 4 * n \/ a + 4 * n = lo /\ p = a /\ q = hi) -> lo <= hi ->
  (forall x, mm' x = fill mm (phys a) n v x) ->
  painted p q v mm0 mm'.
Proof.
  intros Hlo Hhi (P1 & P2) Ha Hn Hb Hw Hpq Hle HM.
  assert (BK : forall b, a <= b < a + 4 * n -> b / 65536 = a / 65536 /\
            b mod 4 = 0 -> phys b = phys a + (b - a) / 4).
  { intros b Hb1 (Hb2 & Hb3). unfold phys, StackAsm_Spec.phys. rewrite Hb2. unfold BLOCK in *.
    clear -Hb1 Hb2 Hb3 Ha Hb. Z.div_mod_to_equations. lia. }
  assert (BLK : forall b, a <= b < a + 4 * n -> b / 65536 = a / 65536).
  { intros b Hb1. unfold BLOCK in *. clear -Hb1 Ha Hb. Z.div_mod_to_equations. lia. }
  assert (INC : p <= lo /\ hi <= q /\ p <= a /\ a + 4 * n <= q) by (clear -Hpq Hle Hn; lia).
  assert (COV : forall b, p <= b < q -> lo <= b < hi \/ a <= b < a + 4 * n)
    by (clear -Hpq Hle Hn; lia).
  clear Hpq Hb Hlo Hhi Hle. split.
  - intros b Hb1 Hb2. rewrite HM. unfold fill.
    destruct (Z.leb_spec a b) as [L|L], (Z.ltb_spec b (a + 4 * n)) as [L2|L2].
    1:{ rewrite (BLK b (conj L L2)). split; [exact Hw|].
        rewrite (BK b (conj L L2) (conj (BLK b (conj L L2)) Hb2)).
        assert (Q : 0 <= (b - a) / 4 < n).
        { clear -L L2. split; [apply Z.div_pos; lia|apply Z.div_lt_upper_bound; lia]. }
        clear -Q. generalize dependent ((b - a) / 4). intros k Hk.
        replace ((phys a <=? phys a + k) && (phys a + k <? phys a + n))
          with true by lia. reflexivity. }
    all: destruct (P1 b) as (W & E); [destruct (COV b Hb1); [assumption|clear -H L L2; lia]
                                     |exact Hb2|];
      split; [exact W|]; destruct (_ && _); [reflexivity|exact E].
  - intros y Hy. rewrite HM. unfold fill.
    assert (SUB : forall b, lo <= b < hi -> p <= b < q) by (clear -INC; lia).
    assert (SUB2 : forall b, a <= b < a + 4 * n -> p <= b < q) by (clear -INC; lia).
    destruct (Z.leb_spec (phys a) y) as [L|L], (Z.ltb_spec y (phys a + n)) as [L2|L2];
      cbn [andb].
    2-4: apply P2; intros b Hbb; apply Hy, SUB, Hbb.
    exfalso.
    assert (M4 : (a + 4 * (y - phys a)) mod 4 = 0).
    { rewrite Z.mul_comm, Z.mod_add by (clear; lia). exact Ha. }
    assert (IN : a <= a + 4 * (y - phys a) < a + 4 * n) by (clear -L L2; lia).
    apply (Hy (a + 4 * (y - phys a))); [apply SUB2, IN|exact M4|].
    rewrite (BK _ IN (conj (BLK _ IN) M4)).
    replace (a + 4 * (y - phys a) - a) with ((y - phys a) * 4) by (clear; lia).
    rewrite Z.div_mul by (clear; lia). clear; lia.
Qed.

(** What a stretch of the routine leaves alone. *)
Definition keeps (esp s0 s1 s2 : Z) (call : option (Z * action)) (m : mach) : Prop :=
  m_esp m = esp /\ m_s0 m = s0 /\ m_s1 m = s1 /\ m_s2 m = s2 /\ m_call m = call.

Lemma land255 x : Z.land (Z.land x 255) 3 = x mod 4.
Proof.
  rewrite <- Z.land_assoc. change (Z.land 255 3) with 3. apply land3.
Qed.
Lemma land16 x : Z.land x 65535 = x mod 65536.
Proof. change 65535 with (Z.ones 16). rewrite Z.land_ones by lia. reflexivity. Qed.

Definition after_lookup : list instr :=
  [ Cmp (R ECX) (I 0); Jcc JL loop_push;
    Add (R EBX) (I BLOCK); Sub (R EBX) (R EDX); Cmp (R EBX) (R ECX);
    Jcc JAE pop_one_block; Sub (R ECX) (R EBX); Xchg ECX EBX; Jmp pop_unaligned;
    Label pop_one_block ] ++ from pop_one_block code.

Lemma phys_parts a : 0 <= a < 2 ^ 32 ->
  0 <= a / 65536 < 65536 /\ 0 <= a mod 65536 / 4 < BLOCK /\
  a / 4 = a / 65536 * BLOCK + a mod 65536 / 4 /\
  phys a = base (a / 65536) + a mod 65536 / 4 /\
  16 <= base (a / 65536) <= 2 ^ 32 - BLOCK - 16.
Proof.
  intros H. unfold phys, StackAsm_Spec.phys, BLOCK.
  split; [|split; [|split; [|split; [reflexivity|apply (tb_range _ _ _ TB)]]]];
    clear -H; Z.div_mod_to_equations; lia.
Qed.

Lemma lookup_ok a eax ebx ecx esp fl s0 s1 s2 mm call : 0 <= a < 2 ^ 32 -> a mod 4 = 0 ->
  exists fl', go (from shadow_lookup code)
    (Mach eax ebx ecx a esp fl s0 s1 s2 mm call)
    after_lookup
    (Mach a (base (a / 65536)) ecx (phys a) esp fl' s0 s1 s2 mm call).
Proof.
  intros Ha Ha4. eexists. unfold go. rewrite seg_shadow_lookup. cbn [app].
  destruct (phys_parts a Ha) as (P1 & P2 & P3 & P4 & P5).
  sym0. sym0. rewrite land255, Ha4. jcc false.
  do 9 sym0. fold after_lookup.
  rewrite !(w32_small a) by exact Ha.
  rewrite !shr_div by (clear; lia). change (2 ^ 16) with 65536. change (2 ^ 2) with 4.
  rewrite land16.
  rewrite (w32_small (a / 65536)) by (clear -P1; lia).
  assert (Q4 : 0 <= a / 4 < 2 ^ 32) by (clear -Ha; Z.div_mod_to_equations; lia).
  rewrite (w32_small (a / 4)) by exact Q4.
  assert (Q16 : 0 <= a mod 65536 < 2 ^ 32)
    by (pose proof (Z.mod_pos_bound a 65536 ltac:(lia)); clear -H; lia).
  rewrite (w32_small (a mod 65536)) by exact Q16.
  rewrite (w32_small (a mod 65536 / 4)) by (clear -P2; unfold BLOCK in P2; lia).
  assert (EP : w32 (a / 4 + h_table h (a / 65536)) = phys a).
  { rewrite P3. replace (a / 65536 * BLOCK + a mod 65536 / 4 + h_table h (a / 65536))
      with ((h_table h (a / 65536) + a / 65536 * BLOCK) + a mod 65536 / 4) by (clear; lia).
    rewrite <- w32_add_l, (tb_base _ _ _ TB) by exact P1. rewrite P4. apply w32_small.
    clear -P2 P5. unfold BLOCK in *. lia. }
  rewrite EP.
  assert (EB : w32 (w32 (- (a mod 65536 / 4)) + phys a) = base (a / 65536)).
  { rewrite w32_add_l, P4. replace (- (a mod 65536 / 4) + (base (a / 65536) + a mod 65536 / 4))
      with (base (a / 65536)) by (clear; lia).
    apply w32_small. clear -P5. unfold BLOCK in *. lia. }
  rewrite EB. apply steps_refl.
Qed.

Lemma lookup_bail a eax ebx ecx esp fl s0 s1 s2 mm call : a mod 4 <> 0 ->
  exists m', go (from shadow_lookup code)
    (Mach eax ebx ecx a esp fl s0 s1 s2 mm call) slow m' /\
    keeps esp s0 s1 s2 call m' /\ m_mem m' = mm.
Proof.
  intros Ha. eexists. split; [|shelve]. unfold go. rewrite seg_shadow_lookup. cbn [app].
  sym0. sym0. rewrite land255. jcc true. rewrite seg_slowpath. sym0. apply steps_refl.
  Unshelve. unfold keeps. cbn. repeat split.
Qed.

Lemma lxor_same x : Z.lxor x x = 0.
Proof. apply Z.lxor_nilpotent. Qed.

(** One turn of the outer loop, upwards. *)
Lemma pop_turn c a eax ebx esp fl s0 s1 s2 mm call :
  0 < c < 2 ^ 29 -> 0 <= a -> a + 4 * c < 2 ^ 32 -> a mod 4 = 0 ->
  let n := Z.min c (BLOCK - a mod 65536 / 4) in
  if wr (a / 65536) then
    exists eax' edx' fl' mm', go (from loop_shadow_lookup code)
      (Mach eax ebx c a esp fl s0 s1 s2 mm call)
      (if c - n =? 0 then from loop_done code else from loop_next_shadow code)
      (Mach eax' (c - n) (c - n) edx' esp fl' s0 s1 s2 mm' call) /\
      forall x, mm' x = fill mm (phys a) n U x
  else
    exists m', go (from loop_shadow_lookup code)
      (Mach eax ebx c a esp fl s0 s1 s2 mm call) slow m' /\
      keeps esp s0 s1 s2 call m' /\ m_mem m' = mm.
Proof.
  intros Hc Ha Hac Ha4 n.
  assert (Ha' : 0 <= a < 2 ^ 32) by (clear -Hc Ha Hac; lia).
  destruct (phys_parts a Ha') as (P1 & P2 & P3 & P4 & P5).
  set (r := BLOCK - a mod 65536 / 4) in *.
  assert (Hr : 0 < r <= BLOCK) by (clear -P2; subst r; lia).
  assert (Hn : 0 < n <= c /\ n <= r) by (clear -Hc Hr; subst n; lia).
  destruct (lookup_ok a eax ebx c esp (FCmp c 0) s0 s1 s2 mm call Ha' Ha4) as (fl1 & G1).
  assert (HRB : base (a / 65536) + BLOCK = phys a + r) by (rewrite P4; subst r; clear; lia).
  assert (HP : 16 <= phys a /\ phys a + r <= 2 ^ 32 - 16)
    by (rewrite P4; subst r; clear -P2 P5; lia).
  assert (MID1 : exists fl2, go (from loop_shadow_lookup code)
      (Mach eax ebx c a esp fl s0 s1 s2 mm call)
      (from pop_unaligned code)
      (Mach a (c - n) n (phys a) esp fl2 s0 s1 s2 mm call)).
  { eexists. unfold go. rewrite seg_lookup. cbn [app].
    clear -G1 Hc Hr Hn HRB HP. unfold BLOCK in *.
    sym0. rewrite (w32_small 0) by (clear; lia).
    eapply (steps_jcc _ _ _ _ _ _ _ true).
    { cbn [holds m_fl]. rewrite (s32_pos c), (s32_pos 0) by (clear -Hc; lia).
      f_equal. clear -Hc. lia. }
    cbv beta iota. eapply steps_trans; [exact G1|]. unfold after_lookup. cbn [app].
    sym0. rewrite (w32_small 0) by (clear; lia).
    eapply (steps_jcc _ _ _ _ _ _ _ false).
    { cbn [holds m_fl]. rewrite (s32_pos c), (s32_pos 0) by (clear -Hc; lia).
      f_equal. clear -Hc. lia. }
    cbv beta iota. sym0. sym0. sym0.
    unfold BLOCK. rewrite (w32_small 16384) by (clear; lia).
    rewrite HRB. rewrite (w32_small (phys a + r)) by (clear -HP Hr; lia).
    replace (phys a + r - phys a) with r by (clear; lia).
    rewrite (w32_small r) by (clear -Hr; lia).
    destruct (Z.leb_spec c r) as [L|L].
    - assert (n = c) as -> by (clear -L; subst n; lia).
      eapply (steps_jcc _ _ _ _ _ _ _ true); [cbn [holds m_fl]; f_equal; clear -L; lia|].
      cbv beta iota. rewrite seg_pop_one_block. cbn [app].
      sym0. sym0. rewrite lxor_same, (w32_small 0) by (clear; lia).
      replace (c - c) with 0 by (clear; lia). apply steps_refl.
    - assert (n = r) as -> by (clear -L; subst n; lia).
      eapply (steps_jcc _ _ _ _ _ _ _ false); [cbn [holds m_fl]; f_equal; clear -L; lia|].
      cbv beta iota. sym0. sym0. sym0.
      rewrite !(w32_small (c - r)), (w32_small r) by (clear -L Hr Hc; lia).
      apply steps_refl. }
  destruct MID1 as (fl2 & G2).
  destruct (wr (a / 65536)) eqn:EW.
  - destruct (pop_fill h map4 shared act ty thr (Z.to_nat n) (phys a) a (c - n) esp fl2
                s0 s1 s2 mm call) as (mm' & fl3 & eax' & G3 & M3);
      rewrite ?Z2Nat.id by (clear -Hn; lia); try (clear -Hn HP Hc; unfold BLOCK in *; lia).
    { intros x Hx. rewrite (tb_wr _ _ _ TB (a / 65536)); [exact EW|].
      rewrite HRB. clear -Hx Hn P4 P2. lia. }
    rewrite Z2Nat.id in * by (clear -Hn; lia).
    assert (Hcn : 0 <= c - n < 2 ^ 32) by (clear -Hn Hc; lia).
    destruct (Z.eqb_spec (c - n) 0) as [E0|E0].
    + rewrite E0 in *. eexists eax', _, _, mm'. split; [|exact M3].
      unfold go in *. eapply steps_trans; [exact G2|]. eapply steps_trans; [exact G3|].
      fold code. rewrite seg_pop_one_done. cbn [app].
      sym0. jcc true. apply steps_refl.
    + eexists eax', _, _, mm'. split; [|exact M3].
      unfold go in *. eapply steps_trans; [exact G2|]. eapply steps_trans; [exact G3|].
      fold code. rewrite seg_pop_one_done. cbn [app].
      sym0. rewrite land_same.
      eapply (steps_jcc _ _ _ _ _ _ _ false);
        [cbn [holds m_fl]; do 2 f_equal; clear -E0; lia|].
      cbv beta iota. sym0. sym0. rewrite (w32_small (c - n)) by exact Hcn.
      apply steps_refl.
  - destruct (pop_fault h map4 shared act ty thr n (phys a) a (c - n) esp fl2
                s0 s1 s2 mm call) as (m' & G3 & K1 & K2 & K3 & K4 & K5 & K6);
      try (clear -Hn HP Hc; unfold BLOCK in *; lia).
    { rewrite (tb_wr _ _ _ TB (a / 65536)); [exact EW|]. clear -P4 P2. lia. }
    exists m'. split.
    + eapply steps_trans; [exact G2|exact G3].
    + unfold keeps. repeat split; assumption.
Qed.

(** One turn of the outer loop, downwards: [b] is the dword below [a]. *)
Lemma push_turn c a eax ebx esp fl s0 s1 s2 mm call :
  0 < c <= 2 ^ 29 -> a < 2 ^ 32 -> 0 <= a - 4 * c -> a mod 4 = 0 ->
  let b := a - 4 in
  let n := Z.min c (b mod 65536 / 4 + 1) in
  if wr (b / 65536) then
    exists eax' edx' fl' mm', go (from loop_shadow_lookup code)
      (Mach eax ebx (2 ^ 32 - c) a esp fl s0 s1 s2 mm call)
      (if c - n =? 0 then from loop_done code else from loop_next_shadow code)
      (Mach eax' (w32 (- (c - n))) (w32 (- (c - n))) edx' esp fl' s0 s1 s2 mm' call) /\
      forall x, mm' x = fill mm (phys b + 1 - n) n V x
  else
    exists m', go (from loop_shadow_lookup code)
      (Mach eax ebx (2 ^ 32 - c) a esp fl s0 s1 s2 mm call) slow m' /\
      keeps esp s0 s1 s2 call m' /\ m_mem m' = mm.
Proof.
  intros Hc Ha Hac Ha4 b n.
  assert (Hb' : 0 <= b < 2 ^ 32) by (clear -Hc Ha Hac; subst b; lia).
  assert (Hb4 : b mod 4 = 0).
  { clear -Ha4. subst b. replace (a - 4) with (a + (-1) * 4) by lia.
    rewrite Z.mod_add by lia. exact Ha4. }
  destruct (phys_parts b Hb') as (P1 & P2 & P3 & P4 & P5).
  set (r := b mod 65536 / 4 + 1) in *.
  assert (Hr : 0 < r <= BLOCK) by (clear -P2; subst r; lia).
  assert (Hn : 0 < n <= c /\ n <= r) by (clear -Hc Hr; subst n; lia).
  destruct (lookup_ok b eax ebx (2 ^ 32 - c) esp FNone s0 s1 s2 mm call Hb' Hb4)
    as (fl1 & G1).
  assert (HRB : base (b / 65536) = phys b + 1 - r) by (rewrite P4; subst r; clear; lia).
  assert (HP : 16 <= phys b + 1 - r /\ phys b + 1 <= 2 ^ 32 - 16)
    by (rewrite P4; subst r; clear -P2 P5; lia).
  assert (MID1 : exists fl2, go (from loop_shadow_lookup code)
      (Mach eax ebx (2 ^ 32 - c) a esp fl s0 s1 s2 mm call)
      (from push_unaligned code)
      (Mach b (w32 (- (c - n))) (2 ^ 32 - n) (phys b) esp fl2 s0 s1 s2 mm call)).
  { eexists. unfold go. rewrite seg_lookup. cbn [app].
    assert (HS : s32 (2 ^ 32 - c) = - c).
    { replace (2 ^ 32 - c) with (- c + 2 ^ 32) by (clear; lia). apply s32_neg.
      clear -Hc. lia. }
    clear -G1 Hc Hr Hn HRB HP HS Ha Hac. unfold BLOCK in *.
    sym0. rewrite (w32_small 0) by (clear; lia).
    eapply (steps_jcc _ _ _ _ _ _ _ false).
    { cbn [holds m_fl]. rewrite HS, (s32_pos 0) by (clear; lia).
      f_equal. clear -Hc. lia. }
    cbv beta iota.
    eapply (steps_jcc _ _ _ _ _ _ _ false).
    { cbn [holds m_fl]. f_equal. clear -Hc. lia. }
    cbv beta iota. sym0. sym0.
    rewrite (w32_small 4), (w32_small (a - 4)) by (clear -Ha Hac Hc; lia). fold b.
    eapply steps_trans; [exact G1|]. unfold after_lookup. cbn [app].
    sym0. rewrite (w32_small 0) by (clear; lia).
    eapply (steps_jcc _ _ _ _ _ _ _ true).
    { cbn [holds m_fl]. rewrite HS, (s32_pos 0) by (clear; lia).
      f_equal. clear -Hc. lia. }
    cbv beta iota. rewrite seg_loop_push. cbn [app]. sym0. sym0. sym0.
    rewrite HRB. rewrite (w32_small (phys b + 1 - r - 1)) by (clear -HP Hr; lia).
    rewrite (w32_is (phys b + 1 - r - 1 - phys b) (2 ^ 32 - r) (-1)) by (clear -Hr; lia).
    destruct (Z.leb_spec c r) as [L|L].
    - assert (n = c) as -> by (clear -L; subst n; lia).
      eapply (steps_jcc _ _ _ _ _ _ _ true); [cbn [holds m_fl]; f_equal; clear -L; lia|].
      cbv beta iota. rewrite seg_push_one_block. cbn [app].
      sym0. sym0. rewrite lxor_same.
      replace (- (c - c)) with 0 by (clear; lia). apply steps_refl.
    - assert (n = r) as -> by (clear -L; subst n; lia).
      eapply (steps_jcc _ _ _ _ _ _ _ false); [cbn [holds m_fl]; f_equal; clear -L; lia|].
      cbv beta iota. sym0. sym0. sym0.
      rewrite (w32_small (2 ^ 32 - r)) by (clear -Hr; lia).
      rewrite w32_w32.
      replace (2 ^ 32 - c - (2 ^ 32 - r)) with (- (c - r)) by (clear; lia).
      apply steps_refl. }
  destruct MID1 as (fl2 & G2).
  destruct (wr (b / 65536)) eqn:EW.
  - destruct (push_fill h map4 shared act ty thr act_ok (Z.to_nat n) (phys b) b
                (w32 (- (c - n))) esp fl2
                s0 s1 s2 mm call) as (mm' & fl3 & eax' & edx' & G3 & M3);
      rewrite ?Z2Nat.id by (clear -Hn; lia); try (clear -Hn HP Hc; unfold BLOCK in *; lia).
    { intros x Hx. rewrite (tb_wr _ _ _ TB (b / 65536)); [exact EW|].
      rewrite HRB. clear -Hx Hn P4 P2 HRB Hr. subst r. lia. }
    rewrite Z2Nat.id in * by (clear -Hn; lia).
    rewrite (w32_is (- n) (2 ^ 32 - n) (-1)) in G3 by (clear -Hn Hc; lia).
    destruct (Z.eqb_spec (c - n) 0) as [E0|E0].
    + rewrite E0 in *. eexists eax', _, _, mm'. split; [|exact M3].
      unfold go in *. eapply steps_trans; [exact G2|]. eapply steps_trans; [exact G3|].
      fold code. rewrite seg_push_one_done. cbn [app].
      sym0. jcc true. apply steps_refl.
    + eexists eax', _, _, mm'. split; [|exact M3].
      unfold go in *. eapply steps_trans; [exact G2|]. eapply steps_trans; [exact G3|].
      fold code. rewrite seg_push_one_done. cbn [app].
      sym0. rewrite land_same.
      eapply (steps_jcc _ _ _ _ _ _ _ false).
      { cbn [holds m_fl]. do 2 f_equal.
        rewrite (w32_is (- (c - n)) (2 ^ 32 - (c - n)) (-1)) by (clear -E0 Hn Hc; lia).
        clear -E0 Hc Hn. lia. }
      cbv beta iota. sym0. sym0. rewrite w32_w32.
      apply steps_refl.
  - destruct (push_fault h map4 shared act ty thr n (phys b) b (w32 (- (c - n))) esp fl2
                s0 s1 s2 mm call) as (m' & G3 & K1 & K2 & K3 & K4 & K5 & K6);
      try (clear -Hn HP Hc Hr; unfold BLOCK in *; lia).
    { rewrite (tb_wr _ _ _ TB (b / 65536)); [exact EW|]. clear -P4 P2. lia. }
    exists m'. split.
    + eapply steps_trans; [exact G2|exact G3].
    + unfold keeps. repeat split; assumption.
Qed.

(** The whole outer loop: everything painted, or on to the slow path with part
    of it painted. *)
Definition loop_result (lo hi v : Z) (esp s0 s1 s2 : Z) call (mm0 : Z -> Z) (m : mach) :
  Prop :=
  exists m', keeps esp s0 s1 s2 call m' /\
    ((go (from loop_shadow_lookup code) m (from loop_done code) m' /\
      painted lo hi v mm0 (m_mem m')) \/
     (go (from loop_shadow_lookup code) m slow m' /\
      exists l u, lo <= l /\ l <= u /\ u <= hi /\ l mod 4 = 0 /\ u mod 4 = 0 /\
        painted l u v mm0 (m_mem m'))).

Lemma mod4_add x k : x mod 4 = 0 -> (x + 4 * k) mod 4 = 0.
Proof. intros H. rewrite Z.mul_comm, Z.mod_add by lia. exact H. Qed.

Lemma loop_result_step lo hi v esp s0 s1 s2 call mm0 m m1 :
  go (from loop_shadow_lookup code) m (from loop_shadow_lookup code) m1 ->
  loop_result lo hi v esp s0 s1 s2 call mm0 m1 ->
  loop_result lo hi v esp s0 s1 s2 call mm0 m.
Proof.
  intros G (m' & K & [(A & B)|(A & B)]); exists m'; (split; [exact K|]).
  - left. split; [|exact B]. eapply steps_trans; eassumption.
  - right. split; [|exact B]. eapply steps_trans; eassumption.
Qed.

Lemma pops lo t esp s0 s1 s2 call mm0 :
  lo mod 4 = 0 -> t mod 4 = 0 -> 0 <= lo -> lo <= t -> t < 2 ^ 32 -> t - lo < 2 ^ 31 ->
  0 <= esp < 2 ^ 32 -> 0 <= s1 < 2 ^ 32 ->
  w32 (again esp s1) = t ->
  forall (k : nat) c eax ebx fl mm, c <= Z.of_nat k -> 0 <= c -> 4 * c <= t - lo ->
  painted lo (t - 4 * c) U mm0 mm ->
  loop_result lo t U esp s0 s1 s2 call mm0
    (Mach eax ebx c (t - 4 * c) esp fl s0 s1 s2 mm call).
Proof.
  intros Hl4 Ht4 Hl Hlt Ht Htl He Hs HT.
  induction k as [|k IH]; intros c eax ebx fl mm Hk Hc0 Hc P.
  - assert (c = 0) as -> by lia.
    eexists. split; [shelve|]. left. split; [|shelve].
    unfold go. rewrite seg_lookup. cbn [app]. sym0. rewrite (w32_small 0) by lia.
    jcc false. jcc true. apply steps_refl.
    Unshelve.
    + unfold keeps. cbn. repeat split.
    + cbn [m_mem]. replace (t - 4 * 0) with t in P by lia. exact P.
  - destruct (Z.eq_dec c 0) as [->|N]; [apply IH; auto; lia|].
    assert (A4 : (t - 4 * c) mod 4 = 0).
    { replace (t - 4 * c) with (t + 4 * (- c)) by lia. apply mod4_add, Ht4. }
    pose proof (pop_turn c (t - 4 * c) eax ebx esp fl s0 s1 s2 mm call) as PT.
    specialize (PT ltac:(lia) ltac:(lia) ltac:(lia) A4). cbv zeta in PT.
    destruct (phys_parts (t - 4 * c) ltac:(lia)) as (P1 & P2 & P3 & P4 & P5).
    set (n := Z.min c (BLOCK - (t - 4 * c) mod 65536 / 4)) in *.
    assert (Hn : 0 < n <= c /\ (t - 4 * c) mod 65536 / 4 + n <= BLOCK)
      by (clear -P2 N Hc0; subst n; lia).
    clearbody n.
    destruct (wr ((t - 4 * c) / 65536)) eqn:EW.
    + destruct PT as (eax' & edx' & fl' & mm' & G & M).
      assert (PN : painted lo (t - 4 * (c - n)) U mm0 mm').
      { eapply (painted_step lo (t - 4 * c) U mm0 mm mm' lo (t - 4 * (c - n)) (t - 4 * c) n);
          auto; try (clear -Hn; lia); try (clear -Hc; lia).
      }
      destruct (Z.eqb_spec (c - n) 0) as [E0|E0].
      * eexists. split; [shelve|]. left. split; [exact G|].
        Unshelve.
        -- cbn [m_mem]. rewrite E0 in PN. replace (t - 4 * 0) with t in PN by lia. exact PN.
        -- unfold keeps. cbn. repeat split.
      * destruct (boundary (c - n) eax' (c - n) edx' esp fl' s0 s1 s2 mm' call)
          as (ebx' & fl2 & G2); try assumption; [clear -Hn Hc Htl; lia|].
        rewrite (w32_small (c - n)) in G2 by (clear -Hn Hc Htl; lia).
        replace (w32 (again esp s1 - 4 * (c - n))) with (t - 4 * (c - n)) in G2.
        2:{ rewrite <- w32_sub_l, HT. symmetry. apply w32_small. clear -Hn Hc Ht Hl. lia. }
        eapply loop_result_step; [eapply steps_trans; [exact G|exact G2]|].
        apply IH; try exact PN; clear -Hn Hc Hk; lia.
    + destruct PT as (m' & G & K & M). exists m'. split; [exact K|]. right.
      split; [exact G|]. rewrite M. exists lo, (t - 4 * c).
      split; [lia|]. split; [lia|]. split; [lia|]. auto.
Qed.

Lemma pushes t hi esp s0 s1 s2 call mm0 :
  t mod 4 = 0 -> hi mod 4 = 0 -> 0 <= t -> t <= hi -> hi < 2 ^ 32 -> hi - t <= 2 ^ 31 ->
  0 <= esp < 2 ^ 32 -> 0 <= s1 < 2 ^ 32 ->
  (w32 (again esp s1) = t \/ t / 65536 = (hi - 1) / 65536) ->
  forall (k : nat) c eax ebx fl mm, c <= Z.of_nat k -> 0 <= c -> 4 * c <= hi - t ->
  painted (t + 4 * c) hi V mm0 mm ->
  loop_result t hi V esp s0 s1 s2 call mm0
    (Mach eax ebx (w32 (- c)) (t + 4 * c) esp fl s0 s1 s2 mm call).
Proof.
  intros Hl4 Ht4 Hl Hlt Ht Htl He Hs HT.
  induction k as [|k IH]; intros c eax ebx fl mm Hk Hc0 Hc P.
  - assert (c = 0) as -> by lia. change (w32 (- 0)) with 0.
    eexists. split; [shelve|]. left. split; [|shelve].
    unfold go. rewrite seg_lookup. cbn [app]. sym0. rewrite (w32_small 0) by lia.
    jcc false. jcc true. apply steps_refl.
    Unshelve.
    + unfold keeps. cbn. repeat split.
    + cbn [m_mem]. replace (t + 4 * 0) with t in P by lia. exact P.
  - destruct (Z.eq_dec c 0) as [->|N]; [apply IH; auto; lia|].
    assert (A4 : (t + 4 * c) mod 4 = 0) by (apply mod4_add, Hl4).
    pose proof (push_turn c (t + 4 * c) eax ebx esp fl s0 s1 s2 mm call) as PT.
    specialize (PT ltac:(lia) ltac:(lia) ltac:(lia) A4). cbv zeta in PT.
    rewrite (w32_is (- c) (2 ^ 32 - c) (-1)) by lia.
    set (b := t + 4 * c - 4) in *.
    destruct (phys_parts b ltac:(subst b; lia)) as (P1 & P2 & P3 & P4 & P5).
    set (n := Z.min c (b mod 65536 / 4 + 1)) in *.
    assert (Hn : 0 < n <= c /\ n <= b mod 65536 / 4 + 1) by (clear -P2 N Hc0; subst n; lia).
    destruct (wr (b / 65536)) eqn:EW.
    + destruct PT as (eax' & edx' & fl' & mm' & G & M).
      assert (B4 : b mod 4 = 0).
      { subst b. replace (t + 4 * c - 4) with (t + 4 * (c - 1)) by (clear; lia).
        apply mod4_add, Hl4. }
      assert (A1 : (t + 4 * (c - n)) mod 4 = 0) by (apply mod4_add, Hl4).
      assert (SAME : (t + 4 * (c - n)) / 65536 = b / 65536 /\
                     (t + 4 * (c - n)) mod 65536 / 4 = b mod 65536 / 4 + 1 - n).
      { clear -Hn Hl4 Hl B4. assert (t + 4 * (c - n) = b - 4 * (n - 1)) as -> by (subst b; lia).
        clearbody b n. Z.div_mod_to_equations. lia. }
      destruct SAME as (SM1 & SM2).
      assert (PH : phys (t + 4 * (c - n)) = phys b + 1 - n).
      { unfold phys, StackAsm_Spec.phys in *. rewrite SM1, SM2. clear. lia. }
      assert (PN : painted (t + 4 * (c - n)) hi V mm0 mm').
      { eapply (painted_step (t + 4 * c) hi V mm0 mm mm' (t + 4 * (c - n)) hi
                  (t + 4 * (c - n)) n); auto; try (clear -Hn; lia); try (clear -Hc; lia).
        - rewrite SM2. clear -P2. lia.
        - rewrite SM1. exact EW.
        - rewrite PH. exact M. }
      destruct (Z.eqb_spec (c - n) 0) as [E0|E0].
      * eexists. split; [shelve|]. left. split; [exact G|].
        Unshelve.
        -- cbn [m_mem]. rewrite E0 in PN. replace (t + 4 * 0) with t in PN by lia. exact PN.
        -- unfold keeps. cbn. repeat split.
      * destruct HT as [HT|HT].
        2:{ exfalso. assert (n = b mod 65536 / 4 + 1) as Hnn by (clear -E0 Hn; subst n; lia).
            clearbody n. clear -HT Hnn E0 Hn Hc Hl Hlt. subst b n.
            Z.div_mod_to_equations. lia. }
        destruct (boundary (- (c - n)) eax' (w32 (- (c - n))) edx' esp fl' s0 s1 s2 mm' call)
          as (ebx' & fl2 & G2); try assumption; [clear -Hn Hc Htl; lia|].
        replace (w32 (again esp s1 - 4 * - (c - n))) with (t + 4 * (c - n)) in G2.
        2:{ rewrite <- w32_sub_l, HT. symmetry.
            replace (t - 4 * - (c - n)) with (t + 4 * (c - n)) by (clear; lia).
            apply w32_small. clear -Hn Hc Ht Hl. lia. }
        eapply loop_result_step; [eapply steps_trans; [exact G|exact G2]|].
        apply IH; try exact PN; clear -Hn Hc Hk; lia.
    + destruct PT as (m' & G & K & M). exists m'. split; [exact K|]. right.
      split; [exact G|]. rewrite M. exists (t + 4 * c), hi.
      split; [lia|]. split; [lia|]. split; [lia|]. auto.
Qed.
End Fast.
