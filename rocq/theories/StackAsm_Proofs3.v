(** The generated fast path against the slow path it stands for. *)
From Verif Require Import Base MemRef_Model Stack_Model StackAsm_Model StackAsm_Spec
  StackAsm_Proofs StackAsm_Proofs2.
Open Scope Z_scope.

Lemma s32_in x : - 2 ^ 31 <= s32 x < 2 ^ 31.
Proof.
  unfold s32. pose proof (w32_in x) as H. destruct (Z.ltb_spec (w32 x) (2 ^ 31)); lia.
Qed.
Lemma w32_s32 x : w32 (s32 x) = w32 x.
Proof.
  unfold s32. destruct (w32 x <? 2 ^ 31).
  - apply w32_w32.
  - rewrite (w32_eq (w32 x - 2 ^ 32) (w32 x) (-1)) by lia. apply w32_w32.
Qed.
Lemma s32_of_w32 x : s32 (w32 x) = s32 x.
Proof. unfold s32. rewrite w32_w32. reflexivity. Qed.
Lemma w32_mod4 x : w32 x mod 4 = x mod 4.
Proof.
  unfold w32. change (2 ^ 32) with (4 * 2 ^ 30).
  rewrite Z.rem_mul_r by lia. rewrite Z.mul_comm, Z.mod_add by lia. apply Z.mod_mod. lia.
Qed.

Lemma land_le a b : 0 <= a -> 0 <= Z.land a b <= a.
Proof.
  intros H.
  assert (E : Z.land a b + Z.ldiff a b = a).
  { rewrite Z.add_nocarry_lxor.
    - apply Z.bits_inj'. intros n Hn. rewrite Z.lxor_spec, Z.land_spec, Z.ldiff_spec.
      destruct (Z.testbit a n), (Z.testbit b n); reflexivity.
    - apply Z.bits_inj'. intros n Hn. rewrite !Z.land_spec, Z.ldiff_spec, Z.bits_0.
      destruct (Z.testbit a n), (Z.testbit b n); reflexivity. }
  assert (0 <= Z.land a b) by (apply Z.land_nonneg; auto).
  assert (0 <= Z.ldiff a b) by (apply Z.ldiff_nonneg; auto).
  lia.
Qed.

Lemma land_near a b : 0 <= a -> a - Z.land a b < 65536 ->
  Z.land a b / 65536 = a / 65536.
Proof.
  intros Ha Hd.
  assert (E : Z.land a b / 65536 = Z.land (a / 65536) (b / 65536)).
  { change 65536 with (2 ^ 16). rewrite <- !Z.shiftr_div_pow2 by lia. apply Z.shiftr_land. }
  assert (F : Z.land a b mod 65536 = Z.land (a mod 65536) (b mod 65536)).
  { change 65536 with (2 ^ 16). rewrite <- !Z.land_ones by lia.
    apply Z.bits_inj'. intros n Hn. rewrite !Z.land_spec.
    destruct (Z.testbit a n), (Z.testbit b n), (Z.testbit (Z.ones 16) n); reflexivity. }
  pose proof (land_le (a / 65536) (b / 65536) ltac:(apply Z.div_pos; lia)) as H1.
  pose proof (Z.mod_pos_bound a 65536 ltac:(lia)) as H0.
  pose proof (land_le (a mod 65536) (b mod 65536) ltac:(lia)) as H2.
  rewrite <- E in H1. rewrite <- F in H2.
  pose proof (Z.div_mod a 65536 ltac:(lia)). pose proof (Z.div_mod (Z.land a b) 65536 ltac:(lia)).
  clear -H H1 H2 H3 Hd H0. nia.
Qed.

(** Facts about the kinds of adjustment. *)
Lemma abs_start ty sp : is_abs_and ty = true -> is_ret ty = false /\ start_sp ty sp = sp.
Proof. destruct ty; intros H; try discriminate H; auto. Qed.
Lemma ret_start ty sp : is_ret ty = true -> start_sp ty sp = sp + 4.
Proof. destruct ty; intros H; try discriminate H; auto. Qed.
Lemma other_start ty sp : is_ret ty = false -> start_sp ty sp = sp.
Proof. destruct ty; intros H; try discriminate H; auto. Qed.
Lemma abs_abs ty sp : is_abs ty = true -> is_abs_and ty = true /\ start_sp ty sp = sp.
Proof. destruct ty; intros H; try discriminate H; auto. Qed.
Lemma is_and ty : is_abs_and ty = true -> is_abs ty = false -> ty = AND_MASK.
Proof. destruct ty; intros H G; try discriminate H; try discriminate G; auto. Qed.

Section Whole.
Variables (h : hw) (base : Z -> Z) (wr : Z -> bool).
Hypothesis TB : tables h base wr.
Variables (map4 shared : bool) (act : action) (ty : etype) (thr : Z).
Let code := fastpath_code map4 shared act ty thr.
Let go := steps true h code.
Let slow := slow_code map4 shared act ty thr.
Let U := old_dword map4.
Let V := new_dword map4 act.
Hypothesis ty_ok : ty <> INVALID.
Hypothesis act_ok : act <> ACT_ZERO.
Notation painted := (painted base wr).

Ltac segment := unfold code; destruct ty, shared; reflexivity.
Definition tail : list instr :=
  Test (R ECX) (I 3) :: Jcc JNE slowpath :: Sar ECX 2 ::
  Label loop_shadow_lookup :: from loop_shadow_lookup code.
Lemma seg_start : code =
  Mov (Slot S1) (R ECX) :: Mov (Slot S0) (R EDX) :: Mov (Slot S2) (R EAX) ::
  Mov (R EDX) (R ESP) ::
  (if is_ret ty then [ Add (R EDX) (I 4) ] else []) ++
  (if is_abs_and ty then
     [ Sub (R ECX) (R EDX); Cmp (R ECX) (I thr); Jcc JG slowpath;
       Cmp (R ECX) (I (- thr)); Jcc JL slowpath ] else []) ++ tail.
Proof. unfold tail. segment. Qed.
Lemma start_at p2 m m2 q : q = code -> go q m p2 m2 -> go code m p2 m2.
Proof. intros E H. rewrite <- E. exact H. Qed.
Lemma seg_done : exists q, from loop_done code = Jmp restore :: q.
Proof. unfold code. destruct ty, shared; eexists; reflexivity. Qed.
Lemma seg_restore : from restore code = [ Mov (R EAX) (Slot S2); JmpInd S0 ].
Proof. segment. Qed.

Variables (sp val ret eax ebx s0 s1 s2 : Z) (mm : Z -> Z).
Let arg := fast_val ty sp val.
Let d := movement ty sp val.
Let a0 := start_sp ty sp.
Hypothesis Hsp : 0 <= sp < 2 ^ 32.
Hypothesis Hret : 0 <= ret < 2 ^ 32.
Hypothesis Heax : 0 <= eax < 2 ^ 32.
Hypothesis Hval : 0 <= val < 2 ^ 32.
Hypothesis Ha0 : 0 <= a0 < 2 ^ 32.
Hypothesis Hnew : 0 <= a0 + d < 2 ^ 32.
Hypothesis Hthr : 0 <= thr < 2 ^ 31.
Let ent := entry sp arg ret eax ebx s0 s1 s2 mm.

Lemma arg_in : 0 <= arg < 2 ^ 32.
Proof.
  unfold arg, fast_val. destruct ty; try exact Hval; [apply w32_in|].
  pose proof (land_le sp val ltac:(lia)). lia.
Qed.
Lemma d_in : - 2 ^ 31 <= d < 2 ^ 31.
Proof. unfold d, movement. destruct ty; apply s32_in. Qed.

Lemma arg_d : if is_abs_and ty then w32 (arg - sp) = w32 d else arg = w32 d.
Proof.
  pose proof arg_in as Q. unfold arg, d, fast_val, movement in *.
  destruct ty; cbn [is_abs_and]; rewrite w32_s32; try reflexivity;
    symmetry; apply w32_small; lia.
Qed.

(** Up to the loop. *)
Definition near_move : bool := negb (is_abs_and ty) || ((- thr <=? d) && (d <=? thr)).
Lemma prologue_ok :
  (exists fl, near_move = true /\ d mod 4 = 0 /\
     go code ent (from loop_shadow_lookup code)
       (Mach eax ebx (w32 (d / 4)) a0 sp fl ret arg eax mm None)) \/
  (exists m', go code ent slow m' /\ keeps sp ret arg eax None m' /\ m_mem m' = mm).
Proof.
  pose proof arg_in as QA. pose proof d_in as QD. pose proof arg_d as AD.
  assert (TAIL : forall fl,
    let st := Mach eax ebx (w32 d) a0 sp fl ret arg eax mm None in
    (d mod 4 = 0 /\ exists fl', go tail st (from loop_shadow_lookup code)
       (Mach eax ebx (w32 (d / 4)) a0 sp fl' ret arg eax mm None)) \/
    (exists m', go tail st slow m' /\ keeps sp ret arg eax None m' /\ m_mem m' = mm)).
  { intros fl. cbv zeta. unfold tail. destruct (Z.eq_dec (d mod 4) 0) as [E|E].
    - left. split; [exact E|]. eexists. unfold go.
      sym0. change (w32 3) with 3. rewrite land3, w32_mod4, E. jcc false.
      sym0. sym0. rewrite s32_w32 by exact QD. rewrite shr_div by lia.
      change (2 ^ 2) with 4. apply steps_refl.
    - right. eexists. split; [|shelve]. unfold go.
      sym0. change (w32 3) with 3. rewrite land3, w32_mod4. jcc true.
      change (from slowpath code) with (from slowpath (fastpath_code map4 shared act ty thr)); rewrite seg_slowpath by assumption. sym0. apply steps_refl.
      Unshelve. split; [|reflexivity]. unfold keeps. repeat split. }
  assert (BAIL : forall fl, exists m', 
    go (from slowpath code) (Mach eax ebx (w32 d) a0 sp fl ret arg eax mm None) slow m' /\
    keeps sp ret arg eax None m' /\ m_mem m' = mm).
  { intros fl. eexists. split.
    - unfold go. change (from slowpath code) with (from slowpath (fastpath_code map4 shared act ty thr)); rewrite seg_slowpath by assumption. sym0. apply steps_refl.
    - split; [|reflexivity]. unfold keeps. repeat split. }
  assert (W0 : forall x, 0 <= x < 2 ^ 32 -> w32 x = x) by apply w32_small.
  destruct (is_abs_and ty) eqn:AA.
  - destruct (abs_start ty sp AA) as (E & EA). fold a0 in EA.
    assert (HEAD : forall p m', go (Cmp (R ECX) (I thr) :: Jcc JG slowpath ::
           Cmp (R ECX) (I (- thr)) :: Jcc JL slowpath :: tail)
           (Mach eax ebx (w32 d) a0 sp FNone ret arg eax mm None) p m' -> go code ent p m').
    { intros p m' G. apply (start_at _ _ _ _ (eq_sym seg_start)). unfold go. rewrite E, AA. cbn [app].
      unfold ent, entry. do 5 sym0.
      rewrite (W0 arg), (W0 ret), (W0 eax), (W0 sp), AD by assumption.
      rewrite EA in G. exact G. }
    destruct (Z_le_dec d thr) as [L|L]; [destruct (Z_le_dec (- thr) d) as [L2|L2]|].
    + destruct (TAIL (FCmp (w32 d) (w32 (- thr)))) as [(D4 & fl' & G)|(m' & G & K)].
      * left. exists fl'. split; [unfold near_move; rewrite AA; cbn [negb orb]; lia|].
        split; [exact D4|]. apply HEAD. unfold go. sym0.
        eapply (steps_jcc _ _ _ _ _ _ _ false).
        { cbn [holds m_fl]. rewrite !s32_w32 by (clear -QD Hthr; lia). f_equal. clear -L; lia. }
        cbv beta iota. sym0.
        eapply (steps_jcc _ _ _ _ _ _ _ false).
        { cbn [holds m_fl]. rewrite !s32_w32 by (clear -QD Hthr; lia). f_equal. clear -L2; lia. }
        exact G.
      * right. exists m'. split; [|exact K]. apply HEAD. unfold go. sym0.
        eapply (steps_jcc _ _ _ _ _ _ _ false).
        { cbn [holds m_fl]. rewrite !s32_w32 by (clear -QD Hthr; lia). f_equal. clear -L; lia. }
        cbv beta iota. sym0.
        eapply (steps_jcc _ _ _ _ _ _ _ false).
        { cbn [holds m_fl]. rewrite !s32_w32 by (clear -QD Hthr; lia). f_equal. clear -L2; lia. }
        exact G.
    + destruct (BAIL (FCmp (w32 d) (w32 (- thr)))) as (m' & G & K).
      right. exists m'. split; [|exact K]. apply HEAD. unfold go. sym0.
      eapply (steps_jcc _ _ _ _ _ _ _ false).
      { cbn [holds m_fl]. rewrite !s32_w32 by (clear -QD Hthr; lia). f_equal. clear -L; lia. }
      cbv beta iota. sym0.
      eapply (steps_jcc _ _ _ _ _ _ _ true).
      { cbn [holds m_fl]. rewrite !s32_w32 by (clear -QD Hthr; lia). f_equal. clear -L2; lia. }
      exact G.
    + destruct (BAIL (FCmp (w32 d) (w32 thr))) as (m' & G & K).
      right. exists m'. split; [|exact K]. apply HEAD. unfold go. sym0.
      eapply (steps_jcc _ _ _ _ _ _ _ true).
      { cbn [holds m_fl]. rewrite !s32_w32 by (clear -QD Hthr; lia). f_equal. clear -L; lia. }
      exact G.
  - assert (HEAD : exists fl, forall p m', go tail
           (Mach eax ebx (w32 d) a0 sp fl ret arg eax mm None) p m' -> go code ent p m').
    { destruct (is_ret ty) eqn:E; eexists; intros p m' G;
        apply (start_at _ _ _ _ (eq_sym seg_start)); unfold go; rewrite E, AA; cbn [app]; unfold ent, entry.
      - do 5 sym0. rewrite (W0 arg), (W0 ret), (W0 eax), (W0 sp), (W0 4) by (assumption || lia).
        assert (EA : a0 = sp + 4) by (apply ret_start, E).
        rewrite <- EA, (W0 a0) by assumption. rewrite <- AD in G. exact G.
      - do 4 sym0. rewrite (W0 arg), (W0 ret), (W0 eax), (W0 sp) by assumption.
        assert (EA : a0 = sp) by (apply other_start, E).
        rewrite <- AD, EA in G. exact G. }
    destruct HEAD as (fl & HEAD).
    destruct (TAIL fl) as [(D4 & fl' & G)|(m' & G & K)].
    + left. exists fl'. split; [unfold near_move; rewrite AA; reflexivity|].
      split; [exact D4|]. apply HEAD, G.
    + right. exists m'. split; [|exact K]. apply HEAD, G.
Qed.

(** The whole of it. *)
Definition all_done (m' : mach) : Prop :=
  near_move = true /\
  (d = 0 /\ m_mem m' = mm \/
   a0 mod 4 = 0 /\ (a0 + d) mod 4 = 0 /\
   (0 < d /\ painted a0 (a0 + d) U mm (m_mem m') \/
    d < 0 /\ painted (a0 + d) a0 V mm (m_mem m'))).
Definition part_done (m' : mach) : Prop :=
  m_mem m' = mm \/
  near_move = true /\ exists l u, l mod 4 = 0 /\ u mod 4 = 0 /\
   (0 < d /\ a0 <= l /\ l <= u /\ u <= a0 + d /\ painted l u U mm (m_mem m') \/
    d < 0 /\ a0 + d <= l /\ l <= u /\ u <= a0 /\ painted l u V mm (m_mem m')).

Lemma again_ok : is_abs_and ty = true /\ is_abs ty = false \/ w32 (again ty sp arg) = a0 + d.
Proof.
  unfold again. pose proof arg_in as QA. pose proof arg_d as AD.
  destruct (is_abs ty) eqn:A.
  - right. destruct (abs_abs ty sp A) as (A2 & ES). fold a0 in ES. rewrite A2 in AD.
    rewrite ES in *. replace arg with (sp + (arg - sp)) by lia.
    rewrite <- w32_add_r, AD, w32_add_r. apply w32_small. exact Hnew.
  - destruct (is_abs_and ty); [left; auto|]. right. fold a0.
    rewrite AD, w32_add_r. apply w32_small, Hnew.
Qed.

Hypothesis Hand : ty = AND_MASK -> thr < 65536.

Lemma whole :
  (exists m', go code ent (from loop_done code) m' /\ keeps sp ret arg eax None m' /\
     all_done m') \/
  (exists m', go code ent slow m' /\ keeps sp ret arg eax None m' /\ part_done m').
Proof.
  pose proof arg_in as QA. pose proof d_in as QD.
  destruct prologue_ok as [(fl & NM & D4 & G)|(m' & G & K & M)].
  2:{ right. exists m'. split; [exact G|]. split; [exact K|]. left. exact M. }
  assert (ED : d = 4 * (d / 4)) by (clear -D4; Z.div_mod_to_equations; lia).
  destruct (Z.eq_dec d 0) as [E0|N0].
  { left. eexists. split; [|split].
    - eapply steps_trans; [exact G|]. rewrite E0. change (w32 (0 / 4)) with 0.
      unfold code. rewrite seg_lookup by assumption. cbn [app]. sym0.
      rewrite (w32_small 0) by lia. jcc false. jcc true. apply steps_refl.
    - unfold keeps. repeat split.
    - split; [exact NM|]. left. auto. }
  destruct (Z.eq_dec (a0 mod 4) 0) as [A4|A4].
  2:{ right. destruct (Z_lt_dec 0 d) as [P|P].
      - destruct (lookup_bail h base map4 shared act ty thr ty_ok a0 eax ebx (w32 (d / 4)) sp
                    (FCmp (w32 (d / 4)) 0) ret arg eax mm None A4) as (m' & G2 & K & M).
        exists m'. split; [|split; [exact K|left; exact M]].
        eapply steps_trans; [exact G|].
        unfold code. rewrite seg_lookup by assumption. cbn [app]. sym0.
        rewrite (w32_small 0) by lia.
        eapply (steps_jcc _ _ _ _ _ _ _ true).
        { cbn [holds m_fl]. rewrite s32_w32, (s32_pos 0) by (clear -QD ED; lia).
          f_equal. clear -P ED; lia. }
        exact G2.
      - destruct (lookup_bail h base map4 shared act ty thr ty_ok (w32 (a0 - 4)) eax ebx
                    (w32 (d / 4)) sp FNone ret arg eax mm None) as (m' & G2 & K & M).
        { rewrite w32_mod4. intros X. apply A4.
          replace a0 with (a0 - 4 + 1 * 4) by lia. rewrite Z.mod_add by lia. exact X. }
        exists m'. split; [|split; [exact K|left; exact M]].
        eapply steps_trans; [exact G|].
        unfold code. rewrite seg_lookup by assumption. cbn [app]. sym0.
        rewrite (w32_small 0) by lia.
        eapply (steps_jcc _ _ _ _ _ _ _ false).
        { cbn [holds m_fl]. rewrite s32_w32, (s32_pos 0) by (clear -QD ED; lia).
          f_equal. clear -P ED; lia. }
        cbv beta iota.
        eapply (steps_jcc _ _ _ _ _ _ _ false).
        { cbn [holds m_fl]. f_equal. apply Z.eqb_neq. intros X.
          assert (Y : s32 (w32 (d / 4)) = d / 4) by (apply s32_w32; clear -QD ED; lia).
          rewrite X in Y. change (s32 0) with 0 in Y. clear -Y ED N0. lia. }
        cbv beta iota. sym0. sym0. rewrite (w32_small 4) by lia. exact G2. }
  assert (N4 : (a0 + d) mod 4 = 0).
  { clear -A4 D4. rewrite Z.add_mod, A4, D4 by lia. reflexivity. }
  pose proof again_ok as AG.
  destruct (Z_lt_dec 0 d) as [P|P].
  - assert (HA : w32 (again ty sp arg) = a0 + d).
    { destruct AG as [(AA & AB)|AG]; [|exact AG]. exfalso.
      pose proof (is_and ty AA AB) as T.
      unfold d, a0, movement, start_sp in *. rewrite T in *.
      pose proof (land_le sp val ltac:(lia)) as LL.
      clear -LL P Hnew Hsp. unfold s32 in *.
      destruct (Z.eq_dec (Z.land sp val) sp) as [E|E].
      { rewrite E, Z.sub_diag in P. change (w32 0) with 0 in P. cbn in P. lia. }
      rewrite (w32_is (Z.land sp val - sp) (Z.land sp val - sp + 2 ^ 32) (-1)) in * by lia.
      destruct (_ <? _); lia. }
    destruct (pops h base wr TB map4 shared act ty thr ty_ok a0 (a0 + d) sp ret arg eax
                None mm A4 N4 ltac:(lia) ltac:(lia) ltac:(lia) ltac:(lia) Hsp QA HA
                (Z.to_nat (d / 4)) (d / 4) eax ebx fl mm) as (m' & K & [(G2 & PA)|(G2 & l & u & H1 & H2 & H3 & H4 & H5 & PA)]);
      try (clear -ED P; lia).
    { replace (a0 + d - 4 * (d / 4)) with a0 by (clear -ED; lia). apply (painted_none h base wr map4 shared act ty thr). }
    + left. exists m'. split; [|split; [exact K|]].
      * eapply steps_trans; [exact G|]. rewrite (w32_small (d / 4)) by (clear -ED P QD; lia).
        replace (a0 + d - 4 * (d / 4)) with a0 in G2 by (clear -ED; lia). exact G2.
      * split; [exact NM|]. right. auto.
    + right. exists m'. split; [|split; [exact K|]].
      * eapply steps_trans; [exact G|]. rewrite (w32_small (d / 4)) by (clear -ED P QD; lia).
        replace (a0 + d - 4 * (d / 4)) with a0 in G2 by (clear -ED; lia). exact G2.
      * right. split; [exact NM|]. exists l, u. auto 10.
  - assert (HA : w32 (again ty sp arg) = a0 + d \/ (a0 + d) / 65536 = (a0 - 1) / 65536).
    { destruct AG as [(AA & AB)|AG]; [|left; exact AG]. right.
      pose proof (is_and ty AA AB) as T.
      unfold near_move in NM. rewrite AA in NM. cbn [negb orb] in NM.
      specialize (Hand T).
      assert (EL : a0 + d = Z.land sp val /\ a0 = sp).
      { unfold d, a0, movement, start_sp in *. rewrite T in *. split; [|reflexivity].
        pose proof (land_le sp val ltac:(lia)) as LL.
        clear -LL P Hnew Hsp N0. unfold s32 in *.
        destruct (Z.eq_dec (Z.land sp val) sp) as [E|E].
        { exfalso. apply N0. rewrite E, Z.sub_diag. reflexivity. }
        rewrite (w32_is (Z.land sp val - sp) (Z.land sp val - sp + 2 ^ 32) (-1)) in * by lia.
        destruct (_ <? _); lia. }
      destruct EL as (EL & ES). 
      assert (ND : sp - Z.land sp val < 65536) by (clear -EL ES Hand NM; lia).
      pose proof (land_near sp val ltac:(lia) ND) as Q. rewrite EL, ES.
      assert (Z.land sp val <= sp - 1) by (clear -EL ES P N0; lia).
      clear -Q H Hsp. Z.div_mod_to_equations. lia. }
    set (c := - d / 4).
    assert (EC : d = - (4 * c)) by (subst c; clear -ED D4; Z.div_mod_to_equations; lia).
    destruct (pushes h base wr TB map4 shared act ty thr ty_ok act_ok (a0 + d) a0 sp ret arg eax
                None mm N4 A4 ltac:(lia) ltac:(lia) ltac:(lia) ltac:(lia) Hsp QA HA
                (Z.to_nat c) c eax ebx fl mm) as (m' & K & [(G2 & PA)|(G2 & l & u & H1 & H2 & H3 & H4 & H5 & PA)]);
      try (clear -EC P; lia).
    { replace (a0 + d + 4 * c) with a0 by (clear -EC; lia). apply (painted_none h base wr map4 shared act ty thr). }
    + left. exists m'. split; [|split; [exact K|]].
      * eapply steps_trans; [exact G|].
        replace (d / 4) with (- c) by (clear -EC ED; lia).
        replace (a0 + d + 4 * c) with a0 in G2 by (clear -EC; lia). exact G2.
      * split; [exact NM|]. right. split; [exact A4|]. split; [exact N4|].
        right. split; [clear -P N0; lia|exact PA].
    + right. exists m'. split; [|split; [exact K|]].
      * eapply steps_trans; [exact G|].
        replace (d / 4) with (- c) by (clear -EC ED; lia).
        replace (a0 + d + 4 * c) with a0 in G2 by (clear -EC; lia). exact G2.
      * right. split; [exact NM|]. exists l, u. split; [exact H4|]. split; [exact H5|].
        right. split; [clear -P N0; lia|]. auto.
Qed.

(** Endings. *)
Lemma ends_done m m' : go code m (from loop_done code) m' -> keeps sp ret arg eax None m' ->
  exists n m2, (forall k, run (n + k) true h code code m = Ok (Returned ret, m2)) /\
    m_esp m2 = sp /\ m_eax m2 = eax /\ m_mem m2 = m_mem m'.
Proof.
  intros G (K1 & K2 & K3 & K4 & K5). destruct seg_done as (q & Q).
  destruct m' as [e b c x s f z0 z1 z2 mem call]; cbn in K1, K2, K3, K4, K5; subst s z0 z1 z2 call.
  destruct (steps_end true h code (JmpInd S0) [] m code
              (Mach eax b c x sp f ret arg eax mem None) (Returned ret)
              (Mach eax b c x sp f ret arg eax mem None)) as (n & N).
  - eapply steps_trans; [exact G|]. rewrite Q. sym0. rewrite seg_restore. sym0.
    rewrite (w32_small eax) by exact Heax. apply steps_refl.
  - reflexivity.
  - eexists n, _. split; [exact N|]. auto.
Qed.

(** The value handed on to the slow path means what the original one means. *)
Definition back : Z := if is_neg ty then w32 (- arg) else arg.
Lemma ends_slow m m' : shared = true -> go code m slow m' -> keeps sp ret arg eax None m' ->
  exists n m2, (forall k, run (n + k) true h code code m = Ok (ToSlow back ret, m2)) /\
    m_esp m2 = sp /\ m_eax m2 = eax /\ m_mem m2 = m_mem m'.
Proof.
  intros SH G (K1 & K2 & K3 & K4 & K5).
  assert (SL : slow = Mov (R ECX) (Slot S1) :: Mov (R EDX) (Slot S0) ::
     (if is_neg ty then [ Neg ECX ] else []) ++ Mov (R EAX) (Slot S2) :: JmpSlow ::
     Label restore :: from restore code).
  { unfold slow, slow_code, code. rewrite SH. clear. destruct ty; reflexivity. }
  destruct m' as [e b c x s f z0 z1 z2 mem call]; cbn in K1, K2, K3, K4, K5; subst s z0 z1 z2 call.
  pose proof arg_in as QA.
  destruct (is_neg ty) eqn:NG; unfold back; rewrite NG.
  - destruct (steps_end true h code JmpSlow (Label restore :: from restore code) m code
              (Mach eax b (w32 (- arg)) ret sp FNone ret arg eax mem None)
              (ToSlow (w32 (- arg)) ret)
              (Mach eax b (w32 (- arg)) ret sp FNone ret arg eax mem None)) as (n & N).
    + eapply steps_trans; [exact G|]. rewrite SL. cbn [app]. do 4 sym0.
      rewrite (w32_small eax), (w32_small ret), (w32_small arg) by assumption.
      apply steps_refl.
    + reflexivity.
    + eexists n, _. split; [exact N|]. auto.
  - destruct (steps_end true h code JmpSlow (Label restore :: from restore code) m code
              (Mach eax b arg ret sp f ret arg eax mem None)
              (ToSlow arg ret)
              (Mach eax b arg ret sp f ret arg eax mem None)) as (n & N).
    + eapply steps_trans; [exact G|]. rewrite SL. cbn [app]. do 3 sym0.
      rewrite (w32_small eax), (w32_small ret), (w32_small arg) by assumption.
      apply steps_refl.
    + reflexivity.
    + eexists n, _. split; [exact N|]. auto.
Qed.

Lemma back_same k a t w : handle_esp_adjust x86_32 k ty back a sp t w =
                          handle_esp_adjust x86_32 k ty val a sp t w.
Proof.
  unfold back, arg, fast_val. clear -Hval. destruct ty; cbn [is_neg]; try reflexivity.
  - replace (w32 (- w32 (- val))) with val; [reflexivity|].
    rewrite (w32_eq (- w32 (- val)) (- (- val)) ((- val) / 2 ^ 32)).
    + rewrite Z.opp_involutive. symmetry. apply w32_small, Hval.
    + unfold w32. pose proof (Z.div_mod (- val) (2 ^ 32) ltac:(lia)). lia.
  - unfold handle_esp_adjust. rewrite Z.land_assoc, Z.land_diag. reflexivity.
Qed.
End Whole.

(** Painted shadow bytes seen from the application. *)
Lemma phys_inj h base wr a b : tables h base wr -> wr (a / 65536) = true ->
  a mod 4 = 0 -> b mod 4 = 0 -> phys base a = phys base b -> a = b.
Proof.
  intros TB W A B E. unfold phys in E.
  pose proof (Z.mod_pos_bound a 65536 ltac:(lia)) as MA.
  pose proof (Z.mod_pos_bound b 65536 ltac:(lia)) as MB.
  destruct (Z.eq_dec (a / 65536) (b / 65536)) as [D|D].
  - rewrite D in E. clear -D E A B. Z.div_mod_to_equations. lia.
  - exfalso. unfold BLOCK in *. destruct (tb_alone _ _ _ TB _ _ D W) as [L|L];
    unfold BLOCK in L;
    assert (0 <= a mod 65536 / 4 < 16384) by (clear -MA; Z.div_mod_to_equations; lia);
    assert (0 <= b mod 65536 / 4 < 16384) by (clear -MB; Z.div_mod_to_equations; lia);
    lia.
Qed.

Lemma phys_down base x : phys base (4 * (x / 4)) = phys base x.
Proof.
  unfold phys.
  assert (E : 4 * (x / 4) / 65536 = x / 65536 /\ 4 * (x / 4) mod 65536 / 4 = x mod 65536 / 4)
    by (Z.div_mod_to_equations; lia).
  destruct E as (-> & ->). reflexivity.
Qed.

Lemma view_dword (map4 : bool) (v i : Z) : 0 <= v < 4 -> 0 <= i < 4 ->
  (if map4 then dword_of map4 v else dword_of map4 v / 4 ^ i mod 4) = v.
Proof.
  intros Hv Hi. destruct map4; [reflexivity|]. unfold dword_of.
  assert (v = 0 \/ v = 1 \/ v = 2 \/ v = 3) as [-> | [-> | [-> | ->]]] by lia;
  assert (i = 0 \/ i = 1 \/ i = 2 \/ i = 3) as [-> | [-> | [-> | ->]]] by lia; reflexivity.
Qed.

Lemma view_painted h base wr map4 lo hi v mm0 mm : tables h base wr ->
  lo mod 4 = 0 -> hi mod 4 = 0 -> 0 <= v < 4 ->
  painted base wr lo hi (dword_of map4 v) mm0 mm ->
  forall x, view map4 base mm x = set_range (view map4 base mm0) lo hi v x.
Proof.
  intros TB L4 H4 HV (P1 & P2) x. unfold set_range.
  assert (X4 : 4 * (x / 4) mod 4 = 0) by (rewrite Z.mul_comm; apply Z.mod_mul; lia).
  destruct (Z.leb_spec lo x) as [A|A], (Z.ltb_spec x hi) as [B|B]; cbn [andb].
  1:{ assert (R : lo <= 4 * (x / 4) < hi) by (clear -A B L4 H4; Z.div_mod_to_equations; lia).
      destruct (P1 _ R X4) as (_ & E). rewrite phys_down in E.
      unfold view. rewrite E. apply view_dword; [exact HV|].
      apply Z.mod_pos_bound. lia. }
  all: unfold view; rewrite P2; [reflexivity|]; intros a Ha A4 E;
    assert (a = 4 * (x / 4)) as ->
      by (eapply (phys_inj h base wr); try eassumption;
          [apply (proj1 (P1 a Ha A4))|rewrite phys_down; symmetry; exact E]);
    clear -Ha A B L4 H4; Z.div_mod_to_equations; lia.
Qed.

(** The slow path on 32-bit, in closed form. *)
Lemma slow_form k ty val act sp t sh app : ty <> INVALID -> act <> ACT_ZERO ->
  0 <= sp < 2 ^ 32 -> 0 <= val < 2 ^ 32 ->
  0 <= start_sp ty sp < 2 ^ 32 -> 0 <= start_sp ty sp + movement ty sp val < 2 ^ 32 ->
  near_move ty (t_thr t) sp val = true ->
  let d := movement ty sp val in let a0 := start_sp ty sp in
  exists w1, handle_esp_adjust x86_32 k ty val act sp t {| w_sh := sh; w_app := app |} = (w1, t) /\
  (d = 0 -> forall x, w_sh w1 x = sh x) /\
  (0 < d -> forall x, w_sh w1 x = set_range sh a0 (a0 + d) UNADDRESSABLE x) /\
  (d < 0 -> forall x, w_sh w1 x = set_range sh (a0 + d) a0 (fresh act) x).
Proof.
  intros Hty Hact Hsp Hval Ha0 Hnew Hnear d a0.
  assert (AD : forall ty0 s, 0 <= s < 2 ^ 32 -> 0 <= s + d < 2 ^ 32 ->
    let w1 := apply_delta x86_32 ty0 act s d {| w_sh := sh; w_app := app |} in
    (d = 0 -> forall x, w_sh w1 x = sh x) /\
    (0 < d -> forall x, w_sh w1 x = set_range sh s (s + d) UNADDRESSABLE x) /\
    (d < 0 -> forall x, w_sh w1 x = set_range sh (s + d) s (fresh act) x)).
  { intros ty0 s Hs Hs2. unfold apply_delta. cbv zeta.
    assert (W : wrap x86_32 (s - a_rz x86_32) = s).
    { unfold wrap. cbn [x86_32 a_bits a_rz]. rewrite Z.sub_0_r. apply Z.mod_small, Hs. }
    rewrite W.
    assert (W2 : wrap x86_32 (s + d) = s + d) by (apply Z.mod_small, Hs2).
    rewrite W2. change (0 <? a_rz x86_32) with false. cbv iota.
    destruct (Z.eqb_spec d 0) as [E|E].
    - split; [reflexivity|]. lia.
    - destruct act; try congruence; cbn [w_sh]; destruct (Z.ltb_spec 0 d);
        (split; [lia|]); (split; [|]); try lia; intros _ x; reflexivity. }
  assert (SG : forall x, sgn x86_32 x = s32 x) by reflexivity.
  unfold near_move in Hnear. fold d in Hnear.
  unfold handle_esp_adjust.
  destruct (AD ty a0 Ha0 Hnew) as (A1 & A2 & A3).
  assert (FAR : is_abs_and ty = true -> (t_thr t <? d) || (d <? - t_thr t) = false).
  { intros E. rewrite E in Hnear. cbn [negb orb] in Hnear. lia. }
  assert (WA : wrap x86_32 (start_sp ty sp) = start_sp ty sp) by (apply Z.mod_small, Ha0).
  destruct ty eqn:ET; try congruence; rewrite ?SG; cbn [is_abs_and] in *;
    try (change (s32 (val - sp)) with d; rewrite (FAR eq_refl));
    try (change (s32 (Z.land sp val - sp)) with d; rewrite (FAR eq_refl)).
  all: cbn [start_sp] in WA; rewrite ?WA; eexists; (split; [reflexivity|]); auto.
Qed.

Lemma fast_is_slow h base wr map4 act ty thr sp val ret eax ebx s0 s1 s2 mm app k t :
  act <> ACT_ZERO -> tables h base wr -> plain ty sp val thr t -> word32 ret -> word32 eax ->
  let code := fastpath_code map4 true act ty thr in
  let slow a v m := handle_esp_adjust x86_32 k ty v a sp t
                    {| w_sh := view map4 base m; w_app := app |} in
  exists n e m',
    (forall j, run (n + j) true h code code
       (entry sp (fast_val ty sp val) ret eax ebx s0 s1 s2 mm) = Ok (e, m')) /\
    m_esp m' = sp /\ m_eax m' = eax /\
    match e with
    | Returned r => r = ret /\ snd (slow act val mm) = t /\
        agree (view map4 base (m_mem m')) (w_sh (fst (slow act val mm)))
    | ToSlow v r => r = ret /\
        snd (slow ACT_SHADOW v (m_mem m')) = snd (slow act val mm) /\
        (act = ACT_SHADOW ->
         agree (w_sh (fst (slow ACT_SHADOW v (m_mem m')))) (w_sh (fst (slow act val mm))))
    end.
Proof.
  intros HA TB [T1 T2 T3 T4 T5 T6 T7 T8] HR HE code slow.
  assert (FV : 0 <= UNADDRESSABLE < 4 /\ 0 <= fresh act < 4)
    by (destruct act; vm_compute; repeat split; discriminate).
  destruct FV as (FV1 & FV2).
  destruct (whole h base wr TB map4 true act ty thr T1 HA sp val ret eax ebx s0 s1 s2
              mm T3 HR HE T2 T4 T5 T6 T7) as [(m' & G & K & NM & D)|(m' & G & K & D)].
  - destruct (ends_done h map4 true act ty thr T1 sp val ret eax HE _ m' G K)
      as (n & m2 & N & E1 & E2 & E3).
    exists n, (Returned ret), m2. split; [exact N|]. split; [exact E1|]. split; [exact E2|].
    split; [reflexivity|].
    destruct (slow_form k ty val act sp t (view map4 base mm) app T1 HA T3 T2 T4 T5)
      as (w1 & W & A1 & A2 & A3); [rewrite T8; exact NM|].
    unfold slow. rewrite W. cbn [fst snd]. split; [reflexivity|].
    intros x Hx. rewrite E3. destruct D as [(D & M)|(A4 & N4 & [(D & P)|(D & P)])].
    + rewrite M, A1 by exact D. reflexivity.
    + rewrite A2 by exact D. apply (view_painted h base wr); assumption.
    + rewrite A3 by exact D. apply (view_painted h base wr); assumption.
  - destruct (ends_slow h map4 true act ty thr T1 sp val ret eax ebx s0 s1 s2 mm
                T3 HR HE T2 T4 T5 _ m' eq_refl G K) as (n & m2 & N & E1 & E2 & E3).
    exists n, (ToSlow (back ty sp val) ret), m2.
    split; [exact N|]. split; [exact E1|]. split; [exact E2|]. split; [reflexivity|].
    unfold slow. rewrite !back_same by assumption. rewrite E3.
    assert (SND : forall (a b : action) (w1 w2 : world), snd (handle_esp_adjust x86_32 k ty val a sp t w1) =
                                    snd (handle_esp_adjust x86_32 k ty val b sp t w2)).
    { intros a b w1 w2. unfold handle_esp_adjust. cbv zeta.
      destruct ty; cbn [snd]; try reflexivity;
        match goal with |- context [if ?c then check_stack_swap ?x ?y ?z ?v else _] =>
          destruct (if c then check_stack_swap x y z v else (false, t)) as [[|] t1] end;
        reflexivity. }
    split; [apply SND|]. intros EA. subst act.
    destruct D as [D|(NM & l & u & L4 & U4 & D)].
    + rewrite D. intros x _. reflexivity.
    + rewrite <- T8 in NM.
      destruct (slow_form k ty val ACT_SHADOW sp t (view map4 base mm) app T1 HA T3 T2 T4 T5 NM)
        as (w1 & W & _ & A2 & A3).
      destruct (slow_form k ty val ACT_SHADOW sp t (view map4 base (m_mem m')) app
                  T1 HA T3 T2 T4 T5 NM) as (w2 & W2 & _ & B2 & B3).
      rewrite W, W2. cbn [fst snd]. intros x _.
      destruct D as [(D & H1 & H2 & H3 & P)|(D & H1 & H2 & H3 & P)].
      * rewrite A2, B2 by exact D. unfold set_range.
        destruct (_ && _) eqn:EB; [reflexivity|].
        rewrite (view_painted h base wr map4 l u UNADDRESSABLE mm) by assumption.
        unfold set_range. replace ((l <=? x) && (x <? u)) with false; [reflexivity|].
        clear -EB H1 H2 H3. lia.
      * rewrite A3, B3 by exact D. unfold set_range.
        destruct (_ && _) eqn:EB; [reflexivity|].
        rewrite (view_painted h base wr map4 l u (fresh ACT_SHADOW) mm) by assumption.
        unfold set_range. replace ((l <=? x) && (x <? u)) with false; [reflexivity|].
        clear -EB H1 H2 H3. lia.
Qed.
