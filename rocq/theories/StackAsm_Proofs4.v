(** The loop that zeroes new stack. *)
From Verif Require Import Base MemRef_Model Stack_Model StackAsm_Model StackAsm_Spec
  StackAsm_Proofs StackAsm_Proofs2 StackAsm_Proofs3.
Open Scope Z_scope.

Section Zero.
Variables (h : hw) (ty : etype) (thr : Z).
Let code := zeroing_code ty thr.
Let go := steps false h code.
Hypothesis Hthr : 0 <= thr < 2 ^ 31.

Ltac segment := unfold code; destruct ty; reflexivity.
Lemma seg_repeat : from loop_repeat code =
  [ Sub (R EDX) (I 4); Cmp (R EDX) (R EBX); Jcc JB retaddr;
    Store32 EDX 0; Jmp loop_repeat; Label retaddr; JmpInd S0 ].
Proof. segment. Qed.
Lemma seg_retaddr : from retaddr code = [ JmpInd S0 ].
Proof. segment. Qed.

Lemma store_zero mm p a b c d e f s0 s1 s2 call : 0 <= p -> p + 4 <= 2 ^ 32 ->
  exists mm', fold_left (fun m i => set_mem m (w32 (p + i)) (w32 0 / 2 ^ (8 * i) mod 256))
      [0; 1; 2; 3] (Mach a b c d e f s0 s1 s2 mm call) =
      Mach a b c d e f s0 s1 s2 mm' call /\
    forall x, mm' x = set_range mm p (p + 4) 0 x.
Proof.
  intros Hp Hp4. cbn [fold_left set_mem]. eexists. split; [reflexivity|].
  intros x. cbv beta.
  rewrite (w32_is (p + 0) p 0), (w32_is (p + 1) (p + 1) 0), (w32_is (p + 2) (p + 2) 0),
    (w32_is (p + 3) (p + 3) 0) by lia.
  unfold set_range.
  destruct (Z.eqb_spec x (p + 3)), (Z.eqb_spec x (p + 2)), (Z.eqb_spec x (p + 1)),
    (Z.eqb_spec x p), (Z.leb_spec p x), (Z.ltb_spec x (p + 4)); cbn [andb];
    try reflexivity; lia.
Qed.

Lemma zero_loop new esp s0 s1 s2 call eax ecx : 4 <= new -> esp < 2 ^ 32 ->
  forall (k : nat) e fl mm, e - new <= Z.of_nat k -> new <= e -> e <= esp ->
  exists m' lo,
    go (from loop_repeat code) (Mach eax new ecx e esp fl s0 s1 s2 mm call)
       [ JmpInd S0 ] m' /\
    m_s0 m' = s0 /\ m_esp m' = esp /\ m_eax m' = eax /\ m_ecx m' = ecx /\
    new <= lo <= e /\ (e - lo) mod 4 = 0 /\
    (lo < new + 4 \/ writable h (lo - 4) 4 = false) /\
    (forall x, m_mem m' x = set_range mm lo e 0 x).
Proof.
  intros Hn Hs. induction k as [|k IH]; intros e fl mm Hk He Hes.
  - assert (e = new) as -> by lia.
    eexists _, new. split; [|split; [|split; [|split; [|split; [|split; [|split; [|split]]]]]]].
    + unfold go. rewrite seg_repeat. sym. sym. jcc true. rewrite seg_retaddr. apply steps_refl.
    + reflexivity.
    + reflexivity.
    + reflexivity.
    + reflexivity.
    + lia.
    + rewrite Z.sub_diag. reflexivity.
    + left. lia.
    + intros x. unfold set_range. cbn [m_mem].
      replace ((new <=? x) && (x <? new)) with false by lia. reflexivity.
  - destruct (Z_lt_dec (e - 4) new) as [L|L].
    + eexists _, e. split; [|split; [|split; [|split; [|split; [|split; [|split; [|split]]]]]]].
      * unfold go. rewrite seg_repeat. sym. sym. jcc true. rewrite seg_retaddr. apply steps_refl.
      * reflexivity.
      * reflexivity.
      * reflexivity.
      * reflexivity.
      * lia.
      * rewrite Z.sub_diag. reflexivity.
      * left. lia.
      * intros x. unfold set_range. cbn [m_mem].
        replace ((e <=? x) && (x <? e)) with false by lia. reflexivity.
    + destruct (writable h (e - 4) 4) eqn:W.
      * destruct (store_zero mm (e - 4) eax new ecx (e - 4) esp (FCmp (e - 4) new) s0 s1 s2 call)
          as (mm' & F & M); try lia.
        destruct (IH (e - 4) (FCmp (e - 4) new) mm')
          as (m' & lo & G & K1 & K2 & K3 & K4 & R & D & E & MM); try lia.
        exists m', lo. split.
        { unfold go. rewrite seg_repeat. sym. sym. jcc false.
          eapply steps_step.
          { cbn [exec m_reg m_edx]. rewrite W, F. reflexivity. }
          sym. exact G. }
        split; [exact K1|]. split; [exact K2|]. split; [exact K3|]. split; [exact K4|].
        split; [lia|]. split.
        { replace (e - lo) with (e - 4 - lo + 1 * 4) by lia.
          rewrite Z.mod_add by lia. exact D. }
        split; [exact E|].
        intros x. rewrite MM. unfold set_range. rewrite M. unfold set_range.
        clear -R L. destruct (Z.leb_spec lo x), (Z.ltb_spec x (e - 4)), (Z.leb_spec (e - 4) x),
          (Z.ltb_spec x (e - 4 + 4)), (Z.ltb_spec x e); cbn [andb]; try reflexivity; lia.
      * eexists _, e. split; [|split; [|split; [|split; [|split; [|split; [|split; [|split]]]]]]].
        -- unfold go. rewrite seg_repeat. sym. sym. jcc false.
           eapply steps_step.
           { cbn [exec m_reg m_edx]. rewrite W. cbn [fault tl]. reflexivity. }
           sym. apply steps_refl.
        -- reflexivity.
        -- reflexivity.
        -- reflexivity.
        -- reflexivity.
        -- lia.
        -- rewrite Z.sub_diag. reflexivity.
        -- right. exact W.
        -- intros x. unfold set_range. cbn [m_mem].
           replace ((e <=? x) && (x <? e)) with false by lia. reflexivity.
Qed.
End Zero.

(** Where the stack pointer goes. *)
Lemma goal_form ty sp val : goal_sp ty sp val =
  if is_abs_and ty then fast_val ty sp val else w32 (sp + fast_val ty sp val).
Proof.
  destruct ty; try reflexivity. cbn [goal_sp is_abs_and fast_val].
  rewrite w32_add_r. reflexivity.
Qed.
Lemma leaps_form ty : leaps ty <-> is_abs_and ty = true.
Proof.
  unfold leaps. split.
  - intros [-> | [-> | ->]]; reflexivity.
  - destruct ty; intros H; try discriminate H; auto.
Qed.

Lemma zero_ok h ty thr sp val ret eax ecx edx s1 s2 mm :
  ty <> RET_IMMED -> ty <> INVALID -> word32 sp -> word32 val -> 0 <= thr < 2 ^ 31 ->
  let new := goal_sp ty sp val in
  4 <= new ->
  let code := zeroing_code ty thr in
  exists n m' lo,
    (forall j, run (n + j) false h code code
       (Mach eax (fast_val ty sp val) ecx edx sp FNone ret s1 s2 mm None) =
       Ok (Returned ret, m')) /\
    m_esp m' = sp /\ m_eax m' = eax /\ m_ecx m' = ecx /\
    (forall x, m_mem m' x = set_range mm lo sp 0 x) /\
    if (new <? sp) && (negb (is_abs_and ty) || (sp - new <? thr))
    then new <= lo <= sp /\ (sp - lo) mod 4 = 0 /\
         (lo < new + 4 \/ writable h (lo - 4) 4 = false)
    else lo = sp.
Proof.
  intros T1 T2 Hsp Hval Hthr new H4 code. unfold word32 in *.
  assert (QA : 0 <= fast_val ty sp val < 2 ^ 32).
  { unfold fast_val. destruct ty; try exact Hval; [apply w32_in|].
    pose proof (land_le sp val ltac:(lia)). lia. }
  set (arg := fast_val ty sp val) in *.
  assert (QN : 0 <= new < 2 ^ 32).
  { unfold new. rewrite goal_form. fold arg. destruct (is_abs_and ty); [exact QA|apply w32_in]. }
  set (st := Mach eax arg ecx edx sp FNone ret s1 s2 mm None).
  assert (HEAD : exists fl d, steps false h code code st
     ([ Cmp (R EBX) (R ESP); Jcc JAE retaddr ] ++
      only (is_abs_and ty) [ Sub (R EDX) (R EBX); Cmp (R EDX) (I thr); Jcc JAE retaddr;
         Mov (R EDX) (R ESP) ] ++ Label loop_repeat :: from loop_repeat code)
     (Mach eax new ecx d sp fl ret s1 s2 mm None) /\ d = sp).
  { unfold new. rewrite goal_form. fold arg.
    assert (CODE : code = Mov (R EDX) (R ESP) ::
      (only (negb (is_abs_and ty)) [ Add (R EBX) (R EDX) ]) ++
      [ Cmp (R EBX) (R ESP); Jcc JAE retaddr ] ++
      only (is_abs_and ty) [ Sub (R EDX) (R EBX); Cmp (R EDX) (I thr); Jcc JAE retaddr;
         Mov (R EDX) (R ESP) ] ++ Label loop_repeat :: from loop_repeat code)
      by (unfold code; destruct ty; reflexivity).
    destruct (is_abs_and ty) eqn:AA; eexists _, _; (split; [|shelve]).
    - rewrite CODE at 2. unfold st. cbn [only negb app].
      sym0. rewrite (w32_small sp) by exact Hsp. apply steps_refl.
    - rewrite CODE at 2. unfold st. cbn [only negb app].
      sym0. sym0. rewrite (w32_small sp) by exact Hsp.
      replace (arg + sp) with (sp + arg) by lia. apply steps_refl.
      Unshelve. all: reflexivity. }
  destruct HEAD as (fl & d & G & ->).
  assert (FIN : forall n0 m', (forall x, m_mem m' x = mm x) -> m_s0 m' = ret -> m_esp m' = sp ->
     m_eax m' = eax -> m_ecx m' = ecx ->
     (new <? sp) && (negb (is_abs_and ty) || (sp - new <? thr)) = n0 -> n0 = false ->
     steps false h code code st [JmpInd S0] m' ->
     exists n m' lo,
    (forall j, run (n + j) false h code code st = Ok (Returned ret, m')) /\
    m_esp m' = sp /\ m_eax m' = eax /\ m_ecx m' = ecx /\
    (forall x, m_mem m' x = set_range mm lo sp 0 x) /\
    if (new <? sp) && (negb (is_abs_and ty) || (sp - new <? thr))
    then new <= lo <= sp /\ (sp - lo) mod 4 = 0 /\
         (lo < new + 4 \/ writable h (lo - 4) 4 = false)
    else lo = sp).
  { intros n0 m' M K0 K1 K2 K3 -> EC ST.
    destruct (steps_end false h code (JmpInd S0) [] st code m' (Returned ret) m' ST)
      as (n & N); [cbn [exec m_slot]; rewrite K0; reflexivity|].
    exists n, m', sp. split; [exact N|]. split; [exact K1|]. split; [exact K2|].
    split; [exact K3|]. rewrite EC. split; [|reflexivity].
    intros x. rewrite M. unfold set_range.
    replace ((sp <=? x) && (x <? sp)) with false by lia. reflexivity. }
  destruct (Z_le_dec sp new) as [L|L].
  { eapply FIN; cycle -1.
    - eapply steps_trans; [exact G|]. cbn [app]. sym0. jcc true.
      unfold code. rewrite (seg_retaddr h). apply steps_refl.
    - reflexivity.
    - reflexivity.
    - reflexivity.
    - reflexivity.
    - reflexivity.
    - reflexivity.
    - replace (new <? sp) with false by lia. reflexivity. }
  destruct (negb (is_abs_and ty) || (sp - new <? thr)) eqn:NR.
  - destruct (zero_loop h ty thr new sp ret s1 s2 None eax ecx H4 (proj2 Hsp)
                (Z.to_nat (sp - new)) sp (if is_abs_and ty then FCmp (sp - new) thr else FCmp new sp) mm)
      as (m' & lo & G2 & K0 & K1 & K2 & K3 & R & D & E & M); try lia.
    assert (ST : steps false h code code st [JmpInd S0] m').
    { eapply steps_trans; [exact G|]. cbn [app]. sym0. jcc false.
      destruct (is_abs_and ty) eqn:AA; cbn [only app].
      - cbn [negb orb] in NR. sym0. sym0.
        rewrite (w32_small (sp - new)), (w32_small thr) by lia. jcc false.
        sym0. sym0. rewrite (w32_small sp) by exact Hsp. exact G2.
      - sym0. exact G2. }
    destruct (steps_end false h code (JmpInd S0) [] st code m' (Returned ret) m' ST)
      as (n & N); [cbn [exec m_slot]; rewrite K0; reflexivity|].
    exists n, m', lo. replace (new <? sp) with true by lia. cbn [andb]. auto 10.
  - apply orb_false_iff in NR. destruct NR as (NR & NR2). apply negb_false_iff in NR.
    eapply FIN; cycle -1.
    + eapply steps_trans; [exact G|]. rewrite NR. cbn [app only]. sym0. jcc false.
      sym0. sym0. rewrite (w32_small (sp - new)), (w32_small thr) by lia. jcc true.
      unfold code. rewrite (seg_retaddr h). apply steps_refl.
    + reflexivity.
    + reflexivity.
    + reflexivity.
    + reflexivity.
    + reflexivity.
    + reflexivity.
    + apply andb_false_r.
Qed.

Lemma zero_bytes h ty thr sp val ret eax ecx edx s1 s2 mm :
  ty <> RET_IMMED -> ty <> INVALID -> word32 sp -> word32 val -> 0 <= thr < 2 ^ 31 ->
  let new := goal_sp ty sp val in
  4 <= new ->
  let code := zeroing_code ty thr in
  exists n m' lo,
    (forall j, run (n + j) false h code code
       (Mach eax (fast_val ty sp val) ecx edx sp FNone ret s1 s2 mm None) =
       Ok (Returned ret, m')) /\
    m_esp m' = sp /\ m_eax m' = eax /\ m_ecx m' = ecx /\
    (forall x, lo <= x < sp -> m_mem m' x = 0) /\
    (forall x, ~ lo <= x < sp -> m_mem m' x = mm x) /\
    (new < sp -> (leaps ty -> sp - new < thr) ->
       new <= lo <= sp /\ (sp - lo) mod 4 = 0 /\
       (lo < new + 4 \/ exists x, new <= x /\ lo - 4 <= x < lo /\ h_writable h x = false)) /\
    (sp <= new \/ leaps ty /\ thr <= sp - new -> lo = sp).
Proof.
  intros T1 T2 Hsp Hval Hthr new H4 code.
  destruct (zero_ok h ty thr sp val ret eax ecx edx s1 s2 mm T1 T2 Hsp Hval Hthr H4)
    as (n & m' & lo & N & K1 & K2 & K3 & M & R).
  exists n, m', lo. split; [exact N|]. split; [exact K1|]. split; [exact K2|].
  split; [exact K3|]. split; [|split; [|split]].
  - intros x Hx. rewrite M. unfold set_range.
    replace ((lo <=? x) && (x <? sp)) with true by lia. reflexivity.
  - intros x Hx. rewrite M. unfold set_range.
    replace ((lo <=? x) && (x <? sp)) with false by lia. reflexivity.
  - intros L NR. fold new in R.
    replace ((new <? sp) && (negb (is_abs_and ty) || (sp - new <? thr))) with true in R.
    + destruct R as (R1 & R2 & [R3|R3]); (split; [exact R1|]; split; [exact R2|]); [auto|].
      destruct (Z_lt_dec lo (new + 4)) as [Y|Y]; [auto|]. right.
      unfold writable in R3. change (map Z.of_nat (seq 0 (Z.to_nat 4))) with [0; 1; 2; 3] in R3.
      cbn [forallb] in R3.
      unfold word32 in Hsp.
      rewrite (w32_is (lo - 4 + 0) (lo - 4) 0), (w32_is (lo - 4 + 1) (lo - 3) 0),
        (w32_is (lo - 4 + 2) (lo - 2) 0), (w32_is (lo - 4 + 3) (lo - 1) 0) in R3
        by (clear -R1 H4 Hsp Y; lia).
      destruct (h_writable h (lo - 4)) eqn:E0.
      2:{ exists (lo - 4). split; [lia|]. split; [lia|exact E0]. }
      destruct (h_writable h (lo - 3)) eqn:E1.
      2:{ exists (lo - 3). split; [lia|]. split; [lia|exact E1]. }
      destruct (h_writable h (lo - 2)) eqn:E2.
      2:{ exists (lo - 2). split; [lia|]. split; [lia|exact E2]. }
      destruct (h_writable h (lo - 1)) eqn:E3; [discriminate R3|].
      exists (lo - 1). split; [lia|]. split; [lia|exact E3].
    + symmetry. apply andb_true_iff. split; [lia|]. apply orb_true_iff.
      destruct (is_abs_and ty) eqn:AA; [right|left; reflexivity].
      apply leaps_form in AA. specialize (NR AA). lia.
  - intros C. fold new in R.
    replace ((new <? sp) && (negb (is_abs_and ty) || (sp - new <? thr))) with false in R;
      [exact R|].
    symmetry. apply andb_false_iff. destruct C as [C|(C & C2)]; [left; lia|right].
    apply leaps_form in C. rewrite C. cbn [negb orb]. lia.
Qed.

Lemma zero_is_slow h ty thr sp val ret eax ecx edx s1 s2 mm sh k t :
  ty <> RET_IMMED -> ty <> INVALID -> word32 sp -> word32 val -> 0 <= thr < 2 ^ 31 ->
  t_thr t = thr ->
  let new := goal_sp ty sp val in
  4 <= new -> movement ty sp val = new - sp ->
  (leaps ty -> new < sp -> sp - new < thr) ->
  (sp - new) mod 4 = 0 \/ sp <= new ->
  (forall x, new <= x < sp -> h_writable h x = true) ->
  let code := zeroing_code ty thr in
  exists n m',
    (forall j, run (n + j) false h code code
       (Mach eax (fast_val ty sp val) ecx edx sp FNone ret s1 s2 mm None) =
       Ok (Returned ret, m')) /\
    forall x, m_mem m' x =
      w_app (fst (handle_esp_adjust x86_32 k ty val ACT_ZERO sp t
                    {| w_sh := sh; w_app := mm |})) x.
Proof.
  intros T1 T2 Hsp Hval Hthr HT new H4 HM NR AL W code.
  destruct (zero_bytes h ty thr sp val ret eax ecx edx s1 s2 mm T1 T2 Hsp Hval Hthr H4)
    as (n & m' & lo & N & K1 & K2 & K3 & M1 & M2 & R1 & R2).
  exists n, m'. split; [exact N|]. intros x. fold new in R1, R2.
  destruct (Z.ltb_spec new sp) as [L|L].
  2:{ rewrite M2; [|rewrite R2 by auto; lia].
      assert (UP : forall ty0 w, apply_delta x86_32 ty0 ACT_ZERO sp (new - sp) w = w).
      { intros ty0 w. unfold apply_delta. destruct (_ =? _); [reflexivity|].
        replace (new - sp <? 0) with false by lia. reflexivity. }
      assert (SG : forall x, sgn x86_32 x = s32 x) by reflexivity.
      unfold handle_esp_adjust. rewrite <- HM in UP. clear -SG UP T1 T2.
      destruct ty; try congruence; rewrite ?SG; cbn [movement] in UP;
        try (rewrite UP; reflexivity);
        match goal with |- context [if ?c then check_stack_swap ?x ?y ?z ?v else _] =>
          destruct (if c then check_stack_swap x y z v else (false, t)) as [[|] t1] end;
        rewrite ?UP; reflexivity. }
  destruct AL as [AL|AL]; [|lia].
  destruct (R1 L ltac:(auto)) as (Q1 & Q2 & Q3).
  assert (EL : lo = new).
  { destruct Q3 as [Q3|(y & Y1 & Y2 & Y3)].
    - clear -Q1 Q2 Q3 AL. Z.div_mod_to_equations. lia.
    - rewrite W in Y3 by lia. discriminate. }
  assert (SLOW : fst (handle_esp_adjust x86_32 k ty val ACT_ZERO sp t
                        {| w_sh := sh; w_app := mm |}) =
                 apply_delta x86_32 ty ACT_ZERO sp (new - sp) {| w_sh := sh; w_app := mm |}).
  { unfold handle_esp_adjust.
    assert (SG : forall x, sgn x86_32 x = s32 x) by reflexivity.
    assert (FAR : is_abs_and ty = true ->
                  (t_thr t <? new - sp) || (new - sp <? - t_thr t) = false).
    { intros E. apply leaps_form in E. specialize (NR E L). lia. }
    rewrite <- HM in FAR |- *. clear -SG FAR T1 T2.
    destruct ty; try congruence; rewrite ?SG; cbn [is_abs_and movement] in FAR |- *;
      rewrite ?(FAR eq_refl); reflexivity. }
  rewrite SLOW. unfold apply_delta. replace (new - sp =? 0) with false by lia.
  replace (new - sp <? 0) with true by lia. cbn [w_app].
  replace (wrap x86_32 (sp + (new - sp))) with new.
  2:{ unfold wrap. cbn [x86_32 a_bits]. replace (sp + (new - sp)) with new by lia.
      symmetry. apply Z.mod_small. unfold word32 in Hsp. lia. }
  unfold set_range. replace (new - (new - sp)) with sp by lia. subst lo.
  destruct ((new <=? x) && (x <? sp)) eqn:E; [apply M1|apply M2]; lia.
Qed.
