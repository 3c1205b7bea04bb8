(** Pushes and pops on a well-formed stack, and whole runs. *)
From Verif Require Import Base MemRef_Model Stack_Model Stack_Spec Stack_Proofs.
Open Scope Z_scope.

(** The environment of the access checks agrees with the architecture, keeps
    one state per byte, and its exception routine for uninitialised reads
    stores nothing. *)
Definition plain_env (a : arch) (e : env) : Prop :=
  e_rz e = a_rz a /\ e_map4 e = false /\ (forall x y, snd (e_undef e x) y = None).

(** Shadow after [n] bytes of a push at [addr], resp. of a pop. *)
Definition push_part (a : arch) (addr n : Z) (sh : Z -> Z) (x : Z) : Z :=
  if (addr <=? x) && (x <? addr + n) then DEFINED
  else if (addr - a_rz a <=? x) && (x <? addr - a_rz a + n) && (0 <? a_rz a) then UNDEFINED
  else sh x.
Definition pop_part (a : arch) (addr n : Z) (sh : Z -> Z) (x : Z) : Z :=
  if (addr <=? x) && (x <? addr + n) then (if 0 <? a_rz a then UNDEFINED else UNADDRESSABLE)
  else if (addr - a_rz a <=? x) && (x <? addr - a_rz a + n) && (0 <? a_rz a)
       then UNADDRESSABLE
  else sh x.

Ltac decide_all :=
  repeat match goal with
         | |- context [?p <=? ?q] => destruct (Z.leb_spec p q)
         | |- context [?p <? ?q] => destruct (Z.ltb_spec p q)
         | |- context [?p =? ?q] => destruct (Z.eqb_spec p q)
         end; cbn [andb orb negb]; try reflexivity; try lia.

(** Decide the comparisons of the goal, dropping impossible branches early. *)
Ltac sweep Hrz O2 :=
  destruct Hrz as [R|R]; try rewrite R in *; cbn [Z.ltb Z.compare] in *;
  repeat match goal with
         | |- context [?p <=? ?q] => destruct (Z.leb_spec p q); try (exfalso; lia)
         | |- context [?p <? ?q] => destruct (Z.ltb_spec p q); try (exfalso; lia)
         | |- context [?p =? ?q] => destruct (Z.eqb_spec p q); try (exfalso; lia)
         end; cbn [andb orb negb];
  try (rewrite O2; lia); split; intros; try congruence; lia.

Ltac sweep_eq Hrz :=
  destruct Hrz as [R|R]; try rewrite R in *; cbn [Z.ltb Z.compare] in *;
  repeat match goal with
         | |- context [?p <=? ?q] => destruct (Z.leb_spec p q); try (exfalso; lia)
         | |- context [?p <? ?q] => destruct (Z.ltb_spec p q); try (exfalso; lia)
         | |- context [?p =? ?q] => destruct (Z.eqb_spec p q); try (exfalso; lia)
         end; cbn [andb orb negb]; try reflexivity.

Lemma loop_step k e f addr sz i s : loop (S k) e f addr sz i s =
  if i <? sz then
    let '(s1, broke) := step e f addr i s in
    if broke then Ok s1
    else let '(i1, s2) := advance e addr sz i s1 in loop k e f addr sz i1 s2
  else Ok s.
Proof. reflexivity. Qed.

Lemma push_loop a e addr sz sh : plain_env a e -> a_rz a = 0 \/ a_rz a = 128 ->
  (a_rz a = 0 \/ sz <= a_rz a) ->
  (a_rz a = 0 -> forall x, addr <= x < addr + sz -> sh x = UNADDRESSABLE) ->
  (0 < a_rz a -> forall x, addr <= x < addr + sz -> sh x <> UNADDRESSABLE) ->
  (0 < a_rz a -> forall x, addr - a_rz a <= x < addr - a_rz a + sz -> sh x = UNADDRESSABLE) ->
  forall k i s, 0 <= i -> sz = i + Z.of_nat k ->
    (forall x, s_sh s x = push_part a addr i sh x) ->
    exists s', loop (S k) e (stack_flags true) addr sz i s = Ok s' /\
               forall x, s_sh s' x = push_part a addr sz sh x.
Proof.
  intros (Erz & Emap & _) Hrz Hsz HU HA HF.
  induction k as [|k IH]; intros i s Hi Hk Hs.
  - exists s. rewrite loop_step. replace (i <? sz) with false by lia.
    split; [reflexivity|]. replace sz with i by lia. exact Hs.
  - rewrite loop_step. replace (i <? sz) with true by lia.
    assert (Hv : s_sh s (addr + i) = sh (addr + i)).
    { rewrite Hs. unfold push_part. decide_all. }
    unfold step. rewrite Hv.
    destruct Hrz as [R|R].
    + rewrite (HU R (addr + i)) by lia. cbn [Z.eqb UNADDRESSABLE Pos.eqb].
      unfold step_unaddr. cbn [stack_flags f_pushpop f_write andb f_values].
      rewrite Erz, R. cbn [Z.ltb Z.compare].
      unfold advance. rewrite Emap. cbn [f_write stack_flags negb andb].
      apply IH; [lia|lia|].
      intros x. unfold with_sh; cbn [s_sh]. unfold set_byte. rewrite Emap.
      rewrite Hs. unfold push_part. rewrite R. decide_all.
    + replace (sh (addr + i) =? UNADDRESSABLE) with false
        by (specialize (HA ltac:(lia) (addr + i) ltac:(lia)); lia).
      cbn [stack_flags f_write f_checkaddr orb negb].
      unfold step_write. cbn [stack_flags f_pushpop f_write f_values f_movs andb].
      rewrite Erz.
      assert (Hf : s_sh s (addr + i - a_rz a) = UNADDRESSABLE).
      { rewrite Hs. unfold push_part.
        rewrite <- (HF ltac:(lia) (addr + i - a_rz a) ltac:(lia)). decide_all. }
      rewrite Hf. rewrite Z.eqb_refl.
      replace (a_rz a =? 0) with false by lia.
      replace (0 <? a_rz a) with true by lia.
      cbn [orb negb andb].
      unfold advance. rewrite Emap.
      apply IH; [lia|lia|].
      intros x. unfold with_sh; cbn [s_sh]. unfold set_byte. rewrite Emap.
      rewrite Hs. unfold push_part. decide_all.
Qed.

Lemma read_pop e addr i v s : (forall x y, snd (e_undef e x) y = None) ->
  exists s1, (forall x, s_sh s1 x = s_sh s x) /\
    step_read e (stack_flags false) addr i v s =
    (with_sh s1
       (if 0 <? e_rz e
        then set_byte e (set_byte e (s_sh s1) (addr + i) UNDEFINED)
                      (addr + i - e_rz e) UNADDRESSABLE
        else set_byte e (s_sh s1) (addr + i) UNADDRESSABLE), false).
Proof.
  intros Emark. unfold step_read. cbn [stack_flags f_checkdef f_pushpop andb].
  destruct (v =? UNDEFINED).
  - pose proof (Emark (addr + i)) as M. destruct (e_undef e (addr + i)) as [ok marks].
    cbn [snd] in M. rewrite andb_false_r.
    eexists; split; [|reflexivity].
    intros x. unfold with_sh, apply_marks; cbn [s_sh]. rewrite M. reflexivity.
  - exists s; auto.
Qed.

Lemma pop_loop a e addr sz sh : plain_env a e -> a_rz a = 0 \/ a_rz a = 128 ->
  (a_rz a = 0 \/ sz <= a_rz a) ->
  (forall x, addr <= x < addr + sz -> sh x <> UNADDRESSABLE) ->
  forall k i s, 0 <= i -> sz = i + Z.of_nat k ->
    (forall x, s_sh s x = pop_part a addr i sh x) ->
    exists s', loop (S k) e (stack_flags false) addr sz i s = Ok s' /\
               forall x, s_sh s' x = pop_part a addr sz sh x.
Proof.
  intros (Erz & Emap & Emark) Hrz Hsz HA.
  induction k as [|k IH]; intros i s Hi Hk Hs.
  - exists s. rewrite loop_step. replace (i <? sz) with false by lia.
    split; [reflexivity|]. replace sz with i by lia. exact Hs.
  - rewrite loop_step. replace (i <? sz) with true by lia.
    assert (Hv : s_sh s (addr + i) = sh (addr + i)).
    { rewrite Hs. unfold pop_part. decide_all. }
    unfold step. rewrite Hv.
    replace (sh (addr + i) =? UNADDRESSABLE) with false
      by (specialize (HA (addr + i) ltac:(lia)); lia).
    cbn [stack_flags f_write f_checkaddr orb negb].
    destruct (read_pop e addr i (sh (addr + i)) s Emark) as (s1 & H1 & ->).
    cbn [stack_flags f_write f_values negb andb].
    unfold advance. rewrite Emap. rewrite Erz.
    apply IH; [lia|lia|].
    intros x. unfold with_sh; cbn [s_sh]. unfold set_byte. rewrite Emap.
    destruct (Z.ltb_spec 0 (a_rz a)); rewrite H1, Hs; unfold pop_part; decide_all.
Qed.

Lemma push_mem a e addr sz sh : plain_env a e -> a_rz a = 0 \/ a_rz a = 128 ->
  0 <= sz -> (a_rz a = 0 \/ sz <= a_rz a) ->
  (a_rz a = 0 -> forall x, addr <= x < addr + sz -> sh x = UNADDRESSABLE) ->
  (0 < a_rz a -> forall x, addr <= x < addr + sz -> sh x <> UNADDRESSABLE) ->
  (0 < a_rz a -> forall x, addr - a_rz a <= x < addr - a_rz a + sz -> sh x = UNADDRESSABLE) ->
  exists o, handle_mem_ref e (stack_flags true) addr sz sh = Ok o /\
            forall x, o_shadow o x = push_part a addr sz sh x.
Proof.
  intros He Hrz H0 Hsz HU HA HF.
  destruct (push_loop a e addr sz sh He Hrz Hsz HU HA HF (Z.to_nat sz) 0 (init sh))
    as (s & E & P); try lia.
  - intros x. cbn [init s_sh]. unfold push_part. decide_all.
  - unfold handle_mem_ref. rewrite E. cbn [bind].
    eexists; split; [reflexivity|]. exact P.
Qed.

Lemma pop_mem a e addr sz sh : plain_env a e -> a_rz a = 0 \/ a_rz a = 128 ->
  0 <= sz -> (a_rz a = 0 \/ sz <= a_rz a) ->
  (forall x, addr <= x < addr + sz -> sh x <> UNADDRESSABLE) ->
  exists o, handle_mem_ref e (stack_flags false) addr sz sh = Ok o /\
            forall x, o_shadow o x = pop_part a addr sz sh x.
Proof.
  intros He Hrz H0 Hsz HA.
  destruct (pop_loop a e addr sz sh He Hrz Hsz HA (Z.to_nat sz) 0 (init sh))
    as (s & E & P); try lia.
  - intros x. cbn [init s_sh]. unfold pop_part. decide_all.
  - unfold handle_mem_ref. rewrite E. cbn [bind].
    eexists; split; [reflexivity|]. exact P.
Qed.

(** The stack is big enough for what follows and small enough to be told from
    its complement; the bounds query knows it. *)
Definition stack_known (a : arch) (k : known) (lim base : Z) : Prop :=
  a_rz a <= lim /\ base < 2 ^ a_bits a - 128 /\ base - lim < 2 ^ (a_bits a - 1) /\
  forall x, lim <= x <= base ->
    exists start size, k_bounds k x = Some (start, size) /\
                       start <= lim /\ base < start + size.

Lemma moved_ok a act lim base old new sh : 0 <= a_rz a -> act <> ACT_ZERO ->
  stack_ok a lim base old sh -> lim + a_rz a <= new <= base ->
  stack_ok a lim base new (moved a act old new sh).
Proof.
  intros Hrz Hact (H1 & H2) Hn. split; [exact Hn|].
  intros x Hx. specialize (H2 x Hx). unfold moved.
  assert (F : fresh act <> UNADDRESSABLE) by (destruct act; discriminate).
  destruct (Z.eqb_spec old new) as [E|E]; [subst; exact H2|].
  decide_all; split; intros; try lia; try congruence; try tauto.
Qed.

Lemma stack_ok_ext a lim base sp sh sh' : (forall x, sh' x = sh x) ->
  stack_ok a lim base sp sh -> stack_ok a lim base sp sh'.
Proof.
  intros E (H1 & H2). split; [exact H1|]. intros x Hx. rewrite E. apply H2, Hx.
Qed.

Lemma none_none a k act i sp t w : adjust_type i = INVALID \/ i = Ret ->
  needs_adjust a false act i = false ->
  adjust_slow a k false act i sp t w = (w, t).
Proof. intros _ H. unfold adjust_slow. rewrite H. reflexivity. Qed.

Lemma push_after a sp sz sh x : a_rz a = 0 \/ a_rz a = 128 -> 0 <= sz ->
  push_part a (sp - sz) sz sh x = pushed a sp sz sh x.
Proof.
  intros Hrz Hs. unfold push_part, pushed. sweep_eq Hrz.
Qed.
Lemma pop_after a sp sz sh x : a_rz a = 0 \/ a_rz a = 128 -> 0 <= sz ->
  pop_part a sp sz sh x = released a sp sz sh x.
Proof.
  intros Hrz Hs. unfold pop_part, released. sweep_eq Hrz.
Qed.

(** The new word of [leave] is marked differently by the two orders only if
    there is a red zone and new stack is not marked as uninitialised. *)
Definition leave_exact (a : arch) (act : action) (i : sinstr) : Prop :=
  match i with Leave _ => act = ACT_SHADOW \/ a_rz a = 0 | _ => True end.

Lemma step_exact a e k act i lim base sp t w : real_arch a -> act <> ACT_ZERO ->
  plain_env a e -> stack_known a k lim base ->
  stack_ok a lim base sp (w_sh w) -> handled a i ->
  lim + a_rz a <= new_sp a sp i <= base ->
  match i with Leave bp => sp <= bp | _ => True end ->
  exists w1 t1, instr_step a e k act i sp t w = Ok (w1, t1) /\ w_app w1 = w_app w /\
    (forall x, leave_exact a act i -> w_sh w1 x = after a act i sp (w_sh w) x) /\
    stack_ok a lim base (new_sp a sp i) (w_sh w1).
Proof.
  intros Ha Hact He (K1 & K2 & K3 & K4) Hok Hh Hn Hl.
  destruct (real_facts a Ha) as (Hb & Hrz & Hp).
  assert (Hrz0 : 0 <= a_rz a) by lia.
  assert (APP : forall ty d sp w, w_app (apply_delta a ty act sp d w) = w_app w).
  { intros. unfold apply_delta. destruct (d =? 0); [reflexivity|].
    destruct act; [reflexivity|reflexivity|congruence]. }
  assert (PURE : pure i = true ->
    exists w1 t1, instr_step a e k act i sp t w = Ok (w1, t1) /\ w_app w1 = w_app w /\
    (forall x, leave_exact a act i -> w_sh w1 x = after a act i sp (w_sh w) x) /\
    stack_ok a lim base (new_sp a sp i) (w_sh w1)).
  { intros Hpure. destruct Hok as (O1 & O2).
    assert (M : forall x, w_sh (fst (adjust_slow a k false act i sp t w)) x =
                          moved a act sp (new_sp a sp i) (w_sh w) x).
    { apply adjust_moved; auto; try lia.
      - unfold near. lia.
      - intros _ _. destruct (K4 sp) as (s & z & E & Q); [lia|].
        exists s, z. split; [exact E|]. lia. }
    assert (AP : w_app (fst (adjust_slow a k false act i sp t w)) = w_app w).
    { clear M. unfold adjust_slow. destruct (negb (needs_adjust a false act i)); [reflexivity|].
      destruct i; try discriminate Hpure; unfold handle_esp_adjust;
        cbn [adjust_type slow_arg];
        repeat match goal with
               | |- context [match ?b with true => _ | false => _ end] => destruct b
               | |- context [let '(_, _) := check_stack_swap ?k ?t ?x ?y in _] =>
                   destruct (check_stack_swap k t x y) as [[|] ?]
               end; cbn [fst]; try reflexivity; apply APP. }
    unfold instr_step.
    assert (N : memop a sp i = None) by (destruct i; try discriminate Hpure; reflexivity).
    rewrite N. cbn [bind].
    destruct (adjust_slow a k false act i sp t w) as [w1 t1] eqn:E.
    exists w1, t1. split; [reflexivity|].
    cbn [fst] in M, AP. split; [exact AP|]. split.
    - intros x _. rewrite M. destruct i; try discriminate Hpure; reflexivity.
    - eapply stack_ok_ext; [exact M|]. apply moved_ok; auto. split; assumption. }
  destruct i; try (apply PURE; reflexivity); clear PURE; try contradiction;
    cbn [new_sp handled] in *; unfold instr_step; cbn [memop];
    destruct Hok as (O1 & O2).
  - (* Leave *)
    destruct (pop_mem a e bp (a_ptr a) (w_sh w) He Hrz ltac:(lia) ltac:(lia)) as (o & E & P).
    { intros x Hx U. apply O2 in U; lia. }
    rewrite E. cbn [bind].
    set (w1 := {| w_sh := o_shadow o; w_app := w_app w |}).
    unfold adjust_slow. replace (needs_adjust a false act (Leave bp)) with true
      by (destruct act; congruence || reflexivity).
    cbn [negb adjust_type slow_arg]. unfold handle_esp_adjust.
    rewrite (sgn_diff a sp bp Ha) by (unfold near; lia).
    assert (EX : exists t1, (if (t_thr t <? bp - sp) || (bp - sp <? - t_thr t)
                 then check_stack_swap k t sp bp else (false, t)) = (false, t1)).
    { destruct ((t_thr t <? bp - sp) || (bp - sp <? - t_thr t)); [|eauto].
      destruct (K4 sp) as (s & z & EB & Q); [lia|].
      assert (KB : known_both k sp bp) by (exists s, z; split; [exact EB|lia]).
      pose proof (not_swap k t sp bp KB) as N.
      destruct (check_stack_swap k t sp bp) as [b t1]. cbn in N. subst b. eauto. }
    destruct EX as (t1 & ->).
    eexists _, _. split; [reflexivity|]. split; [rewrite APP; reflexivity|].
    assert (F : fresh act <> UNADDRESSABLE) by (destruct act; discriminate).
    assert (FS : act = ACT_SHADOW -> fresh act = UNDEFINED) by (intros ->; reflexivity).
    split.
    + intros x Hx. unfold leave_exact in Hx.
      rewrite (apply_delta_leave a act sp (bp - sp) w1) by (auto; lia).
      subst w1; cbn [w_sh]. rewrite !P.
      unfold after, released, moved, pop_part. change (new_state act) with (fresh act).
      clear K4 He E P Hact Ha Hb O2 APP.
      assert (Hx' : fresh act = UNDEFINED \/ a_rz a = 0) by tauto.
      clear Hx FS. generalize dependent (fresh act). intros v F Hx'.
      sweep_eq Hrz; destruct Hx'; subst; try reflexivity; lia.
    + split; [exact Hn|]. intros x Hx.
      rewrite (apply_delta_leave a act sp (bp - sp) w1) by (auto; lia).
      subst w1; cbn [w_sh]. rewrite !P.
      specialize (O2 x Hx). unfold pop_part.
      assert (F2 : UNDEFINED <> UNADDRESSABLE) by discriminate.
      clear K4 He E P Hact Ha Hb APP FS.
      sweep Hrz O2.
  - (* Ret *)
    destruct (pop_mem a e sp (a_ptr a) (w_sh w) He Hrz ltac:(lia) ltac:(lia)) as (o & E & P).
    { intros x Hx U. apply O2 in U; lia. }
    rewrite E. cbn [bind].
    rewrite none_none by (auto; destruct act; reflexivity).
    eexists _, _. split; [reflexivity|]. cbn [w_sh]. split; [reflexivity|].
    split; [intros x _; rewrite P; apply pop_after; auto; lia|].
    split; [exact Hn|]. intros x Hx. rewrite P. specialize (O2 x Hx). unfold pop_part.
    assert (F2 : UNDEFINED <> UNADDRESSABLE) by discriminate.
    clear K4 He E P Hact Ha Hb.
    sweep Hrz O2.
  - (* RetImm *)
    destruct Hh as (Hn16 & Hp4).
    assert (R0 : a_rz a = 0).
    { destruct Ha as [-> | [-> | ->]]; cbn in *; lia. }
    destruct (pop_mem a e sp (a_ptr a) (w_sh w) He Hrz ltac:(lia) ltac:(lia)) as (o & E & P).
    { intros x Hx U. apply O2 in U; lia. }
    rewrite E. cbn [bind].
    set (w1 := {| w_sh := o_shadow o; w_app := w_app w |}).
    unfold adjust_slow. replace (needs_adjust a false act (RetImm n)) with true
      by (destruct act; congruence || reflexivity).
    cbn [negb adjust_type slow_arg]. unfold handle_esp_adjust.
    rewrite (sgn_eq a n n 0 Ha) by (destruct Hb as [-> | ->]; lia).
    rewrite (wrap_id a (sp + 4)) by lia.
    eexists _, _. split; [reflexivity|]. split; [rewrite APP; reflexivity|]. split.
    + intros x _. rewrite apply_delta_moved by (auto; try discriminate; lia).
      subst w1; cbn [w_sh]. unfold after. rewrite Hp4. unfold moved.
      rewrite !P, !pop_after by (auto; lia). rewrite Hp4. reflexivity.
    + split; [lia|]. intros x Hx.
      rewrite apply_delta_moved by (auto; try discriminate; lia).
      subst w1; cbn [w_sh]. unfold moved. rewrite !P.
      specialize (O2 x Hx). unfold pop_part.
      assert (F : fresh act <> UNADDRESSABLE) by (destruct act; discriminate).
      clear K4 He E P Hact Ha Hb APP.
      sweep Hrz O2.
  - (* Enter *)
    destruct Hh as (-> & Hlv & Hsz).
    set (z := a_ptr a * (1 + levels)) in *.
    assert (Hz : 0 <= z) by (subst z; nia).
    destruct (push_mem a e (sp - z) z (w_sh w) He Hrz Hz Hsz) as (o & E & P).
    { intros R x Hx. apply O2; lia. }
    { intros R x Hx U. apply O2 in U; lia. }
    { intros R x Hx. apply O2; lia. }
    rewrite E. cbn [bind].
    unfold adjust_slow. replace (needs_adjust a false act (Enter 0 levels)) with true
      by (destruct act; congruence || reflexivity).
    cbn [negb adjust_type slow_arg]. unfold handle_esp_adjust.
    replace (sgn a (- 0)) with 0 by (symmetry; apply (sgn_eq a (-0) 0 0 Ha);
      destruct Hb as [-> | ->]; lia).
    unfold apply_delta. rewrite Z.eqb_refl.
    eexists _, _. split; [reflexivity|]. cbn [w_sh]. split; [reflexivity|].
    split; [intros x _; rewrite P; apply push_after; auto; lia|].
    split; [lia|]. intros x Hx. rewrite P. specialize (O2 x Hx). unfold push_part.
    assert (F2 : UNDEFINED <> UNADDRESSABLE) by discriminate.
    assert (F3 : DEFINED <> UNADDRESSABLE) by discriminate.
    clear K4 He E P Hact Ha Hb APP. clearbody z.
    sweep Hrz O2.
  - (* Push *)
    destruct Hh as (Hz & Hsz).
    destruct (push_mem a e (sp - sz) sz (w_sh w) He Hrz Hz Hsz) as (o & E & P).
    { intros R x Hx. apply O2; lia. }
    { intros R x Hx U. apply O2 in U; lia. }
    { intros R x Hx. apply O2; lia. }
    rewrite E. cbn [bind].
    rewrite none_none by (auto; destruct act; reflexivity).
    eexists _, _. split; [reflexivity|]. cbn [w_sh]. split; [reflexivity|].
    split; [intros x _; rewrite P; apply push_after; auto; lia|].
    split; [lia|]. intros x Hx. rewrite P. specialize (O2 x Hx). unfold push_part.
    assert (F2 : UNDEFINED <> UNADDRESSABLE) by discriminate.
    assert (F3 : DEFINED <> UNADDRESSABLE) by discriminate.
    clear K4 He E P Hact Ha Hb APP.
    sweep Hrz O2.
  - (* Pop *)
    destruct Hh as (Hz & Hsz).
    destruct (pop_mem a e sp sz (w_sh w) He Hrz Hz Hsz) as (o & E & P).
    { intros x Hx U. apply O2 in U; lia. }
    rewrite E. cbn [bind].
    rewrite none_none by (auto; destruct act; reflexivity).
    eexists _, _. split; [reflexivity|]. cbn [w_sh]. split; [reflexivity|].
    split; [intros x _; rewrite P; apply pop_after; auto; lia|].
    split; [lia|]. intros x Hx. rewrite P. specialize (O2 x Hx). unfold pop_part.
    assert (F2 : UNDEFINED <> UNADDRESSABLE) by discriminate.
    clear K4 He E P Hact Ha Hb APP.
    sweep Hrz O2.
Qed.

Lemma run_ok a e k act lim base : real_arch a -> act <> ACT_ZERO ->
  plain_env a e -> stack_known a k lim base ->
  forall l sp t w, stack_ok a lim base sp (w_sh w) -> stays a lim base l sp ->
  exists sp1 t1 w1, run_stack a e k act l sp t w = Ok (sp1, t1, w1) /\
    sp1 = fold_left (new_sp a) l sp /\ stack_ok a lim base sp1 (w_sh w1).
Proof.
  intros Ha Hact He Hk. induction l as [|i l IH]; intros sp t w Hok Hs.
  - exists sp, t, w. auto.
  - destruct Hs as (H1 & H2 & H3 & H4).
    destruct (step_exact a e k act i lim base sp t w Ha Hact He Hk Hok H1 H2 H3)
      as (w1 & t1 & E & _ & _ & Hok1).
    cbn [run_stack fold_left]. rewrite E. cbn [bind]. apply IH; assumption.
Qed.

(** Thresholds. *)
Lemma threshold_ok k t cur new size :
  let t1 := snd (check_stack_swap k t cur new) in
  let t2 := check_stack_size k t size in
  (k_fixed k = true -> t_thr t1 = t_thr t /\ t_thr t2 = t_thr t) /\
  t_thr t <= t_thr t1 /\
  (t_thr t2 = t_thr t \/ t_thr t2 = MIN_THRESHOLD) /\
  (size < t_thr t -> k_fixed k = false -> MIN_THRESHOLD < t_thr t ->
   t_thr t2 = MIN_THRESHOLD).
Proof.
  unfold check_stack_swap, check_stack_size, update_threshold, MIN_THRESHOLD, PAGE.
  destruct (k_bounds k cur) as [[s z]|]; [destruct ((s <=? new) && (new <? s + z))|];
    destruct (k_fixed k); destruct (MAX_NON_SWAPS <? t_non_swaps t);
    destruct (Z.ltb_spec size (t_thr t)), (Z.ltb_spec 2048 (t_thr t)); cbn;
    repeat split; intros; try lia; try discriminate; auto.
Qed.
