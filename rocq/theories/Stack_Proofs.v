(** Proofs about the C routines for stack adjustments. *)
From Verif Require Import Base MemRef_Model Stack_Model Stack_Spec.
Open Scope Z_scope.

Definition real_arch (a : arch) : Prop :=
  a = x86_32 \/ a = x86_64_unix \/ a = x86_64_windows.

Lemma real_facts a : real_arch a ->
  (a_bits a = 32 \/ a_bits a = 64) /\ (a_rz a = 0 \/ a_rz a = 128) /\
  (a_ptr a = 4 \/ a_ptr a = 8).
Proof. intros [-> | [-> | ->]]; cbn; lia. Qed.

Lemma wrap_id a x : 0 <= x < 2 ^ a_bits a -> wrap a x = x.
Proof. intros H; unfold wrap; apply Z.mod_small; exact H. Qed.

Lemma sgn_small a x : 0 < a_bits a ->
  - 2 ^ (a_bits a - 1) <= x < 2 ^ (a_bits a - 1) -> sgn a x = x.
Proof.
  intros Hb H. unfold sgn, wrap.
  assert (E : 2 ^ a_bits a = 2 * 2 ^ (a_bits a - 1)).
  { rewrite <- Z.pow_succ_r by lia. f_equal. lia. }
  rewrite E. set (h := 2 ^ (a_bits a - 1)) in *.
  destruct (Z_lt_dec x 0).
  - replace (x mod (2 * h)) with (x + 2 * h).
    + destruct (Z.ltb_spec (x + 2 * h) h); lia.
    + symmetry. rewrite <- (Z.mod_small (x + 2 * h) (2 * h)) by lia.
      replace (x + 2 * h) with (x + 1 * (2 * h)) by lia.
      rewrite Z.mod_add by lia. reflexivity.
  - rewrite Z.mod_small by lia. destruct (Z.ltb_spec x h); lia.
Qed.

Lemma sgn_spec a x : 0 < a_bits a ->
  exists q, sgn a x = x - q * 2 ^ a_bits a /\
            - 2 ^ (a_bits a - 1) <= sgn a x < 2 ^ (a_bits a - 1).
Proof.
  intros Hb. unfold sgn, wrap.
  assert (E : 2 ^ a_bits a = 2 * 2 ^ (a_bits a - 1)).
  { rewrite <- Z.pow_succ_r by lia. f_equal. lia. }
  assert (P : 0 < 2 ^ (a_bits a - 1)) by (apply Z.pow_pos_nonneg; lia).
  rewrite E in *. set (h := 2 ^ (a_bits a - 1)) in *.
  pose proof (Z.div_mod x (2 * h) ltac:(lia)) as D.
  pose proof (Z.mod_pos_bound x (2 * h) ltac:(lia)) as B.
  destruct (Z.ltb_spec (x mod (2 * h)) h).
  - exists (x / (2 * h)). lia.
  - exists (x / (2 * h) + 1). lia.
Qed.

(** The update itself, for a movement that does not leave the address space. *)
Lemma apply_delta_moved a ty act sp d w : real_arch a -> act <> ACT_ZERO ->
  ty <> POSTPOP ->
  a_rz a <= sp < 2 ^ a_bits a -> a_rz a <= sp + d < 2 ^ a_bits a ->
  forall x, w_sh (apply_delta a ty act sp d w) x = moved a act sp (sp + d) (w_sh w) x.
Proof.
  intros Ha Hact Hty H1 H2 x.
  destruct (real_facts a Ha) as (_ & Hrz & _).
  unfold apply_delta, moved.
  destruct (Z.eqb_spec d 0) as [->|Hd].
  - replace (sp + 0) with sp by lia. rewrite Z.eqb_refl. reflexivity.
  - destruct (Z.eqb_spec sp (sp + d)); [lia|].
    assert (W1 : wrap a (sp - a_rz a) = sp - a_rz a) by (apply wrap_id; lia).
    assert (W2 : wrap a (sp - a_rz a + d) = sp - a_rz a + d) by (apply wrap_id; lia).
    assert (W3 : wrap a (sp + d) = sp + d) by (apply wrap_id; lia).
    assert (W4 : wrap a (sp + d - a_rz a) = sp + d - a_rz a) by (apply wrap_id; lia).
    destruct act; [| |congruence];
      (replace (match ty with POSTPOP => wrap a (wrap a (sp + d) + a_ptr a)
                            | _ => wrap a (sp + d) end) with (wrap a (sp + d))
         by (destruct ty; congruence || reflexivity));
      cbn [w_sh fresh]; rewrite ?W1, ?W2, ?W3, ?W4; unfold set_range;
      destruct (Z.ltb_spec 0 (a_rz a)), (Z.ltb_spec 0 d);
      repeat match goal with
             | |- context [?p <=? ?q] => destruct (Z.leb_spec p q)
             | |- context [?p <? ?q] => destruct (Z.ltb_spec p q)
             end; cbn; try reflexivity; try lia.
Qed.

(** [leave]: the pop has already moved the far end of the reserved area. *)
Lemma apply_delta_leave a act sp d w : real_arch a -> act <> ACT_ZERO ->
  a_rz a <= sp < 2 ^ a_bits a -> 0 <= d -> sp + d + a_ptr a < 2 ^ a_bits a ->
  forall x, w_sh (apply_delta a POSTPOP act sp d w) x =
    if d =? 0 then w_sh w x
    else if (sp + d + a_ptr a - a_rz a <=? x) && (x <? sp + d + a_ptr a) && (0 <? a_rz a)
    then fresh act
    else if (sp - a_rz a <=? x) && (x <? sp + d - a_rz a) then UNADDRESSABLE
    else w_sh w x.
Proof.
  intros Ha Hact H1 H2 H3 x.
  destruct (real_facts a Ha) as (_ & Hrz & Hp).
  unfold apply_delta.
  destruct (Z.eqb_spec d 0) as [->|Hd]; [reflexivity|].
  assert (W1 : wrap a (sp - a_rz a) = sp - a_rz a) by (apply wrap_id; lia).
  assert (W2 : wrap a (sp - a_rz a + d) = sp - a_rz a + d) by (apply wrap_id; lia).
  assert (W3 : wrap a (sp + d) = sp + d) by (apply wrap_id; lia).
  assert (W5 : wrap a (sp + d + a_ptr a) = sp + d + a_ptr a) by (apply wrap_id; lia).
  assert (W4 : wrap a (sp + d + a_ptr a - a_rz a) = sp + d + a_ptr a - a_rz a)
    by (apply wrap_id; lia).
  destruct act; [| |congruence]; cbn [w_sh fresh];
    rewrite ?W1, ?W2, ?W3, ?W5, ?W4; unfold set_range;
    destruct (Z.ltb_spec 0 (a_rz a)), (Z.ltb_spec 0 d);
    repeat match goal with
           | |- context [?p <=? ?q] => destruct (Z.leb_spec p q)
           | |- context [?p <? ?q] => destruct (Z.ltb_spec p q)
           end; cbn; try reflexivity; try lia.
Qed.

(** Far movements are adjustments when the stack is known to hold both ends. *)
Definition known_both (k : known) (cur new : Z) : Prop :=
  exists start size, k_bounds k cur = Some (start, size) /\
                     start <= new < start + size.

Lemma not_swap k t cur new : known_both k cur new ->
  fst (check_stack_swap k t cur new) = false.
Proof.
  intros (s & z & E & H). unfold check_stack_swap. rewrite E.
  destruct (Z.leb_spec s new), (Z.ltb_spec new (s + z)); try lia. reflexivity.
Qed.

Definition far (t : tune) (d : Z) : Prop := t_thr t < d \/ d < - t_thr t.

Lemma sgn_eq a x y q : real_arch a -> x = y + q * 2 ^ a_bits a ->
  - 2 ^ (a_bits a - 1) <= y < 2 ^ (a_bits a - 1) -> sgn a x = y.
Proof.
  intros Ha -> H. destruct (real_facts a Ha) as (Hb & _ & _).
  rewrite <- (sgn_small a y) at 2 by lia.
  unfold sgn, wrap. rewrite Z.mod_add; [reflexivity|].
  assert (0 < 2 ^ a_bits a) by (apply Z.pow_pos_nonneg; lia). lia.
Qed.

(** A stack is smaller than half the address space. *)
Definition near (a : arch) (old new : Z) : Prop :=
  - 2 ^ (a_bits a - 1) < new - old < 2 ^ (a_bits a - 1).

Lemma sgn_diff a old new : real_arch a -> near a old new -> sgn a (new - old) = new - old.
Proof. intros Ha H. apply (sgn_eq a _ _ 0 Ha); unfold near in H; lia. Qed.

Lemma wrap_eq a x : real_arch a -> exists q, wrap a x = x + q * 2 ^ a_bits a.
Proof.
  intros Ha. destruct (real_facts a Ha) as (Hb & _ & _).
  assert (P : 0 < 2 ^ a_bits a) by (apply Z.pow_pos_nonneg; lia).
  exists (- (x / 2 ^ a_bits a)). unfold wrap.
  pose proof (Z.div_mod x (2 ^ a_bits a) ltac:(lia)). lia.
Qed.

Lemma sgn_add a sp v : real_arch a -> near a sp (wrap a (sp + v)) ->
  sgn a v = wrap a (sp + v) - sp.
Proof.
  intros Ha H. destruct (wrap_eq a (sp + v) Ha) as (q & E).
  unfold near in H. apply (sgn_eq a _ _ (- q) Ha); lia.
Qed.

Lemma sgn_sub a sp v : real_arch a -> near a sp (wrap a (sp - v)) ->
  sgn a (- v) = wrap a (sp - v) - sp.
Proof.
  intros Ha H. destruct (wrap_eq a (sp - v) Ha) as (q & E).
  unfold near in H. apply (sgn_eq a _ _ (- q) Ha); lia.
Qed.

(** Instructions that move the stack pointer and touch no stack slot. *)
Definition pure (i : sinstr) : bool :=
  match i with
  | MovSp _ | CmovSp _ _ | PopSp _ | IncSp | DecSp | AddSp _ | SubSp _ | AndSp _ => true
  | _ => false
  end.

(** Movements that the code takes for adjustments whatever their size. *)
Definition relative (i : sinstr) : bool :=
  match i with IncSp | DecSp | AddSp _ | SubSp _ => true | _ => false end.

Lemma adjust_moved a k imm act i sp t w : real_arch a -> act <> ACT_ZERO ->
  pure i = true -> handled a i ->
  a_rz a <= sp < 2 ^ a_bits a -> a_rz a <= new_sp a sp i < 2 ^ a_bits a ->
  near a sp (new_sp a sp i) ->
  (relative i = false -> far t (new_sp a sp i - sp) -> known_both k sp (new_sp a sp i)) ->
  forall x, w_sh (fst (adjust_slow a k imm act i sp t w)) x =
            moved a act sp (new_sp a sp i) (w_sh w) x.
Proof.
  intros Ha Hact Hp Hh H1 H2 Hn Hk x.
  assert (AB : forall new ty, ty = ABSOLUTE \/ ty = AND_MASK ->
    a_rz a <= new < 2 ^ a_bits a -> near a sp new ->
    (far t (new - sp) -> known_both k sp new) ->
    w_sh (fst (let d := sgn a (new - sp) in
       let '(swap, t1) := if (t_thr t <? d) || (d <? - t_thr t)
                          then check_stack_swap k t sp new else (false, t) in
       if swap then (w, t1) else (apply_delta a ty act sp d w, t1))) x =
    moved a act sp new (w_sh w) x).
  { intros new ty Hty HN Hnear HK. cbv zeta. rewrite (sgn_diff a sp new Ha Hnear).
    assert (E : exists t1, (if (t_thr t <? new - sp) || (new - sp <? - t_thr t)
               then check_stack_swap k t sp new else (false, t)) = (false, t1)).
    { destruct ((t_thr t <? new - sp) || (new - sp <? - t_thr t)) eqn:EF.
      - assert (F : far t (new - sp)) by (unfold far; lia).
        pose proof (not_swap k t sp new (HK F)) as N.
        destruct (check_stack_swap k t sp new) as [b t1]. cbn in N. subst b. eauto.
      - eauto. }
    destruct E as (t1 & ->). cbn [fst].
    rewrite apply_delta_moved; try assumption; try lia.
    - replace (sp + (new - sp)) with new by lia. reflexivity.
    - destruct Hty as [-> | ->]; discriminate. }
  unfold adjust_slow.
  assert (NA : needs_adjust a imm act i = true).
  { destruct i, act; try discriminate; try congruence; reflexivity. }
  rewrite NA. cbn [negb].
  destruct i; try discriminate Hp; cbn [new_sp handled relative] in *.
  - unfold handle_esp_adjust; cbn [adjust_type slow_arg]. apply AB; auto.
  - destruct taken.
    + unfold handle_esp_adjust; cbn [adjust_type slow_arg]. apply AB; auto.
    + cbn [fst]. unfold moved. rewrite Z.eqb_refl. reflexivity.
  - unfold handle_esp_adjust; cbn [adjust_type slow_arg]. apply AB; auto.
  - unfold handle_esp_adjust; cbn [adjust_type slow_arg fst].
    rewrite (sgn_eq a 1 1 0 Ha) by (destruct (real_facts a Ha) as ([-> | ->] & _ & _); lia).
    apply apply_delta_moved; auto; try discriminate.
  - unfold handle_esp_adjust; cbn [adjust_type slow_arg fst].
    destruct (wrap_eq a (-1) Ha) as (q & E).
    rewrite (sgn_eq a _ (-1) q Ha) by
      (try exact E; destruct (real_facts a Ha) as ([-> | ->] & _ & _); lia).
    replace (sp - 1) with (sp + -1) by lia.
    apply apply_delta_moved; auto; try discriminate; lia.
  - unfold handle_esp_adjust; cbn [adjust_type slow_arg fst].
    rewrite (sgn_add a sp v Ha Hn).
    rewrite apply_delta_moved; auto; try discriminate; try lia.
    replace (sp + (wrap a (sp + v) - sp)) with (wrap a (sp + v)) by lia. reflexivity.
  - unfold handle_esp_adjust; cbn [adjust_type slow_arg fst].
    rewrite (sgn_sub a sp v Ha Hn).
    rewrite apply_delta_moved; auto; try discriminate; try lia.
    replace (sp + (wrap a (sp - v) - sp)) with (wrap a (sp - v)) by lia. reflexivity.
  - unfold handle_esp_adjust; cbn [adjust_type slow_arg]. apply AB; auto.
Qed.

(** A swap of stacks changes nothing. *)
Lemma adjust_swap a k imm act v sp t w : real_arch a ->
  word a sp -> word a v -> near a sp v -> far t (v - sp) ->
  (forall s z, k_bounds k sp = Some (s, z) -> ~ (s <= v < s + z)) ->
  adjust_slow a k imm act (MovSp v) sp t w = (w, t).
Proof.
  intros Ha Hs Hv Hn Hf Hb.
  unfold adjust_slow. replace (needs_adjust a imm act (MovSp v)) with true
    by (destruct act; reflexivity).
  cbn [negb]. unfold handle_esp_adjust; cbn [adjust_type slow_arg].
  rewrite (sgn_diff a sp v Ha Hn).
  replace ((t_thr t <? v - sp) || (v - sp <? - t_thr t)) with true
    by (unfold far in Hf; lia).
  unfold check_stack_swap. destruct (k_bounds k sp) as [[s z]|] eqn:E; [|reflexivity].
  specialize (Hb s z eq_refl).
  replace ((s <=? v) && (v <? s + z)) with false by lia. reflexivity.
Qed.
