(** Proofs about the loop over one access: shadow state afterwards, the values
    handed on, pushes and pops. *)
From Verif Require Import Base MemRef_Model MemRef_Spec MemRef_Proofs.
Open Scope Z_scope.

Ltac eqs := repeat match goal with
  | |- context [?x =? ?y] => destruct (Z.eqb_spec x y); try lia
  end.

Lemma set_other e s0 a v x :
  e_map4 e = false -> x <> a -> set_byte e s0 a v x = s0 x.
Proof. intros Hmap H. unfold set_byte. rewrite Hmap. eqs; reflexivity. Qed.

Lemma set_same e s0 a v : e_map4 e = false -> set_byte e s0 a v a = v.
Proof. intros Hmap. unfold set_byte. rewrite Hmap, Z.eqb_refl. reflexivity. Qed.

Section Plain.
Context (e : env) (f : flags) (addr sz : Z) (sh : Z -> Z).
Hypothesis Hmap : e_map4 e = false.
Hypothesis Hrz : 0 <= e_rz e.
Hypothesis Hsz : 0 <= sz.
Hypothesis Hpp : f_pushpop f = false.

(** Bytes other than the one looked at. *)
Lemma step_frame i s s' b x :
  x <> addr + i ->
  step e f addr i s = (s', b) ->
  s_sh s' x = after e f (addr + i) (s_sh s (addr + i)) x (s_sh s x).
Proof.
  intros Hx. unfold step.
  set (v := s_sh s (addr + i)).
  unfold after, is_push, is_read. rewrite Hpp. cbn [andb negb].
  assert (Hd : forall t, s_sh (if negb (f_write f) && f_values f then
                 {| s_sh := s_sh t; s_good := s_good t; s_found := s_found t;
                    s_type := s_type t; s_addr := s_addr t; s_end := s_end t;
                    s_push := s_push t; s_reports := s_reports t;
                    s_fed := (memref_idx f i, v) :: s_fed t |} else t) = s_sh t)
    by (intros t; destruct (negb (f_write f) && f_values f); reflexivity).
  destruct (Z.eqb_spec v UNADDRESSABLE) as [Ev|Ev].
  - unfold step_unaddr. rewrite Hpp. cbn [andb].
    destruct (e_unaddr e (addr + i)) as [ok m]. cbn [snd].
    destruct ok.
    + intros E. injection E as <- <-. destruct (negb (f_write f) && f_values f); reflexivity.
    + destruct (note_bad f true (addr + i) _) as [s2 b2] eqn:En.
      pose proof (note_bad_sh _ _ _ _ _ _ En) as Hs2. cbn [s_sh with_sh] in Hs2.
      destruct b2.
      { intros E. injection E as <- <-. now rewrite Hs2. }
      rewrite (note_bad_type _ _ _ _ _ En). cbn [negb]. rewrite andb_false_r.
      intros E. injection E as <- <-. rewrite Hd, Hs2. reflexivity.
  - cbn [andb].
    destruct (f_write f || f_checkaddr f) eqn:Ew; cbn [negb].
    + rewrite andb_false_r.
      destruct (f_checkaddr f) eqn:Ec; cbn [negb].
      * intros E. injection E as <- <-. destruct (negb (f_write f) && f_values f); reflexivity.
      * intros E. injection E as <- <-. rewrite Hd.
        unfold step_write. rewrite Hpp. cbn [andb].
        clear Ew Hd. destruct (_ || _); [reflexivity|].
        destruct (v =? _); [reflexivity|]. cbn [s_sh with_sh].
        apply set_other; assumption.
    + rewrite andb_true_r. unfold step_read. rewrite Hpp.
      match goal with |- (let '(_, _) := (let '(_, _) := ?c in _) in _) = _ -> ?g =>
        destruct c as [s1 b1] eqn:Ei end.
      intros E.
      assert (H0 : s_sh s' = s_sh s1).
      { destruct b1; injection E as <- <-; [reflexivity|]. apply Hd. }
      rewrite H0. clear E H0. destruct (Z.eqb_spec v UNDEFINED) as [Eu|Eu].
      * destruct (e_undef e (addr + i)) as [ok m]. cbn [snd].
        destruct (negb ok && f_checkdef f).
        -- destruct (note_bad f false (addr + i) _) as [s2 b2] eqn:En.
           pose proof (note_bad_sh _ _ _ _ _ _ En) as Hs2. cbn [s_sh with_sh] in Hs2.
           destruct b2; injection Ei as <- <-; [now rewrite Hs2|].
           destruct (e_leave e); [now rewrite Hs2|].
           cbn [s_sh with_sh]. rewrite set_other by assumption. now rewrite Hs2.
        -- injection Ei as <- <-. reflexivity.
      * destruct (f_checkdef f && (v =? BITLEVEL)); injection Ei as <- <-; reflexivity.
Qed.

Definition local (f0 : flags) (i : Z) (s : st) : Z :=
  let v := s_sh s (addr + i) in
  let w := after e f0 (addr + i) v (addr + i) v in
  if f_write f0 && negb (f_checkaddr f0) && negb (v =? UNADDRESSABLE)
  then (if f_movs f0 then s_sh s (e_movs e + i)
        else if f_values f0 then e_dst e (memref_idx f0 i) else DEFINED)
  else if (v =? UNDEFINED) && is_read f0 && f_checkdef f0 &&
          negb (fst (e_undef e (addr + i))) && negb (e_leave e)
  then DEFINED else w.

(** The byte looked at. *)
Lemma step_own i s s' :
  s_sh s (addr + i) <> BITLEVEL ->
  (f_write f = true ->
     (if f_movs f then s_sh s (e_movs e + i)
      else if f_values f then e_dst e (memref_idx f i) else DEFINED) <> BITLEVEL) ->
  step e f addr i s = (s', false) ->
  s_sh s' (addr + i) = local f i s.
Proof.
  intros Hb1 Hb2. unfold step, local.
  set (v := s_sh s (addr + i)) in *.
  unfold after, is_push, is_read. rewrite Hpp. cbn [andb negb].
  assert (Hd : forall t, s_sh (if negb (f_write f) && f_values f then
                 {| s_sh := s_sh t; s_good := s_good t; s_found := s_found t;
                    s_type := s_type t; s_addr := s_addr t; s_end := s_end t;
                    s_push := s_push t; s_reports := s_reports t;
                    s_fed := (memref_idx f i, v) :: s_fed t |} else t) = s_sh t)
    by (intros t; destruct (negb (f_write f) && f_values f); reflexivity).
  destruct (Z.eqb_spec v UNADDRESSABLE) as [Ev|Ev].
  - replace (v =? UNDEFINED) with false
      by (symmetry; apply Z.eqb_neq; rewrite Ev; discriminate).
    cbn [negb]. rewrite andb_false_r. cbn [andb].
    unfold step_unaddr. rewrite Hpp. cbn [andb].
    destruct (e_unaddr e (addr + i)) as [ok m]. cbn [snd].
    destruct ok.
    + intros E. injection E as <-. destruct (negb (f_write f) && f_values f); reflexivity.
    + destruct (note_bad f true (addr + i) _) as [s2 b2] eqn:En.
      pose proof (note_bad_sh _ _ _ _ _ _ En) as Hs2. cbn [s_sh with_sh] in Hs2.
      destruct b2; [intros E; discriminate|].
      rewrite (note_bad_type _ _ _ _ _ En). cbn [negb]. rewrite andb_false_r.
      intros E. injection E as <-. rewrite Hd, Hs2. reflexivity.
  - cbn [andb negb]. rewrite andb_true_r.
    destruct (f_write f || f_checkaddr f) eqn:Ew; cbn [negb].
    + rewrite !andb_false_r. cbn [andb].
      destruct (f_checkaddr f) eqn:Ec; cbn [negb].
      * rewrite andb_false_r. intros E. injection E as <-. destruct (negb (f_write f) && f_values f); reflexivity.
      * rewrite orb_false_r in Ew. rewrite Ew in *. cbn [andb].
        intros E. injection E as <-.
        unfold step_write. rewrite Hpp. cbn [andb].
        specialize (Hb2 eq_refl).
        destruct (Z.eqb_spec v BITLEVEL); [contradiction|]. cbn [orb].
        match goal with |- context [?y =? BITLEVEL] =>
          destruct (Z.eqb_spec y BITLEVEL); [contradiction|] end.
        match goal with |- context [v =? ?y] => destruct (Z.eqb_spec v y) as [Eq|Ne] end.
        -- cbn. exact Eq.
        -- cbn [s_sh with_sh negb andb]. now apply set_same.
    + apply orb_false_iff in Ew as [Ew Ec]. rewrite Ew, Ec in *. cbn [negb andb].
      rewrite !andb_true_r. unfold step_read. rewrite Hpp.
      match goal with |- (let '(_, _) := (let '(_, _) := ?c in _) in _) = _ -> ?g =>
        destruct c as [s1 b1] eqn:Ei end.
      intros E.
      assert (H0 : s_sh s' = s_sh s1 /\ b1 = false).
      { destruct b1; [discriminate|]. injection E as <-. split; [apply Hd|reflexivity]. }
      destruct H0 as [-> ->]. clear E. destruct (Z.eqb_spec v UNDEFINED) as [Eu|Eu].
      * destruct (e_undef e (addr + i)) as [ok m]. cbn [snd fst andb].
        rewrite (andb_comm (f_checkdef f)).
        destruct (negb ok && f_checkdef f).
        -- destruct (note_bad f false (addr + i) _) as [s2 b2] eqn:En.
           pose proof (note_bad_sh _ _ _ _ _ _ En) as Hs2. cbn [s_sh with_sh] in Hs2.
           destruct b2; [discriminate|]. injection Ei as <-. cbn [andb].
           destruct (e_leave e); [now rewrite Hs2|].
           cbn [s_sh with_sh]. now apply set_same.
        -- injection Ei as <-. reflexivity.
      * cbn [andb]. destruct (f_checkdef f && (v =? BITLEVEL)); injection Ei as <-; reflexivity.
Qed.

Lemma step_fed i s s' :
  step e f addr i s = (s', false) ->
  s_fed s' = if negb (f_write f) && f_values f
             then (memref_idx f i, s_sh s (addr + i)) :: s_fed s else s_fed s.
Proof.
  unfold step. set (v := s_sh s (addr + i)).
  assert (Hn : forall u t t' b, note_bad f u (addr + i) t = (t', b) -> s_fed t' = s_fed t).
  { intros u t t' b. unfold note_bad.
    destruct (f_abort f && _ && _ && _); intros E; injection E as <- <-; reflexivity. }
  match goal with |- (let '(_, _) := ?c in _) = _ -> ?g => destruct c as [s1 b1] eqn:Ei end.
  destruct b1; [discriminate|]. intros E. injection E as <-.
  enough (H : s_fed s1 = s_fed s)
    by (destruct (negb (f_write f) && f_values f); cbn [s_fed]; now rewrite H).
  destruct (v =? UNADDRESSABLE).
  - unfold step_unaddr in Ei. destruct (f_pushpop f && f_write f).
    + injection Ei as <-. reflexivity.
    + destruct (e_unaddr e (addr + i)) as [ok m]. destruct ok.
      * injection Ei as <-. reflexivity.
      * destruct (note_bad f true (addr + i) _) as [s2 b2] eqn:En. apply Hn in En.
        destruct b2; [discriminate|].
        destruct (_ && _); injection Ei as <-; exact En.
  - destruct (negb (f_write f || f_checkaddr f)).
    + unfold step_read in Ei.
      match type of Ei with (let '(_, _) := ?c in _) = _ =>
        destruct c as [s2 b2] eqn:E2 end.
      assert (H2 : s_fed s2 = s_fed s).
      { destruct (v =? UNDEFINED).
        - destruct (e_undef e (addr + i)) as [ok m]. destruct (negb ok && f_checkdef f).
          + destruct (note_bad f false (addr + i) _) as [s3 b3] eqn:En. apply Hn in En.
            destruct b3; injection E2 as <- <-; [exact En|].
            destruct (e_leave e); exact En.
          + injection E2 as <- <-. reflexivity.
        - destruct (f_checkdef f && (v =? BITLEVEL)); injection E2 as <- <-; reflexivity. }
      destruct b2; [discriminate|].
      destruct (f_pushpop f); injection Ei as <-; exact H2.
    + destruct (negb (f_checkaddr f)); injection Ei as <-; [|reflexivity].
      unfold step_write.
      set (s2 := if f_pushpop f && _ && _ then _ else s).
      assert (H2 : s_fed s2 = s_fed s).
      { unfold s2. destruct (f_pushpop f && _ && _); [|reflexivity].
        destruct (handle_push_addressable e (addr + i) addr (s_sh s)). reflexivity. }
      clearbody s2. destruct (f_pushpop f && f_write f && (0 <? e_rz e)); [exact H2|].
      destruct ((v =? BITLEVEL) || _); [exact H2|]. destruct (v =? _); exact H2.
Qed.

Hypothesis Habort : f_abort f = false.

Lemma note_nobreak u a s : snd (note_bad f u a s) = false.
Proof. unfold note_bad. rewrite Habort. reflexivity. Qed.

Lemma step_nobreak i s s' b : step e f addr i s = (s', b) -> b = false.
Proof.
  unfold step. intros E.
  match type of E with (let '(_, _) := ?c in _) = _ => destruct c as [s1 b1] eqn:Ei end.
  enough (b1 = false) by (subst b1; congruence). clear E.
  destruct (s_sh s (addr + i) =? UNADDRESSABLE).
  - unfold step_unaddr in Ei. destruct (f_pushpop f && f_write f); [congruence|].
    destruct (e_unaddr e (addr + i)) as [ok m]. destruct ok; [congruence|].
    destruct (note_bad f true (addr + i) _) as [s2 b2] eqn:En.
    assert (b2 = false) by (change b2 with (snd (s2, b2)); rewrite <- En; apply note_nobreak).
    subst b2. destruct (_ && _) in Ei; congruence.
  - destruct (negb (f_write f || f_checkaddr f)).
    + unfold step_read in Ei.
      match type of Ei with (let '(_, _) := ?c in _) = _ =>
        destruct c as [s2 b2] eqn:E2 end.
      assert (b2 = false).
      { destruct (s_sh s (addr + i) =? UNDEFINED).
        - destruct (e_undef e (addr + i)) as [ok m]. destruct (negb ok && f_checkdef f).
          + destruct (note_bad f false (addr + i) _) as [s3 b3] eqn:En.
            assert (b3 = false)
              by (change b3 with (snd (s3, b3)); rewrite <- En; apply note_nobreak).
            subst b3. congruence.
          + congruence.
        - destruct (f_checkdef f && _) in E2; congruence. }
      subst b2. destruct (f_pushpop f) in Ei; congruence.
    + destruct (negb (f_checkaddr f)); congruence.
Qed.

Hypothesis Hbit : no_bitlevel e f addr sz sh.

(** Bytes of the access already passed, and all others. *)
Definition Inv2 (i : Z) (s : st) : Prop :=
  (forall x, ~ (addr <= x < addr + i) ->
     s_sh s x = world e f addr sh (Z.to_nat i) x) /\
  ((forall x, addr <= x < addr + sz -> source_intact e f addr x) ->
   forall x, addr <= x < addr + i -> untouched e addr sz (x + 1) x ->
     s_sh s x = expected e f addr sh x).

Lemma after_none e0 f0 a v x w :
  snd (e_unaddr e0 a) x = None /\ snd (e_undef e0 a) x = None ->
  after e0 f0 a v x w = w.
Proof.
  intros [H1 H2]. unfold after. rewrite H1, H2.
  destruct (_ && _); [reflexivity|]. destruct (_ && _); reflexivity.
Qed.

Lemma expected_local i s :
  0 <= i ->
  (forall x, ~ (addr <= x < addr + i) ->
     s_sh s x = world e f addr sh (Z.to_nat i) x) ->
  source_intact e f addr (addr + i) ->
  local f i s = expected e f addr sh (addr + i).
Proof.
  intros Hi HW Hs. unfold local, expected.
  assert (Hv : state_at e f addr sh (addr + i) = s_sh s (addr + i)).
  { unfold state_at. replace (addr + i - addr) with i by lia.
    symmetry. apply HW. lia. }
  cbv zeta. rewrite Hv.
  destruct (f_write f && negb (f_checkaddr f) && negb (s_sh s (addr + i) =? UNADDRESSABLE)).
  - unfold stored. replace (addr + i - addr) with i by lia.
    destruct (f_movs f) eqn:Em; [|reflexivity].
    apply HW. specialize (Hs Em). replace (addr + i - addr) with i in Hs by lia.
    exact Hs.
  - unfold bad. rewrite Hv.
    destruct (Z.eqb_spec (s_sh s (addr + i)) UNADDRESSABLE) as [Eu|Eu].
    + replace (s_sh s (addr + i) =? UNDEFINED) with false
        by (symmetry; apply Z.eqb_neq; rewrite Eu; discriminate).
      cbn [andb]. destruct (negb (is_push f) && negb (fst (e_unaddr e (addr + i))));
        reflexivity.
    + cbn [andb].
      destruct ((s_sh s (addr + i) =? UNDEFINED) && is_read f && f_checkdef f &&
                negb (fst (e_undef e (addr + i)))); cbn [andb];
        [destruct (e_leave e)|]; reflexivity.
Qed.

Lemma step_inv2 i s s' b :
  0 <= i < sz -> (f_movs f = true -> source_intact e f addr (addr + i)) ->
  Inv2 i s -> step e f addr i s = (s', b) -> Inv2 (i + 1) s'.
Proof.
  intros Hi Hmv [HW HE] E.
  assert (Hv : state_at e f addr sh (addr + i) = s_sh s (addr + i)).
  { unfold state_at. replace (addr + i - addr) with i by lia.
    symmetry. apply HW. lia. }
  split.
  - intros x Hx. rewrite (step_frame i s s' b x ltac:(lia) E).
    replace (Z.to_nat (i + 1)) with (S (Z.to_nat i)) by lia. cbn [world].
    rewrite Z2Nat.id by lia. rewrite !HW by lia. reflexivity.
  - intros Hall x Hx Hu. destruct (Z.eq_dec x (addr + i)) as [->|Hne].
    + pose proof (step_nobreak _ _ _ _ E). subst b.
      destruct (Hbit (addr + i) ltac:(lia)) as [Hb1 Hb2].
      rewrite (step_own i s s').
      * apply expected_local; [lia|exact HW|apply Hall; lia].
      * rewrite <- Hv. exact Hb1.
      * intros Hw. specialize (Hb2 Hw). unfold stored in Hb2.
        replace (addr + i - addr) with i in Hb2 by lia.
        destruct (f_movs f) eqn:Em; [|exact Hb2].
        rewrite HW; [exact Hb2|]. specialize (Hmv eq_refl Em).
        replace (addr + i - addr) with i in Hmv by lia. exact Hmv.
      * exact E.
    + rewrite (step_frame i s s' b x Hne E). rewrite after_none by (apply Hu; lia).
      apply HE; [exact Hall|lia|exact Hu].
Qed.

Lemma shadow_ok :
  (forall x, addr <= x < addr + sz -> source_intact e f addr x) ->
  exists o, handle_mem_ref e f addr sz sh = Ok o /\
  (forall x, addr <= x < addr + sz -> untouched e addr sz (x + 1) x ->
     o_shadow o x = expected e f addr sh x) /\
  (forall x, ~ (addr <= x < addr + sz) -> untouched e addr sz addr x ->
     o_shadow o x = sh x) /\
  (f_write f = false -> f_values f = true ->
   o_fed o = map (fun k => (memref_idx f (Z.of_nat k),
                            state_at e f addr sh (addr + Z.of_nat k)))
                 (seq 0 (Z.to_nat sz))).
Proof.
  intros Hall. unfold handle_mem_ref.
  set (P := fun i s => Inv2 i s /\
     (f_write f = false -> f_values f = true ->
      rev (s_fed s) = map (fun k => (memref_idx f (Z.of_nat k),
                            state_at e f addr sh (addr + Z.of_nat k)))
                 (seq 0 (Z.to_nat i)))).
  destruct (loop_rule e f addr sz sh Hmap P (P sz) (S (Z.to_nat sz)) 0 (init sh))
    as (t & Ht & [[HW HE] HF]).
  - lia.
  - lia.
  - split; [|reflexivity]. split; [reflexivity|]. intros _ x Hx. lia.
  - intros j t t' b Hj [HI HF] E. pose proof (step_nobreak _ _ _ _ E). subst b.
    split.
    + apply (step_inv2 j t t' false); try assumption. intros _. apply Hall. lia.
    + intros Hw Hv. rewrite (step_fed _ _ _ E), Hw, Hv. cbn [negb andb rev].
      rewrite (HF Hw Hv). replace (Z.to_nat (j + 1)) with (S (Z.to_nat j)) by lia.
      rewrite seq_S, map_app. cbn [map Nat.add]. rewrite Z2Nat.id by lia.
      f_equal. f_equal. f_equal. destruct HI as [HW _].
      rewrite HW by lia. unfold state_at. now replace (addr + j - addr) with j by lia.
  - intros t HP. exact HP.
  - rewrite Ht. cbn [bind]. eexists. split; [reflexivity|].
    cbn [o_shadow o_fed]. split; [|split].
    + intros x Hx Hu. now apply HE.
    + intros x Hx Hu. rewrite HW by exact Hx.
      assert (HN : forall k, (Z.of_nat k <= sz) -> world e f addr sh k x = sh x).
      { induction k as [|k IH]; intros Hk; [reflexivity|]. cbn [world].
        rewrite after_none by (apply Hu; lia). apply IH. lia. }
      apply HN. lia.
    + exact HF.
Qed.

End Plain.
