(** Proofs about pushes, pops and the mode with one state per word. *)
From Verif Require Import Base MemRef_Model MemRef_Spec MemRef_Proofs MemRef_Proofs2.
Open Scope Z_scope.

Lemma set_range_out s0 lo hi v x : ~ (lo <= x < hi) -> set_range s0 lo hi v x = s0 x.
Proof.
  intros H. unfold set_range.
  destruct (Z.leb_spec lo x), (Z.ltb_spec x hi); cbn [andb]; try reflexivity; lia.
Qed.

Lemma set_range_in s0 lo hi v x : lo <= x < hi -> set_range s0 lo hi v x = v.
Proof.
  intros H. unfold set_range.
  destruct (Z.leb_spec lo x), (Z.ltb_spec x hi); cbn [andb]; try reflexivity; lia.
Qed.

Ltac zl := repeat match goal with
  | H : _ -> _ |- _ => clear H
  | H : forall x, _ |- _ => clear H
  | H : _ <-> _ |- _ => clear H
  | H : Forall _ _ |- _ => clear H
  | H : same_book _ _ |- _ => clear H
  | H : @eq ?T _ _ |- _ => lazymatch T with Z => fail | _ => clear H end
  end; lia.

Section PushPop.
Context (e : env) (f : flags) (addr sz : Z) (sh : Z -> Z).
Hypothesis Hmap : e_map4 e = false.
Hypothesis Hrz : e_rz e = 0 \/ 0 < e_rz e /\ sz <= e_rz e.
Hypothesis Hsz : 0 <= sz.
Hypothesis Hpp : f_pushpop f = true.

Lemma push_redzone a s0 x :
  0 < e_rz e -> addr - e_rz e <= x < addr -> s0 x = UNDEFINED ->
  snd (handle_push_addressable e a addr s0) x = UNDEFINED.
Proof.
  intros Hr Hx H0. unfold handle_push_addressable.
  destruct (e_check_push e); [|exact H0].
  destruct (e_bounds e a) as [[lo len]|]; [|exact H0].
  cbn [snd]. destruct (Z.ltb_spec 0 (e_rz e)); [|zl].
  destruct (Z.ltb_spec (addr - e_rz e) lo) as [Hl|Hl].
  - destruct (Z_lt_dec x lo).
    + rewrite set_range_out by zl. rewrite set_range_out; [exact H0|].
      destruct (Z.ltb_spec (a - PAGE) lo); zl.
    + apply set_range_in. zl.
  - apply set_range_in. zl.
Qed.

Section Push.
Hypothesis Hw : f_write f = true.
Hypothesis Hc : f_checkaddr f = false.
Hypothesis Hm : f_movs f = false.
Hypothesis Hbit : e_rz e = 0 -> forall i, 0 <= i < sz -> sh (addr + i) <> BITLEVEL /\
  (f_values f = true -> e_dst e (memref_idx f i) <> BITLEVEL).

Local Notation slot := (slot e f).

Definition PInv (i : Z) (s : st) : Prop :=
  (forall x, addr <= x < addr + i -> s_sh s x = slot (x - addr)) /\
  (forall x, addr + i <= x -> s_sh s x = sh x) /\
  (0 < e_rz e -> forall x, addr - e_rz e <= x < addr - e_rz e + i ->
     s_sh s x = UNDEFINED) /\
  s_good s = true /\ s_found s = false /\ s_reports s = nil.

Lemma push_step i s s' b :
  0 <= i < sz -> PInv i s -> step e f addr i s = (s', b) ->
  b = false /\ PInv (i + 1) s'.
Proof.
  intros Hi (H1 & H2 & H3 & H4 & H5 & H6). unfold step.
  set (v := s_sh s (addr + i)). rewrite Hw, Hc. cbn [negb andb orb].
  assert (Hlow : e_rz e = 0 \/ 0 < e_rz e /\ addr + i - e_rz e < addr) by zl.
  destruct (Z.eqb_spec v UNADDRESSABLE) as [Ev|Ev].
  - unfold step_unaddr. rewrite Hpp, Hw. cbn [andb]. change (if f_values f then e_dst e (memref_idx f i) else DEFINED) with (slot i).
    intros E. injection E as <- <-. split; [reflexivity|].
    unfold PInv. cbn [s_sh with_sh s_good s_found s_reports].
    repeat split; try assumption.
    + intros x Hx. destruct (Z.ltb_spec 0 (e_rz e)) as [Hr|Hr].
      * rewrite set_other by (assumption || zl).
        destruct (Z.eq_dec x (addr + i)) as [->|].
        -- rewrite set_same by assumption. f_equal. zl.
        -- rewrite set_other by assumption. apply H1. zl.
      * destruct (Z.eq_dec x (addr + i)) as [->|].
        -- rewrite set_same by assumption. f_equal. zl.
        -- rewrite set_other by assumption. apply H1. zl.
    + intros x Hx. destruct (Z.ltb_spec 0 (e_rz e)) as [Hr|Hr].
      * rewrite !set_other by (assumption || zl). apply H2. zl.
      * rewrite !set_other by (assumption || zl). apply H2. zl.
    + intros Hr x Hx. destruct (Z.ltb_spec 0 (e_rz e)) as [Hr'|Hr']; [|zl].
      destruct (Z.eq_dec x (addr + i - e_rz e)) as [->|].
      * now rewrite set_same.
      * rewrite !set_other by (assumption || zl). apply H3; zl.
  - intros E. injection E as <- <-. split; [reflexivity|].
    unfold step_write. rewrite Hpp, Hw, Hm. cbn [andb]. change (if f_values f then e_dst e (memref_idx f i) else DEFINED) with (slot i).
    match goal with |- PInv _ (if _ then with_sh ?t _ else _) => set (s1 := t) end.
    assert (HP : PInv i s1).
    { unfold s1.
      destruct (((e_rz e =? 0) || negb (s_sh s (addr + i - e_rz e) =? UNADDRESSABLE))
                && negb (s_push s)); [|repeat split; assumption].
      pose proof (fun x => push_low e addr sh Hmap (addr + i) (s_sh s) x) as HL.
      pose proof (fun x => push_redzone (addr + i) (s_sh s) x) as HZ.
      destruct (handle_push_addressable e (addr + i) addr (s_sh s)) as [h t].
      cbn [snd] in HL, HZ. unfold PInv. cbn [s_sh s_good s_found s_reports].
      repeat split; try assumption.
      - intros x Hx. rewrite HL by zl. apply H1. zl.
      - intros x Hx. rewrite HL by zl. apply H2. zl.
      - intros Hr x Hx. apply HZ; try zl; apply H3; zl. }
    assert (Hv0 : v = sh (addr + i)) by (apply H2; zl).
    clearbody s1 v. clear H1 H2 H3 H4 H5 H6.
    destruct HP as (H1 & H2 & H3 & H4 & H5 & H6).
    destruct (Z.ltb_spec 0 (e_rz e)) as [Hr|Hr].
    + unfold PInv. cbn [s_sh with_sh s_good s_found s_reports].
      repeat split; try assumption.
      * intros x Hx. rewrite set_other by (assumption || zl).
        destruct (Z.eq_dec x (addr + i)) as [->|].
        -- rewrite set_same by assumption. f_equal. zl.
        -- rewrite set_other by assumption. apply H1. zl.
      * intros x Hx. rewrite !set_other by (assumption || zl). apply H2. zl.
      * intros _ x Hx. destruct (Z.eq_dec x (addr + i - e_rz e)) as [->|].
        -- now rewrite set_same.
        -- rewrite !set_other by (assumption || zl). apply H3; zl.
    + assert (Hz : e_rz e = 0) by zl. destruct (Hbit Hz i Hi) as [B1 B2].
      assert (Hv : s_sh s1 (addr + i) = sh (addr + i)) by (apply H2; zl).
      assert (Hk : slot i <> BITLEVEL).
      { unfold MemRef_Spec.slot. destruct (f_values f); [now apply B2|discriminate]. }
      destruct (Z.eqb_spec v BITLEVEL) as [Eb|Eb]; [congruence|].
      destruct (Z.eqb_spec (slot i) BITLEVEL) as [Ek|Ek]; [contradiction|].
      cbn [orb]. destruct (Z.eqb_spec v (slot i)) as [Eq|Ne].
      * repeat split; try assumption.
        -- intros x Hx. destruct (Z.eq_dec x (addr + i)) as [->|].
           ++ replace (addr + i - addr) with i by zl. congruence.
           ++ apply H1. zl.
        -- intros x Hx. apply H2. zl.
        -- intros H. zl.
      * unfold PInv. cbn [s_sh with_sh s_good s_found s_reports].
        repeat split; try assumption.
        -- intros x Hx. destruct (Z.eq_dec x (addr + i)) as [->|].
           ++ rewrite set_same by assumption. f_equal. zl.
           ++ rewrite set_other by assumption. apply H1. zl.
        -- intros x Hx. rewrite set_other by (assumption || zl). apply H2. zl.
        -- intros H. zl.
Qed.

Lemma push_ok :
  exists o, handle_mem_ref e f addr sz sh = Ok o /\
    o_clean o = true /\ o_reports o = nil /\
    (forall x, addr <= x < addr + sz -> o_shadow o x = slot (x - addr)) /\
    (forall x, addr + sz <= x -> o_shadow o x = sh x) /\
    (0 < e_rz e -> forall x, addr - e_rz e <= x < addr - e_rz e + sz ->
       o_shadow o x = UNDEFINED).
Proof.
  unfold handle_mem_ref.
  destruct (loop_rule e f addr sz sh Hmap PInv (PInv sz) (S (Z.to_nat sz)) 0 (init sh))
    as (t & Ht & (H1 & H2 & H3 & H4 & H5 & H6)).
  - zl.
  - zl.
  - repeat split; cbn [init s_sh]; intros; try zl; reflexivity.
  - intros j t t' b Hj HP E. destruct (push_step j t t' b Hj HP E) as [-> H]. exact H.
  - intros t H. exact H.
  - rewrite Ht. cbn [bind]. eexists. split; [reflexivity|].
    cbn [o_clean o_reports o_shadow]. rewrite H5, H6. repeat split; assumption.
Qed.
End Push.

Section Pop.
Hypothesis Hw : f_write f = false.
Hypothesis Hc : f_checkaddr f = false.
Hypothesis Habort : f_abort f = false.

Local Notation popped := (popped e).

Lemma pop_step i s s' b x :
  0 <= i < sz -> step e f addr i s = (s', b) ->
  s_sh s' x =
    if negb (s_sh s (addr + i) =? UNADDRESSABLE) && (x =? addr + i) then popped
    else if negb (s_sh s (addr + i) =? UNADDRESSABLE) && (0 <? e_rz e) &&
            (x =? addr + i - e_rz e) then UNADDRESSABLE
    else if negb (s_sh s (addr + i) =? UNADDRESSABLE) || negb (x =? addr + i)
         then after e f (addr + i) (s_sh s (addr + i)) x (s_sh s x)
         else s_sh s' x.
Proof.
  intros Hi E. pose proof (step_nobreak e f addr Habort _ _ _ _ E). subst b.
  unfold step in E. set (v := s_sh s (addr + i)) in *. rewrite Hw, Hc in E.
  unfold after, is_push, is_read. rewrite Hpp, Hw, Hc. cbn [andb negb orb] in *.
  destruct (Z.eqb_spec v UNADDRESSABLE) as [Ev|Ev]; cbn [andb negb orb].
  - destruct (Z.eqb_spec x (addr + i)) as [->|Hx]; cbn [negb]; [reflexivity|].
    unfold step_unaddr in E. rewrite Hpp, Hw in E. cbn [andb] in E.
    destruct (e_unaddr e (addr + i)) as [ok m]. cbn [snd].
    destruct ok.
    + injection E as <-. destruct (f_values f); reflexivity.
    + destruct (note_bad f true (addr + i) _) as [s2 b2] eqn:En.
      pose proof (note_bad_sh _ _ _ _ _ _ En) as Hs2. cbn [s_sh with_sh] in Hs2.
      destruct b2; [discriminate|].
      rewrite (note_bad_type _ _ _ _ _ En) in E. cbn [negb] in E.
      rewrite andb_false_r in E.
      injection E as <-. destruct (f_values f); cbn [s_sh]; rewrite Hs2; reflexivity.
  - unfold step_read in E. rewrite Hpp in E.
    match type of E with (let '(_, _) := (let '(_, _) := ?c in _) in _) = _ =>
        destruct c as [s1 b1] eqn:Ei end.
    destruct b1; [discriminate|].
    assert (H0 : s_sh s' = if 0 <? e_rz e
        then set_byte e (set_byte e (s_sh s1) (addr + i) UNDEFINED)
               (addr + i - e_rz e) UNADDRESSABLE
        else set_byte e (s_sh s1) (addr + i) UNADDRESSABLE).
    { injection E as <-. destruct (f_values f); reflexivity. }
    rewrite H0. clear E H0.
    assert (H1 : x <> addr + i -> s_sh s1 x =
       if v =? UNDEFINED
       then match snd (e_undef e (addr + i)) x with Some u => u | None => s_sh s x end
       else s_sh s x).
    { intros Hx. destruct (Z.eqb_spec v UNDEFINED) as [Eu|Eu].
      - destruct (e_undef e (addr + i)) as [ok m]. cbn [snd].
        destruct (negb ok && f_checkdef f).
        + destruct (note_bad f false (addr + i) _) as [s2 b2] eqn:En.
          pose proof (note_bad_sh _ _ _ _ _ _ En) as Hs2. cbn [s_sh with_sh] in Hs2.
          destruct b2; [discriminate|]. injection Ei as <-.
          destruct (e_leave e); [now rewrite Hs2|].
          cbn [s_sh with_sh]. rewrite set_other by assumption. now rewrite Hs2.
        + injection Ei as <-. reflexivity.
      - destruct (f_checkdef f && (v =? BITLEVEL)); injection Ei as <-; reflexivity. }
    rewrite andb_true_r.
    unfold MemRef_Spec.popped.
    destruct (Z.ltb_spec 0 (e_rz e)) as [Hr|Hr]; cbn [andb].
    + destruct (Z.eqb_spec x (addr + i)) as [->|Hx].
      * rewrite set_other by (assumption || zl). now apply set_same.
      * destruct (Z.eqb_spec x (addr + i - e_rz e)) as [->|Hx2].
        -- now apply set_same.
        -- rewrite !set_other by assumption. now apply H1.
    + destruct (Z.eqb_spec x (addr + i)) as [->|Hx].
      * now apply set_same.
      * rewrite !set_other by assumption. now apply H1.
Qed.

Definition QInv (i : Z) (s : st) : Prop :=
  (forall x, addr + i <= x -> s_sh s x = world e f addr sh (Z.to_nat i) x) /\
  (forall x, addr <= x < addr + i -> state_at e f addr sh x <> UNADDRESSABLE ->
     untouched e addr sz (x + 1) x -> s_sh s x = popped) /\
  (forall x, addr <= x < addr + i -> state_at e f addr sh x <> UNADDRESSABLE ->
     0 < e_rz e -> untouched e addr sz (x + 1) (x - e_rz e) ->
     s_sh s (x - e_rz e) = UNADDRESSABLE).

Lemma pop_inv i s s' b :
  0 <= i < sz -> QInv i s -> step e f addr i s = (s', b) ->
  b = false /\ QInv (i + 1) s'.
Proof.
  intros Hi (H1 & H2 & H3) E.
  pose proof (step_nobreak e f addr Habort _ _ _ _ E). subst b.
  split; [reflexivity|].
  pose proof (fun x => pop_step i s s' false x Hi E) as HS.
  assert (Hv : state_at e f addr sh (addr + i) = s_sh s (addr + i)).
  { unfold state_at. replace (addr + i - addr) with i by zl.
    symmetry. apply H1. zl. }
  repeat split.
  - intros x Hx. rewrite (step_ahead e f addr sh Hmap ltac:(zl) i s s' false x)
      by (assumption || zl).
    replace (Z.to_nat (i + 1)) with (S (Z.to_nat i)) by zl. cbn [world].
    rewrite Z2Nat.id by zl. rewrite <- !H1 by zl. reflexivity.
  - intros x Hx Ha Hu. rewrite HS.
    destruct (Z.eqb_spec x (addr + i)) as [->|Hne].
    + destruct (Z.eqb_spec (s_sh s (addr + i)) UNADDRESSABLE) as [Eq|]; [congruence|].
      reflexivity.
    + rewrite andb_false_r.
      assert (Hz : (0 <? e_rz e) && (x =? addr + i - e_rz e) = false).
      { destruct (Z.ltb_spec 0 (e_rz e)); [|reflexivity].
        destruct (Z.eqb_spec x (addr + i - e_rz e)); [zl|reflexivity]. }
      rewrite <- andb_assoc, Hz, andb_false_r. cbn [negb]. rewrite orb_true_r.
      rewrite after_none by (apply Hu; zl). apply H2; [zl|assumption|assumption].
  - intros x Hx Ha Hr Hu. rewrite HS.
    destruct (Z.eqb_spec (x - e_rz e) (addr + i)) as [|Hne]; [zl|].
    rewrite andb_false_r.
    destruct (Z.eq_dec x (addr + i)) as [->|Hne2].
    + destruct (Z.eqb_spec (s_sh s (addr + i)) UNADDRESSABLE) as [Eq|]; [congruence|].
      destruct (Z.ltb_spec 0 (e_rz e)); [|zl]. rewrite Z.eqb_refl. reflexivity.
    + destruct (Z.eqb_spec (x - e_rz e) (addr + i - e_rz e)); [zl|].
      rewrite andb_false_r. cbn [negb]. rewrite orb_true_r.
      rewrite after_none by (apply Hu; zl). apply H3; [zl|assumption|assumption|assumption].
Qed.

Lemma pop_ok :
  exists o, handle_mem_ref e f addr sz sh = Ok o /\
    (forall x, addr <= x < addr + sz -> state_at e f addr sh x <> UNADDRESSABLE ->
       untouched e addr sz (x + 1) x -> o_shadow o x = popped) /\
    (forall x, addr <= x < addr + sz -> state_at e f addr sh x <> UNADDRESSABLE ->
       0 < e_rz e -> untouched e addr sz (x + 1) (x - e_rz e) ->
       o_shadow o (x - e_rz e) = UNADDRESSABLE).
Proof.
  unfold handle_mem_ref.
  destruct (loop_rule e f addr sz sh Hmap QInv (QInv sz) (S (Z.to_nat sz)) 0 (init sh))
    as (t & Ht & (H1 & H2 & H3)).
  - zl.
  - zl.
  - repeat split; cbn [init s_sh]; intros; try zl; reflexivity.
  - intros j t t' b Hj HP E. destruct (pop_inv j t t' b Hj HP E) as [-> H]. exact H.
  - intros t H. exact H.
  - rewrite Ht. cbn [bind]. eexists. split; [reflexivity|].
    cbn [o_shadow]. split; assumption.
Qed.
End Pop.
End PushPop.

(** * One state per aligned 4-byte word *)
Section Word.
Context (e : env) (f : flags) (addr sz : Z) (sh : Z -> Z).
Hypothesis Hmap : e_map4 e = true.
Hypothesis Hsz : 0 <= sz.
Hypothesis Hpp : f_pushpop f = false.
Hypothesis Hc : f_checkaddr f = true.
Hypothesis Habort : f_abort f = false.
Hypothesis Hmarks : forall a x, snd (e_unaddr e a) x = None.
Hypothesis Hword : forall x y, same_word x y ->
  sh x = sh y /\ fst (e_unaddr e x) = fst (e_unaddr e y).

Local Notation wbad := (word_bad e sh).

(** Bytes decided when the loop counter is [i]. *)
Definition upto (i : Z) : Z := Z.min (if i =? 0 then 0 else i - 1) sz.

Definition WInv (i : Z) (s : st) : Prop :=
  (forall x, s_sh s x = sh x) /\
  (i = 0 \/ 2 <= i /\ (addr + i) mod 4 = 1) /\
  (s_found s = true -> s_type s = true /\ s_end s < addr + i - 1) /\
  (s_found s = false -> s_reports s = nil) /\
  Forall (fun r : report => let '(k, st, l) := r in
    k = true /\ addr <= st /\ 0 < l /\ st + l <= addr + upto i /\
    forall x, st <= x < st + l -> wbad x = true) (pending s) /\
  (forall x, addr <= x < addr + upto i ->
     covers true x (pending s) =
       if wbad x && ((x =? addr) || negb (x mod 4 =? 0)) then 1%nat else 0%nat) /\
  (s_good s = true <-> forall x, addr <= x < addr + upto i -> wbad x = false).

Lemma word_step i s s' b :
  (forall x, s_sh s x = sh x) ->
  step e f addr i s = (s', b) ->
  b = false /\ (forall x, s_sh s' x = sh x) /\
  if wbad (addr + i)
  then same_book (fst (note_bad f true (addr + i) s)) s'
  else same_book s s'.
Proof.
  intros Hs E. pose proof (step_nobreak e f addr Habort _ _ _ _ E). subst b.
  split; [reflexivity|].
  assert (Hb : is_read f = true -> f_checkdef f = true -> s_sh s (addr + i) <> BITLEVEL).
  { unfold is_read. rewrite Hc, orb_true_r. discriminate. }
  pose proof (step_book e f addr sh _ _ _ _ Hb E) as HB. cbv zeta in HB.
  unfold is_push, is_read in HB. rewrite Hpp, Hc, orb_true_r, Hs in HB.
  cbn [negb andb] in HB. rewrite andb_true_r, andb_false_r in HB. cbn [andb] in HB.
  split.
  - intros x. unfold step in E.
    rewrite Hc, orb_true_r in E. cbn [negb] in E.
    assert (Hd : forall t : st, forall q : bool, forall l, s_sh (if q then
                 {| s_sh := s_sh t; s_good := s_good t; s_found := s_found t;
                    s_type := s_type t; s_addr := s_addr t; s_end := s_end t;
                    s_push := s_push t; s_reports := s_reports t;
                    s_fed := l |} else t) = s_sh t)
      by (intros t []; reflexivity).
    assert (Ham : apply_marks (snd (e_unaddr e (addr + i))) (s_sh s) x = s_sh s x).
    { unfold apply_marks. now rewrite Hmarks. }
    destruct (s_sh s (addr + i) =? UNADDRESSABLE).
    + unfold step_unaddr in E. rewrite Hpp in E. cbn [andb] in E.
      destruct (e_unaddr e (addr + i)) as [ok m]. cbn [snd] in Ham. destruct ok.
      * injection E as <-.
        destruct (negb (f_write f) && f_values f); cbn [s_sh with_sh]; now rewrite Ham.
      * destruct (note_bad f true (addr + i) _) as [s2 b2] eqn:En.
        pose proof (note_bad_sh _ _ _ _ _ _ En) as Hs2. cbn [s_sh with_sh] in Hs2.
        destruct b2; [discriminate|].
        rewrite (note_bad_type _ _ _ _ _ En) in E. cbn [negb] in E.
        rewrite andb_false_r in E. injection E as <-. rewrite Hd, Hs2, Ham. apply Hs.
    + injection E as <-. rewrite Hd. apply Hs.
  - unfold word_bad. destruct ((sh (addr + i) =? UNADDRESSABLE) &&
                           negb (fst (e_unaddr e (addr + i)))); apply HB.
Qed.

Lemma wbad_word x y : x / 4 = y / 4 -> wbad x = wbad y.
Proof.
  intros H. unfold word_bad. destruct (Hword x y H) as [-> ->]. reflexivity.
Qed.

Lemma align4_next a : a < align4 (a + 1) /\ align4 (a + 1) mod 4 = 0 /\
  (forall x, a <= x < align4 (a + 1) -> x / 4 = a / 4).
Proof.
  unfold align4. assert (H := Z.div_mod (a + 1 + 3) 4 ltac:(lia)).
  assert (H1 := Z.mod_pos_bound (a + 1 + 3) 4 ltac:(lia)).
  set (q := (a + 1 + 3) / 4) in *.
  assert (Hq : a / 4 = q - 1).
  { symmetry. apply (Z.div_unique a 4 (q - 1) (a - 4 * (q - 1))); lia. }
  split; [lia|]. split.
  - apply Z.mod_mul. lia.
  - intros x Hx. rewrite Hq. symmetry. apply (Z.div_unique x 4 (q - 1) (x - 4 * (q - 1))).
    + lia.
    + lia.
Qed.

Lemma covers_cons k s l L x :
  covers true x ((k, s, l) :: L) =
    if k && (s <=? x) && (x <? s + l) then S (covers true x L) else covers true x L.
Proof.
  unfold covers. cbn [filter].
  replace (Bool.eqb k true) with k by (destruct k; reflexivity).
  destruct (k && (s <=? x) && (x <? s + l)); reflexivity.
Qed.

Lemma covers_beyond L x hi :
  Forall (fun r : report => let '(k, st, l) := r in st + l <= hi) L ->
  hi <= x -> covers true x L = 0%nat.
Proof.
  intros HL Hx. induction L as [|[[k s] l] L IH]; [reflexivity|].
  apply Forall_cons_iff in HL as [H1 H2]. rewrite covers_cons, IH by exact H2.
  destruct (Z.ltb_spec x (s + l)); [lia|]. rewrite andb_false_r. reflexivity.
Qed.

Lemma word_inv i s s1 b i2 s2 :
  0 <= i < sz -> WInv i s -> step e f addr i s = (s1, b) ->
  advance e addr sz i s1 = (i2, s2) ->
  b = false /\ (i + 2 <= i2 <= i + 5 /\ (0 < i -> i2 <= i + 4)) /\ WInv i2 s2.
Proof.
  intros Hi (H1 & H2 & H3 & H4 & H5 & H6 & H7) E EA.
  destruct (word_step i s s1 b H1 E) as (-> & Hs1 & HB). split; [reflexivity|].
  destruct (align4_next (addr + i)) as (A1 & A2 & A3).
  unfold advance in EA. rewrite Hmap in EA.
  set (n := align4 (addr + i + 1)) in *.
  assert (Hi2 : i2 = n - addr + 1) by congruence.
  assert (Hn4 : (addr + i2) mod 4 = 1).
  { rewrite Hi2. replace (addr + (n - addr + 1)) with (n + 1) by zl.
    rewrite Z.add_mod, A2 by zl. reflexivity. }
  split.
  { assert (Hal : n <= addr + i + 4 /\ (0 < i -> n <= addr + i + 3)).
    { assert (Hd := Z.div_mod (addr + i + 1 + 3) 4 ltac:(zl)).
      assert (Hd1 := Z.mod_pos_bound (addr + i + 1 + 3) 4 ltac:(zl)).
      assert (Hn : n = (addr + i + 1 + 3) / 4 * 4) by reflexivity.
      split; [zl|]. intros Hpos. destruct H2 as [|[_ Hm]]; [zl|].
      assert (He := Z.div_mod (addr + i) 4 ltac:(zl)). rewrite Hm in He.
      assert ((addr + i + 1 + 3) / 4 = (addr + i) / 4 + 1); [|zl].
      symmetry. apply (Z.div_unique _ 4 _ 1); zl. }
    zl. }
  clearbody n.
  assert (Hup2 : upto i2 = Z.min (n - addr) sz).
  { unfold upto. destruct (Z.eqb_spec i2 0); zl. }
  assert (Hup : upto i = if i =? 0 then 0 else i - 1).
  { unfold upto. destruct (Z.eqb_spec i 0); zl. }
  assert (Hui : upto i <= i /\ i - 1 <= upto i)
    by (rewrite Hup; destruct (Z.eqb_spec i 0); zl).
  (* the bytes decided by this iteration *)
  assert (Hcell : forall x, addr + upto i <= x < addr + upto i2 ->
            wbad x = wbad (addr + i)).
  { intros x Hx. apply wbad_word. rewrite Hup, Hup2 in Hx.
    destruct (Z.eqb_spec i 0) as [->|Hi0].
    - apply A3. zl.
    - destruct H2 as [|[H2 Hm]]; [zl|].
      destruct (Z.eq_dec x (addr + i - 1)) as [->|].
      + assert (Hd := Z.div_mod (addr + i) 4 ltac:(zl)). rewrite Hm in Hd.
        symmetry. rewrite <- (Z.div_unique (addr + i - 1) 4 ((addr + i) / 4) 0); zl.
      + apply A3. zl. }
  assert (Hfirst : forall x, addr + upto i <= x < addr + upto i2 -> x < addr + i ->
            (x =? addr) || negb (x mod 4 =? 0) = false).
  { intros x Hx Hlt. rewrite Hup in Hx. destruct (Z.eqb_spec i 0) as [->|Hi0]; [zl|].
    destruct H2 as [|[H2 Hm]]; [zl|].
    assert (x = addr + i - 1) by zl. subst x.
    destruct (Z.eqb_spec (addr + i - 1) addr); [zl|]. cbn [orb].
    assert (Hd := Z.div_mod (addr + i) 4 ltac:(zl)). rewrite Hm in Hd.
    rewrite <- (Z.mod_unique (addr + i - 1) 4 ((addr + i) / 4) 0) by zl. reflexivity. }
  assert (Hrest : forall x, addr + i <= x < addr + upto i2 ->
            (x =? addr) || negb (x mod 4 =? 0) = true).
  { intros x Hx. rewrite Hup2 in Hx.
    destruct (Z.eqb_spec x addr) as [|Hxa]; [reflexivity|]. cbn [orb].
    destruct (Z.eqb_spec (x mod 4) 0) as [Hz|]; [exfalso|reflexivity].
    assert (Hq := A3 x ltac:(zl)).
    assert (Hdx := Z.div_mod x 4 ltac:(zl)). rewrite Hz in Hdx.
    assert (Hda := Z.div_mod (addr + i) 4 ltac:(zl)).
    assert (Hma := Z.mod_pos_bound (addr + i) 4 ltac:(zl)).
    destruct H2 as [->|[H2 Hm]]; [|zl].
    rewrite Z.add_0_r in *. zl. }
  destruct (wbad (addr + i)) eqn:Ebad.
  - (* a bad word *)
    assert (Hnote : note_bad f true (addr + i) s =
      ({| s_sh := s_sh s; s_good := false; s_found := true; s_type := true;
          s_addr := addr + i; s_end := addr + i; s_push := s_push s;
          s_reports := pending s; s_fed := s_fed s |}, false)).
    { unfold note_bad. rewrite Habort. cbn [andb].
      assert (Hex : s_found s && Bool.eqb (s_type s) true && negb (s_end s <? addr + i - 1)
                    = false).
      { destruct (s_found s) eqn:Ef; [|reflexivity]. destruct (H3 eq_refl) as [_ He].
        destruct (Z.ltb_spec (s_end s) (addr + i - 1)); [|zl].
        cbn [negb]. now rewrite andb_false_r. }
      rewrite Hex. cbn [negb]. rewrite andb_true_r. reflexivity. }
    rewrite Hnote in HB. cbn [fst] in HB.
    destruct HB as (B1 & B2 & B3 & B4 & B5 & B6).
    cbn [s_good s_found s_type s_addr s_end s_reports] in *.
    rewrite B5, Z.eqb_refl in EA.
    assert (Hs2 : s2 = {| s_sh := s_sh s1; s_good := s_good s1; s_found := s_found s1;
          s_type := s_type s1; s_addr := s_addr s1;
          s_end := addr + (if sz <? n - addr then sz else n - addr) - 1;
          s_push := s_push s1; s_reports := s_reports s1; s_fed := s_fed s1 |})
      by congruence.
    assert (Hend : addr + (if sz <? n - addr then sz else n - addr) - 1
                   = addr + upto i2 - 1).
    { rewrite Hup2. destruct (Z.ltb_spec sz (n - addr)); zl. }
    rewrite Hend, B1, B2, B3, B4, B6 in Hs2.
    assert (Hpe : pending s2 = (true, addr + i, upto i2 - i) :: pending s).
    { rewrite Hs2. unfold pending at 1, flush.
      cbn [s_good s_found s_type s_addr s_end s_reports]. f_equal. f_equal. zl. }
    assert (Hlt : i < upto i2) by zl.
    assert (Hbeyond : forall x, addr + upto i <= x -> covers true x (pending s) = 0%nat).
    { intros x Hx. apply (covers_beyond _ _ (addr + upto i)); [|exact Hx].
      eapply Forall_impl; [|exact H5]. intros [[k q] l]. cbn beta iota. tauto. }
    split; [intros x; rewrite Hs2; apply Hs1|].
    split; [right; split; [zl|exact Hn4]|].
    split; [rewrite Hs2; intros _; split; [reflexivity|cbn [s_end]; zl]|].
    split; [rewrite Hs2; discriminate|].
    rewrite Hpe. split; [|split].
    + constructor.
      * repeat split; try zl.
        intros x Hx. rewrite (Hcell x); [reflexivity|]. zl.
      * eapply Forall_impl; [|exact H5]. intros [[k q] l]. cbn beta iota.
        intros (Q1 & Q2 & Q3 & Q4 & Q5). repeat split; try assumption. zl.
    + intros x Hx. rewrite covers_cons. cbn [andb].
      destruct (Z_lt_dec x (addr + upto i)) as [Hold2|Hnew].
      * destruct (Z.leb_spec (addr + i) x); [zl|]. cbn [andb]. apply H6. zl.
      * rewrite Hbeyond by zl. rewrite (Hcell x) by zl. cbn [andb].
        destruct (Z.leb_spec (addr + i) x) as [Hge|Hge].
        -- destruct (Z.ltb_spec x (addr + i + (upto i2 - i))); [|zl]. cbn [andb].
           rewrite Hrest by zl. reflexivity.
        -- cbn [andb]. rewrite Hfirst by zl. reflexivity.
    + rewrite Hs2. cbn [s_good]. split; [discriminate|].
      intros Hall. rewrite Hall in Ebad by zl. discriminate.
  - (* a word that is fine *)
    assert (Hsame : same_book s1 s2 \/ s_found s1 = false /\ s_reports s2 = s_reports s1 /\
                    s_found s2 = false /\ s_good s2 = s_good s1).
    { destruct (Z.eqb_spec (s_end s1) (addr + i)) as [He|He].
      - right. destruct HB as (B1 & B2 & B3 & B4 & B5 & B6).
        assert (Hf : s_found s = false).
        { destruct (s_found s) eqn:Ef; [|reflexivity]. destruct (H3 eq_refl). zl. }
        injection EA as _ <-. cbn [s_found s_reports s_good].
        rewrite B2. repeat split; assumption.
      - left. injection EA as _ <-. apply same_book_refl. }
    assert (Hsh2 : forall x, s_sh s2 x = sh x).
    { intros x. destruct (s_end s1 =? addr + i); injection EA as _ <-; apply Hs1. }
    clear EA.
    assert (Hpe : pending s2 = pending s).
    { rewrite <- (same_book_pending s s1 HB). destruct Hsame as [Hsm|(F1 & F2 & F3 & F4)].
      - now apply same_book_pending.
      - unfold pending. now rewrite F1, F3. }
    assert (Hg : s_good s2 = s_good s).
    { destruct HB as (B1 & _). destruct Hsame as [(S1 & _)|(F1 & F2 & F3 & F4)]; congruence. }
    assert (Hf : s_found s2 = s_found s).
    { destruct HB as (_ & B2 & _).
      destruct Hsame as [(_ & S2 & _)|(F1 & F2 & F3 & F4)]; congruence. }
    assert (Hle : upto i <= upto i2) by zl.
    split; [exact Hsh2|].
    split; [right; split; [zl|exact Hn4]|].
    split.
    { rewrite Hf. intros Ef. destruct (H3 Ef) as [T1 T2].
      destruct HB as (_ & B2 & B3 & _ & B5 & _).
      destruct Hsame as [(_ & _ & S3 & _ & S5 & _)|(F1 & F2 & F3 & F4)]; [|congruence].
      split; [congruence|]. rewrite S5, B5. zl. }
    split.
    { rewrite Hf. intros Ef. destruct HB as (_ & _ & _ & _ & _ & B6).
      destruct Hsame as [(_ & _ & _ & _ & _ & S6)|(F1 & F2 & F3 & F4)];
        rewrite ?S6, ?F2, B6; now apply H4. }
    rewrite Hpe, Hg. split; [|split].
    + eapply Forall_impl; [|exact H5]. intros [[k q] l]. cbn beta iota.
      intros (Q1 & Q2 & Q3 & Q4 & Q5). repeat split; try assumption. zl.
    + intros x Hx. destruct (Z_lt_dec x (addr + upto i)) as [Hold2|Hnew].
      * apply H6. zl.
      * rewrite (Hcell x) by zl. cbn [andb].
        apply (covers_beyond _ _ (addr + upto i)); [|zl].
        eapply Forall_impl; [|exact H5]. intros [[k q] l]. cbn beta iota. tauto.
    + rewrite H7. split; intros Hall x Hx.
      * destruct (Z_lt_dec x (addr + upto i)); [apply Hall; zl|].
        rewrite (Hcell x) by zl. reflexivity.
      * apply Hall. zl.
Qed.

Lemma word_loop fuel i s :
  0 <= i -> (Z.to_nat (sz - i) < fuel)%nat -> i <= sz + 3 \/ sz <= 1 -> WInv i s ->
  exists j t, loop fuel e f addr sz i s = Ok t /\ sz <= j /\
    (j <= sz + 3 \/ sz <= 1) /\ WInv j t.
Proof.
  revert i s. induction fuel as [|k IH]; intros i s Hi Hf Hb HI; [lia|].
  cbn [loop]. destruct (Z.ltb_spec i sz) as [Hlt|Hge].
  - destruct (step e f addr i s) as [s1 b] eqn:E.
    destruct (advance e addr sz i s1) as [i2 s2] eqn:EA.
    destruct (word_inv i s s1 b i2 s2 ltac:(lia) HI E EA) as (-> & H2 & H3).
    apply IH; [lia|lia|lia|exact H3].
  - exists i, s. split; [reflexivity|]. split; [exact Hge|]. split; assumption.
Qed.

Local Notation looked_at := (looked_at addr sz).

Lemma word_ok :
  exists o, handle_mem_ref e f addr sz sh = Ok o /\
    (o_clean o = true <-> forall x, addr <= x < addr + looked_at -> wbad x = false) /\
    (forall k st l, In (k, st, l) (o_reports o) ->
       k = true /\ addr <= st /\ 0 < l /\ st + l <= addr + looked_at /\
       forall x, st <= x < st + l -> wbad x = true) /\
    (forall x, addr <= x < addr + looked_at ->
       covers true x (rev (o_reports o)) =
         if wbad x && ((x =? addr) || negb (x mod 4 =? 0)) then 1%nat else 0%nat).
Proof.
  unfold handle_mem_ref.
  destruct (word_loop (S (Z.to_nat sz)) 0 (init sh)) as (j & t & Ht & Hj & Hj3 & HI).
  - lia.
  - lia.
  - lia.
  - split; [reflexivity|]. split; [now left|]. split; [discriminate|].
    split; [reflexivity|]. split; [constructor|].
    assert (Hu : upto 0 = 0) by (unfold upto; cbn; lia). rewrite Hu.
    split; [intros x Hx; lia|]. split; [intros _ x Hx; lia|reflexivity].
  - destruct HI as (_ & H2 & _ & _ & H5 & H6 & H7).
    assert (Hup : upto j = looked_at).
    { unfold upto, MemRef_Spec.looked_at.
      destruct (Z.eqb_spec j 0) as [->|Hj0].
      - assert (Hz : sz = 0) by lia. rewrite Hz. reflexivity.
      - destruct H2 as [|[H2 Hm]]; [lia|].
        destruct (Z.eqb_spec ((addr + sz) mod 4) 1) as [E1|E1].
        + destruct (Z.ltb_spec 1 sz); cbn [andb]; [|lia].
          destruct (Z.eq_dec j sz) as [->|Hne]; [lia|]. exfalso.
          assert (D1 := Z.div_mod (addr + j) 4 ltac:(lia)). rewrite Hm in D1.
          assert (D2 := Z.div_mod (addr + sz) 4 ltac:(lia)). rewrite E1 in D2. lia.
        + rewrite andb_false_r. destruct (Z.eq_dec j sz) as [->|]; [contradiction|]. lia. }
    rewrite Ht. cbn [bind]. eexists. split; [reflexivity|].
    cbn [o_clean o_reports]. rewrite Hup in *. split; [exact H7|]. split.
    + intros k q l HIn. apply in_rev in HIn. rewrite Forall_forall in H5.
      exact (H5 _ HIn).
    + intros x Hx. rewrite rev_involutive. now apply H6.
Qed.
End Word.
