(** Proofs about the loop over one access: the reports and the result. *)
From Verif Require Import Base MemRef_Model MemRef_Spec.
Open Scope Z_scope.

Section Loop.
Context (e : env) (f : flags) (addr sz : Z) (sh : Z -> Z).
Hypothesis Hmap : e_map4 e = false.
Hypothesis Hrz : 0 <= e_rz e.
Hypothesis Hsz : 0 <= sz.

Lemma loop_rule (P : Z -> st -> Prop) (Q : st -> Prop) fuel i s :
  0 <= i <= sz -> (Z.to_nat (sz - i) < fuel)%nat ->
  P i s ->
  (forall j t t' b, 0 <= j < sz -> P j t -> step e f addr j t = (t', b) ->
     if b then Q t' else P (j + 1) t') ->
  (forall t, P sz t -> Q t) ->
  exists t, loop fuel e f addr sz i s = Ok t /\ Q t.
Proof.
  revert i s. induction fuel as [|k IH]; intros i s Hi Hf HP Hstep Hend; [lia|].
  cbn [loop]. destruct (Z.ltb_spec i sz) as [Hlt|Hge].
  - destruct (step e f addr i s) as [t b] eqn:E.
    specialize (Hstep i s t b ltac:(lia) HP E) as Hs. destruct b.
    + eauto.
    + unfold advance. rewrite Hmap. apply IH; try assumption; lia.
  - assert (i = sz) by lia. subst i. eauto.
Qed.

Lemma set_byte_val s0 a v x :
  set_byte e s0 a v x = if x =? a then v else s0 x.
Proof. unfold set_byte. now rewrite Hmap. Qed.

(** What [note_bad] leaves alone. *)
Lemma note_bad_sh g u a s s' b : note_bad g u a s = (s', b) -> s_sh s' = s_sh s.
Proof.
  unfold note_bad. destruct (_ && _); intros E; injection E as <- <-; reflexivity.
Qed.

Lemma note_bad_type g u a s s' :
  note_bad g u a s = (s', false) -> s_type s' = u.
Proof.
  unfold note_bad. destruct (f_abort g && _ && _ && _); [discriminate|].
  intros E. injection E as <-. cbn [s_type].
  destruct (s_found s), (s_type s), u, (s_end s <? a - 1); reflexivity.
Qed.

(** Everything the step does to bytes not yet reached. *)
Lemma push_low a s0 x :
  addr <= x -> snd (handle_push_addressable e a addr s0) x = s0 x.
Proof.
  intros Hx. unfold handle_push_addressable.
  destruct (e_check_push e); [|reflexivity].
  destruct (e_bounds e a) as [[lo len]|]; [|reflexivity].
  cbn [snd]. destruct (0 <? e_rz e).
  - unfold set_range.
    destruct (Z.leb_spec (addr - (if addr - e_rz e <? lo then addr - lo else e_rz e)) x);
      destruct (Z.ltb_spec x addr); cbn [andb]; try lia;
      destruct (Z.leb_spec (if a - PAGE <? lo then lo else a - PAGE) x);
      cbn [andb]; reflexivity.
  - unfold set_range.
    destruct (Z.leb_spec (if a - PAGE <? lo then lo else a - PAGE) x);
      destruct (Z.ltb_spec x addr); cbn [andb]; try reflexivity; lia.
Qed.

Ltac sets := repeat rewrite set_byte_val.
Ltac eqs := repeat match goal with
  | |- context [?x =? ?y] => destruct (Z.eqb_spec x y); try lia
  end.

Lemma step_ahead i s s' b x :
  0 <= i -> addr + i < x ->
  step e f addr i s = (s', b) ->
  s_sh s' x = after e f (addr + i) (s_sh s (addr + i)) x (s_sh s x).
Proof.
  intros Hi Hx. unfold step.
  set (v := s_sh s (addr + i)).
  unfold after, is_push, is_read.
  destruct (Z.eqb_spec v UNADDRESSABLE) as [Ev|Ev].
  - unfold step_unaddr.
    destruct (f_pushpop f && f_write f) eqn:Ep.
    + cbn [negb andb].
      intros E. injection E as <- <-.
      replace (v =? UNDEFINED) with false
        by (symmetry; apply Z.eqb_neq; rewrite Ev; discriminate).
      cbn [andb].
      destruct (negb (f_write f) && f_values f); cbn [s_sh with_sh];
        destruct (0 <? e_rz e); sets; eqs; reflexivity.
    + cbn [negb andb].
      destruct (e_unaddr e (addr + i)) as [ok m]. cbn [snd].
      destruct ok.
      * intros E. injection E as <- <-.
        destruct (negb (f_write f) && f_values f); reflexivity.
      * destruct (note_bad f true (addr + i) _) as [s2 b2] eqn:En.
        pose proof (note_bad_sh _ _ _ _ _ _ En) as Hs2. cbn [s_sh with_sh] in Hs2.
        destruct b2.
        { intros E. injection E as <- <-. now rewrite Hs2. }
        rewrite (note_bad_type _ _ _ _ _ En). cbn [negb]. rewrite andb_false_r.
        intros E. injection E as <- <-.
        destruct (negb (f_write f) && f_values f); cbn [s_sh]; now rewrite Hs2.
  - cbn [andb].
    destruct (f_write f || f_checkaddr f) eqn:Ew; cbn [negb].
    + rewrite andb_false_r.
      destruct (f_checkaddr f) eqn:Ec; cbn [negb].
      * intros E. injection E as <- <-.
        destruct (negb (f_write f) && f_values f); reflexivity.
      * intros E. injection E as <- <-.
        assert (Hw : s_sh (step_write e f addr i v s) x = s_sh s x).
        { unfold step_write.
          set (s1 := if f_pushpop f && _ && _ then _ else s).
          assert (H1 : s_sh s1 x = s_sh s x).
          { unfold s1. destruct (f_pushpop f && _ && _); [|reflexivity].
            destruct (handle_push_addressable e (addr + i) addr (s_sh s)) as [h t] eqn:Eh.
            cbn [s_sh]. change t with (snd (h, t)). rewrite <- Eh.
            apply push_low. lia. }
          clearbody s1. clear Ew.
          destruct (f_pushpop f && f_write f && (0 <? e_rz e)).
          - cbn [s_sh with_sh]. sets. eqs; try exact H1.
          - destruct (_ || _); [exact H1|].
            destruct (v =? _); [exact H1|].
            cbn [s_sh with_sh]. sets. eqs; try exact H1. }
        destruct (negb (f_write f) && f_values f); exact Hw.
    + rewrite andb_true_r. unfold step_read.
      apply orb_false_iff in Ew as [Ew Ec]. rewrite Ew. cbn [negb andb].
      assert (Hd : forall t, s_sh (if f_values f then
                 {| s_sh := s_sh t; s_good := s_good t; s_found := s_found t;
                    s_type := s_type t; s_addr := s_addr t; s_end := s_end t;
                    s_push := s_push t; s_reports := s_reports t;
                    s_fed := (memref_idx f i, v) :: s_fed t |} else t) = s_sh t)
        by (intros t; destruct (f_values f); reflexivity).
      match goal with |- (let '(_, _) := (let '(_, _) := ?c in _) in _) = _ -> ?g =>
        destruct c as [s1 b1] eqn:Ei end.
      intros E.
      enough (H1 : s_sh s1 x = if v =? UNDEFINED
          then match snd (e_undef e (addr + i)) x with Some u => u | None => s_sh s x end
          else s_sh s x).
      { rewrite <- H1. destruct b1; cbn [fst snd] in E.
        - injection E as <- <-. reflexivity.
        - destruct (f_pushpop f); injection E as <- <-; [|now rewrite Hd].
          destruct (f_values f); cbn [s_sh with_sh];
            destruct (0 <? e_rz e); sets; eqs; reflexivity. }
      clear E. destruct (Z.eqb_spec v UNDEFINED) as [Eu|Eu].
      * destruct (e_undef e (addr + i)) as [ok m]. cbn [snd].
        destruct (negb ok && f_checkdef f).
        -- destruct (note_bad f false (addr + i) _) as [s2 b2] eqn:En.
           pose proof (note_bad_sh _ _ _ _ _ _ En) as Hs2. cbn [s_sh with_sh] in Hs2.
           destruct b2; injection Ei as <- <-; [now rewrite Hs2|].
           destruct (e_leave e); [now rewrite Hs2|].
           cbn [s_sh with_sh]. sets. eqs; try now rewrite Hs2.
        -- injection Ei as <- <-. reflexivity.
      * destruct (f_checkdef f && (v =? BITLEVEL)); injection Ei as <- <-; reflexivity.
Qed.

(** The bookkeeping part of one step. *)
Definition same_book (s s' : st) : Prop :=
  s_good s' = s_good s /\ s_found s' = s_found s /\ s_type s' = s_type s /\
  s_addr s' = s_addr s /\ s_end s' = s_end s /\ s_reports s' = s_reports s.

Lemma same_book_refl s : same_book s s.
Proof. repeat split. Qed.

Lemma step_book i s s' b :
  (is_read f = true -> f_checkdef f = true -> s_sh s (addr + i) <> BITLEVEL) ->
  step e f addr i s = (s', b) ->
  let v := s_sh s (addr + i) in
  if (v =? UNADDRESSABLE) && negb (is_push f) && negb (fst (e_unaddr e (addr + i)))
  then same_book (fst (note_bad f true (addr + i) s)) s' /\
       b = snd (note_bad f true (addr + i) s)
  else if (v =? UNDEFINED) && is_read f && f_checkdef f &&
          negb (fst (e_undef e (addr + i)))
  then same_book (fst (note_bad f false (addr + i) s)) s' /\
       b = snd (note_bad f false (addr + i) s)
  else same_book s s' /\ b = false.
Proof.
  intros Hbit. unfold step. cbv zeta.
  set (v := s_sh s (addr + i)) in *.
  unfold is_push, is_read in *.
  assert (Hd : forall t, same_book t (if negb (f_write f) && f_values f then
                 {| s_sh := s_sh t; s_good := s_good t; s_found := s_found t;
                    s_type := s_type t; s_addr := s_addr t; s_end := s_end t;
                    s_push := s_push t; s_reports := s_reports t;
                    s_fed := (memref_idx f i, v) :: s_fed t |} else t))
    by (intros t; destruct (negb (f_write f) && f_values f); repeat split).
  assert (Hn : forall u sh1, same_book (fst (note_bad f u (addr + i) s))
                                   (fst (note_bad f u (addr + i) (with_sh s sh1))) /\
                       snd (note_bad f u (addr + i) (with_sh s sh1)) =
                       snd (note_bad f u (addr + i) s)).
  { intros u sh1. unfold note_bad, flush, with_sh.
    cbn [s_found s_type s_end s_addr s_reports s_sh s_good s_fed s_push].
    destruct (f_abort f && _ && _ && _); cbn [fst snd]; repeat split. }
  assert (Ht : forall a b0 c, same_book a b0 -> same_book b0 c -> same_book a c).
  { unfold same_book. intuition congruence. }
  destruct (Z.eqb_spec v UNADDRESSABLE) as [Ev|Ev].
  - replace (v =? UNDEFINED) with false
      by (symmetry; apply Z.eqb_neq; rewrite Ev; discriminate).
    cbn [andb]. unfold step_unaddr.
    destruct (f_pushpop f && f_write f) eqn:Ep; cbn [negb andb].
    + intros E. injection E as <- <-. split; [|reflexivity].
      destruct (negb (f_write f) && f_values f); repeat split.
    + destruct (e_unaddr e (addr + i)) as [ok m]. cbn [fst].
      destruct ok; cbn [negb andb].
      * intros E. injection E as <- <-. split; [|reflexivity].
        destruct (negb (f_write f) && f_values f); repeat split.
      * specialize (Hn true (apply_marks m (s_sh s))).
        destruct (note_bad f true (addr + i) (with_sh s _)) as [s2 b2].
        cbn [fst snd] in Hn. destruct Hn as [Hn Hb]. destruct b2.
        { intros E. injection E as <- <-. split; assumption. }
        destruct (negb (e_on_stack e (addr + i)) && negb (s_type s2));
          intros E; injection E as <- <-; (split; [|exact Hb]);
          (eapply Ht; [exact Hn|]); destruct (negb (f_write f) && f_values f); repeat split.
  - cbn [andb].
    destruct (f_write f || f_checkaddr f) eqn:Ew; cbn [negb].
    + rewrite andb_false_r. cbn [andb].
      destruct (f_checkaddr f) eqn:Ec; cbn [negb].
      * intros E. injection E as <- <-. split; [apply Hd|reflexivity].
      * intros E. injection E as <- <-. split; [|reflexivity].
        eapply Ht; [|apply Hd]. unfold step_write.
        set (s1 := if f_pushpop f && _ && _ then _ else s).
        assert (H1 : same_book s s1).
        { unfold s1. destruct (f_pushpop f && _ && _); [|apply same_book_refl].
          destruct (handle_push_addressable e (addr + i) addr (s_sh s)). repeat split. }
        clearbody s1. clear Ew Hbit.
        destruct (_ && _ && _); [exact H1|].
        destruct (_ || _); [exact H1|]. destruct (_ =? _); exact H1.
    + rewrite andb_true_r. unfold step_read.
      match goal with |- (let '(_, _) := (let '(_, _) := ?c in _) in _) = _ -> ?g =>
        destruct c as [s1 b1] eqn:Ei end.
      intros E.
      enough (H1 : if (v =? UNDEFINED) && f_checkdef f &&
                      negb (fst (e_undef e (addr + i)))
                   then same_book (fst (note_bad f false (addr + i) s)) s1 /\
                        b1 = snd (note_bad f false (addr + i) s)
                   else same_book s s1 /\ b1 = false).
      { assert (H2 : same_book s1 s' /\ b = b1).
        { destruct b1; [injection E as <- <-; split; [apply same_book_refl|reflexivity]|].
          destruct (f_pushpop f); injection E as <- <-; (split; [|reflexivity]).
          - destruct (negb (f_write f) && f_values f); repeat split.
          - apply Hd. }
        destruct H2 as [H2 ->].
        destruct (_ && _ && _); destruct H1 as [H1 ->]; (split; [|reflexivity]);
          eapply Ht; eassumption. }
      clear E. destruct (Z.eqb_spec v UNDEFINED) as [Eu|Eu]; cbn [andb].
      * destruct (e_undef e (addr + i)) as [ok m]. cbn [fst].
        rewrite (andb_comm (f_checkdef f)).
        destruct (negb ok && f_checkdef f).
        -- specialize (Hn false (apply_marks m (s_sh s))).
           destruct (note_bad f false (addr + i) (with_sh s _)) as [s2 b2].
           cbn [fst snd] in Hn. destruct Hn as [Hn Hb].
           destruct b2; injection Ei as <- <-; (split; [|exact Hb]); [exact Hn|].
           destruct (e_leave e); [exact Hn|]. eapply Ht; [exact Hn|]. repeat split.
        -- injection Ei as <- <-. split; [repeat split|reflexivity].
      * destruct (f_checkdef f) eqn:Ef; cbn [andb] in Ei.
        -- destruct (Z.eqb_spec v BITLEVEL) as [Eb|Eb].
           ++ now destruct (Hbit eq_refl eq_refl).
           ++ injection Ei as <- <-. split; [apply same_book_refl|reflexivity].
        -- injection Ei as <- <-. split; [apply same_book_refl|reflexivity].
Qed.

Let B := bad e f addr sh.

Definition pending (s : st) : list report :=
  if s_found s then flush s else s_reports s.

Definition Inv (i : Z) (s : st) : Prop :=
  (forall x, addr + i <= x -> s_sh s x = world e f addr sh (Z.to_nat i) x) /\
  runs B addr (addr + i) (pending s) /\
  (s_found s = false -> s_reports s = nil) /\
  (s_good s = true <-> forall x, addr <= x < addr + i -> B x = None).

Lemma same_book_pending s s' : same_book s s' -> pending s' = pending s.
Proof.
  intros (H1 & H2 & H3 & H4 & H5 & H6). unfold pending, flush. rewrite H2, H3, H4, H5, H6; reflexivity.
Qed.

Lemma runs_skip b0 lo hi L :
  lo <= hi -> b0 hi = None -> runs b0 lo hi L -> runs b0 lo (hi + 1) L.
Proof.
  intros Hlo Hh HR. destruct L as [|[[k s] l] L]; cbn [runs] in *.
  - intros x Hx. destruct (Z.eq_dec x hi) as [->|]; [exact Hh|apply HR; lia].
  - destruct HR as (H1 & H2 & H3 & H4 & H5 & H6 & H7). repeat split; try assumption; try lia.
    intros x Hx. destruct (Z.eq_dec x hi) as [->|]; [exact Hh|apply H5; lia].
Qed.

Lemma runs_extend b0 lo hi k s l L :
  s + l = hi -> b0 hi = Some k -> runs b0 lo hi ((k, s, l) :: L) ->
  runs b0 lo (hi + 1) ((k, s, l + 1) :: L).
Proof.
  intros Hl Hb. cbn [runs]. intros (H1 & H2 & H3 & H4 & H5 & H6 & H7).
  repeat split; try assumption; try lia.
  - intros x Hx. destruct (Z.eq_dec x hi) as [->|]; [exact Hb|apply H4; lia].
Qed.

Lemma runs_new b0 lo hi k L :
  lo <= hi -> b0 hi = Some k -> (lo < hi -> b0 (hi - 1) <> Some k) ->
  runs b0 lo hi L -> runs b0 lo (hi + 1) ((k, hi, 1) :: L).
Proof.
  intros Hlo Hb Hp HR. cbn [runs]. repeat split; try assumption; try lia.
  - intros x Hx. replace x with hi by lia. exact Hb.
Qed.

(** The last byte of the newest run, and what follows it. *)
Lemma runs_last b0 lo hi k s l L :
  runs b0 lo hi ((k, s, l) :: L) ->
  b0 (s + l - 1) = Some k /\ (s + l < hi -> b0 (hi - 1) = None) /\
  lo <= s /\ 0 < l /\ s + l <= hi.
Proof.
  cbn [runs]. intros (H1 & H2 & H3 & H4 & H5 & _). repeat split; try assumption.
  - apply H4. lia.
  - intros H. apply H5. lia.
Qed.

Hypothesis Hbit : is_read f = true -> f_checkdef f = true ->
  forall x, addr <= x < addr + sz -> state_at e f addr sh x <> BITLEVEL.

Definition Done (s : st) : Prop :=
  exists n, addr <= n <= addr + sz /\
    runs B addr n (pending s) /\
    (s_good s = true <-> forall x, addr <= x < addr + sz -> B x = None) /\
    (n < addr + sz -> f_abort f = true /\ B n <> None /\
       exists start len L, pending s = (true, start, len) :: L /\
         (start + len < n \/ ABORT_SIZE <= len \/ B n = Some false)).

Ltac zl := clear Hbit;
  repeat match goal with
  | H : _ <-> _ |- _ => clear H
  | H : _ = false -> _ |- _ => clear H
  | H : _ = true -> _ |- _ => clear H
  | H : runs _ _ _ _ |- _ => clear H
  | H : forall x : Z, _ |- _ => clear H
  | H : same_book _ _ |- _ => clear H
  | H : step _ _ _ _ _ = _ |- _ => clear H
  end; lia.

Lemma step_inv i s s' b :
  0 <= i < sz -> Inv i s -> step e f addr i s = (s', b) ->
  if b then Done s' else Inv (i + 1) s'.
Proof.
  intros Hi (HW & HR & HF & HG) E.
  assert (Hst : state_at e f addr sh (addr + i) = s_sh s (addr + i)).
  { unfold state_at. replace (addr + i - addr) with i by zl.
    symmetry. apply HW. zl. }
  assert (Hb : is_read f = true -> f_checkdef f = true ->
               s_sh s (addr + i) <> BITLEVEL).
  { intros H1 H2. rewrite <- Hst. apply (Hbit H1 H2). zl. }
  pose proof (step_book _ _ _ _ Hb E) as HB. cbv zeta in HB. rewrite <- Hst in HB.
  assert (HW' : forall x, addr + (i + 1) <= x ->
            s_sh s' x = world e f addr sh (Z.to_nat (i + 1)) x).
  { intros x Hx. rewrite (step_ahead i s s' b x ltac:(zl) ltac:(zl) E).
    replace (Z.to_nat (i + 1)) with (S (Z.to_nat i)) by zl. cbn [world].
    rewrite Z2Nat.id by zl. rewrite <- !HW by zl. reflexivity. }
  assert (Hcase : forall u,
    B (addr + i) = Some u ->
    same_book (fst (note_bad f u (addr + i) s)) s' /\
    b = snd (note_bad f u (addr + i) s) ->
    if b then Done s' else Inv (i + 1) s').
  { clear HB. intros u Hu [Hbk ->].
    unfold note_bad in *.
    set (broke := f_abort f && s_found s && s_type s && _) in *.
    destruct broke eqn:Ebr; cbn [fst snd] in *.
    - assert (Hp : pending s' = pending s).
      { rewrite (same_book_pending _ _ Hbk). unfold pending at 1. cbn [s_found].
        cbn [s_reports]. unfold broke in Ebr. unfold pending.
        destruct (s_found s); [reflexivity|]. rewrite andb_false_r in Ebr. discriminate. }
      unfold broke in Ebr.
      apply andb_prop in Ebr as [Ebr E4]. apply andb_prop in Ebr as [Ebr E3].
      apply andb_prop in Ebr as [E1 E2].
      assert (Hpe : pending s = flush s) by (unfold pending; now rewrite E2).
      exists (addr + i). split; [clear - Hi; lia|]. split; [now rewrite Hp|].
      split; [split|].
      + destruct Hbk as (Hg & _). cbn [s_good] in Hg. rewrite Hg. intros Hgood.
        exfalso. rewrite Hpe in HR. unfold flush in HR.
        apply runs_last in HR as (H1 & _ & H3 & H4 & H5).
        rewrite (proj1 HG Hgood) in H1; [discriminate|clear - H3 H4 H5; lia].
      + intros Hall. exfalso.
        rewrite (Hall (addr + i)) in Hu; [discriminate|clear - Hi; lia].
      + intros _. split; [exact E1|]. split; [rewrite Hu; discriminate|].
        rewrite Hp, Hpe. unfold flush. rewrite E3.
        exists (s_addr s), (s_end s + 1 - s_addr s), (s_reports s).
        split; [reflexivity|]. destruct u.
        * apply orb_prop in E4 as [E4|E4].
          -- left. apply Z.ltb_lt in E4. clear - E4. lia.
          -- right. left. apply Z.leb_le in E4. exact E4.
        * right. right. exact Hu.
    - split; [exact HW'|].
      replace (addr + (i + 1)) with (addr + i + 1) by zl.
      rewrite (same_book_pending _ _ Hbk).
      destruct Hbk as (Hg & Hf & _). cbn [s_good s_found] in Hg, Hf.
      clear HW' E Hst Hb HW Ebr. clear broke.
      split; [|split; [|split]].
      + unfold pending. cbn [s_found]. unfold flush. cbn [s_type s_addr s_end s_reports].
        destruct (s_found s) eqn:Ef; cbn [andb].
        * assert (Hpe : pending s = flush s) by (unfold pending; now rewrite Ef).
          rewrite Hpe in HR. unfold flush in HR.
          pose proof (runs_last _ _ _ _ _ _ _ HR) as (L1 & L2 & L3 & L4 & L5).
          destruct (Bool.eqb (s_type s) u) eqn:Et.
          -- apply Bool.eqb_prop in Et.
             destruct (Z.ltb_spec (s_end s) (addr + i - 1)) as [Hgap|Hgap]; cbn [negb andb].
             ++ replace (addr + i + 1 - (addr + i)) with 1 by zl.
                apply runs_new; try zl; try assumption.
                intros _. rewrite L2 by zl. discriminate.
             ++ replace (addr + i + 1 - s_addr s)
                  with (s_end s + 1 - s_addr s + 1) by zl.
                apply runs_extend; [zl|now rewrite Et|exact HR].
          -- cbn [andb negb].
             replace (addr + i + 1 - (addr + i)) with 1 by zl.
             apply runs_new; try zl; try assumption.
             intros _ Hk. apply Bool.eqb_false_iff in Et. apply Et.
             destruct (Z.eq_dec (s_end s) (addr + i - 1)) as [Hq|Hq].
             ++ replace (s_addr s + (s_end s + 1 - s_addr s) - 1)
                  with (addr + i - 1) in L1 by zl. congruence.
             ++ rewrite L2 in Hk by zl. discriminate.
        * replace (addr + i + 1 - (addr + i)) with 1 by zl.
          unfold pending in HR. rewrite Ef in HR.
          apply runs_new; try zl; try assumption.
          intros Hlt Hk. rewrite (HF eq_refl) in HR. cbn [runs] in HR.
          rewrite HR in Hk by zl. discriminate.
      + rewrite Hf. discriminate.
      + rewrite Hg. discriminate.
      + intros Hall. exfalso. rewrite (Hall (addr + i)) in Hu; [discriminate|zl]. }
  assert (Hnone : B (addr + i) = None -> same_book s s' /\ b = false ->
                  if b then Done s' else Inv (i + 1) s').
  { intros Hu [Hbk ->]. split; [exact HW'|].
    replace (addr + (i + 1)) with (addr + i + 1) by zl.
    rewrite (same_book_pending _ _ Hbk).
    destruct Hbk as (Hg & Hf & _ & _ & _ & Hr).
    rewrite Hg, Hf, Hr. clear HW' E Hst Hb HW. split; [|split; [|split]].
    - apply runs_skip; try zl; assumption.
    - exact HF.
    - intros Hgood x Hx. destruct (Z.eq_dec x (addr + i)) as [->|]; [exact Hu|].
      apply (proj1 HG Hgood). zl.
    - intros Hall. apply HG. intros x Hx. apply Hall. zl. }
  unfold B, bad in Hcase, Hnone.
  destruct ((state_at e f addr sh (addr + i) =? UNADDRESSABLE) && negb (is_push f) &&
            negb (fst (e_unaddr e (addr + i)))).
  - exact (Hcase true eq_refl HB).
  - destruct ((state_at e f addr sh (addr + i) =? UNDEFINED) && is_read f &&
              f_checkdef f && negb (fst (e_undef e (addr + i)))).
    + exact (Hcase false eq_refl HB).
    + exact (Hnone eq_refl HB).
Qed.

Lemma reports_ok :
  exists o, handle_mem_ref e f addr sz sh = Ok o /\
  exists n, addr <= n <= addr + sz /\
    runs B addr n (rev (o_reports o)) /\
    (o_clean o = true <-> forall x, addr <= x < addr + sz -> B x = None) /\
    (n < addr + sz -> f_abort f = true /\ B n <> None /\
       exists start len L, rev (o_reports o) = (true, start, len) :: L /\
         (start + len < n \/ ABORT_SIZE <= len \/ B n = Some false)).
Proof.
  unfold handle_mem_ref.
  destruct (loop_rule Inv Done (S (Z.to_nat sz)) 0 (init sh)) as (t & Ht & HD).
  - lia.
  - lia.
  - split; [reflexivity|]. split; [|split]; cbn.
    + intros x Hx. lia.
    + reflexivity.
    + split; [|reflexivity]. intros _ x Hx. lia.
  - intros j t t' b Hj HI E. now apply (step_inv j t t' b).
  - intros t (HW & HR & HF & HG). exists (addr + sz). repeat split; try lia.
    + exact HR.
    + apply HG.
    + apply HG.
  - rewrite Ht. cbn [bind]. eexists. split; [reflexivity|].
    cbn [o_reports o_clean]. rewrite rev_involutive. exact HD.
Qed.

End Loop.

(** Consequences of [runs]. *)
Lemma runs_covers b lo hi L kind x :
  runs b lo hi L ->
  covers kind x L = if (lo <=? x) && (x <? hi) then
                      match b x with
                      | Some k => if Bool.eqb k kind then 1%nat else 0%nat
                      | None => 0%nat
                      end
                    else 0%nat.
Proof.
  revert hi. induction L as [|[[k s] l] L IH]; intros hi HR.
  - cbn [runs] in HR. unfold covers. cbn [filter length].
    destruct (Z.leb_spec lo x), (Z.ltb_spec x hi); cbn [andb]; try reflexivity.
    rewrite HR by lia. reflexivity.
  - cbn [runs] in HR. destruct HR as (H1 & H2 & H3 & H4 & H5 & H6 & H7).
    specialize (IH _ H7).
    unfold covers in *. cbn [filter].
    destruct (Z.leb_spec s x) as [Hs|Hs].
    + assert (IH0 : length (filter (fun r : report => let '(k, start, len) := r in
                Bool.eqb k kind && (start <=? x) && (x <? start + len)) L) = 0%nat).
      { rewrite IH. destruct (Z.leb_spec lo x); destruct (Z.ltb_spec x s);
          cbn [andb]; try lia; reflexivity. }
      destruct (Z.ltb_spec x (s + l)) as [Hl|Hl].
      * rewrite !andb_true_r. rewrite (H4 x) by lia.
        destruct (Z.leb_spec lo x); [|lia]. destruct (Z.ltb_spec x hi); [|lia].
        cbn [andb]. destruct (Bool.eqb k kind); cbn [length]; rewrite IH0; reflexivity.
      * rewrite !andb_false_r. rewrite IH0.
        destruct (Z.leb_spec lo x); [|lia]. destruct (Z.ltb_spec x hi); [|reflexivity].
        cbn [andb]. rewrite H5 by lia. reflexivity.
    + rewrite andb_false_r. cbn [andb]. rewrite IH.
      destruct (Z.leb_spec lo x); cbn [andb]; [|reflexivity].
      destruct (Z.ltb_spec x s); [|lia]. destruct (Z.ltb_spec x hi); [|lia].
      reflexivity.
Qed.

Lemma runs_inside b lo hi L k s l :
  runs b lo hi L -> In (k, s, l) L -> lo <= s /\ 0 < l /\ s + l <= hi.
Proof.
  revert hi. induction L as [|[[k' s'] l'] L IH]; intros hi HR HI; [easy|].
  cbn [runs] in HR. destruct HR as (H1 & H2 & H3 & H4 & H5 & H6 & H7).
  destruct HI as [HI|HI].
  - injection HI as -> -> ->. lia.
  - specialize (IH _ H7 HI). lia.
Qed.
