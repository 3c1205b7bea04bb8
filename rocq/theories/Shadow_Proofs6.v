(** Histories of calls. *)
From Verif Require Import Base Mem Umbra_Model Umbra_Spec Umbra_Proofs1 Umbra_Proofs2 Umbra_Proofs3
  Umbra_Proofs4 Umbra_Proofs5 Umbra_Proofs6 Umbra_Proofs7 Umbra_Proofs8 Umbra_Proofs9
  Shadow_Model Shadow_Spec Shadow_Proofs1 Shadow_Proofs2 Shadow_Proofs3 Shadow_Proofs4 Shadow_Proofs5.
From Coq Require Import Lia.
Open Scope Z_scope.

Lemma chunky_agree D D2 x n : (forall y, x <= y < x + n -> D y = D2 y) -> chunky D x n -> chunky D2 x n.
Proof.
  intros H C y z Hy A E Hz Hl. rewrite <- H by lia. rewrite <- H in E by lia. exact (C y z Hy A E Hz Hl).
Qed.

Lemma checked_agree D D2 x n v want r : (forall y, x <= y < x + n -> D y = D2 y) ->
  checked D2 x (x + n) v want r -> checked D x (x + n) v want r.
Proof.
  intros H. unfold checked. assert (C : chunky D x (x + n - x) -> chunky D2 x (x + n - x)).
  { apply chunky_agree. intros y Hy. apply H. lia. }
  destruct (c_bad r) as [[s b]|].
  - intros (P1 & P2 & P3 & P4 & P5 & P6 & P7). split; [exact P1|]. split; [exact P2|]. rewrite H by lia.
    split; [exact P3|]. split; [exact P4|]. split; [|split; [exact P6|]].
    + intros Ch y Hy. rewrite H by lia. apply P5; [|exact Hy]. intros Q. apply C. auto.
    + intros W. destruct (P7 W) as (e & Q1 & Q2 & Q3 & Q4 & Q5). exists e. split; [exact Q1|]. split; [exact Q2|].
      split; [|split; [exact Q4|]].
      * intros Le. rewrite H by lia. auto.
      * intros Ch y Hy. rewrite H by lia. apply Q5; [|exact Hy]. intros Q. apply C. auto.
  - intros (P1 & P2 & P3). split; [exact P1|]. split; [exact P2|]. intros Ch y Hy. rewrite H by lia.
    apply P3; [|exact Hy]. intros Q. apply C. auto.
Qed.

Section S.
  Variable m : umap.
  Hypothesis Hm : shadow_map m.
  Let Mok : map_ok m := sh_map m Hm.

  Lemma usable_ext st st' x n : ext m st st' -> usable m (segs st) x n -> usable m (segs st') x n.
  Proof.
    intros X [A B]. split; [eapply app_range_ext; eauto|]. intros y Hy.
    apply (usable1_ext m st st' y X). split; [apply A; exact Hy|apply B; exact Hy].
  Qed.
  Lemma sop_ok_ext st st' op : ext m st st' -> sop_ok m (segs st) op -> sop_ok m (segs st') op.
  Proof.
    intros X. pose proof (fun x n => usable_ext st st' x n X) as U. destruct op; cbn [sop_ok]; intuition auto.
  Qed.

  Definition agree (D : Z -> Z) (st : ustate) : Prop := forall y, in_app (segs st) y -> D y = bst m st y.

  Lemma sstep st D op : state_ok m st -> agree D st -> sop_ok m (segs st) op ->
    exists st' o, do_sop m st op = Ok (st', o) /\ ext m st st' /\ sanswer D op o /\ agree (seffect D op) st'.
  Proof.
    intros O A H.
    assert (DONE : forall st' (P : Z -> Z), ext m st st' -> (forall y, in_app (segs st) y -> bst m st' y = P y) ->
              (forall y, in_app (segs st) y -> seffect D op y = P y) -> agree (seffect D op) st').
    { intros st' P X F G y Hy. apply (in_app_ext m st st' y X) in Hy. rewrite F, G by exact Hy. reflexivity. }
    assert (IN : forall x n y, usable m (segs st) x n -> x <= y < x + n -> in_app (segs st) y).
    { intros x n y [R _] Hy. apply R. exact Hy. }
    destruct op as [x n v|x n v w|s d n|x v|x|x n v want|x n v|x n v]; cbn [sop_ok] in H.
    - destruct H as [U Hv]. destruct (set_range_us m Hm st x (x + n) v O (usable_us m _ _ _ U)) as (st' & E & X & F).
      { destruct U as [(_ & Q & _) _]. lia. } { lia. }
      exists st', ODone. cbn [do_sop]. rewrite E. split; [reflexivity|]. split; [exact X|]. split; [reflexivity|].
      apply (DONE st' _ X F). intros y Hy. cbn [seffect]. rewrite (A y Hy). reflexivity.
    - destruct H as [U Hv]. pose proof U as U0. destruct U0 as [(H0 & Hn & R) _].
      destruct (range_top m st x n O (conj H0 (conj Hn R))) as (_ & _ & Ht).
      destruct (non_matching_ok m Hm (fuel n) st info0 x (x + n) v w O (usable_us m _ _ _ U)) as (st' & E & X & F).
      { lia. } { left; reflexivity. } { lia. } { unfold fuel; lia. }
      exists st', ODone. cbn [do_sop]. unfold set_non_matching. rewrite w64_small by lia. rewrite E.
      split; [reflexivity|]. split; [exact X|]. split; [reflexivity|].
      apply (DONE st' _ X F). intros y Hy. cbn [seffect]. rewrite (A y Hy). reflexivity.
    - destruct H as (US & UD & C). pose proof US as U0. destruct U0 as [(H0 & Hn & R) _].
      destruct (copy_range_us m Hm st s d n O (usable_us m _ _ _ US) (usable_us m _ _ _ UD) Hn C) as (st' & E & X & F).
      exists st', ODone. cbn [do_sop]. rewrite E. split; [reflexivity|]. split; [exact X|]. split; [reflexivity|].
      apply (DONE st' _ X F). intros y Hy. cbn [seffect]. destruct ((d <=? y) && (y <? d + n)) eqn:Er; [|apply A; exact Hy].
      apply A. apply (IN s n); [exact US|lia].
    - destruct H as [U Hv]. pose proof (usable_us m _ _ _ U) as U1. pose proof (U1 x ltac:(lia)) as U2.
      destruct (set_byte_good m Hm st info0 x v O U2 (or_introl eq_refl) ltac:(lia)) as (st' & E & X & _ & F).
      exists st', ODone. cbn [do_sop]. rewrite E. split; [reflexivity|]. split; [exact X|]. split; [reflexivity|].
      apply (DONE st' _ X F). intros y Hy. cbn [seffect]. rewrite (A y Hy). reflexivity.
    - pose proof (usable_us m _ _ _ H) as U1. pose proof (U1 x ltac:(lia)) as U2.
      exists st, (OState (bst m st x)). cbn [do_sop].
      rewrite (get_byte_good m Hm st info0 x O U2 (or_introl eq_refl)). split; [reflexivity|].
      split; [apply ext_refl; exact O|]. split; [|exact A]. cbn [sanswer]. rewrite (A x (proj1 U2)). reflexivity.
    - pose proof H as U. destruct U as [(H0 & Hn & R) _].
      pose proof (usable_us m _ _ _ H) as U1.
      destruct (U1 (x + n - 1) ltac:(lia)) as [I1 _].
      destruct (fs_block m Hm (segs st) _ (x + n - 1) (state_layout m st O) I1 eq_refl) as (_ & _ & B0 & B1).
      assert (BT : x + n + 16 <= 2 ^ 64) by (clear - B0 B1; unfold blk in *; lia).
      destruct (check_head m Hm st x (x + n) O U1 H0 BT (fuel n) info0 x v want 0) as (r & E & Q).
      { lia. } { left; reflexivity. } { intros; lia. } { unfold fuel; lia. }
      exists st, (OCheck r). cbn [do_sop]. unfold check_range. rewrite w64_small by lia. rewrite E.
      split; [reflexivity|]. split; [apply ext_refl; exact O|]. split; [|exact A].
      exists r. split; [reflexivity|]. apply (checked_agree D (bst m st)); [|exact Q]. intros y Hy. apply A. apply R. exact Hy.
    - destruct H as [U Hnx]. pose proof U as U0. destruct U0 as [(H0 & Hn & R) _].
      pose proof (usable_us m _ _ _ U) as U1.
      destruct (us_bound m Hm st x O (U1 x ltac:(lia))) as [B0 B1].
      destruct (back_loop_ok m Hm (fuel n) st info0 x (x - n) v O) as (r & E & Q).
      { replace (x + 1) with (x - n + 1 + n) by lia. exact U1. } { left; reflexivity. } { lia. } { unfold fuel; lia. }
      exists st, (OBack r). cbn [do_sop]. unfold check_backward. rewrite w64_small by lia. rewrite E.
      split; [reflexivity|]. split; [apply ext_refl; exact O|]. split; [|exact A].
      exists r. split; [reflexivity|]. assert (G : forall y, x - n < y <= x -> D y = bst m st y).
      { intros y Hy. apply A. apply R. lia. }
      destruct r as [a|].
      + destruct Q as (Q1 & Q2 & Q3). split; [exact Q1|]. rewrite G by lia. split; [exact Q2|].
        intros y Hy. rewrite G by lia. auto.
      + intros y Hy. rewrite G by lia. auto.
    - destruct H as (U & Ax & An & Hv). pose proof U as U0. destruct U0 as [(H0 & Hn & R) _].
      destruct (next_dword_us m Hm st x n v O (usable_us m _ _ _ U) H0 Hn Ax An ltac:(lia)) as (st' & r & E & X & F & Q).
      exists st', (ONext r). cbn [do_sop]. rewrite E. split; [reflexivity|]. split; [exact X|]. split.
      + assert (G : forall y', x <= y' < x + n -> y' mod 4 = 0 -> forall z, y' <= z < y' + 4 -> D z = bst m st z).
        { intros y' Hy' Ay' z Hz. apply A. apply R. clear - Hy' Ay' Hz An Ax. lia. }
        assert (NM : forall y', x <= y' < x + n -> y' mod 4 = 0 -> (exists z, y' <= z < y' + 4 /\ bst m st z <> v) ->
                       ~ forall z, y' <= z < y' + 4 -> D z = v).
        { intros y' Hy' Ay' (z & Hz & Nz) All. apply Nz. rewrite <- (G y' Hy' Ay' z Hz). auto. }
        exists r. split; [reflexivity|]. destruct r as [y|].
        * destruct Q as (Q1 & Q2 & Q3 & Q4). split; [exact Q1|]. split; [exact Q2|]. split.
          -- intros z Hz. rewrite (G y Q1 Q2 z Hz). auto.
          -- intros y' Hy' Ay'. apply NM; [lia|exact Ay'|]. auto.
        * intros y' Hy' Ay'. apply NM; auto.
      + intros y Hy. apply (in_app_ext m st st' y X) in Hy. rewrite F. apply A. exact Hy.
  Qed.

  Lemma ssteps ops : forall st D, state_ok m st -> agree D st -> Forall (sop_ok m (segs st)) ops ->
    exists st' outs, do_sops m st ops = Ok (st', outs) /\ ext m st st' /\ sanswers D ops outs /\
      agree (fold_left seffect ops D) st'.
  Proof.
    induction ops as [|op ops IH]; intros st D O A F.
    - exists st, []. split; [reflexivity|]. split; [apply ext_refl; exact O|]. split; [exact I|exact A].
    - inversion F as [|? ? F1 F2]; subst.
      destruct (sstep st D op O A F1) as (st1 & o & E & X & AN & A1).
      destruct (IH st1 (seffect D op)) as (st2 & outs & E2 & X2 & ANS & A2).
      { apply X. } { exact A1. } { eapply Forall_impl; [|exact F2]. intros p Hp. eapply sop_ok_ext; eauto. }
      exists st2, (o :: outs). split; [cbn [do_sops]; rewrite E; cbn [bind fst snd]; rewrite E2; reflexivity|].
      split; [eapply ext_trans; eauto|]. split; [split; assumption|exact A2].
  Qed.

  Lemma shadow_history st ops : started m st -> Forall (sop_ok m (segs st)) ops ->
    exists st' outs, do_sops m st ops = Ok (st', outs) /\
      sanswers (fun _ => UNADDR) ops outs /\ states m st' (fold_left seffect ops (fun _ => UNADDR)) /\
      state_ok m st' /\ forall y, in_app (segs st) y <-> in_app (segs st') y.
  Proof.
    intros S F. pose proof (started_ok m st Mok S) as O.
    destruct (ssteps ops st (fun _ => UNADDR) O) as (st' & outs & E & X & A & G).
    - intros y Hy. unfold bst, Umbra_Proofs9.val, cont. destruct (liveb m st (first_shadow m y)) eqn:El.
      + apply (liveb_iff m st _ (state_layout m st O)) in El. exfalso. exact (started_no m st _ S Mok El).
      + rewrite (sh_dflt m Hm). symmetry. apply pattern_55. lia.
    - exact F.
    - exists st', outs. split; [exact E|]. split; [exact A|]. split; [|split; [apply X|intros y; exact (in_app_ext m st st' y X)]].
      intros y Hy v. rewrite (byte_state_bst m Hm st' y v ltac:(apply X)). rewrite <- (G y Hy). tauto.
  Qed.

  Lemma states_agree st D : state_ok m st -> states m st D <-> agree D st.
  Proof.
    intros O. split.
    - intros H y Hy. symmetry. apply (H y Hy). apply (byte_state_bst m Hm st y _ O). reflexivity.
    - intros A y Hy v. rewrite (byte_state_bst m Hm st y v O), (A y Hy). tauto.
  Qed.
  Lemma step_states st D op : state_ok m st -> states m st D -> sop_ok m (segs st) op ->
    exists st' o, do_sop m st op = Ok (st', o) /\ state_ok m st' /\ sanswer D op o /\ states m st' (seffect D op).
  Proof.
    intros O S H. apply (states_agree st D O) in S. destruct (sstep st D op O S H) as (st' & o & E & X & A & G).
    exists st', o. split; [exact E|]. split; [apply X|]. split; [exact A|]. apply states_agree; [apply X|exact G].
  Qed.
  Ltac one op := let E := fresh "E" in
    match goal with O : state_ok m ?st, S : states m ?st ?D |- _ =>
      destruct (step_states st D op O S) as (st' & o & E & O' & A & G); [cbn [sop_ok]; auto|];
      cbn [do_sop] in E; unfold bind in E; cbn [sanswer] in A; cbn [seffect] in G end.
  Lemma set_states st D x n v : state_ok m st -> states m st D -> usable m (segs st) x n -> 0 <= v <= 3 ->
    exists st', set_range m st x (x + n) v = Ok st' /\ state_ok m st' /\ states m st' (fun y => if (x <=? y) && (y <? x + n) then v else D y).
  Proof.
    intros O S U V. one (SSet x n v). destruct (set_range m st x (x + n) v); inversion E; subst. eauto.
  Qed.
  Lemma get_states st D x : state_ok m st -> states m st D -> usable m (segs st) x 1 ->
    exists inf, get_byte m st info0 x = Ok (D x, inf).
  Proof.
    intros O S U. one (SGet x). destruct (get_byte m st info0 x) as [[v i]| |]; inversion E; subst.
    inversion H1; subst. eauto.
  Qed.
  Lemma check_states st D x n v want : state_ok m st -> states m st D -> usable m (segs st) x n ->
    exists r, check_range m st x n v want = Ok r /\ checked D x (x + n) v want r.
  Proof.
    intros O S U. one (SCheck x n v want). destruct (check_range m st x n v want) as [r| |]; inversion E; subst.
    destruct A as (r' & Er & A). inversion Er; subst. eauto.
  Qed.
  Lemma back_states st D x n v : state_ok m st -> states m st D -> usable m (segs st) (x - n + 1) n -> n <= x ->
    exists r, check_backward m st x n v = Ok r /\ match r with
      | Some a => x - n < a <= x /\ D a <> v /\ forall y, a < y <= x -> D y = v
      | None => forall y, x - n < y <= x -> D y = v
      end.
  Proof.
    intros O S U L. one (SBack x n v). destruct (check_backward m st x n v) as [r| |]; inversion E; subst.
    destruct A as (r' & Er & A). inversion Er; subst. eauto.
  Qed.
  Lemma copy_states st D s d n : state_ok m st -> states m st D -> usable m (segs st) s n ->
    usable m (segs st) d n -> copyable s d n ->
    exists st', copy_range m st s d n = Ok st' /\ state_ok m st' /\ states m st' (fun y => if (d <=? y) && (y <? d + n) then D (y - d + s) else D y).
  Proof.
    intros O S U U2 C. one (SCopy s d n). destruct (copy_range m st s d n); inversion E; subst. eauto.
  Qed.

  Lemma save_restore st st2 g x n : state_ok m st -> state_ok m st2 -> usable m (segs st) x n ->
    usable m (segs st2) x n -> n < 2 ^ 32 -> (n + 3) / 4 mod 4 = 0 ->
    exists buf st3, save_region m st g x n = Ok buf /\ restore_region m st2 buf x n = Ok st3 /\
      state_ok m st3 /\ (forall y, in_app (segs st2) y <-> in_app (segs st3) y) /\
      forall y, in_app (segs st3) y -> forall v,
        byte_state m st3 y v <-> if (x <=? y) && (y <? x + n) then byte_state m st y v else byte_state m st2 y v.
  Proof.
    intros O O2 U U2 Hb H4. pose proof U as U0. destruct U0 as [(H0 & Hn & R) _].
    assert (SZ : saved_bytes n = (n + 3) / 4).
    { unfold saved_bytes. rewrite align_fwd4 by lia. lia. }
    destruct (save_loop_ok m Hm (fuel n) st info0 (fresh (saved_bytes n) g) x 0 n (saved_bytes n) O) as (buf & E & B & G).
    { rewrite Z.add_0_r. apply usable_us. exact U. } { left; reflexivity. } { lia. } { lia. } { lia. } { apply fresh_ok. }
    { right. rewrite SZ. clear - H4 Hn. lia. } { unfold fuel; lia. }
    destruct (restore_loop_ok m Hm (fuel n) (fun j => bst m st (x + j)) (fun j => bst_range m st (x + j)) st2 info0 buf x 0 n O2)
      as (st3 & E3 & X & F).
    { rewrite Z.add_0_r. apply usable_us. exact U2. } { left; reflexivity. } { lia. } { lia. } { lia. }
    { intros j Hj. rewrite G by (rewrite ?SZ; clear - Hj H4; lia). replace ((0 <=? j) && (j <? n)) with true by lia. reflexivity. }
    { unfold fuel; lia. }
    exists buf, st3. split; [exact E|]. split; [exact E3|]. split; [apply X|]. split; [intros y; exact (in_app_ext m st2 st3 y X)|].
    intros y Hy v. rewrite (byte_state_bst m Hm st3 y v ltac:(apply X)). apply (in_app_ext m st2 st3 y X) in Hy.
    rewrite F by exact Hy. rewrite Z.add_0_r. destruct ((x <=? y) && (y <? x + n)).
    - rewrite (byte_state_bst m Hm st y v O). replace (x + (y - x)) with y by lia. tauto.
    - rewrite (byte_state_bst m Hm st2 y v O2). tauto.
  Qed.

  Lemma save_overrun st g x n : state_ok m st -> usable m (segs st) x n -> n < 2 ^ 32 -> (n + 3) / 4 mod 4 <> 0 ->
    save_region m st g x n = UB.
  Proof.
    intros O U Hb H4. pose proof U as U0. destruct U0 as [(H0 & Hn & R) _].
    assert (SZ : saved_bytes n = (n + 3) / 4).
    { unfold saved_bytes. rewrite align_fwd4 by lia. lia. }
    apply (save_loop_ub m Hm (fuel n) st info0 _ x 0 n (saved_bytes n) O).
    { rewrite Z.add_0_r. apply usable_us. exact U. }
    { left; reflexivity. } { lia. } { lia. } { lia. } { apply fresh_ok. }
    { rewrite SZ. clear - H4 Hn. lia. }
    { unfold fuel; lia. }
  Qed.
End S.
