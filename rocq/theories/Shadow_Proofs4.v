(** Copying a range. *)
From Verif Require Import Base Mem Umbra_Model Umbra_Spec Umbra_Proofs1 Umbra_Proofs2 Umbra_Proofs3
  Umbra_Proofs4 Umbra_Proofs5 Umbra_Proofs6 Umbra_Proofs7 Umbra_Proofs8 Umbra_Proofs9
  Shadow_Model Shadow_Spec Shadow_Proofs1 Shadow_Proofs2 Shadow_Proofs3.
From Coq Require Import Lia.
Open Scope Z_scope.

Section S.
  Variable m : umap.
  Hypothesis Hm : shadow_map m.
  Let Mok : map_ok m := sh_map m Hm.

  Definition bsts (st : ustate) (a : Z) (n : nat) : list Z := map (fun k => bst m st (a + Z.of_nat k)) (seq 0 n).

  Lemma bsts_S st a n : bsts st a (S n) = bst m st a :: bsts st (a + 1) n.
  Proof.
    unfold bsts. cbn [seq map]. rewrite Z.add_0_r. f_equal. rewrite <- seq_shift, map_map.
    apply map_ext. intros k. f_equal. lia.
  Qed.
  Lemma bsts_length st a n : length (bsts st a n) = n.
  Proof. unfold bsts. rewrite map_length, seq_length. reflexivity. Qed.
  Lemma bsts_nth st a n k : (k < n)%nat -> nth k (bsts st a n) 0 = bst m st (a + Z.of_nat k).
  Proof.
    intros H. unfold bsts. rewrite (nth_indep _ 0 (bst m st (a + Z.of_nat 0))) by (rewrite map_length, seq_length; exact H).
    rewrite (map_nth (fun k => bst m st (a + Z.of_nat k))). rewrite seq_nth by exact H. reflexivity.
  Qed.
  Lemma bsts_in st a n v : In v (bsts st a n) -> 0 <= v < 4.
  Proof. unfold bsts. intros H. apply in_map_iff in H. destruct H as (k & <- & _). apply bst_range. Qed.

  Lemma get_loop_S n st inf start i size : get_loop (S n) m st inf start i size =
    if i <? size then
      let* r := get_byte m st inf (w64 (start + i)) in
      let* q := get_loop n m st (snd r) start (w32 (i + 1)) size in
      Ok (fst r :: fst q, snd q)
    else Ok ([], inf).
  Proof. reflexivity. Qed.
  Lemma put_loop_S n st inf start i size src : put_loop (S n) m st inf start i size src =
    if i <? size then
      match src with
      | [] => UB
      | v :: src' =>
        let* r := set_byte m st inf (w64 (start + i)) v in
        put_loop n m (fst r) (snd r) start (w32 (i + 1)) size src'
      end
    else Ok (st, inf).
  Proof. reflexivity. Qed.

  Lemma w32_small i size : 0 <= i < size -> size < 2 ^ 32 -> w32 (i + 1) = i + 1.
  Proof. intros. unfold w32. apply Z.mod_small. lia. Qed.

  Lemma get_loop_ok n : forall st inf start i size, state_ok m st -> us m (segs st) (start + i) (start + size) ->
    inf_ok m st inf -> 0 <= i -> 0 <= start -> size < 2 ^ 32 -> Z.max 0 (size - i) < Z.of_nat n ->
    exists inf', get_loop n m st inf start i size = Ok (bsts st (start + i) (Z.to_nat (size - i)), inf') /\ inf_ok m st inf'.
  Proof.
    induction n as [|n IH]; intros st inf start i size O U I Hi Hs Hb Hn; [lia|].
    rewrite get_loop_S. destruct (Z.ltb_spec i size) as [L|L].
    - pose proof (U (start + i) ltac:(lia)) as U1. destruct (us_bound m Hm st _ O U1) as [_ B1].
      rewrite w64_small by (clear - Hi Hs B1; lia).
      rewrite (get_byte_good m Hm st inf (start + i) O U1 I). cbn [bind fst snd].
      rewrite (w32_small i size) by lia.
      destruct (IH st (blkinfo m st (start + i)) start (i + 1) size O) as (inf' & E & I').
      { intros y Hy. apply U. lia. } { right. exists (start + i). split; [apply U1|reflexivity]. }
      { lia. } { lia. } { lia. } { lia. }
      rewrite E. cbn [bind fst snd]. exists inf'. split; [|exact I'].
      replace (Z.to_nat (size - i)) with (S (Z.to_nat (size - (i + 1)))) by lia. rewrite bsts_S.
      replace (start + (i + 1)) with (start + i + 1) by lia. reflexivity.
    - exists inf. replace (Z.to_nat (size - i)) with 0%nat by lia. auto.
  Qed.

  Lemma put_loop_ok n : forall st inf start i size src, state_ok m st -> us m (segs st) (start + i) (start + size) ->
    inf_ok m st inf -> 0 <= i -> 0 <= start -> size < 2 ^ 32 -> Z.max 0 (size - i) < Z.of_nat n ->
    length src = Z.to_nat (size - i) -> (forall v, In v src -> 0 <= v < 4) ->
    exists st' inf', put_loop n m st inf start i size src = Ok (st', inf') /\ ext m st st' /\ inf_ok m st' inf' /\
      (forall y, in_app (segs st) y -> bst m st' y =
         if (start + i <=? y) && (y <? start + size) then nth (Z.to_nat (y - (start + i))) src 0 else bst m st y).
  Proof.
    induction n as [|n IH]; intros st inf start i size src O U I Hi Hs Hb Hn Hl Hr; [lia|].
    rewrite put_loop_S. destruct (Z.ltb_spec i size) as [L|L].
    - pose proof (U (start + i) ltac:(lia)) as U1. destruct (us_bound m Hm st _ O U1) as [_ B1].
      rewrite w64_small by (clear - Hi Hs B1; lia).
      destruct src as [|v src]; [cbn in Hl; lia|].
      destruct (set_byte_good m Hm st inf (start + i) v O U1 I (Hr v (or_introl eq_refl))) as (st1 & E & X & _ & F).
      rewrite E. cbn [bind fst snd]. rewrite (w32_small i size) by lia.
      assert (O1 : state_ok m st1) by apply X.
      destruct (IH st1 (blkinfo m st1 (start + i)) start (i + 1) size src O1) as (st2 & inf' & E2 & X2 & I' & F2).
      { apply (us_ext m st st1); [exact X|]. intros y Hy. apply U. lia. }
      { right. exists (start + i). split; [|reflexivity]. apply (in_app_ext m st st1 _ X). apply U1. }
      { lia. } { lia. } { lia. } { lia. } { cbn in Hl. lia. } { intros w Hw. apply Hr. right. exact Hw. }
      exists st2, inf'. split; [exact E2|]. split; [eapply ext_trans; eauto|]. split; [exact I'|].
      intros y Hy. rewrite F2; [|apply (in_app_ext m st st1 y X); exact Hy]. rewrite F by exact Hy.
      destruct (Z.eqb_spec y (start + i)) as [->|N].
      + replace ((start + (i + 1) <=? start + i) && (start + i <? start + size)) with false by lia.
        replace ((start + i <=? start + i) && (start + i <? start + size)) with true by lia.
        rewrite Z.sub_diag. reflexivity.
      + replace (start + (i + 1) <=? y) with (start + i <=? y) by lia.
        destruct ((start + i <=? y) && (y <? start + size)) eqn:Er; [|reflexivity].
        replace (Z.to_nat (y - (start + i))) with (S (Z.to_nat (y - (start + (i + 1))))) by lia. reflexivity.
    - exists st, inf. split; [reflexivity|]. split; [apply ext_refl; exact O|]. split; [exact I|].
      intros y Hy. replace ((start + i <=? y) && (y <? start + size)) with false by lia. reflexivity.
  Qed.

  (** Whole granules through Umbra. *)
  Lemma umbra_copy st s d n : state_ok m st -> app_range (segs st) s n -> app_range (segs st) d n ->
    s mod 4 = 0 -> d mod 4 = 0 -> n mod 4 = 0 -> n < 2 ^ 62 -> ~ (s < d <= s + n - 1) ->
    exists st' k r, umbra_copy_range m st s d n = Ok (st', k, r) /\ ext m st st' /\
      (forall y, in_app (segs st) y -> bst m st' y = if (d <=? y) && (y <? d + n) then bst m st (y - d + s) else bst m st y).
  Proof.
    intros O R RD As Ad An Hb Hov. pose proof (state_layout m st O) as L.
    destruct (range_top m st s n O R) as (H0 & Hn & Ht).
    unfold umbra_copy_range. replace (n =? 0) with false by (clear - Hn; lia).
    destruct (Z.eqb_spec s d) as [->|N]; cbn [orb].
    - exists st, S_ok, 0. split; [reflexivity|]. split; [apply ext_refl; exact O|].
      intros y Hy. replace (y - d + d) with y by lia. destruct ((d <=? y) && (y <? d + n)); reflexivity.
    - assert (W : whole m s n) by (unfold whole; rewrite (den4 m Hm); auto).
      assert (WD : whole m d n) by (unfold whole; rewrite (den4 m Hm); auto).
      destruct (copy_ok m st s d n Mok O R RD W) as (st' & E & (X & C1 & C2) & _).
      { rewrite (den4 m Hm). exact Ad. } { rewrite (den4 m Hm). lia. } { exact Hb. } { exact Hov. }
      rewrite E. exists st', S_ok, (nshadow m n). split; [reflexivity|]. split; [exact X|].
      assert (SB : forall z i, z mod 4 = 0 -> sbyte m z i = first_shadow m (z + i * 4)).
      { intros z i Hz. unfold sbyte. rewrite (num1 m Hm), (den4 m Hm), Z.div_1_r, Z.mod_1_r. lia. }
      assert (GR : forall y z, in_app (segs st) y -> in_app (segs st) z -> z / 4 = y / 4 -> first_shadow m z = first_shadow m y).
      { intros y z Hy Hz G. assert (Q : z / 2 ^ 18 = y / 2 ^ 18) by (clear - G; lia).
        destruct (fs_block m Hm (segs st) y z L Hy Q) as (_ & -> & _).
        destruct (fs_block m Hm (segs st) y y L Hy eq_refl) as (_ & -> & _). clear - G. unfold blk. lia. }
      intros y Hy. unfold bst. destruct ((d <=? y) && (y <? d + n)) eqn:Er.
      + pose (i := (y - d) / 4).
        assert (Hi : 0 <= i < nshadow m n) by (unfold nshadow; rewrite (num1 m Hm), (den4 m Hm); subst i; clear - Er An; lia).
        specialize (C1 i Hi). rewrite !SB in C1 by assumption.
        rewrite (GR y (d + i * 4)) in C1.
        2:{ exact Hy. } 2:{ apply RD. subst i. clear - Er. lia. } 2:{ subst i. clear - Ad. lia. }
        rewrite (GR (y - d + s) (s + i * 4)) in C1.
        2:{ apply R. clear - Er. lia. } 2:{ apply R. subst i. clear - Er. lia. } 2:{ subst i. clear - As Ad. lia. }
        unfold val. rewrite C1. f_equal. clear - As Ad. lia.
      + f_equal. unfold val. rewrite C2; [reflexivity|]. intros i Hi Q. rewrite SB in Q by exact Ad.
        unfold nshadow in Hi. rewrite (num1 m Hm), (den4 m Hm) in Hi.
        assert (Iz : in_app (segs st) (d + i * 4)) by (apply RD; clear - Hi An; lia).
        pose proof (gran_inj m (segs st) y (d + i * 4) (first_shadow m y) Mok L Hy Iz) as J. rewrite (den4 m Hm) in J.
        assert (G : y / 4 = (d + i * 4) / 4) by (apply J; apply (shadow_of1 m Hm); [reflexivity|exact Q]).
        clear - G Hi Er Ad An. lia.
  Qed.

  Lemma copy_range_us st old new size : state_ok m st -> us m (segs st) old (old + size) ->
    us m (segs st) new (new + size) -> 0 < size -> copyable old new size ->
    exists st', copy_range m st old new size = Ok st' /\ ext m st st' /\
      (forall y, in_app (segs st) y -> bst m st' y =
         if (new <=? y) && (y <? new + size) then bst m st (y - new + old) else bst m st y).
  Proof.
    intros O US UD Hs (Hb & HC).
    destruct (us_bound m Hm st old O (US old ltac:(lia))) as [A0 A1].
    destruct (us_bound m Hm st (old + size - 1) O (US (old + size - 1) ltac:(lia))) as [A2 A3].
    destruct (us_bound m Hm st new O (UD new ltac:(lia))) as [B0 B1].
    destruct (us_bound m Hm st (new + size - 1) O (UD (new + size - 1) ltac:(lia))) as [B2 B3].
    unfold copy_range. destruct (Z.eqb_spec (old mod 4) (new mod 4)) as [EQ|NE]; cbn [negb].
    2:{ clear HC. destruct (get_loop_ok (fuel size) st info0 old 0 size O) as (inf & E & _).
        { rewrite Z.add_0_r. exact US. } { left; reflexivity. } { lia. } { lia. } { lia. } { unfold fuel; lia. }
        rewrite E. cbn [bind fst]. rewrite Z.add_0_r, Z.sub_0_r.
        destruct (put_loop_ok (fuel size) st info0 new 0 size (bsts st old (Z.to_nat size)) O) as (st' & inf' & E' & X & _ & F).
        { rewrite Z.add_0_r. exact UD. } { left; reflexivity. } { lia. } { lia. } { lia. } { unfold fuel; lia. }
        { rewrite bsts_length. lia. } { apply bsts_in. }
        rewrite E'. exists st'. split; [reflexivity|]. split; [exact X|].
        intros y Hy. rewrite F by exact Hy. rewrite Z.add_0_r.
        destruct ((new <=? y) && (y <? new + size)) eqn:Er; [|reflexivity].
        rewrite bsts_nth by lia. f_equal. lia. }
    destruct HC as [HC|[OV HD]]; [congruence|].
    rewrite (w64_small (old + size)), (w64_small (new + size)) by (clear - A0 A1 A2 A3 B0 B1 B2 B3; lia). cbv zeta.
    set (h := if old mod 4 =? 0 then 0 else 4 - old mod 4).
    set (t := (old + size) mod 4).
    rewrite !align_back4, !align_fwd4 by (clear - A0 A1 A2 A3 B0 B1 B2 B3; lia).
    replace (if t =? 0 then old + size else old + size - (old + size) mod 4) with (old + size - t).
    2:{ subst t. destruct (Z.eqb_spec ((old + size) mod 4) 0); lia. }
    replace (old + 3 - (old + 3) mod 4) with (old + h) by (subst h; clear; destruct (Z.eqb_spec (old mod 4) 0); lia).
    replace (new + 3 - (new + 3) mod 4) with (new + h) by (subst h; clear - EQ; destruct (Z.eqb_spec (old mod 4) 0); lia).
    replace (new + size - (new + size) mod 4) with (new + size - t) by (subst t; clear - EQ; lia).
    assert (Hh : 0 <= h <= 3 /\ h <= size /\ (old + h) mod 4 = 0 /\ (new + h) mod 4 = 0).
    { subst h. clear - HD Hs EQ. destruct (Z.eqb_spec (old mod 4) 0); lia. }
    assert (Ht : 0 <= t <= 3 /\ (old + size - t) mod 4 = 0 /\ (new + size - t) mod 4 = 0 /\ h + t <= size).
    { subst t. clear - Hh EQ. lia. }
    clearbody h t.
    destruct (get_loop_ok (fuel h) st info0 old 0 h O) as (inf1 & E1 & I1).
    { intros y Hy. apply US. clear - Hy Hh; lia. } { left; reflexivity. } { lia. } { lia. } { lia. } { unfold fuel; lia. }
    rewrite E1. cbn [bind fst snd].
    destruct (get_loop_ok (fuel t) st inf1 (old + size - t) 0 t O) as (inf2 & E2 & I2).
    { intros y Hy. apply US. clear - Hy Hh Ht; lia. } { exact I1. } { lia. } { lia. } { lia. } { unfold fuel; lia. }
    rewrite E2. cbn [bind fst snd]. rewrite !Z.add_0_r, !Z.sub_0_r.
    assert (MID : exists st2, (if old + h <? old + size - t then
                 let* r := umbra_copy_range m st (old + h) (new + h) (old + size - t - (old + h)) in
                 Ok (fst (fst r)) else Ok st) = Ok st2 /\ ext m st st2 /\
        (forall y, in_app (segs st) y -> bst m st2 y =
           if (new + h <=? y) && (y <? new + size - t) then bst m st (y - new + old) else bst m st y)).
    { destruct (Z.ltb_spec (old + h) (old + size - t)) as [PQ|PQ].
      - destruct (umbra_copy st (old + h) (new + h) (old + size - t - (old + h)) O) as (st2 & k & r & E & X & F).
        { apply (us_app_range m); [|clear - PQ Hh A0; lia]. intros y Hy. apply US. clear - Hy Hh Ht; lia. }
        { replace (old + size - t - (old + h)) with (new + size - t - (new + h)) by lia.
          apply (us_app_range m); [|clear - PQ Hh B0; lia]. intros y Hy. apply UD. clear - Hy Hh Ht; lia. }
        { apply Hh. } { apply Hh. } { clear - Hh Ht; lia. } { clear - Hb Hh Ht; lia. } { clear - OV Hh Ht. lia. }
        rewrite E. exists st2. split; [reflexivity|]. split; [exact X|]. intros y Hy. rewrite F by exact Hy.
        replace (new + h + (old + size - t - (old + h))) with (new + size - t) by lia.
        replace (y - (new + h) + (old + h)) with (y - new + old) by lia. reflexivity.
      - exists st. split; [reflexivity|]. split; [apply ext_refl; exact O|].
        intros y Hy. replace ((new + h <=? y) && (y <? new + size - t)) with false by (clear - PQ; lia). reflexivity. }
    destruct MID as (st2 & E3 & X2 & F2). rewrite E3. cbn [bind].
    assert (O2 : state_ok m st2) by apply X2.
    assert (UD2 : us m (segs st2) new (new + size)) by (eapply us_ext; eauto).
    destruct (put_loop_ok (fuel h) st2 info0 new 0 h (bsts st old (Z.to_nat h)) O2) as (st3 & inf3 & E4 & X3 & I3 & F3).
    { intros y Hy. apply UD2. clear - Hy Hh; lia. } { left; reflexivity. } { lia. } { lia. } { lia. } { unfold fuel; lia. }
    { rewrite bsts_length. lia. } { apply bsts_in. }
    rewrite E4. cbn [bind fst snd]. assert (O3 : state_ok m st3) by apply X3.
    destruct (put_loop_ok (fuel t) st3 inf3 (new + size - t) 0 t (bsts st (old + size - t) (Z.to_nat t)) O3) as (st4 & inf4 & E5 & X4 & _ & F4).
    { apply (us_ext m st2 st3); [exact X3|]. intros y Hy. apply UD2. clear - Hy Hh Ht; lia. } { exact I3. }
    { lia. } { lia. } { lia. } { unfold fuel; lia. }
    { rewrite bsts_length. lia. } { apply bsts_in. }
    rewrite E5. exists st4. split; [reflexivity|].
    split; [eapply ext_trans; [exact X2|eapply ext_trans; eauto]|].
    intros y Hy. assert (Hy2 : in_app (segs st2) y) by (apply (in_app_ext m st st2 y X2); exact Hy).
    assert (Hy3 : in_app (segs st3) y) by (apply (in_app_ext m st2 st3 y X3); exact Hy2).
    rewrite F4 by exact Hy3. rewrite F3 by exact Hy2. rewrite F2 by exact Hy. rewrite !Z.add_0_r.
    clear - Hh Ht.
    destruct ((new + size - t <=? y) && (y <? new + size - t + t)) eqn:C1.
    { replace ((new <=? y) && (y <? new + size)) with true by lia. rewrite bsts_nth by lia. f_equal. lia. }
    destruct ((new <=? y) && (y <? new + h)) eqn:C2.
    { replace ((new <=? y) && (y <? new + size)) with true by lia. rewrite bsts_nth by lia. f_equal. lia. }
    destruct ((new + h <=? y) && (y <? new + size - t)) eqn:C3.
    { replace ((new <=? y) && (y <? new + size)) with true by lia. reflexivity. }
    replace ((new <=? y) && (y <? new + size)) with false by lia. reflexivity.
  Qed.
End S.
