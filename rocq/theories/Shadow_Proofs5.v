(** Checks, searches, conditional set, save and restore. *)
From Verif Require Import Base Mem Umbra_Model Umbra_Spec Umbra_Proofs1 Umbra_Proofs2 Umbra_Proofs3
  Umbra_Proofs4 Umbra_Proofs5 Umbra_Proofs6 Umbra_Proofs7 Umbra_Proofs8 Umbra_Proofs9
  Shadow_Model Shadow_Spec Shadow_Proofs1 Shadow_Proofs2 Shadow_Proofs3 Shadow_Proofs4.
From Coq Require Import Lia.
Open Scope Z_scope.

Section S.
  Variable m : umap.
  Hypothesis Hm : shadow_map m.
  Let Mok : map_ok m := sh_map m Hm.

  Lemma inf_ok_blk st x : in_app (segs st) x -> inf_ok m st (blkinfo m st x).
  Proof. intros H. right. exists x. auto. Qed.

  (* -- set_non_matching -- *)
  Lemma non_matching_S n st inf cur end_ val val_not : non_matching_loop (S n) m st inf cur end_ val val_not =
    if cur =? end_ then Ok st
    else
      let* g := get_byte m st inf cur in
      let '(v, inf) := g in
      let* r := if v =? val_not then Ok (st, inf) else set_byte m st inf cur val in
      non_matching_loop n m (fst r) (snd r) (w64 (cur + 1)) end_ val val_not.
  Proof. reflexivity. Qed.

  Lemma non_matching_ok n : forall st inf cur e v w, state_ok m st -> us m (segs st) cur e -> 0 <= v < 4 ->
    inf_ok m st inf -> cur <= e -> e - cur < Z.of_nat n ->
    exists st', non_matching_loop n m st inf cur e v w = Ok st' /\ ext m st st' /\
      (forall y, in_app (segs st) y -> bst m st' y =
         if (cur <=? y) && (y <? e) && negb (bst m st y =? w) then v else bst m st y).
  Proof.
    induction n as [|n IH]; intros st inf cur e v w O U Hv I Hc Hn; [lia|].
    rewrite non_matching_S. destruct (Z.eqb_spec cur e) as [->|N].
    - exists st. split; [reflexivity|]. split; [apply ext_refl; exact O|]. intros y Hy.
      replace ((e <=? y) && (y <? e)) with false by lia. reflexivity.
    - pose proof (U cur ltac:(lia)) as U1. destruct (us_bound m Hm st _ O U1) as [B0 B1].
      rewrite (get_byte_good m Hm st inf cur O U1 I). cbn [bind]. rewrite w64_small by (clear - B0 B1; lia).
      assert (SB : exists st1, (if bst m st cur =? w then Ok (st, blkinfo m st cur)
                 else set_byte m st (blkinfo m st cur) cur v) = Ok (st1, blkinfo m st1 cur) /\ ext m st st1 /\
               (forall y, in_app (segs st) y -> bst m st1 y = if (y =? cur) && negb (bst m st y =? w) then v else bst m st y)).
      { destruct (Z.eqb_spec (bst m st cur) w) as [E|NE].
        - exists st. split; [reflexivity|]. split; [apply ext_refl; exact O|]. intros y Hy.
          destruct (Z.eqb_spec y cur) as [->|]; [|reflexivity]. rewrite E, Z.eqb_refl. reflexivity.
        - destruct (set_byte_good m Hm st (blkinfo m st cur) cur v O U1 (inf_ok_blk st cur (proj1 U1)) Hv) as (st1 & E & X & _ & F).
          exists st1. split; [exact E|]. split; [exact X|]. intros y Hy. rewrite F by exact Hy.
          destruct (Z.eqb_spec y cur) as [->|]; [|reflexivity]. replace (bst m st cur =? w) with false by lia. reflexivity. }
      destruct SB as (st1 & E1 & X1 & F1). rewrite E1. cbn [bind fst snd].
      assert (O1 : state_ok m st1) by apply X1.
      destruct (IH st1 (blkinfo m st1 cur) (cur + 1) e v w O1) as (st2 & E2 & X2 & F2).
      { apply (us_ext m st st1); [exact X1|]. intros y Hy. apply U. lia. } { exact Hv. }
      { apply inf_ok_blk. apply (in_app_ext m st st1 _ X1). apply U1. } { lia. } { lia. }
      exists st2. split; [exact E2|]. split; [eapply ext_trans; eauto|].
      intros y Hy. rewrite F2; [|apply (in_app_ext m st st1 y X1); exact Hy]. rewrite F1 by exact Hy.
      destruct (Z.eqb_spec y cur) as [->|NY].
      + replace (cur + 1 <=? cur) with false by lia. replace ((cur <=? cur) && (cur <? e)) with true by lia. reflexivity.
      + replace (cur + 1 <=? y) with (cur <=? y) by lia. cbn [andb]. reflexivity.
  Qed.

  (* -- check_range -- *)
  Definition dq (pc v : Z) : Z * Z :=
    if negb (pc mod 16 =? 0) then (v, 1)
    else match dqword_to_val v with None => (v, 1) | Some d => (d, 16) end.

  Lemma dq_eq pc v : 0 <= v < 4 -> dq pc v = (v, if (pc mod 16 =? 0) && (v =? 0) then 16 else 1).
  Proof.
    intros H. unfold dq. destruct (pc mod 16 =? 0); [|reflexivity].
    assert (C : v = 0 \/ v = 1 \/ v = 2 \/ v = 3) by lia. destruct C as [->|[->|[->| ->]]]; reflexivity.
  Qed.

  Lemma check_loop_S n st inf pc lim expect want bad last : check_loop (S n) m st inf pc lim expect want bad last =
    if pc <? lim then
      let* g := get_byte m st inf pc in
      let '(v, inf) := g in
      let '(val, incr) := dq pc v in
      match bad with
      | Some (s, b) =>
        if negb (val =? b) || negb want then
          Ok (Check false bad (if want then Some pc else None))
        else check_loop n m st inf (w64 (pc + incr)) lim expect want bad val
      | None =>
        if negb (val =? expect)
        then check_loop n m st inf (w64 (pc + incr)) lim expect want (Some (pc, val)) val
        else check_loop n m st inf (w64 (pc + incr)) lim expect want None val
      end
    else Ok (match bad with
    | None => Check true None None
    | Some (s, b) => Check false bad (if want && (last =? b) then Some pc else None)
    end).
  Proof. reflexivity. Qed.

  Section C.
    Variables (st : ustate) (x lim : Z).
    Hypothesis O : state_ok m st.
    Hypothesis U : us m (segs st) x lim.
    Hypothesis Hx : 0 <= x.
    Hypothesis Hlim : lim + 16 <= 2 ^ 64.
    Let D := bst m st.

    Lemma check_step n inf pc expect want bad last : x <= pc -> inf_ok m st inf -> pc < lim ->
      check_loop (S n) m st inf pc lim expect want bad last =
      let val := D pc in
      let npc := pc + (if (pc mod 16 =? 0) && (val =? 0) then 16 else 1) in
      match bad with
      | Some (s, b) =>
        if negb (val =? b) || negb want then
          Ok (Check false bad (if want then Some pc else None))
        else check_loop n m st (blkinfo m st pc) npc lim expect want bad val
      | None =>
        if negb (val =? expect)
        then check_loop n m st (blkinfo m st pc) npc lim expect want (Some (pc, val)) val
        else check_loop n m st (blkinfo m st pc) npc lim expect want None val
      end.
    Proof.
      intros H I L. rewrite check_loop_S. replace (pc <? lim) with true by lia.
      rewrite (get_byte_good m Hm st inf pc O (U pc ltac:(lia)) I). cbn [bind].
      rewrite dq_eq by apply bst_range. fold D.
      rewrite w64_small; [reflexivity|]. clear - H L Hx Hlim. destruct ((pc mod 16 =? 0) && (D pc =? 0)); lia.
    Qed.

    (** The scan for the extent. *)
    Lemma check_tail n : forall inf pc expect want s b, x <= s -> s < pc -> inf_ok m st inf ->
      Z.max 0 (lim - pc) < Z.of_nat n ->
      exists o, check_loop n m st inf pc lim expect want (Some (s, b)) b = Ok (Check false (Some (s, b)) o) /\
        (want = false -> o = None) /\
        (want = true -> exists e, o = Some e /\ pc <= e /\ (e < lim -> D e <> b) /\
           (b <> 0 -> e <= Z.max pc lim) /\ (e <= Z.max pc (lim + 15)) /\
           ((b = 0 -> chunky D x (lim - x)) -> forall y, pc <= y < Z.min e lim -> D y = b)).
    Proof.
      induction n as [|n IH]; intros inf pc expect want s b Hs Hpc I Hn; [lia|].
      destruct (Z_lt_dec pc lim) as [L|L].
      - rewrite check_step by (assumption || lia). cbv zeta.
        pose proof (U pc ltac:(lia)) as U1.
        destruct (Z.eqb_spec (D pc) b) as [E|N]; cbn [negb orb].
        + destruct want; cbn [negb].
          * set (npc := pc + (if (pc mod 16 =? 0) && (D pc =? 0) then 16 else 1)).
            assert (Hnp : (npc = pc + 1 \/ (npc = pc + 16 /\ D pc = 0 /\ pc mod 16 = 0))).
            { subst npc. destruct ((pc mod 16 =? 0) && (D pc =? 0)) eqn:Q; [right|left; reflexivity]. split; [reflexivity|]. lia. }
            rewrite E. destruct (IH (blkinfo m st pc) npc expect true s b Hs ltac:(lia) (inf_ok_blk st pc (proj1 U1)) ltac:(lia))
              as (o & Eo & W1 & W2).
            exists o. split; [exact Eo|]. split; [exact W1|]. intros _. destruct (W2 eq_refl) as (e & -> & P1 & P2 & P3 & P3' & P4).
            exists e. split; [reflexivity|]. split; [lia|]. split; [exact P2|]. split; [|split].
            -- intros Nb. specialize (P3 Nb). lia.
            -- lia.
            -- intros Ch y Hy. destruct (Z_lt_dec y npc) as [Ly|Ly]; [|apply P4; [exact Ch|lia]].
               destruct Hnp as [->|(Hn16 & D0 & A0)].
               ++ replace y with pc by lia. exact E.
               ++ assert (b = 0) by congruence. rewrite H. apply (Ch H pc y); lia.
          * exists None. split; [reflexivity|]. split; [reflexivity|]. discriminate.
        + destruct want.
          * exists (Some pc). split; [reflexivity|]. split; [discriminate|]. intros _. exists pc. split; [reflexivity|].
            split; [lia|]. split; [auto|]. split; [lia|]. split; [lia|]. intros; lia.
          * exists None. split; [reflexivity|]. split; [reflexivity|]. discriminate.
      - rewrite check_loop_S. replace (pc <? lim) with false by lia. rewrite Z.eqb_refl. destruct want; cbn [andb].
        + exists (Some pc). split; [reflexivity|]. split; [discriminate|]. intros _. exists pc. split; [reflexivity|].
          split; [lia|]. split; [lia|]. split; [lia|]. split; [lia|]. intros; lia.
        + exists None. split; [reflexivity|]. split; [reflexivity|]. discriminate.
    Qed.

    Lemma check_head n : forall inf pc expect want last, x <= pc -> inf_ok m st inf ->
      ((expect = 0 -> chunky D x (lim - x)) -> forall y, x <= y < Z.min pc lim -> D y = expect) ->
      Z.max 0 (lim - pc) < Z.of_nat n ->
      exists r, check_loop n m st inf pc lim expect want None last = Ok r /\ checked D x lim expect want r.
    Proof.
      induction n as [|n IH]; intros inf pc expect want last Hpc I P Hn; [lia|].
      destruct (Z_lt_dec pc lim) as [L|L].
      - rewrite check_step by (assumption || lia). cbv zeta.
        pose proof (U pc ltac:(lia)) as U1.
        set (npc := pc + (if (pc mod 16 =? 0) && (D pc =? 0) then 16 else 1)).
        assert (Hnp : (npc = pc + 1 \/ (npc = pc + 16 /\ D pc = 0 /\ pc mod 16 = 0))).
        { subst npc. destruct ((pc mod 16 =? 0) && (D pc =? 0)) eqn:Q; [right|left; reflexivity]. split; [reflexivity|]. lia. }
        clearbody npc. destruct (Z.eqb_spec (D pc) expect) as [E|N]; cbn [negb].
        + apply IH; [lia|apply inf_ok_blk; apply U1| |lia].
          intros Ch y Hy. destruct (Z_lt_dec y pc) as [Ly|Ly]; [apply P; [exact Ch|lia]|].
          destruct Hnp as [->|(-> & D0 & A0)].
          * replace y with pc by lia. exact E.
          * assert (expect = 0) by congruence. rewrite H. apply (Ch H pc y); lia.
        + destruct (check_tail n (blkinfo m st pc) npc expect want pc (D pc)) as (o & Eo & W1 & W2); [lia|lia|apply inf_ok_blk; apply U1|lia|].
          rewrite Eo. eexists. split; [reflexivity|]. unfold checked. cbn [c_bad c_res c_end].
          split; [reflexivity|]. split; [lia|]. split; [reflexivity|]. split; [exact N|]. split; [|split; [exact W1|]].
          * intros Ch y Hy. apply P; [exact Ch|lia].
          * intros Hw. destruct (W2 Hw) as (e & -> & P1 & P2 & P3 & P3' & P4). exists e. split; [reflexivity|].
            split; [lia|]. split; [exact P2|]. split; [|].
            -- intros Nb. specialize (P3 Nb). destruct Hnp as [->|(_ & Q & _)]; [lia|congruence].
            -- intros Ch y Hy. destruct (Z_lt_dec y npc) as [Ly|Ly]; [|apply P4; [exact Ch|lia]].
               destruct Hnp as [->|(Hn16 & D0 & A0)]; [replace y with pc by lia; reflexivity|].
               rewrite D0. apply (Ch D0 pc y); lia.
      - rewrite check_loop_S. replace (pc <? lim) with false by lia. eexists. split; [reflexivity|].
        unfold checked. cbn [c_bad c_res c_end]. split; [reflexivity|]. split; [reflexivity|].
        intros Ch y Hy. apply P; [exact Ch|lia].
    Qed.
  End C.

  (* -- backward -- *)
  Lemma back_loop_ok n : forall st inf pc stop expect, state_ok m st -> us m (segs st) (stop + 1) (pc + 1) ->
    inf_ok m st inf -> 0 <= stop -> Z.max 0 (pc - stop) < Z.of_nat n ->
    exists r, back_loop n m st inf pc stop expect = Ok r /\
      match r with
      | Some a => stop < a <= pc /\ bst m st a <> expect /\ forall y, a < y <= pc -> bst m st y = expect
      | None => forall y, stop < y <= pc -> bst m st y = expect
      end.
  Proof.
    induction n as [|n IH]; intros st inf pc stop expect O U I Hs Hn; [lia|].
    cbn [back_loop]. destruct (Z.ltb_spec stop pc) as [L|L].
    - pose proof (U pc ltac:(lia)) as U1. destruct (us_bound m Hm st _ O U1) as [B0 B1].
      rewrite (get_byte_good m Hm st inf pc O U1 I). cbn [bind fst snd].
      destruct (Z.eqb_spec (bst m st pc) expect) as [E|N]; cbn [negb].
      + rewrite w64_small by (clear - B0 B1 L Hs; lia).
        destruct (IH st (blkinfo m st pc) (pc - 1) stop expect O) as (r & Er & Q).
        { intros y Hy. apply U. lia. } { apply inf_ok_blk. apply U1. } { lia. } { lia. }
        exists r. split; [exact Er|]. destruct r as [a|].
        * destruct Q as (Q1 & Q2 & Q3). split; [lia|]. split; [exact Q2|]. intros y Hy.
          destruct (Z.eq_dec y pc) as [->|]; [exact E|apply Q3; lia].
        * intros y Hy. destruct (Z.eq_dec y pc) as [->|]; [exact E|apply Q; lia].
      + exists (Some pc). split; [reflexivity|]. split; [lia|]. split; [exact N|]. intros; lia.
    - exists None. split; [reflexivity|]. intros; lia.
  Qed.

  (* -- next_dword -- *)
  Lemma val_range st a : state_ok m st -> 0 <= val m st a < 256.
  Proof.
    intros O. unfold val, cont. destruct (liveb m st a) eqn:E.
    - destruct (liveb_mapped m st a O E) as (v & -> & H). exact H.
    - rewrite (sh_dflt m Hm). lia.
  Qed.

  Lemma granule st y v : state_ok m st -> in_app (segs st) y -> y mod 4 = 0 -> 0 <= v < 4 ->
    val m st (first_shadow m y) = byte_2_dword v <-> forall z, y <= z < y + 4 -> bst m st z = v.
  Proof.
    intros O Hy Ay Hv. pose proof (state_layout m st O) as L.
    assert (FS : forall z, y <= z < y + 4 -> first_shadow m z = first_shadow m y).
    { intros z Hz. assert (Q : z / 2 ^ 18 = y / 2 ^ 18) by (clear - Ay Hz; lia).
      destruct (fs_block m Hm (segs st) y z L Hy Q) as (_ & -> & _).
      destruct (fs_block m Hm (segs st) y y L Hy eq_refl) as (_ & -> & _). clear - Ay Hz. unfold blk. lia. }
    split.
    - intros E z Hz. unfold bst. rewrite (FS z Hz), E. apply two_pattern; [exact Hv|clear; lia].
    - intros H. pose proof (pattern_range v) as PR. apply two_ext; [apply val_range; exact O|lia|].
      intros j Hj. rewrite two_pattern by assumption. rewrite <- (H (y + j)) by lia. unfold bst.
      rewrite (FS (y + j)) by lia. f_equal. clear - Ay Hj. lia.
  Qed.

  Lemma next_dword_us st x n v : state_ok m st -> us m (segs st) x (x + n) -> 0 <= x -> 0 < n -> x mod 4 = 0 -> n mod 4 = 0 ->
    0 <= v < 4 ->
    exists st' r, next_dword m st x (x + n) v = Ok (st', r) /\ ext m st st' /\
      (forall y, bst m st' y = bst m st y) /\
      match r with
      | Some y => x <= y < x + n /\ y mod 4 = 0 /\ (forall z, y <= z < y + 4 -> bst m st z = v) /\
          forall y', x <= y' < y -> y' mod 4 = 0 -> exists z, y' <= z < y' + 4 /\ bst m st z <> v
      | None => forall y', x <= y' < x + n -> y' mod 4 = 0 -> exists z, y' <= z < y' + 4 /\ bst m st z <> v
      end.
  Proof.
    intros O U H0 Hn Ax An Hv. pose proof (us_app_range m (segs st) x (x + n) U ltac:(lia)) as R.
    replace (x + n - x) with n in R by lia. destruct (range_top m st x n O R) as (_ & _ & Ht).
    assert (W : whole m x n) by (unfold whole; rewrite (den4 m Hm); auto).
    assert (HL : (x + n - 1) mod app_bs m <> 0) by (apply last_den; [rewrite (den4 m Hm); lia|exact W]).
    destruct (value_in_ok m st x n (byte_2_dword v) Mok O R W HL (pattern_range v)) as (st' & r & E & X & C & _ & F).
    exists st', r. split; [|split; [exact X|split]].
    - unfold next_dword, umbra_value_in. replace (x + n - x) with n by lia. rewrite w64_small by lia.
      replace (n =? 0) with false by lia. rewrite E. reflexivity.
    - intros y. unfold bst, val. rewrite C. reflexivity.
    - assert (SB : forall i, sbyte m x i = first_shadow m (x + i * 4)).
      { intros i. unfold sbyte. rewrite (num1 m Hm), (den4 m Hm), Z.div_1_r, Z.mod_1_r. lia. }
      assert (NS : nshadow m n = n / 4) by (unfold nshadow; rewrite (num1 m Hm), (den4 m Hm), Z.mul_1_r; reflexivity).
      assert (NM : forall y', x <= y' < x + n -> y' mod 4 = 0 -> cont m st (sbyte m x ((y' - x) / 4)) <> Some (byte_2_dword v) ->
                exists z, y' <= z < y' + 4 /\ bst m st z <> v).
      { intros y' Hy' Ay' NC. rewrite SB in NC. replace (x + (y' - x) / 4 * 4) with y' in NC by (clear - Ay' Ax; lia).
        destruct (Z.eq_dec (bst m st y') v) as [E0|]; [|exists y'; split; [lia|assumption]].
        destruct (Z.eq_dec (bst m st (y' + 1)) v) as [E1|]; [|exists (y' + 1); split; [lia|assumption]].
        destruct (Z.eq_dec (bst m st (y' + 2)) v) as [E2|]; [|exists (y' + 2); split; [lia|assumption]].
        destruct (Z.eq_dec (bst m st (y' + 3)) v) as [E3|]; [|exists (y' + 3); split; [lia|assumption]].
        exfalso. apply NC. rewrite (cont_val m st _ Mok O). f_equal. apply granule; [exact O|apply R; exact Hy'|exact Ay'|exact Hv|].
        intros z Hz. assert (z = y' \/ z = y' + 1 \/ z = y' + 2 \/ z = y' + 3) as [->|[->|[->| ->]]] by lia; assumption. }
      unfold found_at in F. rewrite NS in F. rewrite (num1 m Hm), (den4 m Hm) in F. destruct r as [y|].
      + destruct F as (i & F1 & F2 & F3 & F4). rewrite Z.div_1_r in F2. subst y.
        split; [clear - F1 An; lia|]. split; [clear - Ax; lia|]. split.
        * apply granule; [exact O|apply R; clear - F1 An; lia|clear - Ax; lia|exact Hv|]. apply val_of. rewrite <- SB. exact F3.
        * intros y' Hy' Ay'. apply NM; [clear - F1 Hy' An; lia|exact Ay'|]. apply F4. clear - F1 Hy' An Ay' Ax. lia.
      + intros y' Hy' Ay'. apply NM; [exact Hy'|exact Ay'|]. apply F. clear - Hy' An Ax Ay'. lia.
  Qed.

  (* -- save and restore -- *)
  Definition buf_ok (buf : mem) (n : Z) : Prop :=
    forall a, (0 <= a < n -> exists v, buf a = Some v /\ 0 <= v < 256) /\ (~ 0 <= a < n -> buf a = None).

  Lemma fresh_ok n g : buf_ok (fresh n g) n.
  Proof.
    intros a. unfold fresh. split; intros H.
    - replace ((0 <=? a) && (a <? n)) with true by lia. eexists. split; [reflexivity|]. apply Z.mod_pos_bound. lia.
    - replace ((0 <=? a) && (a <? n)) with false by lia. reflexivity.
  Qed.

  Lemma buf_set buf n i v : buf_ok buf n -> 0 <= i -> 0 <= v < 4 -> 4 * (i / 16) + 4 <= n ->
    exists buf', bitmapx2_set buf 0 i v = Ok buf' /\ buf_ok buf' n /\
      (forall j, 0 <= j -> 4 * (j / 16) + 4 <= n -> bitmapx2_get buf' 0 j = if j =? i then Ok v else bitmapx2_get buf 0 j).
  Proof.
    intros B Hi Hv Hn.
    assert (B4 : forall b k, buf_ok b n -> 0 <= k -> 4 * (k / 16) + 4 <= n -> bytes4 b (0 + 4 * (k / 16))).
    { intros b k Bb Hk Hkn q Hq. apply Bb. lia. }
    destruct (bitmap_set buf 0 i v Hi Hv (B4 buf i B Hi Hn)) as (buf' & E & Out & In).
    exists buf'. split; [exact E|].
    assert (B' : buf_ok buf' n).
    { intros a. assert (C : 0 + 4 * (i / 16) <= a < 0 + 4 * (i / 16) + 4 \/ ~ 0 + 4 * (i / 16) <= a < 0 + 4 * (i / 16) + 4) by lia.
      destruct C as [C|C].
      - destruct (In a C) as (b & b' & _ & Eb & Rb & _). split; [intros _; eauto|]. intros Q. exfalso. apply Q. lia.
      - rewrite Out by exact C. apply B. }
    split; [exact B'|]. intros j Hj Hjn.
    destruct (bitmap_get buf' 0 j Hj (B4 buf' j B' Hj Hjn)) as (b' & Eb' & ->).
    destruct (bitmap_get buf 0 j Hj (B4 buf j B Hj Hjn)) as (b & Eb & ->).
    assert (C : 0 + 4 * (i / 16) <= 0 + j / 4 < 0 + 4 * (i / 16) + 4 \/ ~ 0 + 4 * (i / 16) <= 0 + j / 4 < 0 + 4 * (i / 16) + 4) by lia.
    destruct C as [C|C].
    - destruct (In _ C) as (c & c' & Ec & Ec' & _ & T). rewrite Eb in Ec. rewrite Eb' in Ec'. injection Ec as <-. injection Ec' as <-.
      rewrite T by lia. replace ((0 + j / 4 =? 0 + i / 4) && (j mod 4 =? i mod 4)) with (j =? i); [destruct (j =? i); reflexivity|].
      apply eq_true_iff_eq. rewrite andb_true_iff, !Z.eqb_eq. lia.
    - rewrite Out, Eb in Eb' by exact C. injection Eb' as <-. replace (j =? i) with false; [reflexivity|]. symmetry. apply Z.eqb_neq. intros ->. apply C. lia.
  Qed.

  Lemma save_loop_S n st inf buf start i size : save_loop (S n) m st inf buf start i size =
    if i <? size then
      let* g := get_byte m st inf (w64 (start + i)) in
      let* buf := bitmapx2_set buf 0 i (fst g) in
      save_loop n m st (snd g) buf start (w32 (i + 1)) size
    else Ok buf.
  Proof. reflexivity. Qed.

  Lemma save_loop_ok n : forall st inf buf start i size k, state_ok m st -> us m (segs st) (start + i) (start + size) ->
    inf_ok m st inf -> 0 <= i -> 0 <= start -> size < 2 ^ 32 -> buf_ok buf k -> (size <= 0 \/ 4 * ((size - 1) / 16) + 4 <= k) ->
    Z.max 0 (size - i) < Z.of_nat n ->
    exists buf', save_loop n m st inf buf start i size = Ok buf' /\ buf_ok buf' k /\
      (forall j, 0 <= j -> 4 * (j / 16) + 4 <= k -> bitmapx2_get buf' 0 j =
         if (i <=? j) && (j <? size) then Ok (bst m st (start + j)) else bitmapx2_get buf 0 j).
  Proof.
    induction n as [|n IH]; intros st inf buf start i size k O U I Hi Hs Hb B Hk Hn; [lia|].
    rewrite save_loop_S. destruct (Z.ltb_spec i size) as [L|L].
    - pose proof (U (start + i) ltac:(lia)) as U1. destruct (us_bound m Hm st _ O U1) as [_ B1].
      rewrite w64_small by (clear - Hi Hs B1; lia).
      rewrite (get_byte_good m Hm st inf (start + i) O U1 I). cbn [bind fst snd].
      destruct (buf_set buf k i (bst m st (start + i)) B Hi (bst_range _ _ _) ltac:(lia)) as (buf1 & E1 & B1' & G1).
      rewrite E1. cbn [bind]. rewrite (w32_small i size) by lia.
      destruct (IH st (blkinfo m st (start + i)) buf1 start (i + 1) size k O) as (buf2 & E2 & B2 & G2).
      { intros y Hy. apply U. lia. } { apply inf_ok_blk. apply U1. } { lia. } { lia. } { lia. } { exact B1'. } { lia. } { lia. }
      exists buf2. split; [exact E2|]. split; [exact B2|]. intros j Hj Hjk. rewrite G2, G1 by assumption.
      destruct (Z.eqb_spec j i) as [->|N].
      + replace ((i + 1 <=? i) && (i <? size)) with false by lia. replace ((i <=? i) && (i <? size)) with true by lia. reflexivity.
      + replace (i + 1 <=? j) with (i <=? j) by lia. reflexivity.
    - exists buf. split; [reflexivity|]. split; [exact B|]. intros j Hj _. replace ((i <=? j) && (j <? size)) with false by lia. reflexivity.
  Qed.

  Lemma restore_loop_S n st inf buf start i size : restore_loop (S n) m st inf buf start i size =
    if i <? size then
      let* v := bitmapx2_get buf 0 i in
      let* r := set_byte m st inf (w64 (start + i)) v in
      restore_loop n m (fst r) (snd r) buf start (w32 (i + 1)) size
    else Ok st.
  Proof. reflexivity. Qed.

  Lemma restore_loop_ok n f : (forall j, 0 <= f j < 4) -> forall st inf buf start i size, state_ok m st -> us m (segs st) (start + i) (start + size) ->
    inf_ok m st inf -> 0 <= i -> 0 <= start -> size < 2 ^ 32 -> (forall j, i <= j < size -> bitmapx2_get buf 0 j = Ok (f j)) ->
    Z.max 0 (size - i) < Z.of_nat n ->
    exists st', restore_loop n m st inf buf start i size = Ok st' /\ ext m st st' /\
      (forall y, in_app (segs st) y -> bst m st' y = if (start + i <=? y) && (y <? start + size) then f (y - start) else bst m st y).
  Proof.
    intros Hf. induction n as [|n IH]; intros st inf buf start i size O U I Hi Hs Hb G Hn; [lia|].
    rewrite restore_loop_S. destruct (Z.ltb_spec i size) as [L|L].
    - pose proof (U (start + i) ltac:(lia)) as U1. destruct (us_bound m Hm st _ O U1) as [_ B1].
      rewrite w64_small by (clear - Hi Hs B1; lia). rewrite (G i ltac:(lia)). cbn [bind].
      destruct (set_byte_good m Hm st inf (start + i) (f i) O U1 I (Hf i)) as (st1 & E & X & _ & F).
      rewrite E. cbn [bind fst snd]. rewrite (w32_small i size) by lia.
      assert (O1 : state_ok m st1) by apply X.
      destruct (IH st1 (blkinfo m st1 (start + i)) buf start (i + 1) size O1) as (st2 & E2 & X2 & F2).
      { apply (us_ext m st st1); [exact X|]. intros y Hy. apply U. lia. }
      { apply inf_ok_blk. apply (in_app_ext m st st1 _ X). apply U1. }
      { lia. } { lia. } { lia. } { intros j Hj. apply G. lia. } { lia. }
      exists st2. split; [exact E2|]. split; [eapply ext_trans; eauto|].
      intros y Hy. rewrite F2; [|apply (in_app_ext m st st1 y X); exact Hy]. rewrite F by exact Hy.
      destruct (Z.eqb_spec y (start + i)) as [->|N].
      + replace ((start + (i + 1) <=? start + i) && (start + i <? start + size)) with false by lia.
        replace ((start + i <=? start + i) && (start + i <? start + size)) with true by lia. f_equal. lia.
      + replace (start + (i + 1) <=? y) with (start + i <=? y) by lia. reflexivity.
    - exists st. split; [reflexivity|]. split; [apply ext_refl; exact O|].
      intros y Hy. replace ((start + i <=? y) && (y <? start + size)) with false by lia. reflexivity.
  Qed.

  (** The buffer is too short when its size is not whole words. *)
  Lemma loadn_ub mm a k : mm (a + k) = None -> 0 <= k < 4 -> loadn 4 mm a = UB.
  Proof.
    intros H Hk. cbn [loadn]. assert (C : k = 0 \/ k = 1 \/ k = 2 \/ k = 3) by lia.
    replace (a + 1 + 1) with (a + 2) by lia. replace (a + 2 + 1) with (a + 3) by lia.
    destruct C as [->|[->|[->| ->]]]; [rewrite Z.add_0_r in H|..]; rewrite ?H; try reflexivity;
    destruct (mm a); try reflexivity; try (destruct (mm (a + 1)); try reflexivity); try (destruct (mm (a + 2)); reflexivity).
  Qed.
  Lemma set_ub buf n i v : buf_ok buf n -> 0 <= i -> n < 4 * (i / 16) + 4 -> bitmapx2_set buf 0 i v = UB.
  Proof.
    intros B Hi H. unfold bitmapx2_set. rewrite (loadn_ub buf (0 + 4 * (i / 16)) 3); [reflexivity| |lia].
    apply (B (0 + 4 * (i / 16) + 3)). lia.
  Qed.

  Lemma save_loop_ub n : forall st inf buf start i size k, state_ok m st -> us m (segs st) (start + i) (start + size) ->
    inf_ok m st inf -> 0 <= i < size -> 0 <= start -> size < 2 ^ 32 -> buf_ok buf k -> k < 4 * ((size - 1) / 16) + 4 ->
    size - i < Z.of_nat n -> save_loop n m st inf buf start i size = UB.
  Proof.
    induction n as [|n IH]; intros st inf buf start i size k O U I Hi Hs Hb B Hk Hn; [lia|].
    rewrite save_loop_S. replace (i <? size) with true by lia.
    pose proof (U (start + i) ltac:(lia)) as U1. destruct (us_bound m Hm st _ O U1) as [_ B1].
    rewrite w64_small by (clear - Hi Hs B1; lia).
    rewrite (get_byte_good m Hm st inf (start + i) O U1 I). cbn [bind fst snd].
    destruct (Z_lt_dec k (4 * (i / 16) + 4)) as [L|L].
    - rewrite (set_ub buf k i _ B) by lia. reflexivity.
    - destruct (buf_set buf k i (bst m st (start + i)) B ltac:(lia) (bst_range _ _ _) ltac:(lia)) as (buf1 & E1 & B1' & G1).
      rewrite E1. cbn [bind]. rewrite (w32_small i size) by lia.
      assert (i + 1 < size) by (destruct (Z.eq_dec (i + 1) size); [exfalso; clear - L Hk e; replace (size - 1) with i in Hk by lia; lia|lia]).
      apply (IH st (blkinfo m st (start + i)) buf1 start (i + 1) size k O); try assumption; try lia.
      + intros y Hy. apply U. lia.
      + apply inf_ok_blk. apply U1.
  Qed.
End S.
