(** Setting a range. *)
From Verif Require Import Base Mem Umbra_Model Umbra_Spec Umbra_Proofs1 Umbra_Proofs2 Umbra_Proofs3
  Umbra_Proofs4 Umbra_Proofs5 Umbra_Proofs6 Umbra_Proofs7 Umbra_Proofs8 Umbra_Proofs9
  Shadow_Model Shadow_Spec Shadow_Proofs1 Shadow_Proofs2.
From Coq Require Import Lia.
Open Scope Z_scope.

Lemma align_back4 x : 0 <= x < 2 ^ 64 -> align_backward x 4 = x - x mod 4.
Proof. intros H. apply (align_backward_eq x 2 H). lia. Qed.
Lemma align_fwd4 x : 0 <= x -> x + 3 < 2 ^ 64 -> align_forward x 4 = x + 3 - (x + 3) mod 4.
Proof.
  intros H H'. unfold align_forward. change (x + (4 - 1)) with (x + 3). rewrite w64_small by lia.
  apply (align_back4 (x + 3)). lia.
Qed.

Section S.
  Variable m : umap.
  Hypothesis Hm : shadow_map m.
  Let Mok : map_ok m := sh_map m Hm.

  Definition us (ss : list seg) (x e : Z) : Prop := forall y, x <= y < e -> usable1 m ss y.

  Lemma us_ext st st' x e : ext m st st' -> us (segs st) x e -> us (segs st') x e.
  Proof. intros X U y Hy. eapply usable1_ext; eauto. Qed.

  Lemma usable_us ss x n : usable m ss x n -> us ss x (x + n).
  Proof. intros [(_ & _ & A) B] y Hy. split; [apply A; exact Hy|apply B; exact Hy]. Qed.

  Lemma us_bound st x : state_ok m st -> usable1 m (segs st) x -> 0 <= x /\ x + 4 < 2 ^ 64.
  Proof.
    intros O [H _]. destruct (fs_block m Hm (segs st) x x (state_layout m st O) H eq_refl) as (_ & _ & A & B).
    clear - A B. unfold blk in *. lia.
  Qed.

  Lemma set_while_S n st inf pc lim val : set_while (S n) m st inf pc lim val =
    if pc <? lim then
      let* r := set_byte m st inf pc val in
      let '(st, inf) := r in
      if add_ovf pc 1 then Ok (st, inf) else set_while n m st inf (w64 (pc + 1)) lim val
    else Ok (st, inf).
  Proof. reflexivity. Qed.

  Lemma set_while_ok n : forall st inf pc lim v, state_ok m st -> us (segs st) pc lim -> 0 <= v < 4 ->
    (pc < lim -> get_info m st inf pc = Ok (blkinfo m st pc)) -> Z.max 0 (lim - pc) < Z.of_nat n ->
    exists st' inf', set_while n m st inf pc lim v = Ok (st', inf') /\ ext m st st' /\
      (pc < lim -> inf' = blkinfo m st' (lim - 1) /\ (v <> UNADDR -> liveb m st' (first_shadow m (lim - 1)) = true)) /\
      (lim <= pc -> st' = st /\ inf' = inf) /\
      (forall y, in_app (segs st) y -> bst m st' y = if (pc <=? y) && (y <? lim) then v else bst m st y).
  Proof.
    induction n as [|n IH]; intros st inf pc lim v O U Hv G Hn; [lia|].
    rewrite set_while_S. destruct (Z.ltb_spec pc lim) as [L|L].
    - pose proof (U pc ltac:(lia)) as U1.
      destruct (set_byte_at m Hm st inf pc v O U1 (G L) Hv) as (st1 & E & X & LV & F). rewrite E. cbn [bind].
      destruct (us_bound st pc O U1) as [B0 B1]. unfold add_ovf. rewrite w64_small by (clear - B0 B1; lia).
      replace (pc + 1 <? pc) with false by (clear; lia).
      assert (O1 : state_ok m st1) by apply X.
      destruct (IH st1 (blkinfo m st1 pc) (pc + 1) lim v O1) as (st2 & inf2 & E2 & X2 & I2 & Z2 & F2).
      { apply (us_ext st st1); [exact X|]. intros y Hy. apply U. clear - Hy; lia. } { exact Hv. }
      { intros L2. apply get_info_good; [exact Hm|exact O1| |].
        - apply (usable1_ext m st st1); [exact X|apply U; clear - L2; lia].
        - right. exists pc. split; [|reflexivity]. apply (in_app_ext m st st1 pc X). apply U1. }
      { lia. }
      exists st2, inf2. split; [exact E2|]. split; [eapply ext_trans; eauto|]. split; [|split; [intros; lia|]].
      + intros _. destruct (Z_lt_dec (pc + 1) lim) as [L2|L2]; [exact (I2 L2)|].
        destruct (Z2 ltac:(lia)) as (-> & ->). replace (lim - 1) with pc by lia. split; [reflexivity|exact LV].
      + intros y Hy. rewrite F2; [|apply (in_app_ext m st st1 y X); exact Hy]. rewrite F by exact Hy.
        clear - L. destruct (Z.eqb_spec y pc); repeat match goal with |- context [if ?c then _ else _] => destruct c eqn:? end; lia.
    - exists st, inf. split; [reflexivity|]. split; [apply ext_refl; exact O|]. split; [lia|]. split; [auto|].
      intros y Hy. replace ((pc <=? y) && (y <? lim)) with false by lia. reflexivity.
  Qed.

  (** A stale cache of a block that did not exist: the loop writes nothing. *)
  Lemma set_while_stale n : forall st inf pc lim, i_type inf = NotAlloc -> i_app_base inf <= pc ->
    lim <= i_app_base inf + i_app_size inf -> i_app_base inf + i_app_size inf < 2 ^ 64 -> 0 <= i_app_base inf ->
    0 <= i_app_size inf ->
    Z.max 0 (lim - pc) < Z.of_nat n ->
    exists inf', set_while n m st inf pc lim UNADDR = Ok (st, inf').
  Proof.
    induction n as [|n IH]; intros st inf pc lim T B1 B2 B3 B4 B5 Hn; [lia|].
    rewrite set_while_S. destruct (Z.ltb_spec pc lim) as [L|L]; [|eauto].
    assert (G : get_info m st inf pc = Ok inf).
    { unfold get_info. rewrite w64_small by lia. replace ((pc <? i_app_base inf) || (i_app_base inf + i_app_size inf <=? pc)) with false by lia.
      reflexivity. }
    unfold set_byte. rewrite G. cbn [bind]. rewrite T. unfold get_byte. rewrite G. cbn [bind]. rewrite T. cbn [is_normal bind fst].
    rewrite Z.eqb_refl. cbn [bind]. unfold add_ovf. rewrite w64_small by lia. replace (pc + 1 <? pc) with false by lia.
    apply IH; try assumption; lia.
  Qed.

  (** Whole granules through Umbra. *)
  Lemma umbra_set st x n v : state_ok m st -> app_range (segs st) x n -> x mod 4 = 0 -> n mod 4 = 0 ->
    0 <= v < 4 ->
    exists st', umbra_set_range m st x n (byte_2_dword v) = Ok (st', S_ok, n * num (sc m) / den (sc m)) /\
      ext m st st' /\
      (forall y, in_app (segs st) y -> bst m st' y = if (x <=? y) && (y <? x + n) then v else bst m st y).
  Proof.
    intros O R Ax An Hv. pose proof (state_layout m st O) as L.
    destruct (range_top m st x n O R) as (H0 & Hn & Ht).
    assert (W : whole m x n) by (unfold whole; rewrite (den4 m Hm); auto).
    assert (HL : (x + n - 1) mod app_bs m <> 0) by (apply last_den; [rewrite (den4 m Hm); lia|exact W]).
    destruct (set_range_ok m 2 st x n (byte_2_dword v) Mok O R W HL (pattern_range v)) as (st' & E & (X & C1 & C2 & _ & _)).
    exists st'. split; [|split; [exact X|]].
    - unfold umbra_set_range, set_range_arch, DEPTH. rewrite w64_small by lia.
      replace (x + n <? x) with false by (clear - Hn; lia).
      replace (n =? 0) with false by (clear - Hn; lia). cbn [orb]. exact E.
    - intros y Hy. unfold bst. destruct ((x <=? y) && (y <? x + n)) eqn:Er.
      + rewrite (val_of _ _ _ (byte_2_dword v)); [apply two_pattern; [exact Hv|clear; lia]|].
        apply (C1 y); [lia|apply shadow_of1; [exact Hm|reflexivity]].
      + f_equal. unfold val. rewrite C2; [reflexivity|]. intros (z & Hz & Hs). apply (shadow_of1 m Hm) in Hs.
        assert (Iz : in_app (segs st) z) by (apply R; exact Hz).
        pose proof (gran_inj m (segs st) y z (first_shadow m y) Mok L Hy Iz) as J. rewrite (den4 m Hm) in J.
        assert (y / 4 = z / 4) by (apply J; apply (shadow_of1 m Hm); [reflexivity|exact Hs]).
        clear - H Hz Er Ax An. lia.
  Qed.

  Lemma us_app_range ss x e : us ss x e -> 0 <= x < e -> app_range ss x (e - x).
  Proof. intros U H. split; [lia|]. split; [lia|]. intros y Hy. apply U. lia. Qed.

  Lemma set_range_us st x e v : state_ok m st -> us (segs st) x e -> x < e -> 0 <= v < 4 ->
    exists st', set_range m st x e v = Ok st' /\ ext m st st' /\
      (forall y, in_app (segs st) y -> bst m st' y = if (x <=? y) && (y <? e) then v else bst m st y).
  Proof.
    intros O U L Hv. unfold set_range. replace (e <=? x) with false by (clear - L; lia).
    destruct (us_bound st x O (U x ltac:(lia))) as [X0 X1].
    destruct (us_bound st (e - 1) O (U (e - 1) ltac:(lia))) as [X2 X3].
    rewrite align_fwd4, align_back4 by (clear - X0 X1 X2 X3; lia).
    set (p := x + 3 - (x + 3) mod 4). set (q := e - e mod 4).
    assert (Hp : x <= p <= x + 3 /\ p mod 4 = 0) by (subst p; clear; lia).
    assert (Hq : e - 3 <= q <= e /\ q mod 4 = 0) by (subst q; clear; lia). clearbody p q. cbv zeta.
    destruct (set_while_ok 5 st info0 x (Z.min p e) v O) as (st1 & inf1 & E1 & Y1 & I1 & N1 & F1).
    { intros y Hy. apply U. clear - Hy; lia. } { exact Hv. }
    { intros _. apply get_info0; [exact Hm|exact O|apply U; clear - L; lia]. } { clear - Hp; lia. }
    rewrite E1. cbn [bind]. assert (O1 : state_ok m st1) by apply Y1.
    (* middle *)
    assert (MID : exists st2, (if p <? q then
                   let* r := umbra_set_range m st1 p (q - p) (byte_2_dword v) in Ok (fst (fst r))
                 else Ok st1) = Ok st2 /\ ext m st1 st2 /\ (q <= p -> st2 = st1) /\
        (forall y, in_app (segs st) y -> bst m st2 y = if (p <=? y) && (y <? q) then v else bst m st1 y)).
    { destruct (Z.ltb_spec p q) as [PQ|PQ].
      - assert (U1 : us (segs st1) p q).
        { apply (us_ext st st1); [exact Y1|]. intros y Hy. apply U. clear - Hy Hp Hq; lia. }
        destruct (umbra_set st1 p (q - p) v O1 (us_app_range _ _ _ U1 ltac:(clear - PQ Hp X0; lia)))
          as (st2 & E2 & Y2 & F2); [apply Hp|clear - Hp Hq; lia|exact Hv|].
        rewrite E2. cbn [bind fst]. exists st2. split; [reflexivity|]. split; [exact Y2|]. split; [lia|].
        intros y Hy. rewrite F2; [|apply (in_app_ext m st st1 y Y1); exact Hy].
        replace (p + (q - p)) with q by (clear; lia). reflexivity.
      - exists st1. split; [reflexivity|]. split; [apply ext_refl; exact O1|]. split; [reflexivity|].
        intros y Hy. replace ((p <=? y) && (y <? q)) with false by (clear - PQ; lia). reflexivity. }
    destruct MID as (st2 & E2 & Y2 & N2 & F2). rewrite E2. cbn [bind]. clear E1 E2.
    assert (O2 : state_ok m st2) by apply Y2.
    destruct (Z.leb_spec p q) as [PQ|PQ].
    2:{ exists st2. split; [reflexivity|]. split; [eapply ext_trans; eauto|]. intros y Hy.
        rewrite F2, F1 by exact Hy. clear - PQ Hp Hq. 
        repeat match goal with |- context [if ?c then _ else _] => destruct c eqn:? end; lia. }
    assert (FIN : forall st3, (forall y, in_app (segs st) y -> bst m st3 y = if (q <=? y) && (y <? e) then v else bst m st2 y) ->
              forall y, in_app (segs st) y -> bst m st3 y = if (x <=? y) && (y <? e) then v else bst m st y).
    { intros st3 F3 y Hy. rewrite F3, F2, F1 by exact Hy. clear - PQ Hp Hq.
      repeat match goal with |- context [if ?c then _ else _] => destruct c eqn:? end; lia. }
    assert (U2 : us (segs st2) q e).
    { apply (us_ext st st2); [eapply ext_trans; eauto|]. intros y Hy. apply U. clear - Hy Hp PQ; lia. }
    assert (GOOD : (q < e -> get_info m st2 inf1 q = Ok (blkinfo m st2 q)) ->
      exists st', (let* r := set_while 5 m st2 inf1 q e v in Ok (fst r)) = Ok st' /\ ext m st st' /\
      (forall y, in_app (segs st) y -> bst m st' y = if (x <=? y) && (y <? e) then v else bst m st y)).
    { intros G. destruct (set_while_ok 5 st2 inf1 q e v O2 U2 Hv G ltac:(clear - Hq; lia)) as (st3 & inf3 & E3 & Y3 & _ & _ & F3).
      rewrite E3. exists st3. split; [reflexivity|]. split; [eapply ext_trans; [exact Y1|eapply ext_trans; eauto]|].
      apply FIN. intros y Hy. apply F3. apply (in_app_ext m st1 st2 y Y2). apply (in_app_ext m st st1 y Y1). exact Hy. }
    destruct (Z_lt_dec x (Z.min p e)) as [HD|HD].
    2:{ apply GOOD. intros QE. destruct (N1 ltac:(clear - HD; lia)) as (_ & ->). apply get_info0; [exact Hm|exact O2|apply U2; clear - QE; lia]. }
    destruct (I1 HD) as (-> & LV). clear I1. set (h := Z.min p e - 1) in *.
    assert (Hh : x <= h < p /\ h < e) by (subst h; clear - HD; lia). clearbody h.
    assert (Ih : in_app (segs st1) h).
    { apply (in_app_ext m st st1 h Y1). apply U. clear - Hh Hp; lia. }
    destruct (bool_dec (liveb m st1 (first_shadow m h)) (liveb m st2 (first_shadow m h))) as [EQ|NE].
    { apply GOOD. intros QE. apply get_info_good; [exact Hm|exact O2|apply U2; clear - QE; lia|].
      right. exists h. split; [apply (in_app_ext m st1 st2 h Y2); exact Ih|]. unfold blkinfo. rewrite EQ. reflexivity. }
    assert (L1 : liveb m st1 (first_shadow m h) = false).
    { destruct (liveb m st1 (first_shadow m h)) eqn:E; [|reflexivity]. exfalso. apply NE. symmetry. apply Y2. exact E. }
    assert (V1 : v = UNADDR) by (destruct (Z.eq_dec v UNADDR) as [|N]; [assumption|rewrite (LV N) in L1; discriminate]).
    destruct (Z_lt_dec q e) as [QE|QE]; [|apply GOOD; intros; exfalso; apply QE; assumption].
    destruct (fs_block m Hm (segs st1) h h (state_layout m st1 O1) Ih eq_refl) as (_ & _ & B0 & B1).
    destruct (Z.eq_dec (q / 2 ^ 18) (h / 2 ^ 18)) as [SB|SB].
    - rewrite V1. destruct (set_while_stale 5 st2 (blkinfo m st1 h) q e) as (inf3 & E3); cbn [blkinfo i_type i_app_base i_app_size].
      { rewrite L1. reflexivity. }
      { clear - SB. unfold blk. lia. } { clear - SB Hq QE. unfold blk. lia. } { exact B1. } { exact B0. } { clear; lia. } { clear - Hq; lia. }
      rewrite E3. exists st2. split; [reflexivity|]. split; [eapply ext_trans; eauto|]. rewrite <- V1. apply FIN.
      intros y Hy. destruct ((q <=? y) && (y <? e)) eqn:Er; [|reflexivity].
      rewrite F2 by exact Hy. replace ((p <=? y) && (y <? q)) with false by (clear - Er; lia). rewrite V1.
      unfold bst, val, cont. rewrite (live_block m Hm st1 h y O1 Ih) by (clear - Er SB Hq; lia). rewrite L1, (sh_dflt m Hm).
      apply pattern_55. clear; lia.
    - apply GOOD. intros _. apply get_info_miss; [exact Hm|exact O2|apply U2; clear - QE; lia|].
      cbn [blkinfo i_app_base i_app_size]. rewrite w64_small by (clear - B0 B1; lia). clear - SB. unfold blk. lia.
  Qed.
End S.
