(** The end of a map; the iteration and the type query. *)
From Verif Require Import Base Umbra32_Model Umbra32_Spec Umbra32_Proofs Umbra32_Proofs2 Umbra32_Proofs3
  Umbra32_Proofs4 Umbra32_Proofs5 Umbra32_Proofs7.
From Coq Require Import Sorted.
Open Scope Z_scope.

Section Last.
Variable m : umap.
Hypothesis Hm : map_ok m.
Notation SL := (SLOTS (sc m)).

(** * The end of a map *)
Notation sep := (ForallOrdPairs (fun r s => apart m (r_at r) (r_at s))).

Lemma exit_specials_ok l : forall st, sep (live st) ->
  (forall r, In r (live st) -> SL <= r_at r) ->
  NoDup (map fst l) -> (forall b v, In (b, v) l -> In (ro_region m b) (live st)) ->
  exists st', exit_specials m l st = Ret st' /\ dblock st' = dblock st /\ sep (live st') /\
    forall r, In r (live st') <-> In r (live st) /\ ~ exists b v, In (b, v) l /\ r = ro_region m b.
Proof.
  induction l as [|(b, v) l IH]; intros st FO HB ND H; cbn [exit_specials].
  - exists st. split; [reflexivity|]. split; [reflexivity|]. split; [exact FO|]. intros r. split; [|tauto].
    intros X. split; [exact X|]. intros (? & ? & [] & _).
  - inversion ND as [|? ? N1 N2]. subst. pose proof (H b v (or_introl eq_refl)) as R.
    destruct (drop_ok m Hm (live st) FO _ R) as (l' & D & IN & FO' & _). cbn [ro_region r_at r_heap] in D.
    pose proof (HB _ R) as B0. cbn [ro_region r_at] in B0. pose proof (rz_range m Hm) as RZ.
    pose proof (slots_range (sc m)) as SLR.
    rewrite (proj2 (Z.eqb_neq b 0)) by lia. unfold free_region. rewrite D. cbn [obind].
    destruct (IH (with_live st l')) as (st' & E & E2 & E3 & E4); cbn [live with_live].
    + exact FO'.
    + intros r X. apply HB. apply IN. exact X.
    + exact N2.
    + intros c w X. apply IN. split; [apply (H c w); right; exact X|].
      intros Q. injection Q as Q. apply N1. replace b with c by lia. apply (in_map fst _ _ X).
    + exists st'. split; [exact E|]. split; [exact E2|]. split; [exact E3|].
      intros r. rewrite E4. cbn [live with_live]. rewrite IN. split.
      * intros [[X1 X2] X3]. split; [exact X1|]. intros (c & w & [Q|Q] & ->); [injection Q as <- <-; contradiction|].
        apply X3. eauto.
      * intros [X1 X2]. split; [split; [exact X1|]|].
        { intros ->. apply X2. exists b, v. split; [left; reflexivity|reflexivity]. }
        { intros (c & w & Q & ->). apply X2. exists c, w. split; [right; exact Q|reflexivity]. }
Qed.

Lemma exit_blocks_ok st0 A V : inv m st0 A V -> forall n i st, 0 <= i -> i + Z.of_nat n = 65536 ->
  table st = table st0 -> specials st = specials st0 -> dblock st = dblock st0 -> sep (live st) ->
  (forall r, In r (live st) <-> In r (live st0) /\
     ~ exists j, 0 <= j < i /\ is_kind m st0 A j KNorm /\ r = norm_region m (get_block m st0 j)) ->
  exists st', exit_blocks n i m st = Ret st' /\ specials st' = specials st0 /\ dblock st' = dblock st0 /\
    sep (live st') /\
    forall r, In r (live st') <-> In r (live st0) /\
     ~ exists j, 0 <= j < 65536 /\ is_kind m st0 A j KNorm /\ r = norm_region m (get_block m st0 j).
Proof.
  intros I. induction n as [|n IH]; intros i st H0 Hn ET ES ED FO HL; cbn [exit_blocks].
  - exists st. replace 65536 with i by lia. auto.
  - assert (Hi : idx i) by (unfold idx; lia).
    assert (EG : forall j, get_block m st j = get_block m st0 j) by (intros j; unfold get_block; rewrite ET; reflexivity).
    assert (EN : is_in_normal m st (get_block m st i) = is_in_normal m st0 (get_block m st0 i)).
    { rewrite EG. unfold is_in_normal, is_in_default, is_in_special. rewrite ES, ED. reflexivity. }
    rewrite EN. destruct (is_in_normal m st0 (get_block m st0 i)) eqn:NB.
    + apply (in_normal_iff m Hm st0 A V i I Hi) in NB. pose proof NB as (Ai & Rn & _ & _ & U).
      assert (R : In (norm_region m (get_block m st0 i)) (live st)).
      { apply HL. split; [exact Rn|]. intros (j & Hj & _ & E). injection E as E.
        apply (U j); [unfold idx in *; lia|lia|lia]. }
      destruct (drop_ok m Hm (live st) FO _ R) as (l' & D & IN & FO' & _).
      cbn [norm_region r_at r_heap] in D. unfold delete_block, free_region. rewrite EG, D. cbn [obind].
      apply (IH (i + 1)); try assumption; [lia|lia|].
      intros r. cbn [live with_live]. rewrite IN, HL. split.
      * intros [[X1 X2] X3]. split; [exact X1|]. intros (j & Hj & K & E).
        destruct (Z.eq_dec j i) as [->|]; [contradiction|]. apply X2. exists j. split; [lia|auto].
      * intros [X1 X2]. split; [split; [exact X1|]|].
        { intros (j & Hj & K & E). apply X2. exists j. split; [lia|auto]. }
        { intros ->. apply X2. exists i. split; [lia|auto]. }
    + cbn [obind]. apply (IH (i + 1)); try assumption; [lia|lia|].
      intros r. rewrite HL. split; intros [X1 X2]; (split; [exact X1|]); intros (j & Hj & K & E); apply X2; exists j.
      * split; [|auto]. destruct (Z.eq_dec j i) as [->|]; [|lia].
        exfalso. apply (in_normal_iff m Hm st0 A V i I Hi) in K. congruence.
      * split; [lia|auto].
Qed.

Lemma exit_ok st A V : inv m st A V -> exists st', table_exit m st = Ret st' /\ live st' = [].
Proof.
  intros I. unfold table_exit.
  destruct (exit_blocks_ok st A V I (Z.to_nat ENTRIES) 0 st) as (st1 & -> & ES & ED & FO & HL).
  - lia.
  - rewrite Z2Nat.id; [reflexivity|vm_compute; congruence].
  - reflexivity.
  - reflexivity.
  - reflexivity.
  - exact (i_apart _ _ _ _ I).
  - intros r. split; [|tauto]. intros X. split; [exact X|]. intros (j & Hj & _). lia.
  - cbn [obind]. rewrite ES.
    destruct (exit_specials_ok (specials st) st1) as (st2 & -> & ED2 & FO2 & HL2).
    + exact FO.
    + intros r X. apply (i_live _ _ _ _ I). apply HL. exact X.
    + exact (i_nodup _ _ _ _ I).
    + intros b v X. apply HL. destruct (i_spec _ _ _ _ I b v X) as (_ & R & _). split; [exact R|].
      intros (j & _ & _ & E). discriminate E.
    + cbn [obind].
      assert (REST : forall r, In r (live st2) -> on_touch m = false /\ r = ro_region m (dblock st)).
      { intros r X. apply HL2 in X. destruct X as [X1 X2]. apply HL in X1. destruct X1 as [X1 X3].
        destruct (i_own _ _ _ _ I r X1) as [Y|[(b & v & Y1 & Y2)|(j & Hj & Y)]]; [exact Y| |].
        - exfalso. apply X2. eauto.
        - exfalso. apply X3. exists j. split; [exact Hj|]. split; [|exact Y].
          destruct (i_blk _ _ _ _ I j Hj) as [(_ & T & E)|[(_ & w & Q)|(Aj & Q & _)]].
          + subst r. destruct (i_def _ _ _ _ I T) as (Rd & _). rewrite <- E in Rd.
            exfalso. exact (kinds_differ m Hm st A V j I (conj Rd X1)).
          + subst r. destruct (i_spec _ _ _ _ I _ _ Q) as (_ & Rd & _).
            exfalso. exact (kinds_differ m Hm st A V j I (conj Rd X1)).
          + exact (knorm_of m Hm st A V j I Hj Aj Q). }
      destruct (on_touch m) eqn:T.
      * exists st2. split; [reflexivity|]. destruct (live st2) as [|r l]; [reflexivity|].
        destruct (REST r (or_introl eq_refl)) as [X _]. discriminate X.
      * assert (R : In (ro_region m (dblock st)) (live st2)).
        { destruct (i_def _ _ _ _ I T) as (Rd & Nd & _). apply HL2. split.
          - apply HL. split; [exact Rd|]. intros (j & _ & _ & E). discriminate E.
          - intros (b & v & Q & E). injection E as E. apply Nd. replace (dblock st) with b by lia.
            apply (in_map fst _ _ Q). }
        destruct (drop_ok m Hm (live st2) FO2 _ R) as (l' & D & IN & _).
        cbn [ro_region r_at r_heap] in D. unfold free_region. rewrite ED2, ED, D. cbn [obind].
        exists (with_live st2 l'). split; [reflexivity|]. cbn [live with_live].
        destruct l' as [|r l]; [reflexivity|]. exfalso.
        destruct (proj1 (IN r) (or_introl eq_refl)) as [X1 X2]. apply X2. apply REST. exact X1.
Qed.

(** * Iteration *)
Lemma iter_base i : idx i -> table_app_base i = i * 65536.
Proof. apply app_base_mul. Qed.

Lemma iterate_cut n : forall i st cb k,
  iterate_loop n i m st cb k =
  (fix cut (l : list info) (k : nat) : list info :=
     match l with [] => [] | x :: l' => x :: (if cb k then cut l' (S k) else []) end)
  (iterate_loop n i m st (fun _ => true) 0%nat) k.
Proof.
  assert (IRR : forall q i st k k', iterate_loop q i m st (fun _ => true) k = iterate_loop q i m st (fun _ => true) k').
  { induction q as [|q IH]; intros i st k k'; cbn [iterate_loop]; [reflexivity|].
    destruct (is_in_default _ _ _); [apply IH|]. f_equal. apply IH. }
  induction n as [|n IH]; intros i st cb k; cbn [iterate_loop]; [reflexivity|].
  destruct (is_in_default _ _ _); [apply IH|]. f_equal. destruct (cb k); [|reflexivity].
  rewrite (IH (i + 1) st cb (S k)). rewrite (IRR n (i + 1) st 1%nat 0%nat). reflexivity.
Qed.

Lemma iterate_ok st A V : inv m st A V -> forall n i k, 0 <= i -> i + Z.of_nat n <= 65536 ->
  let l := iterate_loop n i m st (fun _ => true) k in
  StronglySorted Z.lt (map i_app l) /\
  (forall x, In x (map i_app l) <-> exists j, i <= j < i + Z.of_nat n /\ A j /\ x = j * 65536) /\
  (forall e, In e l -> e = snd (get_shadow m st (i_app e))).
Proof.
  intros I. induction n as [|n IH]; intros i k H0 Hn; cbn [iterate_loop].
  - cbv zeta. cbn [map In]. split; [constructor|]. split; [|intros e []]. intros x. split; [intros []|].
    intros (j & Hj & _). lia.
  - assert (Hi : idx i) by (unfold idx; lia). rewrite (iter_base i Hi).
    assert (Hx : 0 <= i * 65536 < 2 ^ 32) by (unfold idx in Hi; lia).
    specialize (IH (i + 1)). cbv zeta in IH |- *.
    assert (DM : i * 65536 / 65536 = i) by (apply Z.div_mul; lia).
    destruct (default_test m Hm st A V _ I Hx) as [[-> NA]|[-> Ay]]; rewrite DM in *.
    + destruct (IH k ltac:(lia) ltac:(lia)) as (S1 & S2 & S3). split; [exact S1|]. split; [|exact S3].
      intros x. rewrite S2. split; intros (j & Hj & Aj & E); exists j; split; auto; try lia.
      destruct (Z.eq_dec j i) as [->|]; [contradiction|lia].
    + destruct (IH (S k) ltac:(lia) ltac:(lia)) as (S1 & S2 & S3). cbn [map i_app]. split.
      * constructor; [exact S1|]. apply Forall_forall. intros x X. apply S2 in X.
        destruct X as (j & Hj & _ & ->). lia.
      * split.
        { intros x. cbn [In]. rewrite S2. split.
          - intros [<-|(j & Hj & Aj & E)]; [exists i; split; [lia|auto]|exists j; split; [lia|auto]].
          - intros (j & Hj & Aj & E). destruct (Z.eq_dec j i) as [->|]; [left; auto|right]. exists j. split; [lia|auto]. }
        { intros e [<-|X]; [|apply S3; exact X]. cbn [i_app]. unfold get_shadow, use_default, use_special.
          rewrite align_sub by exact Hx. rewrite DM. cbn [snd].
          destruct (kind_eq m Hm st A V _ I Hx) as ([|w|] & K & KT); rewrite DM in *.
          - destruct K as (N & _). contradiction.
          - destruct KT as (-> & _). reflexivity.
          - destruct KT as (-> & _). reflexivity. }
Qed.

(** * The type query *)
Lemma walk_ok st A V a : inv m st A V ->
  (on_touch m = false -> ~ ext m (ro_region m (dblock st)) a) ->
  (forall b v, In (b, v) (specials st) -> ~ ext m (ro_region m b) a) ->
  forall n i, 0 <= i -> i + Z.of_nat n = 65536 ->
  (forall j, 0 <= j < i -> ~ near m (get_block m st j) a) ->
  match walk_table n i m st a with
  | (Normal, red) => exists j, idx j /\ is_kind m st A j KNorm /\ near m (get_block m st j) a /\
       red = negb ((get_block m st j <=? a) && (a <? get_block m st j + SL))
  | (NotShadow, red) => red = false /\ forall j, idx j -> ~ near m (get_block m st j) a
  | _ => False
  end.
Proof.
  intros I ND NS. induction n as [|n IH]; intros i H0 Hn HJ; cbn [walk_table].
  - split; [reflexivity|]. intros j Hj. apply HJ. unfold idx in Hj. lia.
  - assert (Hi : idx i) by (unfold idx; lia).
    pose proof (blk_bounds m Hm st A V I i Hi) as BB. pose proof (rz_range m Hm) as RZ.
    pose proof (slots_range (sc m)) as SLR. rewrite slots_bs.
    rewrite (w32_small (get_block m st i - rz m)) by lia.
    rewrite (w32_small (get_block m st i + SL)) by lia.
    rewrite (w32_small (get_block m st i + SL + rz m)) by lia.
    destruct ((get_block m st i - rz m <=? a) && (a <? get_block m st i + SL + rz m)) eqn:E.
    + apply andb_prop in E. destruct E as [E1 E2]. apply Z.leb_le in E1. apply Z.ltb_lt in E2.
      assert (NR : near m (get_block m st i) a) by (unfold near; lia).
      exists i. split; [exact Hi|]. split; [|split; [exact NR|]].
      * destruct (kind_of m Hm st A V I i Hi) as [[|w|] K]; [| |exact K]; exfalso.
        { destruct K as (_ & T & E & _). apply (ND T). rewrite <- E. apply near_ext_ro. exact NR. }
        { destruct K as (_ & S & _). apply (NS _ _ S). apply near_ext_ro. exact NR. }
      * rewrite negb_andb, <- Z.ltb_antisym, Z.leb_antisym, Z.ltb_antisym. reflexivity.
    + apply (IH (i + 1)); [lia|lia|]. intros j Hj. destruct (Z.eq_dec j i) as [->|]; [|apply HJ; lia].
      unfold near. intros [Q1 Q2]. apply Z.leb_le in Q1. apply Z.ltb_lt in Q2. rewrite Q1, Q2 in E. discriminate E.
Qed.

Lemma get_type_ok st A V is_app a : inv m st A V -> SL <= a ->
  match get_type m st is_app a with
  | (NotAlloc, red) => on_touch m = false /\ ext m (ro_region m (dblock st)) a /\
       red = negb ((dblock st <=? a) && (a <? dblock st + SL))
  | (Shared, red) => exists b v, In (b, v) (specials st) /\ ext m (ro_region m b) a /\
       red = negb ((b <=? a) && (a <? b + SL))
  | (Normal, red) => exists j, idx j /\ is_kind m st A j KNorm /\ near m (get_block m st j) a /\
       red = negb ((get_block m st j <=? a) && (a <? get_block m st j + SL)) /\ is_app = false
  | (NotShadow, red) => red = false /\ is_app = false /\ forall r, In r (live st) -> ~ ext m r a
  | (Unknown, red) => red = false /\ is_app = true /\ forall b, In (ro_region m b) (live st) -> ~ ext m (ro_region m b) a
  end.
Proof.
  intros I Ha. unfold get_type, is_shared.
  pose proof (find_special_spec m Hm st A V I (specials st) a (fun b v X => X)) as F. fold (is_in_special m st a) in F.
  pose proof (rz_range m Hm) as RZ. pose proof (slots_range (sc m)) as SLR.
  assert (OB : forall b, In (ro_region m b) (live st) -> ext m (ro_region m b) a ->
     outside_body m b a = negb ((b <=? a) && (a <? b + SL))).
  { intros b R E. pose proof (region_bounds m st A V I b _ R eq_refl) as BB. unfold outside_body.
    rewrite slots_bs, (w32_small (b + SL)) by lia.
    unfold ext, ro_region in E. cbn [r_at] in E. rewrite asz_eq in E.
    destruct (Z.eqb_spec (rz m) 0) as [Z0|NZ]; cbn [negb andb].
    - rewrite (proj2 (Z.leb_le b a)) by lia. rewrite (proj2 (Z.ltb_lt a (b + SL))) by lia. reflexivity.
    - clear -a b. lia. }
  destruct (is_in_default m st a) eqn:D.
  - apply (in_default_iff m Hm st A V I a Ha) in D. destruct D as [T E]. split; [exact T|]. split; [exact E|].
    apply OB; [|exact E]. apply (i_def _ _ _ _ I T).
  - assert (ND : on_touch m = false -> ~ ext m (ro_region m (dblock st)) a).
    { intros T E. assert (X : is_in_default m st a = true) by (apply (in_default_iff m Hm st A V I a Ha); auto). congruence. }
    destruct (is_in_special m st a) as [(b & v)|]; cbn [fst].
    + destruct F as [F1 F2]. exists b, v. split; [exact F1|]. split; [exact F2|]. apply OB; [|exact F2].
      apply (i_spec _ _ _ _ I b v F1).
    + destruct is_app.
      * split; [reflexivity|]. split; [reflexivity|]. intros b R.
        destruct (i_own _ _ _ _ I _ R) as [(T & E)|[(c & w & S & E)|(j & _ & E)]]; [| |discriminate E].
        { injection E as E. replace b with (dblock st) by lia. exact (ND T). }
        { injection E as E. replace b with c by lia. exact (F c w S). }
      * pose proof (walk_ok st A V a I ND F (Z.to_nat ENTRIES) 0 ltac:(lia)) as W.
        specialize (W ltac:(rewrite Z2Nat.id; [reflexivity|vm_compute; congruence]) ltac:(intros; lia)).
        destruct (walk_table (Z.to_nat ENTRIES) 0 m st a) as ([| | | |], red); try contradiction.
        { destruct W as [-> W]. split; [reflexivity|]. split; [reflexivity|]. intros r R E.
          destruct (i_own _ _ _ _ I _ R) as [(T & ->)|[(c & w & S & ->)|(j & Hj & ->)]].
          - exact (ND T E).
          - exact (F c w S E).
          - apply (W j Hj). apply near_ext_norm. exact E. }
        { destruct W as (j & W1 & W2 & W3 & W4). exists j. auto. }
Qed.
End Last.
