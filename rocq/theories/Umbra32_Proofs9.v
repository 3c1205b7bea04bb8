(** The theorems about reachable states, in the terms of the specification. *)
From Verif Require Import Base Umbra32_Model Umbra32_Spec Umbra32_Proofs Umbra32_Proofs2 Umbra32_Proofs3
  Umbra32_Proofs4 Umbra32_Proofs5 Umbra32_Proofs6 Umbra32_Proofs7 Umbra32_Proofs8.
From Coq Require Import Sorted.
Open Scope Z_scope.

Section Final.
Variable m : umap.
Hypothesis Hm : map_ok m.
Notation SL := (SLOTS (sc m)).

Lemma reach_inv st : reachable m st -> exists A V, inv m st A V.
Proof.
  intros (f & ops & outs & F & R). pose proof (reached_ok m Hm f ops F) as H. unfold run in R.
  rewrite R in H. destruct H as (A & V & _ & I). exists A, V. exact I.
Qed.

Lemma history_lemma f ops : Forall (op_ok m) ops ->
  match run m f ops with
  | Ret (st, outs) => exists A V, history m (A0 m) (V0 m) ops outs A V /\ shows m st A V /\ redzones m st
  | Dead => refused m
  | _ => False
  end.
Proof.
  intros F. pose proof (reached_ok m Hm f ops F) as H. fold (run m f ops) in H.
  destruct (run m f ops) as [(st, outs)| | |]; cbn [holds] in H; try exact H.
  destruct H as (A & V & H & I). exists A, V. split; [exact H|]. split; [exact (inv_shows m Hm st A V I)|].
  exact (inv_redzones m Hm st A V I).
Qed.

Lemma type_kind st A V i : inv m st A V -> idx i -> exists k, is_kind m st A i k /\
  type_of m st i = match k with KDef => NotAlloc | KSpec _ => Shared | KNorm => Normal end.
Proof.
  intros I Hi. unfold type_of, get_shadow, use_default, use_special. cbn [snd i_type].
  assert (Hx : 0 <= i * 65536 < 2 ^ 32) by (unfold idx in Hi; lia).
  assert (DM : i * 65536 / 65536 = i) by (apply Z.div_mul; lia).
  destruct (kind_eq m Hm st A V _ I Hx) as (k & K & KT). rewrite DM in *. exists k. split; [exact K|].
  destruct k as [|w|].
  - destruct KT as (-> & _). reflexivity.
  - destruct KT as (-> & w' & -> & _). reflexivity.
  - destruct KT as (-> & ->). reflexivity.
Qed.
Lemma type_norm st A V i : inv m st A V -> idx i -> type_of m st i = Normal <-> is_kind m st A i KNorm.
Proof.
  intros I Hi. destruct (type_kind st A V i I Hi) as (k & K & ->). split.
  - destruct k; try discriminate. auto.
  - intros K'. destruct k as [|w|]; [| |reflexivity]; exfalso.
    + destruct K as (_ & _ & _ & R & _). destruct K' as (_ & R' & _). exact (kinds_differ m Hm st A V _ I (conj R R')).
    + destruct K as (_ & _ & R & _). destruct K' as (_ & R' & _). exact (kinds_differ m Hm st A V _ I (conj R R')).
Qed.
Lemma type_na st A V i : inv m st A V -> idx i -> type_of m st i <> NotAlloc <-> A i.
Proof.
  intros I Hi. destruct (type_kind st A V i I Hi) as (k & K & ->).
  destruct k as [|w|]; cbn in K; split; intros; try tauto; try discriminate.
Qed.

Lemma exit_lemma st : reachable m st -> exists st', table_exit m st = Ret st' /\ live st' = [].
Proof. intros R. destruct (reach_inv st R) as (A & V & I). exact (exit_ok m Hm st A V I). Qed.

(** * Private and shared blocks on request *)
Lemma byte_val st A V x j : inv m st A V -> 0 <= x < 2 ^ 32 -> 0 <= j < num (sc m) ->
  byte m st x j = V (slot (sc m) x + j).
Proof. intros I Hx Hj. exact (sh_val _ _ _ _ (inv_shows m Hm st A V I) x Hx j Hj). Qed.

Lemma replace_lemma st x : reachable m st -> 0 <= x < 2 ^ 32 ->
  match replace_shared m st x with
  | Ret (st', a) =>
      type_of m st' (x / 65536) = Normal /\ a = app_to_shadow m st' x /\
      block_at m st' (base m st' (x / 65536)) ReadWrite /\
      (forall y j, 0 <= y < 2 ^ 32 -> 0 <= j < num (sc m) -> byte m st' y j = byte m st y j) /\
      (forall y, 0 <= y < 2 ^ 32 -> y / 65536 <> x / 65536 -> app_to_shadow m st' y = app_to_shadow m st y) /\
      (type_of m st (x / 65536) = Normal -> st' = st)
  | Dead => refused m
  | _ => False
  end.
Proof.
  intros R Hx. destruct (reach_inv st R) as (A & V & I).
  assert (Hi : idx (x / 65536)) by (unfold idx; split; [apply Z.div_pos; lia|apply Z.div_lt_upper_bound; lia]).
  pose proof (replace_ok m Hm st A V x I Hx) as H.
  assert (N : type_of m st (x / 65536) = Normal -> replace_block m st x = Ret st).
  { intros T. apply (type_norm st A V _ I Hi) in T. unfold replace_block, use_default, use_special.
    destruct (kind_eq m Hm st A V x I Hx) as ([|w|] & K & KT).
    - destruct T as (X & _). destruct K as (Y & _). contradiction.
    - destruct K as (_ & _ & Y & _). destruct T as (_ & X & _). exfalso. exact (kinds_differ m Hm st A V _ I (conj Y X)).
    - destruct KT as (-> & ->). reflexivity. }
  unfold replace_shared. destruct (replace_block m st x) as [st'| | |]; cbn [obind holds] in *; try exact H.
  destruct H as (I' & K' & _ & G & _). split; [apply (type_norm st' _ V _ I' Hi); exact K'|]. split; [reflexivity|].
  split.
  { rewrite (base_eq m Hm st' _ V _ I' Hi). destruct K' as (_ & Rn & _). eexists. split; [exact Rn|].
    cbn. split; [ring|reflexivity]. }
  split.
  { intros y j Hy Hj. rewrite (byte_val st' _ V y j I' Hy Hj), (byte_val st A V y j I Hy Hj). reflexivity. }
  split.
  { intros y Hy NE. unfold app_to_shadow. rewrite index_div, (G _ NE). reflexivity. }
  { intros T. specialize (N T). congruence. }
Qed.

Lemma lookup_app v l b : lookup v l = None -> lookup v (l ++ [(b, v)]) = Some b.
Proof.
  induction l as [|(c, w) l IH]; cbn [lookup app]; [rewrite Z.eqb_refl; reflexivity|].
  destruct (w =? v); [discriminate|exact IH].
Qed.

Lemma shared_lemma st v before : reachable m st -> 0 <= v <= 255 ->
  match create_shared m st v with
  | Ret (st', S_ok, Some b) =>
      block_at m st' b ReadOnly /\ (forall o, 0 <= o < SL -> smem st' (b + o) = v) /\
      get_shared st' v before = (S_ok, b) /\ create_shared m st' v = Ret (st', S_ok, Some b) /\
      (forall y, 0 <= y < 2 ^ 32 -> app_to_shadow m st' y = app_to_shadow m st y) /\
      (forall y j, 0 <= y < 2 ^ 32 -> 0 <= j < num (sc m) -> byte m st' y j = byte m st y j) /\
      (forall i, 0 <= i < 65536 -> type_of m st' i = type_of m st i)
  | Ret (st', S_nomem, None) =>
      st' = st /\ (8 <= length (specials st))%nat /\ get_shared st v before = (S_ok, before)
  | Dead => refused m
  | _ => False
  end.
Proof.
  intros R Hv. destruct (reach_inv st R) as (A & V & I).
  assert (GOOD : forall st' b, inv m st' A V -> In (b, v) (specials st') -> lookup v (specials st') = Some b ->
     (forall j, get_block m st' j = get_block m st j) -> dblock st' = dblock st ->
     (forall r, In r (live st) -> In r (live st')) ->
     (forall x, In x (specials st) -> In x (specials st')) ->
      block_at m st' b ReadOnly /\ (forall o, 0 <= o < SL -> smem st' (b + o) = v) /\
      get_shared st' v before = (S_ok, b) /\ create_shared m st' v = Ret (st', S_ok, Some b) /\
      (forall y, 0 <= y < 2 ^ 32 -> app_to_shadow m st' y = app_to_shadow m st y) /\
      (forall y j, 0 <= y < 2 ^ 32 -> 0 <= j < num (sc m) -> byte m st' y j = byte m st y j) /\
      (forall i, 0 <= i < 65536 -> type_of m st' i = type_of m st i)).
  { intros st' b I' S L G D LV SP. destruct (i_spec _ _ _ _ I' b v S) as (_ & Rr & M).
    split; [eexists; split; [exact Rr|]; cbn; split; [ring|reflexivity]|]. split; [exact M|].
    split; [unfold get_shared; rewrite L; reflexivity|].
    split; [unfold create_shared, create_special; rewrite L; reflexivity|].
    split; [intros y _; unfold app_to_shadow; rewrite G; reflexivity|].
    split; [intros y j Hy Hj; rewrite (byte_val st' A V y j I' Hy Hj), (byte_val st A V y j I Hy Hj); reflexivity|].
    intros i Hi. destruct (type_kind st A V i I Hi) as (k & K & ->). destruct (type_kind st' A V i I' Hi) as (k' & K' & ->).
    destruct k as [|w|], k' as [|w'|]; try reflexivity; exfalso; cbn in K, K'; rewrite ?G in K'.
    - tauto.
    - tauto.
    - tauto.
    - destruct K as (_ & _ & Rk & _). destruct K' as (_ & Rk' & _). apply LV in Rk.
      exact (ro_not_norm m Hm st' A V I' _ _ Rk Rk' eq_refl).
    - tauto.
    - destruct K as (_ & Rk & _). destruct K' as (_ & _ & Rk' & _). apply LV in Rk.
      exact (ro_not_norm m Hm st' A V I' _ _ Rk' Rk eq_refl). }
  unfold create_shared, create_special. destruct (lookup v (specials st)) as [b|] eqn:E.
  - cbn [obind fst snd]. apply GOOD; auto. apply lookup_in. exact E.
  - destruct (Nat.leb_spec MAX_SPECIAL (length (specials st))) as [L|L].
    + cbn [obind fst snd]. split; [reflexivity|]. split; [exact L|]. unfold get_shared. rewrite E. reflexivity.
    + pose proof (special_helper_ok m Hm st v Hv) as H.
      destruct (special_helper m st v) as [(st2, b)| | |]; cbn [obind holds fst snd] in *; try exact H.
      destruct H as (T & S & D & LV & B1 & B2 & AP & M1 & M2 & M3).
      apply GOOD.
      * apply (inv_special m Hm st A V v st2 b); assumption.
      * cbn [specials with_specials]. apply in_or_app. right. left. reflexivity.
      * cbn [specials with_specials]. rewrite S. apply lookup_app. exact E.
      * intros j. unfold get_block. cbn [table with_specials]. rewrite T. reflexivity.
      * exact D.
      * intros r X. cbn [live with_specials]. rewrite LV. right. exact X.
      * intros x X. cbn [specials with_specials]. rewrite S. apply in_or_app. left. exact X.
Qed.

(** * Redundant blocks *)
Lemma clear_lemma st : reachable m st -> on_touch m = true ->
  match clear_redundant m st with
  | Ret (st', S_ok, c) => exists l, NoDup l /\ c = Z.of_nat (length l) /\
      (forall i, In i l <-> 0 <= i < 65536 /\ type_of m st i = Normal /\
         forall o, 0 <= o < SL -> smem st (base m st i + o) = dflt m) /\
      Z.of_nat (length (live st')) + c = Z.of_nat (length (live st)) /\
      (forall i, In i l -> type_of m st' i = Shared) /\
      (forall i, 0 <= i < 65536 -> ~ In i l ->
         base m st' i = base m st i /\ type_of m st' i = type_of m st i) /\
      (forall y j, 0 <= y < 2 ^ 32 -> 0 <= j < num (sc m) -> byte m st' y j = byte m st y j)
  | _ => False
  end.
Proof.
  intros R T. destruct (reach_inv st R) as (A & V & I). unfold clear_redundant. rewrite T. cbn [negb].
  assert (ND : forall n i st c, clear_loop n i m st c <> Dead).
  { induction n as [|n IH]; intros i s c; cbn [clear_loop]; [discriminate|].
    destruct (negb (is_in_normal m s (get_block m s i))); [apply IH|].
    destruct (negb (can m s false (get_block m s i) (sh_bs m))); [discriminate|].
    destruct (negb _); [apply IH|]. destruct (lookup _ _) as [b|]; [|discriminate].
    unfold delete_block, free_region.
    assert (DD : forall l a h, drop a h l <> Dead).
    { induction l as [|r l IHl]; intros a h; cbn [drop]; [discriminate|]. destruct (r_at r =? a).
      - destruct (is_heap _ _); discriminate.
      - specialize (IHl a h). destruct (drop a h l); cbn [obind]; congruence. }
    specialize (DD (live s) (get_block m s i - rz m) (block_heap m)).
    destruct (drop _ _ (live s)); cbn [obind]; (congruence || apply IH). }
  pose proof (clear_loop_ok m Hm (Z.to_nat ENTRIES) 0 st A V 0 I T) as H.
  specialize (ND (Z.to_nat ENTRIES) 0 st 0).
  assert (EN : Z.of_nat (Z.to_nat ENTRIES) = 65536) by (rewrite Z2Nat.id; [reflexivity|vm_compute; congruence]).
  rewrite EN in H. specialize (H ltac:(lia) ltac:(lia)).
  destruct (clear_loop (Z.to_nat ENTRIES) 0 m st 0) as [(st', c)| | |]; cbn [holds obind fst snd] in *; try contradiction.
  destruct H as (I' & l & E1 & E2 & E3 & E4 & E5 & E6 & E7 & E8).
  exists l. split; [exact E2|]. split; [lia|]. 
  assert (PL : forall i, idx i -> plain m st A V i <-> type_of m st i = Normal /\
         forall o, 0 <= o < SL -> smem st (base m st i + o) = dflt m).
  { intros i Hi. unfold plain. rewrite (type_norm st A V i I Hi), (base_eq m Hm st A V i I Hi).
    split; intros [X Y]; (split; [exact X|]); intros o Ho.
    - rewrite (i_val _ _ _ _ I i o Hi Ho). apply Y. exact Ho.
    - rewrite <- (i_val _ _ _ _ I i o Hi Ho). apply Y. exact Ho. }
  assert (DB : dblock st' = dblock st).
  { destruct (i_touch _ _ _ _ I T) as [-> _]. destruct (i_touch _ _ _ _ I' T) as [-> _]. reflexivity. }
  split.
  { intros i. rewrite E5. split.
    - intros [X Y]. split; [lia|]. apply PL; [unfold idx; lia|exact Y].
    - intros [X Y]. split; [lia|]. apply PL; [unfold idx; lia|exact Y]. }
  split; [lia|]. split.
  { intros i X. assert (Hi : idx i) by (apply E5 in X; unfold idx; lia).
    destruct (E6 i X) as (s & S & G). destruct (type_kind st' A V i I' Hi) as ([|w|] & K & ->); [exfalso|reflexivity|exfalso].
    - destruct K as (_ & T' & _). congruence.
    - destruct K as (_ & _ & N & _). apply N. rewrite G, E4. apply (in_map fst _ _ S). }
  split.
  { intros i Hi X. rewrite (base_eq m Hm st' A V i I' Hi), (base_eq m Hm st A V i I Hi), (E7 i X).
    split; [reflexivity|]. unfold type_of, get_shadow, use_default, use_special, is_in_default, is_in_special, app_to_shadow.
    cbn [snd i_type]. rewrite index_div, Z.div_mul by lia. rewrite (E7 i X), E4, DB. reflexivity. }
  { intros y j Hy Hj. rewrite (byte_val st' A V y j I' Hy Hj), (byte_val st A V y j I Hy Hj). reflexivity. }
Qed.

(** * Queries *)
Lemma iterate_lemma st cb : reachable m st ->
  exists l, iterate m st cb = until cb l 0 /\
    StronglySorted Z.lt (map i_app l) /\
    (forall x, In x (map i_app l) <-> exists i, 0 <= i < 65536 /\ type_of m st i <> NotAlloc /\ x = i * 65536) /\
    (forall e, In e l -> e = snd (get_shadow m st (i_app e))).
Proof.
  intros R. destruct (reach_inv st R) as (A & V & I). exists (iterate m st (fun _ => true)). split.
  - unfold iterate. rewrite iterate_cut. 
    assert (U : forall l k, (fix cut (l : list info) (k : nat) : list info :=
       match l with [] => [] | x :: l' => x :: (if cb k then cut l' (S k) else []) end) l k = until cb l k).
    { induction l as [|x l IH]; intros k; cbn; [reflexivity|]. rewrite IH. reflexivity. }
    apply U.
  - assert (EN : Z.of_nat (Z.to_nat ENTRIES) = 65536) by (rewrite Z2Nat.id; [reflexivity|vm_compute; congruence]).
    destruct (iterate_ok m Hm st A V I (Z.to_nat ENTRIES) 0 0%nat) as (S1 & S2 & S3); [lia|lia|].
    split; [exact S1|]. split; [|exact S3]. intros x. unfold iterate. rewrite S2, EN.
    split; intros (i & Hi & X & E); exists i; (split; [lia|]); (split; [|exact E]);
      apply (type_na st A V i I); auto; unfold idx; lia.
Qed.

Lemma around_near b a : around m b a <-> near m b a.
Proof. reflexivity. Qed.

Lemma type_lemma st is_app a : reachable m st -> SL <= a ->
  match get_type m st is_app a with
  | (NotAlloc, red) => on_touch m = false /\ around m (dblock st) a /\ red = negb (in_body m (dblock st) a)
  | (Shared, red) => exists b v, In (b, v) (specials st) /\ around m b a /\ red = negb (in_body m b a)
  | (Normal, red) => is_app = false /\ exists i, 0 <= i < 65536 /\ type_of m st i = Normal /\
       around m (base m st i) a /\ red = negb (in_body m (base m st i) a)
  | (NotShadow, red) => red = false /\ is_app = false /\
       forall r, In r (live st) -> ~ (r_at r <= a < r_at r + alloc_size m)
  | (Unknown, red) => red = false /\ is_app = true /\
       forall r, In r (live st) -> r_body r = ReadOnly -> ~ (r_at r <= a < r_at r + alloc_size m)
  end.
Proof.
  intros R Ha. destruct (reach_inv st R) as (A & V & I). pose proof (get_type_ok m Hm st A V is_app a I Ha) as H.
  destruct (get_type m st is_app a) as ([| | | |], red).
  - destruct H as (-> & -> & H). split; [reflexivity|]. split; [reflexivity|]. intros r X B.
    destruct (i_own _ _ _ _ I r X) as [(_ & ->)|[(b & v & _ & ->)|(j & _ & ->)]]; [apply H; exact X|apply H; exact X|discriminate B].
  - exact H.
  - destruct H as (j & Hj & K & N & -> & ->). split; [reflexivity|]. exists j. split; [exact Hj|].
    rewrite (base_eq m Hm st A V j I Hj). split; [apply (type_norm st A V j I Hj); exact K|]. split; [exact N|reflexivity].
  - destruct H as (b & v & S & E & ->). exists b, v. split; [exact S|]. split; [apply near_ext_ro; exact E|reflexivity].
  - destruct H as (T & E & ->). split; [exact T|]. split; [apply near_ext_ro; exact E|reflexivity].
Qed.

Lemma agree_lemma st x : reachable m st -> 0 <= x < 2 ^ 32 ->
  get_type m st false (app_to_shadow m st x) = (type_of m st (x / 65536), false).
Proof.
  intros R Hx. destruct (reach_inv st R) as (A & V & I).
  destruct (xl_off m Hm st A V x I Hx) as (Hi & Ho & E).
  pose proof (blk_bounds m Hm st A V I _ Hi) as BB. pose proof (rz_range m Hm) as RZ. pose proof (slots_range (sc m)) as SLR.
  assert (NR := near_body m Hm (get_block m st (x / 65536)) _ Ho). rewrite <- E in NR.
  assert (Ha : SL <= app_to_shadow m st x) by (unfold near in NR; lia).
  assert (BD : forall b, b = get_block m st (x / 65536) ->
     negb ((b <=? app_to_shadow m st x) && (app_to_shadow m st x <? b + SL)) = false).
  { intros b ->. rewrite E. unfold off in Ho. remember (slot (sc m) (x mod 65536)) as o.
    rewrite (proj2 (Z.leb_le _ _)) by slia. rewrite (proj2 (Z.ltb_lt _ _)) by slia. reflexivity. }
  pose proof (get_type_ok m Hm st A V false _ I Ha) as H.
  destruct (type_kind st A V _ I Hi) as (k & K & ->).
  assert (SAME : forall r s, In r (live st) -> r_at r = get_block m st (x / 65536) - rz m ->
     In s (live st) -> ext m s (app_to_shadow m st x) -> r = s).
  { intros r s X1 X2 X3 X4. apply (ext_unique m st A V I r s (app_to_shadow m st x)); [exact X1|exact X3| |exact X4].
    unfold ext. rewrite X2, asz_eq. unfold near in NR. lia. }
  assert (NO : forall r, In r (live st) -> r_at r = get_block m st (x / 65536) - rz m ->
     ext m r (app_to_shadow m st x)).
  { intros r _ X2. unfold ext. rewrite X2, asz_eq. unfold near in NR. lia. }
  destruct (get_type m st false (app_to_shadow m st x)) as ([| | | |], red).
  - destruct H as (_ & X & _). discriminate X.
  - exfalso. destruct H as (_ & _ & H). destruct k as [|w|].
    + destruct K as (_ & _ & _ & Rk & _). exact (H _ Rk (NO _ Rk eq_refl)).
    + destruct K as (_ & _ & Rk & _). exact (H _ Rk (NO _ Rk eq_refl)).
    + destruct K as (_ & Rk & _). exact (H _ Rk (NO _ Rk eq_refl)).
  - destruct H as (j & Hj & (_ & Rj & _) & NJ & -> & _). apply near_ext_norm in NJ. destruct k as [|w|].
    + destruct K as (_ & _ & _ & Rk & _). pose proof (SAME _ _ Rk eq_refl Rj NJ) as Q. discriminate Q.
    + destruct K as (_ & _ & Rk & _). pose proof (SAME _ _ Rk eq_refl Rj NJ) as Q. discriminate Q.
    + destruct K as (_ & Rk & _). pose proof (SAME _ _ Rk eq_refl Rj NJ) as Q. f_equal. apply BD.
      injection Q as Q. clear -Q. lia.
  - destruct H as (b & v & Sb & Xb & ->). destruct (i_spec _ _ _ _ I b v Sb) as (_ & Rb & _). destruct k as [|w|].
    + destruct K as (_ & _ & _ & Rk & NS). pose proof (SAME _ _ Rk eq_refl Rb Xb) as Q. exfalso. apply NS.
      injection Q as Q. replace (get_block m st (x / 65536)) with b by (clear -Q; lia). apply (in_map fst _ _ Sb).
    + destruct K as (_ & _ & Rk & _). pose proof (SAME _ _ Rk eq_refl Rb Xb) as Q. f_equal. apply BD.
      injection Q as Q. clear -Q. lia.
    + destruct K as (_ & Rk & _). pose proof (SAME _ _ Rk eq_refl Rb Xb) as Q. discriminate Q.
  - destruct H as (T & Xd & ->). destruct (i_def _ _ _ _ I T) as (Rd & _). destruct k as [|w|].
    + destruct K as (_ & _ & Eb & _). f_equal. apply BD. symmetry. exact Eb.
    + destruct K as (_ & _ & Rk & ND). pose proof (SAME _ _ Rk eq_refl Rd Xd) as Q. exfalso. apply (ND T).
      injection Q as Q. clear -Q. lia.
    + destruct K as (_ & Rk & _). pose proof (SAME _ _ Rk eq_refl Rd Xd) as Q. discriminate Q.
Qed.
End Final.

Lemma bump_map_ok s t d z v f : 0 <= d <= 255 -> 0 <= z <= 2 ^ 20 -> z mod 256 = 0 -> 0 <= v <= 255 ->
  map_ok (UMap s t d z v f bump).
Proof.
  intros Hd Hz Hz' Hv. split; cbn [dflt o_rz o_rzv]; auto.
  intros l n a. cbn [alloc]. unfold bump at 1.
  set (b := fold_right (fun r a => Z.max (r_at r + 2 ^ 22) a) (2 ^ 22) l). destruct (Z.ltb_spec b (2 ^ 31)); [|discriminate].
  intros E. injection E as <-.
  assert (AS : alloc_size (UMap s t d z v f bump) <= 2 ^ 22).
  { unfold alloc_size. rewrite slots_bs. unfold rz, PAGE. cbn [sc faulty o_rz].
    pose proof (slots_range s). destruct f; lia. }
  assert (LO : 2 ^ 22 <= b).
  { unfold b. clear. induction l as [|r l IH]; cbn [fold_right]; lia. }
  assert (UP : forall r, In r l -> r_at r + 2 ^ 22 <= b).
  { unfold b. clear. induction l as [|q l IH]; cbn [fold_right In]; [tauto|]. intros r [->|X]; [lia|]. specialize (IH r X). lia. }
  pose proof (slots_range s). split; [cbn [sc]; lia|]. split; [lia|].
  intros r X. specialize (UP r X). unfold apart. lia.
Qed.
