(** Numbers and dictionary words. *)
From Verif Require Import Base Mutator_Model Mutator_Spec Mutator_Proofs Mutator_Proofs2 Mutator_Proofs3 Mutator_Proofs5.
Open Scope Z_scope.

Lemma le_len n : forall v, length (le_bytes n v) = n.
Proof. induction n as [|n IH]; intros v; cbn; auto. Qed.
Lemma le_bytes_ok n : forall v, bytes (le_bytes n v).
Proof. induction n as [|n IH]; intros v; cbn [le_bytes]; constructor; [apply Z.mod_pos_bound; lia|apply IH]. Qed.
Lemma le_value n : forall v, value (le_bytes n v) = v mod 256 ^ Z.of_nat n.
Proof.
  induction n as [|n IH]; intros v.
  - cbn. rewrite Z.mod_1_r. reflexivity.
  - cbn [le_bytes]. change (value (v mod 256 :: le_bytes n (v / 256))) with (v mod 256 + 256 * value (le_bytes n (v / 256))).
    rewrite IH, Nat2Z.inj_succ, Z.pow_succ_r by lia. rewrite Z.rem_mul_r by (try apply Z.pow_pos_nonneg; try lia; apply Z.pow_nonzero; lia). reflexivity.
Qed.

Lemma bytes_app a b : bytes (a ++ b) <-> bytes a /\ bytes b. Proof. apply Forall_app. Qed.
Lemma bytes_firstn n l : bytes l -> bytes (firstn n l).
Proof. intros H. rewrite <- (firstn_skipn n l) in H. apply bytes_app in H. apply H. Qed.
Lemma bytes_skipn n l : bytes l -> bytes (skipn n l).
Proof. intros H. rewrite <- (firstn_skipn n l) in H. apply bytes_app in H. apply H. Qed.
Lemma write_scalar_ok b at_ n v : bytes b -> 0 <= n <= 8 -> 0 <= at_ -> at_ + n <= len b ->
  exists b', write_scalar b at_ n v = Ok b' /\ bytes b' /\ len b' = len b.
Proof.
  intros Hb Hn Ha Hl. unfold write_scalar. replace ((n <=? 8) && (0 <=? at_) && (at_ + n <=? len b)) with true by lia.
  eexists. split; [reflexivity|]. split.
  - rewrite !bytes_app. split; [apply bytes_firstn; auto|]. split; [apply le_bytes_ok|apply bytes_skipn; auto].
  - unfold len in *. rewrite !app_length, firstn_length, skipn_length, le_len. lia.
Qed.
Lemma write_scalar_all b v : len b <= 8 -> write_scalar b 0 (len b) v = Ok (le_bytes (length b) v).
Proof.
  intros Hl. unfold write_scalar. pose proof (len_nn b). replace ((len b <=? 8) && (0 <=? 0) && (0 + len b <=? len b)) with true by lia.
  cbn [firstn Z.to_nat app]. unfold len. rewrite Nat2Z.id. replace (Z.to_nat (0 + Z.of_nat (length b))) with (length b) by lia.
  rewrite skipn_all, app_nil_r. reflexivity.
Qed.

(** The parts of the state the number and word mutators never change. *)
Record KInv (o : options) (d : list (list Z)) (seed : list Z) (m : mutator) : Prop := {
  k_in : input m = seed; k_size : size m = len seed; k_unit : o_unit (opts m) = o_unit o; k_alg : o_alg (opts m) = o_alg o;
  k_cen : o_centric (opts m) = o_centric o; k_max : o_max (opts m) = o_max o; k_dict : dict m = d }.
Lemma start_kinv junk seed o d : o_unit o <> UBits -> exists m, start junk seed o d = Ok m /\ KInv o d seed m /\ count m = 0.
Proof. intros H. unfold start. destruct (o_unit o) eqn:U; [congruence| |]; eexists; (split; [reflexivity|]); (split; [constructor; auto|reflexivity]). Qed.
Lemma feedback_other m v : o_unit (opts m) <> UBits -> feedback m v = m.
Proof. intros H. unfold feedback. destruct (v <=? 0); [reflexivity|]. destruct (o_unit (opts m)); congruence. Qed.
Lemma kinv_seed o d seed m s : KInv o d seed m -> KInv o d seed (with_seed m s). Proof. intros []. constructor; auto. Qed.
Lemma kinv_count o d seed m s : KInv o d seed m -> KInv o d seed (with_count m s). Proof. intros []. constructor; auto. Qed.
Lemma kinv_cur o d seed m s : KInv o d seed m -> KInv o d seed (with_current m s). Proof. intros []. constructor; auto. Qed.
Lemma kinv_sbs o d seed m m' : KInv o d seed m -> same_but_seed m m' -> KInv o d seed m'.
Proof. intros K (s & ->). apply kinv_seed. exact K. Qed.

Lemma base_ok o d seed m sz b l : KInv o d seed m -> bytes seed -> len seed = sz -> good_requests sz (Ask b :: l) ->
  let base := if o_centric (opts m) then input m else b in bytes base /\ len base = sz.
Proof.
  intros K Hb Hl G. cbv zeta. destruct (o_centric (opts m)); [rewrite (k_in _ _ _ _ K); auto|]. apply G. left. reflexivity.
Qed.

(** Ordered numbers. *)
Definition nth_value (c : Z) (k : nat) (sz : Z) (v : list Z) : Prop :=
  bytes v /\ len v = sz /\ value v = (c + Z.of_nat k) mod 256 ^ sz.
Lemma ordered_number_run junk o d seed : o_unit o = UNum -> o_alg o = AOrdered -> bytes seed -> len seed <= 8 ->
  forall l m, KInv o d seed m -> good_requests (len seed) l -> 0 <= count m -> count m + Z.of_nat (asks l) < 2 ^ 64 ->
  exists outs m', run junk m (map of_request l) = Ok (outs, m') /\ length outs = asks l /\
    (forall k, (k < length outs)%nat -> nth_value (count m) k (len seed) (nth k outs [])) /\
    KInv o d seed m' /\ count m' = count m + Z.of_nat (asks l).
Proof.
  intros Hu Ha Hb H8. induction l as [|[b|v] l IH]; intros m K G Hc Hm; cbn [map of_request run].
  - exists [], m. cbn. repeat split; auto; try lia; try apply K; intros; lia.
  - cbn [asks filter length] in Hm. destruct (base_ok o d seed m (len seed) b l K Hb eq_refl G) as (Bb & Lb).
    unfold get_next_value, next_value. rewrite (k_alg _ _ _ _ K), (k_unit _ _ _ _ K), Ha, Hu.
    set (base := if o_centric (opts m) then input m else b) in *. rewrite (k_size _ _ _ _ K).
    pose proof (write_scalar_all base (count m) ltac:(lia)) as W. rewrite Lb in W. rewrite W. cbn [bind]. unfold u64. rewrite Z.mod_small by (unfold asks in *; lia).
    destruct (IH (with_current (with_count m (count m + 1)) (le_bytes (length base) (count m)))) as (outs & m' & E & L & P & K' & C').
    { apply kinv_cur, kinv_count, K. } { intros b' J. apply G. right. exact J. } { cbn [count with_current with_count]. lia. }
    { cbn [count with_current with_count]. unfold asks in *. lia. }
    rewrite E. cbn [bind]. eexists. exists m'. split; [reflexivity|]. split; [cbn [length asks filter]; unfold asks in L; lia|].
    cbn [count with_current with_count] in *. split; [|split; [exact K'|rewrite C'; cbn [asks filter length]; unfold asks; lia]].
    intros [|k] Hk; cbn [nth length] in *.
    + split; [apply le_bytes_ok|]. split; [unfold len in *; rewrite le_len; lia|]. rewrite le_value.
      change (Z.of_nat 0) with 0. rewrite Z.add_0_r. fold (len base). rewrite Lb. reflexivity.
    + destruct (P k ltac:(lia)) as (P1 & P2 & P3). split; [exact P1|]. split; [exact P2|]. rewrite P3. f_equal. lia.
  - rewrite feedback_other by (rewrite (k_unit _ _ _ _ K), Hu; discriminate).
    apply IH; auto. intros b' J. apply G. right. exact J.
Qed.
Theorem ordered_numbers junk seed o d l : o_unit o = UNum -> o_alg o = AOrdered -> bytes seed -> len seed <= 8 -> good_requests (len seed) l ->
  let limit := if o_max o =? 0 then 2 ^ 64 - 1 else o_max o in
  0 <= o_max o < 2 ^ 64 -> Z.of_nat (asks l) <= limit ->
  exists m outs m', start junk seed o d = Ok m /\ run junk m (map of_request l) = Ok (outs, m') /\ length outs = asks l /\
    (forall k, (k < length outs)%nat ->
       bytes (nth k outs []) /\ len (nth k outs []) = len seed /\ value (nth k outs []) = Z.of_nat k mod 256 ^ len seed) /\
    (has_next_value m' = true <-> Z.of_nat (asks l) < limit).
Proof.
  intros Hu Ha Hb H8 G limit Hm Hl. destruct (start_kinv junk seed o d ltac:(congruence)) as (m & E & K & C).
  destruct (ordered_number_run junk o d seed Hu Ha Hb H8 l m K G ltac:(lia)) as (outs & m' & E' & L & P & K' & C').
  { rewrite C. unfold limit in Hl. destruct (o_max o =? 0); lia. }
  exists m, outs, m'. split; [exact E|]. split; [exact E'|]. split; [exact L|]. split.
  - intros k Hk. specialize (P k Hk). unfold nth_value in P. rewrite C in P. exact P.
  - unfold has_next_value. rewrite (k_unit _ _ _ _ K'), (k_alg _ _ _ _ K'), (k_max _ _ _ _ K'), Hu, Ha, C', C. unfold limit.
    destruct (o_max o =? 0); rewrite Z.ltb_lt; lia.
Qed.

(** Random numbers. *)
Lemma random_words_ok n : forall m i b, bytes b -> 0 <= i -> i + 8 * Z.of_nat n <= len b ->
  exists b' m', random_words n m i b = Ok (b', m') /\ bytes b' /\ len b' = len b /\ same_but_seed m m'.
Proof.
  induction n as [|n IH]; intros m i b Hb Hi Hl; cbn [random_words].
  - exists b, m. repeat split; auto. apply sbs_refl.
  - destruct (random m) as (r, m1) eqn:ER. apply random_range in ER. destruct ER as (_ & S1).
    destruct (write_scalar_ok b i 8 r Hb ltac:(lia) Hi ltac:(lia)) as (b1 & E1 & B1 & L1). rewrite E1. cbn [bind].
    destruct (IH m1 (i + 8) b1 B1 ltac:(lia) ltac:(lia)) as (b2 & m2 & E2 & B2 & L2 & S2). exists b2, m2. repeat split; auto; [lia|].
    eapply sbs_trans; eauto.
Qed.
Definition number_ok (o : options) (sz : Z) : Prop := 0 <= o_max o /\ (o_max o <> 0 -> sz <= 8 /\ o_max o <= 256 ^ sz).
Lemma random_number_ok o d seed m b : KInv o d seed m -> number_ok o (len seed) -> bytes b -> len b = len seed ->
  exists v m', random_number m b = Ok (v, m') /\ bytes v /\ len v = len seed /\ same_but_seed m m' /\ (o_max o <> 0 -> value v < o_max o).
Proof.
  intros K (N0 & N1) Hb Hl. unfold random_number. rewrite (k_max _ _ _ _ K), (k_size _ _ _ _ K). pose proof (len_nn b).
  pose proof (Z.div_mod (len seed) 8 ltac:(lia)) as DM. pose proof (Z.mod_pos_bound (len seed) 8 ltac:(lia)) as MB.
  assert (D0 : 0 <= len seed / 8) by (apply Z.div_pos; lia). destruct (Z.eqb_spec (o_max o) 0) as [Z0|NZ].
  - destruct (random_words_ok (Z.to_nat (len seed / 8)) m 0 b Hb ltac:(lia) ltac:(lia)) as (b1 & m1 & E1 & B1 & L1 & S1). rewrite E1. cbn [bind].
    assert (SZ1 : size m1 = len seed) by (destruct S1 as (s & ->); apply K). rewrite SZ1. destruct (0 <? len seed mod 8) eqn:Q.
    + destruct (random m1) as (r, m2) eqn:ER. apply random_range in ER. destruct ER as (_ & S2).
      assert (SZ2 : size m2 = len seed) by (destruct S2 as (s & ->); exact SZ1).
      rewrite SZ2.
      destruct (write_scalar_ok b1 (len seed / 8 * 8) (len seed mod 8) (Z.land r (2 ^ (len seed mod 8 * 8) - 1)) B1 ltac:(lia) ltac:(lia) ltac:(lia)) as (b2 & E2 & B2 & L2).
      rewrite E2. cbn [bind]. exists b2, m2. repeat split; auto; try lia. eapply sbs_trans; eauto.
    + exists b1, m1. repeat split; auto; lia.
  - destruct (N1 NZ) as (N8 & NM). replace (8 <? len seed) with false by lia.
    destruct (random m) as (r, m1) eqn:ER. apply random_range in ER. destruct ER as (Rr & S1).
    assert (SZ1 : size m1 = len seed /\ o_max (opts m1) = o_max o) by (destruct S1 as (s & ->); split; apply K). destruct SZ1 as (SZ1 & M1).
    rewrite SZ1, M1, <- Hl, write_scalar_all by lia. cbn [bind]. exists (le_bytes (length b) (r mod o_max o)), m1.
    split; [reflexivity|]. split; [apply le_bytes_ok|]. split; [unfold len; rewrite le_len; reflexivity|]. split; [exact S1|].
    intros _. rewrite le_value. pose proof (Z.mod_pos_bound r (o_max o) ltac:(lia)). rewrite Z.mod_small; [lia|].
    unfold len in *. rewrite <- Hl in NM. lia.
Qed.
Lemma random_number_run junk o d seed : o_unit o = UNum -> o_alg o = ARandom -> bytes seed -> number_ok o (len seed) ->
  forall l m, KInv o d seed m -> good_requests (len seed) l ->
  exists outs m', run junk m (map of_request l) = Ok (outs, m') /\ length outs = asks l /\
    (forall v, In v outs -> bytes v /\ len v = len seed /\ (o_max o <> 0 -> value v < o_max o)) /\ KInv o d seed m'.
Proof.
  intros Hu Ha Hb HN. induction l as [|[b|v] l IH]; intros m K G; cbn [map of_request run].
  - exists [], m. split; [reflexivity|]. split; [reflexivity|]. split; [intros w []|exact K].
  - destruct (base_ok o d seed m (len seed) b l K Hb eq_refl G) as (Bb & Lb).
    unfold get_next_value, next_value. rewrite (k_alg _ _ _ _ K), (k_unit _ _ _ _ K), Ha, Hu.
    set (base := if o_centric (opts m) then input m else b) in *.
    destruct (random_number_ok o d seed m base K HN Bb Lb) as (v & m1 & E1 & Bv & Lv & S1 & Mv). rewrite E1. cbn [bind].
    destruct (IH (with_current m1 v)) as (outs & m' & E & L & P & K').
    { apply kinv_cur. eapply kinv_sbs; eauto. } { intros b' J. apply G. right. exact J. }
    rewrite E. cbn [bind]. exists (v :: outs), m'. split; [reflexivity|]. split; [cbn [length asks filter]; unfold asks in L; lia|].
    split; [|exact K']. intros w [<-|J]; auto.
  - rewrite feedback_other by (rewrite (k_unit _ _ _ _ K), Hu; discriminate).
    apply IH; auto. intros b' J. apply G. right. exact J.
Qed.

(** What [drfuzz_mutator_set_options] guarantees. *)
Lemma options_number oob clock o0 us usp uu ua ud sz o : 0 <= o_max o0 < 2 ^ 64 -> 0 <= sz ->
  check_options oob clock o0 us usp uu ua ud sz = Some o -> number_ok o sz /\ o_max o < 2 ^ 64.
Proof.
  intros H0 Hs. unfold check_options. destruct (negb ud && _); [discriminate|]. destruct (ud && uu && _); [discriminate|].
  set (o1 := if ud then _ else o0). assert (M1 : o_max o1 = o_max o0) by (unfold o1; destruct ud; reflexivity).
  destruct (o_centric o1 && _); [discriminate|]. destruct (o_clock o1 && us); [discriminate|]. destruct (usp && _ && _); [discriminate|].
  rewrite M1. destruct ((0 <? o_max o0) && (8 <? sz)) eqn:Q; [discriminate|]. intros [= <-]. cbn [o_max]. unfold number_ok. cbn [o_max].
  unfold exceeds_capacity. change 256 with (2 ^ 8). destruct (Z.eqb_spec sz 8) as [->|N8].
  - rewrite <- Z.pow_mul_r by lia. change (8 * 8) with 64. lia.
  - rewrite <- Z.pow_mul_r by lia. replace (8 * sz) with (sz * 8) by lia. destruct (64 <=? sz * 8) eqn:Q2.
    + destruct (oob <? o_max o0); lia.
    + destruct (2 ^ (sz * 8) <? o_max o0) eqn:Q3; lia.
Qed.
Theorem random_numbers junk seed oob clock o0 us usp uu ua ud o d l : o_unit o = UNum -> o_alg o = ARandom -> bytes seed -> good_requests (len seed) l ->
  0 <= o_max o0 < 2 ^ 64 -> check_options oob clock o0 us usp uu ua ud (len seed) = Some o ->
  exists m outs m', start junk seed o d = Ok m /\ run junk m (map of_request l) = Ok (outs, m') /\ length outs = asks l /\
    (forall v, In v outs -> bytes v /\ len v = len seed /\ (o_max o <> 0 -> value v < o_max o)) /\ has_next_value m' = true.
Proof.
  intros Hu Ha Hb G H0 C. destruct (options_number _ _ _ _ _ _ _ _ _ _ H0 (len_nn seed) C) as (HN & _).
  destruct (start_kinv junk seed o d ltac:(congruence)) as (m & E & K & _).
  destruct (random_number_run junk o d seed Hu Ha Hb HN l m K G) as (outs & m' & E' & L & P & K').
  exists m, outs, m'. repeat match goal with |- _ /\ _ => split end; auto.
  unfold has_next_value. rewrite (k_unit _ _ _ _ K'), (k_alg _ _ _ _ K'), Hu, Ha. reflexivity.
Qed.

(** Words. *)
Lemma blit_nth b at_ l : 0 <= at_ -> at_ + len l <= len b -> exists b', blit b at_ l = Ok b' /\ length b' = length b /\
  forall i, (i < length b)%nat -> nth i b' 0 = if (at_ <=? Z.of_nat i) && (Z.of_nat i <? at_ + len l) then nth (Z.to_nat (Z.of_nat i - at_)) l 0 else nth i b 0.
Proof.
  intros Ha Hl. unfold blit. replace ((0 <=? at_) && (at_ + len l <=? len b)) with true by lia. eexists. split; [reflexivity|].
  unfold len in *. split; [rewrite !app_length, firstn_length, skipn_length; lia|]. intros i Hi.
  destruct (Z_lt_ge_dec (Z.of_nat i) at_) as [A|A].
  - rewrite app_nth1 by (rewrite firstn_length; lia). replace ((at_ <=? Z.of_nat i) && _) with false by lia.
    rewrite <- (firstn_skipn (Z.to_nat at_) b) at 2. rewrite app_nth1 by (rewrite firstn_length; lia). reflexivity.
  - rewrite app_nth2 by (rewrite firstn_length; lia). rewrite firstn_length. replace (Nat.min (Z.to_nat at_) (length b)) with (Z.to_nat at_) by lia.
    destruct (Z_lt_ge_dec (Z.of_nat i) (at_ + Z.of_nat (length l))) as [B|B].
    + rewrite app_nth1 by lia. replace ((at_ <=? Z.of_nat i) && _) with true by lia. f_equal. lia.
    + rewrite app_nth2 by lia. replace ((at_ <=? Z.of_nat i) && _) with false by lia.
      rewrite <- (firstn_skipn (Z.to_nat (at_ + Z.of_nat (length l))) b) at 2. rewrite app_nth2 by (rewrite firstn_length; lia). rewrite firstn_length. f_equal. lia.
Qed.
Lemma set_blit b i v : set b i v = blit b i [v].
Proof.
  unfold set, blit. change (len [v]) with 1. destruct (0 <=? i) eqn:Q; [|reflexivity]. cbn [andb]. replace (i + 1 <=? len b) with (i <? len b) by lia.
  destruct (i <? len b); [|reflexivity]. cbn [app]. replace (Z.to_nat (i + 1)) with (S (Z.to_nat i)) by lia. reflexivity.
Qed.
Lemma nth_firstn (l : list Z) : forall n k, (k < n)%nat -> nth k (firstn n l) 0 = nth k l 0.
Proof. induction l as [|x l IH]; intros [|n] [|k] H; cbn; try lia; auto. apply IH. lia. Qed.
Lemma placed_len base offs t : length (placed base offs t) = length base.
Proof. unfold placed. rewrite map_length, seq_length. reflexivity. Qed.
Lemma nth_map_seq (f : nat -> Z) n i : (i < n)%nat -> nth i (map f (seq 0 n)) 0 = f i.
Proof.
  intros H. rewrite (nth_indep _ 0 (f O)) by (rewrite map_length, seq_length; exact H). rewrite map_nth, seq_nth by exact H. reflexivity.
Qed.
Lemma placed_nth base offs t i : (i < length base)%nat -> nth i (placed base offs t) 0 =
  if (offs <=? Z.of_nat i) && (Z.of_nat i <? offs + len t) then nth (Z.to_nat (Z.of_nat i - offs)) t 0
  else if (Z.of_nat i =? offs - 1) || (Z.of_nat i =? offs + len t) then 32 else nth i base 0.
Proof.
  intros H. unfold placed. rewrite nth_map_seq by exact H. reflexivity.
Qed.
Lemma word_ok base offs t : (len t < len base -> 0 <= offs < len base - len t) -> (len base <= len t -> offs = 0) ->
  (let* b := blit base offs (firstn (Z.to_nat (Z.min (len t) (len base))) t) in
   let* b := (if 0 <? offs then set b (offs - 1) 32 else Ok b) in
   if offs + len t <? len base then set b (offs + len t) 32 else Ok b) = Ok (placed base offs t).
Proof.
  intros H1 H2. pose proof (len_nn base) as Nb. pose proof (len_nn t) as Nt. set (w := firstn (Z.to_nat (Z.min (len t) (len base))) t).
  assert (Lw : len w = Z.min (len t) (len base)) by (unfold w, len; rewrite firstn_length; lia).
  destruct (blit_nth base offs w) as (b1 & E1 & L1 & N1); [lia|lia|]. rewrite E1. cbn [bind].
  assert (X2 : exists b2, (if 0 <? offs then set b1 (offs - 1) 32 else Ok b1) = Ok b2 /\ length b2 = length base /\
    forall i, (i < length base)%nat -> nth i b2 0 = if Z.of_nat i =? offs - 1 then 32 else nth i b1 0).
  { destruct (0 <? offs) eqn:Q.
    - rewrite set_blit. destruct (blit_nth b1 (offs - 1) [32]) as (b2 & E2 & L2 & N2); [lia|unfold len in *; cbn [length]; lia|].
      exists b2. split; [exact E2|]. split; [lia|]. intros i Hi. rewrite N2 by lia. change (len [32]) with 1.
      destruct (Z.eqb_spec (Z.of_nat i) (offs - 1)) as [E|E].
      + replace ((offs - 1 <=? Z.of_nat i) && (Z.of_nat i <? offs - 1 + 1)) with true by lia. replace (Z.to_nat (Z.of_nat i - (offs - 1))) with O by lia. reflexivity.
      + replace ((offs - 1 <=? Z.of_nat i) && (Z.of_nat i <? offs - 1 + 1)) with false by lia. reflexivity.
    - exists b1. split; [reflexivity|]. split; [exact L1|]. intros i Hi. replace (Z.of_nat i =? offs - 1) with false by lia. reflexivity. }
  destruct X2 as (b2 & E2 & L2 & N2). rewrite E2. cbn [bind].
  assert (X3 : exists b3, (if offs + len t <? len base then set b2 (offs + len t) 32 else Ok b2) = Ok b3 /\ length b3 = length base /\
    forall i, (i < length base)%nat -> nth i b3 0 = if Z.of_nat i =? offs + len t then 32 else nth i b2 0).
  { destruct (offs + len t <? len base) eqn:Q.
    - rewrite set_blit. destruct (blit_nth b2 (offs + len t) [32]) as (b3 & E3 & L3 & N3); [lia|unfold len in *; cbn [length]; lia|].
      exists b3. split; [exact E3|]. split; [lia|]. intros i Hi. rewrite N3 by lia. change (len [32]) with 1.
      destruct (Z.eqb_spec (Z.of_nat i) (offs + len t)) as [E|E].
      + replace ((offs + len t <=? Z.of_nat i) && (Z.of_nat i <? offs + len t + 1)) with true by lia. replace (Z.to_nat (Z.of_nat i - (offs + len t))) with O by lia. reflexivity.
      + replace ((offs + len t <=? Z.of_nat i) && (Z.of_nat i <? offs + len t + 1)) with false by lia. reflexivity.
    - exists b2. split; [reflexivity|]. split; [exact L2|]. intros i Hi. replace (Z.of_nat i =? offs + len t) with false by (unfold len in *; lia). reflexivity. }
  destruct X3 as (b3 & E3 & L3 & N3). rewrite E3. f_equal. apply (nth_ext _ _ 0 0); [rewrite placed_len; exact L3|].
  intros i Hi. rewrite L3 in Hi. rewrite N3, N2, N1, placed_nth by lia. rewrite Lw.
  assert (Hi' : Z.of_nat i < len base) by (unfold len; lia).
  destruct (Z.eqb_spec (Z.of_nat i) (offs + len t)) as [E|E].
  { replace (Z.of_nat i <? offs + len t) with false by lia. rewrite andb_false_r, orb_true_r. reflexivity. }
  destruct (Z.eqb_spec (Z.of_nat i) (offs - 1)) as [E'|E'].
  { replace (offs <=? Z.of_nat i) with false by lia. reflexivity. }
  cbn [orb]. destruct (offs <=? Z.of_nat i) eqn:Q1; cbn [andb]; [|reflexivity].
  replace (Z.of_nat i <? offs + Z.min (len t) (len base)) with (Z.of_nat i <? offs + len t).
  2:{ destruct (Z_lt_ge_dec (len t) (len base)); [f_equal; lia|]. rewrite (H2 ltac:(lia)). lia. }
  destruct (Z.of_nat i <? offs + len t) eqn:Q2; [|reflexivity]. unfold w. apply nth_firstn. lia.
Qed.

Lemma ordered_word_run junk o d seed : o_unit o = UToken -> o_alg o = AOrdered -> bytes seed -> len d < 2 ^ 64 ->
  forall l m done todo, KInv o d seed m -> good_requests (len seed) l -> d = done ++ todo -> count m = len done -> (asks l <= length todo)%nat ->
  forall cur, exists m', run junk m (map of_request l) =
      Ok (expected (o_centric o) seed cur (map (fun t base => placed base 0 t) todo) (filter (fun r => match r with Ask _ => true | _ => false end) l), m') /\
    KInv o d seed m' /\ count m' = len done + Z.of_nat (asks l).
Proof.
  intros Hu Ha Hb Hd. induction l as [|[b|v] l IH]; intros m done todo K G Ed Ec A cur; cbn [map of_request run filter].
  - exists m. repeat split; auto; try apply K. unfold asks. cbn. lia.
  - cbn [asks filter length] in A. destruct todo as [|t todo]; [cbn in A; lia|].
    destruct (base_ok o d seed m (len seed) b l K Hb eq_refl G) as (Bb & Lb).
    unfold get_next_value, next_value. rewrite (k_alg _ _ _ _ K), (k_unit _ _ _ _ K), Ha, Hu. rewrite (k_cen _ _ _ _ K), (k_in _ _ _ _ K) in *.
    set (base := if o_centric o then seed else b) in *. unfold ordered_token, entry. rewrite (k_dict _ _ _ _ K), Ec.
    assert (LD : len done + 1 + len todo = len d) by (rewrite Ed, len_app, len_cons; lia). pose proof (len_nn done). pose proof (len_nn todo).
    replace ((0 <=? len done) && (len done <? len d)) with true by lia. cbn [bind].
    replace (nth (Z.to_nat (len done)) d []) with t by (rewrite Ed; unfold len; rewrite Nat2Z.id, nth_middle; reflexivity).
    cbn [size with_count]. rewrite (k_size _ _ _ _ K), <- Lb. unfold u64. rewrite Z.mod_small by lia.
    pose proof (word_ok base 0 t ltac:(pose proof (len_nn t); lia) ltac:(lia)) as W. change (0 <? 0) with false in W. cbv iota in W. rewrite Z.add_0_l in W.
    destruct (blit base 0 (firstn (Z.to_nat (Z.min (len t) (len base))) t)) as [b1| |] eqn:EB; [|discriminate|discriminate]. cbn [bind] in W |- *.
    rewrite W. cbn [bind].
    destruct (IH (with_current (with_count m (len done + 1)) (placed base 0 t)) (done ++ [t]) todo) with (cur := placed base 0 t) as (m' & E & K' & C').
    { apply kinv_cur, kinv_count, K. } { intros b' J. apply G. right. exact J. } { rewrite <- app_assoc. exact Ed. }
    { cbn [count with_current with_count]. rewrite len_app. reflexivity. } { cbn in A. unfold asks. lia. }
    rewrite E. cbn [bind]. exists m'. split; [|split; [exact K'|]].
    + reflexivity.
    + rewrite C', len_app. change (len [t]) with 1. cbn [asks filter length]. unfold asks. lia.
  - rewrite feedback_other by (rewrite (k_unit _ _ _ _ K), Hu; discriminate).
    destruct (IH m done todo K) with (cur := cur) as (m' & E & K' & C'); auto. { intros b' J. apply G. right. exact J. } exists m'. auto.
Qed.
Theorem ordered_words junk seed o d l : o_unit o = UToken -> o_alg o = AOrdered -> bytes seed -> len d < 2 ^ 64 -> good_requests (len seed) l ->
  (asks l <= length d)%nat ->
  exists m m', start junk seed o d = Ok m /\ run junk m (map of_request l) =
      Ok (expected (o_centric o) seed seed (map (fun t base => placed base 0 t) d) (filter (fun r => match r with Ask _ => true | _ => false end) l), m') /\
    (has_next_value m' = true <-> (asks l < length d)%nat).
Proof.
  intros Hu Ha Hb Hd G A. destruct (start_kinv junk seed o d ltac:(congruence)) as (m & E & K & C).
  destruct (ordered_word_run junk o d seed Hu Ha Hb Hd l m [] d K G eq_refl C A seed) as (m' & E' & K' & C'). exists m, m'.
  split; [exact E|]. split; [exact E'|]. unfold has_next_value. rewrite (k_unit _ _ _ _ K'), (k_alg _ _ _ _ K'), (k_dict _ _ _ _ K'), Hu, Ha, C'.
  change (len (@nil (list Z))) with 0. unfold len. rewrite Z.ltb_lt. lia.
Qed.

Definition some_word (d : list (list Z)) (base v : list Z) : Prop :=
  exists t offs, In t d /\ (len t < len base -> 0 <= offs < len base - len t) /\ (len base <= len t -> offs = 0) /\ v = placed base offs t.
Lemma random_token_ok o d seed m b : KInv o d seed m -> d <> [] -> len b = len seed ->
  exists v m', random_token m b = Ok (v, m') /\ same_but_seed m m' /\ some_word d b v.
Proof.
  intros K Nd Hl. unfold random_token. destruct (random m) as (r1, m1) eqn:E1. destruct (random m1) as (r2, m2) eqn:E2.
  apply random_range in E1, E2. destruct E1 as (R1 & S1), E2 as (R2 & S2). pose proof (sbs_trans _ _ _ S1 S2) as S3.
  pose proof (kinv_sbs _ _ _ _ _ K S3) as K2. rewrite (k_dict _ _ _ _ K2), (k_size _ _ _ _ K2). unfold entry. rewrite (k_dict _ _ _ _ K2).
  assert (Ld : 0 < len d) by (destruct d; [congruence|rewrite len_cons; pose proof (len_nn d); lia]).
  replace (len d =? 0) with false by lia. pose proof (Z.mod_pos_bound r1 (len d) Ld) as B1.
  replace ((0 <=? r1 mod len d) && (r1 mod len d <? len d)) with true by lia. cbn [bind].
  set (t := nth (Z.to_nat (r1 mod len d)) d []). assert (It : In t d) by (apply nth_In; unfold len in *; lia).
  rewrite <- Hl. set (offs := if len b <=? len t then 0 else r2 mod (len b - len t)).
  assert (O1 : len t < len b -> 0 <= offs < len b - len t).
  { intros Q. unfold offs. replace (len b <=? len t) with false by lia. apply Z.mod_pos_bound. lia. }
  assert (O2 : len b <= len t -> offs = 0) by (intros Q; unfold offs; replace (len b <=? len t) with true by lia; reflexivity).
  pose proof (word_ok b offs t O1 O2) as W.
  destruct (blit b offs (firstn (Z.to_nat (Z.min (len t) (len b))) t)) as [b1| |]; [|discriminate|discriminate]. cbn [bind] in W |- *.
  destruct (if 0 <? offs then set b1 (offs - 1) 32 else Ok b1) as [b2| |]; [|discriminate|discriminate]. cbn [bind] in W |- *.
  rewrite W. cbn [bind]. exists (placed b offs t), m2. split; [reflexivity|]. split; [exact S3|]. exists t, offs. auto.
Qed.
Lemma random_word_run junk o d seed : o_unit o = UToken -> o_alg o = ARandom -> bytes seed -> d <> [] ->
  forall l m, KInv o d seed m -> good_requests (len seed) l -> forall cur,
  exists outs m', run junk m (map of_request l) = Ok (outs, m') /\ length outs = asks l /\
    accepted (o_centric o) seed cur (repeat (some_word d) (asks l)) (filter (fun r => match r with Ask _ => true | _ => false end) l) outs /\ KInv o d seed m'.
Proof.
  intros Hu Ha Hb HN. induction l as [|[b|v] l IH]; intros m K G cur; cbn [map of_request run filter].
  - exists [], m. repeat split; auto; apply K.
  - destruct (base_ok o d seed m (len seed) b l K Hb eq_refl G) as (Bb & Lb).
    unfold get_next_value, next_value. rewrite (k_alg _ _ _ _ K), (k_unit _ _ _ _ K), Ha, Hu. rewrite (k_cen _ _ _ _ K), (k_in _ _ _ _ K) in *.
    set (base := if o_centric o then seed else b) in *.
    destruct (random_token_ok o d seed m base K HN Lb) as (v & m1 & E1 & S1 & W1). rewrite E1. cbn [bind].
    destruct (IH (with_current m1 v)) with (cur := v) as (outs & m' & E & L & P & K').
    { apply kinv_cur. eapply kinv_sbs; eauto. } { intros b' J. apply G. right. exact J. }
    rewrite E. cbn [bind]. exists (v :: outs), m'. split; [reflexivity|]. split; [cbn [length asks filter]; unfold asks in L; lia|].
    split; [|exact K']. cbn [asks filter length repeat accepted]. split; [exact W1|exact P].
  - rewrite feedback_other by (rewrite (k_unit _ _ _ _ K), Hu; discriminate).
    apply IH; auto. intros b' J. apply G. right. exact J.
Qed.
Theorem random_words_exact junk seed o d l : o_unit o = UToken -> o_alg o = ARandom -> bytes seed -> d <> [] -> good_requests (len seed) l ->
  exists m outs m', start junk seed o d = Ok m /\ run junk m (map of_request l) = Ok (outs, m') /\ length outs = asks l /\
    accepted (o_centric o) seed seed (repeat (some_word d) (asks l)) (filter (fun r => match r with Ask _ => true | _ => false end) l) outs /\
    has_next_value m' = true.
Proof.
  intros Hu Ha Hb HN G. destruct (start_kinv junk seed o d ltac:(congruence)) as (m & E & K & C).
  destruct (random_word_run junk o d seed Hu Ha Hb HN l m K G seed) as (outs & m' & E' & L & P & K'). exists m, outs, m'.
  repeat match goal with |- _ /\ _ => split end; auto.
  unfold has_next_value. rewrite (k_unit _ _ _ _ K'), (k_alg _ _ _ _ K'), Hu, Ha. reflexivity.
Qed.
