(** and, test, or. *)
From Verif Require Import Base Def_Model Def_Spec Def_Proofs.
Open Scope Z_scope.

Local Notation U := UNDEFINED.

Lemma combine_D0 s : combine DEFINED s = if s =? U then U else DEFINED.
Proof. reflexivity. Qed.

Lemma combine_DU s : combine DEFINED s = U <-> s = U.
Proof. rewrite combine_U. unfold DEFINED, UNDEFINED. lia. Qed.

Lemma combine_DN s : combine DEFINED s <> U <-> s <> U.
Proof. rewrite combine_DU. tauto. Qed.

Lemma dword_ok x64 v j : 0 <= j < 4 -> exists x, dword2byte x64 v j = Ok x.
Proof.
  intros H. unfold dword2byte. destruct (j <? 3) eqn:E; [now eexists|].
  replace (j =? 3) with true by lia. now eexists.
Qed.

Lemma dword_zero x64 n v b j :
  reads n v b -> 0 <= j < n -> dword2byte x64 v j = Ok 0 -> b j = 0.
Proof.
  intros [Hv H] Hj E. rewrite <- (H j Hj). unfold dword2byte in E.
  destruct (j <? 3); [now injection E|].
  destruct (j =? 3) eqn:E3; [|discriminate]. replace j with 3 by lia.
  apply (f_equal (fun r => match r with Ok x => x | _ => 1 end)) in E. cbv beta iota in E.
  destruct x64.
  - rewrite (Z.mod_small v) in E by lia. now rewrite E.
  - revert E. clear. change (256 ^ 3) with 16777216. change (2 ^ 32) with 4294967296.
    intros E. Z.div_mod_to_equations. lia.
Qed.

(** All ones never compares equal. *)
Lemma dword_small x64 v j x :
  dword2byte x64 v j = Ok x -> x =? (if x64 then 2 ^ 64 - 1 else 2 ^ 32 - 1) = false.
Proof.
  unfold dword2byte. destruct (j <? 3).
  - intros E. injection E as <-.
    pose proof (Z.mod_pos_bound (v / 256 ^ j) 256 ltac:(lia)).
    destruct x64; lia.
  - destruct (j =? 3); [|discriminate]. intros E. destruct x64; injection E as <-.
    + pose proof (Z.mod_pos_bound v (2 ^ 64) ltac:(lia)).
      assert (v mod 2 ^ 64 / 256 ^ 3 < 2 ^ 64 - 1).
      { apply Z.div_lt_upper_bound; lia. }
      lia.
    + pose proof (Z.mod_pos_bound v (2 ^ 32) ltac:(lia)).
      assert (v mod 2 ^ 32 / 256 ^ 3 < 2 ^ 32 - 1).
      { apply Z.div_lt_upper_bound; lia. }
      lia.
Qed.

Lemma check_zero x64 o n v b j bm :
  reads n v b -> 0 <= j < n -> check_vals true x64 o v j bm = Ok true ->
  o <> Or /\ b j = 0.
Proof.
  intros Hr Hj H. unfold check_vals in H. apply bind_inv in H. destruct H as (x & E & H).
  cbv zeta in H.
  apply (f_equal (fun r => match r with Ok x => x | _ => false end)) in H.
  destruct o; cbv beta iota in H.
  - cbn [negb andb] in H. rewrite orb_false_r in H. apply Z.eqb_eq in H. subst x.
    split; [discriminate|]. exact (dword_zero _ _ _ _ _ Hr Hj E).
  - apply Z.eqb_eq in H. subst x.
    split; [discriminate|]. exact (dword_zero _ _ _ _ _ Hr Hj E).
  - pose proof (dword_small _ _ _ _ E) as X. destruct x64; rewrite X in H; discriminate.
Qed.

Lemma check_ok strict x64 o v j bm : 0 <= j < 4 -> exists r, check_vals strict x64 o v j bm = Ok r.
Proof.
  intros H. unfold check_vals. destruct (dword_ok x64 v j H) as [x E]. rewrite E. cbn [bind].
  destruct o; eexists; reflexivity.
Qed.

Lemma loop_ok strict x64 bm i m : forall b, 0 <= b -> b + Z.of_nat m <= 4 ->
  exists ch l, andor_loop strict x64 bm i b m = Ok (ch, l) /\ length l = m.
Proof.
  induction m as [|m IH]; intros b H0 H1; [now do 2 eexists|].
  cbn [andor_loop]. cbv zeta.
  destruct (IH (b + 1)) as (chs & l & E & L); [lia|lia|].
  assert (K : forall r : res (bool * Z), (exists p, r = Ok p) ->
    exists ch l, (let* (ch, s) := r in
       let* (chs, l) := andor_loop strict x64 bm i (b + 1) m in Ok (ch || chs, s :: l))
       = Ok (ch, l) /\ length l = S m).
  { intros r [[ch s] ->]. cbn [bind]. rewrite E. cbn [bind]. do 2 eexists.
    split; [reflexivity|]. cbn. now rewrite L. }
  apply K.
  destruct (combine DEFINED (b_sh0 i b) =? U).
  - destruct (b_vals i) as [[v0 v1]|]; [|now eexists].
    destruct (combine DEFINED (b_sh1 i b) =? DEFINED); [|now eexists].
    destruct (check_ok strict x64 (b_op i) v1 b bm) as [r E1]; [lia|]. rewrite E1. cbn [bind].
    now eexists.
  - destruct (combine DEFINED (b_sh1 i b) =? U); [|now eexists].
    destruct (b_vals i) as [[v0 v1]|]; [|now eexists].
    destruct (check_ok strict x64 (b_op i) v0 b bm) as [r E1]; [lia|]. rewrite E1. cbn [bind].
    now eexists.
Qed.

Lemma loop_sound x64 bm i a0 a1 m : read_right i a0 a1 ->
  forall b ch l, 0 <= b -> b + Z.of_nat m = b_size i ->
  andor_loop true x64 bm i b m = Ok (ch, l) ->
  length l = m /\
  (forall k s, nth_error l k = Some s -> s <> U -> decided i a0 a1 (b + Z.of_nat k)) /\
  (ch = false -> forall k s, nth_error l k = Some s ->
     (b_sh0 i (b + Z.of_nat k) = U \/ b_sh1 i (b + Z.of_nat k) = U -> s = U)).
Proof.
  intros HR. induction m as [|m IH]; intros b ch l Hb0 Hbm H.
  - injection H as <- <-. split; [reflexivity|].
    split; [intros [|k] s Hk; discriminate|intros _ [|k] s Hk; discriminate].
  - cbn [andor_loop] in H. cbv zeta in H.
    apply bind_inv in H. destruct H as ([ch1 s1] & E & H).
    apply bind_inv in H. destruct H as ([chs l'] & E2 & H). injection H as <- <-.
    destruct (IH (b + 1) chs l') as (L & IH1 & IH2); try assumption; [lia|lia|].
    assert (Hj : 0 <= b < b_size i) by lia.
    assert (K : (s1 <> U -> decided i a0 a1 b) /\
      (ch1 = false -> b_sh0 i b = U \/ b_sh1 i b = U -> s1 = U)).
    { destruct (combine DEFINED (b_sh0 i b) =? U) eqn:E0.
      - apply Z.eqb_eq in E0. rewrite combine_DU in E0.
        destruct (b_vals i) as [[v0 v1]|] eqn:EV.
        + destruct (combine DEFINED (b_sh1 i b) =? DEFINED) eqn:E1.
          * apply bind_inv in E. destruct E as (ok & E & E'). injection E' as E'.
            destruct ok.
            -- injection E' as <- <-. split; [|discriminate].
               intros _. destruct (HR v0 v1 EV) as [_ R1].
               destruct (check_zero _ _ _ _ _ _ _ R1 Hj E) as [O Z1].
               right. split; [exact O|]. split; [congruence|]. right. split; [|exact Z1].
               apply combine_DN. apply Z.eqb_eq in E1. rewrite E1. discriminate.
            -- injection E' as <- <-. split; [congruence|reflexivity].
          * injection E as <- <-. split; [congruence|reflexivity].
        + injection E as <- <-. split; [congruence|reflexivity].
      - assert (N0 : b_sh0 i b <> U).
        { apply combine_DN. now apply Z.eqb_neq. }
        destruct (combine DEFINED (b_sh1 i b) =? U) eqn:E1.
        + destruct (b_vals i) as [[v0 v1]|] eqn:EV.
          * apply bind_inv in E. destruct E as (ok & E & E'). injection E' as <- E'.
            split; [|discriminate]. intros Hs. destruct ok; [|congruence].
            destruct (HR v0 v1 EV) as [R0 _].
            destruct (check_zero _ _ _ _ _ _ _ R0 Hj E) as [O Z1].
            right. split; [exact O|]. split; [congruence|]. left. now split.
          * injection E as <- <-. split; [congruence|reflexivity].
        + assert (N1 : b_sh1 i b <> U).
          { apply combine_DN. now apply Z.eqb_neq. }
          injection E as <- <-. split; [intros _; left; now split|]. intros _ [X|X]; congruence. }
    destruct K as [K1 K2].
    split; [cbn; now rewrite L|]. split.
    + intros [|k] s Hk Hs.
      * injection Hk as <-. cbn [Z.of_nat]. rewrite Z.add_0_r. exact (K1 Hs).
      * replace (b + Z.of_nat (S k)) with (b + 1 + Z.of_nat k) by lia.
        exact (IH1 k s Hk Hs).
    + intros Hch. apply orb_false_iff in Hch. destruct Hch as [C1 C2]. intros [|k] s Hk.
      * injection Hk as <-. cbn [Z.of_nat]. rewrite Z.add_0_r. exact (K2 C1).
      * replace (b + Z.of_nat (S k)) with (b + 1 + Z.of_nat k) by lia.
        exact (IH2 C2 k s Hk).
Qed.

Lemma decided_same i a0 a1 b0 b1 j :
  decided i a0 a1 j -> 0 <= j < b_size i ->
  agree_byte (b_sh0 i) (b_size i) a0 b0 -> agree_byte (b_sh1 i) (b_size i) a1 b1 ->
  bit_op (b_op i) (a0 j) (a1 j) = bit_op (b_op i) (b0 j) (b1 j).
Proof.
  intros D Hj A0 A1. destruct D as [[D0 D1]|(O & _ & D)].
  - now rewrite (A0 j Hj D0), (A1 j Hj D1).
  - assert (E : forall x y, bit_op (b_op i) x y = Z.land x y)
      by (destruct (b_op i); [reflexivity|reflexivity|congruence]). rewrite !E.
    destruct D as [[D Z0]|[D Z1]].
    + rewrite <- (A0 j Hj D), Z0. now rewrite !Z.land_0_l.
    + rewrite <- (A1 j Hj D), Z1. now rewrite !Z.land_0_r.
Qed.

Lemma any_defined sh m : forall b, any_undef sh b m <> U ->
  forall k, 0 <= k < Z.of_nat m -> sh (b + k) <> U.
Proof.
  induction m as [|m IH]; intros b H k Hk; [lia|]. cbn [any_undef] in H.
  destruct (Z.eq_dec k 0) as [->|Hn].
  - rewrite Z.add_0_r. intros X. apply H. apply combine_U. now left.
  - replace (b + k) with (b + 1 + (k - 1)) by lia. apply IH; [|lia].
    intros X. apply H. apply combine_U. now right.
Qed.

Lemma fold_defined l : fold_right combine DEFINED l <> U -> forall s, In s l -> s <> U.
Proof.
  induction l as [|x l IH]; cbn [fold_right]; intros H s [].
  - subst x. intros X. apply H. apply combine_U. now left.
  - apply IH; [|assumption]. intros X. apply H. apply combine_U. now right.
Qed.

Lemma strict_ok x64 i : magic i = false -> 1 <= b_size i <= 4 ->
  exists ch l, check_andor_sources true x64 i = Ok (ch, l) /\
    exists bm, andor_loop true x64 bm i 0 (Z.to_nat (b_size i)) = Ok (ch, l).
Proof.
  intros Hm Hn. unfold check_andor_sources. rewrite Hm. cbv zeta.
  set (bm := match b_immed i with Some _ => _ | None => _ end).
  destruct (loop_ok true x64 bm i (Z.to_nat (b_size i)) 0) as (ch & l & E & _); [lia|lia|].
  rewrite E. cbn [bind]. exists ch, l. split; [|now exists bm].
  destruct (b_op i); reflexivity.
Qed.

Lemma andor_sound x64 i a0 a1 :
  magic i = false -> 1 <= b_size i <= 4 -> read_right i a0 a1 ->
  exists l f', andor true x64 i = Ok (l, f') /\ Z.of_nat (length l) = b_size i /\
    (forall b0 b1,
      agree_byte (b_sh0 i) (b_size i) a0 b0 -> agree_byte (b_sh1 i) (b_size i) a1 b1 ->
      (forall k s, nth_error l k = Some s -> s <> U ->
        let j := Z.of_nat k in
        bit_op (b_op i) (a0 j) (a1 j) = bit_op (b_op i) (b0 j) (b1 j)) /\
      (f' <> U -> forall j, 0 <= j < b_size i ->
        bit_op (b_op i) (a0 j) (a1 j) = bit_op (b_op i) (b0 j) (b1 j))) /\
    (forall k s, nth_error l k = Some s -> s <> U -> decided i a0 a1 (Z.of_nat k)).
Proof.
  intros Hm Hn HR. unfold andor.
  destruct (strict_ok x64 i Hm Hn) as (ch & l & E & bm & EL). rewrite E. cbn [bind].
  destruct (loop_sound x64 bm i a0 a1 (Z.to_nat (b_size i)) HR 0 ch l) as (L & L1 & L2); [lia|lia|exact EL|].
  do 2 eexists. split; [reflexivity|]. split; [rewrite L; lia|]. split.
  2:{ intros k s Hk Hs. exact (L1 k s Hk Hs). }
  intros b0 b1 A0 A1.
  assert (K : forall k s, nth_error l k = Some s -> s <> U ->
     bit_op (b_op i) (a0 (Z.of_nat k)) (a1 (Z.of_nat k)) =
     bit_op (b_op i) (b0 (Z.of_nat k)) (b1 (Z.of_nat k))).
  { intros k s Hk Hs. apply (decided_same i); try assumption.
    - exact (L1 k s Hk Hs).
    - assert (k < length l)%nat by (apply nth_error_Some; congruence). lia. }
  split; [exact K|]. intros Hf j Hj.
  destruct ch.
  - destruct (nth_error l (Z.to_nat j)) as [s|] eqn:Es.
    + rewrite <- (Z2Nat.id j) by lia. apply (K _ s Es).
      apply (fold_defined l Hf). now apply nth_error_In in Es.
    + apply nth_error_None in Es. lia.
  - assert (D0 : b_sh0 i j <> U).
    { rewrite <- (Z.add_0_l j). apply (any_defined _ (Z.to_nat (b_size i))); [|lia].
      intros X. apply Hf. apply combine_U. now left. }
    assert (D1 : b_sh1 i j <> U).
    { rewrite <- (Z.add_0_l j). apply (any_defined _ (Z.to_nat (b_size i))); [|lia].
      intros X. apply Hf. apply combine_U. now right. }
    now rewrite (A0 j Hj D0), (A1 j Hj D1).
Qed.

(** Conversely such a byte is marked as initialised. *)
Lemma zero_dword x64 n v b j :
  reads n v b -> v < 2 ^ 32 -> 0 <= j < n -> j < 4 -> b j = 0 -> dword2byte x64 v j = Ok 0.
Proof.
  intros [Hv H] Hs Hj Hj4 E. rewrite <- (H j Hj) in E. unfold dword2byte.
  destruct (j <? 3) eqn:E3; [now rewrite E|]. replace (j =? 3) with true by lia.
  replace j with 3 in E by lia. f_equal. revert E.
  change (256 ^ 3) with 16777216. change (2 ^ 32) with 4294967296 in *.
  intros E. assert (v / 16777216 = 0) by (Z.div_mod_to_equations; lia).
  destruct x64; rewrite Z.mod_small; try assumption; lia.
Qed.

Lemma zero_check x64 o n v b j bm :
  reads n v b -> v < 2 ^ 32 -> 0 <= j < n -> j < 4 -> o <> Or -> b j = 0 ->
  check_vals true x64 o v j bm = Ok true.
Proof.
  intros HR Hv Hj Hj4 Ho E. unfold check_vals.
  rewrite (zero_dword x64 n v b j HR Hv Hj Hj4 E). cbn [bind].
  destruct o; [reflexivity|reflexivity|congruence].
Qed.

Lemma loop_complete x64 bm i a0 a1 m : read_right i a0 a1 -> b_size i <= 4 ->
  (forall v0 v1, b_vals i = Some (v0, v1) -> v0 < 2 ^ 32 /\ v1 < 2 ^ 32) ->
  forall b ch l, 0 <= b -> b + Z.of_nat m = b_size i ->
  andor_loop true x64 bm i b m = Ok (ch, l) ->
  forall k s, nth_error l k = Some s -> decided i a0 a1 (b + Z.of_nat k) -> s = DEFINED.
Proof.
  intros HR Hn HV. induction m as [|m IH]; intros b ch l Hb0 Hbm H k s Hk HD.
  - injection H as <- <-. destruct k; discriminate.
  - cbn [andor_loop] in H. cbv zeta in H.
    apply bind_inv in H. destruct H as ([ch1 s1] & E & H).
    apply bind_inv in H. destruct H as ([chs l'] & E2 & H). injection H as <- <-.
    destruct k as [|k].
    2:{ apply (IH (b + 1) chs l') with (k := k); try assumption; try lia.
        replace (b + 1 + Z.of_nat k) with (b + Z.of_nat (S k)) by lia. exact HD. }
    injection Hk as <-. cbn [Z.of_nat] in HD. rewrite Z.add_0_r in HD.
    assert (Hj : 0 <= b < b_size i) by lia.
    destruct (combine DEFINED (b_sh0 i b) =? U) eqn:E0.
    + apply Z.eqb_eq in E0. rewrite combine_DU in E0.
      destruct HD as [[X _]|(O & V & [[X _]|[X Z1]])]; [contradiction|contradiction|].
      destruct (b_vals i) as [[v0 v1]|] eqn:EV; [|congruence].
      destruct (HR v0 v1 EV) as [_ R1]. destruct (HV v0 v1 eq_refl) as [_ V1].
      rewrite (combine_D _ _ (proj2 (combine_DN _) X)), Z.eqb_refl in E.
      rewrite (zero_check _ _ _ _ _ _ _ R1 V1 Hj ltac:(lia) O Z1) in E. cbn [bind] in E.
      now injection E as <- <-.
    + assert (N0 : b_sh0 i b <> U).
      { apply combine_DN. now apply Z.eqb_neq. }
      destruct (combine DEFINED (b_sh1 i b) =? U) eqn:E1.
      * apply Z.eqb_eq in E1. rewrite combine_DU in E1.
        destruct HD as [[_ X]|(O & V & [[_ Z0]|[X _]])]; [contradiction| |contradiction].
        destruct (b_vals i) as [[v0 v1]|] eqn:EV; [|congruence].
        destruct (HR v0 v1 EV) as [R0 _]. destruct (HV v0 v1 eq_refl) as [V0 _].
        rewrite (zero_check _ _ _ _ _ _ _ R0 V0 Hj ltac:(lia) O Z0) in E. cbn [bind] in E.
        now injection E as <- <-.
      * now injection E as <- <-.
Qed.

Lemma andor_exact x64 i a0 a1 :
  magic i = false -> 1 <= b_size i <= 4 -> read_right i a0 a1 ->
  (forall v0 v1, b_vals i = Some (v0, v1) -> v0 < 2 ^ 32 /\ v1 < 2 ^ 32) ->
  exists l f', andor true x64 i = Ok (l, f') /\ Z.of_nat (length l) = b_size i /\
    forall k s, nth_error l k = Some s -> (s <> U <-> decided i a0 a1 (Z.of_nat k)).
Proof.
  intros Hm Hn HR HV. unfold andor.
  destruct (strict_ok x64 i Hm Hn) as (ch & l & E & bm & EL). rewrite E. cbn [bind].
  destruct (loop_sound x64 bm i a0 a1 (Z.to_nat (b_size i)) HR 0 ch l) as (L & L1 & L2);
    [lia|lia|exact EL|].
  do 2 eexists. split; [reflexivity|]. split; [rewrite L; lia|]. intros k s Hk. split.
  - intros Hs. exact (L1 k s Hk Hs).
  - intros HD. rewrite (loop_complete x64 bm i a0 a1 (Z.to_nat (b_size i)) HR
      ltac:(lia) HV 0 ch l ltac:(lia) ltac:(lia) EL k s Hk HD). discriminate.
Qed.

(** ** Which constants count as bit masks *)

Definition holed (immed i : Z) : Prop :=
  exists p q r, 0 <= p < q /\ q < r < i /\ Z.testbit immed p = false /\
    Z.testbit immed q = true /\ Z.testbit immed r = false.

Definition run (immed i : Z) (s : scan) : Prop :=
  exists lo hi, (forall p, 0 <= p < i -> (Z.testbit immed p = false <-> lo <= p < hi)) /\
    0 <= lo /\ hi <= i /\
    (if found_zero s then lo < hi else hi <= lo) /\
    (if last_zero s then found_zero s = true /\ hi = i else found_zero s = true -> hi < i).

Definition scanned (immed i : Z) (s : scan) : Prop :=
  n_ones s = ones immed 0 (Z.to_nat i) /\
  if two_zeroes s then holed immed i else run immed i s.

Lemma ones_S immed i m :
  ones immed i (S m) = (if Z.testbit immed i then 1 else 0) + ones immed (i + 1) m.
Proof. reflexivity. Qed.

Lemma ones_snoc immed m : forall i,
  ones immed i (S m) = ones immed i m + (if Z.testbit immed (i + Z.of_nat m) then 1 else 0).
Proof.
  induction m as [|m IH]; intros i.
  - rewrite ones_S. cbn [ones Z.of_nat]. replace (i + 0) with i by lia. lia.
  - rewrite ones_S, IH, (ones_S immed i m).
    replace (i + 1 + Z.of_nat m) with (i + Z.of_nat (S m)) by lia. lia.
Qed.

Lemma scan_step immed i s : 0 <= i -> scanned immed i s ->
  scanned immed (i + 1) (scan_bit (Z.testbit immed i) s).
Proof.
  intros Hi [Hn H]. split.
  - replace (Z.to_nat (i + 1)) with (S (Z.to_nat i)) by lia.
    rewrite ones_snoc, Z.add_0_l, Z2Nat.id by lia. unfold scan_bit.
    destruct (Z.testbit immed i); cbn [n_ones]; lia.
  - assert (HH : holed immed i -> holed immed (i + 1)).
    { intros (p & q & r & Hp & Hq & X). exists p, q, r. repeat split; try tauto; lia. }
    unfold scan_bit. destruct (Z.testbit immed i) eqn:Eb; cbn [two_zeroes].
    + destruct (two_zeroes s); [now apply HH|].
      destruct H as (lo & hi & H1 & H2 & H3 & H4 & H5). exists lo, hi. cbn [found_zero last_zero].
      split; [|split; [lia|split; [lia|split; [exact H4|]]]].
      * intros p Hp. destruct (Z.eq_dec p i) as [->|Hne]; [|apply H1; lia].
        rewrite Eb. split; [discriminate|lia].
      * destruct (last_zero s); intros HF; [lia|]. specialize (H5 HF). lia.
    + destruct (negb (last_zero s) && found_zero s) eqn:Ea; cbn [two_zeroes].
      * apply andb_true_iff in Ea. destruct Ea as [El Ef]. apply negb_true_iff in El.
        destruct (two_zeroes s); [now apply HH|].
        destruct H as (lo & hi & H1 & H2 & H3 & H4 & H5). rewrite El, Ef in *.
        specialize (H5 eq_refl). exists lo, hi, i.
        split; [lia|]. split; [lia|].
        split; [apply H1; lia|]. split; [|exact Eb].
        destruct (Z.testbit immed hi) eqn:Eh; [reflexivity|].
        apply H1 in Eh; lia.
      * destruct (two_zeroes s); [now apply HH|].
        destruct H as (lo & hi & H1 & H2 & H3 & H4 & H5).
        destruct (found_zero s) eqn:Ef.
        -- rewrite andb_true_r in Ea. apply negb_false_iff in Ea. rewrite Ea in *.
           destruct H5 as [_ H5]. exists lo, (i + 1). cbn [found_zero last_zero].
           split; [|split; [lia|split; [lia|split; [lia|split; [reflexivity|reflexivity]]]]].
           intros p Hp. destruct (Z.eq_dec p i) as [->|Hne].
           ++ rewrite Eb. split; [lia|reflexivity].
           ++ rewrite H1 by lia. lia.
        -- exists i, (i + 1). cbn [found_zero last_zero].
           split; [|split; [lia|split; [lia|split; [lia|split; [reflexivity|reflexivity]]]]].
           intros p Hp. destruct (Z.eq_dec p i) as [->|Hne].
           ++ rewrite Eb. split; [lia|reflexivity].
           ++ rewrite H1 by lia. lia.
Qed.

Lemma scan_all immed m : forall i s, 0 <= i -> scanned immed i s ->
  scanned immed (i + Z.of_nat m) (scan_bits immed i m s).
Proof.
  induction m as [|m IH]; intros i s Hi H; cbn [scan_bits].
  - now rewrite Z.add_0_r.
  - replace (i + Z.of_nat (S m)) with (i + 1 + Z.of_nat m) by lia.
    apply IH; [lia|]. now apply scan_step.
Qed.

Lemma bitmask_exact sz immed : 0 <= sz ->
  bitmask_immed false And sz immed = true <->
  one_run_of_zeros (sz * 8) immed /\ 2 < ones immed 0 (Z.to_nat (sz * 8)).
Proof.
  intros Hsz. unfold bitmask_immed. cbn [negb andb].
  set (s0 := {| n_ones := 0; seq0 := 0; seq1 := 0; found_zero := false;
                last_zero := false; two_zeroes := false; byte_only := true |}).
  set (s := scan_bits immed 0 (Z.to_nat (sz * 8)) s0).
  assert (H : scanned immed (sz * 8) s).
  { replace (sz * 8) with (0 + Z.of_nat (Z.to_nat (sz * 8))) at 1 by lia.
    apply scan_all; [lia|]. split; [reflexivity|]. exists 0, 0. cbn. repeat split; lia. }
  destruct H as [Hn H]. rewrite Hn, andb_true_iff, negb_true_iff, Z.ltb_lt.
  split; intros [H1 H2]; split; try assumption.
  - rewrite H1 in H. destruct H as (lo & hi & H & _). now exists lo, hi.
  - destruct (two_zeroes s); [|reflexivity]. exfalso.
    destruct H as (p & q & r & Hp & Hq & B1 & B2 & B3). destruct H1 as (lo & hi & H1).
    apply H1 in B1; [|lia]. apply H1 in B3; [|lia].
    assert (X : Z.testbit immed q = false) by (apply H1; lia). congruence.
Qed.
