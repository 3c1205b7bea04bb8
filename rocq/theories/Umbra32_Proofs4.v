(** The loop over the blocks of a range; setting and writing. *)
From Verif Require Import Base Umbra32_Model Umbra32_Spec Umbra32_Proofs Umbra32_Proofs2 Umbra32_Proofs3.
Open Scope Z_scope.

(** One step of the loop: [y, z) lies in one block and is as long as possible. *)
Record piece (x n y z : Z) : Prop := {
  p_lo : x <= y; p_yz : y < z; p_hi : z <= x + n;
  p_in : z <= y / 65536 * 65536 + 65536;
  p_start : y = x \/ y = y / 65536 * 65536;
  p_end : z = x + n \/ z = y / 65536 * 65536 + 65536 }.

Section Loop.
Context {A B : Type}.
Variables (m : umap) (x n : Z).
Hypothesis Hx : 0 <= x.
Hypothesis Hn : 0 < n.
Hypothesis Htop : x + n <= 2 ^ 32.
Hypothesis Hlast : (x + n - 1) mod 65536 <> 0.
Variable body : Z -> Z -> Z -> A -> out (A * option B).
Variable P : Z -> A -> Prop.
Variable Q : Z -> A -> B -> Prop.
Hypothesis Hbody : forall y z a, piece x n y z -> P y a ->
  holds m (body (y / 65536 * 65536) y (z - y) a)
    (fun r => match snd r with None => P z (fst r) | Some b => Q y (fst r) b end).

Lemma range_loop_ok k : forall blk a,
  (blk < x + n - 1 -> blk mod 65536 = 0 /\ 0 <= blk /\ x < blk + 65536 /\ P (Z.max x blk) a /\
     (x + n - 1 - blk) / 65536 + 2 <= Z.of_nat k) ->
  (x + n - 1 <= blk -> P (x + n) a /\ 1 <= Z.of_nat k) ->
  holds m (range_loop k x (x + n - 1) blk body a)
    (fun r => match snd r with None => P (x + n) (fst r)
              | Some b => exists y, x <= y < x + n /\ Q y (fst r) b end).
Proof.
  induction k as [|k IH]; intros blk a H1 H2; cbn [range_loop].
  - exfalso. destruct (Z.lt_ge_cases blk (x + n - 1)) as [X|X].
    + destruct (H1 X) as (_ & _ & _ & _ & F).
      assert (0 <= (x + n - 1 - blk) / 65536) by (apply Z.div_pos; lia). lia.
    + destruct (H2 X) as (_ & F). lia.
  - destruct (Z.ltb_spec blk (x + n - 1)) as [X|X]; [|cbn [holds snd fst]; apply (H2 X)].
    destruct (H1 X) as (M & B0 & B1 & HP & F).
    change (APP_BLOCK_SIZE - 1) with 65535.
    assert (E1 : w32 (blk + 65535) = blk + 65535).
    { apply w32_small. split; [lia|].
      assert (blk <= 2 ^ 32 - 65536); [|lia].
      apply Z.div_exact in M; [|lia]. assert (blk / 65536 < 65536) by (apply Z.div_lt_upper_bound; lia). lia. }
    rewrite E1.
    set (y := Z.max x blk) in *.
    assert (Ey : (if blk <? x then x else blk) = y) by (unfold y; destruct (Z.ltb_spec blk x); lia).
    rewrite Ey.
    set (z := Z.min (x + n) (blk + 65536)).
    assert (Ez : (if x + n - 1 <? blk + 65535 then x + n - 1 else blk + 65535) = z - 1)
      by (unfold z; destruct (Z.ltb_spec (x + n - 1) (blk + 65535)); lia).
    rewrite Ez. replace (z - 1 - y + 1) with (z - y) by lia.
    rewrite (w32_small (z - y)) by (unfold y, z; lia).
    assert (Eb : y / 65536 * 65536 = blk).
    { apply Z.div_exact in M; [|lia].
      rewrite (Z.mul_comm _ 65536). rewrite M at 1. f_equal. symmetry.
      apply (Z.div_unique _ _ _ (y - blk)); unfold y; lia. }
    rewrite <- Eb at 1.
    assert (PC : piece x n y z) by (constructor; rewrite ?Eb; unfold y, z; lia).
    eapply holds_bind; [exact (Hbody y z a PC HP)|].
    intros (a', [b|]) R; cbn [fst snd] in R.
    + cbn [holds fst snd]. exists y. split; [destruct PC; lia|exact R].
    + unfold add_ovf. replace (blk + 65535 + 1) with (blk + 65536) by lia.
      destruct (Z.ltb_spec (w32 (blk + 65536)) (blk + 65535)) as [O|O].
      * apply IH; [lia|]. intros _. split.
        { replace (x + n) with z; [exact R|]. unfold z.
          destruct (Z.lt_ge_cases (blk + 65536) (2 ^ 32)) as [Y|Y]; [|lia].
          rewrite w32_small in O by lia. lia. }
        { assert (0 <= (x + n - 1 - blk) / 65536) by (apply Z.div_pos; lia). lia. }
      * assert (W : blk + 65536 < 2 ^ 32).
        { destruct (Z.lt_ge_cases (blk + 65536) (2 ^ 32)) as [Y|Y]; [exact Y|exfalso].
          replace (blk + 65536) with (2 ^ 32) in O by lia. change (w32 (2 ^ 32)) with 0 in O. lia. }
        rewrite (w32_small (blk + 65536)) in * by lia.
        apply IH.
        { intros Y. split; [|split; [lia|split; [lia|split]]].
          - rewrite Z.add_mod, M by lia. reflexivity.
          - replace (Z.max x (blk + 65536)) with z by (unfold z; lia). exact R.
          - replace (x + n - 1 - blk) with (x + n - 1 - (blk + 65536) + 1 * 65536) in F by lia.
            rewrite Z.div_add in F by lia. lia. }
        { intros Y. split.
          - replace (x + n) with z; [exact R|]. unfold z.
            assert (x + n - 1 <> blk + 65536); [|lia].
            intros E. apply Hlast. rewrite E, Z.add_mod, M by lia. reflexivity.
          - assert (0 <= (x + n - 1 - blk) / 65536) by (apply Z.div_pos; lia). lia. }
Qed.

Lemma app_range_ok a : P x a ->
  holds m (app_range_loop x n body a)
    (fun r => match snd r with None => P (x + n) (fst r)
              | Some b => exists y, x <= y < x + n /\ Q y (fst r) b end).
Proof.
  intros HP. unfold app_range_loop.
  assert (E0 : w32 (n - 1) = n - 1) by (apply w32_small; lia).
  rewrite E0. replace (x + (n - 1)) with (x + n - 1) by lia.
  rewrite (w32_small (x + n - 1)) by lia. rewrite align_sub by lia.
  pose proof (Z.div_mod x 65536 ltac:(lia)) as D. pose proof (Z.mod_pos_bound x 65536 eq_refl) as MB.
  assert (XP : 0 <= x / 65536) by (apply Z.div_pos; lia).
  apply range_loop_ok.
  - intros X. split; [apply Z.mod_mul; lia|]. split; [lia|]. split; [lia|].
    split; [rewrite Z.max_l by lia; exact HP|]. change APP_BLOCK_SIZE with 65536.
    assert (0 <= (x + n - 1 - x / 65536 * 65536) / 65536) by (apply Z.div_pos; lia). lia.
  - intros X. exfalso.
    assert (n = 1 /\ x = x / 65536 * 65536) by lia. apply Hlast.
    replace (x + n - 1) with (x / 65536 * 65536) by lia. apply Z.mod_mul. lia.
Qed.
End Loop.

Lemma no_ovf x n : 0 <= x -> 0 < n -> x + n <= 2 ^ 32 -> add_ovf x (w32 (n - 1)) = false.
Proof.
  intros. unfold add_ovf. rewrite (w32_small (n - 1)), w32_small by lia. apply Z.ltb_ge. lia.
Qed.

(** * Geometry of pieces *)
Section Geo.
Variable m : umap.
Hypothesis Hm : map_ok m.
Notation SL := (SLOTS (sc m)).

Lemma piece_block x n y z : 0 <= x -> x + n <= 2 ^ 32 -> piece x n y z ->
  idx (y / 65536) /\ forall t, y <= t < z -> t / 65536 = y / 65536.
Proof.
  intros H0 H1 PC. split.
  - unfold idx. split; [apply Z.div_pos; destruct PC; lia|apply Z.div_lt_upper_bound; destruct PC; lia].
  - intros t Ht. symmetry. apply (Z.div_unique _ _ _ (t - y / 65536 * 65536)); [|lia].
    left. pose proof (Z.mul_div_le y 65536 eq_refl). destruct PC; lia.
Qed.

Lemma den_block : 65536 mod den (sc m) = 0 /\ forall i, (i * 65536) mod den (sc m) = 0.
Proof.
  assert (E : 65536 mod den (sc m) = 0) by (destruct (sc m); reflexivity).
  split; [exact E|]. intros i. destruct (numden (sc m)). rewrite Z.mul_mod, E, Z.mul_0_r by lia. apply Z.mod_0_l. lia.
Qed.
Lemma den_add a b : a mod den (sc m) = 0 -> b mod den (sc m) = 0 -> (a + b) mod den (sc m) = 0.
Proof. intros H1 H2. destruct (numden (sc m)). rewrite Z.add_mod, H1, H2 by lia. apply Z.mod_0_l. lia. Qed.
Lemma den_sub a b : a mod den (sc m) = 0 -> b mod den (sc m) = 0 -> (a - b) mod den (sc m) = 0.
Proof. intros H1 H2. destruct (numden (sc m)). rewrite Zminus_mod, H1, H2. apply Z.mod_0_l. lia. Qed.

Lemma piece_den x n y z : range_ok (sc m) x n -> piece x n y z ->
  y mod den (sc m) = 0 /\ z mod den (sc m) = 0.
Proof.
  intros R PC. destruct den_block as [D1 D2]. pose proof (ro_wx _ _ _ R) as W1. pose proof (ro_wn _ _ _ R) as W2. split.
  - destruct (p_start _ _ _ _ PC) as [E|E]; rewrite E; [exact W1|apply D2].
  - destruct (p_end _ _ _ _ PC) as [E|E]; rewrite E; [apply den_add; assumption|].
    apply den_add; [apply D2|exact D1].
Qed.

Record geo (st : ustate) (y z o k : Z) : Prop := {
  g_o : 0 <= o; g_k : 0 <= k; g_sum : o + k <= SL;
  g_slot : y / 65536 * SL + o = slot (sc m) y;
  g_end : slot (sc m) y + k = slot (sc m) z;
  g_size : to_shadow (sc m) (z - y) = k }.
Lemma slot_dm y : 0 <= y -> slot (sc m) y = y / 65536 * SL + slot (sc m) (y mod 65536).
Proof.
  intros H. rewrite <- slot_block by (apply Z.mod_pos_bound; lia). f_equal.
  pose proof (Z.div_mod y 65536 ltac:(lia)). lia.
Qed.
Lemma piece_geo st x n y z : range_ok (sc m) x n -> piece x n y z ->
  geo st y z (slot (sc m) (y mod 65536)) (slot (sc m) z - slot (sc m) y).
Proof.
  intros R PC. pose proof (ro_x _ _ _ R) as H0.
  assert (Y0 : 0 <= y) by (destruct PC; lia).
  destruct (piece_den x n y z R PC) as [D1 D2].
  pose proof (slot_small (sc m) (y mod 65536) (Z.mod_pos_bound y 65536 eq_refl)) as SS.
  pose proof (slot_dm y Y0) as SD.
  pose proof (slot_mono (sc m) y z ltac:(destruct PC; lia)) as MO.
  constructor; try lia.
  - pose proof (slot_mono (sc m) z (y / 65536 * 65536 + 65536) ltac:(destruct PC; lia)) as ME.
    rewrite slot_block in ME by lia.
    replace (slot (sc m) 65536) with SL in ME by (unfold slot, SLOTS; reflexivity). lia.
  - pose proof (ro_size _ _ _ R). rewrite to_shadow_slot.
    + unfold slot at 1. rewrite <- slot_whole by assumption. reflexivity.
    + destruct PC; lia.
    + destruct (numden (sc m)). pose proof (ro_n _ _ _ R). destruct PC. nia.
Qed.

Lemma kind_eq st A V y : inv m st A V -> 0 <= y < 2 ^ 32 ->
  exists k, is_kind m st A (y / 65536) k /\
  match k with
  | KDef => is_in_default m st (app_to_shadow m st y) = true /\ is_in_special m st (app_to_shadow m st y) = None
  | KSpec v => is_in_default m st (app_to_shadow m st y) = false /\
               exists w, is_in_special m st (app_to_shadow m st y) = Some (get_block m st (y / 65536), w) /\
                         In (get_block m st (y / 65536), w) (specials st)
  | KNorm => is_in_default m st (app_to_shadow m st y) = false /\ is_in_special m st (app_to_shadow m st y) = None
  end.
Proof.
  intros I Hy. destruct (xl_off m Hm st A V y I Hy) as (Hi & Ho & E).
  destruct (kind_of m Hm st A V I _ Hi) as [k K]. exists k. split; [exact K|].
  rewrite E. exact (kind_tests m Hm st A V I _ k _ Hi K (near_body m Hm _ _ Ho)).
Qed.

(** Making the block of [y] private before writing. *)
Definition prep (st : ustate) (blk y s : Z) : out (ustate * Z) :=
  match is_in_special m st s with
  | Some _ => let! st := replace_block m st blk in Ret (st, app_to_shadow m st y)
  | None => Ret (st, s)
  end.
Lemma prep_ok st A V y : inv m st A V -> 0 <= y < 2 ^ 32 -> A (y / 65536) ->
  holds m (prep st (y / 65536 * 65536) y (app_to_shadow m st y)) (fun r =>
    inv m (fst r) A V /\ is_kind m (fst r) A (y / 65536) KNorm /\
    snd r = get_block m (fst r) (y / 65536) + slot (sc m) (y mod 65536) /\ keeps m st (fst r)).
Proof.
  intros I Hy Ai. unfold prep. destruct (kind_eq st A V y I Hy) as ([|v|] & K & KT).
  - destruct K as (N & _). contradiction.
  - destruct KT as (_ & w & -> & S).
    assert (HB : 0 <= y / 65536 * 65536 < 2 ^ 32).
    { pose proof (Z.mul_div_le y 65536 eq_refl). assert (0 <= y / 65536) by (apply Z.div_pos; lia). lia. }
    eapply holds_bind; [exact (replace_ok m Hm st A V _ I HB)|].
    cbv zeta. rewrite Z.div_mul by lia. intros st' (I' & K' & _ & _ & KP). cbn [holds fst snd].
    assert (I2 : inv m st' A V).
    { apply (inv_ext m st' (fun j => A j \/ j = y / 65536) A V V); auto.
      intros b _. split; [intros [X|X]; [exact X|subst; exact Ai]|auto]. }
    split; [exact I2|]. split.
    { apply (kind_ext m st' (fun j => A j \/ j = y / 65536)); [|exact K']. tauto. }
    split; [|exact KP]. exact (xl_eq m Hm st' A V I2 y Hy).
  - destruct KT as (_ & ->). cbn [holds fst snd]. split; [exact I|]. split; [exact K|].
    split; [exact (xl_eq m Hm st A V I y Hy)|apply keeps_refl].
Qed.

(** Not private: the answer of the test. *)
Lemma default_test st A V y : inv m st A V -> 0 <= y < 2 ^ 32 ->
  (is_in_default m st (app_to_shadow m st y) = true /\ ~ A (y / 65536)) \/
  (is_in_default m st (app_to_shadow m st y) = false /\ A (y / 65536)).
Proof.
  intros I Hy. destruct (kind_eq st A V y I Hy) as ([|v|] & K & KT); cbn in K; tauto.
Qed.

(** Memory after a write into a private block. *)
Lemma write_mem st A V y z o k f : inv m st A V -> idx (y / 65536) -> is_kind m st A (y / 65536) KNorm ->
  geo st y z o k ->
  can m st true (get_block m st (y / 65536) + o) k = true /\
  let a := get_block m st (y / 65536) + o in
  let st' := with_smem st (fun x => if (a <=? x) && (x <? a + k) then f (x - a) else smem st x) in
  inv m st' A (fun j => if (slot (sc m) y <=? j) && (j <? slot (sc m) z) then f (j - slot (sc m) y) else V j) /\
  keeps m st st'.
Proof.
  intros I Hi K G. destruct G as [G1 G2 G3 G4 G5 G6]. split.
  - apply (can_write m Hm st A); try lia; assumption.
  - cbv zeta. split; [|repeat split; auto].
    pose proof (inv_write m Hm st A V I (y / 65536) o k f Hi K G1 G3) as W.
    eapply inv_ext; [| |exact W]; [tauto|]. intros j. cbv beta. rewrite G4, G5. reflexivity.
Qed.

Lemma updated_grow (V V1 : Z -> Z) s x y z F : x <= y -> y <= z ->
  updated s V V1 x y F ->
  updated s V (fun j => if (slot s y <=? j) && (j <? slot s z) then F (j - slot s x) else V1 j) x z F.
Proof.
  intros H1 H2 U k. pose proof (slot_mono s x y H1). pose proof (slot_mono s y z H2).
  destruct (U k) as [U1 U2]. unfold within in *.
  destruct (Z.leb_spec (slot s y) k), (Z.ltb_spec k (slot s z)); cbn [andb]; split; intros X;
    try reflexivity; try lia; try (apply U1; lia); try (apply U2; lia).
Qed.
Lemma updated_ext s V V1 V2 x y F : (forall j, V1 j = V2 j) -> updated s V V1 x y F -> updated s V V2 x y F.
Proof. intros E U k. rewrite <- E. apply U. Qed.
Lemma updated_nil s V x F : updated s V V x x F.
Proof. intros k. unfold within. split; [lia|reflexivity]. Qed.

Definition ok_all (A : Z -> Prop) (x y : Z) : Prop := forall t, x <= t < y -> A (t / 65536).
Lemma ok_all_grow A x n y z : 0 <= x -> x + n <= 2 ^ 32 -> piece x n y z -> ok_all A x y -> A (y / 65536) ->
  ok_all A x z.
Proof.
  intros H0 H1 PC H Ay t Ht. destruct (Z.lt_ge_cases t y); [apply H; lia|].
  destruct (piece_block x n y z H0 H1 PC) as [_ E]. rewrite E by lia. exact Ay.
Qed.

(** * Setting a range *)
Lemma set_range_ok st A V x n v : inv m st A V -> range_ok (sc m) x n -> 0 <= v <= 255 ->
  holds m (set_range m st x n v) (fun r => let '(st', e, q) := r in
    exists y V', reach A x n y /\ ok_iff e (y = x + n) /\
      inv m st' A V' /\ updated (sc m) V V' x y (fun _ => v) /\ keeps m st st' /\
      (e = S_ok -> q = Some (slot (sc m) (x + n) - slot (sc m) x))).
Proof.
  intros I R Hv. pose proof R as [H0 Hn Ht Hs W1 W2 HL]. unfold set_range.
  rewrite (proj2 (Z.ltb_ge 255 v)) by lia. rewrite no_ovf by lia.
  set (P := fun (y : Z) (a : ustate * Z) => x <= y /\ ok_all A x y /\ snd a = slot (sc m) y - slot (sc m) x /\
        exists V', inv m (fst a) A V' /\ updated (sc m) V V' x y (fun _ => v) /\ keeps m st (fst a)).
  set (Q := fun (y : Z) (a : ustate * Z) (e : status) => e = S_param /\ ok_all A x y /\ ~ A (y / 65536) /\
        exists V', inv m (fst a) A V' /\ updated (sc m) V V' x y (fun _ => v) /\ keeps m st (fst a)).
  eapply holds_bind.
  - apply (app_range_ok m x n H0 Hn Ht HL _ P Q).
    + intros y z (s1, tot) PC (Hy & OA & ET & V1 & I1 & U1 & K1). cbn [fst snd] in *.
      assert (Hy2 : 0 <= y < 2 ^ 32) by (destruct PC; lia).
      destruct (piece_block x n y z H0 Ht PC) as [Hi HB].
      destruct (default_test s1 A V1 y I1 Hy2) as [[-> NA]|[-> Ay]].
      * cbn [holds fst snd]. unfold Q. cbn [fst]. eauto 10.
      * fold (prep s1 (y / 65536 * 65536) y (app_to_shadow m s1 y)).
        eapply holds_bind; [exact (prep_ok s1 A V1 y I1 Hy2 Ay)|].
        intros (s2, a) (I2 & KN & EA & K2). cbn [fst snd] in *. subst a.
        pose proof (piece_geo s2 x n y z R PC) as G. rewrite (g_size _ _ _ _ _ G).
        destruct (write_mem s2 A V1 y z _ _ (fun _ => v) I2 Hi KN G) as (C & I3 & K3).
        unfold m_set. rewrite C. cbn [obind holds fst snd]. unfold P. cbn [fst snd].
        rewrite (Z.mod_small v 256) by lia.
        split; [destruct PC; lia|]. split; [apply (ok_all_grow A x n y z); assumption|].
        pose proof (slot_mono (sc m) x y Hy). pose proof (slot_mono (sc m) y z ltac:(destruct PC; lia)).
        split.
        { rewrite ET, w32_small; [lia|]. split; [lia|].
          pose proof (slot_mono (sc m) z (x + n) ltac:(destruct PC; lia)) as M3.
          rewrite slot_whole_add in M3 by assumption.
          assert (slot (sc m) n <= n * num (sc m)).
          { destruct (numden (sc m)). unfold slot. apply Z.div_le_upper_bound; nia. }
          lia. }
        eexists. split; [exact I3|]. split; [|exact (keeps_trans m _ _ _ K1 (keeps_trans m _ _ _ K2 K3))].
        apply (updated_grow V V1 (sc m) x y z (fun _ => v)); [lia|destruct PC; lia|exact U1].
    + unfold P. cbn [fst snd]. split; [lia|]. split; [intros t X; lia|]. split; [lia|].
      exists V. split; [exact I|]. split; [apply updated_nil|apply keeps_refl].
  - intros ((s1, tot), [e|]) H; cbn [fst snd] in H; cbn [holds].
    + destruct H as (y & Hy & -> & OA & NA & V' & I' & U' & K'). cbn [fst] in *.
      exists y, V'. split; [split; [lia|]; split; [exact OA|intros _; exact NA]|].
      split; [right; split; [reflexivity|lia]|]. do 3 (split; [assumption|]). discriminate.
    + destruct H as (Hy & OA & ET & V' & I' & U' & K'). cbn [fst snd] in *.
      exists (x + n), V'. split; [split; [lia|]; split; [exact OA|lia]|].
      split; [left; auto|]. do 3 (split; [assumption|]). intros _. rewrite ET. reflexivity.
Qed.

(** * Writing a range *)

(** The bytes to be written: offset [c] on, out of [T], to the shadow bytes from
    [D] on. *)
Definition src (b : buf) (F : Z -> Z) (T D : Z) (st : ustate) (A : Z -> Prop) (V : Z -> Z) (c : Z) : Prop :=
  match b with
  | Bytes l => T <= Z.of_nat (length l) /\ forall k, 0 <= k < T -> nth (Z.to_nat k) l 0 = F k
  | At s =>
      (exists a v q, In (a, v) (specials st) /\ s = a + q /\ 0 <= q /\ q + T <= SL /\
                     forall k, 0 <= k < T -> F k = v) \/
      (exists j q, idx j /\ is_kind m st A j KNorm /\ s = get_block m st j + q /\ 0 <= q /\ q + T <= SL /\
                   (D <= j * SL + q \/ j * SL + q + T <= D) /\
                   forall k, c <= k < T -> V (j * SL + q + k) = F k)
  end.

Lemma src_keeps b F T D st st' A V V2 c : inv m st' A V2 -> keeps m st st' ->
  src b F T D st A V c -> src b F T D st' A V c.
Proof.
  intros I (_ & K1 & K2). destruct b as [l|s]; cbn; [auto|].
  intros [(a & v & q & X & Y)|(j & q & Hj & KN & E & Y)]; [left; eauto 10|right].
  exists j, q. split; [exact Hj|]. destruct KN as (Aj & R & _). destruct (K2 j R Hj) as [E2 R2].
  split; [exact (knorm_of m Hm st' A V2 j I Hj Aj R2)|]. rewrite E2. auto.
Qed.

Lemma src_fetch b F T D st A V c k : inv m st A V -> src b F T D st A V c -> 0 <= c -> 0 <= k -> c + k <= T ->
  exists f, fetch m st b c k = Ret f /\ forall i, 0 <= i < k -> f i = F (c + i).
Proof.
  intros I S Hc Hk HT. destruct b as [l|s]; cbn [fetch src] in *.
  - destruct S as [S1 S2]. rewrite (proj2 (Z.leb_le (c + k) _)) by lia. rewrite orb_true_r.
    eexists. split; [reflexivity|]. intros i X. apply S2. lia.
  - assert (C : can m st false (s + c) k = true /\ forall i, 0 <= i < k -> smem st (s + c + i) = F (c + i)).
    { destruct S as [(a & v & q & X & -> & Q0 & QT & E)|(j & q & Hj & KN & -> & Q0 & QT & _ & E)].
      - rewrite <- Z.add_assoc. split; [apply (can_read_special m Hm st A V I a v); [exact X|lia..]|].
        intros i Y. rewrite E by lia. rewrite <- Z.add_assoc.
        apply (i_spec _ _ _ _ I a v X). unfold off. lia.
      - rewrite <- Z.add_assoc. split; [apply (can_read m Hm st A V I); [exact Hj|lia..]|].
        intros i Y. rewrite <- E by lia. rewrite <- (Z.add_assoc (get_block m st j)).
        rewrite (i_val _ _ _ _ I) by (assumption || unfold off; lia). f_equal. lia. }
    destruct C as [-> C]. eexists. split; [reflexivity|exact C].
Qed.

Lemma src_advance b F T D st A V V' c c' f : src b F T D st A V c -> 0 <= c <= c' ->
  (forall j, V' j = if (D + c <=? j) && (j <? D + c') then f j else V j) ->
  c' <= T -> src b F T D st A V' c'.
Proof.
  intros S Hc E HT. destruct b as [l|s]; cbn in *; [exact S|].
  destruct S as [X|(j & q & Hj & KN & Es & Q0 & QT & G & H)]; [left; exact X|right].
  exists j, q. do 5 (split; [assumption|]). split; [exact G|].
  intros k X. rewrite E. rewrite (proj2 (andb_false_iff _ _)) by (rewrite Z.leb_gt, Z.ltb_ge; lia).
  apply H. lia.
Qed.

Lemma write_ok st A V x n b F T :
  inv m st A V -> range_ok (sc m) x n -> T = slot (sc m) (x + n) - slot (sc m) x ->
  src b F T (slot (sc m) x) st A V 0 ->
  holds m (write m st x n T b) (fun r => let '(st', e, q) := r in
    exists y V', reach A x n y /\ ok_iff e (y = x + n) /\
      inv m st' A V' /\ updated (sc m) V V' x y F /\ keeps m st st' /\ (e = S_ok -> q = T)).
Proof.
  intros I R HT HS. pose proof R as [H0 Hn Ht Hs W1 W2 HL]. unfold write.
  assert (ET : to_shadow (sc m) n = T).
  { rewrite to_shadow_slot by lia. rewrite slot_whole_add in HT by assumption. lia. }
  rewrite ET, Z.ltb_irrefl. rewrite no_ovf by lia.
  set (P := fun (y : Z) (a : ustate * Z) => x <= y /\ ok_all A x y /\ snd a = slot (sc m) y - slot (sc m) x /\
        exists V', inv m (fst a) A V' /\ updated (sc m) V V' x y F /\ keeps m st (fst a) /\
                   src b F T (slot (sc m) x) (fst a) A V' (snd a)).
  set (Q := fun (y : Z) (a : ustate * Z) (e : status) => e = S_param /\ ok_all A x y /\ ~ A (y / 65536) /\
        exists V', inv m (fst a) A V' /\ updated (sc m) V V' x y F /\ keeps m st (fst a)).
  eapply holds_bind.
  - apply (app_range_ok m x n H0 Hn Ht HL _ P Q).
    + intros y z (s1, tot) PC (Hy & OA & Et & V1 & I1 & U1 & K1 & S1). cbn [fst snd] in *.
      assert (Hy2 : 0 <= y < 2 ^ 32) by (destruct PC; lia).
      destruct (piece_block x n y z H0 Ht PC) as [Hi HB].
      destruct (default_test s1 A V1 y I1 Hy2) as [[-> NA]|[-> Ay]].
      * cbn [holds fst snd]. unfold Q. cbn [fst]. eauto 10.
      * fold (prep s1 (y / 65536 * 65536) y (app_to_shadow m s1 y)).
        eapply holds_bind; [exact (prep_ok s1 A V1 y I1 Hy2 Ay)|].
        intros (s2, a) (I2 & KN & EA & K2). cbn [fst snd] in *. subst a.
        pose proof (piece_geo s2 x n y z R PC) as G. cbv zeta. rewrite (g_size _ _ _ _ _ G).
        pose proof (slot_mono (sc m) x y Hy) as M1. pose proof (slot_mono (sc m) y z ltac:(destruct PC; lia)) as M2.
        pose proof (slot_mono (sc m) z (x + n) ltac:(destruct PC; lia)) as M3.
        pose proof (src_keeps _ _ _ _ _ _ _ _ _ _ I2 K2 S1) as S2.
        destruct (src_fetch b F T _ s2 A V1 tot (slot (sc m) z - slot (sc m) y) I2 S2) as (f & Ef & Hf); [lia..|].
        destruct (write_mem s2 A V1 y z _ _ f I2 Hi KN G) as (C & I3 & K3).
        unfold m_move. rewrite Ef. cbn [obind]. rewrite C. cbn [obind holds fst snd]. unfold P. cbn [fst snd].
        split; [destruct PC; lia|]. split; [apply (ok_all_grow A x n y z); assumption|].
        split; [lia|].
        eexists. split; [exact I3|].
        split; [|split; [exact (keeps_trans m _ _ _ K1 (keeps_trans m _ _ _ K2 K3))|]].
        { eapply updated_ext; [|apply (updated_grow V V1 (sc m) x y z F); [lia|destruct PC; lia|exact U1]].
          intros j. cbv beta.
          destruct (Z.leb_spec (slot (sc m) y) j), (Z.ltb_spec j (slot (sc m) z)); cbn [andb]; try reflexivity.
          rewrite Hf by lia. f_equal. lia. }
        { apply (src_advance b F T _ _ A V1 _ tot _ (fun j => f (j - slot (sc m) y))).
          - eapply src_keeps; [exact I3|exact K3|exact S2].
          - lia.
          - intros j. replace (slot (sc m) x + tot) with (slot (sc m) y) by lia.
            replace (slot (sc m) x + (tot + (slot (sc m) z - slot (sc m) y))) with (slot (sc m) z) by lia. reflexivity.
          - lia. }
    + unfold P. cbn [fst snd]. split; [lia|]. split; [intros t X; lia|]. split; [lia|].
      exists V. split; [exact I|]. split; [apply updated_nil|]. split; [apply keeps_refl|].
      exact HS.
  - intros ((s1, tot), [e|]) H; cbn [fst snd] in H; cbn [holds].
    + destruct H as (y & Hy & -> & OA & NA & V' & I' & U' & K'). cbn [fst] in *.
      exists y, V'. split; [split; [lia|]; split; [exact OA|intros _; exact NA]|].
      split; [right; split; [reflexivity|lia]|]. do 3 (split; [assumption|]). discriminate.
    + destruct H as (Hy & OA & Et & V' & I' & U' & K' & _). cbn [fst snd] in *.
      exists (x + n), V'. split; [split; [lia|]; split; [exact OA|lia]|].
      split; [left; auto|]. do 3 (split; [assumption|]). intros _. lia.
Qed.
End Geo.
