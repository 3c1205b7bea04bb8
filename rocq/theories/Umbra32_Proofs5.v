(** Creating, reading, copying, searching. *)
From Verif Require Import Base Umbra32_Model Umbra32_Spec Umbra32_Proofs Umbra32_Proofs2 Umbra32_Proofs3
  Umbra32_Proofs4.
Open Scope Z_scope.

(** Linear arithmetic without the quotients and remainders in the context. *)
Ltac slia :=
  repeat match goal with
         | H : context [_ mod _] |- _ => clear H
         | H : context [_ / _] |- _ => clear H
         end; lia.

Section Ops.
Variable m : umap.
Hypothesis Hm : map_ok m.
Notation SL := (SLOTS (sc m)).

Lemma piece_range x n y z : range_ok (sc m) x n -> piece x n y z -> range_ok (sc m) y (z - y).
Proof.
  intros R PC. destruct (piece_den m x n y z R PC) as [D1 D2]. destruct R as [H0 Hn Ht Hs W1 W2 HL].
  destruct PC as [P1 P2 P3 P4 P5 P6]. constructor.
  - clear -P1 H0. lia.
  - clear -P2. lia.
  - clear -P3 Ht. lia.
  - destruct (numden (sc m)) as [N _]. clear -P1 P2 P3 N Hs. nia.
  - exact D1.
  - apply den_sub; assumption.
  - replace (y + (z - y) - 1) with (z - 1) by lia. destruct P6 as [E|E].
    + rewrite E. exact HL.
    + rewrite E. replace (y / 65536 * 65536 + 65536 - 1) with (65535 + y / 65536 * 65536) by lia.
      rewrite Z.mod_add by lia. discriminate.
Qed.

(** A range inside one block with shadow is reached to the end. *)
Lemma reach_block A y z e : reach A y (z - y) e -> (forall t, y <= t < z -> A (t / 65536)) -> e = z.
Proof.
  intros (H1 & _ & H3) H. destruct (Z.lt_ge_cases e z) as [L|]; [|lia].
  exfalso. apply H3; [lia|]. apply H. lia.
Qed.
Lemma reach_unique A x n e e' : reach A x n e -> reach A x n e' -> e = e'.
Proof.
  intros (H1 & H2 & H3) (H1' & H2' & H3').
  destruct (Z.lt_trichotomy e e') as [L|[L|L]]; [|exact L|]; exfalso.
  - apply H3; [lia|]. apply H2'. lia.
  - apply H3'; [lia|]. apply H2. lia.
Qed.

(** Composing updates. *)
Lemma updated_then s V V1 V2 x y z F : x <= y -> y <= z ->
  updated s V V1 x y F -> updated s V1 V2 y z (fun i => F (i + (slot s y - slot s x))) -> updated s V V2 x z F.
Proof.
  intros H1 H2 U1 U2 k. pose proof (slot_mono s x y H1). pose proof (slot_mono s y z H2).
  destruct (U1 k) as [A1 A2]. destruct (U2 k) as [B1 B2]. unfold within in *. split; intros X.
  - destruct (Z.lt_ge_cases k (slot s y)).
    + rewrite B2 by lia. apply A1. lia.
    + rewrite B1 by lia. f_equal. lia.
  - rewrite B2 by lia. apply A2. lia.
Qed.

Lemma slot_0 s : slot s 0 = 0.
Proof. destruct s; reflexivity. Qed.
Lemma slot_ends i : slot (sc m) (i * 65536) = i * SL /\ slot (sc m) (i * 65536 + 65536) = (i + 1) * SL.
Proof.
  split.
  - replace (i * 65536) with (i * 65536 + 0) by lia. rewrite slot_block, slot_0 by lia. lia.
  - rewrite slot_block by lia. replace (slot (sc m) 65536) with SL by (unfold slot, SLOTS; reflexivity). lia.
Qed.
Lemma point_updated (V V1 : Z -> Z) x y z i v : x <= y -> y <= z ->
  i * SL <= slot (sc m) y -> slot (sc m) z <= (i + 1) * SL ->
  updated (sc m) V V1 x y (fun _ => v) ->
  (slot (sc m) y = i * SL /\ slot (sc m) z = (i + 1) * SL) \/
  (forall k, i * SL <= k < (i + 1) * SL -> V1 k = v) ->
  updated (sc m) V (fun k => if (i * SL <=? k) && (k <? (i + 1) * SL) then v else V1 k) x z (fun _ => v).
Proof.
  intros Hx Hz B1 B2 U H k. destruct (U k) as [U2 U3]. clear U.
  pose proof (slot_mono (sc m) x y Hx) as M1. pose proof (slot_mono (sc m) y z Hz) as M2.
  unfold within in *.
  set (sx := slot (sc m) x) in *. set (sy := slot (sc m) y) in *. set (sz := slot (sc m) z) in *.
  set (lo := i * SL) in *. set (hi := (i + 1) * SL) in *. clearbody sx sy sz lo hi.
  destruct (Z.leb_spec lo k); cbn [andb]; [destruct (Z.ltb_spec k hi); cbn [andb]|]; split; intros Q.
  - reflexivity.
  - destruct H as [[-> ->]|H]; [lia|]. rewrite <- (H k) by lia. apply U3. lia.
  - apply U2. lia.
  - apply U3. lia.
  - apply U2. lia.
  - apply U3. lia.
Qed.

(** * Creation *)
Lemma create_ok st A V sh x n v : inv m st A V -> range_ok (sc m) x n -> 0 <= v < 255 ->
  holds m (create m st sh x n v) (fun r => snd r = S_ok /\ exists A' V',
    inv m (fst r) A' V' /\ updated (sc m) V V' x (x + n) (fun _ => v) /\
    forall b, A' b <-> A b \/ exists y, x <= y < x + n /\ b = y / 65536).
Proof.
  intros I R Hv. pose proof R as [H0 Hn Ht Hs W1 W2 HL]. unfold create.
  rewrite (proj2 (Z.leb_gt 255 v)) by lia. rewrite no_ovf by lia.
  assert (E0 : w32 (n - 1) = n - 1) by (apply w32_small; lia). rewrite E0.
  assert (E1 : w32 (x + (n - 1)) = x + n - 1) by (rewrite w32_small by lia; lia). rewrite E1.
  set (P := fun (y : Z) (s : ustate) => x <= y /\ exists A' V', inv m s A' V' /\
         updated (sc m) V V' x y (fun _ => v) /\ forall b, A' b <-> A b \/ exists t, x <= t < y /\ b = t / 65536).
  eapply holds_bind.
  - apply (app_range_ok m x n H0 Hn Ht HL _ P (fun _ _ (_ : status) => False)).
    + intros y z s1 PC (Hy & A1 & V1 & I1 & U1 & HA1).
      assert (Hy2 : 0 <= y < 2 ^ 32) by (destruct PC; clear -p_lo p_yz p_hi H0 Ht; lia).
      destruct (piece_block x n y z H0 Ht PC) as [Hi HB].
      pose proof (piece_range x n y z R PC) as R'. clear Hs W1 W2 HL.
      assert (Hyz : y < z) by (destruct PC; lia).
      pose proof (Z.mul_div_le y 65536 eq_refl) as BL. rewrite Z.mul_comm in BL.
      pose proof (proj1 Hi) as Hi0.
      assert (Hb2 : 0 <= y / 65536 * 65536 < 2 ^ 32) by lia.
      set (i := y / 65536) in *.
      assert (Ei : i * 65536 / 65536 = i) by (apply Z.div_mul; lia).
      (* the set step, from any state where the block has shadow *)
      assert (SET : forall s2 A2, inv m s2 A2 V1 -> (forall b, A2 b <-> A1 b \/ b = i) ->
        holds m (let! r := set_range m s2 y (z - y) v in
                 let '(s3, e, _) := r in Ret (s3, match e with S_ok => None | _ => Some e end))
          (fun r => match snd r with None => P z (fst r) | Some b => False end)).
      { intros s2 A2 I2 HA2. eapply holds_bind; [exact (set_range_ok m Hm s2 A2 V1 y (z - y) v I2 R' ltac:(lia))|].
        intros ((s3, e), q) (w & V3 & RE & OK & I3 & U3 & _ & _).
        assert (w = z). { apply (reach_block A2 y z w RE). intros t T. apply HA2. right. apply HB. exact T. }
        subst w. destruct OK as [[-> _]|[_ X]]; [|exfalso; apply X; lia].
        cbn [holds fst snd]. unfold P. split; [lia|]. exists A2, V3. split; [exact I3|].
        split; [apply (updated_then _ V V1 V3 x y z); [lia|lia|exact U1|exact U3]|].
        intros b. rewrite HA2, HA1. split.
        - intros [[X|(t & T & X)]|X]; [left; exact X|right; exists t; split; [lia|exact X]|].
          right. exists y. split; [lia|exact X].
        - intros [X|(t & T & X)]; [left; left; exact X|].
          destruct (Z.lt_ge_cases t y); [left; right; exists t; split; [lia|exact X]|].
          right. rewrite X. apply HB. lia. }
      unfold use_default. 
      destruct (default_test m Hm s1 A1 V1 _ I1 Hb2) as [[-> NA]|[-> Ay]]; rewrite Ei in *.
      * (* no shadow yet *)
        assert (KD : is_kind m s1 A1 i KDef).
        { destruct (kind_of m Hm s1 A1 V1 I1 i Hi) as [[|w|] K]; [exact K| |]; cbn in K; tauto. }
        pose proof (default_values m s1 A1 V1 i I1 Hi KD) as DV.
        assert (REPL : forall s2, inv m s2 A1 V1 ->
          holds m (let! s3 := replace_block m s2 (i * 65536) in
            let! r := set_range m s3 y (z - y) v in
            let '(s3, e, _) := r in Ret (s3, match e with S_ok => None | _ => Some e end))
          (fun r => match snd r with None => P z (fst r) | Some b => False end)).
        { intros s2 I2. eapply holds_bind; [exact (replace_ok m Hm s2 A1 V1 _ I2 Hb2)|].
          cbv zeta. rewrite Ei. intros s3 (I3 & _). apply (SET s3 _ I3). tauto. }
        destruct (sh && _) eqn:C; [|exact (REPL s1 I1)].
        eapply holds_bind; [exact (create_special_ok m Hm s1 A1 V1 v I1 ltac:(lia))|].
        intros (s2, [b|]) (I2 & G2 & D2 & S2 & X).
        2: exact (REPL s2 I2).
        rewrite index_div, Ei. cbn [holds fst snd].
        destruct (inv_point m Hm s2 A1 V1 i b v I2 Hi NA X) as [I3 _].
        unfold P. split; [lia|]. eexists _, _. split; [exact I3|]. split.
        { pose proof (slot_mono (sc m) x y Hy) as M1. pose proof (slot_mono (sc m) y z ltac:(lia)) as M2.
          assert (B1 : i * SL <= slot (sc m) y).
          { rewrite (slot_dm m y ltac:(lia)). fold i.
            pose proof (slot_small (sc m) (y mod 65536) (Z.mod_pos_bound y 65536 eq_refl)). lia. }
          assert (B2 : slot (sc m) z <= (i + 1) * SL).
          { pose proof (slot_mono (sc m) z ((i + 1) * 65536 + 0) ltac:(destruct PC; fold i in p_in; lia)) as M3.
            rewrite slot_block in M3 by lia. replace (slot (sc m) 0) with 0 in M3; [lia|].
            unfold slot. destruct (numden (sc m)). rewrite Z.mul_0_l, Z.div_0_l by lia. reflexivity. }
          apply (point_updated V V1 x y z i v Hy ltac:(lia) B1 B2 U1).
          apply andb_prop in C. destruct C as [_ C]. apply orb_prop in C. destruct C as [C|C].
          - left. apply andb_prop in C. destruct C as [C1 C2]. apply Z.leb_le in C1, C2.
            change (APP_BLOCK_SIZE - 1) with 65535 in C2.
            rewrite w32_small in C2 by (unfold idx in Hi; lia).
            assert (Y : y = i * 65536). { destruct PC as [? ? ? ? [Q|Q] ?]; [fold i in Q|exact Q]; lia. }
            assert (Zz : z = i * 65536 + 65536). { destruct PC as [? ? ? ? ? [Q|Q]]; [|exact Q]. fold i in p_in. lia. }
            rewrite Zz, Y. apply slot_ends.
          - right. apply Z.eqb_eq in C. intros k Q.
            rewrite <- C. replace k with (i * SL + (k - i * SL)) by lia. apply DV. unfold off. lia. }
        intros b'. split.
        { rewrite HA1. intros [[Q|(t & T & Q)]|Q]; [left; exact Q|right; exists t; split; [lia|exact Q]|].
          right. exists y. split; [lia|exact Q]. }
        { rewrite HA1. intros [Q|(t & T & Q)]; [left; left; exact Q|].
          destruct (Z.lt_ge_cases t y); [left; right; exists t; split; [lia|exact Q]|].
          right. rewrite Q. apply HB. lia. }
      * apply (SET s1 A1 I1). intros b. split; [auto|intros [Q|Q]; [exact Q|subst; exact Ay]].
    + unfold P. split; [lia|]. exists A, V. split; [exact I|]. split; [apply updated_nil|].
      intros b. split; [auto|intros [Q|(t & T & _)]; [exact Q|lia]].
  - intros (s1, [e|]) H; cbn [fst snd] in H.
    + destruct H as (? & _ & []).
    + cbn [holds stop_status fst snd]. split; [reflexivity|]. destruct H as (_ & A' & V' & X). exists A', V'. exact X.
Qed.

(** * Reading *)
Lemma read_ok st A V x n : inv m st A V -> range_ok (sc m) x n ->
  holds m (read m st x n (n * num (sc m) / den (sc m))) (fun r => exists e,
    reach A x n e /\ ok_iff (fst r) (e = x + n) /\
    Z.of_nat (length (snd r)) = slot (sc m) e - slot (sc m) x /\
    forall i, 0 <= i < slot (sc m) e - slot (sc m) x -> nth (Z.to_nat i) (snd r) 0 = V (slot (sc m) x + i)).
Proof.
  intros I R. pose proof R as [H0 Hn Ht Hs W1 W2 HL]. unfold read.
  rewrite to_shadow_slot by slia. fold (slot (sc m) n). rewrite Z.ltb_irrefl, no_ovf by slia.
  set (P := fun (y : Z) (l : list Z) => x <= y /\ ok_all A x y /\
     Z.of_nat (length l) = slot (sc m) y - slot (sc m) x /\
     forall i, 0 <= i < slot (sc m) y - slot (sc m) x -> nth (Z.to_nat i) l 0 = V (slot (sc m) x + i)).
  eapply holds_bind.
  - apply (app_range_ok m x n H0 Hn Ht HL _ P (fun y l e => e = S_param /\ ~ A (y / 65536) /\ P y l)).
    + intros y z l PC HP. pose proof HP as (Hy & OA & EL & NL).
      assert (Pyz : y < z <= x + n) by (destruct PC; slia).
      assert (Hy2 : 0 <= y < 2 ^ 32) by slia.
      destruct (piece_block x n y z H0 Ht PC) as [Hi HB].
      destruct (default_test m Hm st A V y I Hy2) as [[-> NA]|[-> Ay]]; [cbn [holds fst snd]; auto|].
      pose proof (piece_geo m st x n y z R PC) as G. pose proof G as [G1 G2 G3 G4 G5 G6].
      rewrite G6. destruct (xl_off m Hm st A V y I Hy2) as (_ & _ & E). rewrite E.
      unfold m_read. rewrite (can_read m Hm st A V I _ _ _ Hi G1 G2 G3). cbn [obind holds fst snd].
      pose proof (slot_mono (sc m) x y Hy) as M1.
      unfold P. split; [slia|]. split; [apply (ok_all_grow A x n y z); assumption|].
      remember (slot (sc m) (y mod 65536)) as o eqn:Eo. remember (y / 65536) as i0 eqn:Ei0.
      remember (slot (sc m) z - slot (sc m) y) as k eqn:Ek. clear HB E Eo Ei0 PC.
      remember (slot (sc m) x) as sx eqn:Esx. remember (slot (sc m) y) as sy eqn:Esy.
      remember (slot (sc m) z) as sz eqn:Esz. clear Esx Esy Esz.
      assert (LEN : length (map (fun i : nat => smem st (get_block m st i0 + o + Z.of_nat i))
                     (seq 0 (Z.to_nat k))) = Z.to_nat k) by (rewrite map_length, seq_length; reflexivity).
      split.
      { rewrite app_length, LEN. slia. }
      intros i Q. destruct (Z.lt_ge_cases i (sy - sx)) as [L|L].
      { rewrite app_nth1 by slia. apply NL. slia. }
      { rewrite app_nth2 by slia. set (d := (Z.to_nat i - length l)%nat).
        assert (Hd : (d < Z.to_nat k)%nat) by slia.
        rewrite (nth_indep _ 0 (smem st (get_block m st i0 + o + Z.of_nat 0)))
          by (rewrite LEN; exact Hd).
        rewrite (map_nth (fun i : nat => smem st (get_block m st i0 + o + Z.of_nat i))).
        rewrite seq_nth by exact Hd. rewrite <- Z.add_assoc, (i_val _ _ _ _ I) by (assumption || unfold off; slia).
        f_equal. slia. }
    + unfold P. split; [slia|]. split; [intros t T; slia|]. cbn [length]. split; [slia|]. intros; slia.
  - intros (l, [e|]) H; cbn [fst snd] in H; cbn [holds fst snd].
    + destruct H as (y & Hy & -> & NA & (_ & OA & EL & NL)). exists y.
      split; [split; [slia|split; [exact OA|auto]]|]. split; [right; split; [reflexivity|slia]|]. auto.
    + destruct H as (Hy & OA & EL & NL). exists (x + n). split; [split; [slia|split; [exact OA|slia]]|].
      split; [left; auto|]. auto.
Qed.

(** * Searching *)
Lemma chr_ok k : forall f a v,
  match chr_loop k f a v with
  | Some b => a <= b < a + Z.of_nat k /\ f b = v /\ forall c, a <= c < b -> f c <> v
  | None => forall c, a <= c < a + Z.of_nat k -> f c <> v
  end.
Proof.
  induction k as [|k IH]; intros f a v; cbn [chr_loop]; [intros; lia|].
  destruct (Z.eqb_spec (f a) v) as [E|E].
  - split; [lia|]. split; [exact E|]. intros; lia.
  - specialize (IH f (a + 1) v). destruct (chr_loop k f (a + 1) v) as [b|].
    + destruct IH as (B1 & B2 & B3). split; [lia|]. split; [exact B2|]. intros c Q.
      destruct (Z.eq_dec c a) as [->|]; [exact E|apply B3; lia].
    + intros c Q. destruct (Z.eq_dec c a) as [->|]; [exact E|apply IH; lia].
Qed.
Lemma slot_exact y : y mod den (sc m) = 0 -> slot (sc m) y * den (sc m) = y * num (sc m).
Proof.
  intros H. destruct (numden (sc m)) as [N D]. apply Z.div_exact in H; [|lia].
  unfold slot. set (a := y / den (sc m)) in *. clearbody a. subst y.
  rewrite <- Z.mul_assoc, (Z.mul_comm (den (sc m)) (a * _)), Z.div_mul by lia. lia.
Qed.
Lemma slot_back y : y mod den (sc m) = 0 -> slot (sc m) y * den (sc m) / num (sc m) = y.
Proof. intros H. rewrite (slot_exact y H). apply Z.div_mul. destruct (numden (sc m)). lia. Qed.
Lemma slot_lt_back z k : z mod den (sc m) = 0 -> k < slot (sc m) z -> k * den (sc m) / num (sc m) < z.
Proof.
  intros H L. pose proof (slot_exact z H) as E. destruct (numden (sc m)) as [N D].
  apply Z.div_lt_upper_bound; [lia|]. nia.
Qed.
Lemma reach_exists st A V x n : inv m st A V -> 0 <= x -> 0 <= n -> x + n <= 2 ^ 32 -> exists e, reach A x n e.
Proof.
  intros I H0 Hn. revert n Hn. apply (natlike_ind (fun n => x + n <= 2 ^ 32 -> exists e, reach A x n e)).
  - intros _. exists x. split; [lia|]. split; intros; lia.
  - intros n Hn IH Ht. destruct IH as (e & R1 & R2 & R3); [lia|].
    destruct (Z.eq_dec e (x + n)) as [->|NE].
    + destruct (default_test m Hm st A V (x + n) I ltac:(lia)) as [[_ NA]|[_ Ay]].
      * exists (x + n). split; [lia|]. split; [exact R2|]. intros _. exact NA.
      * exists (x + Z.succ n). split; [lia|]. split; [|lia]. intros t T.
        destruct (Z.eq_dec t (x + n)) as [->|]; [exact Ay|apply R2; lia].
    + exists e. split; [lia|]. split; [exact R2|]. intros _. apply R3. lia.
Qed.
Lemma to_app_back y q : 0 <= y -> y mod den (sc m) = 0 -> 0 <= q -> q * den (sc m) < 2 ^ 32 ->
  y + to_app (sc m) q = (slot (sc m) y + q) * den (sc m) / num (sc m).
Proof.
  intros H0 H1 H2 H3. pose proof (slot_back y H1) as SB. unfold to_app, w32.
  unfold slot in *. destruct (sc m); cbn [is_down is_up shift num den] in *;
    rewrite ?Z.shiftl_mul_pow2, ?Z.shiftr_div_pow2 by lia; rewrite ?Z.mul_1_r, ?Z.div_1_r in *;
    change (2 ^ 3) with 8; change (2 ^ 2) with 4; change (2 ^ 1) with 2; try rewrite Z.mod_small by lia; try lia.
Qed.

Lemma value_in_ok st A V x n v : inv m st A V -> range_ok (sc m) x n -> 0 <= v <= 255 ->
  holds m (value_in m st x n v) (fun r => exists e, reach A x n e /\
    match snd r with
    | Some y => fst r = S_ok /\ exists k, within (sc m) x e k /\ V k = v /\
                  (forall j, slot (sc m) x <= j < k -> V j <> v) /\ y = k * den (sc m) / num (sc m)
    | None => ok_iff (fst r) (e = x + n) /\ forall k, within (sc m) x e k -> V k <> v
    end).
Proof.
  intros I R Hv. pose proof R as [H0 Hn Ht Hs W1 W2 HL]. unfold value_in.
  rewrite (proj2 (Z.ltb_ge 65535 v)) by slia. rewrite no_ovf by slia.
  set (P := fun (y : Z) (_ : unit) => x <= y /\ ok_all A x y /\ forall k, within (sc m) x y k -> V k <> v).
  set (Q := fun (y : Z) (_ : unit) (r : status * option Z) => x <= y /\ ok_all A x y /\
     (forall k, within (sc m) x y k -> V k <> v) /\
     match r with
     | (s, Some a) => s = S_ok /\ A (y / 65536) /\ exists z k, piece x n y z /\ slot (sc m) y <= k < slot (sc m) z /\
           V k = v /\ (forall j, slot (sc m) y <= j < k -> V j <> v) /\ a = k * den (sc m) / num (sc m)
     | (s, None) => s = S_param /\ ~ A (y / 65536)
     end).
  eapply holds_bind.
  - apply (app_range_ok m x n H0 Hn Ht HL _ P Q).
    + intros y z u PC HP. pose proof HP as (Hy & OA & NF).
      assert (Pyz : y < z <= x + n) by (destruct PC; slia).
      assert (Hy2 : 0 <= y < 2 ^ 32) by slia.
      destruct (piece_block x n y z H0 Ht PC) as [Hi HB].
      pose proof (Z.mul_div_le y 65536 eq_refl) as BL. rewrite Z.mul_comm in BL.
      assert (Hb2 : 0 <= y / 65536 * 65536 < 2 ^ 32) by (unfold idx in Hi; clear -Hi BL Hy2; lia).
      assert (Ei : y / 65536 * 65536 / 65536 = y / 65536) by (apply Z.div_mul; clear; lia).
      pose proof (piece_geo m st x n y z R PC) as G. pose proof G as [G1 G2 G3 G4 G5 G6].
      destruct (piece_den m x n y z R PC) as [PD1 PD2].
      pose proof (slot_mono (sc m) x y Hy) as M1.
      destruct (xl_off m Hm st A V y I Hy2) as (_ & _ & E).
      assert (PB : forall k, slot (sc m) y <= k < slot (sc m) z -> y / 65536 * SL <= k /\ off m (k - y / 65536 * SL)).
      { clear -G1 G3 G4 G5. unfold off. intros k X. remember (y / 65536 * SL) as u. remember (slot (sc m) (y mod 65536)) as o. clear Heqo. lia. }
      remember (slot (sc m) (y mod 65536)) as o eqn:Eo.
      assert (GROW : A (y / 65536) -> (forall k, slot (sc m) y <= k < slot (sc m) z -> V k <> v) -> P z tt).
      { intros Ay N. unfold P. split; [slia|]. split; [apply (ok_all_grow A x n y z); assumption|].
        unfold within in *. intros k Q'. destruct (Z.lt_ge_cases k (slot (sc m) y)); [apply NF; slia|apply N; slia]. }
      assert (ZP : slot (sc m) y < slot (sc m) z).
      { pose proof (slot_back y PD1) as SB1. pose proof (slot_back z PD2) as SB2.
        pose proof (slot_mono (sc m) y z ltac:(slia)) as M9.
        destruct (Z.eq_dec (slot (sc m) y) (slot (sc m) z)) as [E9|E9]; [|slia]. rewrite E9, SB2 in SB1. slia. }
      unfold use_default, use_special.
      destruct (kind_eq m Hm st A V _ I Hb2) as ([|w|] & K & KT); rewrite Ei in *.
      * destruct KT as (-> & _). cbn [holds fst snd]. unfold Q. destruct K as (NA & _). auto.
      * destruct KT as (-> & w' & -> & S). destruct K as (Ay & _).
        pose proof (special_values m st A V _ w' I Hi S) as SV.
        assert (SV2 : forall k, slot (sc m) y <= k < slot (sc m) z -> V k = w').
        { intros k X. destruct (PB k X) as [P1 P2]. replace k with (y / 65536 * SL + (k - y / 65536 * SL)) by ring. apply SV. exact P2. }
        cbn [holds fst snd]. destruct (Z.eqb_spec w' v) as [->|NE].
        { unfold Q. do 3 (split; [assumption|]). split; [reflexivity|]. split; [exact Ay|].
          exists z, (slot (sc m) y). split; [exact PC|]. split; [slia|]. split; [apply SV2; slia|].
          split; [intros; slia|]. symmetry. apply slot_back. exact PD1. }
        { apply GROW; [exact Ay|]. intros k X. rewrite SV2 by exact X. exact NE. }
      * destruct KT as (-> & ->). destruct K as (Ay & _).
        rewrite E, G6.
        unfold m_chr. rewrite (can_read m Hm st A V I _ _ _ Hi G1 G2 G3). cbn [obind holds fst snd].
        set (a0 := get_block m st (y / 65536) + o) in *.
        set (k := slot (sc m) z - slot (sc m) y) in *. rewrite (Z.mod_small v 256) by slia.
        assert (MV : forall i, 0 <= i < k -> smem st (a0 + i) = V (slot (sc m) y + i)).
        { intros i X. unfold a0. rewrite <- Z.add_assoc, (i_val _ _ _ _ I) by (assumption || (unfold off; slia)).
          f_equal. rewrite <- G4. ring. }
        pose proof (chr_ok (Z.to_nat k) (smem st) a0 v) as CH.
        destruct (chr_loop _ _ _ _) as [b|].
        { destruct CH as (B1 & B2 & B3). unfold Q. do 3 (split; [assumption|]). split; [reflexivity|]. split; [exact Ay|].
          exists z, (slot (sc m) y + (b - a0)). split; [exact PC|]. split; [slia|].
          split; [rewrite <- MV by slia; replace (a0 + (b - a0)) with b by slia; exact B2|].
          split.
          - intros j X. replace j with (slot (sc m) y + (j - slot (sc m) y)) by slia. rewrite <- MV by slia.
            apply B3. slia.
          - assert (QL : (b - a0) * den (sc m) <= 131072).
            { assert (L1 : b - a0 <= SL) by slia.
              assert (L2 : SL * den (sc m) <= 131072) by (destruct (sc m); vm_compute; congruence).
              destruct (numden (sc m)) as [_ L3]. clear -L1 L2 L3. nia. }
            rewrite <- to_app_back by (exact PD1 || slia). apply w32_small. rewrite to_app_back by (exact PD1 || slia).
            pose proof (slot_lt_back z (slot (sc m) y + (b - a0)) PD2 ltac:(slia)) as LB.
            pose proof (slot_mono (sc m) 0 y ltac:(slia)) as M0. rewrite slot_0 in M0.
            split; [|clear -LB Pyz Ht; lia]. apply Z.div_pos; [|apply numden].
            apply Z.mul_nonneg_nonneg; [slia|destruct (numden (sc m)); slia]. }
        { apply GROW; [exact Ay|]. intros j X.
          replace j with (slot (sc m) y + (j - slot (sc m) y)) by slia. rewrite <- MV by slia. apply CH. slia. }
    + unfold P. split; [slia|]. split; [intros t T; slia|]. unfold within. intros; slia.
  - intros (u, [(e, [a|])|]) H; cbn [fst snd] in H; cbn [holds fst snd].
    + destruct H as (y & Hy & _ & OA & NF & -> & Ay & z & k & PC & K1 & K2 & K3 & ->).
      destruct (reach_exists st A V x n I H0 ltac:(slia) Ht) as (e & RE). exists e. split; [exact RE|].
      split; [reflexivity|].
      assert (Lz : z <= e).
      { destruct RE as (R1 & _ & R3). destruct (Z.lt_ge_cases e z) as [L|]; [exfalso|slia].
        apply R3; [destruct PC; slia|]. apply (ok_all_grow A x n y z H0 Ht PC OA Ay). slia. }
      exists k. pose proof (slot_mono (sc m) z e Lz). pose proof (slot_mono (sc m) x y ltac:(slia)). unfold within in *.
      split; [slia|]. split; [exact K2|]. split; [|reflexivity].
      intros j X. destruct (Z.lt_ge_cases j (slot (sc m) y)); [apply NF; slia|apply K3; slia].
    + destruct H as (y & Hy & _ & OA & NF & -> & NA). exists y.
      split; [split; [slia|split; [exact OA|auto]]|]. split; [right; split; [reflexivity|slia]|exact NF].
    + destruct H as (Hy & OA & NF). exists (x + n). split; [split; [slia|split; [exact OA|slia]]|].
      split; [left; auto|exact NF].
Qed.
End Ops.
