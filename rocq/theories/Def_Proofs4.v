(** Shuffles, byte shifts, extracts, inserts and half moves. *)
From Verif Require Import Base Def_Model Def_Spec Def_Proofs Def_Proofs2 Def_Proofs3.
Open Scope Z_scope.

Local Notation U := UNDEFINED.

Lemma nth3 {A} (a b c : A) k x : nth_error [a; b; c] k = Some x ->
  (k = 0%nat /\ x = a) \/ (k = 1%nat /\ x = b) \/ (k = 2%nat /\ x = c).
Proof.
  destruct k as [|[|[|k]]]; cbn; intros H.
  - injection H as <-. now left.
  - injection H as <-. right. now left.
  - injection H as <-. right. now right.
  - destruct k; discriminate.
Qed.

Lemma goes_ok' i o n k b y : goes i o n k b y ->
  match y with Some y => 0 <= y < ARRAY_LEN | None => True end ->
  forall s c, exists c1, map_src_to_dst i o n k b s c = Ok c1.
Proof. intros H1 H2 s c. now apply (goes_ok i o n k b y). Qed.

(** ** Shuffles *)

Lemma maybe_inv (p : bool) c y s c1 :
  (if p then accum c y s else Ok c) = Ok c1 ->
  forall x, c_dst c1 x = if p && (x =? y) then combine (c_dst c y) s else c_dst c x.
Proof.
  destruct p; intros H x.
  - apply accum_inv in H. destruct H as (_ & _ & H). exact (H x).
  - injection H as <-. reflexivity.
Qed.

Lemma maybe_ok (p : bool) c y s : 0 <= y < ARRAY_LEN ->
  exists c1, (if p then accum c y s else Ok c) = Ok c1.
Proof. intros H. destruct p; [now apply accum_ok|now eexists]. Qed.

Definition goes2 (i : instr) (o : operand) (n k b : Z) (p q : bool) (y z : Z) : Prop :=
  gpr_shift (i_opc i) = false /\
  forall s c, map_switch i o n k b s c =
    let* c := (let* c := if p then accum c y s else Ok c in
               if q then accum c z s else Ok c) in Ok (false, c).

Lemma goes2_ok i o n k b p q y z s c :
  goes2 i o n k b p q y z -> 0 <= y < ARRAY_LEN -> 0 <= z < ARRAY_LEN ->
  exists c1, map_src_to_dst i o n k b s c = Ok c1.
Proof.
  intros [Hg H] Hy Hz. unfold map_src_to_dst. rewrite Hg. cbn [bind]. rewrite H.
  destruct (maybe_ok p c y s Hy) as [c1 E1]. rewrite E1. cbn [bind].
  destruct (maybe_ok q c1 z s Hz) as [c2 E2]. rewrite E2. cbn [bind]. now eexists.
Qed.

Lemma goes2_touches i o n k b p q y z x :
  goes2 i o n k b p q y z -> (p = true /\ x = y) \/ (q = true /\ x = z) ->
  touches i o n k b x.
Proof.
  intros [Hg H] Hx s c0 c1 HM. unfold map_src_to_dst in HM. rewrite Hg in HM.
  cbn [bind] in HM. rewrite H in HM. apply bind_inv in HM. destruct HM as ([r c2] & E & HM).
  apply bind_inv in E. destruct E as (c3 & E & E'). injection E' as <- <-.
  apply bind_inv in E. destruct E as (c4 & E1 & E2).
  pose proof (maybe_inv _ _ _ _ _ E1 x) as F1. pose proof (maybe_inv _ _ _ _ _ E2 x) as F2.
  assert (HE : c_dst c1 x = c_dst c3 x).
  { injection HM as <-. now destruct (i_wflags i). }
  rewrite HE, F2. destruct Hx as [[-> ->]|[-> ->]].
  - rewrite Z.eqb_refl in F1. cbn [andb] in F1.
    destruct (q && (y =? z)) eqn:Eq.
    + apply andb_true_iff in Eq. destruct Eq as [_ Eq]. apply Z.eqb_eq in Eq. subst z.
      split; [apply combine_B|]. intros ->. apply combine_U. now right.
    + rewrite F1. split; [apply combine_B|]. intros ->. apply combine_U. now right.
  - rewrite Z.eqb_refl. cbn [andb]. split; [apply combine_B|].
    intros ->. apply combine_U. now right.
Qed.

Lemma shuffle_ps_ok leave x64 i f a im b d imm :
  simple i -> i_opc i = Op_shufps -> i_val i = Some imm -> 0 <= imm < 256 ->
  i_srcs i = [a; im; b] -> constant im -> real a -> real b -> o_size a = 16 -> o_size b = 16 ->
  one_dest i d -> d_size d = 16 ->
  no_laundering leave x64 i f (shuffle_ps imm).
Proof.
  intros Hi Ho Hv Him Hs Ci Ra Rb Sa Sb HD Sd.
  assert (Hfs : forall o, fed_size i o = o_size o) by (intros; unfold fed_size; now rewrite Ho).
  assert (Hw : width i d = 16) by (unfold width; now rewrite Ho).
  assert (G0 : forall b, 0 <= b < 16 -> goes2 i a 16 0 b
            (imm / 16 mod 4 =? b / 4) (imm / 64 mod 4 =? b / 4) (8 + b mod 4) (12 + b mod 4)).
  { intros b' Hb. split; [now rewrite Ho|]. intros s c. opc Ho. rewrite Hv.
    rewrite (Z.mod_small b' 16) by lia. replace (16 <=? b') with false by lia.
    cbn [Z.eqb Z.add]. reflexivity. }
  assert (G1 : forall b', 0 <= b' < 16 -> goes2 i b 16 2 b'
            (imm mod 4 =? b' / 4) (imm / 4 mod 4 =? b' / 4) (b' mod 4) (4 + b' mod 4)).
  { intros b' Hb. split; [now rewrite Ho|]. intros s c. opc Ho. rewrite Hv.
    rewrite (Z.mod_small b' 16) by lia. replace (16 <=? b') with false by lia.
    cbn [Z.eqb Z.add]. reflexivity. }
  apply (one leave x64 i f d); try assumption.
  - now rewrite Hs.
  - now rewrite Ho.
  - rewrite Hs. intros k o b' s c0 Hk Hi' Hb. rewrite Hfs in *.
    apply nth3 in Hk. destruct Hk as [[-> ->]|[[-> ->]|[-> ->]]].
    + rewrite Sa in *. eapply goes2_ok; [apply (G0 b' Hb)| |];
        unfold ARRAY_LEN; Z.div_mod_to_equations; lia.
    + unfold constant in Ci. congruence.
    + rewrite Sb in *. eapply goes2_ok; [apply (G1 b' Hb)| |];
        unfold ARRAY_LEN; Z.div_mod_to_equations; lia.
  - rewrite Hw. intros t Ht.
    assert (Hp : forall p, 0 <= imm / p mod 4 * 4 + t mod 4 < 16 /\
              (imm / p mod 4 * 4 + t mod 4) / 4 = imm / p mod 4 /\
              (imm / p mod 4 * 4 + t mod 4) mod 4 = t mod 4).
    { intros p. generalize (imm / p). clear. intros q. Z.div_mod_to_equations. lia. }
    assert (Hm : t = t / 4 * 4 + t mod 4 /\ 0 <= t mod 4 < 4 /\ 0 <= t / 4 < 4).
    { clear - Ht. Z.div_mod_to_equations. lia. }
    assert (K : forall p, (p = 16 /\ 8 <= t < 12) \/ (p = 64 /\ 12 <= t) ->
      origin i d (shuffle_ps imm) t).
    { intros p HP. destruct (Hp p) as (P1 & P2 & P3).
      apply From with (k := 0%nat) (o := a) (b := imm / p mod 4 * 4 + t mod 4); try assumption.
      - now rewrite Hs.
      - now rewrite Hfs, Sa.
      - rewrite Hfs, Sa. eapply goes2_touches; [exact (G0 _ P1)|]. rewrite P2, P3.
        destruct HP as [[-> HP]|[-> HP]]; [left|right]; split; try apply Z.eqb_refl; lia.
      - intros. unfold shuffle_ps. cbv zeta.
        destruct HP as [[-> HP]|[-> HP]];
        replace (t <? 4) with false by lia; replace (t <? 8) with false by lia;
        [replace (t <? 12) with true by lia|replace (t <? 12) with false by lia]; reflexivity. }
    assert (K' : forall p, (p = 1 /\ t < 4) \/ (p = 4 /\ 4 <= t < 8) ->
      origin i d (shuffle_ps imm) t).
    { intros p HP. destruct (Hp p) as (P1 & P2 & P3).
      apply From with (k := 2%nat) (o := b) (b := imm / p mod 4 * 4 + t mod 4); try assumption.
      - now rewrite Hs.
      - now rewrite Hfs, Sb.
      - rewrite Hfs, Sb. eapply goes2_touches; [exact (G1 _ P1)|]. rewrite P2, P3.
        destruct HP as [[-> HP]|[-> HP]]; [left|right]; split;
          rewrite ?Z.div_1_r; try apply Z.eqb_refl; lia.
      - intros. unfold shuffle_ps. cbv zeta.
        destruct HP as [[-> HP]|[-> HP]];
        [replace (t <? 4) with true by lia|replace (t <? 4) with false by lia;
         replace (t <? 8) with true by lia]; reflexivity. }
    destruct (Z_lt_dec t 4); [apply (K' 1); lia|].
    destruct (Z_lt_dec t 8); [apply (K' 4); lia|].
    destruct (Z_lt_dec t 12); [apply (K 16); lia|apply (K 64); lia].
Qed.

Lemma shuffle_pd_ok leave x64 i f a im b d :
  simple i -> i_opc i = Op_shufpd -> i_val i = Some 0 ->
  i_srcs i = [a; im; b] -> constant im -> real a -> real b -> o_size a = 16 -> o_size b = 16 ->
  one_dest i d -> d_size d = 16 ->
  no_laundering leave x64 i f (shuffle_pd 0).
Proof.
  intros Hi Ho Hv Hs Ci Ra Rb Sa Sb HD Sd.
  assert (Hfs : forall o, fed_size i o = o_size o) by (intros; unfold fed_size; now rewrite Ho).
  assert (Hw : width i d = 16) by (unfold width; now rewrite Ho).
  assert (G : forall o k b, 0 <= b < 16 -> goes i o 16 k b
     (if b <? 8 then Some (if k =? 0 then 8 + b else b) else None)).
  { intros o k b' Hb. destruct (b' <? 8) eqn:E.
    - apply goes_at; [now rewrite Ho|]. intros s c. opc Ho. rewrite Hv.
      rewrite (Z.mod_small b' 16) by lia. rewrite (Z.div_small b' 8) by lia.
      rewrite (Z.mod_small b' 8) by lia. replace (16 <=? b') with false by lia. reflexivity.
    - apply goes_none; [now rewrite Ho|]. intros s c. opc Ho. rewrite Hv.
      rewrite (Z.mod_small b' 16) by lia.
      replace (b' / 8) with 1 by (Z.div_mod_to_equations; lia). reflexivity. }
  apply (one leave x64 i f d); try assumption.
  - now rewrite Hs.
  - now rewrite Ho.
  - rewrite Hs. intros k o b' s c0 Hk Hi' Hb. rewrite Hfs in *.
    assert (So : o_size o = 16).
    { apply nth3 in Hk. destruct Hk as [[-> ->]|[[-> ->]|[-> ->]]]; try assumption.
      unfold constant in Ci. congruence. }
    rewrite So in *. eapply goes_ok'; [now apply G|].
    destruct (b' <? 8) eqn:E; [|exact I]. unfold ARRAY_LEN.
    destruct (Z.of_nat k =? 0); lia.
  - rewrite Hw. intros t Ht. destruct (t <? 8) eqn:E.
    + apply From with (k := 2%nat) (o := b) (b := t); try assumption.
      * now rewrite Hs.
      * rewrite Hfs. lia.
      * rewrite Hfs, Sb. apply goes_touches. pose proof (G b (Z.of_nat 2) t Ht) as H.
        rewrite E in H. exact H.
      * intros. unfold shuffle_pd. rewrite E. reflexivity.
    + apply From with (k := 0%nat) (o := a) (b := t - 8); try assumption.
      * now rewrite Hs.
      * rewrite Hfs. lia.
      * rewrite Hfs, Sa. apply goes_touches.
        assert (Ht' : 0 <= t - 8 < 16) by lia.
        pose proof (G a (Z.of_nat 0) (t - 8) Ht') as H.
        replace (t - 8 <? 8) with true in H by lia. cbn [Z.of_nat Z.eqb] in H.
        replace (8 + (t - 8)) with t in H by lia. exact H.
      * intros. unfold shuffle_pd. rewrite E. reflexivity.
Qed.

(** ** Shifts by bytes *)

Lemma byte_shift_ok leave x64 i f a im d n c data :
  simple i -> i_opc i = Op_psrldq \/ i_opc i = Op_pslldq -> i_val i = Some c -> 0 <= c ->
  (data = 0 /\ i_srcs i = [a; im]) \/ (data = 1 /\ i_srcs i = [im; a]) ->
  constant im -> real a -> o_size a = n -> one_dest i d -> d_size d = n ->
  no_laundering leave x64 i f
    match i_opc i with
    | Op_psrldq => shift_bytes_right data n c
    | _ => shift_bytes_left data n c
    end.
Proof.
  intros Hi Ho Hv Hc Hs Ci Ra Sa HD Sd.
  assert (Hl : subreg_nonlow (i_opc i) = false) by (destruct Ho as [Ho|Ho]; now rewrite Ho).
  assert (Hfs : forall o, fed_size i o = o_size o) by (intros; unfold fed_size; now rewrite Hl).
  assert (Hw : width i d = n) by (unfold width; now rewrite Hl).
  pose proof HD as [_ (W1 & W2 & _)]. rewrite Hw in W2.
  assert (Hne : i_srcs i <> nil) by (destruct Hs as [[_ Hs]|[_ Hs]]; rewrite Hs; discriminate).
  assert (Hk : exists k, nth_error (i_srcs i) k = Some a /\ Z.of_nat k = data).
  { destruct Hs as [[-> Hs]|[-> Hs]]; [exists 0%nat|exists 1%nat]; rewrite Hs; now split. }
  assert (Hall : forall k o, nth_error (i_srcs i) k = Some o -> o_imm o = false -> o = a).
  { intros k o Hk' Hi'. unfold constant in Ci.
    destruct Hs as [[_ Hs]|[_ Hs]]; rewrite Hs in Hk'; apply nth2 in Hk';
    destruct Hk' as [[_ ->]|[_ ->]]; congruence. }
  destruct Hk as (kd & Hkd & <-). clear Hs.
  destruct Ho as [Ho|Ho].
  - assert (G : forall k b, 0 <= b < n -> goes i a n k b
       (if Z.min c n <=? b then Some (b - Z.min c n) else None)).
    { intros k b Hb. destruct (Z.min c n <=? b) eqn:E.
      - apply goes_at; [now rewrite Ho|]. intros s c'. opc Ho. rewrite Hv.
        replace (if n <? c then n else c) with (Z.min c n)
          by (destruct (n <? c) eqn:E2; lia). rewrite E. reflexivity.
      - apply goes_none; [now rewrite Ho|]. intros s c'. opc Ho. rewrite Hv.
        replace (if n <? c then n else c) with (Z.min c n)
          by (destruct (n <? c) eqn:E2; lia). rewrite E. reflexivity. }
    apply (one leave x64 i f d); try assumption.
    + now rewrite Ho.
    + intros k o b s c0 Hk Hi' Hb. rewrite (Hall k o Hk Hi') in *. rewrite Hfs, Sa in *.
      eapply goes_ok'; [now apply G|].
      destruct (Z.min c n <=? b) eqn:E; [|exact I]. unfold ARRAY_LEN. lia.
    + rewrite Hw, Ho. intros t Ht. destruct (t + c <? n) eqn:E.
      * apply From with (k := kd) (o := a) (b := t + c); try assumption.
        -- rewrite Hfs. lia.
        -- rewrite Hfs, Sa. apply goes_touches.
           assert (Ht' : 0 <= t + c < n) by lia.
           pose proof (G (Z.of_nat kd) (t + c) Ht') as H.
           replace (Z.min c n <=? t + c) with true in H by lia.
           replace (t + c - Z.min c n) with t in H by lia. exact H.
        -- intros. unfold shift_bytes_right. now rewrite E.
      * apply Const with (z := 0). intros. unfold shift_bytes_right. now rewrite E.
  - assert (G : forall k b, 0 <= b < n -> goes i a n k b
       (if b + Z.min c n <? n then Some (b + Z.min c n) else None)).
    { intros k b Hb. destruct (b + Z.min c n <? n) eqn:E.
      - apply goes_at; [now rewrite Ho|]. intros s c'. opc Ho. rewrite Hv.
        replace (if n <? c then n else c) with (Z.min c n)
          by (destruct (n <? c) eqn:E2; lia). rewrite E. reflexivity.
      - apply goes_none; [now rewrite Ho|]. intros s c'. opc Ho. rewrite Hv.
        replace (if n <? c then n else c) with (Z.min c n)
          by (destruct (n <? c) eqn:E2; lia). rewrite E. reflexivity. }
    apply (one leave x64 i f d); try assumption.
    + now rewrite Ho.
    + intros k o b s c0 Hk Hi' Hb. rewrite (Hall k o Hk Hi') in *. rewrite Hfs, Sa in *.
      eapply goes_ok'; [now apply G|].
      destruct (b + Z.min c n <? n) eqn:E; [|exact I]. unfold ARRAY_LEN. lia.
    + rewrite Hw, Ho. intros t Ht. destruct (0 <=? t - c) eqn:E.
      * apply From with (k := kd) (o := a) (b := t - c); try assumption.
        -- rewrite Hfs. lia.
        -- rewrite Hfs, Sa. apply goes_touches.
           assert (Ht' : 0 <= t - c < n) by lia.
           pose proof (G (Z.of_nat kd) (t - c) Ht') as H.
           replace (t - c + Z.min c n <? n) with true in H by lia.
           replace (t - c + Z.min c n) with t in H by lia. exact H.
        -- intros. unfold shift_bytes_left. now rewrite E.
      * apply Const with (z := 0). intros. unfold shift_bytes_left. now rewrite E.
Qed.

(** ** Extracts and inserts *)

Lemma lane_w imm w b : 0 < w -> 0 <= b -> in_lane b imm w = (b / w =? imm).
Proof. intros Hw Hb. unfold in_lane. Z.div_mod_to_equations. nia. Qed.

Lemma extract_goes i o n k b w imm :
  extracted (i_opc i) = Some w -> i_val i = Some imm -> 0 <= b ->
  goes i o n k b (if b / w =? imm then Some (b mod w) else None).
Proof.
  intros Hu Hv Hb.
  destruct (i_opc i) eqn:Ho; try discriminate Hu; injection Hu as <-.
  - rewrite Z.div_1_r, Z.mod_1_r. destruct (b =? imm) eqn:E;
    [apply goes_at|apply goes_none]; try (now rewrite Ho); intros s c; opc Ho;
    rewrite Hv, E; reflexivity.
  - rewrite <- lane_w by lia. destruct (in_lane b imm 2) eqn:E;
    [apply goes_at|apply goes_none]; try (now rewrite Ho); intros s c; opc Ho;
    rewrite Hv, E; reflexivity.
  - rewrite <- lane_w by lia. destruct (in_lane b imm 4) eqn:E;
    [apply goes_at|apply goes_none]; try (now rewrite Ho); intros s c; opc Ho;
    rewrite Hv, E; reflexivity.
Qed.

Lemma extract_ok leave x64 i f a im d w imm :
  simple i -> extracted (i_opc i) = Some w -> i_val i = Some imm ->
  0 <= imm -> (imm + 1) * w <= o_regsize a ->
  i_srcs i = [a; im] -> constant im -> real a -> o_mem a = false ->
  one_dest i d ->
  no_laundering leave x64 i f (extract w imm).
Proof.
  intros Hi Hu Hv Him Hr Hs Ci Ra Ma HD.
  assert (Hw : w = 1 \/ w = 2 \/ w = 4)
    by (destruct (i_opc i); try discriminate Hu; injection Hu as <-; lia).
  assert (Hfs : fed_size i a = o_regsize a).
  { unfold fed_size. rewrite Ma. destruct (i_opc i); try discriminate Hu; reflexivity. }
  apply (one leave x64 i f d); try assumption.
  - now rewrite Hs.
  - destruct (i_opc i); try discriminate Hu; reflexivity.
  - rewrite Hs. intros k o b s c0 Hk Hi' Hb.
    eapply goes_ok'; [apply (extract_goes i o _ _ b w imm); try assumption; lia|].
    destruct (b / w =? imm); [|exact I]. unfold ARRAY_LEN.
    pose proof (Z.mod_pos_bound b w). lia.
  - intros t Ht. destruct (t <? w) eqn:E.
    + apply From with (k := 0%nat) (o := a) (b := imm * w + t); try assumption.
      * now rewrite Hs.
      * rewrite Hfs. nia.
      * rewrite Hfs. apply goes_touches.
        pose proof (extract_goes i a (o_regsize a) (Z.of_nat 0) (imm * w + t) w imm Hu Hv) as H.
        assert (H1 : 0 <= imm * w + t) by nia. specialize (H H1).
        replace ((imm * w + t) / w) with imm in H
          by (rewrite Z.div_add_l by lia; rewrite (Z.div_small t w); lia).
        rewrite Z.eqb_refl in H.
        rewrite Z.add_comm, Z.mod_add, Z.mod_small in H by lia.
        rewrite Z.add_comm in H. exact H.
      * intros. unfold extract. now rewrite E.
    + apply Const with (z := 0). intros. unfold extract. now rewrite E.
Qed.

(** pinsrd passes every byte of its source on. *)
Lemma insert_goes i o n k b w imm :
  inserted (i_opc i) = Some w -> i_val i = Some imm -> 0 <= b ->
  exists y, goes i o n k b y /\
    (b < w -> y = Some (imm * w + b)) /\
    (forall x, y = Some x -> imm * w <= x < imm * w + w).
Proof.
  intros Hu Hv Hb.
  destruct (i_opc i) eqn:Ho; try discriminate Hu; injection Hu as <-.
  - exists (if b =? 0 then Some imm else None). destruct (b =? 0) eqn:E.
    + split; [|split; [intros _; f_equal; lia|intros x Hx; injection Hx as <-; lia]].
      apply goes_at; [now rewrite Ho|]. intros s c. opc Ho. now rewrite Hv, E.
    + split; [|split; [lia|intros x Hx; discriminate Hx]].
      apply goes_none; [now rewrite Ho|]. intros s c. opc Ho. now rewrite Hv, E.
  - exists (if b <? 2 then Some (imm * 2 + b mod 2) else None). destruct (b <? 2) eqn:E.
    + rewrite Z.mod_small by lia.
      split; [|split; [reflexivity|intros x Hx; injection Hx as <-; lia]].
      apply goes_at; [now rewrite Ho|]. intros s c. opc Ho.
      rewrite Hv, E, Z.mod_small by lia. reflexivity.
    + split; [|split; [lia|intros x Hx; discriminate Hx]].
      apply goes_none; [now rewrite Ho|]. intros s c. opc Ho. now rewrite Hv, E.
  - exists (Some (imm * 4 + b mod 4)).
    split; [|split; [intros H; rewrite Z.mod_small by lia; reflexivity|
                     intros x Hx; injection Hx as <-; pose proof (Z.mod_pos_bound b 4); lia]].
    apply goes_at; [now rewrite Ho|]. intros s c. opc Ho. now rewrite Hv.
Qed.

Lemma insert_ok leave x64 i f a im d w imm :
  simple i -> inserted (i_opc i) = Some w -> i_val i = Some imm ->
  0 <= imm -> (imm + 1) * w <= d_regsize d ->
  i_srcs i = [a; im] -> constant im -> real a ->
  w <= (if o_mem a then o_size a else o_regsize a) ->
  i_dsts i = [d] -> part_of_reg d ->
  no_laundering leave x64 i f (insert w imm).
Proof.
  intros Hi Hu Hv Him Hr Hs Ci Ra Sa Hd Pd.
  assert (Hw : w = 1 \/ w = 2 \/ w = 4)
    by (destruct (i_opc i); try discriminate Hu; injection Hu as <-; lia).
  assert (Hl : subreg_nonlow (i_opc i) = true)
    by (destruct (i_opc i); try discriminate Hu; reflexivity).
  assert (Hfs : w <= fed_size i a).
  { unfold fed_size. rewrite Hl. destruct (o_mem a); exact Sa. }
  pose proof Pd as (P1 & P2 & P3 & P4 & P5).
  assert (Hwd : width i d = d_regsize d) by (unfold width; rewrite Hl, P1; reflexivity).
  apply (one leave x64 i f d); try assumption.
  - now rewrite Hs.
  - split; [exact Hd|]. unfold wf_dest. rewrite Hwd. lia.
  - destruct (i_opc i); try discriminate Hu; reflexivity.
  - intros k o b s c0 Hk Hi' Hb.
    destruct (insert_goes i o (fed_size i o) (Z.of_nat k) b w imm Hu Hv) as (y & G & _ & Y); [lia|].
    eapply goes_ok'; [exact G|]. destruct y as [y|]; [|exact I].
    specialize (Y y eq_refl). unfold ARRAY_LEN. nia.
  - rewrite Hwd. intros t Ht.
    destruct ((imm * w <=? t) && (t <? imm * w + w)) eqn:E.
    + apply From with (k := 0%nat) (o := a) (b := t - imm * w); try assumption.
      * now rewrite Hs.
      * lia.
      * apply goes_touches.
        destruct (insert_goes i a (fed_size i a) (Z.of_nat 0) (t - imm * w) w imm Hu Hv)
          as (y & G & Y & _); [lia|].
        rewrite Y in G by lia. replace (imm * w + (t - imm * w)) with t in G by lia. exact G.
      * intros. unfold insert. now rewrite E.
    + apply Old; try assumption.
      * intros. unfold insert. now rewrite E.
      * intros k o b Hk Hi' Hb.
        destruct (insert_goes i o (fed_size i o) (Z.of_nat k) b w imm Hu Hv) as (y & G & _ & Y); [lia|].
        apply (goes_spares _ _ _ _ _ y); [exact G|]. intros ->. specialize (Y t eq_refl). lia.
Qed.

Lemma insert3_goes0 i o n b w imm :
  inserted3 (i_opc i) = Some w -> i_val i = Some imm -> 0 <= b ->
  goes i o n 0 b (if b / w =? imm then None else Some b).
Proof.
  intros Hu Hv Hb.
  destruct (i_opc i) eqn:Ho; try discriminate Hu; injection Hu as <-.
  - rewrite Z.div_1_r. destruct (b =? imm) eqn:E;
    [apply goes_none|apply goes_at]; try (now rewrite Ho); intros s c; opc Ho;
    rewrite Hv, E; reflexivity.
  - rewrite <- lane_w by lia. destruct (in_lane b imm 2) eqn:E;
    [apply goes_none|apply goes_at]; try (now rewrite Ho); intros s c; opc Ho;
    rewrite Hv, E; reflexivity.
  - rewrite <- lane_w by lia. destruct (in_lane b imm 4) eqn:E;
    [apply goes_none|apply goes_at]; try (now rewrite Ho); intros s c; opc Ho;
    rewrite Hv, E; reflexivity.
Qed.

Lemma insert3_goes1 i o n b w imm :
  inserted3 (i_opc i) = Some w -> i_val i = Some imm -> 0 <= b ->
  exists y, goes i o n 1 b y /\
    (b < w -> y = Some (imm * w + b)) /\
    (forall x, y = Some x -> imm * w <= x < imm * w + w).
Proof.
  intros Hu Hv Hb.
  destruct (i_opc i) eqn:Ho; try discriminate Hu; injection Hu as <-.
  - exists (if b =? 0 then Some imm else None). destruct (b =? 0) eqn:E.
    + split; [|split; [intros _; f_equal; lia|intros x Hx; injection Hx as <-; lia]].
      apply goes_at; [now rewrite Ho|]. intros s c. opc Ho. now rewrite Hv, E.
    + split; [|split; [lia|intros x Hx; discriminate Hx]].
      apply goes_none; [now rewrite Ho|]. intros s c. opc Ho. now rewrite Hv, E.
  - exists (if b <? 2 then Some (imm * 2 + b mod 2) else None). destruct (b <? 2) eqn:E.
    + rewrite Z.mod_small by lia.
      split; [|split; [reflexivity|intros x Hx; injection Hx as <-; lia]].
      apply goes_at; [now rewrite Ho|]. intros s c. opc Ho.
      rewrite Hv, E, Z.mod_small by lia. reflexivity.
    + split; [|split; [lia|intros x Hx; discriminate Hx]].
      apply goes_none; [now rewrite Ho|]. intros s c. opc Ho. now rewrite Hv, E.
  - exists (Some (imm * 4 + b mod 4)).
    split; [|split; [intros H; rewrite Z.mod_small by lia; reflexivity|
                     intros x Hx; injection Hx as <-; pose proof (Z.mod_pos_bound b 4); lia]].
    apply goes_at; [now rewrite Ho|]. intros s c. opc Ho. now rewrite Hv.
Qed.

Lemma insert3_ok leave x64 i f h a im d w imm :
  simple i -> inserted3 (i_opc i) = Some w -> i_val i = Some imm ->
  0 <= imm -> (imm + 1) * w <= 16 ->
  i_srcs i = [h; a; im] -> constant im -> real h -> real a ->
  o_mem h = false -> o_regsize h = 16 ->
  w <= (if o_mem a then o_size a else o_regsize a) ->
  one_dest i d -> width i d = 16 ->
  no_laundering leave x64 i f (insert3 w imm).
Proof.
  intros Hi Hu Hv Him Hr Hs Ci Rh Ra Mh Sh Sa HD Hwd.
  assert (Hw : w = 1 \/ w = 2 \/ w = 4)
    by (destruct (i_opc i); try discriminate Hu; injection Hu as <-; lia).
  assert (Hl : subreg_nonlow (i_opc i) = true)
    by (destruct (i_opc i); try discriminate Hu; reflexivity).
  assert (Hfa : w <= fed_size i a).
  { unfold fed_size. rewrite Hl. destruct (o_mem a); exact Sa. }
  assert (Hfh : fed_size i h = 16) by (unfold fed_size; rewrite Hl, Mh; exact Sh).
  apply (one leave x64 i f d); try assumption.
  - now rewrite Hs.
  - destruct (i_opc i); try discriminate Hu; reflexivity.
  - rewrite Hs. intros k o b s c0 Hk Hi' Hb. apply nth3 in Hk.
    destruct Hk as [[-> ->]|[[-> ->]|[-> ->]]].
    + eapply goes_ok'; [apply (insert3_goes0 i h _ b w imm Hu Hv); lia|].
      destruct (b / w =? imm); [exact I|]. unfold ARRAY_LEN. lia.
    + destruct (insert3_goes1 i a (fed_size i a) b w imm Hu Hv) as (y & G & _ & Y); [lia|].
      eapply goes_ok'; [exact G|]. destruct y as [y|]; [|exact I].
      specialize (Y y eq_refl). unfold ARRAY_LEN. nia.
    + unfold constant in Ci. congruence.
  - rewrite Hwd. intros t Ht.
    destruct ((imm * w <=? t) && (t <? imm * w + w)) eqn:E.
    + apply From with (k := 1%nat) (o := a) (b := t - imm * w); try assumption.
      * now rewrite Hs.
      * lia.
      * apply goes_touches.
        destruct (insert3_goes1 i a (fed_size i a) (t - imm * w) w imm Hu Hv)
          as (y & G & Y & _); [lia|].
        rewrite Y in G by lia. replace (imm * w + (t - imm * w)) with t in G by lia. exact G.
      * intros. unfold insert3. now rewrite E.
    + apply From with (k := 0%nat) (o := h) (b := t); try assumption.
      * now rewrite Hs.
      * lia.
      * apply goes_touches.
        pose proof (insert3_goes0 i h (fed_size i h) t w imm Hu Hv) as G.
        assert (H0 : 0 <= t) by lia. specialize (G H0).
        rewrite <- lane_w in G by lia. unfold in_lane in G.
        replace ((imm + 1) * w) with (imm * w + w) in G by lia.
        rewrite E in G. exact G.
      * intros. unfold insert3. now rewrite E.
Qed.
