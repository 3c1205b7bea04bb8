(** Shifts of general registers, their flags, and packed shifts. *)
From Verif Require Import Base Def_Model Def_Spec Def_Proofs Def_Proofs2 Def_Proofs3
  Def_Proofs4 Def_Proofs5.
Open Scope Z_scope.

Local Notation U := UNDEFINED.

Lemma bit_same v w n p :
  (0 <= p < 8 * n -> v (p / 8) = w (p / 8)) -> bit v n p = bit w n p.
Proof.
  intros H. unfold bit. destruct ((0 <=? p) && (p <? 8 * n)) eqn:E; [|reflexivity].
  cbn [andb]. rewrite H; [reflexivity|lia].
Qed.

Lemma byte_of_same g h : (forall t, 0 <= t < 8 -> g t = h t) -> byte_of g = byte_of h.
Proof.
  intros H. unfold byte_of.
  rewrite (H 0), (H 1), (H 2), (H 3), (H 4), (H 5), (H 6), (H 7) by lia. reflexivity.
Qed.

Lemma shift_same o n c v w j :
  is_shift o ->
  (forall t, 0 <= t < 8 -> 0 <= source_bit o n c (8 * j + t) < 8 * n ->
     v (source_bit o n c (8 * j + t) / 8) = w (source_bit o n c (8 * j + t) / 8)) ->
  shift_op o n c v j = shift_op o n c w j.
Proof.
  intros Hs H. unfold shift_op.
  destruct Hs as [->|[->| ->]]; cbn [source_bit] in H;
    unfold shl, shr, sar; apply byte_of_same; intros t Ht; apply bit_same; intros Hp;
    apply (H t Ht Hp).
Qed.

Lemma shift_map i o n k b s c :
  is_shift (i_opc i) ->
  map_src_to_dst i o n k b s c =
  let* (done, c) := map_shift c (i_opc i) (i_val i) b 0 n s in
  if done then Ok c
  else let* (done, c) := map_switch i o n k b s c in
       if done then Ok c else Ok (if i_wflags i then accum_flags c s else c).
Proof. intros [H|[H|H]]; unfold map_src_to_dst; rewrite H; reflexivity. Qed.

Lemma shifted_ok leave x64 i f cn a d n c :
  simple i -> is_shift (i_opc i) -> i_val i = Some c -> 0 <= c -> right_count (i_opc i) n c ->
  i_srcs i = [cn; a] -> constant cn \/ (o_check cn = true /\ leave = false) ->
  real a -> o_size a = n -> one_dest i d -> d_size d = n ->
  no_laundering leave x64 i f (shifted (i_opc i) n c).
Proof.
  intros (Ha & Hc & Hr & Hp) Ho Hv Hc0 Hrc Hs Hcn Ra Sa [Hd W] Sd.
  assert (Hl : subreg_nonlow (i_opc i) = false) by (destruct Ho as [Ho|[Ho|Ho]]; now rewrite Ho).
  assert (Hfs : forall o, fed_size i o = o_size o) by (intros; unfold fed_size; now rewrite Hl).
  assert (Hw : width i d = n) by (unfold width; now rewrite Hl).
  pose proof W as (W1 & W2 & _). rewrite Hw in W2.
  assert (B : base i 0 d = 0).
  { apply base0. destruct Ho as [Ho|[Ho|Ho]]; now rewrite Ho. }
  assert (HF : forall o, fed leave i o -> o <> cn \/ o = a).
  { intros o [HF _]. left. intros ->. rewrite Ha in HF.
    destruct Hcn as [Hcn|[Hcn ->]]; [unfold constant in Hcn|]; rewrite Hcn in HF;
    rewrite ?orb_true_r in HF; discriminate. }
  apply wire; try assumption.
  - now rewrite Hs.
  - rewrite Hd. intros k d' Hk. apply nth1 in Hk. destruct Hk as [-> ->].
    cbn [Z.of_nat]. rewrite B, Hw. split; [exact W|]. unfold ARRAY_LEN. lia.
  - rewrite Hs. intros k o b s c0 Hk HFo Hb.
    assert (o = a).
    { destruct (HF o HFo) as [Hne|]; [|assumption].
      apply nth2 in Hk. destruct Hk as [[_ ->]|[_ ->]]; congruence. }
    subst o. rewrite Hfs, Sa in *. rewrite shift_map by assumption. rewrite Hv.
    destruct (shift_ok c0 (i_opc i) c b 0 n s) as [c1 E]; try assumption; try lia.
    { unfold ARRAY_LEN; lia. }
    rewrite E. now eexists.
  - rewrite Hd. intros c1 HS vs ws old old' fl fl' HA _ k d' j Hk _ Hj HU.
    apply nth1 in Hk. destruct Hk as [-> ->]. cbn [Z.of_nat] in *. rewrite Hw in Hj.
    unfold shifted. apply shift_same; [assumption|]. intros t Ht Hpt.
    set (p := source_bit (i_opc i) n c (8 * j + t)) in *.
    assert (Hpb : 0 <= p / 8 < n) by (Z.div_mod_to_equations; lia).
    apply (same leave x64 i c1 HS 1 a (p / 8) 0 d j vs ws); try assumption.
    + now rewrite Hs.
    + now apply real_fed.
    + rewrite Hfs, Sa. exact Hpb.
    + rewrite Hfs, Sa, B. intros s d0 d1 HM. rewrite shift_map in HM by assumption.
      rewrite Hv in HM. apply bind_inv in HM. destruct HM as ([r d2] & E & HM).
      destruct (shift_touches d0 (i_opc i) c (p / 8) 0 n s r d2 j t) as [-> M];
        try assumption; try reflexivity.
      injection HM as <-. exact M.
Qed.

(** ** Flags *)

(** The byte holding bit [p] is one whose state goes into the flags. *)
Lemma shift_flags_hit o sh b offs n s r c c1 p :
  is_shift o -> 1 <= sh <= 8 * n -> 0 <= b < n -> p / 8 = b ->
  (o = Op_shl -> p <= 8 * n - sh) ->
  map_shift c o (Some sh) b offs n s = Ok (r, c1) -> s = U -> r = true /\ c_eflags c1 = U.
Proof.
  intros Hs Hsh Hb Hp Hpl H HsU. unfold map_shift in H.
  replace (if n * 8 <? sh then n * 8 else sh) with sh in H
    by (destruct (n * 8 <? sh) eqn:E; lia).
  replace (sh =? 0) with false in H by lia. cbv zeta in H.
  assert (FU : forall c, c_eflags (accum_flags c s) = U).
  { intros c0. cbn. apply combine_U. now right. }
  destruct Hs as [->|[->| ->]].
  - specialize (Hpl eq_refl). destruct (n <=? b + sh / 8) eqn:E1.
    + injection H as <- <-. split; [reflexivity|].
      replace (b + sh / 8 =? n) with true; [apply FU|].
      clear - Hpl Hp E1 Hsh Hb. Z.div_mod_to_equations. lia.
    + apply bind_inv in H. destruct H as (c2 & _ & H).
      apply bind_inv in H. destruct H as (c3 & _ & H). injection H as <- <-.
      split; [reflexivity|apply FU].
  - cbn [andb] in H.
    apply bind_inv in H. destruct H as (c2 & _ & H).
    apply bind_inv in H. destruct H as (c3 & _ & H). injection H as <- <-.
    split; [reflexivity|apply FU].
  - cbn [andb] in H. destruct (b =? n - 1).
    + apply bind_inv in H. destruct H as (c2 & _ & H). injection H as <- <-.
      split; [reflexivity|apply FU].
    + apply bind_inv in H. destruct H as (c2 & _ & H).
      apply bind_inv in H. destruct H as (c3 & _ & H). injection H as <- <-.
      split; [reflexivity|apply FU].
Qed.

Lemma shift_flags_ok leave x64 i f cn a n c ds f' :
  simple i -> is_shift (i_opc i) -> i_wflags i = true -> i_val i = Some c ->
  1 <= c <= 8 * n -> i_srcs i = [cn; a] -> real a -> o_size a = n ->
  propagate leave x64 i f = Ok (ds, f') -> f' <> U ->
  forall vs ws, agree_srcs leave i vs ws ->
    carry (i_opc i) n c (vs 1) = carry (i_opc i) n c (ws 1) /\
    forall j, 0 <= j < n ->
      shift_op (i_opc i) n c (vs 1) j = shift_op (i_opc i) n c (ws 1) j.
Proof.
  intros (Ha & Hc & Hr & Hp) Ho Hwf Hv Hc0 Hs Ra Sa HP HU vs ws HA. unfold propagate in HP.
  apply bind_inv in HP. destruct HP as (c1 & H1 & HP).
  apply bind_inv in HP. destruct HP as (c2 & H2 & HP).
  apply bind_inv in HP. destruct HP as (rs & H3 & HP). injection HP as <- <-.
  rewrite Hwf in HU.
  assert (Hl : subreg_nonlow (i_opc i) = false) by (destruct Ho as [Ho|[Ho|Ho]]; now rewrite Ho).
  assert (Hfs : forall o, fed_size i o = o_size o) by (intros; unfold fed_size; now rewrite Hl).
  assert (K : forall p, 0 <= p < 8 * n -> (i_opc i = Op_shl -> p <= 8 * n - c) ->
    vs 1 (p / 8) = ws 1 (p / 8)).
  { intros p Hp0 Hpl. assert (Hpb : 0 <= p / 8 < n) by (Z.div_mod_to_equations; lia).
    apply (HA 1%nat a); [now rewrite Hs|rewrite Hfs, Sa; exact Hpb|].
    right. right. intros Hu. apply HU.
    unfold flags_source in H2. rewrite Hr in H2. cbn in H2. injection H2 as <-.
    eapply (sources_hit (fun c => c_eflags c = U) kept_flags _ _ _ _ _ _ 1%nat a (p / 8) H1).
    - now rewrite Hs.
    - now apply real_fed.
    - rewrite Hfs, Sa. exact Hpb.
    - intros d0 d1 HM. rewrite Hfs, Sa in HM. rewrite shift_map in HM by assumption.
      rewrite Hv in HM. apply bind_inv in HM. destruct HM as ([r d2] & E & HM).
      destruct (shift_flags_hit (i_opc i) c (p / 8) 0 n (o_sh a (p / 8)) r d0 d2 p)
        as [-> M]; try assumption; try reflexivity.
      injection HM as <-. exact M. }
  split.
  - unfold carry. destruct Ho as [Ho|[Ho|Ho]]; rewrite Ho in *; apply bit_same; intros Hq;
      apply K; try assumption; try discriminate; intros; lia.
  - intros j Hj. apply shift_same; [assumption|]. intros t Ht Hq. apply K; [assumption|].
    intros Ho'. rewrite Ho' in *. cbn [source_bit] in *. lia.
Qed.

(** ** Packed shifts *)

Lemma packed_map i o n k b s c op w :
  packed_shift (i_opc i) = Some (op, w) ->
  map_src_to_dst i o n k b s c =
  let* (done, c) := map_packed c op (i_val i) w b s in
  if done then Ok c else Ok (if i_wflags i then accum_flags c s else c).
Proof.
  intros H. unfold map_src_to_dst, map_switch.
  destruct (i_opc i) eqn:Ho; try discriminate H; injection H as <- <-; reflexivity.
Qed.

Lemma packed_ok leave x64 i f cn a d n c op w data :
  simple i -> packed_shift (i_opc i) = Some (op, w) -> i_val i = Some c -> 0 <= c ->
  right_count op w c -> n = 8 \/ n = 16 ->
  (data = 0 /\ i_srcs i = [a; cn]) \/ (data = 1 /\ i_srcs i = [cn; a]) ->
  constant cn \/ o_size cn <= 16 -> real a -> o_size a = n -> one_dest i d -> d_size d = n ->
  no_laundering leave x64 i f (packed op data w c).
Proof.
  intros Hi Hu Hv Hc0 Hrc Hn Hs Hcn Ra Sa HD Sd.
  assert (Hop : is_shift op /\ (w = 2 \/ w = 4 \/ w = 8)).
  { unfold is_shift. destruct (i_opc i); try discriminate Hu; injection Hu as <- <-;
    split; auto; lia. }
  destruct Hop as [Hop Hw].
  assert (Hl : subreg_nonlow (i_opc i) = false)
    by (destruct (i_opc i); try discriminate Hu; reflexivity).
  assert (Hfs : forall o, fed_size i o = o_size o) by (intros; unfold fed_size; now rewrite Hl).
  assert (Hwd : width i d = n) by (unfold width; now rewrite Hl).
  assert (Hne : i_srcs i <> nil) by (destruct Hs as [[_ Hs]|[_ Hs]]; rewrite Hs; discriminate).
  assert (Hk : exists k, nth_error (i_srcs i) k = Some a /\ Z.of_nat k = data).
  { destruct Hs as [[-> Hs]|[-> Hs]]; [exists 0%nat|exists 1%nat]; rewrite Hs; now split. }
  assert (Hall : forall k o, nth_error (i_srcs i) k = Some o -> o_imm o = false -> o_size o <= 16).
  { intros k o Hk' Hi'. unfold constant in Hcn.
    destruct Hs as [[_ Hs]|[_ Hs]]; rewrite Hs in Hk'; apply nth2 in Hk';
    destruct Hk' as [[_ ->]|[_ ->]]; destruct Hcn as [Hcn|Hcn]; try lia; congruence. }
  destruct Hk as (kd & Hkd & <-). clear Hs.
  pose proof Hi as (Ha & Hc & Hr & Hp). pose proof HD as [Hd W].
  assert (B : base i 0 d = 0).
  { apply base0. destruct (i_opc i); try discriminate Hu; reflexivity. }
  apply wire; try assumption.
  - rewrite Hd. intros k d' Hk. apply nth1 in Hk. destruct Hk as [-> ->].
    cbn [Z.of_nat]. rewrite B, Hwd. split; [exact W|]. unfold ARRAY_LEN. lia.
  - intros k o b s c0 Hk [HF _] Hb.
    assert (Hi' : o_imm o = false) by now destruct (o_imm o).
    pose proof (Hall k o Hk Hi') as So. rewrite Hfs in *.
    rewrite (packed_map _ _ _ _ _ _ _ _ _ Hu), Hv. unfold map_packed.
    destruct (shift_ok c0 op c (b mod w) (b - b mod w) w s) as [c1 E]; try assumption.
    { apply Z.mod_pos_bound. lia. }
    { clear - Hb Hw. Z.div_mod_to_equations. lia. }
    { unfold ARRAY_LEN. clear - Hb Hw So. Z.div_mod_to_equations. lia. }
    rewrite E. cbn [bind]. now eexists.
  - rewrite Hd. intros c1 HS vs ws old old' fl fl' HA _ k d' y Hk _ Hy HU.
    apply nth1 in Hk. destruct Hk as [-> ->]. cbn [Z.of_nat] in *. rewrite Hwd in Hy.
    unfold packed. set (e := y / w * w). set (j := y mod w).
    assert (Hye : y = e + j /\ 0 <= j < w /\ 0 <= e /\ e + w <= n /\ e mod w = 0).
    { subst e j. rewrite Z.mod_mul by lia. clear - Hy Hw Hn.
      destruct Hw as [->|[->| ->]]; destruct Hn as [->| ->];
      Z.div_mod_to_equations; lia. }
    destruct Hye as (Hye & Hj & He & Hen & Hem).
    apply shift_same; [assumption|]. intros t Ht Hpt.
    set (p := source_bit op w c (8 * j + t)) in *.
    assert (Hpb : 0 <= p / 8 < w) by (Z.div_mod_to_equations; lia).
    apply (same leave x64 i c1 HS kd a (e + p / 8) 0 d y vs ws); try assumption.
    + now apply real_fed.
    + rewrite Hfs, Sa. lia.
    + rewrite Hfs, Sa, B, Z.add_0_l. intros s d0 d1 HM.
      rewrite (packed_map _ _ _ _ _ _ _ _ _ Hu) in HM.
      rewrite Hv in HM. apply bind_inv in HM. destruct HM as ([r d2] & E & HM).
      unfold map_packed in E.
      assert (Hm : (e + p / 8) mod w = p / 8).
      { rewrite Z.add_mod, Hem, Z.add_0_l, Z.mod_mod, Z.mod_small by lia. reflexivity. }
      rewrite Hm in E. replace (e + p / 8 - p / 8) with e in E by lia.
      apply bind_inv in E. destruct E as ([r' d3] & E & E').
      destruct (shift_touches d0 op c (p / 8) e w s r' d3 j t) as [-> M];
        try assumption; try reflexivity.
      injection E' as <- <-. injection HM as <-. rewrite Hye. exact M.
Qed.
