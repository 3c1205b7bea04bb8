(** Instructions whose source bytes go to one place each. *)
From Verif Require Import Base Def_Model Def_Spec Def_Proofs.
Open Scope Z_scope.

Local Notation U := UNDEFINED.

Definition touches (i : instr) (o : operand) (n k b x : Z) : Prop :=
  forall s c0 c1, map_src_to_dst i o n k b s c0 = Ok c1 ->
    c_dst c1 x <> BITLEVEL /\ (s = U -> c_dst c1 x = U).

Definition goes (i : instr) (o : operand) (n k b : Z) (y : option Z) : Prop :=
  gpr_shift (i_opc i) = false /\
  exists r, forall s c, map_switch i o n k b s c =
    match y with Some y => let* c := accum c y s in Ok (r, c) | None => Ok (r, c) end.

Lemma goes_inv i o n k b y s c c1 :
  goes i o n k b y -> map_src_to_dst i o n k b s c = Ok c1 ->
  forall x, c_dst c1 x = match y with
    | Some y => if x =? y then combine (c_dst c y) s else c_dst c x
    | None => c_dst c x
    end.
Proof.
  intros (Hg & r & Hr) H x. unfold map_src_to_dst in H. rewrite Hg in H. cbn [bind] in H.
  rewrite Hr in H. destruct y as [y|].
  - apply bind_inv in H. destruct H as ([r2 c2] & E & H).
    apply bind_inv in E. destruct E as (c3 & E & E'). injection E' as <- <-.
    apply accum_inv in E. destruct E as (_ & _ & E). rewrite <- E.
    destruct r; [injection H as <-; reflexivity|]. injection H as <-.
    destruct (i_wflags i); reflexivity.
  - cbn [bind] in H. destruct r; [injection H as <-; reflexivity|]. injection H as <-.
    destruct (i_wflags i); reflexivity.
Qed.

Lemma goes_ok i o n k b y s c :
  goes i o n k b y -> match y with Some y => 0 <= y < ARRAY_LEN | None => True end ->
  exists c1, map_src_to_dst i o n k b s c = Ok c1.
Proof.
  intros (Hg & r & Hr) Hy. unfold map_src_to_dst. rewrite Hg. cbn [bind]. rewrite Hr.
  destruct y as [y|].
  - destruct (accum_ok c y s Hy) as [c1 H1]. rewrite H1. cbn [bind].
    destruct r; eexists; reflexivity.
  - cbn [bind]. destruct r; eexists; reflexivity.
Qed.

Lemma goes_touches i o n k b x : goes i o n k b (Some x) -> touches i o n k b x.
Proof.
  intros H s c0 c1 E. rewrite (goes_inv _ _ _ _ _ _ _ _ _ H E x), Z.eqb_refl.
  split; [apply combine_B|]. intros ->. apply combine_U. now right.
Qed.

Section Source.
Variables (leave x64 : bool) (i : instr) (c : comb).
Hypothesis HS : sources leave i 0 (i_srcs i) (init_comb i) = Ok c.

Lemma hit_B k o b x :
  nth_error (i_srcs i) k = Some o -> fed leave i o -> 0 <= b < fed_size i o ->
  touches i o (fed_size i o) (Z.of_nat k) b x -> c_dst c x <> BITLEVEL.
Proof.
  intros Hk HF Hb HT.
  eapply (sources_hit (fun c => c_dst c x <> BITLEVEL) (kept_B x) _ _ _ _ _ _ k o b HS Hk HF Hb).
  intros c0 c1 H. rewrite Z.add_0_l in H. apply (HT _ _ _ H).
Qed.

Lemma hit_U k o b x :
  nth_error (i_srcs i) k = Some o -> fed leave i o -> 0 <= b < fed_size i o ->
  touches i o (fed_size i o) (Z.of_nat k) b x -> o_sh o b = U -> c_dst c x = U.
Proof.
  intros Hk HF Hb HT Hs.
  eapply (sources_hit (fun c => c_dst c x = U) (kept_U x) _ _ _ _ _ _ k o b HS Hk HF Hb).
  intros c0 c1 H. rewrite Z.add_0_l in H. apply (HT _ _ _ H). exact Hs.
Qed.

(** The byte that goes to [x] is the same in both executions. *)
Lemma same k o b kd d t vs ws :
  agree_srcs leave i vs ws ->
  nth_error (i_srcs i) k = Some o -> fed leave i o -> 0 <= b < fed_size i o ->
  touches i o (fed_size i o) (Z.of_nat k) b (base i kd d + t) ->
  state x64 i c kd d t <> U -> vs (Z.of_nat k) b = ws (Z.of_nat k) b.
Proof.
  intros HA Hk HF Hb HT HU. apply (HA k o Hk b Hb). right. right. intros Hs.
  apply HU. unfold state. cbv zeta.
  rewrite (hit_U k o b _ Hk HF Hb HT Hs).
  replace (U =? BITLEVEL) with false by reflexivity. now rewrite andb_false_r.
Qed.

End Source.

Lemma real_fed leave i o :
  real o -> i_always i = false -> i_pushpop i = false -> fed leave i o.
Proof.
  intros [H1 H2] H3 H4. unfold fed. rewrite H1, H2, H3, H4. cbn. split; [reflexivity|].
  now rewrite andb_false_r.
Qed.

(** Instructions that do not read flags. *)
Lemma wire leave x64 i f res :
  i_always i = false -> i_check i = false -> i_rflags i = false -> i_srcs i <> nil ->
  (forall k d, nth_error (i_dsts i) k = Some d -> wf_dest i d /\
     0 <= base i (Z.of_nat k) d /\ base i (Z.of_nat k) d + width i d <= ARRAY_LEN) ->
  (forall k o b s c0, nth_error (i_srcs i) k = Some o -> fed leave i o ->
     0 <= b < fed_size i o ->
     exists c1, map_src_to_dst i o (fed_size i o) (Z.of_nat k) b s c0 = Ok c1) ->
  (forall c, sources leave i 0 (i_srcs i) (init_comb i) = Ok c ->
     forall vs ws old old' fl fl',
       agree_srcs leave i vs ws -> agree_old i old old' ->
     forall k d t, nth_error (i_dsts i) k = Some d -> counts i d = true ->
       0 <= t < width i d -> state x64 i c (Z.of_nat k) d t <> U ->
       res vs fl old (Z.of_nat k) t = res ws fl' old' (Z.of_nat k) t) ->
  no_laundering leave x64 i f res.
Proof.
  intros Ha Hc Hr Hn Hd Hok HM.
  assert (HF : forall c, flags_source leave i f c = Ok c).
  { intros c. unfold flags_source. rewrite Hr. reflexivity. }
  apply launder_core; try assumption.
  - destruct (sources_ok leave i 0 (i_srcs i) (init_comb i)) as [c Hc'].
    { intros k o b s c0. rewrite Z.add_0_l. apply Hok. }
    exists c, c. split; [exact Hc'|apply HF].
  - intros c c1 H1 H2 vs ws old old' fl fl' HA HO _ k d t Hk HC Ht HU.
    rewrite HF in H2. injection H2 as <-.
    destruct HU as [HU|[HU _]]; [|contradiction].
    exact (HM c H1 vs ws old old' fl fl' HA HO k d t Hk HC Ht HU).
Qed.

(** ** Byte for byte *)
Lemma bytewise_ok leave x64 i f F :
  i_opc i = Op_plain -> i_always i = false ->
  (i_check i = true -> forall k o, nth_error (i_srcs i) k = Some o -> o_check o = true) ->
  (forall k d, nth_error (i_dsts i) k = Some d -> wf_dest i d) ->
  (forall k o, nth_error (i_srcs i) k = Some o -> o_size o <= ARRAY_LEN) ->
  (i_rflags i = true ->
     length (i_dsts i) = 1%nat /\
     (flag_state f 0 = U -> forall d, nth_error (i_dsts i) 0 = Some d ->
        forall j, 0 <= j < d_size d -> flag_state f j = U)) ->
  no_laundering leave x64 i f (bytewise i F).
Proof.
  intros Ho Ha Hc Hd Hs Hfl.
  assert (Hw : forall d, width i d = d_size d).
  { intros d. unfold width. rewrite Ho. reflexivity. }
  assert (Hb : forall k d, base i k d = 0).
  { intros k d. unfold base. rewrite Ho. destruct (d_mem d); reflexivity. }
  assert (Hfs : forall o, fed_size i o = o_size o).
  { intros o. unfold fed_size. rewrite Ho. reflexivity. }
  assert (Hg : forall o n k b, goes i o n k b (Some b)).
  { intros o n k b. split; [now rewrite Ho|]. exists false. intros s c.
    unfold map_switch. rewrite Ho. reflexivity. }
  destruct (sources_ok leave i 0 (i_srcs i) (init_comb i)) as [c0 Hc0].
  { intros k o b s c0 Hk HF Hb'. rewrite Hfs in Hb'. apply (goes_ok _ _ _ _ _ (Some b)).
    - apply Hg.
    - specialize (Hs k o Hk). lia. }
  apply launder_core'; try assumption.
  - intros k d Hk. split; [exact (Hd k d Hk)|]. rewrite Hb, Hw.
    destruct (Hd k d Hk) as (_ & H2 & _). rewrite Hw in H2. unfold ARRAY_LEN. lia.
  - exists c0. unfold flags_source.
    destruct (i_rflags i && _ && _); [|eexists; split; [exact Hc0|reflexivity]].
    cbv zeta. destruct (i_dsts i) as [|d l] eqn:Ed; [eexists; split; [exact Hc0|reflexivity]|].
    destruct (spread_ok f 0 (Z.to_nat (d_size d)) (accum_flags c0 (flag_state f 0)))
      as [c1 Hc1]; [lia| |].
    { destruct (Hd O d eq_refl) as (_ & H2 & _). rewrite Hw in H2. unfold ARRAY_LEN. lia. }
    exists c1. split; [exact Hc0|exact Hc1].
  - intros c c1 H1 H2 vs ws old old' fl fl' HA HO HF k d t Hk HC Ht HU.
    unfold bytewise. rewrite Hw in Ht.
    assert (HC' : i_check i = true -> leave = false ->
      F (Z.of_nat k) t (srcs_at i (i_srcs i) 0 vs t) (if i_rflags i then fl else 0) =
      F (Z.of_nat k) t (srcs_at i (i_srcs i) 0 ws t) (if i_rflags i then fl' else 0)).
    { intros HC1 HC2. assert (G : forall l k0, (forall k o, nth_error l k = Some o ->
          nth_error (i_srcs i) (k0 + k) = Some o) ->
        srcs_at i l (Z.of_nat k0) vs t = srcs_at i l (Z.of_nat k0) ws t).
      { induction l as [|o l IH]; intros k0 Hl; [reflexivity|]. cbn [srcs_at].
        replace (Z.of_nat k0 + 1) with (Z.of_nat (S k0)) by lia.
        rewrite (IH (S k0)).
        2:{ intros k' o' H'. specialize (Hl (S k') o' H'). rewrite <- Hl. f_equal. lia. }
        f_equal. specialize (Hl O o eq_refl). rewrite Nat.add_0_r in Hl.
        unfold byte_of_src. destruct (negb (o_mem o) && i_pushpop i && o_xsp o); [reflexivity|].
        destruct (t <? o_size o) eqn:Et; [|reflexivity]. f_equal.
        apply (HA k0 o Hl t); [rewrite Hfs; lia|]. right. left. split; [exact (Hc HC1 k0 o Hl)|exact HC2]. }
      pose proof (G (i_srcs i) O (fun k' o' H' => H')) as G0. cbn [Z.of_nat] in G0. rewrite G0.
      f_equal. destruct (i_rflags i) eqn:Er; [|reflexivity]. apply HF. right. left. now split. }
    destruct HU as [HU|[[Hn Hr]|[HC1 HC2]]]; [|now rewrite Hn, Hr|exact (HC' HC1 HC2)].
    destruct (i_check i && negb leave) eqn:Eck.
    { destruct (i_check i), leave; try discriminate. apply HC'; reflexivity. }
    unfold state in HU. rewrite Ho in HU. cbn [subreg_nonlow andb] in HU.
    rewrite Hb, Z.add_0_l in HU.
    assert (HU1 : c_dst c t <> U).
    { intros E. apply HU. exact (k_fsource _ (kept_U t) _ _ _ _ _ E H2). }
    assert (Hsrc : srcs_at i (i_srcs i) 0 vs t = srcs_at i (i_srcs i) 0 ws t).
    { assert (G : forall l k0, (forall k o, nth_error l k = Some o ->
          nth_error (i_srcs i) (k0 + k) = Some o) ->
        srcs_at i l (Z.of_nat k0) vs t = srcs_at i l (Z.of_nat k0) ws t).
      { induction l as [|o l IH]; intros k0 Hl; [reflexivity|]. cbn [srcs_at].
        replace (Z.of_nat k0 + 1) with (Z.of_nat (S k0)) by lia.
        rewrite (IH (S k0)).
        2:{ intros k' o' H'. specialize (Hl (S k') o' H'). rewrite <- Hl. f_equal. lia. }
        f_equal. specialize (Hl O o eq_refl). rewrite Nat.add_0_r in Hl.
        unfold byte_of_src. destruct (negb (o_mem o) && i_pushpop i && o_xsp o) eqn:Ex;
          [reflexivity|].
        destruct (t <? o_size o) eqn:Et; [|reflexivity]. f_equal.
        apply (HA k0 o Hl t); [rewrite Hfs; lia|].
        destruct (o_imm o) eqn:Ei; [now left|right].
        destruct (o_check o && negb leave) eqn:Ec.
        { left. destruct (o_check o), leave; try discriminate. now split. }
        right. intros Hu. apply HU1.
        apply (hit_U leave i c H1 k0 o t t Hl); [|rewrite Hfs; lia| |exact Hu].
        - split; [now rewrite Ei, Ha, Ec|exact Ex].
        - apply goes_touches, Hg. }
      apply (G (i_srcs i) O). intros k' o' H'. exact H'. }
    rewrite Hsrc. f_equal. destruct (i_rflags i) eqn:Er; [|reflexivity].
    apply HF. right. right. intros Hu. destruct (Hfl eq_refl) as [Hl Hsp].
    destruct (i_dsts i) as [|d0 l] eqn:Ed; [discriminate|].
    destruct l; [|discriminate]. destruct k as [|k]; [|destruct k; discriminate].
    injection Hk as <-.
    apply HU. unfold flags_source in H2. rewrite Er, Ha, Ed in H2.
    replace (negb (i_check i) || leave) with true in H2 by (destruct (i_check i), leave; try discriminate; reflexivity).
    cbn [negb andb orb] in H2. cbv zeta in H2.
    apply (spread_hit _ _ _ _ _ t H2); [lia|].
    exact (Hsp Hu d0 eq_refl t Ht).
Qed.

(** Flags marked as initialised: then so were all sources. *)
Lemma plain_flags leave x64 i f ds f' :
  i_opc i = Op_plain -> i_always i = false -> i_wflags i = true ->
  propagate leave x64 i f = Ok (ds, f') -> f' <> U ->
  forall vs ws fl fl', agree_srcs leave i vs ws -> agree_flags leave i f fl fl' ->
  (forall k o b, nth_error (i_srcs i) k = Some o ->
     negb (o_mem o) && i_pushpop i && o_xsp o = false -> 0 <= b < o_size o ->
     vs (Z.of_nat k) b = ws (Z.of_nat k) b) /\
  (i_rflags i = true -> fl = fl').
Proof.
  intros Ho Ha Hw HP HU vs ws fl fl' HA HF. unfold propagate in HP.
  apply bind_inv in HP. destruct HP as (c & H1 & HP).
  apply bind_inv in HP. destruct HP as (c1 & H2 & HP).
  apply bind_inv in HP. destruct HP as (rs & H3 & HP). injection HP as <- <-.
  rewrite Hw in HU.
  assert (Hfs : forall o, fed_size i o = o_size o).
  { intros o. unfold fed_size. rewrite Ho. reflexivity. }
  split.
  - intros k o b Hk Hx Hb. apply (HA k o Hk b); [rewrite Hfs; lia|].
    destruct (o_imm o) eqn:Ei; [now left|right].
    destruct (o_check o && negb leave) eqn:Ec.
    { left. destruct (o_check o), leave; try discriminate. now split. }
    right. intros Hu. apply HU.
    apply (k_fsource _ kept_flags _ _ _ _ _) with (2 := H2).
    eapply (sources_hit (fun c => c_eflags c = U) kept_flags _ _ _ _ _ _ k o b H1 Hk).
    + split; [now rewrite Ei, Ha, Ec|exact Hx].
    + rewrite Hfs; lia.
    + intros c0 c2 HM. unfold map_src_to_dst in HM. rewrite Ho in HM.
      cbn [gpr_shift bind] in HM. apply bind_inv in HM. destruct HM as ([r c3] & E & HM).
      unfold map_switch in E. rewrite Ho in E. cbv zeta in E.
      apply bind_inv in E. destruct E as (c4 & E & E'). injection E' as <- <-.
      rewrite Hw in HM. injection HM as <-. cbn. apply combine_U. now right.
  - intros Hr. apply HF. right. destruct (i_check i && negb leave) eqn:Eck.
    { left. destruct (i_check i), leave; try discriminate. now split. }
    right. intros Hu. apply HU.
    unfold flags_source in H2. rewrite Hr, Ha in H2.
    replace (negb (i_check i) || leave) with true in H2 by (destruct (i_check i), leave; try discriminate; reflexivity).
    cbn [negb andb orb] in H2.
    cbv zeta in H2. assert (G : c_eflags (accum_flags c (flag_state f 0)) = U).
    { cbn. apply combine_U. now right. }
    destruct (i_dsts i); [injection H2 as <-; exact G|].
    exact (k_spread _ kept_flags _ _ _ _ _ G H2).
Qed.

(** ** Two sources *)
Lemma nth2 {A} (a b : A) k x : nth_error [a; b] k = Some x ->
  (k = 0%nat /\ x = a) \/ (k = 1%nat /\ x = b).
Proof.
  destruct k as [|[|k]]; cbn; intros H.
  - injection H as <-. now left.
  - injection H as <-. now right.
  - destruct k; discriminate.
Qed.

Lemma nth1 {A} (a : A) k x : nth_error [a] k = Some x -> k = 0%nat /\ x = a.
Proof.
  destruct k as [|k]; cbn; intros H; [injection H as <-; now split|destruct k; discriminate].
Qed.

Lemma exchange_ok leave x64 i f a b d0 d1 n :
  i_opc i = Op_xchg -> i_always i = false -> i_check i = false -> i_rflags i = false ->
  i_pushpop i = false ->
  i_srcs i = [a; b] -> i_dsts i = [d0; d1] -> 1 <= n <= 16 ->
  real a -> real b -> o_size a = n -> o_size b = n ->
  wf_dest i d0 -> wf_dest i d1 -> d_size d0 = n -> d_size d1 = n -> d_mem d1 = false ->
  no_laundering leave x64 i f exchange.
Proof.
  intros Ho Ha Hc Hr Hp Hs Hd Hn Ra Rb Sa Sb W0 W1 D0 D1 M1.
  assert (Hw : forall d, width i d = d_size d) by (intros; unfold width; now rewrite Ho).
  assert (Hfs : forall o, fed_size i o = o_size o) by (intros; unfold fed_size; now rewrite Ho).
  assert (Hg : forall o k b, goes i o n k b (Some (n * (1 - k) + b))).
  { intros o k b'. split; [now rewrite Ho|]. exists false. intros s c.
    unfold map_switch. rewrite Ho. reflexivity. }
  assert (B0 : base i 0 d0 = 0).
  { unfold base, dest_shift. rewrite Ho. now destruct (d_mem d0). }
  assert (B1 : base i 1 d1 = n).
  { unfold base, dest_shift. rewrite Ho, M1, Hw, D1. lia. }
  apply wire; try assumption.
  - now rewrite Hs.
  - rewrite Hd. intros k d Hk. apply nth2 in Hk. destruct Hk as [[-> ->]|[-> ->]]; cbn [Z.of_nat].
    + rewrite B0, Hw, D0. unfold ARRAY_LEN. split; [assumption|lia].
    + replace (Z.of_nat 1) with 1 by lia. change (Z.pos (Pos.of_succ_nat 0)) with 1.
      rewrite B1, Hw, D1. unfold ARRAY_LEN. split; [assumption|lia].
  - rewrite Hs. intros k o b' s c0 Hk _ Hb. rewrite Hfs in *.
    apply nth2 in Hk. destruct Hk as [[-> ->]|[-> ->]]; rewrite ?Sa, ?Sb in *;
      apply (goes_ok _ _ _ _ _ _ _ _ (Hg _ _ _)); unfold ARRAY_LEN; lia.
  - rewrite Hd. intros c HS vs ws old old' fl fl' HA _ k d t Hk _ Ht HU. unfold exchange.
    rewrite Hw in Ht.
    apply nth2 in Hk. destruct Hk as [[-> ->]|[-> ->]].
    + apply (same leave x64 i c HS 1 b t (Z.of_nat 0) d0 t); try assumption.
      * now rewrite Hs.
      * now apply real_fed.
      * rewrite Hfs. lia.
      * rewrite Hfs, Sb. cbn [Z.of_nat]. rewrite B0. replace (0 + t) with (n * (1 - 1) + t) by lia.
        apply goes_touches, Hg.
    + apply (same leave x64 i c HS 0 a t (Z.of_nat 1) d1 t); try assumption.
      * now rewrite Hs.
      * now apply real_fed.
      * rewrite Hfs. lia.
      * rewrite Hfs, Sa. change (Z.of_nat 1) with 1. rewrite B1.
        replace (n + t) with (n * (1 - 0) + t) by lia. apply goes_touches, Hg.
Qed.

(** cmpxchg8b: the compared operands are checked. *)
Lemma nth5 {A} (a b c d e : A) k x : nth_error [a; b; c; d; e] k = Some x ->
  (k = 0%nat /\ x = a) \/ (k = 1%nat /\ x = b) \/ (k = 2%nat /\ x = c) \/
  (k = 3%nat /\ x = d) \/ (k = 4%nat /\ x = e).
Proof.
  destruct k as [|[|[|[|[|k]]]]]; cbn; intros H; try (injection H as <-; tauto).
  destruct k; discriminate.
Qed.

Lemma cmpxchg8b_ok x64 i f m a d c b dm da dd :
  i_opc i = Op_cmpxchg8b -> i_always i = false -> i_check i = false -> i_rflags i = false ->
  i_pushpop i = false -> i_srcs i = [m; a; d; c; b] -> i_dsts i = [dm; da; dd] ->
  o_check m = true -> o_check a = true -> o_check d = true -> real c -> real b ->
  o_size m = 8 -> o_size a = 4 -> o_size d = 4 -> o_size c = 4 -> o_size b = 4 ->
  wf_dest i dm -> wf_dest i da -> wf_dest i dd -> d_mem dm = true -> d_mem da = false -> d_mem dd = false ->
  d_size dm = 8 -> d_size da = 4 -> d_size dd = 4 ->
  no_laundering false x64 i f compare_exchange8.
Proof.
  intros Ho Ha Hc Hr Hp Hs Hd Cm Ca Cd Rc Rb Sm Sa Sd Sc Sb W0 W1 W2 M0 M1 M2 D0 D1 D2.
  assert (Hw : forall d, width i d = d_size d) by (intros; unfold width; now rewrite Ho).
  assert (Hfs : forall o, fed_size i o = o_size o) by (intros; unfold fed_size; now rewrite Ho).
  assert (Hg : forall o k b, goes i o 4 k b (Some (4 * (if (k =? 2) || (k =? 3) then 1 else 0) + b))).
  { intros o k b'. split; [now rewrite Ho|]. exists false. intros s c'.
    unfold map_switch. rewrite Ho. reflexivity. }
  assert (B0 : base i 0 dm = 0) by (unfold base; now rewrite M0).
  assert (B1 : base i 1 da = 0) by (unfold base, dest_shift; rewrite Ho, M1, Hw, D1; reflexivity).
  assert (B2 : base i 2 dd = 4) by (unfold base, dest_shift; rewrite Ho, M2, Hw, D2; reflexivity).
  assert (N3 : forall k q, nth_error [dm; da; dd] k = Some q ->
    (k = 0%nat /\ q = dm) \/ (k = 1%nat /\ q = da) \/ (k = 2%nat /\ q = dd)).
  { intros [|[|[|k]]] q H; cbn in H; try (injection H as <-; tauto). destruct k; discriminate. }
  apply wire; try assumption.
  - now rewrite Hs.
  - rewrite Hd. intros k q Hk. apply N3 in Hk. destruct Hk as [[-> ->]|[[-> ->]|[-> ->]]];
      change (Z.of_nat 0) with 0; change (Z.of_nat 1) with 1; change (Z.of_nat 2) with 2;
      rewrite ?B0, ?B1, ?B2, Hw, ?D0, ?D1, ?D2; unfold ARRAY_LEN; (split; [assumption|clear; lia]).
  - rewrite Hs. intros k o b' s c0 Hk HF Hb. rewrite Hfs in *.
    destruct HF as [HF _].
    assert (NC : o_check o = false).
    { destruct (o_check o); [|reflexivity]. rewrite Bool.andb_true_l, Bool.orb_true_r in HF. discriminate HF. }
    apply nth5 in Hk. destruct Hk as [[-> ->]|[[-> ->]|[[-> ->]|[[-> ->]|[-> ->]]]]]; try congruence.
    + rewrite Sc in *. apply (goes_ok _ _ _ _ _ _ _ _ (Hg _ _ _)). change (Z.of_nat 3) with 3.
      unfold ARRAY_LEN. cbn [Z.eqb orb Pos.eqb]. clear -Hb. lia.
    + rewrite Sb in *. apply (goes_ok _ _ _ _ _ _ _ _ (Hg _ _ _)). change (Z.of_nat 4) with 4.
      unfold ARRAY_LEN. cbn [Z.eqb orb Pos.eqb]. clear -Hb. lia.
  - rewrite Hd. intros st HS vs ws old old' fl fl' HA _ k q t Hk _ Ht HU. rewrite Hw in Ht.
    assert (E0 : forall j, 0 <= j < 8 -> vs 0 j = ws 0 j).
    { intros j Hj. apply (HA 0%nat m); [now rewrite Hs|rewrite Hfs, ?Sm, ?Sa, ?Sd; exact Hj|]. right. left. now split. }
    assert (E1 : forall j, 0 <= j < 4 -> vs 1 j = ws 1 j).
    { intros j Hj. apply (HA 1%nat a); [now rewrite Hs|rewrite Hfs, ?Sm, ?Sa, ?Sd; exact Hj|]. right. left. now split. }
    assert (E2 : forall j, 0 <= j < 4 -> vs 2 j = ws 2 j).
    { intros j Hj. apply (HA 2%nat d); [now rewrite Hs|rewrite Hfs, ?Sm, ?Sa, ?Sd; exact Hj|]. right. left. now split. }
    assert (EQ : equal8 vs = equal8 ws).
    { unfold equal8. rewrite !E0, !E1, !E2 by (clear; lia). reflexivity. }
    unfold compare_exchange8. rewrite EQ.
    apply N3 in Hk. destruct Hk as [[-> ->]|[[-> ->]|[-> ->]]].
    + rewrite D0 in Ht. change (Z.of_nat 0) with 0 in *. cbn [Z.eqb]. destruct (equal8 ws); [|apply E0; exact Ht].
      destruct (Z.ltb_spec t 4) as [T4|T4].
      * apply (same false x64 i st HS 4 b t 0 dm t); try assumption.
        -- now rewrite Hs.
        -- now apply real_fed.
        -- rewrite Hfs, ?Sb, ?Sc. clear -Ht T4. lia.
        -- rewrite Hfs, Sb, B0. change (Z.of_nat 4) with 4. replace (0 + t) with (4 * 0 + t) by (clear; lia).
           apply goes_touches. exact (Hg b 4 t).
      * apply (same false x64 i st HS 3 c (t - 4) 0 dm t); try assumption.
        -- now rewrite Hs.
        -- now apply real_fed.
        -- rewrite Hfs, ?Sb, ?Sc. clear -Ht T4. lia.
        -- rewrite Hfs, Sc, B0. change (Z.of_nat 3) with 3. replace (0 + t) with (4 * 1 + (t - 4)) by (clear; lia).
           apply goes_touches. exact (Hg c 3 (t - 4)).
    + rewrite D1 in Ht. change (Z.of_nat 1) with 1 in *. cbn [Z.eqb Pos.eqb]. destruct (equal8 ws); [apply E1|apply E0]; clear -Ht; lia.
    + rewrite D2 in Ht. change (Z.of_nat 2) with 2 in *. cbn [Z.eqb Pos.eqb]. destruct (equal8 ws); [apply E2|apply E0]; clear -Ht; lia.
Qed.

(** One destination that starts at the bottom of the array. *)
Lemma base0 i k d : dest_shift (i_opc i) k d = 0 -> base i k d = 0.
Proof. unfold base. intros ->. destruct (d_mem d); lia. Qed.

Lemma byte_swap_ok leave x64 i f a d n :
  i_opc i = Op_bswap -> i_always i = false -> i_check i = false -> i_rflags i = false ->
  i_pushpop i = false -> i_srcs i = [a] -> i_dsts i = [d] -> 1 <= n <= 16 ->
  real a -> o_size a = n -> wf_dest i d -> d_size d = n ->
  no_laundering leave x64 i f (byte_swap n).
Proof.
  intros Ho Ha Hc Hr Hp Hs Hd Hn Ra Sa W D.
  assert (Hw : forall d, width i d = d_size d) by (intros; unfold width; now rewrite Ho).
  assert (Hfs : forall o, fed_size i o = o_size o) by (intros; unfold fed_size; now rewrite Ho).
  assert (Hg : forall o k b, goes i o n k b (Some (n - 1 - b))).
  { intros o k b'. split; [now rewrite Ho|]. exists true. intros s c.
    unfold map_switch. rewrite Ho. reflexivity. }
  assert (B : forall k, base i k d = 0) by (intros; apply base0; now rewrite Ho).
  apply wire; try assumption.
  - now rewrite Hs.
  - rewrite Hd. intros k d' Hk. apply nth1 in Hk. destruct Hk as [-> ->].
    rewrite B, Hw, D. unfold ARRAY_LEN. split; [assumption|lia].
  - rewrite Hs. intros k o b' s c0 Hk _ Hb. rewrite Hfs in *.
    apply nth1 in Hk. destruct Hk as [-> ->]. rewrite Sa in *.
    apply (goes_ok _ _ _ _ _ _ _ _ (Hg _ _ _)). unfold ARRAY_LEN; lia.
  - rewrite Hd. intros c HS vs ws old old' fl fl' HA _ k d' t Hk _ Ht HU. unfold byte_swap.
    rewrite Hw in Ht. apply nth1 in Hk. destruct Hk as [-> ->].
    apply (same leave x64 i c HS 0 a (n - 1 - t) (Z.of_nat 0) d t); try assumption.
    + now rewrite Hs.
    + now apply real_fed.
    + rewrite Hfs. lia.
    + rewrite Hfs, Sa, B. replace (0 + t) with (n - 1 - (n - 1 - t)) by lia.
      apply goes_touches, Hg.
Qed.
