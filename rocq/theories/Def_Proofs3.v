(** Unpacks, shuffles, byte shifts, extracts, inserts and half moves. *)
From Verif Require Import Base Def_Model Def_Spec Def_Proofs Def_Proofs2.
Open Scope Z_scope.

Local Notation U := UNDEFINED.

Definition spares (i : instr) (o : operand) (n k b x : Z) : Prop :=
  forall s c0 c1, map_src_to_dst i o n k b s c0 = Ok c1 -> c_dst c1 x = c_dst c0 x.

Lemma goes_spares i o n k b y x :
  goes i o n k b y -> y <> Some x -> spares i o n k b x.
Proof.
  intros Hg Hy s c0 c1 H. rewrite (goes_inv _ _ _ _ _ _ _ _ _ Hg H x).
  destruct y as [y|]; [|reflexivity]. destruct (x =? y) eqn:E; [|reflexivity].
  exfalso. apply Hy. f_equal. lia.
Qed.

Lemma spared leave i c (x : Z) :
  sources leave i 0 (i_srcs i) (init_comb i) = Ok c ->
  (forall k o b, nth_error (i_srcs i) k = Some o -> fed leave i o -> 0 <= b < fed_size i o ->
     spares i o (fed_size i o) (Z.of_nat k) b x) ->
  c_dst c x = c_dst (init_comb i) x.
Proof.
  intros HS H. apply (sources_inv (fun c => c_dst c x = c_dst (init_comb i) x)
                        leave i 0 (i_srcs i) (init_comb i) c); [|reflexivity|exact HS].
  intros k o b s c0 c1 Hk HF Hb H0 HM. rewrite Z.add_0_l in HM.
  rewrite (H k o b Hk HF Hb _ _ _ HM). exact H0.
Qed.

(** Where byte [t] of the only destination comes from. *)
Inductive origin (i : instr) (d : dest) (r : result) (t : Z) : Prop :=
| From k o b :
    nth_error (i_srcs i) k = Some o -> real o -> 0 <= b < fed_size i o ->
    touches i o (fed_size i o) (Z.of_nat k) b t ->
    (forall vs fl old, r vs fl old 0 t = vs (Z.of_nat k) b) -> origin i d r t
| Const z : (forall vs fl old, r vs fl old 0 t = z) -> origin i d r t
| Old :
    subreg_nonlow (i_opc i) = true -> part_of_reg d ->
    (forall vs fl old, r vs fl old 0 t = old 0 t) ->
    (forall k o b, nth_error (i_srcs i) k = Some o -> o_imm o = false ->
       0 <= b < fed_size i o ->
       spares i o (fed_size i o) (Z.of_nat k) b t) ->
    origin i d r t.

Lemma one leave x64 i f d r :
  simple i -> i_srcs i <> nil -> one_dest i d -> dest_shift (i_opc i) 0 d = 0 ->
  (forall k o b s c0, nth_error (i_srcs i) k = Some o -> o_imm o = false ->
     0 <= b < fed_size i o ->
     exists c1, map_src_to_dst i o (fed_size i o) (Z.of_nat k) b s c0 = Ok c1) ->
  (forall t, 0 <= t < width i d -> origin i d r t) ->
  no_laundering leave x64 i f r.
Proof.
  intros (Ha & Hc & Hr & Hp) Hn [Hd W] Hs Hok HO.
  assert (B : base i 0 d = 0) by now apply base0.
  apply wire; try assumption.
  - rewrite Hd. intros k d' Hk. apply nth1 in Hk. destruct Hk as [-> ->].
    cbn [Z.of_nat]. rewrite B. pose proof W as (W1 & W2 & W3).
    split; [exact W|]. unfold ARRAY_LEN. lia.
  - intros k o b s c0 Hk [HF _] Hb. apply Hok; try assumption.
    now destruct (o_imm o).
  - rewrite Hd. intros c HS vs ws old old' fl fl' HA HAo k d' t Hk _ Ht HU.
    apply nth1 in Hk. destruct Hk as [-> ->]. cbn [Z.of_nat] in *.
    destruct (HO t Ht) as [k o b Hk Ro Hb HT HR|z HR|Hl HP HR Hg].
    + rewrite !HR. apply (same leave x64 i c HS k o b 0 d t); try assumption.
      * now apply real_fed.
      * now rewrite B.
    + now rewrite !HR.
    + rewrite !HR. apply (HAo 0%nat d); [now rewrite Hd|].
      intros Hu. apply HU. unfold state. cbv zeta. rewrite B, Z.add_0_l.
      destruct HP as (M & G & Of & Sz & Rs).
      rewrite (spared leave i c t HS).
      * unfold init_comb. cbn [c_dst]. rewrite Hd, Hl, M. cbn [negb andb].
        replace (d_size d <? d_regsize d) with true by lia. cbn.
        unfold before. rewrite G, andb_false_r. exact Hu.
      * intros k o b Hk [HF _] Hb. apply Hg; try assumption. now destruct (o_imm o).
Qed.

Ltac opc Ho := unfold map_switch; rewrite Ho; cbv zeta.

Lemma goes_at i o n k b y :
  gpr_shift (i_opc i) = false ->
  (forall s c, map_switch i o n k b s c = let* c := accum c y s in Ok (false, c)) ->
  goes i o n k b (Some y).
Proof. intros Hg H. split; [exact Hg|]. now exists false. Qed.

Lemma goes_none i o n k b :
  gpr_shift (i_opc i) = false ->
  (forall s c, map_switch i o n k b s c = Ok (false, c)) -> goes i o n k b None.
Proof. intros Hg H. split; [exact Hg|]. now exists false. Qed.

(** ** Unpacks *)

Lemma unpack_goes i o n k b high w :
  unpack (i_opc i) = Some (high, w) -> n = 8 \/ n = 16 -> 0 <= b < n ->
  goes i o n k b
    (if Bool.eqb high (n / 2 <=? b)
     then Some ((b - (if high then n / 2 else 0)) / w * (2 * w) + b mod w + w * (1 - k))
     else None).
Proof.
  intros Hu Hn Hb.
  assert (Hg : gpr_shift (i_opc i) = false) by (destruct (i_opc i); try discriminate; reflexivity).
  destruct (i_opc i) eqn:Ho; try discriminate Hu; injection Hu as <- <-; cbn [Bool.eqb].
  all: destruct (n / 2 <=? b) eqn:E; cbn [Bool.eqb].
  all: try (apply goes_none; [now rewrite Ho|]; intros s c; opc Ho;
            rewrite ?E; replace (b <? n / 2) with false by lia; reflexivity).
  all: try (apply goes_none; [now rewrite Ho|]; intros s c; opc Ho;
            rewrite ?E; reflexivity).
  all: apply goes_at; [now rewrite Ho|]; intros s c; opc Ho; rewrite ?E.
  all: try replace (b <? n / 2) with true by lia.
  all: rewrite ?Z.sub_0_r, ?Z.div_1_r, ?Z.mod_1_r;
    match goal with |- bind (accum _ ?x _) _ = bind (accum _ ?y _) _ =>
      replace y with x by lia end; reflexivity.
Qed.

Lemma halves n : n = 8 \/ n = 16 -> forall t, 0 <= t < n ->
  t = 0 \/ t = 1 \/ t = 2 \/ t = 3 \/ t = 4 \/ t = 5 \/ t = 6 \/ t = 7 \/
  (n = 16 /\ (t = 8 \/ t = 9 \/ t = 10 \/ t = 11 \/ t = 12 \/ t = 13 \/ t = 14 \/ t = 15)).
Proof. lia. Qed.

Lemma unpack_ok leave x64 i f a b d n high w :
  simple i -> unpack (i_opc i) = Some (high, w) -> n = 8 \/ n = 16 -> w < n ->
  i_srcs i = [a; b] -> real a -> real b -> o_size a = n -> o_size b = n ->
  one_dest i d -> d_size d = n ->
  no_laundering leave x64 i f (interleave high n w).
Proof.
  intros Hi Hu Hn Hwn Hs Ra Rb Sa Sb HD Sd.
  assert (Hl : subreg_nonlow (i_opc i) = false) by (destruct (i_opc i); try discriminate; reflexivity).
  assert (Hfs : forall o, fed_size i o = o_size o) by (intros; unfold fed_size; now rewrite Hl).
  assert (Hw : width i d = n) by (unfold width; now rewrite Hl).
  assert (Hww : w = 1 \/ w = 2 \/ w = 4 \/ w = 8).
  { destruct (i_opc i); try discriminate Hu; injection Hu as _ <-; lia. }
  apply (one leave x64 i f d); try assumption.
  - now rewrite Hs.
  - destruct (i_opc i); try discriminate Hu; reflexivity.
  - rewrite Hs. intros k o b' s c0 Hk _ Hb. rewrite Hfs in *.
    assert (So : o_size o = n /\ (k = 0 \/ k = 1)%nat).
    { apply nth2 in Hk. destruct Hk as [[-> ->]|[-> ->]]; lia. }
    destruct So as [So Kk]. rewrite So in *.
    eapply goes_ok; [now apply (unpack_goes i o n (Z.of_nat k) b' high w)|].
    destruct (Bool.eqb high (n / 2 <=? b')) eqn:E; [|exact I].
    clear - Hn Hb Hww Kk E. unfold ARRAY_LEN.
    destruct high; destruct (n / 2 <=? b') eqn:E2; try discriminate E; clear E;
    destruct Hww as [->|[->|[->| ->]]]; destruct Hn as [->| ->]; cbn in E2;
    change (8 / 2) with 4; change (16 / 2) with 8; Z.div_mod_to_equations; lia.
  - rewrite Hw. intros t Ht. pose (e := t / w).
    pose (bb := e / 2 * w + t mod w + (if high then n / 2 else 0)).
    assert (Hbb : 0 <= bb < n /\ Bool.eqb high (n / 2 <=? bb) = true /\
      (bb - (if high then n / 2 else 0)) / w * (2 * w) + bb mod w +
       w * (1 - (if Z.even e then 1 else 0)) = t).
    { subst bb e. clear - Hn Ht Hww Hwn.
      assert (Hc := halves n Hn t Ht).
      destruct Hn as [->| ->]; destruct Hww as [->|[->|[->| ->]]]; try lia; clear Ht Hwn;
      destruct high; repeat (destruct Hc as [->|Hc]); try (now (split; [now split|now split]));
      try (destruct Hc as [X _]; discriminate X); destruct Hc as [_ Hc];
      repeat (destruct Hc as [->|Hc]); try (now (split; [now split|now split]));
      subst; now (split; [now split|now split]). }
    destruct Hbb as (H1 & H2 & H3).
    destruct (Z.even e) eqn:Ee.
    + apply From with (k := 1%nat) (o := b) (b := bb); try assumption.
      * now rewrite Hs.
      * rewrite Hfs, Sb. exact H1.
      * rewrite Hfs, Sb. apply goes_touches.
        pose proof (unpack_goes i b n (Z.of_nat 1) bb high w Hu Hn H1) as G.
        rewrite H2 in G. change (Z.of_nat 1) with 1 in *. rewrite H3 in G. exact G.
      * intros. unfold interleave. cbv zeta. fold e. rewrite Ee. reflexivity.
    + apply From with (k := 0%nat) (o := a) (b := bb); try assumption.
      * now rewrite Hs.
      * rewrite Hfs, Sa. exact H1.
      * rewrite Hfs, Sa. apply goes_touches.
        pose proof (unpack_goes i a n (Z.of_nat 0) bb high w Hu Hn H1) as G.
        rewrite H2 in G. change (Z.of_nat 0) with 0 in *. rewrite H3 in G. exact G.
      * intros. unfold interleave. cbv zeta. fold e. rewrite Ee. reflexivity.
Qed.
