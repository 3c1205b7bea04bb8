(** insertps, half moves, and shifts by bits. *)
From Verif Require Import Base Def_Model Def_Spec Def_Proofs Def_Proofs2 Def_Proofs3
  Def_Proofs4.
Open Scope Z_scope.

Local Notation U := UNDEFINED.

(** ** insertps *)

Lemma zero_ok z i m c : 0 <= i -> i + Z.of_nat m <= 4 -> exists c1, zero_lanes c z i m = Ok c1.
Proof.
  revert i c. induction m as [|m IH]; intros i c H0 H1; [now eexists|]. cbn [zero_lanes].
  destruct (maybe_ok (Z.testbit z 0) c i DEFINED) as [c1 E1]; [unfold ARRAY_LEN; lia|].
  rewrite E1. cbn [bind].
  destruct (maybe_ok (Z.testbit z 1) c1 (4 + i) DEFINED) as [c2 E2]; [unfold ARRAY_LEN; lia|].
  rewrite E2. cbn [bind].
  destruct (maybe_ok (Z.testbit z 2) c2 (8 + i) DEFINED) as [c3 E3]; [unfold ARRAY_LEN; lia|].
  rewrite E3. cbn [bind].
  destruct (maybe_ok (Z.testbit z 3) c3 (12 + i) DEFINED) as [c4 E4]; [unfold ARRAY_LEN; lia|].
  rewrite E4. cbn [bind]. apply IH; lia.
Qed.

Lemma zero_spares z i m c c1 x :
  zero_lanes c z i m = Ok c1 -> 0 <= i -> i + Z.of_nat m <= 4 -> 0 <= x < 16 ->
  Z.testbit z (x / 4) = false -> c_dst c1 x = c_dst c x.
Proof.
  revert i c. induction m as [|m IH]; intros i c H H0 H1 Hx Hz.
  - now injection H as <-.
  - cbn [zero_lanes] in H.
    apply bind_inv in H. destruct H as (d1 & E1 & H).
    apply bind_inv in H. destruct H as (d2 & E2 & H).
    apply bind_inv in H. destruct H as (d3 & E3 & H).
    apply bind_inv in H. destruct H as (d4 & E4 & H).
    rewrite (IH _ _ H) by (try assumption; lia).
    pose proof (maybe_inv _ _ _ _ _ E1 x) as F1. pose proof (maybe_inv _ _ _ _ _ E2 x) as F2.
    pose proof (maybe_inv _ _ _ _ _ E3 x) as F3. pose proof (maybe_inv _ _ _ _ _ E4 x) as F4.
    assert (N : forall q, 0 <= q < 4 -> Z.testbit z q && (x =? 4 * q + i) = false).
    { intros q Hq. destruct (x =? 4 * q + i) eqn:E; [|apply andb_false_r].
      replace (x / 4) with q in Hz by (Z.div_mod_to_equations; lia). now rewrite Hz. }
    pose proof (N 3 ltac:(lia)) as N3. pose proof (N 2 ltac:(lia)) as N2.
    pose proof (N 1 ltac:(lia)) as N1. pose proof (N 0 ltac:(lia)) as N0.
    change (4 * 3) with 12 in N3. change (4 * 2) with 8 in N2. change (4 * 1) with 4 in N1.
    change (4 * 0 + i) with i in N0.
    rewrite N3 in F4. rewrite N2 in F3. rewrite N1 in F2. rewrite N0 in F1.
    now rewrite F4, F3, F2, F1.
Qed.

Lemma insert_ps_ok leave x64 i f a im d imm :
  simple i -> i_opc i = Op_insertps -> i_val i = Some imm -> 0 <= imm < 256 ->
  i_srcs i = [a; im] -> constant im -> real a ->
  (if o_mem a then o_size a = 4 else o_regsize a = 16) ->
  i_dsts i = [d] -> part_of_reg d -> d_regsize d = 16 ->
  no_laundering leave x64 i f (insert_ps (o_mem a) imm).
Proof.
  intros Hi Ho Hv Him Hs Ci Ra Sa Hd Pd Rd.
  pose proof Pd as (P1 & P2 & P3 & P4 & P5).
  assert (Hl : subreg_nonlow (i_opc i) = true) by now rewrite Ho.
  assert (Hwd : width i d = 16) by (unfold width; rewrite Hl, P1; exact Rd).
  assert (Hfs : fed_size i a = if o_mem a then 4 else 16).
  { unfold fed_size. rewrite Hl. destruct (o_mem a); exact Sa. }
  pose (cs := if o_mem a then 0 else imm / 64).
  assert (Hcs : 0 <= cs /\ cs * 4 + 4 <= fed_size i a).
  { rewrite Hfs. subst cs. destruct (o_mem a); [lia|]. Z.div_mod_to_equations. lia. }
  assert (Hcd : 0 <= imm / 16 mod 4 < 4) by (apply Z.mod_pos_bound; lia).
  assert (HM : forall k b s c, map_src_to_dst i a (fed_size i a) k b s c =
     let* c := if in_lane b cs 4 then accum c (imm / 16 mod 4 * 4 + b mod 4) s else Ok c in
     let* c := if b =? 0 then zero_lanes c (imm mod 16) 0 3 else Ok c in
     Ok (if i_wflags i then accum_flags c s else c)).
  { intros k b s c. unfold map_src_to_dst. rewrite Ho. cbn [gpr_shift bind]. opc Ho.
    rewrite Hv. destruct Ra as [Ra _]. rewrite Ra, orb_false_r. fold cs.
    destruct (if in_lane b cs 4 then _ else _) as [c1| |]; cbn [bind]; try reflexivity.
    destruct (if b =? 0 then _ else _) as [c2| |]; reflexivity. }
  assert (Hfl : forall c s x, c_dst (if i_wflags i then accum_flags c s else c) x = c_dst c x).
  { intros c s x. now destruct (i_wflags i). }
  apply (one leave x64 i f d); try assumption.
  - now rewrite Hs.
  - split; [exact Hd|]. unfold wf_dest. rewrite Hwd. lia.
  - now rewrite Ho.
  - rewrite Hs. intros k o b s c0 Hk Hi' Hb. apply nth2 in Hk.
    destruct Hk as [[-> ->]|[-> ->]]; [|unfold constant in Ci; congruence].
    rewrite HM. pose proof (Z.mod_pos_bound b 4 ltac:(lia)) as Hb4.
    destruct (maybe_ok (in_lane b cs 4) c0 (imm / 16 mod 4 * 4 + b mod 4) s) as [c1 E1];
      [unfold ARRAY_LEN; lia|].
    rewrite E1. cbn [bind].
    destruct (b =? 0).
    + destruct (zero_ok (imm mod 16) 0 3 c1) as [c2 E2]; [lia|cbn; lia|].
      rewrite E2. now eexists.
    + now eexists.
  - rewrite Hwd. intros t Ht.
    destruct (Z.testbit (imm mod 16) (t / 4)) eqn:Ez.
    { apply Const with (z := 0). intros. unfold insert_ps. now rewrite Ez. }
    destruct (t / 4 =? imm / 16 mod 4) eqn:El.
    + apply From with (k := 0%nat) (o := a) (b := cs * 4 + t mod 4); try assumption.
      * now rewrite Hs.
      * pose proof (Z.mod_pos_bound t 4 ltac:(lia)). lia.
      * intros s c0 c1 H. rewrite HM in H.
        assert (EL : in_lane (cs * 4 + t mod 4) cs 4 = true).
        { unfold in_lane. pose proof (Z.mod_pos_bound t 4 ltac:(lia)). lia. }
        rewrite EL in H. apply bind_inv in H. destruct H as (c2 & E1 & H).
        apply bind_inv in H. destruct H as (c3 & E2 & H). injection H as <-.
        rewrite Hfl.
        apply accum_inv in E1. destruct E1 as (_ & _ & E1). specialize (E1 t).
        replace (t =? imm / 16 mod 4 * 4 + (cs * 4 + t mod 4) mod 4) with true in E1
          by (Z.div_mod_to_equations; lia).
        assert (EZ : c_dst c3 t = c_dst c2 t).
        { destruct (cs * 4 + t mod 4 =? 0); [|now injection E2 as <-].
          apply (zero_spares _ _ _ _ _ _ E2); try lia; try exact Ez. }
        rewrite EZ, E1. split; [apply combine_B|]. intros ->. apply combine_U. now right.
      * intros. unfold insert_ps. rewrite Ez, El. reflexivity.
    + apply Old; try assumption.
      * intros. unfold insert_ps. rewrite Ez, El. reflexivity.
      * rewrite Hs. intros k o b Hk Hi' Hb. apply nth2 in Hk.
        destruct Hk as [[-> ->]|[-> ->]]; [|unfold constant in Ci; congruence].
        intros s c0 c1 H. rewrite HM in H.
        apply bind_inv in H. destruct H as (c2 & E1 & H).
        apply bind_inv in H. destruct H as (c3 & E2 & H). injection H as <-. rewrite Hfl.
        assert (EZ : c_dst c3 t = c_dst c2 t).
        { destruct (b =? 0); [|now injection E2 as <-].
          apply (zero_spares _ _ _ _ _ _ E2); try lia; try exact Ez. }
        rewrite EZ. pose proof (maybe_inv _ _ _ _ _ E1 t) as F. rewrite F.
        replace (t =? imm / 16 mod 4 * 4 + b mod 4) with false
          by (Z.div_mod_to_equations; lia).
        now rewrite andb_false_r.
Qed.

(** ** Halves *)

Lemma into_high_ok leave x64 i f a d :
  simple i -> i_opc i = Op_movhps -> i_srcs i = [a] -> real a ->
  o_mem a = false -> o_regsize a = 16 ->
  i_dsts i = [d] -> part_of_reg d -> d_regsize d = 16 ->
  no_laundering leave x64 i f (into_high 0).
Proof.
  intros Hi Ho Hs Ra Ma Sa Hd Pd Rd.
  pose proof Pd as (P1 & P2 & P3 & P4 & P5).
  assert (Hl : subreg_nonlow (i_opc i) = true) by now rewrite Ho.
  assert (Hwd : width i d = 16) by (unfold width; rewrite Hl, P1; exact Rd).
  assert (Hfs : fed_size i a = 16) by (unfold fed_size; rewrite Hl, Ma; exact Sa).
  assert (G : forall k b, goes i a 16 k b (if b <? 8 then Some (b + 8) else None)).
  { intros k b. destruct (b <? 8) eqn:E; [apply goes_at|apply goes_none];
    try (now rewrite Ho); intros s c; opc Ho; rewrite Ma, Hd, P1; cbn [negb];
    rewrite E; reflexivity. }
  apply (one leave x64 i f d); try assumption.
  - now rewrite Hs.
  - split; [exact Hd|]. unfold wf_dest. rewrite Hwd. lia.
  - now rewrite Ho.
  - rewrite Hs. intros k o b s c0 Hk _ Hb. apply nth1 in Hk. destruct Hk as [-> ->].
    rewrite Hfs in *. eapply goes_ok'; [apply G|].
    destruct (b <? 8) eqn:E; [unfold ARRAY_LEN; lia|exact I].
  - rewrite Hwd. intros t Ht. destruct (t <? 8) eqn:E.
    + apply Old; try assumption.
      * intros. unfold into_high. now rewrite E.
      * rewrite Hs. intros k o b Hk _ Hb. apply nth1 in Hk. destruct Hk as [-> ->].
        rewrite Hfs in *. eapply goes_spares; [apply G|].
        destruct (b <? 8); [|discriminate]. intros H. injection H as H. lia.
    + apply From with (k := 0%nat) (o := a) (b := t - 8); try assumption.
      * now rewrite Hs.
      * lia.
      * rewrite Hfs. apply goes_touches. pose proof (G (Z.of_nat 0) (t - 8)) as H.
        replace (t - 8 <? 8) with true in H by lia.
        replace (t - 8 + 8) with t in H by lia. exact H.
      * intros. unfold into_high. rewrite E. cbn [Z.of_nat]. now rewrite Z.add_0_r.
Qed.

Lemma from_high_ok leave x64 i f a d :
  simple i -> i_srcs i = [a] -> real a -> o_mem a = false ->
  (i_opc i = Op_movhps /\ o_regsize a = 16 /\ d_mem d = true \/
   i_opc i = Op_movlps /\ o_size a = 16 /\ d_mem d = false) ->
  one_dest i d -> d_size d = 8 ->
  no_laundering leave x64 i f from_high.
Proof.
  intros Hi Hs Ra Ma Ho HD Sd. pose proof HD as [Hd _].
  assert (Hwd : width i d = 8).
  { unfold width. destruct Ho as [(Ho & _ & M)|(Ho & _ & M)]; rewrite Ho, M; exact Sd. }
  assert (Hfs : fed_size i a = 16).
  { unfold fed_size. rewrite Ma. destruct Ho as [(Ho & S & _)|(Ho & S & _)]; rewrite Ho; exact S. }
  assert (G : forall k b, goes i a 16 k b (if 8 <=? b then Some (b - 8) else None)).
  { intros k b. destruct Ho as [(Ho & S & M)|(Ho & S & M)]; destruct (8 <=? b) eqn:E;
    (apply goes_at || apply goes_none);
    try (now rewrite Ho); intros s c; opc Ho; rewrite Ma, Hd, M; cbn [negb andb];
    change (16 - 8) with 8; rewrite E; reflexivity. }
  apply (one leave x64 i f d); try assumption.
  - now rewrite Hs.
  - destruct Ho as [(Ho & _)|(Ho & _)]; now rewrite Ho.
  - rewrite Hs. intros k o b s c0 Hk _ Hb. apply nth1 in Hk. destruct Hk as [-> ->].
    rewrite Hfs in *. eapply goes_ok'; [apply G|].
    destruct (8 <=? b) eqn:E; [unfold ARRAY_LEN; lia|exact I].
  - rewrite Hwd. intros t Ht.
    apply From with (k := 0%nat) (o := a) (b := t + 8); try assumption.
    + now rewrite Hs.
    + lia.
    + rewrite Hfs. apply goes_touches. pose proof (G (Z.of_nat 0) (t + 8)) as H.
      replace (8 <=? t + 8) with true in H by lia.
      replace (t + 8 - 8) with t in H by lia. exact H.
    + reflexivity.
Qed.

Lemma low_half_ok leave x64 i f a d :
  simple i -> i_opc i = Op_movlps -> i_srcs i = [a] -> real a -> o_mem a = negb (d_mem d) ->
  8 <= o_size a <= 16 -> one_dest i d -> d_size d = 8 ->
  no_laundering leave x64 i f low_half.
Proof.
  intros Hi Ho Hs Ra Ma Sa HD Sd. pose proof HD as [Hd _].
  assert (Hwd : width i d = 8) by (unfold width; rewrite Ho; exact Sd).
  assert (Hfs : fed_size i a = o_size a) by (unfold fed_size; now rewrite Ho).
  assert (G : forall n k b, goes i a n k b (if b <? 8 then Some b else None)).
  { intros n k b. destruct (b <? 8) eqn:E; [apply goes_at|apply goes_none];
    try (now rewrite Ho); intros s c; opc Ho; rewrite Hd;
    destruct (o_mem a), (d_mem d); try discriminate Ma; cbn [negb andb];
    rewrite E; reflexivity. }
  apply (one leave x64 i f d); try assumption.
  - now rewrite Hs.
  - now rewrite Ho.
  - rewrite Hs. intros k o b s c0 Hk _ Hb. apply nth1 in Hk. destruct Hk as [-> ->].
    rewrite Hfs in *. eapply goes_ok'; [apply G|].
    destruct (b <? 8) eqn:E; [unfold ARRAY_LEN; lia|exact I].
  - rewrite Hwd. intros t Ht.
    apply From with (k := 0%nat) (o := a) (b := t); try assumption.
    + now rewrite Hs.
    + lia.
    + apply goes_touches. pose proof (G (fed_size i a) (Z.of_nat 0) t) as H.
      replace (t <? 8) with true in H by lia. exact H.
    + reflexivity.
Qed.

(** ** Shifts by bits *)

(** The bit of the source that bit [p] of the result is. *)
Definition source_bit (o : opcode) (n c p : Z) : Z :=
  match o with
  | Op_shl => p - c
  | Op_shr => p + c
  | _ => Z.min (p + c) (8 * n - 1)
  end.

Lemma sar_fill_ok offs n s m : forall i c, 0 <= offs -> offs + n <= ARRAY_LEN ->
  0 <= i -> i + Z.of_nat m <= n -> exists c1, sar_fill c offs n s i m = Ok c1.
Proof.
  induction m as [|m IH]; intros i c H0 H1 H2 H3; [now eexists|]. cbn [sar_fill].
  destruct (accum_ok c (offs + n - 1 - i) s) as [c1 E]; [lia|].
  rewrite E. cbn [bind]. apply IH; lia.
Qed.

Lemma shift_ok c o sh b offs n s :
  is_shift o -> 0 <= sh -> 0 <= b < n -> 0 <= offs -> offs + n <= ARRAY_LEN ->
  exists c1, map_shift c o (Some sh) b offs n s = Ok (true, c1).
Proof.
  intros Hs Hsh Hb H0 H1. unfold map_shift.
  replace (if n * 8 <? sh then n * 8 else sh) with (Z.min sh (n * 8))
    by (destruct (n * 8 <? sh) eqn:E; lia).
  set (c' := Z.min sh (n * 8)). assert (Hc : 0 <= c' <= n * 8) by lia. clearbody c'. clear Hsh.
  destruct (c' =? 0) eqn:E0.
  { destruct (accum_ok c (offs + b) s) as [c1 E]; [lia|]. rewrite E. now eexists. }
  cbv zeta.
  assert (A : forall c x, 0 <= x < n -> exists c1, accum c (offs + x) s = Ok c1).
  { intros c0 x Hx. apply accum_ok. lia. }
  assert (B : forall (p : bool) c x, (p = true -> 0 <= x < n) ->
    exists c1, (if p then accum c (offs + x) s else Ok c) = Ok c1).
  { intros p c0 x Hx. destruct p; [now apply A, Hx|now eexists]. }
  assert (Hq : 0 <= c' / 8 /\ 0 <= (c' - 1) / 8) by (Z.div_mod_to_equations; lia).
  destruct Hs as [->|[->| ->]].
  - destruct (n <=? b + c' / 8) eqn:E1; [now eexists|].
    destruct (A c (b + c' / 8)) as [c1 X1]; [lia|]. rewrite X1. cbn [bind].
    destruct (B (negb (b + c' / 8 =? b + (c' - 1) / 8 + 1) && (b + (c' - 1) / 8 + 1 <? n))
                c1 (b + (c' - 1) / 8 + 1)) as [c2 X2].
    { intros HH. apply andb_true_iff in HH. destruct HH as [_ HH]. lia. }
    rewrite X2. now eexists.
  - cbn [andb]. destruct (B (0 <=? b - c' / 8) c (b - c' / 8)) as [c1 X1]; [lia|].
    rewrite X1. cbn [bind].
    destruct (B (negb (b - c' / 8 =? b - ((c' - 1) / 8 + 1)) && (0 <=? b - ((c' - 1) / 8 + 1)))
                c1 (b - ((c' - 1) / 8 + 1))) as [c2 X2].
    { intros HH. apply andb_true_iff in HH. destruct HH as [_ HH]. lia. }
    rewrite X2. now eexists.
  - cbn [andb]. destruct (b =? n - 1) eqn:E1.
    + destruct (sar_fill_ok offs n s (Z.to_nat (Z.min (c' / 8 + 1) n)) 0 c) as [c1 X1]; try lia.
      rewrite X1. now eexists.
    + destruct (B (0 <=? b - c' / 8) c (b - c' / 8)) as [c1 X1]; [lia|].
      rewrite X1. cbn [bind].
      destruct (B (negb (b - c' / 8 =? b - ((c' - 1) / 8 + 1)) && (0 <=? b - ((c' - 1) / 8 + 1)))
                  c1 (b - ((c' - 1) / 8 + 1))) as [c2 X2].
      { intros HH. apply andb_true_iff in HH. destruct HH as [_ HH]. lia. }
      rewrite X2. now eexists.
Qed.

(** What an update leaves behind. *)
Definition marked (s x : Z) (c : comb) : Prop :=
  c_dst c x <> BITLEVEL /\ (s = U -> c_dst c x = U).

Lemma marked_accum c x s c1 : accum c x s = Ok c1 -> marked s x c1.
Proof.
  intros H. apply accum_inv in H. destruct H as (_ & _ & H). unfold marked.
  rewrite H, Z.eqb_refl. split; [apply combine_B|]. intros ->. apply combine_U. now right.
Qed.

Lemma marked_kept c x s y c1 : marked s x c -> accum c y s = Ok c1 -> marked s x c1.
Proof.
  intros [H1 H2] H. apply accum_inv in H. destruct H as (_ & _ & H). unfold marked.
  rewrite H. destruct (x =? y) eqn:E; [|now split].
  split; [apply combine_B|]. intros ->. apply combine_U. now right.
Qed.

Lemma marked_maybe (p : bool) c x s y c1 :
  (if p then accum c y s else Ok c) = Ok c1 ->
  marked s x c \/ (p = true /\ x = y) -> marked s x c1.
Proof.
  intros H [M|[-> ->]].
  - destruct p; [exact (marked_kept _ _ _ _ _ M H)|now injection H as <-].
  - exact (marked_accum _ _ _ _ H).
Qed.

Lemma sar_fill_marked offs n s x m : forall i c c1,
  sar_fill c offs n s i m = Ok c1 ->
  marked s x c \/ (exists k, i <= k < i + Z.of_nat m /\ x = offs + n - 1 - k) ->
  marked s x c1.
Proof.
  induction m as [|m IH]; intros i c c1 H Hx.
  - injection H as <-. destruct Hx as [Hx|(k & Hk & _)]; [exact Hx|lia].
  - cbn [sar_fill] in H. apply bind_inv in H. destruct H as (c2 & E & H).
    apply (IH _ _ _ H). destruct Hx as [M|(k & Hk & ->)].
    + left. exact (marked_kept _ _ _ _ _ M E).
    + destruct (Z.eq_dec k i) as [->|Hn].
      * left. exact (marked_accum _ _ _ _ E).
      * right. exists k. lia.
Qed.

Lemma shift_touches c o sh b offs n s r c1 j t :
  is_shift o -> 0 <= sh -> 0 <= b < n -> right_count o n sh ->
  0 <= j < n -> 0 <= t < 8 ->
  0 <= source_bit o n sh (8 * j + t) < 8 * n ->
  source_bit o n sh (8 * j + t) / 8 = b ->
  map_shift c o (Some sh) b offs n s = Ok (r, c1) ->
  r = true /\ marked s (offs + j) c1.
Proof.
  intros Hs Hsh Hb Hr Hj Ht Hp Hpb H. unfold map_shift in H.
  replace (if n * 8 <? sh then n * 8 else sh) with (Z.min sh (n * 8)) in H
    by (destruct (n * 8 <? sh) eqn:E; lia).
  set (c' := Z.min sh (n * 8)) in *.
  destruct (c' =? 0) eqn:E0.
  { apply bind_inv in H. destruct H as (c2 & E & H). injection H as <- <-.
    split; [reflexivity|]. assert (sh = 0) by lia. subst sh.
    replace j with b; [exact (marked_accum _ _ _ _ E)|].
    unfold source_bit in Hpb, Hp. rewrite <- Hpb. clear - Hs Ht Hj Hp.
    destruct Hs as [->|[->| ->]]; Z.div_mod_to_equations; lia. }
  cbv zeta in H.
  destruct Hs as [->|[->| ->]]; cbn [source_bit] in Hp, Hpb.
  - assert (c' = sh) by lia. rewrite H0 in *. clear H0 c'.
    assert (Hj2 : j = b + sh / 8 \/ j = b + (sh - 1) / 8 + 1).
    { clear - Hsh Hpb Ht E0 Hj. Z.div_mod_to_equations. lia. }
    assert (Hlt : b + sh / 8 < n).
    { clear - Hsh Hpb Ht E0 Hj. Z.div_mod_to_equations. lia. }
    replace (n <=? b + sh / 8) with false in H by lia.
    apply bind_inv in H. destruct H as (c2 & E1 & H).
    apply bind_inv in H. destruct H as (c3 & E2 & H). injection H as <- <-.
    split; [reflexivity|]. change (marked s (offs + j) c3).
    destruct (Z.eq_dec j (b + sh / 8)) as [->|Hn].
    + apply (marked_maybe _ _ _ _ _ _ E2). left. exact (marked_accum _ _ _ _ E1).
    + apply (marked_maybe _ _ _ _ _ _ E2). right. split; [|lia].
      apply andb_true_iff. split; lia.
  - assert (c' = sh) by lia. rewrite H0 in *. clear H0 c'. cbn [andb] in H.
    assert (Hj2 : j = b - sh / 8 \/ j = b - ((sh - 1) / 8 + 1)).
    { clear - Hsh Hpb Ht E0 Hj. Z.div_mod_to_equations. lia. }
    apply bind_inv in H. destruct H as (c2 & E1 & H).
    apply bind_inv in H. destruct H as (c3 & E2 & H). injection H as <- <-.
    split; [reflexivity|]. change (marked s (offs + j) c3).
    destruct (Z.eq_dec j (b - sh / 8)) as [->|Hn].
    + apply (marked_maybe _ _ _ _ _ _ E2). left.
      apply (marked_maybe _ _ _ _ _ _ E1). right. split; [lia|reflexivity].
    + apply (marked_maybe _ _ _ _ _ _ E2). right. split; [|lia].
      apply andb_true_iff. split; lia.
  - cbn [andb] in H. specialize (Hr eq_refl). destruct (b =? n - 1) eqn:E1.
    + apply bind_inv in H. destruct H as (c2 & E2 & H). injection H as <- <-.
      split; [reflexivity|]. change (marked s (offs + j) c2).
      apply (sar_fill_marked _ _ _ _ _ _ _ _ E2). right. exists (n - 1 - j).
      split; [|lia]. rewrite Z.add_0_l, Z2Nat.id.
      2:{ subst c'. clear - Hsh Hb. Z.div_mod_to_equations. lia. }
      subst c'. clear - Hsh Hr Hpb Ht Hj E1 Hb. Z.div_mod_to_equations. lia.
    + assert (Hlt : 8 * j + t + sh < 8 * n - 8).
      { clear - Hpb E1 Hb. Z.div_mod_to_equations. lia. }
      assert (c' = sh) by lia. rewrite H0 in *. clear H0 c'.
      assert (Hj2 : j = b - sh / 8 \/ j = b - ((sh - 1) / 8 + 1)).
      { rewrite Z.min_l in Hpb by lia. clear - Hsh Hpb Ht E0 Hj. Z.div_mod_to_equations. lia. }
      apply bind_inv in H. destruct H as (c2 & E2 & H).
      apply bind_inv in H. destruct H as (c3 & E3 & H). injection H as <- <-.
      split; [reflexivity|]. change (marked s (offs + j) c3).
      destruct (Z.eq_dec j (b - sh / 8)) as [->|Hn].
      * apply (marked_maybe _ _ _ _ _ _ E3). left.
        apply (marked_maybe _ _ _ _ _ _ E2). right. split; [lia|reflexivity].
      * apply (marked_maybe _ _ _ _ _ _ E3). right. split; [|lia].
        apply andb_true_iff. split; lia.
Qed.
