(** The source and destination loops, for any instruction. *)
From Verif Require Import Base Def_Model Def_Spec.
Open Scope Z_scope.

Local Notation U := UNDEFINED.

Lemma combine_U a s : combine a s = U <-> a = U \/ s = U.
Proof.
  unfold combine, UNDEFINED, DEFINED.
  destruct (a =? 3) eqn:E1, (s =? 3) eqn:E2; cbn [orb]; lia.
Qed.

Lemma combine_D a s : combine a s <> U -> combine a s = DEFINED.
Proof. unfold combine. destruct (_ || _); congruence. Qed.

Lemma combine_B a s : combine a s <> BITLEVEL.
Proof. unfold combine, UNDEFINED, DEFINED, BITLEVEL. destruct (_ || _); lia. Qed.

Lemma accum_inv c k s c' : accum c k s = Ok c' ->
  0 <= k < ARRAY_LEN /\ c_eflags c' = c_eflags c /\
  forall x, c_dst c' x = if x =? k then combine (c_dst c k) s else c_dst c x.
Proof.
  unfold accum. destruct ((0 <=? k) && (k <? ARRAY_LEN)) eqn:E; [|discriminate].
  intros H. injection H as <-. split; [lia|]. split; reflexivity.
Qed.

Lemma accum_ok c k s : 0 <= k < ARRAY_LEN -> exists c', accum c k s = Ok c'.
Proof.
  intros H. unfold accum. replace ((0 <=? k) && (k <? ARRAY_LEN)) with true by lia.
  eexists. reflexivity.
Qed.

(** Facts about the array that later contributions do not undo. *)
Definition kept (P : comb -> Prop) : Prop :=
  (forall c k s c', P c -> accum c k s = Ok c' -> P c') /\
  (forall c s, P c -> P (accum_flags c s)).

Lemma kept_U x : kept (fun c => c_dst c x = U).
Proof.
  split.
  - intros c k s c' H HA. apply accum_inv in HA. destruct HA as (_ & _ & HA).
    rewrite HA. destruct (x =? k) eqn:E; [|exact H].
    apply combine_U. left. replace k with x by lia. exact H.
  - intros c s H. exact H.
Qed.

Lemma kept_B x : kept (fun c => c_dst c x <> BITLEVEL).
Proof.
  split.
  - intros c k s c' H HA. apply accum_inv in HA. destruct HA as (_ & _ & HA).
    rewrite HA. destruct (x =? k); [apply combine_B|exact H].
  - intros c s H. exact H.
Qed.

Lemma kept_flags : kept (fun c => c_eflags c = U).
Proof.
  split.
  - intros c k s c' H HA. apply accum_inv in HA. destruct HA as (_ & HA & _). congruence.
  - intros c s H. cbn. apply combine_U. now left.
Qed.

Lemma bind_inv {A B} (x : res A) (f : A -> res B) b :
  bind x f = Ok b -> exists a, x = Ok a /\ f a = Ok b.
Proof. apply bind_ok. Qed.

Ltac step H :=
  match type of H with
  | bind ?x _ = Ok _ =>
      let a := fresh "a" in let E := fresh "E" in let H' := fresh H in
      apply bind_inv in H; destruct H as (a & E & H)
  | Ok _ = Ok _ => injection H as H
  | UB = Ok _ => discriminate H
  | (if ?b then _ else _) = Ok _ => destruct b
  | (match ?b with _ => _ end) = Ok _ => destruct b
  | (let _ := _ in _) = Ok _ => cbv zeta in H
  end.

Section Kept.
Variable P : comb -> Prop.
Hypothesis HP : kept P.

Lemma k_accum c k s c' : P c -> accum c k s = Ok c' -> P c'.
Proof. apply HP. Qed.
Lemma k_flags c s : P c -> P (accum_flags c s).
Proof. apply HP. Qed.

Ltac kt := eauto using k_accum, k_flags.

Lemma k_if (b : bool) c k s c' :
  P c -> (if b then accum c k s else Ok c) = Ok c' -> P c'.
Proof. intros H. destruct b; [kt|]. intros HH. injection HH as <-. exact H. Qed.

Lemma k_sar c offs n s i m c' :
  P c -> sar_fill c offs n s i m = Ok c' -> P c'.
Proof.
  revert c i. induction m as [|m IH]; cbn [sar_fill]; intros c i H HH.
  - injection HH as <-. exact H.
  - apply bind_inv in HH. destruct HH as (a & E & HH). eapply IH; [|exact HH]. kt.
Qed.

Lemma k_shift c o v b offs n s r c' :
  P c -> map_shift c o v b offs n s = Ok (r, c') -> P c'.
Proof.
  intros H HH. unfold map_shift in HH. destruct v as [v|]; [|injection HH as _ <-; exact H].
  cbv zeta in HH. revert HH. generalize (if n * 8 <? v then n * 8 else v). intros w HH.
  destruct (w =? 0).
  { apply bind_inv in HH. destruct HH as (a & E & HH). injection HH as _ <-. kt. }
  assert (Hr : forall (q : bool),
    (let map1 := b - w / 8 in
        let map2 := b - ((w - 1) / 8 + 1) in
        if q && (b =? n - 1) then
          let m := Z.min (w / 8 + 1) n in
          let* c := sar_fill c offs n s 0 (Z.to_nat m) in
          Ok (true, accum_flags c s)
        else
          let* c := if 0 <=? map1 then accum c (offs + map1) s else Ok c in
          let* c := if negb (map1 =? map2) && (0 <=? map2)
                    then accum c (offs + map2) s else Ok c in
          Ok (true, accum_flags c s)) = Ok (r, c') -> P c').
  { intros q Hq. cbv zeta in Hq. destruct (q && (b =? n - 1)).
    - apply bind_inv in Hq. destruct Hq as (a & E & Hq). injection Hq as _ <-.
      apply k_flags. eapply k_sar; [exact H|exact E].
    - apply bind_inv in Hq. destruct Hq as (a & E & Hq).
      apply bind_inv in Hq. destruct Hq as (a2 & E2 & Hq). injection Hq as _ <-.
      apply k_flags. eapply k_if; [|exact E2]. eapply k_if; [|exact E]. exact H. }
  destruct o; try (injection HH as _ <-; exact H); try (exact (Hr false HH)); try (exact (Hr true HH)).
  cbv zeta in HH. destruct (n <=? b + w / 8).
  - injection HH as _ <-. destruct (_ =? n); kt.
  - apply bind_inv in HH. destruct HH as (a & E & HH).
    apply bind_inv in HH. destruct HH as (a2 & E2 & HH). injection HH as _ <-.
    apply k_flags. eapply k_if; [|exact E2]. kt.
Qed.

Lemma k_packed c o v w b s r c' :
  P c -> map_packed c o v w b s = Ok (r, c') -> P c'.
Proof.
  intros H HH. unfold map_packed in HH. apply bind_inv in HH.
  destruct HH as ([d c1] & E & HH). apply k_shift in E; [|exact H].
  destruct d; [injection HH as _ <-; exact E|].
  apply bind_inv in HH. destruct HH as (a & E2 & HH). injection HH as _ <-. kt.
Qed.

Lemma k_zero c z i m c' : P c -> zero_lanes c z i m = Ok c' -> P c'.
Proof.
  revert c i. induction m as [|m IH]; cbn [zero_lanes]; intros c i H HH.
  - injection HH as <-. exact H.
  - do 4 (apply bind_inv in HH; let a := fresh "a" in let E := fresh "E" in
          destruct HH as (a & E & HH)).
    eapply IH; [|exact HH].
    repeat (eapply k_if; [|eassumption]). exact H.
Qed.

Lemma k_switch i o n k b s c r c' :
  P c -> map_switch i o n k b s c = Ok (r, c') -> P c'.
Proof.
  intros H HH. unfold map_switch in HH. cbv zeta in HH.
  assert (A : forall x, (let* c := accum c x s in Ok (false, c)) = Ok (r, c') -> P c').
  { intros x Hx. apply bind_inv in Hx. destruct Hx as (a & E & Hx). injection Hx as _ <-. kt. }
  assert (A' : forall x, (let* c := accum c x s in Ok (true, c)) = Ok (r, c') -> P c').
  { intros x Hx. apply bind_inv in Hx. destruct Hx as (a & E & Hx). injection Hx as _ <-. kt. }
  assert (A2 : forall x, (let* c := accum c x DEFINED in Ok (false, c)) = Ok (r, c') -> P c').
  { intros x Hx. apply bind_inv in Hx. destruct Hx as (a & E & Hx). injection Hx as _ <-. kt. }
  assert (S : Ok (false, c) = Ok (r, c') -> P c').
  { intros Hx. injection Hx as _ <-. exact H. }
  destruct (i_opc i); eauto using k_packed;
    try (repeat match type of HH with
         | (if ?x then _ else _) = _ => destruct x
         | (match ?x with _ => _ end) = _ => destruct x
         end; eauto; fail).
  - (* shufps *)
    apply bind_inv in HH. destruct HH as (a & E & HH). injection HH as _ <-.
    destruct (k =? 0); apply bind_inv in E; destruct E as (a2 & E2 & E);
      (eapply k_if; [|exact E]); (eapply k_if; [|exact E2]); exact H.
  - (* insertps *)
    apply bind_inv in HH. destruct HH as (a & E & HH).
    apply bind_inv in HH. destruct HH as (a2 & E2 & HH). injection HH as _ <-.
    assert (Ha : P a) by (eapply k_if; [|exact E]; exact H).
    destruct (b =? 0); [|injection E2 as <-; exact Ha].
    eapply k_zero; [exact Ha|exact E2].
Qed.

Lemma k_map i o n k b s c c' :
  P c -> map_src_to_dst i o n k b s c = Ok c' -> P c'.
Proof.
  intros H HH. unfold map_src_to_dst in HH. apply bind_inv in HH.
  destruct HH as ([d c1] & E & HH).
  assert (H1 : P c1).
  { destruct (gpr_shift (i_opc i)); [eapply k_shift; [exact H|exact E]|].
    injection E as _ <-. exact H. }
  destruct d; [injection HH as <-; exact H1|].
  apply bind_inv in HH. destruct HH as ([d2 c2] & E2 & HH).
  apply k_switch in E2; [|exact H1].
  destruct d2; [injection HH as <-; exact E2|]. injection HH as <-.
  destruct (i_wflags i); [apply k_flags|]; exact E2.
Qed.

Lemma k_feed i o n k b m c c' : P c -> feed i o n k b m c = Ok c' -> P c'.
Proof.
  revert b c. induction m as [|m IH]; cbn [feed]; intros b c H HH.
  - injection HH as <-. exact H.
  - apply bind_inv in HH. destruct HH as (a & E & HH).
    eapply IH; [|exact HH]. eapply k_map; [exact H|exact E].
Qed.

Lemma k_sources leave i k l c c' : P c -> sources leave i k l c = Ok c' -> P c'.
Proof.
  revert k c. induction l as [|o l IH]; cbn [sources]; intros k c H HH.
  - injection HH as <-. exact H.
  - apply bind_inv in HH. destruct HH as (a & E & HH). eapply IH; [|exact HH].
    destruct (_ || _); [injection E as <-; exact H|].
    destruct (_ && _); [injection E as <-; exact H|].
    eapply k_feed; [exact H|exact E].
Qed.

Lemma k_spread f b m c c' : P c -> spread f b m c = Ok c' -> P c'.
Proof.
  revert b c. induction m as [|m IH]; cbn [spread]; intros b c H HH.
  - injection HH as <-. exact H.
  - apply bind_inv in HH. destruct HH as (a & E & HH). eapply IH; [|exact HH]. kt.
Qed.

Lemma k_fsource leave i f c c' : P c -> flags_source leave i f c = Ok c' -> P c'.
Proof.
  intros H HH. unfold flags_source in HH. destruct (_ && _); [|injection HH as <-; exact H].
  cbv zeta in HH. destruct (i_dsts i) as [|d l].
  - injection HH as <-. kt.
  - eapply k_spread; [|exact HH]. kt.
Qed.

(** A contribution that establishes the fact, made by some byte of some
    source. *)
Definition fed (leave : bool) (i : instr) (o : operand) : Prop :=
  o_imm o || i_always i || (o_check o && negb leave) = false /\
  negb (o_mem o) && i_pushpop i && o_xsp o = false.

Lemma feed_hit i o n k b0 m c c' b :
  feed i o n k b0 m c = Ok c' -> b0 <= b < b0 + Z.of_nat m ->
  (forall c0 c1, map_src_to_dst i o n k b (o_sh o b) c0 = Ok c1 -> P c1) -> P c'.
Proof.
  revert b0 c. induction m as [|m IH]; cbn [feed]; intros b0 c HH Hb HM; [lia|].
  apply bind_inv in HH. destruct HH as (a & E & HH).
  destruct (Z.eq_dec b b0) as [->|Hne].
  - eapply k_feed; [|exact HH]. exact (HM _ _ E).
  - apply (IH _ _ HH); [lia|exact HM].
Qed.

Lemma sources_hit leave i k0 l c c' k o b :
  sources leave i k0 l c = Ok c' -> nth_error l k = Some o -> fed leave i o ->
  0 <= b < fed_size i o ->
  (forall c0 c1, map_src_to_dst i o (fed_size i o) (k0 + Z.of_nat k) b (o_sh o b) c0
                 = Ok c1 -> P c1) -> P c'.
Proof.
  revert k0 c k. induction l as [|o' l IH]; intros k0 c k HH Hk HF Hb HM.
  { destruct k; discriminate. }
  cbn [sources] in HH. apply bind_inv in HH. destruct HH as (a & E & HH).
  destruct k as [|k].
  - injection Hk as ->. destruct HF as [HF1 HF2]. rewrite HF1, HF2 in E.
    eapply k_sources; [|exact HH]. rewrite Z.add_0_r in HM.
    eapply feed_hit; [exact E| |exact HM]. lia.
  - apply (IH _ _ k HH Hk HF Hb). intros c0 c1 H0. apply (HM c0 c1).
    rewrite <- H0. f_equal. lia.
Qed.

End Kept.

(** Facts kept by this instruction's own contributions. *)
Lemma sources_inv (P : comb -> Prop) leave i k0 l c c' :
  (forall k o b s c0 c1, nth_error l k = Some o -> fed leave i o ->
     0 <= b < fed_size i o -> P c0 ->
     map_src_to_dst i o (fed_size i o) (k0 + Z.of_nat k) b s c0 = Ok c1 -> P c1) ->
  P c -> sources leave i k0 l c = Ok c' -> P c'.
Proof.
  revert k0 c. induction l as [|o l IH]; intros k0 c HM H HH.
  { injection HH as <-. exact H. }
  cbn [sources] in HH. apply bind_inv in HH. destruct HH as (a & E & HH).
  assert (Ha : P a).
  { destruct (o_imm o || _ || _) eqn:E1; [injection E as <-; exact H|].
    destruct (negb (o_mem o) && _ && _) eqn:E2; [injection E as <-; exact H|].
    assert (HF : fed leave i o) by (split; assumption).
    assert (G : forall m b c c', 0 <= b -> b + Z.of_nat m <= fed_size i o \/ m = O ->
      P c -> feed i o (fed_size i o) k0 b m c = Ok c' -> P c').
    { clear E HH H a c c' IH. induction m as [|m IHm]; cbn [feed]; intros b c c' Hb Hm H E.
      - injection E as <-. exact H.
      - apply bind_inv in E. destruct E as (a & E & HH).
        apply (IHm (b + 1) a c'); [lia|lia| |exact HH].
        apply (HM O o b (o_sh o b) c a eq_refl HF); [lia|exact H|].
        rewrite Z.add_0_r. exact E. }
    apply (G _ _ _ _ (Z.le_refl 0)) in E; [exact E|lia|exact H]. }
  eapply (IH _ _ _ Ha HH). Unshelve.
  intros k o' b s c0 c1 Hk HF Hb Hc Hm. apply (HM (S k) o' b s c0 c1 Hk HF Hb Hc).
  rewrite <- Hm. f_equal. lia.
Qed.

Lemma sources_ok leave i k0 l c :
  (forall k o b s c0, nth_error l k = Some o -> fed leave i o -> 0 <= b < fed_size i o ->
     exists c1, map_src_to_dst i o (fed_size i o) (k0 + Z.of_nat k) b s c0 = Ok c1) ->
  exists c', sources leave i k0 l c = Ok c'.
Proof.
  revert k0 c. induction l as [|o l IH]; intros k0 c HM.
  { eexists. reflexivity. }
  cbn [sources].
  assert (Ha : exists a, (if o_imm o || i_always i || (o_check o && negb leave) then Ok c
      else if negb (o_mem o) && i_pushpop i && o_xsp o then Ok c
      else feed i o (fed_size i o) k0 0 (Z.to_nat (fed_size i o)) c) = Ok a).
  { destruct (o_imm o || _ || _) eqn:E1; [eexists; reflexivity|].
    destruct (negb (o_mem o) && _ && _) eqn:E2; [eexists; reflexivity|].
    assert (HF : fed leave i o) by (split; assumption).
    assert (G : forall m b c, 0 <= b -> b + Z.of_nat m <= fed_size i o \/ m = O ->
      exists c', feed i o (fed_size i o) k0 b m c = Ok c').
    { clear c IH. induction m as [|m IHm]; cbn [feed]; intros b c Hb Hm.
      - eexists. reflexivity.
      - destruct (HM O o b (o_sh o b) c eq_refl HF) as [c1 H1]; [lia|].
        rewrite Z.add_0_r in H1. rewrite H1. cbn [bind]. apply IHm; lia. }
    apply G; lia. }
  destruct Ha as [a Ha]. rewrite Ha. cbn [bind]. apply IH.
  intros k o' b s c0 Hk HF Hb. destruct (HM (S k) o' b s c0 Hk HF Hb) as [c1 H1].
  exists c1. rewrite <- H1. f_equal. lia.
Qed.

Lemma spread_ok f b m c : 0 <= b -> b + Z.of_nat m <= ARRAY_LEN ->
  exists c', spread f b m c = Ok c'.
Proof.
  revert b c. induction m as [|m IH]; cbn [spread]; intros b c H1 H2.
  - eexists. reflexivity.
  - destruct (accum_ok c b (flag_state f b)) as [a Ha]; [lia|]. rewrite Ha. cbn [bind].
    apply IH; lia.
Qed.

Lemma spread_hit f b m c c' x : spread f b m c = Ok c' -> b <= x < b + Z.of_nat m ->
  flag_state f x = U -> c_dst c' x = U.
Proof.
  revert b c. induction m as [|m IH]; cbn [spread]; intros b c HH Hx Hf; [lia|].
  apply bind_inv in HH. destruct HH as (a & E & HH).
  destruct (Z.eq_dec x b) as [->|Hne].
  - eapply (k_spread _ (kept_U b)); [|exact HH].
    apply accum_inv in E. destruct E as (_ & _ & E). rewrite E, Z.eqb_refl.
    apply combine_U. now right.
  - apply (IH _ _ HH); [lia|exact Hf].
Qed.

(** ** Destinations *)

Lemma read_ok c k : 0 <= k < ARRAY_LEN -> read c k = Ok (c_dst c k).
Proof. intros H. unfold read. now replace ((0 <=? k) && (k <? ARRAY_LEN)) with true by lia. Qed.

Lemma set_bytes_ok c base b m r :
  0 <= base + b -> base + b + Z.of_nat m <= ARRAY_LEN ->
  exists r', set_bytes c base b m r = Ok r' /\
    forall x, r' x = if (b <=? x) && (x <? b + Z.of_nat m) then c_dst c (base + x) else r x.
Proof.
  revert b r. induction m as [|m IH]; cbn [set_bytes]; intros b r H1 H2.
  - exists r. split; [reflexivity|]. intros x.
    replace ((b <=? x) && (x <? b + Z.of_nat 0)) with false by lia. reflexivity.
  - rewrite read_ok by lia. cbn [bind].
    destruct (IH (b + 1) (fun x => if x =? b then c_dst c (base + b) else r x))
      as (r' & Hr & Hx); [lia|lia|].
    exists r'. split; [exact Hr|]. intros x. rewrite Hx.
    destruct ((b + 1 <=? x) && (x <? b + 1 + Z.of_nat m)) eqn:E1.
    + replace ((b <=? x) && (x <? b + Z.of_nat (S m))) with true by lia. reflexivity.
    + destruct (x =? b) eqn:E2.
      * replace ((b <=? x) && (x <? b + Z.of_nat (S m))) with true by lia.
        f_equal. lia.
      * replace ((b <=? x) && (x <? b + Z.of_nat (S m))) with false by lia. reflexivity.
Qed.

Lemma get_bytes_ok c b m :
  0 <= b -> b + Z.of_nat m <= ARRAY_LEN ->
  exists l, get_bytes c b m = Ok l /\
    forall x, 0 <= x < Z.of_nat m -> nth (Z.to_nat x) l DEFINED = c_dst c (b + x).
Proof.
  revert b. induction m as [|m IH]; cbn [get_bytes]; intros b H1 H2.
  - exists nil. split; [reflexivity|]. lia.
  - rewrite read_ok by lia. cbn [bind]. destruct (IH (b + 1)) as (l & Hl & Hx); [lia|lia|].
    rewrite Hl. cbn [bind]. eexists. split; [reflexivity|]. intros x H.
    destruct (Z.eq_dec x 0) as [->|Hne].
    + cbn. f_equal. lia.
    + replace (Z.to_nat x) with (S (Z.to_nat (x - 1))) by lia. cbn [nth].
      rewrite Hx by lia. f_equal. lia.
Qed.

(** The register's states before, with the cleared upper half. *)
Definition before (x64 : bool) (d : dest) : Z -> Z :=
  if x64 && (d_size d =? 4) && d_gpr d
  then fun x => if (4 <=? x) && (x <? 8) then DEFINED else d_prior d x
  else d_prior d.

Definition base (i : instr) (k : Z) (d : dest) : Z :=
  if d_mem d then 0 else dest_shift (i_opc i) k d * width i d.

(** The state byte [t] of the operand gets. *)
Definition state (x64 : bool) (i : instr) (c : comb) (k : Z) (d : dest) (t : Z) : Z :=
  let s := c_dst c (base i k d + t) in
  if subreg_nonlow (i_opc i) && negb (d_mem d) && (s =? BITLEVEL)
  then before x64 d t else s.

Lemma assign_register_ok x64 i k d c :
  wf_dest i d -> d_mem d = false -> i_pushpop i && d_xsp d = false ->
  0 <= base i k d -> base i k d + width i d <= ARRAY_LEN ->
  exists st, assign_register x64 i k d c = Ok st /\
    forall x, st x = match written i d x with
                     | Some t => state x64 i c k d t
                     | None => before x64 d x
                     end.
Proof.
  intros (Hs & Hw & Ho) Hm Hx Hb0 Hb1. unfold assign_register. rewrite Hx.
  fold (before x64 d). cbv zeta. unfold state, written in *. unfold base, width in *.
  rewrite Hm in *. cbn [negb] in *. rewrite andb_true_r in *.
  destruct (subreg_nonlow (i_opc i)) eqn:En.
  - assert (Hd : dest_shift (i_opc i) k d = 0).
    { destruct (i_opc i); try discriminate En; reflexivity. }
    rewrite Hd in *. cbn [Z.mul] in *.
    destruct (Ho eq_refl) as [Ho1 Ho2]. set (w := d_regsize d) in *.
    rewrite read_ok by lia. cbn [bind c_dst].
    destruct (set_bytes_ok {| c_dst := fun x => if (0 <=? x) && (x <? w) &&
        (c_dst c x =? BITLEVEL) then before x64 d x else c_dst c x;
        c_eflags := c_eflags c |} 0 1 (Z.to_nat (w - 1))
        (fun x => if x =? d_offs d then
           (if (0 <=? 0) && (0 <? w) && (c_dst c 0 =? BITLEVEL) then before x64 d 0 else c_dst c 0)
           else before x64 d x)) as (st & Hst & HX); [lia|lia|].
    exists st. split; [exact Hst|]. intros x. rewrite HX. cbn [c_dst].
    rewrite Z.add_0_l. clear Hst HX.
    destruct ((1 <=? x) && (x <? 1 + Z.of_nat (Z.to_nat (w - 1)))) eqn:E1.
    + replace (w =? 1) with false by lia. replace ((0 <=? x) && (x <? w)) with true by lia.
      rewrite ?Z.add_0_l, ?Z.add_0_r. reflexivity.
    + destruct (x =? d_offs d) eqn:E2.
      * replace ((0 <=? 0) && (0 <? w)) with true by lia. rewrite ?Z.add_0_l.
        destruct (w =? 1) eqn:E3; [reflexivity|].
        replace x with 0 by lia. replace ((0 <=? 0) && (0 <? w)) with true by lia.
        rewrite ?Z.add_0_l. reflexivity.
      * destruct (w =? 1) eqn:E3; [reflexivity|].
        replace ((0 <=? x) && (x <? w)) with false by lia. reflexivity.
  - cbn [andb] in *. destruct (Ho eq_refl) as [Ho1 Ho2]. set (w := d_size d) in *.
    set (bs := dest_shift (i_opc i) k d * w) in *.
    rewrite read_ok by lia. cbn [bind].
    destruct (set_bytes_ok c bs 1 (Z.to_nat (w - 1))
        (fun x => if x =? d_offs d then c_dst c bs else before x64 d x))
      as (st & Hst & HX); [lia|lia|].
    exists st. split; [exact Hst|]. intros x. rewrite HX. clear Hst HX.
    destruct ((1 <=? x) && (x <? 1 + Z.of_nat (Z.to_nat (w - 1)))) eqn:E1.
    + replace (w =? 1) with false by lia. replace ((0 <=? x) && (x <? w)) with true by lia.
      reflexivity.
    + destruct (x =? d_offs d) eqn:E2.
      * destruct (w =? 1) eqn:E3; [f_equal; lia|].
        replace x with 0 by lia. replace ((0 <=? 0) && (0 <? w)) with true by lia.
        f_equal; lia.
      * destruct (w =? 1) eqn:E3; [reflexivity|].
        replace ((0 <=? x) && (x <? w)) with false by lia. reflexivity.
Qed.

Lemma dests_ok leave x64 i k0 l c (Q : nat -> dest -> (Z -> Z) -> Prop) :
  (forall k d, nth_error l k = Some d -> exists st,
     (if d_mem d then assign_memory leave i d c
      else assign_register x64 i (k0 + Z.of_nat k) d c) = Ok st /\ Q k d st) ->
  exists ds, dests leave x64 i k0 l c = Ok ds /\ length ds = length l /\
    forall k d st, nth_error l k = Some d -> nth_error ds k = Some st -> Q k d st.
Proof.
  revert k0 Q. induction l as [|d l IH]; intros k0 Q H.
  - exists nil. split; [reflexivity|]. split; [reflexivity|]. intros [|k]; discriminate.
  - cbn [dests]. destruct (H O d eq_refl) as (st & Hst & HQ).
    rewrite Z.add_0_r in Hst. rewrite Hst. cbn [bind].
    destruct (IH (k0 + 1) (fun k => Q (S k))) as (ds & Hds & Hl & Hn).
    { intros k d' Hk. destruct (H (S k) d' Hk) as (st' & Hst' & HQ').
      exists st'. split; [|exact HQ']. rewrite <- Hst'.
      replace (k0 + 1 + Z.of_nat k) with (k0 + Z.of_nat (S k)) by lia. reflexivity. }
    rewrite Hds. cbn [bind]. eexists. split; [reflexivity|]. split; [cbn; lia|].
    intros [|k] d' st'; cbn [nth_error].
    + intros E1 E2. injection E1 as <-. injection E2 as <-. exact HQ.
    + intros E1 E2. exact (Hn k d' st' E1 E2).
Qed.

(** ** What has to be shown for each instruction *)
Lemma launder_core' leave x64 i f res :
  i_always i = false ->
  (forall k d, nth_error (i_dsts i) k = Some d -> wf_dest i d /\
     0 <= base i (Z.of_nat k) d /\ base i (Z.of_nat k) d + width i d <= ARRAY_LEN) ->
  (exists c c1, sources leave i 0 (i_srcs i) (init_comb i) = Ok c /\
     flags_source leave i f c = Ok c1) ->
  (forall c c1, sources leave i 0 (i_srcs i) (init_comb i) = Ok c ->
     flags_source leave i f c = Ok c1 ->
     forall vs ws old old' fl fl',
       agree_srcs leave i vs ws -> agree_old i old old' -> agree_flags leave i f fl fl' ->
     forall k d t, nth_error (i_dsts i) k = Some d -> counts i d = true ->
       0 <= t < width i d ->
       state x64 i c1 (Z.of_nat k) d t <> U \/ (i_srcs i = nil /\ i_rflags i = false) \/
         (i_check i = true /\ leave = false) ->
       res vs fl old (Z.of_nat k) t = res ws fl' old' (Z.of_nat k) t) ->
  no_laundering leave x64 i f res.
Proof.
  intros Ha Hd (c & c1 & E1 & E2) HM. unfold no_laundering, propagate.
  rewrite E1. cbn [bind]. rewrite E2. cbn [bind].
  destruct (dests_ok leave x64 i 0 (i_dsts i) c1
    (fun k d st => counts i d = true ->
       forall x, (d_mem d = true -> 0 <= x < d_size d) ->
       (st x = match written i d x with
              | Some t => state x64 i c1 (Z.of_nat k) d t
              | None => before x64 d x
              end \/ (i_srcs i = nil /\ i_rflags i = false /\ written i d x <> None) \/
                 (i_check i = true /\ leave = false /\ written i d x <> None))))
    as (ds & Hds & Hl & Hn).
  { intros k d Hk. destruct (Hd k d Hk) as (Hw & Hb0 & Hb1).
    destruct (d_mem d) eqn:Em.
    - unfold assign_memory. rewrite Ha. cbn [orb andb].
      destruct Hw as (Hs & Hw & _).
      assert (Hwd : width i d = d_size d).
      { unfold width. rewrite Em. cbn [negb]. now rewrite andb_false_r. }
      destruct (match i_srcs i with nil => negb (i_rflags i) | _ :: _ => false end) eqn:En.
      + cbn [orb]. eexists. split; [reflexivity|]. intros _ x Hx. right. left.
        destruct (i_srcs i); [|discriminate]. split; [reflexivity|].
        split; [destruct (i_rflags i); [discriminate|reflexivity]|].
        unfold written. rewrite Em, Hwd. specialize (Hx eq_refl).
        replace ((0 <=? x) && (x <? d_size d)) with true by lia. discriminate.
      + cbn [orb]. destruct (i_check i && negb leave) eqn:Ec.
        { eexists. split; [reflexivity|]. intros _ x Hx. right. right.
          destruct (i_check i), leave; try discriminate. split; [reflexivity|]. split; [reflexivity|].
          unfold written. rewrite Em, Hwd. specialize (Hx eq_refl).
          replace ((0 <=? x) && (x <? d_size d)) with true by lia. discriminate. }
        unfold base in *. rewrite Em in *.
        destruct (get_bytes_ok c1 0 (Z.to_nat (d_size d))) as (l & Hl & Hx); [lia|lia|].
        rewrite Hl. cbn [bind]. eexists. split; [reflexivity|]. intros _ x Hxr. left.
        specialize (Hxr eq_refl). rewrite Hx by lia.
        unfold written, state, base. rewrite Em, Hwd.
        replace ((0 <=? x) && (x <? d_size d)) with true by lia.
        cbn [negb]. rewrite andb_false_r. reflexivity.
    - rewrite Z.add_0_l.
      destruct (i_pushpop i && d_xsp d) eqn:Ep.
      + unfold assign_register. rewrite Ep. cbv zeta.
        eexists. split; [reflexivity|]. intros HC. unfold counts in HC.
        rewrite Em, Ep in HC. discriminate.
      + destruct (assign_register_ok x64 i (Z.of_nat k) d c1 Hw Em Ep Hb0 Hb1)
          as (st & Hst & Hx).
        exists st. split; [exact Hst|]. intros _ x _. left. apply Hx. }
  rewrite Hds. cbn [bind]. eexists ds, _. split; [reflexivity|]. split; [exact Hl|].
  intros vs ws old old' fl fl' HA HO HF k d st x Hk Hst HC Hx HU.
  specialize (Hn k d st Hk Hst HC x Hx).
  specialize (HM c c1 E1 E2 vs ws old old' fl fl' HA HO HF k d).
  unfold contents. destruct (written i d x) as [t|] eqn:Ew.
  - assert (Ht : 0 <= t < width i d).
    { destruct (Hd k d Hk) as ((_ & Hw & _) & _ & _). unfold written in Ew.
      destruct (d_mem d).
      - destruct ((0 <=? x) && (x <? width i d)) eqn:E; [|discriminate].
        injection Ew as <-. lia.
      - destruct (width i d =? 1) eqn:E3.
        + destruct (x =? d_offs d); [|discriminate]. injection Ew as <-. lia.
        + destruct ((0 <=? x) && (x <? width i d)) eqn:E; [|discriminate].
          injection Ew as <-. lia. }
    apply HM; try assumption. destruct Hn as [Hn|[(Hn1 & Hn2 & _)|(Hn1 & Hn2 & _)]].
    + left. congruence.
    + right. left. now split.
    + right. right. now split.
  - destruct (x64 && (d_size d =? 4) && d_gpr d && (4 <=? x) && (x <? 8)) eqn:E4;
      [reflexivity|].
    apply (HO k d Hk). destruct Hn as [Hn|[(_ & _ & Hn)|(_ & _ & Hn)]]; [|congruence|congruence].
    rewrite Hn in HU. unfold before in HU.
    destruct (x64 && (d_size d =? 4) && d_gpr d) eqn:E5; [|exact HU].
    rewrite <- andb_assoc in E4. cbn [andb] in E4. rewrite E4 in HU. exact HU.
Qed.

Lemma launder_core leave x64 i f res :
  i_always i = false -> i_check i = false ->
  (forall k d, nth_error (i_dsts i) k = Some d -> wf_dest i d /\
     0 <= base i (Z.of_nat k) d /\ base i (Z.of_nat k) d + width i d <= ARRAY_LEN) ->
  (exists c c1, sources leave i 0 (i_srcs i) (init_comb i) = Ok c /\
     flags_source leave i f c = Ok c1) ->
  (forall c c1, sources leave i 0 (i_srcs i) (init_comb i) = Ok c ->
     flags_source leave i f c = Ok c1 ->
     forall vs ws old old' fl fl',
       agree_srcs leave i vs ws -> agree_old i old old' -> agree_flags leave i f fl fl' ->
     forall k d t, nth_error (i_dsts i) k = Some d -> counts i d = true ->
       0 <= t < width i d ->
       state x64 i c1 (Z.of_nat k) d t <> U \/ (i_srcs i = nil /\ i_rflags i = false) ->
       res vs fl old (Z.of_nat k) t = res ws fl' old' (Z.of_nat k) t) ->
  no_laundering leave x64 i f res.
Proof.
  intros Ha Hc Hd HE HM. apply launder_core'; try assumption.
  intros c c1 H1 H2 vs ws old old' fl fl' HA HO HF k d t Hk HC Ht [HU|[HU|[HU _]]].
  - exact (HM c c1 H1 H2 vs ws old old' fl fl' HA HO HF k d t Hk HC Ht (or_introl HU)).
  - exact (HM c c1 H1 H2 vs ws old old' fl fl' HA HO HF k d t Hk HC Ht (or_intror HU)).
  - congruence.
Qed.
