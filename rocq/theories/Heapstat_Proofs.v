(** Proofs about Dr. Heapstat, 1: the figures of the live snapshot. *)
From Verif Require Import Base Heapstat_Model Heapstat_Spec.
Local Open Scope Z_scope.

Lemma ok_inj {A} (a b : A) : Ok a = Ok b -> a = b.
Proof. congruence. Qed.

(** * Slots *)
Lemma upd_len : forall l i v, List.length (upd l i v) = List.length l.
Proof. induction l; destruct i; simpl; intros; auto. Qed.
Lemma slot_upd_same : forall l i v, (i < List.length l)%nat -> slot (upd l i v) i = v.
Proof.
  induction l; destruct i; simpl; intros; try lia; auto.
  apply IHl; lia.
Qed.
Lemma slot_upd_other : forall l i j v, i <> j -> slot (upd l i v) j = slot l j.
Proof.
  induction l; destruct i, j; simpl; intros; auto; try lia.
  apply IHl; lia.
Qed.
Lemma next_slot_bound : forall k l i fl fr i' fl' fr', (0 < List.length l)%nat ->
  next_slot k l i fl fr = Ok (i', fl', fr') -> (i' < List.length l)%nat.
Proof.
  induction k; intros l i fl fr i' fl' fr' L H; [discriminate|].
  cbn [next_slot] in H.
  destruct (Nat.leb_spec (List.length l) (S i)) as [G|G]; cbn [fst snd] in H.
  - destruct (0 <? _); [|injection H as <- <- <-; lia].
    destruct (_ =? 0); [discriminate|].
    destruct (_ =? 0); [eauto|injection H as <- <- <-; lia].
  - destruct (0 <? _); [|injection H as <- <- <-; lia].
    destruct (fr =? 0); [discriminate|].
    destruct (_ =? 0); [eauto|injection H as <- <- <-; lia].
Qed.

(** * What stays when a snapshot is taken *)
Definition content (s : snap) := (s_mallocs s, s_asked s, s_usable s, s_occ s, s_used s).
Lemma content_stamp s t : content (set_stamp s t) = content s.
Proof. reflexivity. Qed.
Lemma content_occ s s' : content s = content s' -> s_occ s = s_occ s'.
Proof. unfold content; intros H; congruence. Qed.
Lemma shows_content c bs s s' : content s = content s' -> shows c bs s -> shows c bs s'.
Proof.
  unfold content, shows; intros H.
  injection H as H1 H2 H3 H4 H5. rewrite H2, H3, H4, H5. auto.
Qed.

Definition wf (c : cfg) (w : st) : Prop :=
  List.length (snaps w) = c_n c /\ (idx w < c_n c)%nat.

Lemma check_peak_same c w :
  snaps (check_peak c w) = snaps w /\ idx (check_peak c w) = idx w /\
  fills (check_peak c w) = fills w /\ freq (check_peak c w) = freq w /\
  stamp (check_peak c w) = stamp w /\ bcount (check_peak c w) = bcount w /\
  acount (check_peak c w) = acount w /\ af_cur (check_peak c w) = af_cur w.
Proof.
  unfold check_peak. destruct (_ <? _); [|repeat split].
  destruct (_ || _); repeat split.
Qed.
Lemma check_peak_live c w : live (check_peak c w) = live w.
Proof.
  unfold live. destruct (check_peak_same c w) as (-> & -> & _). reflexivity.
Qed.
Lemma check_peak_wf c w : wf c w -> wf c (check_peak c w).
Proof. unfold wf. destruct (check_peak_same c w) as (-> & -> & _). auto. Qed.

Lemma take_wf c w w' : (0 < c_n c)%nat -> wf c w -> take c w = Ok w' ->
  wf c w' /\ content (live w') = content (live w).
Proof.
  intros N [L B] H. unfold take in H.
  apply bind_ok in H. destruct H as [[[i fl] fr] [H1 H2]].
  apply ok_inj in H2. subst w'.
  set (l1 := snaps (stamped w)) in *.
  assert (L1 : List.length l1 = c_n c) by (unfold l1; cbn [stamped snaps]; rewrite upd_len; auto).
  assert (E1 : content (slot l1 (idx w)) = content (live w)).
  { unfold l1. cbn [stamped snaps]. rewrite slot_upd_same by lia. reflexivity. }
  clearbody l1.
  apply next_slot_bound in H1; [|lia].
  unfold wf; cbn [snaps idx]. unfold live at 1; cbn [snaps idx].
  rewrite upd_len, slot_upd_same by lia.
  split; [lia|exact E1].
Qed.
Lemma post_loop_wf c : (0 < c_n c)%nat -> forall k d w w', wf c w ->
  post_loop c k d w = Ok w' -> wf c w' /\ content (live w') = content (live w).
Proof.
  intros N; induction k; intros d w w' F H; cbn [post_loop] in H.
  - destruct (_ <? _); [discriminate|]. injection H as <-. auto.
  - destruct (_ <? _); [|injection H as <-; auto].
    apply bind_ok in H. destruct H as [w1 [H1 H2]].
    destruct (take_wf c w w1 N F H1) as [F1 E1].
    destruct (IHk _ _ _ F1 H2) as [F2 E2]. split; [auto|congruence].
Qed.
Lemma post_wf c w a p o w' : (0 < c_n c)%nat -> wf c w ->
  account_post c w a p o = Ok w' -> wf c w' /\ content (live w') = content (live w).
Proof.
  intros N F H. unfold account_post in H.
  apply bind_ok in H. destruct H as [w1 [H1 H2]]. injection H2 as <-.
  change (wf c w1 /\ content (live w1) = content (live w)).
  destruct (c_unit c).
  - destruct (negb _); [discriminate|].
    destruct (_ <? _).
    + apply bind_ok in H1. destruct H1 as [w2 [H1 H2]]. injection H2 as <-.
      exact (post_loop_wf c N _ _ _ _ F H1).
    + injection H1 as <-. auto.
  - destruct (_ <=? _).
    + apply bind_ok in H1. destruct H1 as [w2 [H1 H2]]. injection H2 as <-.
      exact (take_wf c (with_counts w (af_cur w) (bcount w) (acount w - 1)) w2 N F H1).
    + injection H1 as <-. auto.
  - injection H1 as <-. auto.
Qed.
Lemma with_live_wf c w s : wf c w -> wf c (with_live w s) /\ live (with_live w s) = s.
Proof.
  intros [L B]. unfold wf, live; cbn [with_live snaps idx]. rewrite upd_len.
  split; [auto|]. apply slot_upd_same. lia.
Qed.

(** * Sums *)
Lemma tot_ext f g bs : (forall b, In b bs -> f b = g b) -> tot f bs = tot g bs.
Proof.
  induction bs; simpl; intros H; auto.
  rewrite H, IHbs by auto. reflexivity.
Qed.
Lemma tot_add f g bs : tot (fun b => f b + g b) bs = tot f bs + tot g bs.
Proof. induction bs; simpl; lia. Qed.
Lemma tot_scale k f bs : tot (fun b => k * f b) bs = k * tot f bs.
Proof. induction bs; simpl; lia. Qed.
Lemma tot_remove f h bs b : NoDup (map b_h bs) -> In b bs -> b_h b = h ->
  tot f (filter (fun x => negb (b_h x =? h)) bs) = tot f bs - f b.
Proof.
  induction bs as [|x r IH]; simpl; intros D I E; [easy|].
  inversion D as [|? ? D1 D2]; subst.
  destruct I as [->|I].
  - rewrite Z.eqb_refl. simpl.
    assert (Q : filter (fun x => negb (b_h x =? b_h b)) r = r).
    { clear -D1. induction r as [|y r IH]; simpl; auto. simpl in D1.
      destruct (Z.eqb_spec (b_h y) (b_h b)); [exfalso; apply D1; auto|].
      simpl. rewrite IH; auto. }
    rewrite Q. lia.
  - destruct (Z.eqb_spec (b_h x) (b_h b)) as [E|E].
    { exfalso. apply D1. rewrite E. apply in_map. auto. }
    simpl. rewrite IH; auto. lia.
Qed.
Lemma tot_replace f h g bs b : NoDup (map b_h bs) -> In b bs -> b_h b = h ->
  tot f (map (fun x => if b_h x =? h then g x else x) bs) = tot f bs - f b + f (g b).
Proof.
  induction bs as [|x r IH]; simpl; intros D I E; [easy|].
  inversion D as [|? ? D1 D2]; subst.
  destruct I as [->|I].
  - rewrite Z.eqb_refl.
    assert (Q : map (fun x => if b_h x =? b_h b then g x else x) r = r).
    { clear -D1. induction r as [|y r IH]; simpl; auto. simpl in D1.
      destruct (Z.eqb_spec (b_h y) (b_h b)); [exfalso; apply D1; auto|].
      rewrite IH; auto. }
    rewrite Q. lia.
  - destruct (Z.eqb_spec (b_h x) (b_h b)) as [E|E].
    { exfalso. apply D1. rewrite E. apply in_map. auto. }
    rewrite IH; auto. lia.
Qed.
Lemma sel_one_nonneg id bs : 0 <= tot (sel id one) bs.
Proof.
  induction bs; simpl; try lia. unfold sel at 1, one at 1. destruct (_ =? _); lia.
Qed.
Lemma sel_one_pos id bs :
  0 < tot (sel id one) bs <-> exists b, In b bs /\ b_id b = id.
Proof.
  induction bs as [|x r IH]; simpl.
  - split; [lia|]. intros (b & [] & _).
  - pose proof (sel_one_nonneg id r). unfold sel at 1, one at 1.
    destruct (Z.eqb_spec (b_id x) id) as [E|E].
    + split; intros; [|lia]. exists x. auto.
    + rewrite Z.add_0_l, IH. split.
      * intros (b & I & Eb). exists b; auto.
      * intros (b & [->|I] & Eb); [congruence|]. exists b; auto.
Qed.
Lemma sel_zero id f bs : tot (sel id one) bs = 0 -> tot (sel id f) bs = 0.
Proof.
  induction bs as [|x r IH]; simpl; auto.
  pose proof (sel_one_nonneg id r). unfold sel at 1 3, one at 1.
  destruct (_ =? _); intros; [lia|]. rewrite IH; lia.
Qed.
Lemma sel_one_le id bs : tot (sel id one) bs <= Z.of_nat (List.length bs).
Proof.
  induction bs as [|x r IH]; cbn [tot List.length]; [lia|].
  unfold sel at 1, one at 1. destruct (_ =? _); lia.
Qed.

(** * One change *)
Lemma has_in id l : has id l = true <-> In id (map n_id l).
Proof.
  unfold has. rewrite existsb_exists, in_map_iff. split.
  - intros (x & I & E). exists x. split; [lia|auto].
  - intros (x & E & I). exists x. split; [auto|lia].
Qed.
Lemma bump_id id d a p o rl n : n_id (bump id d a p o rl n) = n_id n.
Proof. unfold bump. destruct (Z.eqb_spec (n_id n) id); auto. Qed.
Lemma bump_ids id d a p o rl l :
  map n_id (map (bump id d a p o rl) l) = map n_id l.
Proof.
  rewrite map_map. apply map_ext. intros; apply bump_id.
Qed.
Lemma filter_ids_nodup P (l : list node) : NoDup (map n_id l) -> NoDup (map n_id (filter P l)).
Proof.
  induction l as [|x r IH]; simpl; intros D; auto.
  inversion D; subst. destruct (P x); simpl; auto.
  constructor; auto. intros I. apply H1.
  rewrite in_map_iff in *. destruct I as (y & E & I).
  apply filter_In in I. exists y. tauto.
Qed.
Lemma mod_add_l a b m : (a mod m + b) mod m = (a + b) mod m.
Proof. apply Zplus_mod_idemp_l. Qed.

Lemma account_shows c bs bs' s s' id a p o d rl :
  shows c bs s -> account_pre s id a p o rl = Ok s' ->
  (rl = false -> d = if 0 <? a + p then 1 else -1) ->
  (rl = true -> d = 0 /\ 0 < tot (sel id one) bs) ->
  o = c_hdr c * d ->
  (forall i, tot (sel i one) bs' = tot (sel i one) bs + (if i =? id then d else 0)) ->
  (forall i, tot (sel i b_req) bs' = tot (sel i b_req) bs + (if i =? id then a else 0)) ->
  (forall i, tot (sel i b_pad) bs' = tot (sel i b_pad) bs + (if i =? id then p else 0)) ->
  tot b_req bs' = tot b_req bs + a ->
  tot b_pad bs' = tot b_pad bs + p ->
  tot one bs' = tot one bs + d ->
  few bs' ->
  shows c bs' s'.
Proof.
  intros (A & U & O & D & M & F) H R1 R2 Eo C1 C2 C3 T1 T2 T3 FW.
  assert (HDR : forall i l, tot (sel i (fun _ => c_hdr c)) l = c_hdr c * tot (sel i one) l).
  { intros. rewrite <- tot_scale. apply tot_ext. intros b _. unfold sel, one.
    destruct (_ =? _); lia. }
  assert (SP : forall l, tot (space c) l = tot b_req l + tot b_pad l + c_hdr c * tot one l).
  { intros. unfold space. rewrite !tot_add, <- tot_scale. f_equal.
    apply tot_ext. intros; unfold one; lia. }
  assert (US : forall l, tot (fun b => b_req b + b_pad b) l = tot b_req l + tot b_pad l).
  { intros. apply tot_add. }
  unfold account_pre in H.
  destruct (negb (fits _ && _)); [discriminate|].
  set (used1 := if 0 <? a + p then _ else _) in H.
  destruct (has id used1) eqn:HU; [|discriminate]. cbn [negb] in H.
  set (dd := if 0 <? a + p then 1 else -1) in H.
  injection H as <-.
  unfold shows; cbn [s_asked s_usable s_occ s_used].
  rewrite A, U, O. unfold u64. rewrite !mod_add_l.
  split; [congruence|]. split; [rewrite !US, T1, T2; f_equal; lia|].
  split; [rewrite !SP, T1, T2, T3, Eo; f_equal; lia|].
  assert (P1 : NoDup (map n_id used1) /\ Forall (node_shows c bs) used1 /\
    (forall i, i <> id -> In i (map n_id used1) <-> 0 < tot (sel i one) bs)).
  { assert (B : NoDup (map n_id (s_used s)) /\ Forall (node_shows c bs) (s_used s) /\
      (forall i, i <> id -> In i (map n_id (s_used s)) <-> 0 < tot (sel i one) bs)).
    { split; [auto|]. split; [auto|]. intros i _. rewrite sel_one_pos. apply M. }
    unfold used1. destruct (0 <? a + p); [|exact B].
    destruct (has id (s_used s)) eqn:HI; [exact B|].
    assert (NI : ~ In id (map n_id (s_used s))).
    { intros I. apply has_in in I. congruence. }
    assert (Z0 : tot (sel id one) bs = 0).
    { pose proof (sel_one_nonneg id bs).
      destruct (Z.eq_dec (tot (sel id one) bs) 0); auto. exfalso; apply NI.
      apply M, sel_one_pos. lia. }
    destruct B as (B1 & B2 & B3). split; [|split].
    - simpl. constructor; auto.
    - constructor; auto. unfold node_shows; cbn [n_id n_inst n_asked n_usable n_occ].
      rewrite !(sel_zero id _ bs Z0). auto.
    - intros i Ni. simpl. rewrite <- B3 by auto. split; [intros [E|E]; [congruence|auto]|auto]. }
  destruct P1 as (D1 & F1 & M1). clearbody used1.
  apply has_in in HU.
  set (used2 := map (bump id dd a p o rl) used1).
  assert (F2 : Forall (node_shows c bs') used2).
  { unfold used2. rewrite Forall_map. eapply Forall_impl; [|exact F1].
    intros n (N1 & N2 & N3 & N4). unfold bump.
    destruct (Z.eqb_spec (n_id n) id) as [E|E].
    - unfold node_shows; cbn [n_id n_inst n_asked n_usable n_occ]. rewrite E in *.
      rewrite HDR in *. rewrite C1, C2, C3, Z.eqb_refl.
      unfold u32, u16. rewrite N2, N3, N4, !mod_add_l.
      split; [|split; [auto|split; [auto|f_equal; rewrite Eo; lia]]].
      pose proof (sel_one_le id bs') as LE. pose proof (sel_one_nonneg id bs') as GE.
      unfold few in FW. specialize (C1 id). rewrite Z.eqb_refl in C1.
      destruct rl.
      + destruct (R2 eq_refl). lia.
      + unfold dd. rewrite <- (R1 eq_refl), N1. apply Z.mod_small. lia.
    - unfold node_shows. rewrite HDR in *. rewrite C1, C2, C3.
      destruct (Z.eqb_spec (n_id n) id); [easy|].
      rewrite !Z.add_0_r. auto. }
  assert (D2 : NoDup (map n_id used2)) by (unfold used2; rewrite bump_ids; auto).
  split; [apply filter_ids_nodup; auto|].
  split.
  - intros i. rewrite <- sel_one_pos.
    destruct (Z.eq_dec i id) as [->|Ni].
    + split.
      * intros I. apply in_map_iff in I. destruct I as (n & E & I).
        apply filter_In in I. destruct I as [I Q].
        rewrite Forall_forall in F2. destruct (F2 n I) as (N1 & _).
        rewrite E in N1. pose proof (sel_one_nonneg id bs'). lia.
      * intros G. assert (I : In id (map n_id used2)) by (unfold used2; rewrite bump_ids; auto).
        apply in_map_iff in I. destruct I as (n & E & I). apply in_map_iff. exists n.
        split; [auto|]. apply filter_In. split; [auto|].
        rewrite Forall_forall in F2. destruct (F2 n I) as (N1 & _). rewrite E in N1. lia.
    + specialize (C1 i). destruct (Z.eqb_spec i id) as [?|_]; [easy|].
      rewrite C1, Z.add_0_r, <- M1 by auto. split.
      * intros I. apply in_map_iff in I. destruct I as (n & E & I).
        apply filter_In in I. destruct I as [I Q].
        unfold used2 in I. apply in_map_iff in I. destruct I as (n0 & E0 & I).
        apply in_map_iff. exists n0. split; [|auto]. rewrite <- E, <- E0, bump_id. auto.
      * intros I. assert (I2 : In i (map n_id used2)) by (unfold used2; rewrite bump_ids; auto).
        apply in_map_iff in I2. destruct I2 as (n & E & I2). apply in_map_iff. exists n.
        split; [auto|]. apply filter_In. split; [auto|]. lia.
  - rewrite Forall_forall in *. intros n I. apply filter_In in I. apply F2. tauto.
Qed.

(** * A step *)
Lemma s32_id z : - 2 ^ 31 <= z < 2 ^ 31 -> s32 z = z.
Proof.
  intros H. unfold s32.
  destruct (Z.ltb_spec z 0).
  - replace (z mod 2 ^ 32) with (z + 2 ^ 32) by (symmetry;
    rewrite <- (Z.mod_small (z + 2 ^ 32) (2 ^ 32)) by lia; rewrite <- (Z_mod_plus_full z 1 (2 ^ 32)); f_equal; lia).
    destruct (Z.ltb_spec (z + 2 ^ 32) (2 ^ 31)); lia.
  - rewrite Z.mod_small by lia. destruct (Z.ltb_spec z (2 ^ 31)); lia.
Qed.
Lemma find_exists h bs : existsb (fun b => b_h b =? h) bs =
  match find_blk h bs with Some _ => true | None => false end.
Proof.
  unfold find_blk. induction bs as [|x r IH]; simpl; auto.
  destruct (_ =? _); simpl; auto.
Qed.
Lemma find_in h bs b : find_blk h bs = Some b -> In b bs /\ b_h b = h.
Proof.
  intros H. unfold find_blk in H. apply find_some in H. split; [tauto|lia].
Qed.
Lemma find_none_in h bs : find_blk h bs = None -> forall b, In b bs -> b_h b <> h.
Proof.
  intros H b I E. apply (find_none _ _ H) in I. lia.
Qed.

Definition blks_ok (bs : list blk) : Prop :=
  NoDup (map b_h bs) /\ Forall (fun b => size_ok (b_req b) (b_pad b)) bs.
Lemma heap1_ok bs o : blks_ok bs -> op_ok o -> blks_ok (heap1 bs o).
Proof.
  intros [D F] K. destruct o; simpl in *; try (split; assumption).
  - destruct (existsb _ bs) eqn:E; [split; assumption|].
    split; [|constructor; auto]. simpl. constructor; auto.
    intros I. apply in_map_iff in I. destruct I as (b & Eb & I).
    assert (existsb (fun b => b_h b =? h) bs = true) by (apply existsb_exists; exists b; split; [auto|lia]).
    congruence.
  - split.
    + clear F. induction bs as [|x r IH]; simpl; auto. inversion D; subst.
      destruct (negb _); simpl; auto. constructor; auto.
      intros I. apply in_map_iff in I. destruct I as (b & Eb & I).
      apply filter_In in I. apply H1. rewrite <- Eb. apply in_map. tauto.
    + rewrite Forall_forall in *. intros x I. apply filter_In in I. apply F. tauto.
  - split.
    + rewrite map_map. replace (map _ bs) with (map b_h bs); auto.
      apply map_ext. intros b. destruct (Z.eqb_spec (b_h b) h); auto.
    + rewrite Forall_map. eapply Forall_impl; [|exact F].
      intros b S. simpl. destruct (_ =? _); auto.
Qed.

(** what an operation leaves in the live snapshot *)
Lemma step_shows c y o y' : c_ok c -> wf c (y_st y) -> blks_ok (y_blks y) -> op_ok o ->
  shows c (y_blks y) (live (y_st y)) -> few (heap1 (y_blks y) o) ->
  step c y o = Ok y' ->
  wf c (y_st y') /\ y_blks y' = heap1 (y_blks y) o /\
  shows c (y_blks y') (live (y_st y')).
Proof.
  intros K W B OK0 SH FW H.
  assert (N : (0 < c_n c)%nat) by (destruct K; lia).
  assert (HB : 0 <= c_hdr c <= 16) by (destruct K as (_ & _ & _ & K & _); exact K).
  destruct o as [h id req pad|h|h req pad| |e]; cbn [step] in H.
  - unfold do_add in H. cbn [heap1] in *. rewrite find_exists in *.
    destruct (find_blk h (y_blks y)) eqn:E.
    { injection H as <-. auto. }
    destruct OK0 as (Q1 & Q2 & Q3 & Q4).
    rewrite !s32_id in H by lia.
    apply bind_ok in H. destruct H as [s [H1 H2]].
    apply bind_ok in H2. destruct H2 as [w1 [H2 H3]]. injection H3 as <-.
    destruct (with_live_wf c (y_st y) s W) as [W1 L1].
    destruct (post_wf _ _ _ _ _ _ N W1 H2) as [W2 L2].
    cbn [y_st y_blks]. split; [auto|]. split; [auto|].
    eapply shows_content; [symmetry; exact L2|]. rewrite L1.
    eapply (account_shows c (y_blks y) _ _ _ id req pad (c_hdr c) 1 false); eauto;
      try discriminate.
    + intros _. destruct (Z.ltb_spec 0 (req + pad)); lia.
    + lia.
    + intros i. simpl. unfold sel at 1. cbn [b_id]. rewrite Z.eqb_sym. unfold one at 1. lia.
    + intros i. simpl. unfold sel at 1. cbn [b_id b_req]. rewrite Z.eqb_sym. lia.
    + intros i. simpl. unfold sel at 1. cbn [b_id b_pad]. rewrite Z.eqb_sym. lia.
    + simpl. lia.
    + simpl. lia.
    + cbn [tot]. change (one _) with 1. lia.
  - unfold do_free in H. cbn [heap1] in *.
    destruct (find_blk h (y_blks y)) as [b|] eqn:E.
    2:{ injection H as <-. split; [auto|].
        assert (Q : filter (fun b => negb (b_h b =? h)) (y_blks y) = y_blks y).
        { pose proof (find_none_in _ _ E) as NI. clear -NI.
          induction (y_blks y) as [|x r IH]; simpl; auto.
          destruct (Z.eqb_spec (b_h x) h) as [e|e];
            [exfalso; exact (NI x (or_introl eq_refl) e)|].
          simpl. rewrite IH; auto. intros; apply NI; right; auto. }
        rewrite Q. auto. }
    destruct (find_in _ _ _ E) as [I Eh].
    destruct B as [D F]. rewrite Forall_forall in F.
    destruct (F b I) as (Q1 & Q2 & Q3 & Q4).
    rewrite !s32_id in H by lia.
    apply bind_ok in H. destruct H as [s [H1 H2]].
    apply bind_ok in H2. destruct H2 as [w1 [H2 H3]]. injection H3 as <-.
    rewrite check_peak_live in H1.
    destruct (with_live_wf c (check_peak c (y_st y)) s (check_peak_wf c _ W)) as [W1 L1].
    destruct (post_wf _ _ _ _ _ _ N W1 H2) as [W2 L2].
    cbn [y_st y_blks]. split; [auto|]. split; [auto|].
    eapply shows_content; [symmetry; exact L2|]. rewrite L1.
    eapply (account_shows c (y_blks y) _ _ _ (b_id b) (- b_req b) (- b_pad b) (- c_hdr c) (-1) false);
      eauto; try discriminate.
    + intros _. destruct (Z.ltb_spec 0 (- b_req b + - b_pad b)); lia.
    + lia.
    + intros i. rewrite (tot_remove _ h _ b) by auto. unfold sel at 2, one at 2.
      rewrite Z.eqb_sym. destruct (_ =? _); lia.
    + intros i. rewrite (tot_remove _ h _ b) by auto. unfold sel at 2.
      rewrite Z.eqb_sym. destruct (_ =? _); lia.
    + intros i. rewrite (tot_remove _ h _ b) by auto. unfold sel at 2.
      rewrite Z.eqb_sym. destruct (_ =? _); lia.
    + rewrite (tot_remove _ h _ b) by auto. lia.
    + rewrite (tot_remove _ h _ b) by auto. lia.
    + rewrite (tot_remove _ h _ b) by auto. change (one b) with 1. lia.
  - unfold do_realloc in H. cbn [heap1] in *.
    destruct (find_blk h (y_blks y)) as [b|] eqn:E.
    2:{ injection H as <-. split; [auto|].
        assert (Q : map (fun b => if b_h b =? h then mkB h (b_id b) req pad else b) (y_blks y) = y_blks y).
        { pose proof (find_none_in _ _ E) as NI. clear -NI.
          induction (y_blks y) as [|x r IH]; simpl; auto.
          destruct (Z.eqb_spec (b_h x) h) as [e|e];
            [exfalso; exact (NI x (or_introl eq_refl) e)|].
          rewrite IH; auto. intros; apply NI; right; auto. }
        rewrite Q. auto. }
    destruct (find_in _ _ _ E) as [I Eh].
    destruct B as [D F]. rewrite Forall_forall in F.
    destruct (F b I) as (Q1 & Q2 & Q3 & Q4). destruct OK0 as (R1 & R2 & R3 & R4).
    rewrite !s32_id in H by lia.
    apply bind_ok in H. destruct H as [s [H1 H2]].
    apply bind_ok in H2. destruct H2 as [w1 [H2 H3]]. injection H3 as <-.
    set (w0 := if _ <? 0 then _ else _) in *.
    assert (W0 : wf c w0 /\ live w0 = live (y_st y)).
    { unfold w0. destruct (_ <? 0); [|auto]. split; [apply check_peak_wf; auto|apply check_peak_live]. }
    destruct W0 as [W0 L0]. rewrite L0 in H1.
    destruct (with_live_wf c w0 s W0) as [W1 L1].
    destruct (post_wf _ _ _ _ _ _ N W1 H2) as [W2 L2].
    cbn [y_st y_blks]. split; [auto|]. split; [auto|].
    eapply shows_content; [symmetry; exact L2|]. rewrite L1.
    pose (g := fun x => mkB h (b_id x) req pad).
    eapply (account_shows c (y_blks y) _ _ _ (b_id b) (req - b_req b) (pad - b_pad b) 0 0 true);
      eauto; try discriminate.
    + intros _. split; [auto|]. apply sel_one_pos. exists b; auto.
    + lia.
    + intros i. rewrite (tot_replace _ h g _ b) by auto. unfold sel at 2 3, one at 2 3, g.
      cbn [b_id]. destruct (b_id b =? i), (i =? b_id b); lia.
    + intros i. rewrite (tot_replace _ h g _ b) by auto. unfold sel at 2 3, g.
      cbn [b_id b_req]. rewrite (Z.eqb_sym i). destruct (_ =? _); lia.
    + intros i. rewrite (tot_replace _ h g _ b) by auto. unfold sel at 2 3, g.
      cbn [b_id b_pad]. rewrite (Z.eqb_sym i). destruct (_ =? _); lia.
    + rewrite (tot_replace _ h g _ b) by auto. cbn [g b_req]. lia.
    + rewrite (tot_replace _ h g _ b) by auto. cbn [g b_pad]. lia.
    + rewrite (tot_replace _ h g _ b) by auto. change (one b) with 1. change (one (g b)) with 1. lia.
  - apply bind_ok in H. destruct H as [w [H1 H2]]. injection H2 as <-.
    destruct (take_wf _ _ _ N W H1) as [W1 L1]. cbn [y_st y_blks heap1].
    split; [auto|]. split; [auto|]. eapply shows_content; [symmetry; exact L1|auto].
  - injection H as <-. unfold do_dump; cbn [y_st y_blks heap1].
    pose proof (with_live_wf c (y_st y) (set_stamp (live (y_st y)) (partial_stamp c (y_st y) e)) W) as [W1 L1].
    split; [apply check_peak_wf; auto|]. split; [auto|].
    rewrite check_peak_live, L1. exact SH.
Qed.

(** * Runs *)
Lemma run_from_app c ops1 : forall y ops2,
  run_from c y (ops1 ++ ops2) = let* y1 := run_from c y ops1 in run_from c y1 ops2.
Proof.
  induction ops1; simpl; intros; auto.
  destruct (step c y a); simpl; auto.
Qed.
Lemma run_snoc c ops o y : run c (ops ++ [o]) = Ok y ->
  exists y0, run c ops = Ok y0 /\ step c y0 o = Ok y.
Proof.
  unfold run. rewrite run_from_app. intros H. apply bind_ok in H.
  destruct H as [y0 [H1 H2]]. exists y0. split; auto.
  simpl in H2. apply bind_ok in H2. destruct H2 as [y1 [H2 H3]]. injection H3 as <-. auto.
Qed.
Lemma heap_snoc ops o : heap (ops ++ [o]) = heap1 (heap ops) o.
Proof. unfold heap. rewrite fold_left_app. reflexivity. Qed.
Lemma always_snoc P ops o : always P (ops ++ [o]) -> always P ops /\ P (heap (ops ++ [o])).
Proof.
  intros A. split.
  - intros a b E. apply (A a (b ++ [o])). rewrite E, app_assoc. auto.
  - apply (A _ []). rewrite app_nil_r. auto.
Qed.

Definition good (c : cfg) (ops : list op) (y : sys) : Prop :=
  wf c (y_st y) /\ y_blks y = heap ops /\ blks_ok (heap ops) /\
  shows c (heap ops) (live (y_st y)).
Lemma good_init c : c_ok c -> good c [] (mkY (init c) []).
Proof.
  intros (N & _). unfold good, wf, init, live; cbn [y_st y_blks snaps idx].
  rewrite repeat_length. split; [lia|]. split; [auto|].
  split; [split; constructor|].
  replace (slot (repeat snap0 (c_n c)) 0) with snap0 by (destruct (c_n c); reflexivity).
  unfold shows; simpl. split; [auto|]. split; [auto|]. split; [auto|].
  split; [constructor|]. split; [|constructor].
  intros id. split; [intros []|intros (b & [] & _)].
Qed.
Lemma good_run c ops : c_ok c -> forall y, Forall op_ok ops -> always few ops ->
  run c ops = Ok y -> good c ops y.
Proof.
  intros K. induction ops as [|o ops IH] using rev_ind; intros y F A H.
  - injection H as <-. apply good_init. auto.
  - apply run_snoc in H. destruct H as [y0 [H1 H2]].
    apply Forall_app in F. destruct F as [F1 F2]. inversion F2; subst.
    destruct (always_snoc _ _ _ A) as [A1 A2].
    destruct (IH y0 F1 A1 H1) as (W & EB & B & S1). rewrite heap_snoc in *.
    destruct (step_shows c y0 o y) as (W2 & E2 & S2); auto; rewrite ?EB; auto.
    rewrite EB in E2. unfold good. rewrite heap_snoc.
    split; [auto|]. split; [auto|]. split; [apply heap1_ok; auto|]. rewrite <- E2. auto.
Qed.

(** * The number of mallocs *)
Lemma account_mallocs s id a p o rl s' : account_pre s id a p o rl = Ok s' ->
  s_mallocs s' = u64 (s_mallocs s + if 0 <? a + p then 1 else -1).
Proof.
  unfold account_pre. destruct (negb (fits _ && _)); [discriminate|].
  destruct (negb _); [discriminate|]. intros H; injection H as <-. reflexivity.
Qed.
Lemma tot_one bs : tot one bs = Z.of_nat (List.length bs).
Proof. induction bs; cbn [tot List.length]; [auto|]. change (one a) with 1. lia. Qed.
Lemma content_mallocs s s' : content s = content s' -> s_mallocs s = s_mallocs s'.
Proof. unfold content; intros H; congruence. Qed.
Lemma mallocs_run c ops : c_ok c -> forall y, Forall op_ok ops -> always few ops ->
  no_realloc ops -> run c ops = Ok y ->
  s_mallocs (live (y_st y)) = Z.of_nat (List.length (heap ops)) mod 2 ^ 64.
Proof.
  intros K. assert (N : (0 < c_n c)%nat) by (destruct K; lia).
  induction ops as [|o ops IH] using rev_ind; intros y F A R H.
  - injection H as <-. cbn [y_st]. unfold init, live; cbn [snaps idx].
    destruct (c_n c); reflexivity.
  - apply run_snoc in H. destruct H as [y0 [H1 H2]].
    apply Forall_app in F. destruct F as [F1 F2]. apply Forall_inv in F2.
    apply Forall_app in R. destruct R as [R1 R2]. apply Forall_inv in R2.
    destruct (always_snoc _ _ _ A) as [A1 A2].
    pose proof (IH y0 F1 A1 R1 H1) as M.
    destruct (good_run c ops K y0 F1 A1 H1) as (W & EB & (D & FB) & S1).
    rewrite heap_snoc, <- !tot_one in *. rewrite <- EB in *.
    rewrite Forall_forall in FB.
    destruct o as [h id req pad|h|h req pad| |e]; cbn [step heap1] in *; [| |easy| |].
    + unfold do_add in H2. rewrite find_exists in *.
      destruct (find_blk h (y_blks y0)) eqn:E; [injection H2 as <-; auto|].
      destruct F2 as (Q1 & Q2 & Q3 & Q4). rewrite !s32_id in H2 by lia.
      apply bind_ok in H2. destruct H2 as [s [H2 H3]].
      apply bind_ok in H3. destruct H3 as [w1 [H3 H6]]. injection H6 as <-.
      destruct (with_live_wf c (y_st y0) s W) as [W1 L1].
      destruct (post_wf _ _ _ _ _ _ N W1 H3) as [W2 L2]. cbn [y_st].
      rewrite (content_mallocs _ _ L2), L1, (account_mallocs _ _ _ _ _ _ _ H2), M.
      destruct (Z.ltb_spec 0 (req + pad)); [|lia].
      unfold u64. rewrite mod_add_l. cbn [tot]. change (one _) with 1. f_equal; lia.
    + unfold do_free in H2. 
      destruct (find_blk h (y_blks y0)) as [b|] eqn:E.
      * destruct (find_in _ _ _ E) as [I Eh].
        destruct (FB b I) as (Q1 & Q2 & Q3 & Q4).
        assert (HB : 0 <= c_hdr c <= 16) by (destruct K as (_ & _ & _ & K & _); exact K).
        rewrite !s32_id in H2 by lia.
        apply bind_ok in H2. destruct H2 as [s [H2 H6]].
        apply bind_ok in H6. destruct H6 as [w1 [H6 H7]]. injection H7 as <-.
        destruct (with_live_wf c (check_peak c (y_st y0)) s (check_peak_wf c _ W)) as [W1 L1].
        destruct (post_wf _ _ _ _ _ _ N W1 H6) as [W2 L2]. cbn [y_st].
        rewrite check_peak_live in H2.
        rewrite (content_mallocs _ _ L2), L1, (account_mallocs _ _ _ _ _ _ _ H2), M.
        destruct (Z.ltb_spec 0 (- b_req b + - b_pad b)); [lia|].
        unfold u64. rewrite mod_add_l. rewrite (tot_remove _ h _ b) by auto.
        change (one b) with 1. f_equal.
      * injection H2 as <-. rewrite M. f_equal.
        pose proof (find_none_in _ _ E) as NI. clear -NI.
        induction (y_blks y0) as [|x r IH]; simpl; auto.
        destruct (Z.eqb_spec (b_h x) h) as [e|e];
          [exfalso; exact (NI x (or_introl eq_refl) e)|].
        simpl. rewrite IH; auto. intros; apply NI; right; auto.
    + apply bind_ok in H2. destruct H2 as [w [H2 H6]]. injection H6 as <-.
      destruct (take_wf _ _ _ N W H2) as [W1 L1]. cbn [y_st].
      rewrite (content_mallocs _ _ L1). auto.
    + injection H2 as <-. unfold do_dump; cbn [y_st].
      rewrite check_peak_live.
      destruct (with_live_wf c (y_st y0) (set_stamp (live (y_st y0)) (partial_stamp c (y_st y0) e)) W) as [_ ->].
      exact M.
Qed.
