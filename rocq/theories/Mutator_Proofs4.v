(** The ordered bit mutator visits every other buffer exactly once. *)
From Verif Require Import Base Mutator_Model Mutator_Spec Mutator_Proofs Mutator_Proofs2 Mutator_Proofs3.
Open Scope Z_scope.

Lemma keep_all {A} (l : list A) : keep 1 0 l = l.
Proof. induction l as [|x l IH]; [reflexivity|]. cbn [keep Nat.pred]. rewrite IH. reflexivity. Qed.
Lemma bit_sets_all n : bit_sets 1 n = flat_map (subsets 0 n) (seq 1 n).
Proof. unfold bit_sets. apply flat_map_ext. intros b. apply keep_all. Qed.

Lemma bit_sets_in n l : In l (bit_sets 1 n) <-> increasing 0 l /\ Forall (fun x => x < Z.of_nat n) l /\ l <> [].
Proof.
  rewrite bit_sets_all, in_flat_map. split.
  - intros (b & B & I). apply in_seq in B. apply subsets_in in I. destruct I as (L & H & F). split; [auto|]. split; [exact F|].
    intros ->. cbn in L. lia.
  - intros (H & F & N). exists (length l). split; [|apply subsets_in; auto]. apply in_seq.
    pose proof (increasing_room l 0 _ H F N). unfold len in *. destruct l; [congruence|]. cbn [length] in *. lia.
Qed.
Lemma nodup_app {A} (a : list A) : forall b, NoDup a -> NoDup b -> (forall x, In x a -> ~ In x b) -> NoDup (a ++ b).
Proof.
  induction a as [|x a IHa]; cbn; auto. intros b Na Nb D. inversion Na; subst. constructor; [|apply IHa; auto].
  rewrite in_app_iff. intros [J|J]; [auto|]. apply (D x); auto.
Qed.
Lemma bit_sets_nodup n : NoDup (bit_sets 1 n).
Proof.
  rewrite bit_sets_all. assert (G : forall k i, NoDup (flat_map (subsets 0 n) (seq i k))).
  { induction k as [|k IH]; intros i; cbn [seq flat_map]; [constructor|]. apply nodup_app; [apply subsets_nodup|apply IH|].
    intros l I J. apply subsets_in in I. apply in_flat_map in J. destruct J as (b & B & J). apply in_seq in B. apply subsets_in in J. lia. }
  apply G.
Qed.

(** How many there are. *)
Fixpoint total (n b : nat) : nat := match b with O => length (subsets 0 n 0) | S b' => total n b' + length (subsets 0 n b) end.
Lemma subsets_count n : forall lo lo' b, length (subsets lo n b) = length (subsets lo' n b).
Proof.
  induction n as [|n IH]; intros lo lo' [|b]; cbn [subsets]; try reflexivity. rewrite !app_length, !map_length.
  f_equal; apply IH.
Qed.
Lemma total_split n : forall b, total (S n) (S b) = (total n b + total n (S b))%nat.
Proof.
  induction b as [|b IH].
  - cbn [total subsets]. rewrite app_length, map_length. rewrite (subsets_count n (0 + 1) 0), (subsets_count n (0 + 1) 0 1). cbn [subsets length]. destruct n; cbn [subsets length]; lia.
  - change (total (S n) (S (S b))) with (total (S n) (S b) + length (subsets 0 (S n) (S (S b))))%nat. rewrite IH. cbn [subsets].
    rewrite app_length, map_length, (subsets_count n (0 + 1) 0), (subsets_count n (0 + 1) 0 (S (S b))). cbn [total]. lia.
Qed.
Lemma total_pow n : Z.of_nat (total n n) = 2 ^ Z.of_nat n.
Proof.
  induction n as [|n IH]; [reflexivity|]. rewrite total_split. cbn [total]. rewrite (subsets_empty n 0 (S n)) by lia. cbn [length].
  rewrite Nat2Z.inj_succ, Z.pow_succ_r by lia. lia.
Qed.
Lemma bit_sets_count n : Z.of_nat (length (bit_sets 1 n)) = 2 ^ Z.of_nat n - 1.
Proof.
  rewrite <- total_pow, bit_sets_all.
  assert (G : forall b, (length (flat_map (subsets 0 n) (seq 1 b)) + 1)%nat = total n b).
  { induction b as [|b IH].
    - cbn. destruct n; reflexivity.
    - rewrite seq_S, flat_map_app, app_length. cbn [flat_map total]. rewrite app_nil_r. replace (1 + b)%nat with (S b) by lia. lia. }
  specialize (G n). lia.
Qed.

(** Sets and buffers correspond. *)
Lemma increasing_same l : forall lo l', increasing lo l -> increasing lo l' -> (forall x, In x l <-> In x l') -> l = l'.
Proof.
  induction l as [|x l IH]; intros lo [|y l'] H H' E; [reflexivity| | |].
  - specialize (E y). cbn in E. tauto.
  - specialize (E x). cbn in E. tauto.
  - cbn in H, H'. destruct H as (Hx & H). destruct H' as (Hy & H').
    assert (x = y).
    { assert (A : In x (y :: l')) by (apply E; left; auto). assert (B : In y (x :: l)) by (apply E; left; auto).
      destruct A as [->|A]; [auto|]. destruct B as [->|B]; [auto|].
      pose proof (increasing_ge _ _ _ H' A). pose proof (increasing_ge _ _ _ H B). lia. }
    subst y. f_equal. apply (IH (x + 1)); auto. intros z. split; intros I.
    + assert (A : In z (x :: l')) by (apply E; right; auto). destruct A as [->|A]; [pose proof (increasing_ge _ _ _ H I); lia|auto].
    + assert (A : In z (x :: l)) by (apply E; right; auto). destruct A as [->|A]; [pose proof (increasing_ge _ _ _ H' I); lia|auto].
Qed.
Lemma flip_from_inj place S S' base : forall j, flip_from place S j base = flip_from place S' j base ->
  forall i, j <= i < j + len base -> mask place S i = mask place S' i.
Proof.
  induction base as [|v base IH]; intros j E i Hi; [unfold len in Hi; cbn in Hi; lia|]. cbn [flip_from] in E. injection E as E1 E2.
  rewrite len_cons in Hi. destruct (Z.eq_dec i j) as [->|N]; [|apply (IH (j + 1)); [exact E2|lia]].
  apply (f_equal (Z.lxor v)) in E1. rewrite <- !Z.lxor_assoc, Z.lxor_nilpotent, !Z.lxor_0_l in E1. exact E1.
Qed.
Lemma flipped_inj base S S' : 0 < len base -> (forall x, In x S -> 0 <= x < 8 * len base) -> (forall x, In x S' -> 0 <= x < 8 * len base) ->
  flipped (spread (len base)) base S = flipped (spread (len base)) base S' -> forall x, In x S <-> In x S'.
Proof.
  intros Hp HS HS' E x. unfold flipped in E.
  assert (K : 0 <= x < 8 * len base -> (In x S <-> In x S')).
  { intros Hx. destruct (spread_place (len base) x Hp Hx) as (Hj & Ht & Hq).
    pose proof (flip_from_inj _ _ _ _ _ E (x mod len base) ltac:(lia)) as M. apply (f_equal (fun v => Z.testbit v (x / len base))) in M.
    rewrite !mask_bit in M by lia. assert (P : spread (len base) (x mod len base) (x / len base) = x) by (apply Hq; lia). rewrite P in M.
    rewrite <- !mem_existsb, M. tauto. }
  split; intros I; apply K; auto.
Qed.

Definition differs (sz : Z) (a b : list Z) (p : Z) : bool :=
  Z.testbit (Z.lxor (nth (Z.to_nat (p mod sz)) a 0) (nth (Z.to_nat (p mod sz)) b 0)) (p / sz).
Definition difference (a b : list Z) : list Z := filter (differs (len a) a b) (zseq 0 (Z.to_nat (8 * len a))).
Lemma in_zseq lo n x : In x (zseq lo n) <-> lo <= x < lo + Z.of_nat n.
Proof.
  unfold zseq. rewrite in_map_iff. split.
  - intros (i & <- & I). apply in_seq in I. lia.
  - intros H. exists (Z.to_nat (x - lo)). split; [lia|]. apply in_seq. lia.
Qed.
Lemma increasing_filter f l : forall lo, increasing lo l -> increasing lo (filter f l).
Proof.
  induction l as [|x l IH]; intros lo H; cbn [filter]; [auto|]. cbn in H. destruct (f x).
  - cbn. split; [apply H|apply IH; apply H].
  - apply IH. apply (increasing_mono (x + 1)); [lia|apply H].
Qed.
Lemma flip_from_nth place S base : forall j i, (i < length base)%nat ->
  nth i (flip_from place S j base) 0 = Z.lxor (nth i base 0) (mask place S (j + Z.of_nat i)).
Proof.
  induction base as [|v base IH]; intros j [|i] H; cbn [length flip_from nth] in *; try lia.
  - f_equal. f_equal. lia.
  - rewrite IH by lia. f_equal. f_equal. lia.
Qed.
Lemma bytes_nth l i : bytes l -> 0 <= nth i l 0 < 256.
Proof. intros H. destruct (nth_in_or_default i l 0) as [I|E]; [|lia]. unfold bytes in H. rewrite Forall_forall in H. apply H. exact I. Qed.
Lemma difference_flips base v : bytes base -> bytes v -> len v = len base -> 0 < len base ->
  flipped (spread (len base)) base (difference base v) = v.
Proof.
  intros Hb Hv L Hp. apply (nth_ext _ _ 0 0).
  - pose proof (flipped_len (spread (len base)) base (difference base v)). unfold len in *. lia.
  - intros i Hi. pose proof (flipped_len (spread (len base)) base (difference base v)) as FL.
    assert (Hi' : (i < length base)%nat) by (unfold len in *; lia). unfold flipped. rewrite flip_from_nth by exact Hi'.
    assert (M : mask (spread (len base)) (difference base v) (0 + Z.of_nat i) = Z.lxor (nth i base 0) (nth i v 0)).
    { apply byte_ext; [apply mask_range|apply byte_lxor; apply bytes_nth; auto|]. intros t Ht. rewrite mask_bit by exact Ht.
      apply eq_true_iff_eq. rewrite mem_existsb. unfold difference. rewrite filter_In, in_zseq. unfold differs, spread.
      assert (Il : Z.of_nat i < len base) by (unfold len; lia).
      rewrite Z.mod_add, Z.div_add by lia. rewrite (Z.mod_small (0 + Z.of_nat i)), Z.div_small by lia.
      replace (Z.to_nat (0 + Z.of_nat i)) with i by lia. replace (0 + t) with t by lia. split; [tauto|]. intros T. split; [nia|exact T]. }
    rewrite M, <- Z.lxor_assoc, Z.lxor_nilpotent, Z.lxor_0_l. reflexivity.
Qed.

Lemma nodup_map_on {A B} (f : A -> B) l : NoDup l -> (forall x y, In x l -> In y l -> f x = f y -> x = y) -> NoDup (map f l).
Proof.
  induction l as [|x l IH]; intros N H; cbn; constructor; inversion N; subst.
  - intros I. apply in_map_iff in I. destruct I as (y & E & I). assert (y = x) by (apply H; [right|left|]; auto). congruence.
  - apply IH; auto. intros; apply H; auto; right; auto.
Qed.

Theorem complete seed : bytes seed -> 0 < len seed ->
  let outs := map (flipped (spread (len seed)) seed) (bit_sets 1 (Z.to_nat (8 * len seed))) in
  NoDup outs /\ Z.of_nat (length outs) = 2 ^ (8 * len seed) - 1 /\
  forall v, In v outs <-> bytes v /\ len v = len seed /\ v <> seed.
Proof.
  intros Hb Hp outs. set (n := Z.to_nat (8 * len seed)) in *. assert (Hn : Z.of_nat n = 8 * len seed) by (unfold n; lia).
  assert (Rg : forall S, In S (bit_sets 1 n) -> increasing 0 S /\ forall x, In x S -> 0 <= x < 8 * len seed).
  { intros S I. apply bit_sets_in in I. destruct I as (H & F & _). split; [exact H|]. intros x I. rewrite Forall_forall in F. specialize (F x I).
    pose proof (increasing_ge _ _ _ H I). lia. }
  assert (Inj : forall S S', increasing 0 S -> increasing 0 S' -> (forall x, In x S -> 0 <= x < 8 * len seed) -> (forall x, In x S' -> 0 <= x < 8 * len seed) ->
    flipped (spread (len seed)) seed S = flipped (spread (len seed)) seed S' -> S = S').
  { intros S S' H H' R R' E. apply (increasing_same _ 0); auto. apply (flipped_inj seed); auto. }
  split; [|split].
  - apply nodup_map_on; [apply bit_sets_nodup|]. intros S S' I I' E. destruct (Rg S I), (Rg S' I'). apply Inj; auto.
  - unfold outs. rewrite map_length, bit_sets_count, Hn. reflexivity.
  - intros v. unfold outs. rewrite in_map_iff. split.
    + intros (S & <- & I). split; [apply flip_from_bytes; exact Hb|]. split; [apply flipped_len|]. intros E.
      destruct (Rg S I) as (H & R). rewrite <- (flipped_nil (spread (len seed)) seed) in E at 3.
      assert (S = []) by (apply Inj; auto; cbn; tauto). subst. apply bit_sets_in in I. tauto.
    + intros (Bv & Lv & N). exists (difference seed v). split; [apply difference_flips; auto|]. apply bit_sets_in. split; [|split].
      * apply increasing_filter. apply zseq_incr. lia.
      * rewrite Forall_forall. intros x I. apply filter_In in I. destruct I as (I & _). apply in_zseq in I. unfold n. lia.
      * intros E. apply N. rewrite <- (difference_flips seed v Hb Bv Lv Hp), E. apply flipped_nil.
Qed.

(** Without feedback the expected values are those. *)
Lemma expected_asks seed vals : forall l cur, (forall v, In (Tell v) l -> v <= 0) ->
  expected true seed cur vals l = firstn (asks l) (map (fun f => f seed) vals).
Proof.
  intros l. revert vals. induction l as [|[b|v] l IH]; intros vals cur H; cbn [expected].
  - reflexivity.
  - destruct vals as [|f vals]; cbn [asks filter length map]; [rewrite firstn_nil; reflexivity|]. cbn [firstn]. f_equal. apply IH. intros v I. apply H. right. exact I.
  - specialize (H v (or_introl eq_refl)) as Hv. replace (0 <? v) with false by lia. apply IH. intros w I. apply H. right. exact I.
Qed.

Theorem ordered_complete junk seed o d l : o_unit o = UBits -> o_alg o = AOrdered -> o_centric o = true -> 0 <= o_sparsity o <= 1 ->
  bytes seed -> 0 < len seed -> 8 * len seed < 2 ^ 32 -> good_requests (len seed) l ->
  (forall v, In (Tell v) l -> v <= 0) -> Z.of_nat (asks l) <= 2 ^ (8 * len seed) - 1 ->
  exists m outs m', start junk seed o d = Ok m /\ run junk m (map of_request l) = Ok (outs, m') /\
    length outs = asks l /\ NoDup outs /\ (forall v, In v outs -> bytes v /\ len v = len seed /\ v <> seed) /\
    (has_next_value m' = false <-> Z.of_nat (asks l) = 2 ^ (8 * len seed) - 1) /\
    (has_next_value m' = false -> forall v, bytes v -> len v = len seed -> v <> seed -> In v outs).
Proof.
  intros Hu Ha Hc Hs Hb Hp Hl Hr Ht Hn. assert (Sk : skip_of o = 1) by (unfold skip_of; destruct (o_sparsity o =? 0) eqn:Q; lia).
  destruct (complete seed Hb Hp) as (ND & CN & IN). rewrite map_length in CN.
  destruct (ordered_exact junk seed o d l Hu Ha) as (m & m' & E & E' & H'); auto.
  { repeat split; auto; lia. } { rewrite Sk. change (Z.to_nat 1) with 1%nat. lia. }
  rewrite Sk in *. change (Z.to_nat 1) with 1%nat in *. rewrite Hc in E'. rewrite expected_asks, map_map in E' by exact Ht.
  set (sets := bit_sets 1 (Z.to_nat (8 * len seed))) in *.
  exists m, (firstn (asks l) (map (flipped (spread (len seed)) seed) sets)), m'.
  assert (HF : has_next_value m' = false <-> asks l = length sets).
  { destruct (has_next_value m'); [|assert (~ (asks l < length sets)%nat) by (intros X; apply H' in X; discriminate); split; [lia|auto]].
    assert (asks l < length sets)%nat by (apply H'; auto). split; [discriminate|lia]. }
  assert (LE : (asks l <= length sets)%nat) by lia.
  repeat match goal with |- _ /\ _ => split end; auto.
  - rewrite firstn_length, map_length. lia.
  - rewrite <- (firstn_skipn (asks l)) in ND. clear - ND. revert ND. generalize (firstn (asks l) (map (flipped (spread (len seed)) seed) sets)).
    generalize (skipn (asks l) (map (flipped (spread (len seed)) seed) sets)). intros b a. induction a as [|x a IH]; intros N; [constructor|].
    cbn in N. inversion N; subst. constructor; [|auto]. intros I. apply H1. apply in_or_app. auto.
  - intros v I. apply IN. rewrite <- (firstn_skipn (asks l)). apply in_or_app. auto.
  - rewrite HF. lia.
  - intros F v Bv Lv N. apply HF in F. rewrite F, firstn_all2 by (rewrite map_length; lia). apply IN. auto.
Qed.
