(** Proofs about Dr. Heapstat, 3: which snapshots are kept. *)
From Coq Require Import Permutation.
From Verif Require Import Base Heapstat_Model Heapstat_Spec Heapstat_Proofs.
Local Open Scope Z_scope.

(** * Renumbering
    When the frequency doubles, slots with even numbers get half their
    number, and those with odd ones the numbers from [m+1] on, in order. *)
Fixpoint zs (a : Z) (k : nat) : list Z :=
  match k with O => [] | S k' => a :: zs (a + 1) k' end.
Fixpoint oddn (l : list Z) : nat :=
  match l with [] => O | x :: t => if Z.odd x then S (oddn t) else oddn t end.
Fixpoint nx (m r : Z) (l : list Z) : list Z :=
  match l with
  | [] => []
  | x :: t => if Z.odd x then (m + r + 1) :: nx m (r + 1) t else (x / 2) :: nx m r t
  end.

Lemma zs_len : forall k a, List.length (zs a k) = k.
Proof. induction k; simpl; intros; auto. Qed.
Lemma zs_nth : forall k a i, (i < k)%nat -> nth i (zs a k) 0 = a + Z.of_nat i.
Proof.
  induction k; intros a i H; [lia|]. destruct i; simpl; [lia|].
  rewrite IHk by lia. lia.
Qed.
Lemma zs_in : forall k a x, In x (zs a k) <-> a <= x < a + Z.of_nat k.
Proof.
  induction k; intros a x; simpl; [lia|]. rewrite IHk. lia.
Qed.
Lemma zs_app : forall i j a, zs a (i + j) = zs a i ++ zs (a + Z.of_nat i) j.
Proof.
  induction i; intros j a; cbn [zs app Nat.add]; [f_equal; lia|].
  rewrite IHi. do 2 f_equal. f_equal. lia.
Qed.
Lemma nx_len : forall l m r, List.length (nx m r l) = List.length l.
Proof. induction l; simpl; intros; auto. destruct (Z.odd a); simpl; auto. Qed.
Lemma nx_nth : forall l m r i, (i < List.length l)%nat ->
  nth i (nx m r l) 0 =
  if Z.odd (nth i l 0) then m + r + Z.of_nat (oddn (firstn (S i) l)) else nth i l 0 / 2.
Proof.
  induction l; intros m r i H; [simpl in H; lia|].
  destruct i.
  - cbn. destruct (Z.odd a); cbn [nth]; [lia|auto].
  - change (firstn (S (S i)) (a :: l)) with (a :: firstn (S i) l).
    cbn [nx nth oddn List.length] in *.
    destruct (Z.odd a); cbn [nth]; rewrite IHl by lia; auto.
    destruct (Z.odd (nth i l 0)); [|auto]. lia.
Qed.
Lemma oddn_S : forall l i, (i < List.length l)%nat ->
  oddn (firstn (S i) l) = (oddn (firstn i l) + if Z.odd (nth i l 0%Z) then 1 else 0)%nat.
Proof.
  induction l; intros i H; [simpl in H; lia|].
  destruct i.
  - cbn. destruct (Z.odd a); auto.
  - cbn [List.length] in H. change (firstn (S (S i)) (a :: l)) with (a :: firstn (S i) l).
    change (firstn (S i) (a :: l)) with (a :: firstn i l). cbn [oddn nth].
    rewrite IHl by lia. destruct (Z.odd a); lia.
Qed.
Lemma oddn_between : forall l i j, (i <= j <= List.length l)%nat ->
  (forall k, (i <= k < j)%nat -> Z.odd (nth k l 0) = false) ->
  oddn (firstn j l) = oddn (firstn i l).
Proof.
  intros l i j. induction j; intros H E.
  - replace i with 0%nat by lia. auto.
  - destruct (Nat.eq_dec i (S j)) as [->|Ne]; auto.
    rewrite oddn_S by lia. rewrite E by lia. rewrite IHj; [lia|lia|].
    intros; apply E; lia.
Qed.
Lemma oddn_mono : forall l i j, (i <= j <= List.length l)%nat ->
  (oddn (firstn i l) <= oddn (firstn j l))%nat.
Proof.
  intros l i j. induction j; intros H.
  - replace i with 0%nat by lia. auto.
  - destruct (Nat.eq_dec i (S j)) as [->|Ne]; auto.
    rewrite oddn_S by lia. assert (oddn (firstn i l) <= oddn (firstn j l))%nat by (apply IHj; lia).
    lia.
Qed.
Lemma oddn_perm : forall l l', Permutation l l' -> oddn l = oddn l'.
Proof.
  induction 1; simpl; auto; try congruence.
  - destruct (Z.odd x); auto.
  - destruct (Z.odd x), (Z.odd y); auto.
Qed.
Lemma filter_perm (P : Z -> bool) l l' : Permutation l l' -> Permutation (filter P l) (filter P l').
Proof.
  induction 1; simpl; auto.
  - destruct (P x); auto.
  - destruct (P x), (P y); auto. apply perm_swap.
  - eapply Permutation_trans; eauto.
Qed.
Definition half (x : Z) : Z := x / 2.
Lemma nx_perm0 : forall l m r,
  Permutation (nx m r l) (map half (filter Z.even l) ++ zs (m + r + 1) (oddn l)).
Proof.
  induction l; intros m r; cbn [nx filter oddn].
  - constructor.
  - rewrite <- Z.negb_odd. destruct (Z.odd a); cbn [negb map zs app].
    + apply Permutation_cons_app. replace (m + r + 1 + 1) with (m + (r + 1) + 1) by lia.
      apply IHl.
    + constructor. apply IHl.
Qed.
Lemma zs_evens : forall k a, map half (filter Z.even (zs (2 * a + 1) (2 * k))) = zs (a + 1) k /\
  oddn (zs (2 * a + 1) (2 * k)) = k.
Proof.
  induction k; intros a; [auto|].
  replace (2 * S k)%nat with (S (S (2 * k))) by lia.
  cbn [zs filter oddn].
  replace (2 * a + 1 + 1) with (2 * (a + 1)) by lia.
  replace (Z.even (2 * a + 1)) with false by (rewrite Z.even_add, Z.even_mul; reflexivity).
  replace (Z.even (2 * (a + 1))) with true by (rewrite Z.even_mul; reflexivity).
  rewrite <- !Z.negb_even.
  replace (Z.even (2 * a + 1)) with false by (rewrite Z.even_add, Z.even_mul; reflexivity).
  replace (Z.even (2 * (a + 1))) with true by (rewrite Z.even_mul; reflexivity).
  cbn [negb map]. destruct (IHk (a + 1)) as [E1 E2]. rewrite E1, E2.
  split; [|auto]. f_equal. unfold half. rewrite Z.mul_comm, Z.div_mul by lia. lia.
Qed.
Lemma nx_perm m k l : m = Z.of_nat k -> Permutation l (zs 1 (2 * k)) ->
  Permutation (nx m 0 l) (zs 1 (2 * k)) /\ oddn l = k.
Proof.
  intros Em P. destruct (zs_evens k 0) as [E1 E2].
  change (2 * 0 + 1) with 1 in E1, E2. change (0 + 1) with 1 in E1.
  assert (O : oddn l = k) by (rewrite (oddn_perm _ _ P); auto).
  split; [|auto].
  eapply Permutation_trans; [apply nx_perm0|]. rewrite O.
  replace (2 * k)%nat with (k + k)%nat by lia. rewrite zs_app.
  replace (m + 0 + 1) with (1 + Z.of_nat k) by lia.
  apply Permutation_app_tail. rewrite <- E1. apply Permutation_map, filter_perm. auto.
Qed.
Lemma perm_range k l i : Permutation l (zs 1 k) -> (i < k)%nat -> 1 <= nth i l 0 <= Z.of_nat k.
Proof.
  intros P H. assert (List.length l = k) by (rewrite (Permutation_length P); apply zs_len).
  assert (I : In (nth i l 0) l) by (apply nth_In; lia).
  apply (Permutation_in _ P) in I. apply zs_in in I. lia.
Qed.
Lemma perm_find k l x : Permutation l (zs 1 k) -> 1 <= x <= Z.of_nat k ->
  exists i, (i < k)%nat /\ nth i l 0 = x.
Proof.
  intros P H. assert (L : List.length l = k) by (rewrite (Permutation_length P); apply zs_len).
  assert (I : In x l).
  { apply (Permutation_in _ (Permutation_sym P)). apply zs_in. lia. }
  apply (In_nth _ _ 0) in I. destruct I as (i & I1 & I2). exists i. split; [lia|auto].
Qed.
Lemma perm_inj k l i j : Permutation l (zs 1 k) -> (i < k)%nat -> (j < k)%nat ->
  nth i l 0 = nth j l 0 -> i = j.
Proof.
  intros P Hi Hj E. assert (L : List.length l = k) by (rewrite (Permutation_length P); apply zs_len).
  assert (ND : NoDup l).
  { apply (Permutation_NoDup (Permutation_sym P)). clear.
    generalize 1. induction k; intros a; simpl; constructor; auto.
    rewrite zs_in. lia. }
  rewrite (NoDup_nth l 0) in ND. apply ND; lia.
Qed.

(** * The search *)
Definition T (l : list snap) (i : nat) : Z := s_stamp (slot l i).

Lemma odd_mod g s : 0 < g -> (g * s) mod (2 * g) = if Z.odd s then g else 0.
Proof.
  intros G. rewrite (Z.mul_comm g s), (Z.mul_comm 2 g).
  rewrite (Z.mul_comm s g), Z.mul_mod_distr_l by lia.
  rewrite Zmod_odd. destruct (Z.odd s); lia.
Qed.

Lemma scan l n sg g fl : List.length l = n -> 0 < g ->
  (forall j, (j < n)%nat -> 0 < nth j sg 0) ->
  forall k i fuel, (i + k = n - 1)%nat -> (i < n)%nat -> (k < fuel)%nat ->
  (forall j, (i < j < n)%nat -> T l j = g * nth j sg 0) ->
  (exists i', (i < i' < n)%nat /\ Z.odd (nth i' sg 0) = true /\
     (forall j, (i < j < i')%nat -> Z.odd (nth j sg 0) = false) /\
     next_slot fuel l i fl (2 * g) = Ok (i', fl, 2 * g)) \/
  ((forall j, (i < j < n)%nat -> Z.odd (nth j sg 0) = false) /\
   next_slot fuel l i fl (2 * g) = next_slot (fuel - k) l (n - 1) fl (2 * g)).
Proof.
  intros L G P. induction k; intros i fuel Ei Hi Hf TE.
  - right. split; [intros; lia|]. replace i with (n - 1)%nat by lia.
    rewrite Nat.sub_0_r. auto.
  - destruct fuel as [|fuel]; [lia|].
    cbn [next_slot]. rewrite L.
    destruct (Nat.leb_spec n (S i)); [lia|]. cbn [fst snd].
    fold (T l (S i)). rewrite (TE (S i)) by lia.
    specialize (P (S i) ltac:(lia)) as PS.
    destruct (Z.ltb_spec 0 (g * nth (S i) sg 0)); [|nia].
    destruct (Z.eqb_spec (2 * g) 0); [lia|].
    rewrite odd_mod by lia.
    destruct (Z.odd (nth (S i) sg 0)) eqn:O.
    + destruct (Z.eqb_spec g 0); [lia|]. left. exists (S i).
      split; [lia|]. split; [auto|]. split; [intros; lia|auto].
    + cbn [Z.eqb].
      destruct (IHk (S i) fuel) as [(i' & A & B & C & D)|[C D]]; try lia.
      { intros; apply TE; lia. }
      * left. exists i'. split; [lia|]. split; [auto|]. split; [|auto].
        intros j Hj. destruct (Nat.eq_dec j (S i)) as [->|]; [auto|apply C; lia].
      * right. split; [|auto].
        intros j Hj. destruct (Nat.eq_dec j (S i)) as [->|]; [auto|apply C; lia].
Qed.

Lemma wrap l n sg F fl fuel : List.length l = n -> (0 < n)%nat -> 0 < F -> 2 * F < 2 ^ 32 ->
  Permutation sg (zs 1 n) -> (n < fuel)%nat ->
  (forall j, (j < n)%nat -> T l j = F * nth j sg 0) ->
  exists i', (i' < n)%nat /\ Z.odd (nth i' sg 0) = true /\
    (forall j, (j < i')%nat -> Z.odd (nth j sg 0) = false) /\
    next_slot fuel l (n - 1) fl F = Ok (i', fl + 1, 2 * F).
Proof.
  intros L N G B P Hf TE.
  assert (PS : forall j, (j < n)%nat -> 0 < nth j sg 0)
    by (intros; pose proof (perm_range n sg j P ltac:(auto)); lia).
  destruct fuel as [|fuel]; [lia|]. cbn [next_slot]. rewrite L.
  destruct (Nat.leb_spec n (S (n - 1))); [|lia]. cbn [fst snd].
  unfold u32. rewrite Z.mod_small by lia.
  fold (T l 0). rewrite TE by lia. specialize (PS 0%nat ltac:(lia)) as P0.
  destruct (Z.ltb_spec 0 (F * nth 0 sg 0)); [|nia].
  destruct (Z.eqb_spec (2 * F) 0); [lia|]. rewrite odd_mod by lia.
  destruct (Z.odd (nth 0 sg 0)) eqn:O.
  - destruct (Z.eqb_spec F 0); [lia|]. exists 0%nat. split; [lia|]. split; [auto|].
    split; [intros; lia|auto].
  - cbn [Z.eqb].
    destruct (scan l n sg F (fl + 1) L G PS (n - 1) 0 fuel) as [(i' & A & B1 & C & D)|[C D]];
      try lia.
    { intros; apply TE; lia. }
    + exists i'. split; [lia|]. split; [auto|]. split; [|auto].
      intros j Hj. destruct (Nat.eq_dec j 0) as [->|]; [auto|apply C; lia].
    + exfalso. destruct (perm_find n sg 1 P) as (i & I1 & I2); [lia|].
      destruct (Nat.eq_dec i 0) as [->|].
      * rewrite I2 in O. discriminate.
      * specialize (C i ltac:(lia)). rewrite I2 in C. discriminate.
Qed.

(** * The invariant *)
Inductive inv (c : cfg) (w : st) : Prop :=
| inv_first :
    fills w = 0 -> freq w = c_freq c -> stamp w = c_freq c * Z.of_nat (idx w) ->
    (forall i, (i < idx w)%nat -> T (snaps w) i = c_freq c * (Z.of_nat i + 1)) ->
    (forall i, (idx w < i < c_n c)%nat -> T (snaps w) i = 0) -> inv c w
| inv_later sg g m :
    (c_n c = 2 * m)%nat -> Permutation sg (zs 1 (c_n c)) -> 0 < g -> freq w = 2 * g ->
    0 < fills w -> freq w = c_freq c * 2 ^ fills w ->
    Z.odd (nth (idx w) sg 0) = true ->
    stamp w = 2 * g * (Z.of_nat m + Z.of_nat (oddn (firstn (idx w) sg))) ->
    (forall i, (i < idx w)%nat -> T (snaps w) i = 2 * g * nth i (nx (Z.of_nat m) 0 sg) 0) ->
    (forall i, (idx w < i < c_n c)%nat -> T (snaps w) i = g * nth i sg 0) -> inv c w.

Lemma inv_freq c w : c_ok c -> inv c w -> 0 < freq w /\ freq w = c_freq c * 2 ^ fills w /\ 0 <= fills w.
Proof.
  intros K [A B|sg g m A B C D E F]; [|lia].
  rewrite A, B. destruct K as (_ & _ & K & _). change (2 ^ 0) with 1. lia.
Qed.
Lemma inv_init c : c_ok c -> inv c (init c).
Proof.
  intros K. apply inv_first; cbn [init fills freq stamp idx snaps]; try lia.
  intros i Hi. unfold T, slot. rewrite nth_repeat. auto.
Qed.
(** what is in the live slot, the peak and the counters do not matter *)
Lemma inv_same c w w' : inv c w -> idx w' = idx w -> fills w' = fills w ->
  freq w' = freq w -> stamp w' = stamp w ->
  (forall i, i <> idx w -> slot (snaps w') i = slot (snaps w) i) -> inv c w'.
Proof.
  intros H E1 E2 E3 E4 E5.
  destruct H as [A B C D E|sg g m A B C D E F G H I J].
  - apply inv_first; rewrite ?E1, ?E2, ?E3, ?E4; auto; intros i Hi; unfold T in *;
      rewrite E5 by lia; auto.
  - apply (inv_later c w' sg g m); rewrite ?E1, ?E2, ?E3, ?E4; auto; intros i Hi;
      unfold T in *; rewrite E5 by lia; auto.
Qed.

Lemma half_even c : c_ok c -> exists m, (c_n c = 2 * m)%nat /\ (0 < m)%nat.
Proof.
  intros (A & B & _). apply Nat.even_spec in B. destruct B as [m E]. exists m. lia.
Qed.

Lemma take_inv c w : c_ok c -> wf c w -> inv c w ->
  stamp w + freq w < Z.of_nat (c_n c) * 2 ^ 31 ->
  exists w', take c w = Ok w' /\ inv c w' /\ stamp w' = stamp w + freq w /\
    bcount w' = bcount w /\ acount w' = acount w /\
    (freq w' = freq w \/
     freq w' = 2 * freq w /\ stamp w' = Z.of_nat (c_n c) * freq w).
Proof.
  intros K [L B] IV BD.
  destruct (half_even c K) as (m & Em & Hm).
  assert (KF : 0 < c_freq c < 2 ^ 31) by apply K.
  set (l1 := snaps (stamped w)).
  assert (L1 : List.length l1 = c_n c) by (unfold l1; cbn [stamped snaps]; rewrite upd_len; auto).
  assert (TI : T l1 (idx w) = stamp w + freq w).
  { unfold T, l1. cbn [stamped snaps]. rewrite slot_upd_same by lia. auto. }
  assert (TO : forall j, j <> idx w -> T l1 j = T (snaps w) j).
  { intros j Hj. unfold T, l1. cbn [stamped snaps]. rewrite slot_upd_other by lia. auto. }
  unfold take. fold l1. clearbody l1.
  destruct (check_peak_same c (stamped w)) as (_ & _ & _ & _ & _ & CB & CA & _).
  assert (FU : (2 * c_n c < 64 * S (List.length l1))%nat) by lia.
  set (fuel := (64 * S (List.length l1))%nat) in *. clearbody fuel.
  (* what remains once the search is known *)
  assert (FIN : forall i fl fr, next_slot fuel l1 (idx w) (fills w) (freq w) = Ok (i, fl, fr) ->
    (forall l2, (forall j, j <> i -> T l2 j = T l1 j) ->
       forall p a1 a2 a3 a4, inv c (mkW l2 i fl fr (stamp w + freq w) p a1 a2 a3 a4)) ->
    (fr = freq w \/ fr = 2 * freq w /\ stamp w + freq w = Z.of_nat (c_n c) * freq w) ->
    exists w', (let* (i0, fl0, fr0) := next_slot fuel l1 (idx w) (fills w) (freq w) in
      Ok (mkW (upd l1 i0 (slot l1 (idx w))) i0 fl0 fr0 (stamp (stamped w))
              (peak (check_peak c (stamped w))) (af_cur (check_peak c (stamped w)))
              (af_last (check_peak c (stamped w))) (bcount (check_peak c (stamped w)))
              (acount (check_peak c (stamped w))))) = Ok w' /\ inv c w' /\
      stamp w' = stamp w + freq w /\ bcount w' = bcount w /\ acount w' = acount w /\
      (freq w' = freq w \/
       freq w' = 2 * freq w /\ stamp w' = Z.of_nat (c_n c) * freq w)).
  { intros i fl fr E I2 I3. rewrite E. cbn [bind]. eexists. split; [reflexivity|].
    cbn [stamp bcount acount freq]. rewrite CB, CA. cbn [stamped stamp bcount acount].
    split; [|auto]. apply I2. intros j Hj. unfold T. rewrite slot_upd_other by lia. auto. }
  (* what remains once the array is full *)
  assert (FULL : forall sg F, freq w = F -> 0 < F -> F = c_freq c * 2 ^ fills w -> 0 <= fills w ->
    Permutation sg (zs 1 (c_n c)) -> stamp w + freq w = Z.of_nat (c_n c) * F ->
    (forall j, (j < c_n c)%nat -> T l1 j = F * nth j sg 0) ->
    forall k, (k <= c_n c)%nat ->
    next_slot fuel l1 (idx w) (fills w) (freq w) =
      next_slot (fuel - k) l1 (c_n c - 1) (fills w) (freq w) ->
    exists i, next_slot fuel l1 (idx w) (fills w) (freq w) = Ok (i, fills w + 1, 2 * freq w) /\
    forall l2, (forall j, j <> i -> T l2 j = T l1 j) ->
      forall p a1 a2 a3 a4,
      inv c (mkW l2 i (fills w + 1) (2 * freq w) (stamp w + freq w) p a1 a2 a3 a4)).
  { intros sg F EF PF EC P0 PM ES TE k Hk EN.
    assert (F31 : F < 2 ^ 31).
    { rewrite ES in BD. apply Z.mul_lt_mono_pos_l in BD; lia. }
    destruct (wrap l1 (c_n c) sg F (fills w) (fuel - k) L1) as (i & I1 & I2 & I3 & I4); auto;
      try lia.
    exists i. rewrite EN, EF. split; [auto|].
    intros l2 E2 p a1 a2 a3 a4.
    assert (LS : List.length sg = c_n c) by (rewrite (Permutation_length PM); apply zs_len).
    apply (inv_later _ _ sg F m); cbn [snaps idx fills freq stamp]; auto; try lia.
    - rewrite Z.pow_add_r by lia. change (2 ^ 1) with 2. lia.
    - rewrite <- EF, ES. rewrite (oddn_between sg 0 i) by (try lia; intros; apply I3; lia).
      cbn [firstn oddn]. lia.
    - intros j Hj. rewrite E2, TE by lia. rewrite nx_nth by lia. rewrite I3 by lia.
      pose proof (I3 j Hj) as O. rewrite <- Z.negb_even in O.
      destruct (Z.even (nth j sg 0)) eqn:EV; [|discriminate].
      apply Z.even_spec in EV. destruct EV as [q ->].
      rewrite (Z.mul_comm 2 q), Z.div_mul by lia. lia.
    - intros j Hj. rewrite E2, TE by lia. auto. }
  destruct IV as [A1 A2 A3 A4 A5|sg g m' A1 A2 A3 A4 A5 A6 A7 A8 A9 A10].
  - (* the first time through *)
    destruct (Nat.eq_dec (S (idx w)) (c_n c)) as [El|Nl].
    + destruct (FULL (zs 1 (c_n c)) (c_freq c)) with (k := 0%nat) as (i & E & V); auto.
      * lia.
      * rewrite A1. change (2 ^ 0) with 1. lia.
      * lia.
      * rewrite A3, A2. nia.
      * intros j Hj. rewrite zs_nth by lia. destruct (Nat.eq_dec j (idx w)) as [->|].
        -- rewrite TI. nia.
        -- rewrite TO, A4 by lia. lia.
      * lia.
      * rewrite Nat.sub_0_r. f_equal. lia.
      * apply (FIN _ _ _ E); [exact V|]. right. split; [auto|]. rewrite A3, A2. nia.
    + assert (E : next_slot fuel l1 (idx w) (fills w) (freq w) =
                  Ok (S (idx w), fills w, freq w)).
      { destruct fuel as [|fuel']; [lia|]. cbn [next_slot]. rewrite L1.
        destruct (Nat.leb_spec (c_n c) (S (idx w))); [lia|]. cbn [fst snd].
        fold (T l1 (S (idx w))). rewrite TO, A5 by lia. reflexivity. }
      apply (FIN _ _ _ E); [|auto].
      intros l2 E2 p a1 a2 a3 a4.
      apply inv_first; cbn [snaps idx fills freq stamp]; auto.
      * nia.
      * intros j Hj. rewrite E2 by lia. destruct (Nat.eq_dec j (idx w)) as [->|].
        -- rewrite TI. nia.
        -- rewrite TO, A4 by lia. auto.
      * intros j Hj. rewrite E2, TO by lia. apply A5. lia.
  - assert (m' = m) by lia. subst m'.
    assert (LS : List.length sg = c_n c) by (rewrite (Permutation_length A2); apply zs_len).
    assert (PS : forall j, (j < c_n c)%nat -> 0 < nth j sg 0)
      by (intros; pose proof (perm_range _ sg j A2 ltac:(auto)); lia).
    assert (NXI : forall j, (j < c_n c)%nat -> (forall k, (idx w < k <= j)%nat -> Z.odd (nth k sg 0) = false) ->
      T l1 j = 2 * g * nth j (nx (Z.of_nat m) 0 sg) 0).
    { intros j Hj NO. destruct (lt_eq_lt_dec j (idx w)) as [[Hl|He]|Hg].
      - rewrite TO, A9 by lia. auto.
      - subst j. rewrite TI, A8, A4, nx_nth by lia. rewrite A7, oddn_S, A7 by lia. nia.
      - rewrite TO, A10, nx_nth by lia. rewrite NO by lia.
        pose proof (NO j ltac:(lia)) as O. rewrite <- Z.negb_even in O.
        destruct (Z.even (nth j sg 0)) eqn:EV; [|discriminate].
        apply Z.even_spec in EV. destruct EV as [q ->].
        rewrite (Z.mul_comm 2 q), Z.div_mul by lia. lia. }
    destruct (scan l1 (c_n c) sg g (fills w) L1 A3 PS (c_n c - 1 - idx w) (idx w) fuel)
      as [(i & I1 & I2 & I3 & I4)|[I3 I4]]; try lia.
    { intros j Hj. rewrite TO by lia. apply A10. lia. }
    + rewrite <- A4 in I4. apply (FIN _ _ _ I4); [|auto].
      intros l2 E2 p a1 a2 a3 a4.
      apply (inv_later _ _ sg g m); cbn [snaps idx fills freq stamp]; auto.
      * rewrite A8, A4. rewrite (oddn_between sg (S (idx w)) i) by (try lia; intros; apply I3; lia).
        rewrite oddn_S, A7 by lia. nia.
      * intros j Hj. rewrite E2 by lia. apply NXI; [lia|]. intros; apply I3; lia.
      * intros j Hj. rewrite E2, TO by lia. apply A10. lia.
    + rewrite <- A4 in I4.
      rewrite Em in A2. destruct (nx_perm (Z.of_nat m) m sg eq_refl A2) as [PN ON].
      rewrite <- Em in A2, PN.
      assert (ES : stamp w + freq w = Z.of_nat (c_n c) * (2 * g)).
      { rewrite A8, A4.
        assert (Q : oddn (firstn (c_n c) sg) = oddn (firstn (S (idx w)) sg)).
        { apply oddn_between; [lia|]. intros; apply I3; lia. }
        rewrite firstn_all2, ON, oddn_S, A7 in Q by lia. nia. }
      destruct (FULL (nx (Z.of_nat m) 0 sg) (2 * g)) with (k := (c_n c - 1 - idx w)%nat)
        as (i & E & V); auto; try lia.
      * intros j Hj. apply NXI; [auto|]. intros; apply I3; lia.
      * apply (FIN _ _ _ E); [exact V|]. right. split; [auto|]. rewrite ES, A4. auto.
Qed.

(** what the invariant says of the stamps *)
Lemma inv_covers c w : c_ok c -> wf c w -> inv c w ->
  forall q, 1 <= q -> freq w * q <= stamp w ->
  exists i, (i < c_n c)%nat /\ i <> idx w /\ T (snaps w) i = freq w * q.
Proof.
  intros K [L B] [A1 A2 A3 A4 A5|sg g m A1 A2 A3 A4 A5 A6 A7 A8 A9 A10] q Q H.
  - assert (0 < c_freq c) by apply K.
    exists (Z.to_nat (q - 1)).
    assert (q <= Z.of_nat (idx w)) by nia.
    split; [lia|]. split; [lia|]. rewrite A4 by lia. rewrite A2. f_equal. lia.
  - assert (LS : List.length sg = c_n c) by (rewrite (Permutation_length A2); apply zs_len).
    pose proof A2 as A2'. rewrite A1 in A2'.
    destruct (nx_perm (Z.of_nat m) m sg eq_refl A2') as [PN ON]. rewrite <- A1 in PN.
    assert (QB : q <= Z.of_nat m + Z.of_nat (oddn (firstn (idx w) sg))) by nia.
    assert (OL : (oddn (firstn (idx w) sg) + 1 <= m)%nat).
    { rewrite <- ON, <- (firstn_all sg). replace (List.length sg) with (c_n c).
      assert (oddn (firstn (S (idx w)) sg) <= oddn (firstn (c_n c) sg))%nat by (apply oddn_mono; lia).
      rewrite oddn_S, A7 in H0 by lia. rewrite (firstn_all2 (n := c_n c)) in H0 by lia. 
      rewrite firstn_firstn. replace (Nat.min (idx w) (c_n c)) with (idx w) by lia.
      rewrite (firstn_all2 (n := c_n c)) by lia. lia. }
    destruct (perm_find _ _ q PN) as (i & I1 & I2); [lia|].
    exists i. split; [auto|].
    rewrite nx_nth in I2 by lia.
    destruct (lt_eq_lt_dec i (idx w)) as [[Hl|He]|Hg].
    + split; [lia|]. rewrite A9, A4, nx_nth by lia. rewrite I2. auto.
    + subst i. rewrite A7, oddn_S, A7 in I2 by lia. lia.
    + split; [lia|]. rewrite A10, A4 by lia.
      destruct (Z.odd (nth i sg 0)) eqn:O.
      * assert (oddn (firstn (S (idx w)) sg) <= oddn (firstn (S i) sg))%nat by (apply oddn_mono; lia).
        rewrite oddn_S, A7 in H0 by lia. lia.
      * rewrite <- Z.negb_even in O.
        destruct (Z.even (nth i sg 0)) eqn:EV; [|discriminate].
        apply Z.even_spec in EV. destruct EV as [x Ex]. rewrite Ex in *.
        rewrite (Z.mul_comm 2 x), Z.div_mul in I2 by lia. subst x. lia.
Qed.

(** all stamps are multiples of what the frequency was last, or the slot is
    yet to be used, and none is later than now; and no two are the same *)
Lemma inv_stamps c w : c_ok c -> wf c w -> inv c w ->
  (forall i, (i < c_n c)%nat -> i <> idx w ->
    0 <= T (snaps w) i <= stamp w /\ (freq w | 2 * T (snaps w) i) /\
    (0 < fills w -> 0 < T (snaps w) i)) /\
  (forall i j, (i < j < c_n c)%nat -> i <> idx w -> j <> idx w ->
    0 < T (snaps w) j -> T (snaps w) i <> T (snaps w) j) /\
  stamp w < Z.of_nat (c_n c) * freq w /\
  (0 < fills w -> Z.of_nat (c_n c) * freq w <= 2 * stamp w).
Proof.
  intros K [L B] [A1 A2 A3 A4 A5|sg g m A1 A2 A3 A4 A5 A6 A7 A8 A9 A10].
  - assert (0 < c_freq c) by apply K. split; [|split; [|split]].
    + intros i Hi Ni. destruct (Nat.lt_ge_cases i (idx w)).
      * rewrite A4, A2, A3 by lia. split; [nia|]. split; [|lia].
        exists (2 * (Z.of_nat i + 1)). lia.
      * rewrite A5, A3 by lia. split; [nia|]. split; [exists 0; lia|lia].
    + intros i j Hij Ni Nj PT. destruct (Nat.lt_ge_cases j (idx w)).
      * rewrite !A4 by lia. nia.
      * rewrite (A5 j) in PT by lia. lia.
    + rewrite A3, A2. nia.
    + lia.
  - assert (LS : List.length sg = c_n c) by (rewrite (Permutation_length A2); apply zs_len).
    pose proof A2 as A2'. rewrite A1 in A2'.
    destruct (nx_perm (Z.of_nat m) m sg eq_refl A2') as [PN ON]. rewrite <- A1 in PN.
    assert (OL : (oddn (firstn (idx w) sg) + 1 <= m)%nat).
    { assert (H0 : (oddn (firstn (S (idx w)) sg) <= oddn (firstn (c_n c) sg))%nat) by (apply oddn_mono; lia).
      rewrite oddn_S, A7 in H0 by lia. rewrite (firstn_all2 (n := c_n c)) in H0 by lia. lia. }
    assert (LOW : forall i, (i < idx w)%nat ->
      1 <= nth i (nx (Z.of_nat m) 0 sg) 0 <= Z.of_nat m + Z.of_nat (oddn (firstn (idx w) sg))).
    { intros i Hi. pose proof (perm_range _ _ i PN ltac:(lia)) as R. split; [lia|].
      rewrite nx_nth by lia. destruct (Z.odd (nth i sg 0)).
      - assert (oddn (firstn (S i) sg) <= oddn (firstn (idx w) sg))%nat by (apply oddn_mono; lia).
        lia.
      - pose proof (perm_range _ _ i A2 ltac:(lia)) as R2.
        assert (nth i sg 0 / 2 <= Z.of_nat m).
        { apply Z.div_le_upper_bound; lia. }
        lia. }
    split; [|split; [|split]].
    + intros i Hi Ni. destruct (Nat.lt_ge_cases i (idx w)) as [G|G].
      * rewrite A9, A8, A4 by lia. pose proof (LOW i G). split; [nia|].
        split; [exists (2 * nth i (nx (Z.of_nat m) 0 sg) 0); lia|nia].
      * rewrite A10, A8, A4 by lia. pose proof (perm_range _ _ i A2 ltac:(lia)) as R2.
        split; [nia|]. split; [exists (nth i sg 0); lia|nia].
    + intros i j Hij Ni Nj PT E.
      (* both as numbers after the renumbering, or one of them odd *)
      destruct (Nat.lt_ge_cases i (idx w)) as [Gi|Gi]; destruct (Nat.lt_ge_cases j (idx w)) as [Gj|Gj].
      * rewrite !A9 in E by lia.
        assert (nth i (nx (Z.of_nat m) 0 sg) 0 = nth j (nx (Z.of_nat m) 0 sg) 0) by nia.
        assert (i = j) by (eapply (perm_inj (c_n c)); eauto; lia). lia.
      * rewrite A9, A10 in E by lia.
        assert (E2 : nth j sg 0 = 2 * nth i (nx (Z.of_nat m) 0 sg) 0) by nia.
        assert (nth j (nx (Z.of_nat m) 0 sg) 0 = nth i (nx (Z.of_nat m) 0 sg) 0).
        { rewrite (nx_nth sg _ 0 j) by lia. rewrite E2.
          replace (Z.odd (2 * nth i (nx (Z.of_nat m) 0 sg) 0)) with false
            by (rewrite <- Z.negb_even, Z.even_mul; reflexivity).
          rewrite (Z.mul_comm 2), Z.div_mul by lia. auto. }
        assert (j = i) by (eapply (perm_inj (c_n c)); eauto; lia). lia.
      * lia.
      * rewrite !A10 in E by lia. assert (nth i sg 0 = nth j sg 0) by nia.
        assert (i = j) by (apply (perm_inj (c_n c) sg i j A2); auto; lia). lia.
    + rewrite A8, A4, A1. nia.
    + rewrite A8, A4, A1. nia.
Qed.
