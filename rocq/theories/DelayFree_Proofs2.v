(** Histories of frees: the queue answers as the list description says. *)
From Verif Require Import Base Redblack_Model Redblack_Spec Redblack_Facts DelayFree_Model DelayFree_Spec DelayFree_Proofs.
From Coq Require Import Permutation.
Open Scope Z_scope.

(** The ring with serial numbers. *)
Fixpoint tagged (k : Z) (R : ring) : list dentry :=
  match R with [] => [] | Some b :: R => (k, b) :: tagged (k + 1) R | None :: R => tagged (k + 1) R end.
Definition lost_of (n : Z) (T : list dentry) : lost := map (fun p => (snd p, fst p mod n)) (rev T).

Definition HInv (c : conf) (s : dstate) (k : Z) (q : list dentry) : Prop :=
  exists R T, SInv c s R (lost_of (cap c) T) /\ q = T ++ tagged (k - len R) R /\ len R = Z.min k (cap c) /\ 0 <= k /\
    (len R = cap c -> head s = k mod cap c) /\ (forall p, In p T -> 0 <= fst p < k - cap c).

Lemma tagged_app k R R' : tagged k (R ++ R') = tagged k R ++ tagged (k + len R) R'.
Proof.
  revert k. induction R as [|[b|] R IH]; intros k; cbn [tagged app].
  - f_equal. change (len (@nil (option block))) with 0. lia.
  - rewrite IH, len_cons. replace (k + 1 + len R) with (k + (1 + len R)) by lia. reflexivity.
  - rewrite IH, len_cons. replace (k + 1 + len R) with (k + (1 + len R)) by lia. reflexivity.
Qed.
Lemma tagged_in k R j b : In (j, b) (tagged k R) <-> k <= j < k + len R /\ rnth R (j - k) = Some b.
Proof.
  revert k. induction R as [|o R IH]; intros k.
  - cbn. change (len (@nil (option block))) with 0. split; [tauto|]. lia.
  - rewrite len_cons. pose proof (len_nonneg R). destruct (Z.eq_dec j k) as [->|N].
    + replace (k - k) with 0 by lia. rewrite rnth_0. destruct o as [x|]; cbn [tagged In].
      * rewrite IH. split; [intros [E|(H1 & _)]; [injection E as ->; split; [lia|reflexivity]|lia]|].
        intros (_ & E). injection E as ->. auto.
      * rewrite IH. split; [intros (H1 & _); lia|intros (_ & E); discriminate].
    + assert (X : In (j, b) (tagged k (o :: R)) <-> In (j, b) (tagged (k + 1) R)).
      { destruct o as [x|]; cbn [tagged In]; [|tauto]. split; [intros [E|E]; [injection E as -> ->; lia|auto]|auto]. }
      rewrite X, IH. split.
      * intros (H1 & H2). split; [lia|]. rewrite rnth_S by lia. replace (j - k - 1) with (j - (k + 1)) by lia. exact H2.
      * intros (H1 & H2). split; [lia|]. rewrite rnth_S in H2 by lia. replace (j - k - 1) with (j - (k + 1)) in H2 by lia. exact H2.
Qed.
Lemma tagged_blocks k R : blocks (tagged k R) = live R.
Proof. revert k. induction R as [|[b|] R IH]; intros k; cbn; [auto|f_equal; apply IH|apply IH]. Qed.

Lemma blocks_all c T k R : Permutation (blocks (T ++ tagged k R)) (all R (lost_of (cap c) T)).
Proof.
  unfold blocks, all, lost_of. rewrite map_app. change (map snd (tagged k R)) with (blocks (tagged k R)). rewrite tagged_blocks.
  rewrite map_map. cbn [fst]. rewrite map_rev.
  etransitivity; [apply Permutation_app_comm|]. apply Permutation_app_head. apply Permutation_rev.
Qed.

Lemma without_app j a b : without j (a ++ b) = without j a ++ without j b.
Proof. unfold without. apply filter_app. Qed.
Lemma without_out j q : (forall p, In p q -> fst p <> j) -> without j q = q.
Proof.
  unfold without. induction q as [|p q IH]; intros H; [reflexivity|]. cbn [filter]. pose proof (H p (or_introl eq_refl)).
  replace (fst p =? j) with false by lia. cbn [negb]. f_equal. apply IH. intros p' I. apply H. right; auto.
Qed.
Lemma find_app {A} f (a b : list A) : find f (a ++ b) = match find f a with Some x => Some x | None => find f b end.
Proof. induction a as [|x a IH]; cbn; [reflexivity|]. destruct (f x); auto. Qed.
Lemma find_none_all {A} f (a : list A) : (forall x, In x a -> f x = false) -> find f a = None.
Proof. induction a as [|x a IH]; cbn; intros H; [reflexivity|]. rewrite (H x) by auto. apply IH. auto. Qed.

Lemma tagged_upd k R i x : 0 <= i -> rnth R i = Some x -> tagged k (upd_ring R i) = without (k + i) (tagged k R).
Proof.
  intros Hi E. destruct (rnth_split R i x Hi E) as (R1 & R2 & -> & <-). rewrite upd_split, !tagged_app, without_app. cbn [tagged].
  rewrite without_out.
  - f_equal. cbn [without filter fst]. rewrite Z.eqb_refl. cbn [negb]. symmetry. apply without_out.
    intros (j, y) J. apply tagged_in in J. cbn. lia.
  - intros (j, y) J. apply tagged_in in J. cbn. lia.
Qed.

(** The first large enough block among those the search looks at. *)
Lemma find_tagged (g : Z -> bool) tot k R i x : 0 <= i -> rnth R i = Some x -> tot <= b_size x -> g (k + i) = true ->
  (forall j, 0 <= j < i -> fits tot (rnth R j) = false) ->
  find (fun p => g (fst p) && (tot <=? b_size (snd p))) (tagged k R) = Some (k + i, x).
Proof.
  intros Hi E F G Z. destruct (rnth_split R i x Hi E) as (R1 & R2 & -> & <-). rewrite tagged_app, find_app.
  rewrite find_none_all.
  - cbn [tagged find fst snd]. rewrite G. replace (tot <=? b_size x) with true by lia. reflexivity.
  - intros (j, y) J. apply tagged_in in J. destruct J as (J1 & J2). specialize (Z (j - k) ltac:(lia)). rewrite rnth_app1 in Z by lia.
    rewrite J2 in Z. cbn in *. rewrite Z. destruct (g j); reflexivity.
Qed.

Lemma hinv_head c s k R T : SInv c s R (lost_of (cap c) T) -> len R = Z.min k (cap c) -> (len R = cap c -> head s = k mod cap c) ->
  forall j, candidate (cap c) k (k - len R + j) = true /\ 0 <= j < len R <-> 0 <= j /\ head s + j < len R.
Proof.
  intros (I & _) Hl Hh j. pose proof (d_cap _ _ _ _ _ I). pose proof (d_head _ _ _ _ _ I). unfold candidate. destruct (k <? cap c) eqn:Q.
  - rewrite (d_notfull _ _ _ _ _ I) by lia. clear. intuition lia.
  - assert (HE : len R = cap c) by lia. specialize (Hh HE). rewrite <- Hh. lia.
Qed.

Lemma cand_lost n k j : 0 <= j < k - n -> 0 < n -> candidate n k j = false.
Proof. intros. unfold candidate. destruct (k <? n) eqn:Q; lia. Qed.

Lemma mod_wrap k n h : 0 < n -> h = k mod n -> (if n <=? h + 1 then 0 else h + 1) = (k + 1) mod n.
Proof.
  intros Hn ->. rewrite <- (Z.add_mod_idemp_l k) by lia. pose proof (Z.mod_pos_bound k n Hn) as B. generalize dependent (k mod n). intros m B.
  destruct (n <=? m + 1) eqn:Q; [|rewrite Z.mod_small; lia].
  replace (m + 1) with n by lia. rewrite Z.mod_same; lia.
Qed.

Lemma push_tagged k R b : tagged (k + 1 - len (R ++ [Some b])) (R ++ [Some b]) = tagged (k - len R) R ++ [(k, b)].
Proof.
  rewrite tagged_app, len_app, len_cons. change (len (@nil (option block))) with 0. cbn [tagged].
  replace (k + 1 - (len R + (1 + 0))) with (k - len R) by lia. replace (k - len R + len R) with k by lia. reflexivity.
Qed.
Lemma push_tagged' k R b n : n = 1 + len R -> tagged (k + 1 - len (R ++ [Some b])) (R ++ [Some b]) = tagged (k - n + 1) R ++ [(k, b)].
Proof. intros ->. rewrite push_tagged. replace (k - (1 + len R) + 1) with (k - len R) by lia. reflexivity. Qed.

(** One free. *)
Lemma next_ok c s k q b : HInv c s k q -> proper b -> (forall x, In x (blocks q) -> apart b x) ->
  exists s', client_handle_free c s (b_addr b) (b_size b) (b_rz b) (b_stack b) =
    Ok (fst (fst (next (cap c) (maxsz c) k q b)), s') /\
    HInv c s' (snd (next (cap c) (maxsz c) k q b)) (snd (fst (next (cap c) (maxsz c) k q b))).
Proof.
  intros (R & T & S & -> & Hl & Hk & Hh & HT) Pb Ap. pose proof (blocks_all c T (k - len R) R) as PB.
  assert (I := proj1 S). pose proof (d_cap _ _ _ _ _ I) as Hc. pose proof (len_nonneg R) as Ln.
  destruct (free_step c s R (lost_of (cap c) T) b S Pb) as (r & s' & R' & L' & E & S' & St).
  { intros x Ix. apply Ap. apply (Permutation_in x (Permutation_sym PB)). exact Ix. }
  exists s'. rewrite E. clear E. unfold next. rewrite (total_perm _ _ PB).
  pose proof (hinv_head c s k R T S Hl Hh) as HC. clear PB Ap.
  assert (FT : forall g, find (fun p : Z * block => candidate (cap c) k (fst p) && g p) T = None).
  { intros g. apply find_none_all. intros p Ip. rewrite cand_lost; [reflexivity|apply HT; auto|lia]. }
  assert (FT2 : find (fun p : Z * block => fst p =? k - cap c) T = None).
  { apply find_none_all. intros p Ip. specialize (HT p Ip). lia. }
  assert (WT : forall i, 0 <= i -> without (k - len R + i) T = T).
  { intros i Hi. apply without_out. intros p Ip. specialize (HT p Ip). lia. }
  assert (LC : forall x : option block, len R = cap c -> forall R0, R = x :: R0 -> cap c = 1 + len R0).
  { intros x F R0 ->. rewrite len_cons in F. lia. }
  inversion St as [H|H1 H2|x R0 H1 H2 H3|H1 H2 H3|j x H1 H2 H3 H4 H5 H6 H7 H8|j x R0 H1 H2 H3 H4 H5 H6 H7 H8 H9|j x y R0 H1 H2 H3 H4 H5 H6 H7 H8 H9];
    subst L' R' r; clear St.
  - replace (maxsz c <? b_size b) with true by lia. cbn [fst snd]. split; [reflexivity|].
    exists R, T. repeat match goal with |- _ /\ _ => split end; auto; try lia; try congruence.
  - assert (0 <= total (all R (lost_of (cap c) T))) by (apply total_nonneg; apply (d_proper _ _ _ _ _ I)).
    replace (maxsz c <? b_size b) with false by lia. replace (b_size b + _ <=? maxsz c) with true by lia.
    rewrite find_app, FT2, find_none_all by (intros (j, y) J; apply tagged_in in J; cbn; lia).
    cbn [fst snd]. split; [reflexivity|]. exists (R ++ [Some b]), T. split; [exact S'|].
    rewrite push_tagged, app_assoc. rewrite len_app, len_cons. change (len (@nil (option block))) with 0.
    repeat match goal with |- _ /\ _ => split end; auto; try lia; try (intros p Ip; specialize (HT p Ip); lia).
    intros F. match goal with Q : _ = head s' |- _ => rewrite <- Q end. rewrite (d_notfull _ _ _ _ _ I) by lia. replace (k + 1) with (cap c) by lia. rewrite Z.mod_same; lia.
  - assert (0 <= total (all R (lost_of (cap c) T))) by (apply total_nonneg; apply (d_proper _ _ _ _ _ I)).
    replace (maxsz c <? b_size b) with false by lia. replace (b_size b + _ <=? maxsz c) with true by lia.
    specialize (LC x H2 R0 H3).
    subst R. rewrite find_app, FT2, H2.
    assert (X : match find (fun p : Z * block => fst p =? k - cap c) (tagged (k - cap c) (x :: R0)) with
       | Some p => (b_addr (snd p), without (k - cap c) (T ++ tagged (k - cap c) (x :: R0)) ++ [(k, b)], k + 1)
       | None => (0, (T ++ tagged (k - cap c) (x :: R0)) ++ [(k, b)], k + 1) end =
       ((match x with Some x => b_addr x | None => 0 end), (T ++ tagged (k - cap c + 1) R0) ++ [(k, b)], k + 1)).
    { destruct x as [x|]; cbn [tagged find fst].
      - rewrite Z.eqb_refl. cbn [snd]. rewrite without_app. rewrite H2 in WT. specialize (WT 0 ltac:(lia)). rewrite Z.add_0_r in WT.
        rewrite WT. cbn [without filter fst]. rewrite Z.eqb_refl. cbn [negb]. fold (without (k - cap c) (tagged (k - cap c + 1) R0)).
        rewrite (without_out _ (tagged (k - cap c + 1) R0)) by (intros (j, y) J; apply tagged_in in J; cbn; lia). reflexivity.
      - rewrite find_none_all by (intros (j, y) J; apply tagged_in in J; cbn; lia). reflexivity. }
    rewrite X. cbn [fst snd]. split; [reflexivity|]. exists (R0 ++ [Some b]), T. split; [exact S'|].
    rewrite (push_tagged' k R0 b (cap c)) by lia. rewrite <- app_assoc. rewrite len_app, len_cons. change (len (@nil (option block))) with 0.
    repeat match goal with |- _ /\ _ => split end; auto; try lia; try (intros p Ip; specialize (HT p Ip); lia).
    intros _. match goal with Q : _ = head s' |- _ => rewrite <- Q end. apply mod_wrap; [lia|]. apply Hh. exact H2.
  - replace (maxsz c <? b_size b) with false by lia. replace (b_size b + _ <=? maxsz c) with false by lia.
    rewrite find_app, FT, find_none_all.
    2:{ intros (j, y) J. apply tagged_in in J. cbn [fst snd]. destruct (candidate (cap c) k j) eqn:Q; [|reflexivity]. cbn [andb].
        replace j with (k - len R + (j - (k - len R))) in Q by lia. destruct (proj1 (HC (j - (k - len R)))) as (A1 & A2); [split; [exact Q|lia]|].
        specialize (H3 _ A1 A2). rewrite (proj2 J) in H3. cbn in H3. exact H3. }
    cbn [fst snd]. split; [reflexivity|]. exists R, T. repeat match goal with |- _ /\ _ => split end; auto; try lia; try congruence.
  - replace (maxsz c <? b_size b) with false by lia. replace (b_size b + _ <=? maxsz c) with false by lia.
    pose proof (proj2 (HC j) (conj H4 H5)) as (A1 & A2).
    rewrite find_app, FT, (find_tagged (candidate (cap c) k) (b_size b) (k - len R) R j x) by auto. cbn [fst snd].
    split; [reflexivity|]. rewrite without_app, WT, <- (tagged_upd _ R j x) by auto.
    assert (Lu : len (upd_ring R j) = len R) by (apply len_upd; lia).
    exists (upd_ring R j ++ [Some b]), T. split; [exact S'|].
    rewrite push_tagged, app_assoc, Lu. rewrite len_app, len_cons, Lu. change (len (@nil (option block))) with 0.
    repeat match goal with |- _ /\ _ => split end; auto; try lia; try (intros p Ip; specialize (HT p Ip); lia).
    intros F. match goal with Q : _ = head s' |- _ => rewrite <- Q end. rewrite (d_notfull _ _ _ _ _ I) by lia. replace (k + 1) with (cap c) by lia. rewrite Z.mod_same; lia.
  - replace (maxsz c <? b_size b) with false by lia. replace (b_size b + _ <=? maxsz c) with false by lia.
    pose proof (proj2 (HC j) (conj H4 H5)) as (A1 & A2).
    rewrite find_app, FT, (find_tagged (candidate (cap c) k) (b_size b) (k - len R) R j x) by auto. cbn [fst snd].
    split; [reflexivity|]. rewrite without_app, WT, <- (tagged_upd _ R j x) by auto.
    assert (Lu : len (upd_ring R j) = len R) by (apply len_upd; lia).
    rewrite H9 in *. rewrite len_cons in Lu. cbn [tagged].
    exists (R0 ++ [Some b]), T. split; [exact S'|].
    rewrite (push_tagged' k R0 b (len R)) by lia. rewrite <- app_assoc. rewrite len_app, len_cons. change (len (@nil (option block))) with 0.
    repeat match goal with |- _ /\ _ => split end; auto; try lia; try (intros p Ip; specialize (HT p Ip); lia).
    intros _. match goal with Q : _ = head s' |- _ => rewrite <- Q end. apply mod_wrap; [lia|]. apply Hh. exact H3.
  - replace (maxsz c <? b_size b) with false by lia. replace (b_size b + _ <=? maxsz c) with false by lia.
    pose proof (proj2 (HC j) (conj (Z.lt_le_incl _ _ H4) H5)) as (A1 & A2).
    rewrite find_app, FT, (find_tagged (candidate (cap c) k) (b_size b) (k - len R) R j x) by (auto; lia). cbn [fst snd].
    split; [reflexivity|]. rewrite without_app, WT, <- (tagged_upd _ R j x) by (auto; lia).
    assert (Lu : len (upd_ring R j) = len R) by (apply len_upd; lia).
    rewrite H9 in *. rewrite len_cons in Lu. cbn [tagged].
    exists (R0 ++ [Some b]), (T ++ [(k - len R, y)]). split.
    { replace (lost_of (cap c) (T ++ [(k - len R, y)])) with ((y, head s) :: lost_of (cap c) T); [exact S'|].
      unfold lost_of. rewrite rev_app_distr. cbn [rev app map fst snd]. f_equal. f_equal. rewrite (Hh H3), H3.
      replace (k - cap c) with (k + (-1) * cap c) by lia. rewrite Z.mod_add by lia. reflexivity. }
    rewrite (push_tagged' k R0 b (len R)) by lia. rewrite <- !app_assoc. cbn [app]. rewrite len_app, len_cons. change (len (@nil (option block))) with 0.
    repeat match goal with |- _ /\ _ => split end; auto; try lia.
    + intros _. match goal with Q : _ = head s' |- _ => rewrite <- Q end. apply mod_wrap; [lia|]. apply Hh. exact H3.
    + intros p Ip. apply in_app_or in Ip. destruct Ip as [Ip|[<-|[]]]; [specialize (HT p Ip); lia|cbn; lia].
Qed.

Definition call (b : block) : Z * Z * bool * Z := (b_addr b, b_size b, b_rz b, b_stack b).
Definition conf_ok (c : conf) : Prop := 0 < cap c < 2 ^ 31 /\ 0 <= maxsz c < 2 ^ 32.

Lemma init_ok c : conf_ok c -> HInv c init 0 [].
Proof.
  intros (H1 & H2). exists [], []. split; [|cbn; repeat split; auto; try lia; intros p []].
  split; [|reflexivity]. change (len (@nil (option block))) with 0. constructor; cbn; auto; try lia.
  exists []. split; [apply idx_create|]. intros e. unfold member. cbn. split; [tauto|].
    intros [(i & b & Hi & _)|(b & j & [] & _)]. change (len (@nil (option block))) with 0 in Hi. lia.
Qed.

Lemma history_ok c bs : forall s k q, HInv c s k q -> legal (cap c) (maxsz c) k q bs ->
  exists s', frees c s (map call bs) = Ok (fst (fst (history (cap c) (maxsz c) k q bs)), s') /\
    HInv c s' (snd (history (cap c) (maxsz c) k q bs)) (snd (fst (history (cap c) (maxsz c) k q bs))).
Proof.
  induction bs as [|b bs IH]; intros s k q H Lg; cbn [frees history map legal] in *; [exists s; auto|].
  destruct Lg as (Pb & Ap & Lg). destruct (next_ok c s k q b H Pb Ap) as (s' & E & H'). unfold call at 1. rewrite E. cbn [bind].
  destruct (next (cap c) (maxsz c) k q b) as ((r, q'), k'). cbn [fst snd] in *.
  destruct (IH s' k' q' H' Lg) as (s2 & E2 & H2). rewrite E2. cbn [bind].
  destruct (history (cap c) (maxsz c) k' q' bs) as ((rs, q2), k2). cbn [fst snd] in *. exists s2. auto.
Qed.

Lemma hinv_bytes c s k q : HInv c s k q -> bytes s = total (blocks q) /\ total (blocks q) <= maxsz c.
Proof.
  intros (R & T & (I & B) & -> & _). rewrite (total_perm _ _ (blocks_all c T (k - len R) R)).
  split; [exact B|apply (d_lim _ _ _ _ _ I)].
Qed.

Lemma meets_touches st en x j : meets st en (b_addr x, b_size x, j) = true <-> touches st en x.
Proof. unfold meets, touches. cbn [e_base e_size fst snd]. lia. Qed.

Lemma hinv_member c s k q : HInv c s k q -> exists l, Idx (dtree s) l /\
  (forall p, In p q -> In (b_addr (snd p), b_size (snd p), fst p mod cap c) l) /\
  (forall e, In e l -> exists p, In p q /\ e = (b_addr (snd p), b_size (snd p), fst p mod cap c)) /\
  forall p, In p q -> k - cap c <= fst p -> rd_slot c s (fst p mod cap c) = Ok (slot_of (snd p)).
Proof.
  intros (R & T & (I & B) & -> & Hl & Hk & Hh & HT). destruct (d_tree _ _ _ _ _ I) as (l & Ix & Il). exists l. split; [exact Ix|].
  pose proof (d_cap _ _ _ _ _ I) as Hc. pose proof (d_head _ _ _ _ _ I) as Hd.
  assert (PP : forall i, 0 <= i < len R -> pos (head s) (cap c) i = (k - len R + i) mod cap c).
  { intros i Hi. unfold pos. destruct (Z.eq_dec (len R) (cap c)) as [E|N].
    - replace (k - len R + i) with (k + i + (-1) * cap c) by lia. rewrite Z.mod_add by lia. rewrite <- (Z.add_mod_idemp_l k) by lia. rewrite <- Hh by lia.
      destruct (head s + i <? cap c) eqn:Q; [rewrite Z.mod_small; lia|].
      replace (head s + i) with (head s + i - cap c + 1 * cap c) at 2 by lia. rewrite Z.mod_add by lia. rewrite Z.mod_small; lia.
    - rewrite (d_notfull _ _ _ _ _ I) by (pose proof (d_le _ _ _ _ _ I); lia).
      replace (0 + i <? cap c) with true by lia. rewrite Z.mod_small; lia. }
  split; [|split].
  - intros (j, x) J. cbn [fst snd]. apply Il. apply in_app_or in J. destruct J as [J|J].
    + right. exists x, (j mod cap c). split; [|reflexivity]. unfold lost_of. apply in_map_iff. exists (j, x). split; [reflexivity|]. apply in_rev in J. exact J.
    + left. apply tagged_in in J. destruct J as (J1 & J2). exists (j - (k - len R)), x. split; [lia|]. split; [exact J2|].
      rewrite PP by lia. repeat f_equal. lia.
  - intros e J. apply Il in J. destruct J as [(i & x & Hi & Ex & ->)|(x & j & J & ->)].
    + exists (k - len R + i, x). split; [|cbn [fst snd]; rewrite PP by lia; reflexivity]. apply in_or_app. right. apply tagged_in.
      split; [lia|]. replace (k - len R + i - (k - len R)) with i by lia. exact Ex.
    + unfold lost_of in J. apply in_map_iff in J. destruct J as ((j', x') & E & J). injection E as <- <-. apply in_rev in J.
      exists (j', x'). split; [apply in_or_app; auto|reflexivity].
  - intros (j, x) J Hj. cbn [fst snd] in *. apply in_app_or in J. destruct J as [J|J]; [specialize (HT _ J); cbn in HT; lia|].
    apply tagged_in in J. destruct J as (J1 & J2). destruct (d_arr _ _ _ _ _ I (j - (k - len R)) ltac:(lia)) as (e & Ee & Em).
    rewrite J2 in Em. rewrite PP in Ee by lia. replace (k - len R + (j - (k - len R))) with j in Ee by lia. subst e.
    unfold rd_slot. pose proof (Z.mod_pos_bound j (cap c) ltac:(lia)). replace ((0 <=? j mod cap c) && (j mod cap c <? cap c)) with true by lia.
    rewrite Ee. reflexivity.
Qed.

Lemma hinv_slot c s k q p : HInv c s k q -> In p q -> exists e, rd_slot c s (fst p mod cap c) = Ok e.
Proof.
  intros H J. destruct H as (R & T & (I & B) & -> & Hl & Hk & Hh & HT). pose proof (d_cap _ _ _ _ _ I) as Hc.
  destruct (Z_lt_ge_dec (fst p) (k - cap c)) as [L|G].
  - pose proof (Z.mod_pos_bound (fst p) (cap c) ltac:(lia)) as M.
    assert (F : len R = cap c).
    { apply in_app_or in J. destruct J as [J|J].
      - assert (J' : In (snd p, fst p mod cap c) (lost_of (cap c) T)).
        { unfold lost_of. apply in_map_iff. exists p. split; [reflexivity|]. apply in_rev in J. exact J. }
        apply (d_lost _ _ _ _ _ I) in J'. apply J'.
      - destruct p as (j, x). apply tagged_in in J. cbn in *. lia. }
    set (h := head s) in *. set (m := fst p mod cap c) in *. pose proof (d_head _ _ _ _ _ I) as Hd. fold h in Hd.
    set (i := if h <=? m then m - h else m - h + cap c).
    destruct (d_arr _ _ _ _ _ I i) as (e & Ee & _); [unfold i; destruct (h <=? m) eqn:Q; lia|].
    exists e. unfold rd_slot. replace ((0 <=? m) && (m <? cap c)) with true by lia.
    replace (pos (head s) (cap c) i) with m in Ee; [rewrite Ee; reflexivity|]. fold h.
    unfold pos, i. destruct (h <=? m) eqn:Q; match goal with |- context [if ?x then _ else _] => destruct x eqn:Q2 end; lia.
  - exists (slot_of (snd p)). assert (H : HInv c s k (T ++ tagged (k - len R) R)) by (exists R, T; unfold SInv; auto 10).
    destruct (hinv_member c s k _ H) as (l & _ & _ & _ & X). apply X; [exact J|lia].
Qed.

Lemma overlap_ok c s k q st en : HInv c s k q ->
  exists o, overlaps_delayed_free c s st en = Ok o /\
    match o with
    | None => forall p, In p q -> ~ touches st en (snd p)
    | Some d => exists p, In p q /\ touches st en (snd p) /\ (k - cap c <= fst p -> d = described (rzsz c) (snd p))
    end.
Proof.
  intros H. destruct (hinv_member c s k q H) as (l & Ix & M1 & M2 & M3).
  unfold overlaps_delayed_free. destruct (idx_overlaps (dtree s) l st en Ix) as (h & Eh & Hh). rewrite Eh. cbn [bind].
  destruct h as [x|].
  - destruct Hh as (e & He & Me). pose proof (idx_fields _ _ _ _ He) as Ef. pose proof (handle_in _ _ _ _ He) as Ie.
    destruct (M2 e Ie) as (p & Ip & ->). destruct (hinv_slot c s k q p H Ip) as (e & Ee).
    rewrite Ef. cbn [bind]. rewrite Ee. cbn [bind]. eexists. split; [reflexivity|]. exists p. split; [exact Ip|].
    split; [apply (meets_touches st en (snd p) (fst p mod cap c)); exact Me|].
    intros G. rewrite (M3 p Ip G) in Ee. injection Ee as <-. reflexivity.
  - exists None. split; [reflexivity|]. intros p Ip Tp. specialize (Hh _ (M1 p Ip)).
    apply (meets_touches st en (snd p) (fst p mod cap c)) in Tp. congruence.
Qed.

(** While no block is forced out of the middle, nothing is forgotten and at most
    [n] blocks are delayed. *)
Definition tidy (n k : Z) (q : list dentry) : Prop :=
  (forall p, In p q -> 0 <= fst p /\ k - n <= fst p < k) /\ NoDup (map fst q) /\ 0 <= k.

Lemma tidy_length n k q : 0 < n -> tidy n k q -> Z.of_nat (length q) <= n.
Proof.
  intros Hn (A & N & K). replace (length q) with (length (map fst q)) by apply map_length.
  set (f := fun i => k - n + Z.of_nat i).
  assert (I : incl (map fst q) (map f (seq 0 (Z.to_nat n)))).
  { intros j J. apply in_map_iff in J. destruct J as (p & <- & J). specialize (A p J).
    apply in_map_iff. exists (Z.to_nat (fst p - (k - n))). split; [unfold f; lia|]. apply in_seq. lia. }
  pose proof (NoDup_incl_length N I) as Le. rewrite (map_length f), seq_length in Le. lia.
Qed.

Lemma without_in j q p : In p (without j q) <-> In p q /\ fst p <> j.
Proof. unfold without. rewrite filter_In. split; intros (H1 & H2); split; auto; lia. Qed.
Lemma without_nodup j q : NoDup (map fst q) -> NoDup (map fst (without j q)).
Proof.
  induction q as [|p q IH]; cbn; intros N; [constructor|]. inversion N as [|? ? N1 N2]; subst.
  destruct (fst p =? j); cbn; auto. constructor; auto. intros J. apply N1. apply in_map_iff in J. destruct J as (x & E & J).
  apply in_map_iff. exists x. split; auto. apply without_in in J. tauto.
Qed.

Lemma tidy_push n k q b : 0 < n -> tidy n k q -> (forall p, In p q -> fst p <> k - n) -> tidy n (k + 1) (q ++ [(k, b)]).
Proof.
  intros Hn (A & N & K) D. split; [|split; [|lia]].
  - intros p Ip. apply in_app_or in Ip. destruct Ip as [Ip|[<-|[]]]; [|cbn; lia]. specialize (A p Ip). specialize (D p Ip). lia.
  - rewrite map_app. cbn [map fst]. apply (Permutation_NoDup (Permutation_cons_append (map fst q) k)).
    constructor; auto. intros J. apply in_map_iff in J. destruct J as (p & E & J). specialize (A p J). lia.
Qed.
Lemma tidy_without n k q j : tidy n k q -> tidy n k (without j q).
Proof.
  intros (A & N & K). split; [|split; [|lia]]; [|apply without_nodup; exact N].
  intros p Ip. apply without_in in Ip. apply A. tauto.
Qed.

Lemma next_tidy n max k q b bs : 0 < n -> tidy n k q -> gentle n max k q (b :: bs) ->
  tidy n (snd (next n max k q b)) (snd (fst (next n max k q b))).
Proof.
  intros Hn T (G & _). unfold next in *. destruct (max <? b_size b) eqn:Q1; [exact T|].
  destruct (b_size b + total (blocks q) <=? max) eqn:Q2.
  - destruct (find (fun p => fst p =? k - n) q) as [p|] eqn:F; cbn [fst snd].
    + apply tidy_push; [exact Hn|apply tidy_without; exact T|]. intros p' Ip. apply without_in in Ip. tauto.
    + apply tidy_push; auto. intros p' Ip. apply find_none with (x := p') in F; [lia|exact Ip].
  - destruct (find (fun p => candidate n k (fst p) && (b_size b <=? b_size (snd p))) q) as [p|] eqn:F; [|exact T]. cbn [fst snd].
    pose proof (find_some _ _ F) as (Ip & Fp). assert (A := proj1 T).
    apply tidy_push; [exact Hn|apply tidy_without; exact T|]. intros p' Ip'. apply without_in in Ip'.
    destruct G as [G|[G|[G|[G|(x & q' & E & G)]]]]; [|lia|lia| |].
    + destruct (A p' (proj1 Ip')). lia.
    + specialize (G p Ip). lia.
    + assert (p = (k - n, x)); [|subst p; cbn in Ip'; tauto].
      rewrite E in F. cbn [find fst snd] in F.
      replace (candidate n k (k - n)) with true in F.
      * replace (b_size b <=? b_size x) with true in F by lia. cbn in F. congruence.
      * unfold candidate. destruct (k <? n) eqn:Q; [reflexivity|]. assert (0 <= k mod n < n) by (apply Z.mod_pos_bound; lia). lia.
Qed.

Lemma history_tidy n max bs : 0 < n -> forall k q, tidy n k q -> gentle n max k q bs ->
  tidy n (snd (history n max k q bs)) (snd (fst (history n max k q bs))).
Proof.
  intros Hn. induction bs as [|b bs IH]; intros k q T G; [exact T|]. pose proof (next_tidy n max k q b bs Hn T G) as T'.
  cbn [history gentle] in *. destruct G as (_ & G). destruct (next n max k q b) as ((r, q'), k'). cbn [fst snd] in *.
  specialize (IH k' q' T' G). destruct (history n max k' q' bs) as ((rs, q2), k2). exact IH.
Qed.

(** Every answer is nothing, the block itself, or a block delayed until now. *)
Lemma next_answer n max k q b :
  (let '(r, q', _) := next n max k q b in
   (r = 0 /\ Permutation (blocks q') (b :: blocks q)) \/ (r = b_addr b /\ q' = q) \/
   exists p, In p q /\ r = b_addr (snd p) /\ q' = without (fst p) q ++ [(k, b)]).
Proof.
  unfold next. destruct (max <? b_size b); [auto|]. destruct (b_size b + total (blocks q) <=? max).
  - destruct (find (fun p => fst p =? k - n) q) as [p|] eqn:F.
    + right. right. apply find_some in F. exists p. destruct F as (F1 & F2). replace (k - n) with (fst p) by lia. auto.
    + left. split; [reflexivity|]. unfold blocks. rewrite map_app. cbn. symmetry. apply Permutation_cons_append.
  - destruct (find (fun p => candidate n k (fst p) && (b_size b <=? b_size (snd p))) q) as [p|] eqn:F; [|auto].
    right. right. apply find_some in F. exists p. tauto.
Qed.

(** A block that the ring has passed over stays delayed. *)
Lemma next_lost n max k q b j x : 0 < n -> 0 <= j < k - n -> In (j, x) q ->
  In (j, x) (snd (fst (next n max k q b))) /\ k <= snd (next n max k q b).
Proof.
  intros Hn Hj I. unfold next. destruct (max <? b_size b); [split; [exact I|cbn; lia]|].
  destruct (b_size b + total (blocks q) <=? max).
  - destruct (find (fun p => fst p =? k - n) q) as [p|]; cbn [fst snd]; (split; [|lia]); apply in_or_app; left; auto.
    apply without_in. cbn. split; [exact I|lia].
  - destruct (find (fun p => candidate n k (fst p) && (b_size b <=? b_size (snd p))) q) as [p|] eqn:F; cbn [fst snd]; (split; [|lia]); auto.
    apply in_or_app; left. apply without_in. cbn. split; [exact I|]. intros ->. apply find_some in F.
    rewrite cand_lost in F by lia. destruct F. discriminate.
Qed.
Lemma history_lost n max bs : 0 < n -> forall k q j x, 0 <= j < k - n -> In (j, x) q -> In (j, x) (snd (fst (history n max k q bs))).
Proof.
  intros Hn. induction bs as [|b bs IH]; intros k q j x Hj I; [exact I|]. cbn [history].
  destruct (next_lost n max k q b j x Hn Hj I) as (I' & K). destruct (next n max k q b) as ((r, q'), k'). cbn [fst snd] in *.
  specialize (IH k' q' j x ltac:(lia) I'). destruct (history n max k' q' bs) as ((rs, q2), k2). exact IH.
Qed.
Lemma history_app n max a : forall k q b,
  history n max k q (a ++ b) =
  (fst (fst (history n max k q a)) ++ fst (fst (history n max (snd (history n max k q a)) (snd (fst (history n max k q a))) b)),
   snd (fst (history n max (snd (history n max k q a)) (snd (fst (history n max k q a))) b)),
   snd (history n max (snd (history n max k q a)) (snd (fst (history n max k q a))) b)).
Proof.
  induction a as [|x a IH]; intros k q b; cbn [history app fst snd].
  - destruct (history n max k q b) as ((rs, q2), k2). reflexivity.
  - destruct (next n max k q x) as ((r, q'), k'). rewrite IH. destruct (history n max k' q' a) as ((rs, q2), k2). reflexivity.
Qed.
Lemma legal_app n max a : forall k q b,
  legal n max k q (a ++ b) <-> legal n max k q a /\ legal n max (snd (history n max k q a)) (snd (fst (history n max k q a))) b.
Proof.
  induction a as [|x a IH]; intros k q b; cbn [history legal app fst snd]; [tauto|].
  destruct (next n max k q x) as ((r, q'), k'). rewrite IH. destruct (history n max k' q' a) as ((rs, q2), k2). cbn [fst snd]. tauto.
Qed.

Definition serials (k : Z) (q : list dentry) : Prop := (forall p, In p q -> fst p < k) /\ NoDup (map fst q).
Lemma serials_push k q b : serials k q -> serials (k + 1) (q ++ [(k, b)]).
Proof.
  intros (A & N). split.
  - intros p Ip. apply in_app_or in Ip. destruct Ip as [Ip|[<-|[]]]; [|cbn; lia]. specialize (A p Ip). lia.
  - rewrite map_app. cbn [map fst]. apply (Permutation_NoDup (Permutation_cons_append (map fst q) k)).
    constructor; auto. intros J. apply in_map_iff in J. destruct J as (p & E & J). specialize (A p J). lia.
Qed.
Lemma serials_without k q j : serials k q -> serials k (without j q).
Proof.
  intros (A & N). split; [|apply without_nodup; exact N]. intros p Ip. apply without_in in Ip. apply A. tauto.
Qed.
Lemma next_serials n max k q b : serials k q -> serials (snd (next n max k q b)) (snd (fst (next n max k q b))).
Proof.
  intros S. unfold next. destruct (max <? b_size b); [exact S|]. destruct (b_size b + total (blocks q) <=? max).
  - destruct (find (fun p => fst p =? k - n) q); cbn [fst snd]; auto using serials_push, serials_without.
  - destruct (find (fun p => candidate n k (fst p) && (b_size b <=? b_size (snd p))) q); cbn [fst snd]; auto using serials_push, serials_without.
Qed.
Lemma history_serials n max bs : forall k q, serials k q -> serials (snd (history n max k q bs)) (snd (fst (history n max k q bs))).
Proof.
  induction bs as [|b bs IH]; intros k q T; [exact T|]. pose proof (next_serials n max k q b T) as T'.
  cbn [history]. destruct (next n max k q b) as ((r, q'), k'). cbn [fst snd] in *.
  specialize (IH k' q' T'). destruct (history n max k' q' bs) as ((rs, q2), k2). exact IH.
Qed.
Lemma without_perm q p : NoDup (map fst q) -> In p q -> Permutation (blocks q) (snd p :: blocks (without (fst p) q)).
Proof.
  induction q as [|x q IH]; intros N I; [destruct I|]. cbn in N. inversion N as [|? ? N1 N2]; subst. cbn [without filter].
  destruct I as [->|I].
  - rewrite Z.eqb_refl. cbn [negb]. fold (without (fst p) q). rewrite without_out; [reflexivity|].
    intros p' Ip E. apply N1. apply in_map_iff. exists p'. auto.
  - assert (fst x <> fst p) by (intros E; apply N1; rewrite E; apply in_map; exact I).
    replace (fst x =? fst p) with false by lia. cbn [negb]. fold (without (fst p) q). cbn [blocks map].
    rewrite (IH N2 I). apply perm_swap.
Qed.

Lemma answer_ok c bs b : conf_ok c -> legal (cap c) (maxsz c) 0 [] (bs ++ [b]) ->
  let q := blocks (snd (fst (history (cap c) (maxsz c) 0 [] bs))) in
  exists rs s r s', frees c init (map call bs) = Ok (rs, s) /\
    client_handle_free c s (b_addr b) (b_size b) (b_rz b) (b_stack b) = Ok (r, s') /\
    let q' := blocks (snd (fst (history (cap c) (maxsz c) 0 [] (bs ++ [b])))) in
    ((r = 0 /\ Permutation q' (b :: q)) \/ (r = b_addr b /\ q' = q) \/
     exists x q0, r = b_addr x /\ Permutation q (x :: q0) /\ Permutation q' (b :: q0)).
Proof.
  intros C L q. apply legal_app in L. destruct L as (L & Lb).
  destruct (history_ok c bs init 0 [] (init_ok c C) L) as (s & E & H).
  rewrite history_app. cbn [fst snd].
  assert (SE : serials 0 []) by (split; [intros p []|constructor]). apply (history_serials (cap c) (maxsz c) bs) in SE.
  set (qq := snd (fst (history (cap c) (maxsz c) 0 [] bs))) in *. unfold q. clear q.
  set (k := snd (history (cap c) (maxsz c) 0 [] bs)) in *. destruct Lb as (Pb & Ap & _).
  destruct (next_ok c s k qq b H Pb Ap) as (s' & E' & H'). pose proof (next_answer (cap c) (maxsz c) k qq b) as A.
  cbn [history]. destruct (next (cap c) (maxsz c) k qq b) as ((r, q'), k'). cbn [fst snd] in *.
  eexists _, s, r, s'. split; [exact E|]. split; [exact E'|].
  destruct A as [(-> & P)|[(-> & ->)|(p & Ip & -> & ->)]]; auto.
  right. right. exists (snd p), (blocks (without (fst p) qq)). split; [reflexivity|]. split; [apply without_perm; [apply SE|exact Ip]|].
  unfold blocks. rewrite map_app. cbn. symmetry. apply Permutation_cons_append.
Qed.

Lemma history_exact c bs : conf_ok c -> legal (cap c) (maxsz c) 0 [] bs ->
  let '(rs, q, _) := history (cap c) (maxsz c) 0 [] bs in
  exists s, frees c init (map call bs) = Ok (rs, s) /\ bytes s = total (blocks q) /\ total (blocks q) <= maxsz c.
Proof.
  intros C L. destruct (history_ok c bs init 0 [] (init_ok c C) L) as (s & E & H). apply hinv_bytes in H.
  destruct (history (cap c) (maxsz c) 0 [] bs) as ((rs, q), k). exists s. auto.
Qed.

Lemma overlap_exact c bs st en : conf_ok c -> legal (cap c) (maxsz c) 0 [] bs ->
  let '(rs, q, k) := history (cap c) (maxsz c) 0 [] bs in
  exists s o, frees c init (map call bs) = Ok (rs, s) /\ overlaps_delayed_free c s st en = Ok o /\
    match o with
    | None => forall x, In x (blocks q) -> ~ touches st en x
    | Some d => exists j x, In (j, x) q /\ touches st en x /\ (k - cap c <= j -> d = described (rzsz c) x)
    end.
Proof.
  intros C L. destruct (history_ok c bs init 0 [] (init_ok c C) L) as (s & E & H).
  destruct (overlap_ok c s _ _ st en H) as (o & Eo & Ho). destruct (history (cap c) (maxsz c) 0 [] bs) as ((rs, q), k).
  exists s, o. split; [exact E|]. split; [exact Eo|]. destruct o as [d|].
  - destruct Ho as ((j, x) & Ho). exists j, x. exact Ho.
  - intros x Ix. unfold blocks in Ix. apply in_map_iff in Ix. destruct Ix as (p & <- & Ip). auto.
Qed.

Lemma bounded n max bs : 0 < n -> gentle n max 0 [] bs ->
  let '(_, q, k) := history n max 0 [] bs in
  Z.of_nat (length q) <= n /\ forall j x, In (j, x) q -> k - n <= j < k.
Proof.
  intros Hn G. assert (T : tidy n 0 []) by (split; [intros p []|split; [constructor|lia]]).
  apply (history_tidy n max bs Hn 0 [] T) in G. destruct (history n max 0 [] bs) as ((rs, q), k). cbn [fst snd] in G.
  split; [apply (tidy_length n k q Hn G)|]. intros j x J. apply (proj1 G) in J. cbn in J. lia.
Qed.

Lemma never_released n max bs more : 0 < n -> let '(_, q, k) := history n max 0 [] bs in
  forall j x, In (j, x) q -> 0 <= j < k - n -> let '(_, q', _) := history n max 0 [] (bs ++ more) in In (j, x) q'.
Proof.
  intros Hn. rewrite history_app. destruct (history n max 0 [] bs) as ((rs, q), k). cbn [fst snd]. intros j x I Hj.
  apply history_lost; auto.
Qed.
