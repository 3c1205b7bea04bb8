(** Invariant of the delayed-free queue and its preservation. *)
From Verif Require Import Base Redblack_Model Redblack_Spec Redblack_Facts DelayFree_Model DelayFree_Spec.
From Coq Require Import Permutation.
Open Scope Z_scope.

Definition pos (h c i : Z) : Z := if h + i <? c then h + i else h + i - c.
Definition len {A} (l : list A) : Z := Z.of_nat (length l).
Definition ring := list (option block).
Definition rnth (R : ring) (i : Z) : option block := nth (Z.to_nat i) R None.
Fixpoint live (R : ring) : list block :=
  match R with [] => [] | Some b :: R => b :: live R | None :: R => live R end.
Definition slot_of (b : block) : slot := Slot (b_addr b) (b_size b) (b_rz b) (b_stack b).
Definition lost := list (block * Z).
Definition all (R : ring) (L : lost) : list block := live R ++ map fst L.

Fixpoint pairwise (q : list block) : Prop :=
  match q with [] => True | b :: q => Forall (apart b) q /\ pairwise q end.

Definition member (cp h : Z) (R : ring) (L : lost) (e : entry) : Prop :=
  (exists i b, 0 <= i < len R /\ rnth R i = Some b /\ e = (b_addr b, b_size b, pos h cp i)) \/
  (exists b j, In (b, j) L /\ e = (b_addr b, b_size b, j)).

Record DInv (lo : Z) (c : conf) (s : dstate) (R : ring) (L : lost) : Prop := {
  d_cap : 0 < cap c < 2 ^ 31; d_max : 0 <= maxsz c < 2 ^ 32;
  d_fill : fill s = len R; d_le : len R <= cap c;
  d_head : 0 <= head s < cap c; d_notfull : len R < cap c -> head s = 0;
  d_arr : forall i, lo <= i < len R -> exists e, arr s (pos (head s) (cap c) i) = Some e /\
            match rnth R i with Some b => e = slot_of b | None => addr e = 0 end;
  d_lim : total (all R L) <= maxsz c;
  d_proper : Forall proper (all R L); d_apart : pairwise (all R L);
  d_lost : forall b j, In (b, j) L -> 0 <= j < cap c /\ len R = cap c;
  d_tree : exists l, Idx (dtree s) l /\ forall e, In e l <-> member (cap c) (head s) R L e }.

Lemma len_app {A} (a b : list A) : len (a ++ b) = len a + len b.
Proof. unfold len. rewrite app_length. lia. Qed.
Lemma len_cons {A} (a : A) l : len (a :: l) = 1 + len l. Proof. unfold len. cbn [length]. lia. Qed.
Lemma len_nonneg {A} (l : list A) : 0 <= len l. Proof. unfold len. lia. Qed.
Lemma live_app R R' : live (R ++ R') = live R ++ live R'.
Proof. induction R as [|[b|] R IH]; cbn; [auto|f_equal; auto|auto]. Qed.
Lemma total_app a b : total (a ++ b) = total a + total b.
Proof. induction a as [|x a IH]; cbn; lia. Qed.
Lemma total_nonneg q : Forall proper q -> 0 <= total q.
Proof. induction q as [|b q IH]; cbn; intros F; [lia|]. inversion F as [|? ? P F']; subst. specialize (IH F'). unfold proper in P. lia. Qed.
Lemma rnth_in R i b : 0 <= i -> rnth R i = Some b -> In b (live R).
Proof.
  unfold rnth. intros Hi. generalize (Z.to_nat i). clear i Hi. induction R as [|[x|] R IH]; intros [|n] E; cbn in *; try discriminate.
  - injection E as ->. auto.
  - right. eauto.
  - eauto.
Qed.
Lemma in_rnth R b : In b (live R) -> exists i, 0 <= i < len R /\ rnth R i = Some b.
Proof.
  induction R as [|[x|] R IH]; cbn [live In]; [tauto| |].
  - intros [->|I]; [exists 0; pose proof (len_nonneg R); rewrite (len_cons (Some b) R); split; [lia|reflexivity]|].
    destruct (IH I) as (i & Hi & E). exists (i + 1). rewrite len_cons. split; [lia|].
    unfold rnth in *. replace (Z.to_nat (i + 1)) with (S (Z.to_nat i)) by lia. exact E.
  - intros I. destruct (IH I) as (i & Hi & E). exists (i + 1). rewrite len_cons. split; [lia|].
    unfold rnth in *. replace (Z.to_nat (i + 1)) with (S (Z.to_nat i)) by lia. exact E.
Qed.
Lemma rnth_split R i b : 0 <= i -> rnth R i = Some b -> exists R1 R2, R = R1 ++ Some b :: R2 /\ len R1 = i.
Proof.
  unfold rnth. intros Hi E.
  assert (L : (Z.to_nat i < length R)%nat).
  { destruct (Nat.lt_ge_cases (Z.to_nat i) (length R)) as [H|H]; auto. rewrite nth_overflow in E by lia. discriminate. }
  apply nth_split with (d := None) in L. destruct L as (R1 & R2 & E2 & L2). exists R1, R2. rewrite E in E2. split; auto.
  unfold len. lia.
Qed.
Lemma rnth_app1 R1 R2 i : 0 <= i < len R1 -> rnth (R1 ++ R2) i = rnth R1 i.
Proof. intros H. unfold rnth. apply app_nth1. unfold len in H. lia. Qed.
Lemma rnth_app2 R1 R2 i : len R1 <= i -> rnth (R1 ++ R2) i = rnth R2 (i - len R1).
Proof. intros H. unfold rnth, len in *. rewrite app_nth2 by lia. f_equal. lia. Qed.
Lemma rnth_0 x R : rnth (x :: R) 0 = x. Proof. reflexivity. Qed.
Lemma rnth_S x R i : 0 < i -> rnth (x :: R) i = rnth R (i - 1).
Proof. intros H. unfold rnth. replace (Z.to_nat i) with (S (Z.to_nat (i - 1))) by lia. reflexivity. Qed.
Lemma rnth_none R i : len R <= i -> rnth R i = None.
Proof. intros H. unfold rnth, len in *. apply nth_overflow. lia. Qed.

Lemma pairwise_app a b : pairwise (a ++ b) <-> pairwise a /\ pairwise b /\ forall x y, In x a -> In y b -> apart x y.
Proof.
  induction a as [|z a IH]; cbn.
  - split; [intros H; split; [|split]; auto; tauto|tauto].
  - rewrite Forall_app, IH. split.
    + intros ((F1 & F2) & P1 & P2 & P3). split; [auto|]. split; [auto|]. intros x y [->|I] J; auto.
      rewrite Forall_forall in F2. auto.
    + intros ((F1 & P1) & P2 & P3). split; [split; [auto|]|split; [auto|split; auto]].
      apply Forall_forall. intros y J. apply P3; auto.
Qed.
Lemma apart_sym a b : apart a b -> apart b a. Proof. unfold apart. tauto. Qed.
Lemma pairwise_perm a b : Permutation a b -> pairwise a -> pairwise b.
Proof.
  induction 1 as [|x l l' P IH|x y l|l l' l'' P1 IH1 P2 IH2]; cbn; auto.
  - intros (F & Q). split; [|auto]. eapply Permutation_Forall; eauto.
  - intros (F & F' & Q). inversion F as [|? ? A F2]; subst. split; [constructor; auto using apart_sym|split; auto].
Qed.
Lemma total_perm a b : Permutation a b -> total a = total b.
Proof. induction 1; cbn; lia. Qed.

Lemma pairwise_addr q x y : Forall proper q -> pairwise q -> In x q -> In y q -> b_addr x = b_addr y -> x = y.
Proof.
  intros P W I J E. induction q as [|z q IH]; [destruct I|]. inversion P as [|? ? Pz Pq]; subst. destruct W as (F & W).
  rewrite Forall_forall in F, Pq. destruct I as [->|I], J as [->|J]; auto.
  - specialize (F y J). unfold apart, proper in *. specialize (Pq y J). unfold proper in *. lia.
  - specialize (F x I). unfold apart, proper in *. specialize (Pq x I). unfold proper in *. lia.
  - apply IH; auto. apply Forall_forall. auto.
Qed.

Lemma pos_range h c i : 0 <= h < c -> 0 <= i < c -> 0 <= pos h c i < c.
Proof. unfold pos. destruct (h + i <? c) eqn:E; lia. Qed.
Lemma pos_inj h c i j : 0 <= h < c -> 0 <= i < c -> 0 <= j < c -> pos h c i = pos h c j -> i = j.
Proof. unfold pos. destruct (h + i <? c) eqn:E, (h + j <? c) eqn:E2; lia. Qed.

(** Removing one block of the ring from the tree and from the byte count. *)
Lemma next_to_free_ok c s R L i : DInv 0 c s R L -> 0 <= i < len R ->
  exists s', next_to_free c s (pos (head s) (cap c) i) = Ok ((match rnth R i with Some b => b_addr b | None => 0 end), s') /\
    head s' = head s /\ fill s' = fill s /\
    (exists e, arr s' (pos (head s) (cap c) i) = Some e) /\
    (forall j, j <> pos (head s) (cap c) i -> arr s' j = arr s j) /\
    match rnth R i with
    | None => bytes s' = bytes s /\ dtree s' = dtree s /\ (exists e, arr s' (pos (head s) (cap c) i) = Some e /\ addr e = 0)
    | Some b => bytes s' = (bytes s - b_size b) mod 2 ^ 64 /\
        exists l', Idx (dtree s') l' /\ (forall e, In e l' <-> member (cap c) (head s) R L e /\ e_base e <> b_addr b)
    end.
Proof.
  intros I Hi. destruct (d_arr _ _ _ _ _ I i Hi) as (e & Ea & Em).
  assert (Hp : 0 <= pos (head s) (cap c) i < cap c).
  { apply pos_range; [apply (d_head _ _ _ _ _ I)|]. pose proof (d_le _ _ _ _ _ I). lia. }
  unfold next_to_free, rd_slot. set (p := pos (head s) (cap c) i) in *.
  replace ((0 <=? p) && (p <? cap c)) with true by lia. rewrite Ea. cbn [of_option bind].
  destruct (rnth R i) as [b|] eqn:Er.
  - subst e. cbn [slot_of addr real_size has_redzone].
    assert (Ib : In b (all R L)) by (unfold all; apply in_or_app; left; eapply rnth_in; eauto; lia).
    assert (Pb : proper b) by (pose proof (d_proper _ _ _ _ _ I) as P; rewrite Forall_forall in P; auto).
    assert (N0 : b_addr b =? 0 = false) by (unfold proper in Pb; lia). rewrite N0.
    destruct (d_tree _ _ _ _ _ I) as (l & Ix & Il).
    destruct (idx_find (dtree s) l (b_addr b) Ix) as (h & Eh & Hh). rewrite Eh. cbn [bind].
    destruct h as [x|]; [|exfalso; apply (Hh (b_addr b, b_size b, p)); [apply Il; left; exists i, b; auto|reflexivity]].
    destruct Hh as (e & He & Eb). destruct (idx_delete _ _ _ _ He) as (t' & Et & Ix' & _). rewrite Et. cbn [bind].
    unfold wr_slot. replace ((0 <=? p) && (p <? cap c)) with true by lia. cbn [bind].
    eexists. split; [reflexivity|]. unfold with_bytes, with_tree. cbn [arr head fill bytes dtree].
    split; [reflexivity|]. split; [reflexivity|]. split; [rewrite Z.eqb_refl; eauto|]. split.
    + intros j Hj. replace (j =? p) with false by lia. reflexivity.
    + split; [reflexivity|].
      exists (filter (fun y => negb (e_base y =? e_base e)) l). split; auto.
      intros e0. rewrite filter_In, Eb, Il. split; intros (H1 & H2); split; auto; lia.
  - rewrite Em. cbn [Z.eqb bind]. unfold wr_slot. replace ((0 <=? p) && (p <? cap c)) with true by lia. cbn [bind].
    eexists. split; [reflexivity|]. cbn [arr head fill bytes dtree]. rewrite Z.eqb_refl.
    repeat match goal with |- _ /\ _ => split end; eauto.
    intros j Hj. replace (j =? p) with false by lia. reflexivity.
Qed.

Definition upd_ring (R : ring) (i : Z) : ring := firstn (Z.to_nat i) R ++ None :: skipn (S (Z.to_nat i)) R.
Lemma len_upd R i : 0 <= i < len R -> len (upd_ring R i) = len R.
Proof.
  intros H. unfold upd_ring, len in *. rewrite app_length. cbn [length]. rewrite firstn_length, skipn_length. lia.
Qed.
Lemma upd_split R1 x R2 : upd_ring (R1 ++ x :: R2) (len R1) = R1 ++ None :: R2.
Proof.
  unfold upd_ring, len. rewrite Nat2Z.id. rewrite firstn_app, firstn_all, Nat.sub_diag. cbn [firstn]. rewrite app_nil_r.
  f_equal. f_equal. rewrite skipn_app. rewrite skipn_all2 by lia. replace (S (length R1) - length R1)%nat with 1%nat by lia. reflexivity.
Qed.
Lemma rnth_upd R i j : 0 <= i < len R -> 0 <= j -> rnth (upd_ring R i) j = if j =? i then None else rnth R j.
Proof.
  intros Hi Hj. unfold upd_ring, rnth, len in *. set (n := Z.to_nat i). set (m := Z.to_nat j).
  destruct (j =? i) eqn:E.
  - assert (m = n) by lia. rewrite app_nth2; rewrite firstn_length; [|lia]. replace (m - Nat.min n (length R))%nat with 0%nat by lia. reflexivity.
  - destruct (Nat.lt_ge_cases m n) as [H|H].
    + rewrite app_nth1 by (rewrite firstn_length; lia).
      rewrite <- (firstn_skipn n R) at 2. rewrite app_nth1 by (rewrite firstn_length; lia). reflexivity.
    + rewrite app_nth2; rewrite firstn_length; [|lia]. replace (m - Nat.min n (length R))%nat with (S (m - S n)) by lia. cbn [nth].
      rewrite <- (firstn_skipn (S n) R) at 2. rewrite app_nth2; rewrite firstn_length; [|lia].
      replace (m - Nat.min (S n) (length R))%nat with (m - S n)%nat by lia. reflexivity.
Qed.

(** The search either finds the first large enough block from the head to the end
    of the array and turns it into a hole, or changes nothing. *)
Definition fits (tot : Z) (o : option block) : bool := match o with Some b => tot <=? b_size b | None => false end.

Lemma live_upd R i b : 0 <= i -> rnth R i = Some b ->
  exists q1 q2, live R = q1 ++ b :: q2 /\ live (upd_ring R i) = q1 ++ q2 /\
    forall tot, (forall j, 0 <= j < i -> fits tot (rnth R j) = false) -> forall y, In y q1 -> b_size y < tot.
Proof.
  intros Hi E. destruct (rnth_split R i b Hi E) as (R1 & R2 & -> & <-).
  exists (live R1), (live R2). rewrite upd_split, !live_app. cbn [live]. split; [reflexivity|]. split; [reflexivity|].
  intros tot F y Iy. destruct (in_rnth R1 y Iy) as (j & Hj & Ej). specialize (F j Hj). rewrite rnth_app1 in F by exact Hj.
  rewrite Ej in F. cbn in F. lia.
Qed.


(** The searched block becomes a hole; the invariant holds for the rest. *)
Lemma take_ok c s R L i b : DInv 0 c s R L -> 0 <= i < len R -> rnth R i = Some b ->
  exists s', (let* (p, s2) := next_to_free c s (pos (head s) (cap c) i) in
              let* e := rd_slot c s2 (pos (head s) (cap c) i) in
              let* s3 := wr_slot c s2 (pos (head s) (cap c) i) (Slot 0 (real_size e) (has_redzone e) (pcs e)) in
              Ok (p, s3)) = Ok (b_addr b, s') /\
    head s' = head s /\ bytes s' = (bytes s - b_size b) mod 2 ^ 64 /\ DInv 0 c s' (upd_ring R i) L.
Proof.
  intros I Hi Er. destruct (next_to_free_ok c s R L i I Hi) as (s2 & E2 & H2 & F2 & (e & Ee) & A2 & M). rewrite Er in *.
  destruct M as (B2 & l' & Il' & Hl').
  assert (Hp : 0 <= pos (head s) (cap c) i < cap c).
  { apply pos_range; [apply (d_head _ _ _ _ _ I)|]. pose proof (d_le _ _ _ _ _ I). lia. }
  rewrite E2. cbn [bind]. unfold rd_slot. set (p := pos (head s) (cap c) i) in *.
  replace ((0 <=? p) && (p <? cap c)) with true by lia. rewrite Ee. cbn [of_option bind].
  unfold wr_slot. replace ((0 <=? p) && (p <? cap c)) with true by lia. cbn [bind].
  eexists. split; [reflexivity|]. cbn [head bytes]. split; [exact H2|]. split; [exact B2|].
  destruct (live_upd R i b ltac:(lia) Er) as (q1 & q2 & Q & Q' & _).
  pose proof (d_proper _ _ _ _ _ I) as P. pose proof (d_apart _ _ _ _ _ I) as W. pose proof (d_lim _ _ _ _ _ I) as Lm.
  assert (Eb : forall x, In x (all (upd_ring R i) L) -> b_addr x <> b_addr b).
  { intros x Ix E. unfold all in *. rewrite Q in *. rewrite Q' in Ix.
    assert (Perm : Permutation ((q1 ++ b :: q2) ++ map fst L) (b :: (q1 ++ q2) ++ map fst L)).
    { rewrite <- !app_assoc. cbn [app]. symmetry. apply Permutation_middle. }
    apply (pairwise_perm _ _ Perm) in W. destruct W as (Wb & _). rewrite Forall_forall in Wb. specialize (Wb x Ix).
    assert (proper x). { rewrite Forall_forall in P. apply P. apply (Permutation_in x (Permutation_sym Perm)). right; auto. }
    assert (proper b). { rewrite Forall_forall in P. apply P. apply (Permutation_in b (Permutation_sym Perm)). left; auto. }
    unfold apart, proper in *. lia. }
  assert (ALL : Permutation (all R L) (b :: all (upd_ring R i) L)).
  { unfold all. rewrite Q, Q', <- !app_assoc. cbn [app]. symmetry. apply Permutation_middle. }
  split; cbn [head fill bytes dtree arr].
  - apply (d_cap _ _ _ _ _ I).
  - apply (d_max _ _ _ _ _ I).
  - rewrite F2, len_upd by exact Hi. apply (d_fill _ _ _ _ _ I).
  - rewrite len_upd by exact Hi. apply (d_le _ _ _ _ _ I).
  - rewrite H2. apply (d_head _ _ _ _ _ I).
  - rewrite len_upd by exact Hi. rewrite H2. apply (d_notfull _ _ _ _ _ I).
  - intros j Hj. rewrite len_upd in Hj by exact Hi. rewrite H2, rnth_upd by (try exact Hi; lia).
    destruct (j =? i) eqn:E.
    + assert (j = i) by lia. subst j. fold p. rewrite Z.eqb_refl. eexists. split; [reflexivity|]. reflexivity.
    + assert (Np : pos (head s) (cap c) j <> p).
      { intros Q0. apply pos_inj in Q0; [lia|apply (d_head _ _ _ _ _ I)| |]; pose proof (d_le _ _ _ _ _ I); lia. }
      replace (pos (head s) (cap c) j =? p) with false by lia. rewrite A2 by exact Np. apply (d_arr _ _ _ _ _ I j Hj).
  - pose proof (total_perm _ _ ALL) as T. cbn [total] in T.
    assert (proper b). { rewrite Forall_forall in P. apply P. apply (Permutation_in b (Permutation_sym ALL)). left; auto. }
    unfold proper in *. lia.
  - apply (Permutation_Forall ALL) in P. inversion P; auto.
  - apply (pairwise_perm _ _ ALL) in W. apply W.
  - intros b' j J. rewrite len_upd by exact Hi. apply (d_lost _ _ _ _ _ I b' j J).
  - exists l'. split; [exact Il'|]. intros e0. rewrite Hl', H2. unfold member. rewrite len_upd by exact Hi. split.
    + intros ([(j & b' & Hj & Ej & ->)|(b' & j & J & ->)] & N); [left|right; eauto].
      exists j, b'. split; [exact Hj|]. split; [|reflexivity]. rewrite rnth_upd by (try exact Hi; lia).
      destruct (j =? i) eqn:E; [|exact Ej]. assert (j = i) by lia. subst j. rewrite Er in Ej. injection Ej as ->. destruct N. reflexivity.
    + intros [(j & b' & Hj & Ej & ->)|(b' & j & J & ->)].
      * split.
        -- left. exists j, b'. rewrite rnth_upd in Ej by (try exact Hi; lia). destruct (j =? i); [discriminate|]. auto.
        -- cbn. apply Eb. unfold all. apply in_or_app. left. eapply rnth_in; [|exact Ej]. lia.
      * split; [right; eauto|]. cbn. apply Eb. unfold all. apply in_or_app. right. apply in_map_iff. exists (b', j). auto.
Qed.

(** The search loop. *)
Lemma search_ok c s R L tot : DInv 0 c s R L -> 0 < tot -> forall fuel i, (Z.to_nat (len R - i) < fuel)%nat ->
  0 <= i -> head s + i < len R -> (forall j, 0 <= j < i -> fits tot (rnth R j) = false) ->
  (exists k b s', i <= k /\ head s + k < len R /\ rnth R k = Some b /\ tot <= b_size b /\
     (forall j, 0 <= j < k -> fits tot (rnth R j) = false) /\
     search fuel c s (head s) (head s + i) tot = Ok (b_addr b, s') /\
     head s' = head s /\ bytes s' = (bytes s - b_size b) mod 2 ^ 64 /\ DInv 0 c s' (upd_ring R k) L) \/
  ((forall j, 0 <= j -> head s + j < len R -> fits tot (rnth R j) = false) /\
   search fuel c s (head s) (head s + i) tot = Ok (0, s)).
Proof.
  intros I Ht. induction fuel as [|fuel IH]; intros i Hf Hi Hr Hj; [lia|].
  pose proof (d_head _ _ _ _ _ I) as Hh. pose proof (d_le _ _ _ _ _ I) as Le.
  assert (Pi : pos (head s) (cap c) i = head s + i) by (unfold pos; replace (head s + i <? cap c) with true by lia; reflexivity).
  assert (Hil : 0 <= i < len R) by lia.
  destruct (d_arr _ _ _ _ _ I i Hil) as (e & Ea & Em). rewrite Pi in Ea.
  assert (Rd : rd_slot c s (head s + i) = Ok e).
  { unfold rd_slot. replace ((0 <=? head s + i) && (head s + i <? cap c)) with true by lia. rewrite Ea. reflexivity. }
  remember (search (S fuel) c s (head s) (head s + i) tot) as X eqn:EX.
  cbn [search] in EX. rewrite Rd in EX. unfold bind at 1 in EX.
  assert (Hfit : negb (addr e =? 0) && (tot <=? real_size e) = fits tot (rnth R i)).
  { destruct (rnth R i) as [b|] eqn:Er.
    - subst e. cbn [slot_of addr real_size fits].
      assert (proper b). { pose proof (d_proper _ _ _ _ _ I) as P. rewrite Forall_forall in P. apply P. unfold all. apply in_or_app. left. eapply rnth_in; eauto. }
      unfold proper in *. replace (b_addr b =? 0) with false by lia. reflexivity.
    - rewrite Em. reflexivity. }
  rewrite Hfit in EX. destruct (fits tot (rnth R i)) eqn:Ft.
  - destruct (rnth R i) as [b|] eqn:Er; [|discriminate]. cbn in Ft.
    destruct (take_ok c s R L i b I Hil Er) as (s' & E & H1 & H2 & H3). rewrite Pi in E.
    rewrite E in EX.
    left. exists i, b, s'. repeat match goal with |- _ /\ _ => split end; auto; lia.
  - assert (Hj' : forall j, 0 <= j < i + 1 -> fits tot (rnth R j) = false).
    { intros j H. destruct (Z.eq_dec j i) as [->|N]; [exact Ft|]. apply Hj. lia. }
    rewrite (d_fill _ _ _ _ _ I) in EX. destruct (len R <=? head s + i + 1) eqn:Q.
    + right. split; [|exact EX]. intros j J1 J2. apply Hj'. lia.
    + replace (cap c <=? head s + i + 1) with false in EX by lia. cbv iota in EX.
      replace (head s + i + 1 =? head s) with false in EX by lia.
      replace (head s + i + 1) with (head s + (i + 1)) in EX by lia. subst X.
      destruct (IH (i + 1) ltac:(lia) ltac:(lia) ltac:(lia) Hj') as [(k & b & s' & A)|A]; [left|right; exact A].
      exists k, b, s'. intuition lia.
Qed.

Lemma new_proper b l t lo c s R L : DInv lo c s R L -> proper b -> (forall x, In x (all R L) -> apart b x) ->
  Idx t l -> (forall e, In e l <-> member (cap c) (head s) R L e) -> forall j,
  forall e, In e l -> ovl (b_addr b, b_size b, j) e = false.
Proof.
  intros I Pb Ap Ix Il j e Ie. apply Il in Ie.
  assert (H : exists x, In x (all R L) /\ e_base e = b_addr x /\ e_size e = b_size x).
  { destruct Ie as [(i & x & Hi & Ex & ->)|(x & k & J & ->)].
    - exists x. split; [|split; reflexivity]. unfold all. apply in_or_app. left. eapply rnth_in; [|exact Ex]. lia.
    - exists x. split; [|split; reflexivity]. unfold all. apply in_or_app. right. apply in_map_iff. exists (x, k). auto. }
  destruct H as (x & Ix' & E1 & E2). specialize (Ap x Ix').
  unfold ovl, meets. cbn [e_base e_size fst snd]. rewrite E1, E2. unfold apart in Ap.
  assert (proper x) by (pose proof (d_proper _ _ _ _ _ I) as P; rewrite Forall_forall in P; auto). unfold proper in *. lia.
Qed.

Definition wrap (c : conf) (h : Z) : Z := if cap c <=? h + 1 then 0 else h + 1.

Definition store (c : conf) (s : dstate) (idx : Z) (b : block) : res dstate :=
  let* (t, _) := rb_insert false (dtree s) (b_addr b) (b_size b) idx in
  wr_slot c (with_tree s t) idx (slot_of b).

(** Appending to a queue that was never full. *)
Lemma push_room c s R L b : DInv 0 c s R L -> len R < cap c -> proper b -> (forall x, In x (all R L) -> apart b x) ->
  total (all R L) + b_size b <= maxsz c ->
  exists s', store c (with_fill s (fill s + 1)) (fill s) b = Ok s' /\ bytes s' = bytes s /\ head s' = head s /\ DInv 0 c s' (R ++ [Some b]) L.
Proof.
  intros I Lt Pb Ap Tot. destruct (d_tree _ _ _ _ _ I) as (l & Ix & Il).
  pose proof (d_notfull _ _ _ _ _ I Lt) as H0. pose proof (d_fill _ _ _ _ _ I) as Fl. pose proof (len_nonneg R) as Ln.
  assert (LN : L = []).
  { destruct L as [|(x, j) L']; auto. exfalso. pose proof (d_lost _ _ _ _ _ I x j (or_introl eq_refl)). lia. }
  subst L. unfold store. cbn [dtree with_fill].
  destruct (idx_insert false (dtree s) l (b_addr b) (b_size b) (fill s) Ix) as (t' & Et & Ix' & _).
  { unfold proper, valid in *. cbn. lia. }
  { intros e. apply (new_proper b l (dtree s) 0 c s R [] I Pb Ap Ix Il). }
  rewrite Et. cbn [bind]. unfold wr_slot. replace ((0 <=? fill s) && (fill s <? cap c)) with true by lia.
  eexists. split; [reflexivity|]. cbn [bytes with_tree head]. split; [reflexivity|]. split; [reflexivity|].
  assert (PM : Permutation (all (R ++ [Some b]) []) (b :: all R [])).
  { unfold all. cbn [map]. rewrite !app_nil_r, live_app. cbn [live]. symmetry. apply Permutation_cons_append. }
  split; cbn [arr head fill bytes dtree with_tree with_fill].
  - apply (d_cap _ _ _ _ _ I).
  - apply (d_max _ _ _ _ _ I).
  - rewrite len_app, len_cons. change (len (@nil (option block))) with 0. lia.
  - rewrite len_app, len_cons. change (len (@nil (option block))) with 0. lia.
  - apply (d_head _ _ _ _ _ I).
  - intros _. exact H0.
  - rewrite len_app, len_cons. change (len (@nil (option block))) with 0. intros i Hi.
    assert (Pi : pos (head s) (cap c) i = i) by (unfold pos; rewrite H0; replace (0 + i <? cap c) with true by lia; lia).
    rewrite Pi. destruct (Z.eq_dec i (len R)) as [->|N].
    + rewrite Fl, Z.eqb_refl. eexists. split; [reflexivity|]. rewrite rnth_app2 by lia. replace (len R - len R) with 0 by lia. reflexivity.
    + replace (i =? fill s) with false by lia. destruct (d_arr _ _ _ _ _ I i ltac:(lia)) as (e & Ee & Em). rewrite Pi in Ee.
      exists e. rewrite rnth_app1 by lia. auto.
  - rewrite (total_perm _ _ PM). cbn [total]. lia.
  - apply (Permutation_Forall (Permutation_sym PM)). constructor; [exact Pb|apply (d_proper _ _ _ _ _ I)].
  - apply (pairwise_perm _ _ (Permutation_sym PM)). split; [apply Forall_forall; exact Ap|apply (d_apart _ _ _ _ _ I)].
  - intros x j [].
  - exists (Redblack_Spec.put (b_addr b, b_size b, fill s) l). split; [exact Ix'|]. intros e. rewrite in_put, Il. unfold member.
    rewrite len_app, len_cons. change (len (@nil (option block))) with 0. split.
    + intros [->|[(i & x & Hi & Ex & ->)|(x & j & [] & _)]]; left.
      * exists (len R), b. split; [lia|]. split; [rewrite rnth_app2 by lia; replace (len R - len R) with 0 by lia; reflexivity|].
        rewrite Fl. unfold pos. rewrite H0. replace (0 + len R <? cap c) with true by lia. reflexivity.
      * exists i, x. split; [lia|]. rewrite rnth_app1 by lia. auto.
    + intros [(i & x & Hi & Ex & ->)|(x & j & [] & _)].
      destruct (Z.eq_dec i (len R)) as [->|N].
      * left. rewrite rnth_app2 in Ex by lia. replace (len R - len R) with 0 in Ex by lia. cbn in Ex. injection Ex as <-.
        rewrite Fl. unfold pos. rewrite H0. replace (0 + len R <? cap c) with true by lia. reflexivity.
      * right. left. exists i, x. rewrite rnth_app1 in Ex by lia. split; [lia|]. auto.
Qed.

(** Replacing the slot at the head, whose content no longer counts. *)
Lemma push_full c s R L b : DInv 1 c s (None :: R) L -> len (None :: R) = cap c -> proper b ->
  (forall x, In x (all R L) -> apart b x) -> total (all R L) + b_size b <= maxsz c ->
  exists s', store c (with_head s (if cap c <=? head s + 1 then 0 else head s + 1)) (head s) b = Ok s' /\
    bytes s' = bytes s /\ head s' = wrap c (head s) /\ DInv 0 c s' (R ++ [Some b]) L.
Proof.
  intros I Fu Pb Ap Tot. destruct (d_tree _ _ _ _ _ I) as (l & Ix & Il).
  pose proof (d_fill _ _ _ _ _ I) as Fl. pose proof (len_nonneg R) as Ln. pose proof (d_head _ _ _ _ _ I) as Hh.
  rewrite len_cons in *. unfold store. cbn [dtree with_head].
  destruct (idx_insert false (dtree s) l (b_addr b) (b_size b) (head s) Ix) as (t' & Et & Ix' & _).
  { unfold proper, valid in *. cbn. lia. }
  { intros e. apply (new_proper b l (dtree s) 1 c s (None :: R) L I Pb Ap Ix Il). }
  rewrite Et. cbn [bind]. unfold wr_slot. replace ((0 <=? head s) && (head s <? cap c)) with true by lia.
  eexists. split; [reflexivity|]. cbn [bytes with_tree head]. split; [reflexivity|]. split; [reflexivity|].
  assert (PM : Permutation (all (R ++ [Some b]) L) (b :: all R L)).
  { unfold all. rewrite live_app. cbn [live]. rewrite <- app_assoc. symmetry. apply Permutation_middle. }
  set (h' := if cap c <=? head s + 1 then 0 else head s + 1).
  assert (Hh' : 0 <= h' < cap c) by (unfold h'; destruct (cap c <=? head s + 1) eqn:Q; lia).
  assert (P1 : forall i, 0 <= i < len R -> pos h' (cap c) i = pos (head s) (cap c) (i + 1)).
  { intros i Hi. unfold pos, h'. destruct (cap c <=? head s + 1) eqn:Q; destruct (head s + (i + 1) <? cap c) eqn:Q2;
      match goal with |- context [if ?x then _ else _] => destruct x eqn:Q3 end; lia. }
  assert (P2 : pos h' (cap c) (len R) = head s).
  { unfold pos, h'. destruct (cap c <=? head s + 1) eqn:Q; match goal with |- context [if ?x then _ else _] => destruct x eqn:Q3 end; lia. }
  assert (P3 : forall i, 0 < i < cap c -> pos (head s) (cap c) i <> head s).
  { intros i Hi. unfold pos. destruct (head s + i <? cap c) eqn:Q; lia. }
  split; cbn [arr head fill bytes dtree with_tree with_head].
  - apply (d_cap _ _ _ _ _ I).
  - apply (d_max _ _ _ _ _ I).
  - rewrite len_app, len_cons. change (len (@nil (option block))) with 0. lia.
  - rewrite len_app, len_cons. change (len (@nil (option block))) with 0. lia.
  - exact Hh'.
  - rewrite len_app, len_cons. change (len (@nil (option block))) with 0. lia.
  - rewrite len_app, len_cons. change (len (@nil (option block))) with 0. intros i Hi.
    destruct (Z.eq_dec i (len R)) as [->|N].
    + fold h'. rewrite P2, Z.eqb_refl. eexists. split; [reflexivity|]. rewrite rnth_app2 by lia. replace (len R - len R) with 0 by lia. reflexivity.
    + fold h'. rewrite P1 by lia. pose proof (P3 (i + 1) ltac:(lia)).
      replace (pos (head s) (cap c) (i + 1) =? head s) with false by lia.
      destruct (d_arr _ _ _ _ _ I (i + 1) ltac:(rewrite len_cons; lia)) as (e & Ee & Em). exists e. split; [exact Ee|].
      rewrite rnth_app1 by lia. rewrite rnth_S in Em by lia. replace (i + 1 - 1) with i in Em by lia. exact Em.
  - rewrite (total_perm _ _ PM). cbn [total]. lia.
  - apply (Permutation_Forall (Permutation_sym PM)). constructor; [exact Pb|apply (d_proper _ _ _ _ _ I)].
  - apply (pairwise_perm _ _ (Permutation_sym PM)). split; [apply Forall_forall; exact Ap|apply (d_apart _ _ _ _ _ I)].
  - intros x j J. rewrite len_app, len_cons. change (len (@nil (option block))) with 0. destruct (d_lost _ _ _ _ _ I x j J). split; [auto|lia].
  - exists (Redblack_Spec.put (b_addr b, b_size b, head s) l). split; [exact Ix'|]. intros e. rewrite in_put, Il. unfold member.
    rewrite len_app, !len_cons. change (len (@nil (option block))) with 0. fold h'. split.
    + intros [->|[(i & x & Hi & Ex & ->)|(x & j & J & ->)]]; [left|left|right; eauto].
      * exists (len R), b. split; [lia|]. split; [rewrite rnth_app2 by lia; replace (len R - len R) with 0 by lia; reflexivity|]. rewrite P2. reflexivity.
      * destruct (Z.eq_dec i 0) as [->|N0]; [discriminate|]. rewrite rnth_S in Ex by lia.
        exists (i - 1), x. split; [lia|]. rewrite rnth_app1 by lia. split; [exact Ex|]. rewrite P1 by lia. repeat f_equal. lia.
    + intros [(i & x & Hi & Ex & ->)|(x & j & J & ->)]; [|right; right; eauto].
      destruct (Z.eq_dec i (len R)) as [->|N].
      * left. rewrite rnth_app2 in Ex by lia. replace (len R - len R) with 0 in Ex by lia. cbn in Ex. injection Ex as <-. rewrite P2. reflexivity.
      * right. left. exists (i + 1), x. rewrite rnth_app1 in Ex by lia. rewrite rnth_S by lia. replace (i + 1 - 1) with i by lia.
        split; [lia|]. split; [exact Ex|]. rewrite P1 by lia. reflexivity.
Qed.

(** What becomes of the head slot. *)
Lemma head_hole c s R L : DInv 0 c s (None :: R) L -> DInv 1 c s (None :: R) L.
Proof. intros []. constructor; auto. intros i Hi. apply d_arr0. lia. Qed.

Lemma head_lost c s x R L : DInv 0 c s (Some x :: R) L -> len (Some x :: R) = cap c ->
  DInv 1 c s (None :: R) ((x, head s) :: L).
Proof.
  intros I Fu. pose proof I as I'. destruct I'. rewrite len_cons in *.
  assert (PM : Permutation (all (None :: R) ((x, head s) :: L)) (all (Some x :: R) L)).
  { unfold all. cbn [live map fst app]. symmetry. apply Permutation_middle. }
  constructor; auto; try (rewrite len_cons; auto).
  - intros i Hi. try rewrite len_cons in Hi. destruct (d_arr0 i ltac:(lia)) as (e & Ee & Em). exists e. split; [exact Ee|].
    rewrite rnth_S in * by lia. exact Em.
  - rewrite (total_perm _ _ PM). auto.
  - apply (Permutation_Forall (Permutation_sym PM)). auto.
  - apply (pairwise_perm _ _ (Permutation_sym PM)). auto.
  - intros b j [E|J]; [injection E as <- <-; lia|]. apply (d_lost0 b j J).
  - destruct d_tree0 as (l & Ix & Il). exists l. split; [exact Ix|]. intros e. rewrite Il. unfold member. rewrite !len_cons. split.
    + intros [(i & b & Hi & Eb & ->)|(b & j & J & ->)]; [|right; exists b, j; cbn; auto].
      destruct (Z.eq_dec i 0) as [->|N].
      * right. cbn in Eb. injection Eb as ->. exists b, (head s). split; [left; reflexivity|].
        unfold pos. replace (head s + 0 <? cap c) with true by lia. repeat f_equal. lia.
      * left. exists i, b. rewrite rnth_S in * by lia. auto.
    + intros [(i & b & Hi & Eb & ->)|(b & j & [E|J] & ->)]; [| |right; eauto].
      * left. exists i, b. destruct (Z.eq_dec i 0) as [->|N]; [discriminate|]. rewrite rnth_S in * by lia. auto.
      * injection E as <- <-. left. exists 0, x. split; [lia|]. split; [reflexivity|].
        unfold pos. replace (head s + 0 <? cap c) with true by lia. repeat f_equal. lia.
Qed.

Lemma head_free c s x R L : DInv 0 c s (Some x :: R) L ->
  exists s', next_to_free c s (head s) = Ok (b_addr x, s') /\ head s' = head s /\
    bytes s' = (bytes s - b_size x) mod 2 ^ 64 /\ fill s' = fill s /\ DInv 1 c s' (None :: R) L.
Proof.
  intros I. assert (Hi : 0 <= 0 < len (Some x :: R)) by (rewrite len_cons; pose proof (len_nonneg R); lia).
  destruct (next_to_free_ok c s _ L 0 I Hi) as (s' & E & H1 & F1 & _ & A1 & M).
  assert (P0 : pos (head s) (cap c) 0 = head s).
  { unfold pos. pose proof (d_head _ _ _ _ _ I). replace (head s + 0 <? cap c) with true by lia. lia. }
  rewrite P0, rnth_0 in *. destruct M as (B1 & l' & Ix' & Il').
  exists s'. split; [exact E|]. split; [exact H1|]. split; [exact B1|]. split; [exact F1|].
  pose proof I as I'. destruct I'. rewrite len_cons in *.
  inversion d_proper0 as [|? ? Px Pr]; subst. destruct d_apart0 as (Ax & Ar). fold (all R L) in *.
  constructor; auto; try (rewrite ?len_cons, ?H1, ?F1; auto).
  - intros i Hi'. try rewrite len_cons in Hi'. rewrite ?H1.
    assert (pos (head s) (cap c) i <> head s) by (unfold pos; destruct (head s + i <? cap c) eqn:Q; lia).
    rewrite A1 by assumption. destruct (d_arr0 i ltac:(lia)) as (e & Ee & Em). exists e. split; [exact Ee|].
    rewrite rnth_S in * by lia. exact Em.
  - unfold all in *. cbn [live app total] in *. unfold proper in Px. lia.
  - exists l'. split; [exact Ix'|]. intros e. rewrite Il', ?H1. unfold member. rewrite !len_cons. split.
    + intros ([(i & b & Hi' & Eb & ->)|(b & j & J & ->)] & N); [|right; eauto].
      destruct (Z.eq_dec i 0) as [->|N0]; [cbn in Eb; injection Eb as ->; destruct N; reflexivity|].
      left. exists i, b. rewrite rnth_S in * by lia. auto.
    + assert (NA : forall y, In y (all R L) -> b_addr y <> b_addr x).
      { intros y Iy Q. rewrite Forall_forall in Ax, Pr. specialize (Ax y Iy). specialize (Pr y Iy). unfold apart, proper in *. lia. }
      intros [(i & b & Hi' & Eb & ->)|(b & j & J & ->)].
      * destruct (Z.eq_dec i 0) as [->|N0]; [discriminate|]. rewrite rnth_S in Eb by lia. split.
        -- left. exists i, b. rewrite rnth_S by lia. auto.
        -- cbn. apply NA. unfold all. apply in_or_app. left. eapply rnth_in; [|exact Eb]. lia.
      * split; [right; eauto|]. cbn. apply NA. unfold all. apply in_or_app. right. apply in_map_iff. exists (b, j). auto.
Qed.

(** The counter of delayed bytes is exact. *)
Definition SInv c s R L : Prop := DInv 0 c s R L /\ bytes s = total (all R L).

Lemma dinv_bytes lo c s R L v : DInv lo c s R L -> DInv lo c (with_bytes s v) R L.
Proof. intros []. constructor; auto. Qed.

Lemma dinv_len0 lo c s L : DInv lo c s [] L -> total (all [] L) = 0.
Proof.
  intros I. destruct L as [|(x, j) L]; [reflexivity|]. pose proof (d_lost _ _ _ _ _ I x j (or_introl eq_refl)) as (_ & H).
  pose proof (d_cap _ _ _ _ _ I). change (len (@nil (option block))) with 0 in H. lia.
Qed.

(** One call, in every case. *)
Inductive step (c : conf) (h : Z) (R : ring) (L : lost) (b : block) : Z -> ring -> lost -> Z -> Prop :=
| SBig : maxsz c < b_size b -> step c h R L b (b_addr b) R L h
| SRoom : b_size b + total (all R L) <= maxsz c -> len R < cap c -> step c h R L b 0 (R ++ [Some b]) L h
| SOldest x R' : b_size b + total (all R L) <= maxsz c -> len R = cap c -> R = x :: R' ->
    step c h R L b (match x with Some x => b_addr x | None => 0 end) (R' ++ [Some b]) L (wrap c h)
| SSmaller : b_size b <= maxsz c -> maxsz c < b_size b + total (all R L) ->
    (forall j, 0 <= j -> h + j < len R -> fits (b_size b) (rnth R j) = false) ->
    step c h R L b (b_addr b) R L h
| SSwapRoom k x : b_size b <= maxsz c -> maxsz c < b_size b + total (all R L) -> len R < cap c ->
    0 <= k -> h + k < len R -> rnth R k = Some x -> b_size b <= b_size x ->
    (forall j, 0 <= j < k -> fits (b_size b) (rnth R j) = false) ->
    step c h R L b (b_addr x) (upd_ring R k ++ [Some b]) L h
| SSwapHole k x R' : b_size b <= maxsz c -> maxsz c < b_size b + total (all R L) -> len R = cap c ->
    0 <= k -> h + k < len R -> rnth R k = Some x -> b_size b <= b_size x ->
    (forall j, 0 <= j < k -> fits (b_size b) (rnth R j) = false) -> upd_ring R k = None :: R' ->
    step c h R L b (b_addr x) (R' ++ [Some b]) L (wrap c h)
| SSwapLost k x y R' : b_size b <= maxsz c -> maxsz c < b_size b + total (all R L) -> len R = cap c ->
    0 < k -> h + k < len R -> rnth R k = Some x -> b_size b <= b_size x ->
    (forall j, 0 <= j < k -> fits (b_size b) (rnth R j) = false) -> upd_ring R k = Some y :: R' ->
    step c h R L b (b_addr x) (R' ++ [Some b]) ((y, h) :: L) (wrap c h).

Lemma total_upd R L k x : 0 <= k -> rnth R k = Some x -> Permutation (all R L) (x :: all (upd_ring R k) L).
Proof.
  intros Hk E. destruct (live_upd R k x Hk E) as (q1 & q2 & Q & Q' & _). unfold all. rewrite Q, Q', <- !app_assoc. cbn [app].
  symmetry. apply Permutation_middle.
Qed.

Lemma store_eq c s idx b k :
  (let* (t, _) := rb_insert false (dtree s) (b_addr b) (b_size b) idx in
   let* s := wr_slot c (with_tree s t) idx (Slot (b_addr b) (b_size b) (b_rz b) (b_stack b)) in k s : res (Z * dstate)) =
  let* s := store c s idx b in k s.
Proof. unfold store. destruct (rb_insert false (dtree s) (b_addr b) (b_size b) idx) as [[t o]| |]; reflexivity. Qed.

Theorem free_step c s R L b : SInv c s R L -> proper b -> (forall x, In x (all R L) -> apart b x) ->
  exists r s' R' L', client_handle_free c s (b_addr b) (b_size b) (b_rz b) (b_stack b) = Ok (r, s') /\
    SInv c s' R' L' /\ step c (head s) R L b r R' L' (head s').
Proof.
  intros (I & B) Pb Ap. pose proof (d_cap _ _ _ _ _ I) as Hc. pose proof (d_max _ _ _ _ _ I) as Hm.
  pose proof (d_lim _ _ _ _ _ I) as Hl. pose proof (total_nonneg _ (d_proper _ _ _ _ _ I)) as Hn.
  pose proof (len_nonneg R) as Ln. pose proof (d_le _ _ _ _ _ I) as Le. pose proof (d_head _ _ _ _ _ I) as Hh.
  unfold client_handle_free. destruct (maxsz c <? b_size b) eqn:Q1.
  { exists (b_addr b), s, R, L. split; [reflexivity|]. split; [split; auto|]. apply SBig. lia. }
  assert (Pb' := Pb). unfold proper in Pb'.
  assert (B1 : bytes (with_bytes s (bytes s + b_size b)) = total (all R L) + b_size b).
  { cbn [bytes with_bytes]. rewrite B. apply Z.mod_small. lia. }
  set (s1 := with_bytes s (bytes s + b_size b)) in *.
  assert (I1 : DInv 0 c s1 R L) by (apply dinv_bytes; exact I).
  assert (F1 : fill s1 = len R) by apply (d_fill _ _ _ _ _ I1).
  rewrite B1. destruct (maxsz c <? total (all R L) + b_size b) eqn:Q2.
  2:{ cbn [bind]. change (-1 =? 0) with false. change (-1 =? -1) with true. cbv iota. rewrite F1.
      destruct (len R =? cap c) eqn:Q3.
      - change (0 =? 0) with true. cbv iota. destruct R as [|x R]; [change (len (@nil (option block))) with 0 in Q3; lia|].
        assert (HF : exists s2, next_to_free c s1 (head s1) = Ok (match x with Some x => b_addr x | None => 0 end, s2) /\
                  head s2 = head s1 /\ bytes s2 = total (all R L) + b_size b /\ DInv 1 c s2 (None :: R) L).
        { destruct x as [x|].
          - destruct (head_free c s1 x R L I1) as (s2 & E & H1 & Bx & _ & I2). exists s2. rewrite E. split; [reflexivity|]. split; [exact H1|].
            split; [|exact I2]. rewrite Bx, B1. pose proof (d_proper _ _ _ _ _ I1) as P. unfold all in *. cbn [live app total] in *.
            inversion P as [|? ? Px Pr]; subst. pose proof (total_nonneg _ Pr). unfold proper in Px. rewrite Z.mod_small; lia.
          - assert (Hi : 0 <= 0 < len (None :: R)) by lia.
            destruct (next_to_free_ok c s1 _ L 0 I1 Hi) as (s2 & E & H1 & F2 & _ & A & M).
            assert (P0 : pos (head s1) (cap c) 0 = head s1).
            { unfold pos. pose proof (d_head _ _ _ _ _ I1). replace (head s1 + 0 <? cap c) with true by lia. lia. }
            rewrite P0, rnth_0 in *. destruct M as (B2 & T2 & _). exists s2. rewrite E. split; [reflexivity|]. split; [exact H1|].
            split; [rewrite B2, B1; reflexivity|].
            pose proof (d_arr _ _ _ _ _ I1) as DA. pose proof I1 as I1'. destruct I1'. constructor; auto; rewrite ?H1, ?F2, ?T2; auto.
            intros i Hi'. pose proof (len_cons (@None block) R) as LC.
            rewrite A; [apply d_arr0; lia|]. unfold pos. destruct (head s1 + i <? cap c) eqn:Q; lia. }
        destruct HF as (s2 & E & H2 & B2 & I2). rewrite E. cbn [bind]. rewrite store_eq.
        destruct (push_full c s2 R L b I2) as (s3 & E3 & B3 & H3 & I3).
        { rewrite !len_cons in *. lia. } { exact Pb. }
        { intros y Iy. apply Ap. unfold all in *. destruct x; cbn [live app]; [right|]; exact Iy. }
        { unfold all in *. destruct x as [x|]; cbn [live app total] in *; [|lia].
          assert (proper x) by (pose proof (d_proper _ _ _ _ _ I1) as P; inversion P; auto). unfold proper in *. lia. }
        rewrite E3. cbn [bind]. eexists _, s3, (R ++ [Some b]), L. split; [reflexivity|]. split.
        + split; [exact I3|]. rewrite B3, B2. unfold all. rewrite live_app, !total_app. cbn [live total]. lia.
        + rewrite H3, H2. apply SOldest; [lia|lia|reflexivity].
      - cbn [bind]. rewrite store_eq, <- F1.
        destruct (push_room c s1 R L b I1) as (s3 & E3 & B3 & H3 & I3); [lia|exact Pb|exact Ap|lia|].
        rewrite E3. cbn [bind]. eexists _, s3, (R ++ [Some b]), L. split; [reflexivity|]. split.
        + split; [exact I3|]. rewrite B3, B1. unfold all. rewrite live_app, !total_app. cbn [live total]. lia.
        + rewrite H3. apply SRoom; lia. }
  assert (HR : 0 < len R).
  { destruct R as [|x R]; [|rewrite len_cons; pose proof (len_nonneg R); lia]. rewrite (dinv_len0 _ _ _ _ I) in *. lia. }
  assert (Hhl : head s1 + 0 < len R).
  { destruct (Z.eq_dec (len R) (cap c)) as [E|N]; [pose proof (d_head _ _ _ _ _ I1); lia|].
    rewrite (d_notfull _ _ _ _ _ I1) by lia. lia. }
  assert (SO := search_ok c s1 R L (b_size b) I1 ltac:(lia) (S (Z.to_nat (cap c))) 0 ltac:(lia) ltac:(lia) Hhl ltac:(lia)).
  replace (head s1 + 0) with (head s1) in SO by lia.
  destruct SO as [(k & x & s2 & K1 & K2 & K3 & K4 & K5 & E & H2 & B2 & I2)|(K & E)]; rewrite E; cbn [bind].
  2:{ change (0 =? 0) with true. cbv iota. eexists _, _, R, L. split; [reflexivity|]. split.
      - split; [apply dinv_bytes; exact I1|]. cbn [bytes with_bytes] in *. rewrite B1. rewrite Z.mod_small; lia.
      - apply SSmaller; [lia|lia|exact K]. }
  pose proof (total_upd R L k x ltac:(lia) K3) as PM. pose proof (total_perm _ _ PM) as TP. cbn [total] in TP.
  assert (Px : proper x). { pose proof (d_proper _ _ _ _ _ I1) as P. rewrite Forall_forall in P. apply P. apply (Permutation_in x (Permutation_sym PM)). left; auto. }
  assert (Px' := Px). unfold proper in Px'. replace (b_addr x =? 0) with false by lia. replace (b_addr x =? -1) with false by lia.
  cbv iota. assert (Lu : len (upd_ring R k) = len R) by (apply len_upd; pose proof (d_head _ _ _ _ _ I1); lia).
  pose proof (d_fill _ _ _ _ _ I2) as F2. rewrite F2, Lu.
  pose proof (total_nonneg _ (d_proper _ _ _ _ _ I2)) as Tn.
  assert (B2' : bytes s2 = total (all (upd_ring R k) L) + b_size b).
  { rewrite B2, B1, TP. rewrite Z.mod_small; lia. }
  assert (Ap2 : forall y, In y (all (upd_ring R k) L) -> apart b y).
  { intros y Iy. apply Ap. apply (Permutation_in y (Permutation_sym PM)). right; exact Iy. }
  destruct (len R =? cap c) eqn:Q3.
  - replace (b_addr x =? 0) with false by lia. cbn [bind].
    rewrite store_eq. destruct (upd_ring R k) as [|y R'] eqn:EU; [change (len (@nil (option block))) with 0 in Lu; lia|].
    destruct y as [y|].
    + assert (IL : DInv 1 c s2 (None :: R') ((y, head s2) :: L)) by (apply head_lost; [exact I2|lia]).
      assert (PL : Permutation (all R' ((y, head s2) :: L)) (all (Some y :: R') L)).
      { unfold all. cbn [live map fst app]. symmetry. apply Permutation_middle. }
      destruct (push_full c s2 R' _ b IL) as (s3 & E3 & B3 & H3 & I3).
      { rewrite !len_cons in *. lia. } { exact Pb. }
      { intros z Iz. apply Ap2. apply (Permutation_in z PL). exact Iz. }
      { rewrite (total_perm _ _ PL). lia. }
      rewrite E3. cbn [bind]. eexists _, s3, (R' ++ [Some b]), ((y, head s2) :: L). split; [reflexivity|]. split.
      * split; [exact I3|]. rewrite B3, B2', <- (total_perm _ _ PL). unfold all. rewrite live_app, !total_app. cbn [live total]. lia.
      * rewrite H3, H2. assert (k <> 0).
        { intros ->. pose proof (rnth_upd R 0 0 ltac:(lia) ltac:(lia)) as RU. rewrite EU in RU. discriminate. }
        apply (SSwapLost c (head s) R L b k x y R'); auto; try lia.
    + apply head_hole in I2. destruct (push_full c s2 R' L b I2) as (s3 & E3 & B3 & H3 & I3).
      { rewrite !len_cons in *. lia. } { exact Pb. } { exact Ap2. } { change (all (None :: R') L) with (all R' L) in *. lia. }
      rewrite E3. cbn [bind]. eexists _, s3, (R' ++ [Some b]), L. split; [reflexivity|]. split.
      * split; [exact I3|]. rewrite B3, B2'. unfold all. rewrite live_app, !total_app. cbn [live total]. lia.
      * rewrite H3, H2. apply (SSwapHole c (head s) R L b k x R'); auto; try lia.
  - cbn [bind]. rewrite store_eq, <- Lu, <- F2.
    destruct (push_room c s2 (upd_ring R k) L b I2) as (s3 & E3 & B3 & H3 & I3); [lia|exact Pb|exact Ap2|lia|].
    rewrite E3. cbn [bind]. eexists _, s3, (upd_ring R k ++ [Some b]), L. split; [reflexivity|]. split.
    + split; [exact I3|]. rewrite B3, B2'. unfold all. rewrite live_app, !total_app. cbn [live total]. lia.
    + rewrite H3, H2. apply (SSwapRoom c (head s) R L b k x); auto; try lia.
Qed.
