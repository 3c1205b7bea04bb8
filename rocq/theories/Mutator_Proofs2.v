(** The bit flipper walks through [bit_sets]. *)
From Verif Require Import Base Mutator_Model Mutator_Spec Mutator_Proofs.
Open Scope Z_scope.

Lemma len_app {A} (a b : list A) : len (a ++ b) = len a + len b.
Proof. unfold len. rewrite app_length. lia. Qed.
Lemma len_cons {A} (x : A) l : len (x :: l) = 1 + len l.
Proof. unfold len. cbn [length]. lia. Qed.
Lemma len_nn {A} (l : list A) : 0 <= len l. Proof. unfold len. lia. Qed.
Lemma get_at a x b : get (a ++ x :: b) (len a) = Ok x.
Proof.
  unfold get. rewrite len_app, len_cons. pose proof (len_nn a). pose proof (len_nn b).
  replace ((0 <=? len a) && (len a <? len a + (1 + len b))) with true by lia.
  unfold len. rewrite Nat2Z.id, nth_middle. reflexivity.
Qed.
Lemma set_at a x b v : set (a ++ x :: b) (len a) v = Ok (a ++ v :: b).
Proof.
  unfold set. rewrite len_app, len_cons. pose proof (len_nn a). pose proof (len_nn b).
  replace ((0 <=? len a) && (len a <? len a + (1 + len b))) with true by lia.
  unfold len. rewrite Nat2Z.id. rewrite firstn_app, firstn_all, Nat.sub_diag. cbn [firstn]. rewrite app_nil_r.
  f_equal. f_equal. f_equal. rewrite skipn_app. rewrite skipn_all2 by lia. replace (S (length a) - length a)%nat with 1%nat by lia. reflexivity.
Qed.
Lemma u32_small v : 0 <= v < 2 ^ 32 -> u32 v = v. Proof. apply Z.mod_small. Qed.

Lemma start_inner_ok n : forall a p rest, length rest = n -> 0 <= p -> p + Z.of_nat n < 2 ^ 32 ->
  start_inner_loops n (a ++ p :: rest) (len a + 1) = Ok (a ++ p :: zseq (p + 1) n).
Proof.
  induction n as [|n IH]; intros a p rest L Hp Hb.
  - destruct rest; [reflexivity|discriminate].
  - destruct rest as [|y rest]; [discriminate|]. cbn [start_inner_loops]. replace (len a + 1 - 1) with (len a) by lia.
    rewrite get_at. cbn [bind]. rewrite u32_small by lia.
    replace (a ++ p :: y :: rest) with ((a ++ [p]) ++ y :: rest) by (rewrite <- app_assoc; reflexivity).
    replace (len a + 1) with (len (a ++ [p])) by (rewrite len_app, len_cons; unfold len; cbn; lia).
    rewrite set_at. cbn [bind]. rewrite IH; [|injection L as L; exact L|lia|lia].
    rewrite zseq_S, <- app_assoc. reflexivity.
Qed.

Lemma init_ok junk f b : 1 <= b < 2 ^ 32 ->
  init_bits_to_flip junk f b = Ok (F (bit_count f) b (Some (zseq 0 (Z.to_nat b)))).
Proof.
  intros Hb. unfold init_bits_to_flip. destruct (Z.to_nat b) as [|k] eqn:K; [lia|]. cbn [repeat].
  pose proof (set_at [] junk (repeat junk k) 0) as S. cbn [app] in S. change (len (@nil Z)) with 0 in S. rewrite S. cbn [bind].
  pose proof (start_inner_ok (Z.to_nat (b - 1)) [] 0 (repeat junk k)) as I. cbn [app] in I. change (len (@nil Z) + 1) with 1 in I.
  rewrite I; [|rewrite repeat_length; lia|lia|lia]. cbn [bind]. rewrite zseq_S. replace (Z.to_nat (b - 1)) with k by lia. reflexivity.
Qed.

(** A set of [b] bits below [n]. *)
Definition okset (n : Z) (b : nat) (l : list Z) : Prop := length l = b /\ increasing 0 l /\ Forall (fun x => x < n) l.

Lemma increasing_ge b : forall lo y, increasing lo b -> In y b -> lo <= y.
Proof.
  induction b as [|w b IHb]; intros lo y H J; [destruct J|]. cbn in H. destruct H as (A & B). destruct J as [->|J]; [lia|]. specialize (IHb _ _ B J). lia.
Qed.
Lemma increasing_room l : forall lo n, increasing lo l -> Forall (fun x => x < n) l -> l <> [] -> lo + len l <= n.
Proof.
  induction l as [|x l IH]; intros lo n H F N; [destruct N; auto|]. cbn in H. inversion F as [|? ? A B]; subst. rewrite len_cons.
  destruct l as [|y l]; [change (len (@nil Z)) with 0; lia|]. specialize (IH (x + 1) n (proj2 H) B ltac:(discriminate)). lia.
Qed.

Lemma zseq_incr lo b : forall lo', lo' <= lo -> increasing lo' (zseq lo b).
Proof. revert lo. induction b as [|b IH]; intros lo lo' H; [exact I|]. rewrite zseq_S. cbn. split; [lia|]. apply IH. lia. Qed.
Lemma zseq_below lo b n : lo + Z.of_nat b <= n -> Forall (fun x => x < n) (zseq lo b).
Proof. intros H. unfold zseq. apply Forall_forall. intros x I. apply in_map_iff in I. destruct I as (i & <- & I). apply in_seq in I. lia. Qed.

Lemma succ_set_ok n l l' : forall lo, succ_set n l = Some l' -> increasing lo l -> Forall (fun x => x < n) l ->
  length l' = length l /\ increasing lo l' /\ Forall (fun x => x < n) l'.
Proof.
  revert l'. induction l as [|x r IH]; intros l' lo E H F; [discriminate|]. cbn [succ_set] in E. inversion F as [|? ? A B]; subst. cbn in H.
  destruct (succ_set n r) as [r'|] eqn:Er.
  - injection E as <-. destruct (IH r' (x + 1) eq_refl (proj2 H) B) as (H1 & H2 & H3). cbn. split; [lia|]. split; [split; [lia|auto]|auto].
  - destruct (x + 1 + len r <? n) eqn:Q; [|discriminate]. injection E as <-. rewrite zseq_length. split; [reflexivity|].
    split; [apply zseq_incr; lia|]. apply zseq_below. unfold len in Q. lia.
Qed.
Lemma succ_set_last n l : forall lo, increasing lo l -> Forall (fun x => x < n) l -> l <> [] ->
  succ_set n l = None <-> hd 0 l = n - len l.
Proof.
  induction l as [|x r IH]; intros lo H F N; [destruct N; auto|]. cbn [succ_set hd]. inversion F as [|? ? A B]; subst. cbn in H.
  rewrite len_cons. destruct r as [|y r].
  - cbn [succ_set]. change (len (@nil Z)) with 0. destruct (x + 1 + 0 <? n) eqn:Q; split; intros; try discriminate; try lia; auto.
  - pose proof (increasing_room (y :: r) (x + 1) n (proj2 H) B ltac:(discriminate)) as R.
    specialize (IH (x + 1) (proj2 H) B ltac:(discriminate)). cbn [hd] in IH. destruct H as (H1 & H2 & H3).
    pose proof (increasing_room (y :: r) y n (conj (Z.le_refl y) H3) B ltac:(discriminate)) as R2.
    destruct (succ_set n (y :: r)) as [r'|].
    + split; [discriminate|]. intros E. exfalso. assert (y = n - len (y :: r)) by lia. apply IH in H. discriminate.
    + destruct (x + 1 + len (y :: r) <? n) eqn:Q; split; intros; try discriminate; try lia; auto.
Qed.

Lemma succ_app n a s s' : succ_set n s = Some s' -> succ_set n (a ++ s) = Some (a ++ s').
Proof. induction a as [|x a IH]; intros E; [exact E|]. cbn [app succ_set]. rewrite (IH E). reflexivity. Qed.

Definition or_self (o : option (list Z)) (l : list Z) : list Z := match o with Some l' => l' | None => l end.

Lemma move_ok f k : forall a suf, length a = k -> bits_to_flip f = len (a ++ suf) -> succ_set (bit_count f) suf = None ->
  Forall (fun x => 0 <= x) (a ++ suf) -> 0 <= bit_count f < 2 ^ 32 -> increasing 0 (a ++ suf) ->
  Forall (fun x => x < bit_count f) (a ++ suf) ->
  move_index k f (a ++ suf) = Ok (or_self (succ_set (bit_count f) (a ++ suf)) (a ++ suf)).
Proof.
  induction k as [|k IH]; intros a suf La Hb Hs Hn Hc Hi Hf.
  - destruct a; [|discriminate]. cbn [app move_index]. rewrite Hs. reflexivity.
  - destruct (exists_last (l := a)) as (a' & v & ->); [destruct a; discriminate|].
    rewrite app_length in La. cbn in La. assert (La' : length a' = k) by lia. clear La.
    rewrite <- app_assoc in *. cbn [app] in *. cbn [move_index]. replace (Z.of_nat k) with (len a') by (unfold len; lia).
    rewrite get_at. cbn [bind]. rewrite Hb, len_app, len_cons. pose proof (len_nn suf) as Ls. pose proof (len_nn a') as La.
    assert (Hv : 0 <= v < bit_count f).
    { rewrite Forall_forall in Hn, Hf. split; [apply Hn|apply Hf]; apply in_or_app; right; left; auto. }
    assert (HL : len (a' ++ v :: suf) <= bit_count f).
    { pose proof (increasing_room (a' ++ v :: suf) 0 (bit_count f) Hi Hf) as R. assert (NE : a' ++ v :: suf <> []) by (destruct a'; discriminate). specialize (R NE). lia. }
    rewrite len_app, len_cons in HL.
    rewrite (u32_small (len a' + (1 + len suf) - len a')) by lia. rewrite u32_small by lia.
    destruct (v <? bit_count f - (len a' + (1 + len suf) - len a')) eqn:Q.
    + rewrite set_at. cbn [bind]. rewrite u32_small by lia.
      replace (Z.to_nat (len a' + (1 + len suf) - (len a' + 1))) with (length suf) by (unfold len; lia).
      rewrite start_inner_ok; [|reflexivity|lia|unfold len in *; lia].
      rewrite (succ_app _ a' (v :: suf) (zseq (v + 1) (S (length suf)))).
      * cbn [or_self]. rewrite zseq_S. reflexivity.
      * cbn [succ_set]. rewrite Hs. replace (v + 1 + len suf <? bit_count f) with true by lia. reflexivity.
    + apply (IH a' (v :: suf)); auto.
      * cbn [succ_set]. rewrite Hs. replace (v + 1 + len suf <? bit_count f) with false by lia. reflexivity.
Qed.

Lemma succ_last_step n a v : v + 1 < n -> succ_set n (a ++ [v]) = Some (a ++ [v + 1]).
Proof.
  intros H. apply succ_app. cbn [succ_set]. change (len (@nil Z)) with 0. replace (v + 1 + 0 <? n) with true by lia. cbn [length]. rewrite zseq_S. reflexivity.
Qed.
Lemma advance_inner n a k : forall v, v + Z.of_nat k < n -> advance n k (a ++ [v]) = a ++ [v + Z.of_nat k].
Proof.
  induction k as [|k IH]; intros v H; cbn [advance]; [replace (v + Z.of_nat 0) with v by lia; reflexivity|].
  rewrite succ_last_step by lia. rewrite IH by lia. replace (v + 1 + Z.of_nat k) with (v + Z.of_nat (S k)) by lia. reflexivity.
Qed.
Lemma advance_add n j k l : advance n (j + k) l = advance n k (advance n j l).
Proof.
  revert l. induction j as [|j IH]; intros l; [reflexivity|]. cbn [Nat.add advance]. destruct (succ_set n l) as [l'|] eqn:E; [apply IH|].
  destruct k; cbn [advance]; [reflexivity|]. rewrite E. reflexivity.
Qed.
Lemma advance_stuck n k l : succ_set n l = None -> advance n k l = l.
Proof. destruct k; cbn; [auto|]. intros ->. reflexivity. Qed.

Lemma increasing_change_last a v w : forall lo, increasing lo (a ++ [v]) -> v <= w -> increasing lo (a ++ [w]).
Proof.
  induction a as [|x a IH]; intros lo; cbn; [intros (H & _) L; split; [lia|auto]|].
  intros (H1 & H2) L. split; [auto|]. apply IH; auto.
Qed.

Lemma skip_loop_ok f b fuel : forall l skip, okset (bit_count f) b l -> (0 < b)%nat -> bits_to_flip f = Z.of_nat b ->
  bit_count f < 2 ^ 32 -> 0 <= skip -> skip + bit_count f <= 2 ^ 32 -> (Z.to_nat skip < fuel)%nat ->
  skip_loop fuel f l skip = Ok (advance (bit_count f) (Z.to_nat skip) l).
Proof.
  induction fuel as [|fuel IH]; intros l skip (Ll & Hi & Hf) Hb Eb Hc Hs Hw Hl; [lia|]. cbn [skip_loop].
  destruct (exists_last (l := l)) as (a & v & ->); [destruct l; [cbn in Ll; lia|discriminate]|].
  rewrite app_length in Ll. cbn in Ll. rewrite Eb. replace (Z.of_nat b - 1) with (len a) by (unfold len; lia).
  rewrite get_at. cbn [bind].
  assert (Hv : 0 <= v < bit_count f).
  { split; [apply (increasing_ge _ 0 v Hi); apply in_or_app; right; left; auto|].
    rewrite Forall_forall in Hf. apply Hf. apply in_or_app; right; left; auto. }
  rewrite (u32_small (v + skip)) by lia. destruct (v + skip <? bit_count f) eqn:Q.
  - rewrite set_at. rewrite advance_inner by lia. replace (v + Z.of_nat (Z.to_nat skip)) with (v + skip) by lia. reflexivity.
  - rewrite set_at. cbn [bind]. rewrite (u32_small (bit_count f - v)), (u32_small (bit_count f - 1)), u32_small by lia.
    assert (HI : increasing 0 (a ++ [bit_count f - 1])) by (eapply increasing_change_last; [exact Hi|lia]).
    assert (HF : Forall (fun x => x < bit_count f) (a ++ [bit_count f - 1])).
    { apply Forall_app in Hf. apply Forall_app. split; [tauto|]. constructor; [lia|constructor]. }
    assert (E1 : advance (bit_count f) (Z.to_nat skip) (a ++ [v]) =
                 advance (bit_count f) (Z.to_nat (skip - (bit_count f - v)) + 1) (a ++ [bit_count f - 1])).
    { replace (Z.to_nat skip) with (Z.to_nat (bit_count f - 1 - v) + (Z.to_nat (skip - (bit_count f - v)) + 1))%nat by lia.
      rewrite advance_add. rewrite (advance_inner _ _ (Z.to_nat (bit_count f - 1 - v))) by lia.
      replace (v + Z.of_nat (Z.to_nat (bit_count f - 1 - v))) with (bit_count f - 1) by lia. reflexivity. }
    rewrite E1. clear E1. rewrite (move_ok f (Z.to_nat (len a)) a [bit_count f - 1]).
    + cbn [bind]. rewrite Nat.add_comm, advance_add. cbn [advance].
      destruct (succ_set (bit_count f) (a ++ [bit_count f - 1])) as [l'|] eqn:Es; cbn [or_self].
      * destruct (succ_set_ok _ _ _ 0 Es HI HF) as (S1 & S2 & S3). apply IH; auto; try lia.
        split; [|auto]. rewrite S1, app_length. cbn. lia.
      * apply IH; auto; try lia. split; [rewrite app_length; cbn; lia|auto].
    + unfold len. lia.
    + rewrite Eb, len_app, len_cons. unfold len. cbn. lia.
    + cbn [succ_set]. change (len (@nil Z)) with 0. replace (bit_count f - 1 + 1 + 0 <? bit_count f) with false by lia. reflexivity.
    + apply Forall_forall. intros x I. apply (increasing_ge _ 0 x HI I).
    + lia.
    + exact HI.
    + exact HF.
Qed.

Lemma keep_wait {A} s w : forall l : list A, l <> [] -> keep s w l = keep s 0 (skipn (Nat.min w (length l - 1)) l).
Proof.
  induction w as [|w IH]; intros l N; [reflexivity|]. destruct l as [|x l]; [destruct N; auto|]. destruct l as [|y l].
  - reflexivity.
  - assert (E : keep s (S w) (x :: y :: l) = keep s w (y :: l)) by reflexivity. rewrite E. rewrite IH by discriminate. cbn [length].
    replace (Nat.min (S w) (S (S (length l)) - 1)) with (S (Nat.min w (S (length l) - 1))) by lia. reflexivity.
Qed.

(** The sets still to come. *)
Inductive remaining (s n : nat) (f : flipper) : list (list Z) -> Prop :=
| RDone : index f = None -> remaining s n f []
| RSome b l L : index f = Some l -> bits_to_flip f = Z.of_nat b -> (0 < b <= n)%nat -> okset (Z.of_nat n) b l ->
    chain (Z.of_nat n) (l :: L) ->
    remaining s n f (keep s 0 (l :: L) ++ flat_map (fun b => keep s 0 (subsets 0 n b)) (seq (S b) (n - b))).

Lemma remaining_first s n b : (0 < b <= n)%nat -> remaining s n (F (Z.of_nat n) (Z.of_nat b) (Some (zseq 0 b)))
  (flat_map (fun b => keep s 0 (subsets 0 n b)) (seq b (S n - b))).
Proof.
  intros H. replace (S n - b)%nat with (S (n - b)) by lia. cbn [seq flat_map].
  destruct (subsets_head n 0 b ltac:(lia)) as (t & E). rewrite E. apply RSome; auto.
  - split; [apply zseq_length|]. split; [apply zseq_incr; lia|apply zseq_below; lia].
  - rewrite <- E. apply subsets_chain. lia.
Qed.

Definition skip_of (o : options) : Z := if o_sparsity o =? 0 then 1 else o_sparsity o.

Lemma increment_ok junk m n R : bit_count (flip m) = Z.of_nat n -> Z.of_nat n < 2 ^ 32 -> 0 < skip_of (opts m) ->
  skip_of (opts m) + Z.of_nat n <= 2 ^ 32 -> index (flip m) <> None ->
  remaining (Z.to_nat (skip_of (opts m))) n (flip m) R ->
  exists f l R', R = l :: R' /\ index (flip m) = Some l /\ bits_to_flip (flip m) = len l /\ okset (Z.of_nat n) (length l) l /\
    increment junk m = Ok (with_flip m f) /\ bit_count f = Z.of_nat n /\ remaining (Z.to_nat (skip_of (opts m))) n f R'.
Proof.
  intros Hn Hw Hs Hsw Hi HR. destruct HR as [HN|b l L E Eb Hb Ho C]; [congruence|].
  set (s := Z.to_nat (skip_of (opts m))) in *. pose proof Ho as (Hl & Hinc & Hf).
  unfold increment. fold (skip_of (opts m)). rewrite E.
  assert (HL : l <> []) by (destruct l; [cbn in Hl; lia|discriminate]).
  assert (G0 : get l 0 = Ok (hd 0 l)). { destruct l as [|x l]; [destruct HL; auto|]. apply (get_at [] x l). }
  rewrite G0. cbn [bind]. rewrite Hn, Eb. rewrite u32_small by lia.
  pose proof (succ_set_last (Z.of_nat n) l 0 Hinc Hf HL) as SL. unfold len in SL. rewrite Hl in SL.
  cbn [chain] in C. destruct C as (Cs & C).
  destruct (hd 0 l =? Z.of_nat n - Z.of_nat b) eqn:Q.
  - assert (L = []) by (destruct L as [|y L]; auto; destruct SL as (_ & SL); rewrite SL in Cs by lia; discriminate). subst L.
    destruct (Z.of_nat b <? Z.of_nat n) eqn:Q2.
    + rewrite init_ok by lia. cbn [bind]. rewrite Hn. replace (Z.to_nat (Z.of_nat b + 1)) with (S b) by lia.
      replace (Z.of_nat b + 1) with (Z.of_nat (S b)) by lia.
      eexists _, l, _. split; [cbn [keep app]; reflexivity|]. split; [reflexivity|]. split; [unfold len; lia|]. split; [rewrite Hl; exact Ho|].
      split; [reflexivity|]. split; [reflexivity|].
      pose proof (remaining_first s n (S b) ltac:(lia)) as RF. replace (S n - S b)%nat with (n - b)%nat in RF by lia. exact RF.
    + eexists _, l, _. split; [cbn [keep app]; reflexivity|]. split; [reflexivity|]. split; [unfold len; lia|]. split; [rewrite Hl; exact Ho|].
      split; [reflexivity|]. split; [reflexivity|]. replace (n - b)%nat with 0%nat by lia. cbn. apply RDone. reflexivity.
  - destruct L as [|y L]; [exfalso; apply SL in Cs; lia|].
    rewrite (skip_loop_ok (flip m) b) by (rewrite ?Hn; auto; try lia).
    cbn [bind]. rewrite Hn.
    destruct (advance_chain (Z.of_nat n) (l :: y :: L) (conj Cs C) s l (y :: L) eq_refl) as (L2 & E2 & C2).
    eexists _, l, _. split; [|split; [reflexivity|split; [unfold len; lia|split; [rewrite Hl; exact Ho|split; [reflexivity|split; [reflexivity|]]]]]].
    + assert (K : keep s 0 (l :: y :: L) = l :: keep s 0 (advance (Z.of_nat n) s l :: L2)); [|rewrite K; cbn [app]; reflexivity].
      rewrite <- E2. assert (K : keep s 0 (l :: y :: L) = l :: keep s (Nat.pred s) (y :: L)) by reflexivity. rewrite K. f_equal.
      rewrite keep_wait by discriminate. f_equal. cbn [length].
      assert (Sp : (0 < s)%nat) by (unfold s; lia). destruct s as [|s']; [lia|]. cbn [Nat.pred].
      replace (Nat.min (S s') (S (length L))) with (S (Nat.min s' (S (length L) - 1))) by lia. reflexivity.
    + apply RSome; auto. fold s.
      assert (A : forall k x, okset (Z.of_nat n) b x -> okset (Z.of_nat n) b (advance (Z.of_nat n) k x)).
      { clear. induction k as [|k IH]; intros x H; [exact H|]. cbn [advance]. destruct (succ_set (Z.of_nat n) x) as [x'|] eqn:E; [|exact H].
        apply IH. destruct H as (H1 & H2 & H3). destruct (succ_set_ok _ _ _ 0 E H2 H3) as (S1 & S2 & S3). split; [lia|auto]. }
      apply A. exact Ho.
Qed.
