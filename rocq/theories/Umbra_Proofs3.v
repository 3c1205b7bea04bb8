(** Creating blocks and setting ranges. *)
From Verif Require Import Base Mem Umbra_Model Umbra_Spec Umbra_Proofs1 Umbra_Proofs2.
Open Scope Z_scope.

Lemma all_mapped_iff n m a : all_mapped n m a = true <->
  forall x, a <= x < a + Z.of_nat n -> m x <> None.
Proof.
  revert a. induction n as [|n IH]; intros a.
  - cbn. split; [intros; lia|reflexivity].
  - cbn [all_mapped]. destruct (m a) eqn:E.
    + rewrite IH. split; intros H x Hx.
      * destruct (Z.eq_dec x a) as [->|]; [congruence|apply H; lia].
      * apply H. lia.
    + split; [discriminate|]. intros H. exfalso. apply (H a); [lia|exact E].
Qed.

Lemma m_set_ok m a v n : (forall x, a <= x < a + n -> m x <> None) ->
  m_set m a v n = Ok (fun x => if (a <=? x) && (x <? a + n) then Some v else m x).
Proof.
  intros H. unfold m_set. replace (all_mapped (Z.to_nat n) m a) with true; [reflexivity|].
  symmetry. apply all_mapped_iff. intros x Hx. apply H. lia.
Qed.

Lemma in_app_bound m ss x : layout_ok m ss -> in_app ss x -> 0 <= x < 2 ^ 64.
Proof.
  intros L (i & g & Hi & Hu & Hr). destruct (so_range m g (lo_seg m ss L i g Hi Hu)) as (A & B & C). lia.
Qed.

Lemma scale_exact s n : n mod den s = 0 -> n * num s / den s * den s = n * num s.
Proof.
  intros H. apply Z.div_exact in H; [|destruct s; discriminate].
  rewrite H at 1. replace (den s * (n / den s) * num s) with (n / den s * num s * den s) by ring.
  rewrite Z.div_mul by (destruct s; discriminate).
  replace (n * num s) with (den s * (n / den s) * num s) by (rewrite <- H; reflexivity). ring.
Qed.

(** Application addresses whose shadow bytes lie in a given run. *)
Lemma run_iff s d n a : 0 <= d -> 0 < n -> d mod den s = 0 -> n mod den s = 0 ->
  d * num s / den s <= a < d * num s / den s + n * num s / den s <->
  exists y, d <= y < d + n /\ y * num s / den s <= a < y * num s / den s + num s.
Proof.
  intros Hd Hn Md Mn. pose proof (scale_exact s d Md) as Ed. pose proof (scale_exact s n Mn) as En.
  revert Ed En. generalize (d * num s / den s) (n * num s / den s). intros D N Ed En.
  split.
  - intros Ha. exists (a * den s / num s). destruct s; cbn [num den] in *; lia.
  - intros (y & Hy & Ha). destruct s; cbn [num den] in *; lia.
Qed.

(** The shadow byte range of an app range inside one block. *)
Record span_at (m : umap) (g : seg) (p n k : Z) : Prop := {
  sp_ab : ab g <= p; sp_ae : p + n <= ae g;
  sp_n : to_shadow (sc m) n = n * num (sc m) / den (sc m);
  sp_pos : 0 < to_shadow (sc m) n;
  sp_k : 0 <= k;
  sp_lo : k * sh_bs m <= xl8 m p - sb g;
  sp_hi : xl8 m p - sb g + to_shadow (sc m) n <= (k + 1) * sh_bs m;
  sp_se : (k + 1) * sh_bs m <= se g - sb g;
  sp_blk : xl8 m (p - p mod app_bs m) = sb g + k * sh_bs m;
  sp_b1 : ab g <= p - p mod app_bs m;
  sp_b2 : p - p mod app_bs m + app_bs m <= ae g;
  sp_run : forall a, xl8 m p <= a < xl8 m p + to_shadow (sc m) n <->
               exists y, p <= y < p + n /\ shadow_of m y a }.

Lemma span m g p n : map_ok m -> seg_ok m g -> ab g <= p < ae g ->
  0 < n -> p mod app_bs m + n <= app_bs m -> p mod den (sc m) = 0 -> n mod den (sc m) = 0 ->
  exists k, span_at m g p n k.
Proof.
  intros Hm S Hp Hn Hblk Mp Mn.
  pose proof (app_bs_pos m) as Hbs. pose proof (sh_bs_pos m) as Hsb.
  pose proof (Z.mod_pos_bound p (app_bs m) Hbs) as Hr.
  set (r := p mod app_bs m) in *.
  assert (Hbm : (p - r) mod app_bs m = 0).
  { unfold r. rewrite Zminus_mod, Z.mod_mod, Z.sub_diag by (clear - Hbs; lia). apply Z.mod_0_l. clear - Hbs; lia. }
  destruct (so_range m g S) as (R0 & R1 & R2).
  assert (Hal : ab g <= p - r).
  { pose proof (mod_bs_22 m (ab g) (so_base m g S)) as A.
    apply Z.div_exact in A; [|clear - Hbs; lia]. apply Z.div_exact in Hbm; [|clear - Hbs; lia].
    assert (ab g / app_bs m <= (p - r) / app_bs m).
    { replace ((p - r) / app_bs m) with (p / app_bs m).
      - apply Z.div_le_mono; [exact Hbs|]. clear - Hp; lia.
      - apply Z.div_unique with 0; [clear - Hbs; lia|]. unfold r.
        pose proof (Z.div_mod p (app_bs m) ltac:(clear - Hbs; lia)) as D. clear - D. lia. }
    rewrite A, Hbm. apply Z.mul_le_mono_nonneg_l; [clear - Hbs; lia|exact H]. }
  destruct (block_shadow m g (p - r) Hm S ltac:(clear - Hal Hp Hr; lia) Hbm) as (B1 & B2 & B3 & B4).
  set (k := bidx m g (xl8 m (p - r))) in *.
  assert (Mr : r mod den (sc m) = 0).
  { replace r with (p - (p - r)) by ring. rewrite Zminus_mod, Mp.
    assert (E : (p - r) mod den (sc m) = 0).
    { apply Z.mod_divide; [destruct (sc m); discriminate|].
      apply Z.mod_divide in Hbm; [|clear - Hbs; lia].
      eapply Z.divide_trans; [|exact Hbm]. rewrite app_bs_eq. exists ALLOC_UNIT. reflexivity. }
    rewrite E. destruct (sc m); reflexivity. }
  assert (Ex : xl8 m p = xl8 m (p - r) + r * num (sc m) / den (sc m)).
  { rewrite (seg_xl8 m g p Hm S Hp).
    rewrite (seg_xl8 m g (p - r) Hm S) by (clear - Hal Hp Hr; lia).
    replace (p - ab g) with ((p - r - ab g) + r) by ring.
    rewrite scale_add; [ring|clear - Hal; lia|clear - Hr; lia|].
    rewrite Zminus_mod, (mod_den_22 (sc m) (ab g) (so_base m g S)).
    assert (E : (p - r) mod den (sc m) = 0).
    { rewrite Zminus_mod, Mp, Mr. destruct (sc m); reflexivity. }
    rewrite E. destruct (sc m); reflexivity. }
  assert (En : to_shadow (sc m) n = n * num (sc m) / den (sc m)).
  { apply to_shadow_eq. destruct (app_bs_vals m) as [E|[E|[E|E]]]; rewrite E in Hblk; clear - Hblk Hr Hn; lia. }
  assert (Hfit : r * num (sc m) / den (sc m) + n * num (sc m) / den (sc m) <= sh_bs m).
  { rewrite <- scale_add by (assumption || (clear - Hr Hn; lia)).
    replace (sh_bs m) with (app_bs m * 1 * num (sc m) / den (sc m)) by (rewrite scale_block; ring).
    apply scale_mono; clear - Hr Hn Hblk; lia. }
  assert (Hnp : 0 < n * num (sc m) / den (sc m)).
  { pose proof (scale_exact (sc m) n Mn) as X. revert X.
    generalize (n * num (sc m) / den (sc m)). destruct (sc m); cbn; clear - Hn; intros; lia. }
  pose proof (scale_pos (sc m) r ltac:(clear - Hr; lia)) as Hrp.
  assert (Hk : 0 <= k).
  { unfold k, bidx. apply Z.div_pos; [clear - B4; lia|exact Hsb]. }
  exists k. rewrite <- En in *. constructor.
  - clear - Hp; lia.
  - clear - B3 Hblk; lia.
  - exact En.
  - exact Hnp.
  - exact Hk.
  - rewrite Ex, B1. clear - Hrp. lia.
  - rewrite Ex. rewrite Z.mul_add_distr_r, B1. clear - Hfit. lia.
  - rewrite Z.mul_add_distr_r, B1. clear - B2. lia.
  - fold r. rewrite B1. ring.
  - exact Hal.
  - exact B3.
  - intros a. rewrite (seg_xl8 m g p Hm S Hp).
    assert (Md : (p - ab g) mod den (sc m) = 0).
    { rewrite Zminus_mod, Mp, (mod_den_22 (sc m) (ab g) (so_base m g S)). destruct (sc m); reflexivity. }
    pose proof (run_iff (sc m) (p - ab g) n (a - sb g) ltac:(clear - Hp; lia) Hn Md Mn) as RI.
    rewrite <- En in RI. unfold shadow_of. split.
    + intros Ha. destruct RI as [RI _]. destruct RI as (y & Hy & Hay).
      { clear - Ha. revert Ha. generalize ((p - ab g) * num (sc m) / den (sc m)) (to_shadow (sc m) n). intros. lia. }
      exists (y + ab g). split; [clear - Hy; lia|].
      rewrite (seg_first m g (y + ab g) Hm S) by (clear - Hy Hp B3 Hblk; lia).
      replace (y + ab g - ab g) with y by ring. clear - Hay. revert Hay.
      generalize (y * num (sc m) / den (sc m)) (num (sc m)). intros. lia.
    + intros (y & Hy & Hay). destruct RI as [_ RI].
      rewrite (seg_first m g y Hm S) in Hay by (clear - Hy Hp B3 Hblk; lia).
      assert (X : (p - ab g) * num (sc m) / den (sc m) <= a - sb g <
                  (p - ab g) * num (sc m) / den (sc m) + to_shadow (sc m) n).
      { apply RI. exists (y - ab g). split; [clear - Hy; lia|]. clear - Hay. revert Hay.
        generalize ((y - ab g) * num (sc m) / den (sc m)) (num (sc m)). intros. lia. }
      clear - X. revert X. generalize ((p - ab g) * num (sc m) / den (sc m)) (to_shadow (sc m) n). intros. lia.
Qed.

Lemma nth_set_nth {A} i j (x : A) l : nth_error (set_nth i x l) j =
  if Nat.eqb i j then (match nth_error l j with Some _ => Some x | None => None end)
  else nth_error l j.
Proof.
  revert i j. induction l as [|y l IH]; intros i j.
  - destruct i; cbn; destruct j; cbn; try reflexivity; destruct (Nat.eqb _ _); reflexivity.
  - destruct i, j; cbn; try reflexivity. apply IH.
Qed.
Lemma set_nth_length {A} i (x : A) l : length (set_nth i x l) = length l.
Proof. revert i. induction l; intros [|i]; cbn; auto. Qed.

Lemma with_bits_inv g g' : with_bits g [] = with_bits g' [] ->
  ab g = ab g' /\ ae g = ae g' /\ used g = used g' /\ hasmap g = hasmap g' /\ sb g = sb g' /\
  se g = se g' /\ rb g = rb g' /\ re g = re g' /\ nbytes g = nbytes g'.
Proof. intros H. injection H. intros. auto 12. Qed.

Lemma same_layout_refl ss : same_layout ss ss.
Proof. split; [reflexivity|]. intros. congruence. Qed.

Lemma same_layout_trans a b c : same_layout a b -> same_layout b c -> same_layout a c.
Proof.
  intros [L1 H1] [L2 H2]. split; [congruence|]. intros i g g' Hg Hg'.
  destruct (nth_error b i) as [h|] eqn:E.
  - rewrite (H1 i g h) by assumption. apply (H2 i); assumption.
  - exfalso. apply nth_error_None in E. assert (nth_error a i <> None) by congruence.
    apply nth_error_Some in H. lia.
Qed.

Lemma same_layout_back ss ss' i g' : same_layout ss ss' -> nth_error ss' i = Some g' ->
  exists g, nth_error ss i = Some g /\ with_bits g [] = with_bits g' [].
Proof.
  intros [L H] Hi. destruct (nth_error ss i) as [g|] eqn:E.
  - exists g. split; [reflexivity|]. apply (H i); assumption.
  - exfalso. apply nth_error_None in E. assert (nth_error ss' i <> None) by congruence.
    apply nth_error_Some in H0. lia.
Qed.

Lemma same_layout_sym ss ss' : same_layout ss ss' -> same_layout ss' ss.
Proof. intros [L H]. split; [congruence|]. intros i g g' Hg Hg'. symmetry. eapply H; eauto. Qed.

Lemma seg_ok_bits m g g' : with_bits g [] = with_bits g' [] -> seg_ok m g -> seg_ok m g'.
Proof.
  intros E H. apply with_bits_inv in E as (E1 & E2 & E3 & E4 & E5 & E6 & E7 & E8 & E9).
  destruct H. constructor; rewrite <- ?E1, <- ?E2, <- ?E4, <- ?E5, <- ?E6, <- ?E7, <- ?E8, <- ?E9; auto.
Qed.

Ltac same1 S Hi g' E :=
  let g := fresh "g" in let Hg := fresh "Hg" in
  destruct (same_layout_back _ _ _ _ S Hi) as (g & Hg & E);
  destruct g, g'; cbn in E; injection E; intros; subst; clear E; cbn in *.

Lemma layout_same m ss ss' : same_layout ss ss' -> layout_ok m ss -> layout_ok m ss'.
Proof.
  intros S L. destruct L. constructor.
  - intros i g' Hi Hu. destruct (same_layout_back ss ss' i g' S Hi) as (g & Hg & E).
    apply seg_ok_bits with g; [exact E|]. apply with_bits_inv in E. apply (lo_seg i); intuition congruence.
  - intros i j g' h' Hi Hj Hne Hu. same1 S Hi g' E1. same1 S Hj h' E2.
    pose proof (lo_app i j _ _ Hg Hg0) as X; cbn in X; auto.
  - intros i j g' h' Hi Hj Hne Hu Hu2. same1 S Hi g' E1. same1 S Hj h' E2.
    pose proof (lo_sh i j _ _ Hg Hg0) as X; cbn in X; auto.
  - intros i j g' h' Hi Hj Hu2. same1 S Hi g' E1. same1 S Hj h' E2.
    pose proof (lo_app_sh i j _ _ Hg Hg0) as X; cbn in X; auto.
  - intros i j g' h' Hi Hj Hu Hu2. same1 S Hi g' E1. same1 S Hj h' E2.
    pose proof (lo_res_app i j _ _ Hg Hg0) as X; cbn in X; auto.
  - intros i j g' h' Hi Hj Hu2. same1 S Hi g' E1. same1 S Hj h' E2.
    pose proof (lo_res_sh i j _ _ Hg Hg0) as X; cbn in X; auto.
  - intros i g' Hi Hu. same1 S Hi g' E1. pose proof (lo_unused i _ Hg) as X; cbn in X; auto.
  - intros i j g' h' Hi Hj Hlt Hu. same1 S Hi g' E1. same1 S Hj h' E2.
    pose proof (lo_compact i j _ _ Hg Hg0) as X; cbn in X; auto.
Qed.

Lemma in_app_same ss ss' x : same_layout ss ss' -> in_app ss x -> in_app ss' x.
Proof.
  intros S (i & g & Hi & Hu & Hr). apply same_layout_sym in S.
  destruct (same_layout_back ss' ss i g S Hi) as (g' & Hg & E). apply with_bits_inv in E.
  exists i, g'. intuition congruence.
Qed.

(** The step relation between states of the same map. *)
Definition ext (m : umap) (st st' : ustate) : Prop :=
  same_layout (segs st) (segs st') /\ state_ok m st' /\
  (forall a, liveb m st a = true -> liveb m st' a = true).

Lemma ext_refl m st : state_ok m st -> ext m st st.
Proof. intros H. split; [apply same_layout_refl|]. auto. Qed.
Lemma ext_trans m a b c : ext m a b -> ext m b c -> ext m a c.
Proof.
  intros (S1 & O1 & L1) (S2 & O2 & L2). split; [eapply same_layout_trans; eauto|]. auto.
Qed.

Lemma state_layout m st : state_ok m st -> layout_ok m (segs st). Proof. intros [H _]; exact H. Qed.

Lemma liveb_with_sm m st f a : liveb m (with_sm st f) a = liveb m st a.
Proof. reflexivity. Qed.

Lemma liveb_mapped m st a : state_ok m st -> liveb m st a = true ->
  exists v, sm st a = Some v /\ 0 <= v < 256.
Proof. intros [L H] E. apply H. apply liveb_iff; assumption. Qed.

(** Replacing bytes of live shadow memory. *)
Lemma ext_put m st (f : mem) : state_ok m st ->
  (forall a v, f a = Some v -> sm st a = Some v \/ 0 <= v < 256) ->
  (forall a, sm st a <> None -> f a <> None) ->
  ext m st (with_sm st f).
Proof.
  intros O Hv Hn. split; [apply same_layout_refl|]. split; [|auto].
  split; [apply O|]. intros a Hl. destruct O as [L O]. destruct (O a) as (v & Hs & Hb); [exact Hl|].
  destruct (f a) as [w|] eqn:E; [|exfalso; apply (Hn a); [congruence|exact E]].
  exists w. split; [exact E|]. destruct (Hv a w E) as [X|X]; [|exact X].
  rewrite Hs in X. injection X as <-. exact Hb.
Qed.

(** All bytes of one block are live together. *)
Lemma liveb_block m st i g k a : layout_ok m (segs st) -> nth_error (segs st) i = Some g ->
  used g = true -> 0 <= k -> (k + 1) * sh_bs m <= se g - sb g ->
  sb g + k * sh_bs m <= a < sb g + (k + 1) * sh_bs m ->
  liveb m st a = bit_in (k / 8, k mod 8) (bits g).
Proof.
  intros L Hi Hu Hk Hse Ha. pose proof (sh_bs_pos m) as Hs.
  unfold liveb. rewrite (exist_at m st a i g L Hi Hu) by nia.
  replace (bidx m g a) with k; [reflexivity|].
  unfold bidx. apply Z.div_unique with (a - sb g - k * sh_bs m); [left; clear - Ha; nia|ring].
Qed.

Lemma set_bitmap_at m ss a i g : layout_ok m ss -> nth_error ss i = Some g -> used g = true ->
  sb g <= a < se g ->
  set_bitmap m a ss = Ok (set_nth i (with_bits g ((bidx m g a / 8, bidx m g a mod 8) :: bits g)) ss).
Proof.
  intros L Hi Hu Hr. pose proof (lo_seg m ss L i g Hi Hu) as S.
  assert (C : covers g a = true) by (apply covers_iff; pose proof (so_map m g S); auto).
  assert (N : forall j h, nth_error ss j = Some h -> j <> i -> covers h a = false).
  { intros j h Hj Hne. eapply covers_unique with (i := i) (g := g); eauto. }
  pose proof (byte_in_range m g a S Hr) as Hb. clear L Hu S.
  revert i Hi N. induction ss as [|s ss IH]; intros i Hi N; [destruct i; discriminate|].
  destruct i as [|i]; cbn [set_bitmap set_nth].
  - injection Hi as ->. rewrite C. cbn [fst]. replace (bm_byte m a (sb g) <? nbytes g) with true by lia.
    rewrite bm_bit_eq, bm_byte_eq by lia. reflexivity.
  - rewrite (N 0%nat s) by (reflexivity || discriminate).
    rewrite (IH i Hi); [reflexivity|]. intros j h Hj Hne. apply (N (S j) h Hj). congruence.
Qed.

Lemma same_layout_bits ss i g l : nth_error ss i = Some g ->
  same_layout ss (set_nth i (with_bits g l) ss).
Proof.
  intros Hi. split; [symmetry; apply set_nth_length|]. intros j h h' Hh Hh'.
  rewrite nth_set_nth in Hh'. destruct (Nat.eqb_spec i j) as [<-|].
  - rewrite Hi in *. injection Hh as <-. injection Hh' as <-. reflexivity.
  - congruence.
Qed.

(** Block [k] of segment [g]. *)
Definition in_blk (m : umap) (g : seg) (k a : Z) : Prop :=
  sb g + k * sh_bs m <= a < sb g + (k + 1) * sh_bs m.

Lemma alloc_block_new m st i g k : map_ok m -> state_ok m st ->
  nth_error (segs st) i = Some g -> used g = true -> 0 <= k ->
  (k + 1) * sh_bs m <= se g - sb g -> liveb m st (sb g + k * sh_bs m) = false ->
  exists st1, alloc_block m st (sb g + k * sh_bs m) = Ok st1 /\ ext m st st1 /\
    (forall a, in_blk m g k a -> liveb m st1 a = true /\ sm st1 a = Some 0) /\
    (forall a, ~ in_blk m g k a -> liveb m st1 a = liveb m st a /\ sm st1 a = sm st a).
Proof.
  intros Hm O Hi Hu Hk Hse Hl. pose proof (state_layout m st O) as L. pose proof (sh_bs_pos m) as Hs.
  pose proof (lo_seg m _ L i g Hi Hu) as S.
  unfold alloc_block. rewrite (exist_liveb m st _ L), Hl. cbn [bind].
  rewrite (mo_alloc m Hm).
  assert (Hr : sb g <= sb g + k * sh_bs m < se g) by nia.
  rewrite (set_bitmap_at m (segs st) _ i g L Hi Hu Hr). cbn [bind].
  assert (Eb : bidx m g (sb g + k * sh_bs m) = k).
  { unfold bidx. replace (sb g + k * sh_bs m - sb g) with (k * sh_bs m) by ring.
    apply Z.div_mul. lia. }
  rewrite Eb.
  set (g' := with_bits g ((k / 8, k mod 8) :: bits g)).
  set (f := fun x => if (sb g + k * sh_bs m <=? x) && (x <? sb g + k * sh_bs m + sh_bs m)
                     then Some 0 else sm st x).
  set (st1 := USt (set_nth i g' (segs st)) f).
  pose proof (same_layout_bits (segs st) i g ((k / 8, k mod 8) :: bits g) Hi) as SL.
  pose proof (layout_same m _ _ SL L) as L1.
  assert (Hi1 : nth_error (segs st1) i = Some g').
  { cbn [segs st1]. rewrite nth_set_nth, Nat.eqb_refl, Hi. reflexivity. }
  assert (In1 : forall a, in_blk m g k a -> liveb m st1 a = true /\ f a = Some 0).
  { intros a Ha. unfold in_blk in Ha. split.
    - rewrite (liveb_block m st1 i g' k a L1 Hi1 Hu Hk Hse Ha).
      apply bit_in_iff. left. reflexivity.
    - unfold f. replace ((sb g + k * sh_bs m <=? a) && (a <? sb g + k * sh_bs m + sh_bs m)) with true; [reflexivity|].
      symmetry. apply andb_true_iff. rewrite Z.mul_add_distr_r in Ha. clear - Ha. lia. }
  assert (Out1 : forall a, ~ in_blk m g k a -> liveb m st1 a = liveb m st a /\ f a = sm st a).
  { intros a Ha. split.
    - unfold liveb.
      destruct (existsb (fun h => covers h a) (segs st)) eqn:E.
      + apply existsb_exists in E as (h & Hin & Hc). apply In_nth_error in Hin as (j & Hj).
        apply covers_iff in Hc as (Hu2 & _ & Hr2).
        rewrite (exist_at m st a j h L Hj Hu2 Hr2).
        destruct (Nat.eq_dec i j) as [<-|Hne].
        * assert (h = g) by congruence. subst h.
          rewrite (exist_at m st1 a i g' L1 Hi1 Hu Hr2).
          change (bidx m g' a) with (bidx m g a). cbn [bits g' with_bits].
          unfold bit_in. cbn [existsb fst snd].
          replace ((k / 8 =? bidx m g a / 8) && (k mod 8 =? bidx m g a mod 8)) with false; [reflexivity|].
          symmetry. apply andb_false_iff.
          destruct (Z.eq_dec (k / 8) (bidx m g a / 8)) as [E1|E1]; [right|left; lia].
          destruct (Z.eq_dec (k mod 8) (bidx m g a mod 8)) as [E2|E2]; [|lia].
          exfalso. apply Ha. assert (k = bidx m g a).
          { pose proof (Z.div_mod k 8). pose proof (Z.div_mod (bidx m g a) 8). lia. }
          unfold in_blk. rewrite H. unfold bidx.
          pose proof (Z.div_mod (a - sb g) (sh_bs m) ltac:(lia)) as D.
          pose proof (Z.mod_pos_bound (a - sb g) (sh_bs m) Hs) as D2.
          revert D D2. generalize ((a - sb g) / sh_bs m) ((a - sb g) mod sh_bs m). clear. intros. nia.
        * assert (Hj1 : nth_error (segs st1) j = Some h).
          { cbn [segs st1]. rewrite nth_set_nth. destruct (Nat.eqb_spec i j); [contradiction|exact Hj]. }
          rewrite (exist_at m st1 a j h L1 Hj1 Hu2 Hr2). reflexivity.
      + assert (N : forall j h, nth_error (segs st) j = Some h -> covers h a = false).
        { intros j h Hj. destruct (covers h a) eqn:C; [|reflexivity].
          exfalso. apply not_true_iff_false in E. apply E. apply existsb_exists. exists h.
          split; [eapply nth_error_In; eauto|exact C]. }
        unfold block_exist. rewrite (exist_none m (segs st) a N).
        rewrite (exist_none m (segs st1) a); [reflexivity|].
        intros j h Hj. cbn [segs st1] in Hj. rewrite nth_set_nth in Hj.
        destruct (Nat.eqb_spec i j) as [<-|]; [|apply (N j); exact Hj].
        rewrite Hi in Hj. injection Hj as <-. exact (N i g Hi).
    - unfold f. destruct ((sb g + k * sh_bs m <=? a) && (a <? sb g + k * sh_bs m + sh_bs m)) eqn:E; [|reflexivity].
      exfalso. apply Ha. apply andb_true_iff in E as [E1 E2]. unfold in_blk.
      rewrite Z.mul_add_distr_r. clear - E1 E2. lia. }
  exists st1. split; [reflexivity|]. split; [|split; assumption].
  split; [exact SL|]. split.
  - split; [exact L1|]. intros a Ha. apply liveb_iff in Ha; [|exact L1]. cbn [sm st1].
    destruct (Z_lt_dec a (sb g + k * sh_bs m)) as [C|C];
      [|destruct (Z_lt_dec a (sb g + (k + 1) * sh_bs m)) as [C2|C2]].
    + destruct (Out1 a) as [X Y]; [unfold in_blk; clear - C; lia|]. rewrite Y.
      apply (liveb_mapped m); [exact O|congruence].
    + destruct (In1 a) as [X Y]; [unfold in_blk; clear - C C2; lia|]. exists 0. split; [exact Y|lia].
    + destruct (Out1 a) as [X Y]; [unfold in_blk; clear - C2; lia|]. rewrite Y.
      apply (liveb_mapped m); [exact O|congruence].
  - intros a Ha.
    destruct (Z_lt_dec a (sb g + k * sh_bs m)) as [C|C];
      [|destruct (Z_lt_dec a (sb g + (k + 1) * sh_bs m)) as [C2|C2]].
    + destruct (Out1 a) as [X Y]; [unfold in_blk; clear - C; lia|]. congruence.
    + destruct (In1 a) as [X Y]; [unfold in_blk; clear - C C2; lia|]. exact X.
    + destruct (Out1 a) as [X Y]; [unfold in_blk; clear - C2; lia|]. congruence.
Qed.

(** Blocks that became live are blocks of the application range [x, x+n). *)
Definition only (m : umap) (st st' : ustate) (x n : Z) : Prop :=
  forall a, liveb m st' a = true -> liveb m st a = true \/
    exists y z, x <= y < x + n /\ z / app_bs m = y / app_bs m /\ shadow_of m z a.

Lemma only_refl m st x n : only m st st x n. Proof. intros a H. auto. Qed.
Lemma only_trans m a b c x n y k p q : only m a b x n -> only m b c y k -> p <= x -> x + n <= q ->
  p <= y -> y + k <= q -> only m a c p (q - p).
Proof.
  intros H1 H2 A B C D s Hs. destruct (H2 s Hs) as [H|(u & z & Hu & Hz)].
  - destruct (H1 s H) as [|(u & z & Hu & Hz)]; [auto|]. right. exists u, z. split; [lia|exact Hz].
  - right. exists u, z. split; [lia|exact Hz].
Qed.
Lemma only_same m a b b' x n : (forall s, liveb m b' s = liveb m b s) -> only m a b x n -> only m a b' x n.
Proof. intros H O s Hs. rewrite H in Hs. apply O. exact Hs. Qed.

(** All blocks of the application range [x, x+n) are live. *)
Definition made (m : umap) (st : ustate) (x n : Z) : Prop :=
  forall y z a, x <= y < x + n -> z / app_bs m = y / app_bs m -> shadow_of m z a -> liveb m st a = true.

Lemma made_ext m a b x n : ext m a b -> made m a x n -> made m b x n.
Proof. intros (_ & _ & H) M y z s H1 H2 H3. apply H. eapply M; eauto. Qed.

Lemma made_nil m st x n : n <= 0 -> made m st x n.
Proof. intros H y z a Hy. lia. Qed.

Lemma made_app m st x k p n : made m st x k -> made m st p n -> p <= x + k -> made m st x (p + n - x).
Proof.
  intros M1 M2 H y z a Hy Hz Hs. destruct (Z_lt_dec y (x + k)); [eapply M1; eauto; lia|eapply M2; eauto; lia].
Qed.

(** A live byte of application address [p] makes its block live. *)
Lemma made_chunk m st p k : map_ok m -> state_ok m st -> in_app (segs st) p -> liveb m st (xl8 m p) = true ->
  0 < k -> p mod app_bs m + k <= app_bs m -> made m st p k.
Proof.
  intros Hm O (i & g & Hi & Hu & Hr) Hl Hk Hblk y z a Hy Hz Hs.
  pose proof (state_layout m st O) as L. pose proof (lo_seg m _ L i g Hi Hu) as S1.
  destruct (so_range m g S1) as (R0 & R1 & R2).
  pose proof (app_bs_pos m) as Hbs.
  pose proof (Z.mod_pos_bound p (app_bs m) Hbs) as Hmp.
  pose proof (Z.div_mod p (app_bs m) ltac:(clear - Hbs; lia)) as Dp.
  assert (Hyp : y / app_bs m = p / app_bs m).
  { symmetry. apply (Z.div_unique_pos y (app_bs m) (p / app_bs m) (y - app_bs m * (p / app_bs m))).
    - clear - Hy Dp Hmp Hblk. lia.
    - clear. lia. }
  set (b := p - p mod app_bs m).
  assert (Hb1 : ab g <= b <= p).
  { split; [|unfold b; clear - Hmp; lia].
    pose proof (mod_bs_22 m (ab g) (so_base m g S1)) as A.
    apply Z.div_exact in A; [|clear - Hbs; lia].
    assert (H0 : ab g / app_bs m <= p / app_bs m) by (apply Z.div_le_mono; [exact Hbs|clear - Hr; lia]).
    unfold b. clear - A Dp H0 Hbs Hmp. set (q := p mod app_bs m) in *. revert A Dp H0 Hmp.
    generalize (ab g / app_bs m) (p / app_bs m). intros. nia. }
  assert (Hbm : b mod app_bs m = 0).
  { unfold b. rewrite Zminus_mod, Z.mod_mod, Z.sub_diag by (clear - Hbs; lia). apply Z.mod_0_l. clear - Hbs; lia. }
  assert (MD : forall q, q mod app_bs m = 0 -> q mod den (sc m) = 0).
  { intros q H. apply Z.mod_divide; [destruct (sc m); discriminate|].
    apply Z.mod_divide in H; [|clear - Hbs; lia]. eapply Z.divide_trans; [|exact H].
    rewrite app_bs_eq. exists ALLOC_UNIT. reflexivity. }
  destruct (span m g b (app_bs m) Hm S1) as (kk & SP).
  { clear - Hb1 Hr; lia. } { exact Hbs. } { rewrite Hbm; clear; lia. } { apply MD, Hbm. }
  { apply MD, Z.mod_same. clear - Hbs; lia. }
  assert (BL : forall w c, w / app_bs m = p / app_bs m -> shadow_of m w c -> in_blk m g kk c).
  { intros w c Hw Hc.
    assert (Q : exists y, b <= y < b + app_bs m /\ shadow_of m y c).
    { exists w. split; [|exact Hc]. pose proof (Z.div_mod w (app_bs m) ltac:(clear - Hbs; lia)) as Dw.
      pose proof (Z.mod_pos_bound w (app_bs m) Hbs) as Hmw. rewrite Hw in Dw. unfold b. clear - Dw Dp Hmw. lia. }
    apply (sp_run m g b _ kk SP) in Q.
    pose proof (sp_lo m g b _ kk SP). pose proof (sp_hi m g b _ kk SP). unfold in_blk. clear - Q H H0. lia. }
  assert (EL : forall c, in_blk m g kk c -> liveb m st c = bit_in (kk / 8, kk mod 8) (bits g)).
  { intros c Hc. apply (liveb_block m st i g kk c L Hi Hu); [apply SP|apply SP|exact Hc]. }
  rewrite (EL a) by (apply (BL z); [congruence|exact Hs]). rewrite <- (EL (xl8 m p)); [exact Hl|].
  apply (BL p); [reflexivity|]. unfold shadow_of. rewrite <- xl8_eq; [|exact Hm|eapply seg_special; eauto].
  pose proof (num_pos (sc m)). clear - H. lia.
Qed.
