(** Arithmetic of the translation and the block structure. *)
From Verif Require Import Base Mem Umbra_Model Umbra_Spec.
Open Scope Z_scope.

Lemma mask_eq : mask = 2 ^ 44 - 1. Proof. reflexivity. Qed.

Lemma land_mask pc : Z.land pc mask = pc mod 2 ^ 44.
Proof. rewrite mask_eq. replace (2 ^ 44 - 1) with (Z.ones 44) by reflexivity. apply Z.land_ones. lia. Qed.

Lemma align_backward_eq x k : 0 <= x < 2 ^ 64 -> 0 <= k <= 64 ->
  align_backward x (2 ^ k) = x - x mod 2 ^ k.
Proof.
  intros Hx Hk. unfold align_backward.
  replace (W64 - 1 - (2 ^ k - 1)) with (Z.ldiff (Z.ones 64) (Z.ones k)).
  2:{ rewrite <- Z.sub_nocarry_ldiff.
      - rewrite !Z.ones_equiv. unfold W64. lia.
      - apply Z.bits_inj'. intros n Hn. rewrite Z.ldiff_spec, Z.bits_0.
        rewrite !Z.testbit_ones_nonneg by lia. lia. }
  assert (E : Z.land x (Z.ldiff (Z.ones 64) (Z.ones k)) = Z.ldiff x (Z.ones k)).
  { apply Z.bits_inj'. intros n Hn. rewrite Z.land_spec, !Z.ldiff_spec.
    rewrite !Z.testbit_ones_nonneg by lia.
    destruct (n <? 64) eqn:E; [reflexivity|].
    assert (Z.testbit x n = false).
    { destruct (Z.eq_dec x 0) as [->|]; [apply Z.bits_0|].
      apply Z.bits_above_log2; [lia|].
      apply Z.lt_le_trans with 64; [|lia]. apply Z.log2_lt_pow2; lia. }
    rewrite H. reflexivity. }
  rewrite E. rewrite Z.ldiff_ones_r by lia. rewrite Z.shiftr_div_pow2, Z.shiftl_mul_pow2 by lia.
  pose proof (Z.div_mod x (2 ^ k)). lia.
Qed.

Lemma num_pos s : num s = 1 \/ num s = 2. Proof. destruct s; cbn; auto. Qed.
Lemma den_cases s : den s = 1 \/ den s = 2 \/ den s = 4 \/ den s = 8.
Proof. destruct s; cbn; auto. Qed.

Lemma app_bs_eq m : app_bs m = ALLOC_UNIT * den (sc m).
Proof. unfold app_bs. destruct (sc m); reflexivity. Qed.
Lemma sh_bs_eq m : sh_bs m = ALLOC_UNIT * num (sc m).
Proof. unfold sh_bs. destruct (sc m); reflexivity. Qed.
Lemma app_bs_pow m : exists k, 0 <= k <= 19 /\ app_bs m = 2 ^ k.
Proof.
  rewrite app_bs_eq. destruct (sc m); cbn.
  - exists 19; split; [lia|reflexivity].
  - exists 18; split; [lia|reflexivity].
  - exists 17; split; [lia|reflexivity].
  - exists 16; split; [lia|reflexivity].
  - exists 16; split; [lia|reflexivity].
Qed.
Lemma app_bs_vals m : app_bs m = 65536 \/ app_bs m = 131072 \/ app_bs m = 262144 \/ app_bs m = 524288.
Proof. rewrite app_bs_eq. destruct (sc m); cbn; auto. Qed.

Lemma align_back_app m x : 0 <= x < 2 ^ 64 ->
  align_backward x (app_bs m) = x - x mod app_bs m.
Proof.
  intros H. destruct (app_bs_pow m) as (k & Hk & ->). apply align_backward_eq; lia.
Qed.

Lemma to_shadow_eq s v : 0 <= v < 2 ^ 62 -> to_shadow s v = v * num s / den s.
Proof.
  intros H. unfold to_shadow, w64, W64.
  destruct s; cbn [is_up shift num den].
  1-4: rewrite Z.shiftr_div_pow2 by lia; rewrite Z.mul_1_r; reflexivity.
  rewrite Z.shiftl_mul_pow2 by lia. rewrite Z.div_1_r. rewrite Z.mod_small by lia. lia.
Qed.

Lemma to_app_eq s v : 0 <= v < 2 ^ 60 -> to_app s v = v * den s / num s.
Proof.
  intros H. unfold to_app, w64, W64.
  destruct s; cbn [is_up shift num den].
  5: rewrite Z.shiftr_div_pow2 by lia; rewrite Z.mul_1_r; reflexivity.
  all: rewrite Z.shiftl_mul_pow2 by lia; rewrite Z.div_1_r, Z.mod_small by lia; lia.
Qed.

Lemma disp_facts m : map_ok m -> 0 < disp m < 2 ^ 50 /\ exists q, disp m = 16 * q.
Proof.
  intros [Hi _ _ _]. unfold disp.
  destruct Hi as [-> | ->]; destruct (sc m), (pie_alt m);
    (split; [vm_compute; auto | eexists; match goal with |- ?a = _ => let v := eval vm_compute in (a / 16) in instantiate (1 := v) end; reflexivity]).
Qed.

Lemma mod44 pc : 0 <= pc mod 2 ^ 44 < 2 ^ 44. Proof. apply Z.mod_pos_bound. lia. Qed.

Lemma scale_mono s a b : 0 <= a -> a <= b -> a * num s / den s <= b * num s / den s.
Proof. intros. apply Z.div_le_mono; destruct s; cbn; lia. Qed.

Lemma xl8_gen m pc : map_ok m ->
  xl8 m pc = ((if negb (pc =? 0) && (pc mod 2 ^ 44 =? 0) then 2 ^ 44 else pc mod 2 ^ 44) + disp m)
             * num (sc m) / den (sc m).
Proof.
  intros Hm. destruct (disp_facts m Hm) as (Hd & q & Hq).
  pose proof (mod44 pc) as Hp.
  unfold xl8. rewrite land_mask. unfold w64, W64.
  rewrite (Z.mod_small (_ + disp m)) by lia.
  replace (pc mod 2 ^ 44 + disp m =? disp m) with (pc mod 2 ^ 44 =? 0) by lia.
  rewrite mask_eq.
  set (c := negb (pc =? 0) && (pc mod 2 ^ 44 =? 0)).
  assert (E : (if c then (pc mod 2 ^ 44 + disp m + (2 ^ 44 - 1 + 1)) mod 2 ^ 64
               else pc mod 2 ^ 44 + disp m)
              = (if c then 2 ^ 44 else pc mod 2 ^ 44) + disp m).
  { destruct c eqn:Ec; [|reflexivity]. unfold c in Ec. rewrite Z.mod_small; lia. }
  rewrite E. clearbody c.
  set (a := (if c then 2 ^ 44 else pc mod 2 ^ 44) + disp m).
  assert (0 <= a < 2 ^ 51) by (unfold a; destruct c; lia).
  clearbody a.
  destruct (sc m); cbn [num den].
  1-3: rewrite Z.shiftr_div_pow2, Z.mul_1_r by lia; reflexivity.
  - rewrite Z.mul_1_r, Z.div_1_r. reflexivity.
  - rewrite Z.shiftl_mul_pow2 by lia. rewrite Z.div_1_r. rewrite Z.mod_small by lia. lia.
Qed.

Lemma xl8_eq m pc : map_ok m -> pc = 0 \/ pc mod 2 ^ 44 <> 0 ->
  xl8 m pc = first_shadow m pc.
Proof.
  intros Hm Hp. rewrite xl8_gen by assumption. unfold first_shadow.
  replace (negb (pc =? 0) && (pc mod 2 ^ 44 =? 0)) with false by lia. reflexivity.
Qed.

Lemma xl8_end m pc : map_ok m -> pc <> 0 -> pc mod 2 ^ 44 = 0 ->
  xl8 m pc = (2 ^ 44 + disp m) * num (sc m) / den (sc m).
Proof.
  intros Hm Hp H0. rewrite xl8_gen by assumption.
  replace (negb (pc =? 0) && (pc mod 2 ^ 44 =? 0)) with true by lia. reflexivity.
Qed.

(** Inside a segment the translation is affine. *)
Lemma seg_off m g x : seg_ok m g -> ab g <= x < ae g ->
  x mod 2 ^ 44 = ab g mod 2 ^ 44 + (x - ab g).
Proof.
  intros H Hx. destruct H.
  assert (E44 : ab g / 2 ^ 44 = x / 2 ^ 44).
  { clear - so_one Hx so_range.
    pose proof (Z.div_le_mono (ab g) x (2 ^ 44) ltac:(lia) ltac:(lia)).
    pose proof (Z.div_le_mono x (ae g - 1) (2 ^ 44) ltac:(lia) ltac:(lia)). lia. }
  clear - E44.
  pose proof (Z.div_mod (ab g) (2 ^ 44)). pose proof (Z.div_mod x (2 ^ 44)). lia.
Qed.

Lemma seg_special m g x : seg_ok m g -> ab g <= x < ae g -> x = 0 \/ x mod 2 ^ 44 <> 0.
Proof.
  intros H Hx. pose proof (seg_off m g x H Hx) as E. destruct H.
  destruct so_special as [Z0|NZ].
  - destruct (Z.eq_dec x 0); [auto|right]. rewrite Z0 in E. rewrite Z.mod_0_l in E by lia. lia.
  - right. pose proof (mod44 (ab g)). lia.
Qed.

(** Divisibility of what the block arithmetic needs. *)
Lemma scale_add s a b : 0 <= a -> 0 <= b -> a mod den s = 0 ->
  (a + b) * num s / den s = a * num s / den s + b * num s / den s.
Proof.
  intros Ha Hb Hd. destruct s; cbn in *; rewrite ?Z.mul_1_r, ?Z.div_1_r; try lia.
  all: rewrite (Z.div_mod a) at 1 by discriminate; rewrite Hd, Z.add_0_r.
  all: rewrite (Z.mul_comm _ (a / _)), Z.div_add_l by discriminate; reflexivity.
Qed.

Lemma disp_den m : map_ok m -> disp m mod den (sc m) = 0.
Proof.
  intros H. destruct (disp_facts m H) as (_ & q & ->).
  destruct (sc m); cbn [den]; rewrite ?Z.mod_1_r; auto.
  - replace (16 * q) with (2 * q * 8) by lia. apply Z.mod_mul; lia.
  - replace (16 * q) with (4 * q * 4) by lia. apply Z.mod_mul; lia.
  - replace (16 * q) with (8 * q * 2) by lia. apply Z.mod_mul; lia.
Qed.

Lemma mod_den_22 s a : a mod 2 ^ 22 = 0 -> a mod den s = 0.
Proof.
  intros H. apply Z.mod_divide; [destruct s; cbn; lia|].
  apply Z.mod_divide in H; [|lia]. destruct H as (k & ->).
  destruct s; cbn; [exists (k * 2 ^ 19)|exists (k * 2 ^ 20)|exists (k * 2 ^ 21)|exists (k * 2 ^ 22)|exists (k * 2 ^ 22)]; lia.
Qed.

Lemma mod_bs_22 m a : a mod 2 ^ 22 = 0 -> a mod app_bs m = 0.
Proof.
  intros H. apply Z.mod_divide; [destruct (app_bs_vals m) as [E|[E|[E|E]]]; rewrite E; lia|].
  apply Z.mod_divide in H; [|lia]. destruct H as (k & ->).
  destruct (app_bs_vals m) as [E|[E|[E|E]]]; rewrite E;
  [exists (k * 64)|exists (k * 32)|exists (k * 16)|exists (k * 8)]; lia.
Qed.

Lemma mod44_22 a : a mod 2 ^ 22 = 0 -> (a mod 2 ^ 44) mod 2 ^ 22 = 0.
Proof.
  intros H. change (2 ^ 44) with (2 ^ 22 * 2 ^ 22). rewrite Z.rem_mul_r by lia.
  rewrite H. rewrite Z.add_0_l. rewrite Z.mul_comm. apply Z.mod_mul. lia.
Qed.

Lemma mod_add_den s a b : a mod den s = 0 -> b mod den s = 0 -> (a + b) mod den s = 0.
Proof.
  intros Ha Hb. rewrite Z.add_mod, Ha, Hb by (destruct s; cbn; lia). apply Z.mod_0_l.
  destruct s; cbn; lia.
Qed.

Lemma seg_first m g x : map_ok m -> seg_ok m g -> ab g <= x < ae g ->
  first_shadow m x = sb g + (x - ab g) * num (sc m) / den (sc m).
Proof.
  intros Hm H Hx. unfold first_shadow. rewrite (seg_off m g x H Hx).
  destruct H. rewrite so_sb. destruct (disp_facts m Hm) as (Hd & _).
  pose proof (mod44 (ab g)).
  replace (ab g mod 2 ^ 44 + (x - ab g) + disp m) with ((ab g mod 2 ^ 44 + disp m) + (x - ab g)) by lia.
  apply scale_add; [lia|lia|].
  apply mod_add_den; [apply mod_den_22, mod44_22; assumption|apply disp_den; assumption].
Qed.

Lemma seg_xl8 m g x : map_ok m -> seg_ok m g -> ab g <= x < ae g ->
  xl8 m x = sb g + (x - ab g) * num (sc m) / den (sc m).
Proof.
  intros. rewrite xl8_eq by (eauto using seg_special). apply seg_first; assumption.
Qed.

Lemma div_den_lt s a b : 0 <= a -> a < b -> b mod den s = 0 ->
  a * num s / den s + num s <= b * num s / den s.
Proof.
  intros Ha Hb Hd. destruct s; cbn in *; rewrite ?Z.mul_1_r, ?Z.div_1_r; try lia.
Qed.

Lemma scale_pos s a : 0 <= a -> 0 <= a * num s / den s.
Proof. intros. apply Z.div_pos; destruct s; cbn; lia. Qed.

Lemma seg_shadow_in m g x a : map_ok m -> seg_ok m g -> ab g <= x < ae g ->
  shadow_of m x a -> sb g <= a < se g.
Proof.
  intros Hm H Hx Ha. unfold shadow_of in Ha. rewrite (seg_first m g x Hm H Hx) in Ha.
  pose proof (scale_pos (sc m) (x - ab g) ltac:(lia)) as P.
  assert (E : (x - ab g) * num (sc m) / den (sc m) + num (sc m) <= (ae g - ab g) * num (sc m) / den (sc m)).
  { apply div_den_lt; [lia|lia|]. apply mod_den_22.
    rewrite Zminus_mod, (so_base m g H), (so_end m g H). reflexivity. }
  pose proof (so_se m g H) as S. rewrite <- S in * || idtac.
  revert P E S Ha. generalize ((x - ab g) * num (sc m) / den (sc m)) ((ae g - ab g) * num (sc m) / den (sc m)).
  clear. intros. lia.
Qed.

(** Block index of a shadow byte in its segment. *)
Definition bidx (m : umap) (g : seg) (a : Z) : Z := (a - sb g) / sh_bs m.

Lemma bm_byte_eq m g a : sb g <= a -> bm_byte m a (sb g) = bidx m g a / 8.
Proof.
  intros. unfold bm_byte, bidx. rewrite Z.div_div; [reflexivity| |lia].
  rewrite sh_bs_eq. destruct (sc m); cbn; discriminate.
Qed.
Lemma bm_bit_eq m g a : bm_bit m a (sb g) = bidx m g a mod 8.
Proof.
  unfold bm_bit, bidx. change 7 with (Z.ones 3). rewrite Z.land_ones by lia. reflexivity.
Qed.

Lemma sh_bs_pos m : 0 < sh_bs m.
Proof. rewrite sh_bs_eq. destruct (sc m); cbn; lia. Qed.
Lemma app_bs_pos m : 0 < app_bs m.
Proof. rewrite app_bs_eq. destruct (sc m); cbn; lia. Qed.

Lemma byte_in_range m g a : seg_ok m g -> sb g <= a < se g ->
  bm_byte m a (sb g) < nbytes g.
Proof.
  intros H Ha. destruct H. unfold bm_byte. pose proof (sh_bs_pos m).
  apply Z.div_lt_upper_bound; [lia|]. lia.
Qed.

Lemma scale_block m j : app_bs m * j * num (sc m) / den (sc m) = sh_bs m * j.
Proof.
  rewrite app_bs_eq, sh_bs_eq. generalize ALLOC_UNIT. intros u.
  destruct (sc m); cbn [num den]; rewrite ?Z.div_1_r.
  - replace (u * 8 * j * 1) with (u * j * 8) by ring. rewrite Z.div_mul by discriminate. ring.
  - replace (u * 4 * j * 1) with (u * j * 4) by ring. rewrite Z.div_mul by discriminate. ring.
  - replace (u * 2 * j * 1) with (u * j * 2) by ring. rewrite Z.div_mul by discriminate. ring.
  - ring.
  - ring.
Qed.

(** The shadow bytes of an application block are exactly one shadow block. *)
Lemma block_shadow m g x : map_ok m -> seg_ok m g -> ab g <= x < ae g ->
  x mod app_bs m = 0 ->
  bidx m g (xl8 m x) * sh_bs m = xl8 m x - sb g /\ xl8 m x + sh_bs m <= se g /\
  x + app_bs m <= ae g /\ sb g <= xl8 m x.
Proof.
  intros Hm H Hx Hal. rewrite (seg_xl8 m g x Hm H Hx). unfold bidx.
  pose proof (app_bs_pos m) as Hb. pose proof (sh_bs_pos m) as Hs.
  assert (A1 : (x - ab g) mod app_bs m = 0).
  { rewrite Zminus_mod, Hal, (mod_bs_22 m (ab g)) by apply (so_base m g H). reflexivity. }
  assert (A2 : (ae g - ab g) mod app_bs m = 0).
  { rewrite Zminus_mod, (mod_bs_22 m (ab g)), (mod_bs_22 m (ae g)) by apply H. reflexivity. }
  apply Z.div_exact in A1; [|revert Hb; clear; lia]. apply Z.div_exact in A2; [|revert Hb; clear; lia].
  rewrite (so_se m g H).
  set (k := (x - ab g) / app_bs m) in *. set (n := (ae g - ab g) / app_bs m) in *.
  rewrite A1, A2, !scale_block.
  replace (sb g + sh_bs m * k - sb g) with (k * sh_bs m) by ring.
  rewrite Z.div_mul by (revert Hs; clear; lia).
  assert (Hk : 0 <= k) by (apply Z.div_pos; [revert Hx|revert Hb]; clear; lia).
  assert (Hn : k < n).
  { apply Z.mul_lt_mono_pos_l with (app_bs m); [exact Hb|]. rewrite <- A1, <- A2. revert Hx; clear; lia. }
  clearbody k n. revert A1 A2 Hk Hn Hb Hs. clear. generalize (app_bs m) (sh_bs m). intros a b.
  intros. repeat split; nia.
Qed.
