(** Proofs about the pattern value and filling. *)
From Verif Require Import Base Pattern_Model Pattern_Spec.
Require Import Lia.
Local Open Scope Z_scope.

Lemma lor_add : forall a b n, 0 <= n -> 0 <= a < 2 ^ n -> Z.lor a (Z.shiftl b n) = a + b * 2 ^ n.
Proof.
  intros a b n N A. rewrite Z.shiftl_mul_pow2 by auto.
  assert (L : Z.land a (b * 2 ^ n) = 0).
  { apply Z.bits_inj'. intros i I0. rewrite Z.land_spec, Z.bits_0.
    destruct (Z_lt_ge_dec i n).
    - rewrite Z.mul_pow2_bits_low by lia. apply andb_false_r.
    - replace a with (a mod 2 ^ n) by (apply Z.mod_small; auto).
      rewrite Z.mod_pow2_bits_high by lia. reflexivity. }
  rewrite Z.add_nocarry_lxor by auto. symmetry. apply Z.lxor_lor. auto.
Qed.

Section F.
Variable c : cfg.
Hypothesis G : good_cfg c.

Definition lo8 := pat c mod 256.
Definition hi8 := pat c / 256.

Lemma lohi : 0 <= lo8 < 256 /\ 0 <= hi8 < 256 /\ pat c = lo8 + 256 * hi8.
Proof.
  unfold lo8, hi8. destruct G as [P _].
  pose proof (Z.mod_pos_bound (pat c) 256). pose proof (Z.div_mod (pat c) 256).
  assert (pat c / 256 < 256) by (apply Z.div_lt_upper_bound; lia).
  assert (0 <= pat c / 256) by (apply Z.div_pos; lia). lia.
Qed.
Lemma pattern_val : pattern c = pat c + 65536 * pat c.
Proof.
  unfold pattern. rewrite lor_add by (destruct G; lia). change (2 ^ 16) with 65536. lia.
Qed.
Lemma swap_val : swap_byte (pattern c) = hi8 + 256 * lo8.
Proof.
  unfold swap_byte. rewrite Z.shiftr_div_pow2 by lia. change (2 ^ 8) with 256.
  rewrite !(Z.land_comm 255). change 255 with (Z.ones 8). rewrite !Z.land_ones by lia.
  change (2 ^ 8) with 256. rewrite pattern_val.
  destruct lohi as (L & H & E).
  assert (A : (pat c + 65536 * pat c) / 256 = pat c / 256 + 256 * pat c).
  { replace (pat c + 65536 * pat c) with (pat c + (256 * pat c) * 256) by lia.
    rewrite Z.div_add by lia. lia. }
  assert (B : (pat c + 65536 * pat c) mod 256 = lo8).
  { replace (pat c + 65536 * pat c) with (pat c + (256 * pat c) * 256) by lia.
    rewrite Z.mod_add by lia. reflexivity. }
  rewrite A, B. fold hi8.
  replace (hi8 + 256 * pat c) with (hi8 + pat c * 256) by lia. rewrite Z.mod_add by lia.
  rewrite (Z.mod_small hi8) by lia. rewrite lor_add by (change (2 ^ 8) with 256; lia).
  change (2 ^ 8) with 256. lia.
Qed.
Lemma reverse_val : pattern_reverse c = (hi8 + 256 * lo8) + 65536 * (hi8 + 256 * lo8).
Proof.
  unfold pattern_reverse. rewrite swap_val. destruct lohi as (L & H & E).
  rewrite lor_add by (change (2 ^ 16) with 65536; lia). change (2 ^ 16) with 65536. lia.
Qed.
Lemma patb_even : forall x, Z.even x = true -> patb c x = lo8.
Proof. intros x E. unfold patb. rewrite E. reflexivity. Qed.
Lemma patb_odd : forall x, Z.even x = false -> patb c x = hi8.
Proof.
  intros x E. unfold patb. rewrite E. destruct lohi as (L & H & _).
  fold hi8. apply Z.mod_small; auto.
Qed.
Lemma even_succ : forall x, Z.even (x + 1) = negb (Z.even x).
Proof. intros. rewrite Z.even_add. destruct (Z.even x); reflexivity. Qed.

Lemma mod16 : forall a b, 0 <= a < 65536 -> (a + 65536 * b) mod 2 ^ 16 = a.
Proof.
  intros. change (2 ^ 16) with 65536. replace (a + 65536 * b) with (a + b * 65536) by lia.
  rewrite Z.mod_add by lia. apply Z.mod_small; auto.
Qed.
Lemma pattern16 : pattern c mod 2 ^ 16 = pat c.
Proof. rewrite pattern_val. apply mod16. destruct G; lia. Qed.
Lemma reverse16 : pattern_reverse c mod 2 ^ 16 = hi8 + 256 * lo8.
Proof. rewrite reverse_val. destruct lohi as (L & H & E). apply mod16. lia. Qed.

(** reading the pattern *)
Definition filled (m : mem) (a b : Z) : Prop := forall x, a <= x < b -> m x = patb c x.

Lemma load2 : forall m a, filled m a (a + 2) ->
  load 2 m a = if Z.even a then pat c else hi8 + 256 * lo8.
Proof.
  intros m a F. cbn [load]. rewrite !F by lia. destruct lohi as (L & H & E).
  destruct (Z.even a) eqn:EV.
  - rewrite (patb_even a), (patb_odd (a + 1)) by (auto; rewrite even_succ, EV; auto). lia.
  - rewrite (patb_odd a), (patb_even (a + 1)) by (auto; rewrite even_succ, EV; auto). lia.
Qed.
Lemma load4 : forall m a, filled m a (a + 4) ->
  load 4 m a = if Z.even a then pattern c else pattern_reverse c.
Proof.
  intros m a F.
  assert (A : load 4 m a = load 2 m a + 65536 * load 2 m (a + 2)).
  { cbn [load]. replace (a + 1 + 1) with (a + 2) by lia. lia. }
  rewrite A, !load2 by (intros x X; apply F; lia).
  replace (Z.even (a + 2)) with (Z.even a) by (rewrite Z.even_add; destruct (Z.even a); reflexivity).
  destruct (Z.even a).
  - rewrite pattern_val. lia.
  - rewrite reverse_val. lia.
Qed.

(** writing it *)
Lemma store_out : forall n m a v x, (x < a \/ a + Z.of_nat n <= x) -> store n m a v x = m x.
Proof.
  induction n; intros m a v x H; cbn [store]; auto.
  rewrite IHn by lia. unfold upd. destruct (Z.eqb_spec x a); auto. lia.
Qed.
Lemma store4_pat : forall m a x, Z.even a = true -> a <= x < a + 4 ->
  store 4 m a (pattern c) x = patb c x.
Proof.
  intros m a x E H. destruct lohi as (L & HH & PE).
  assert (D1 : pattern c mod 256 = lo8 /\ pattern c / 256 = hi8 + 256 * pat c).
  { rewrite pattern_val, PE. replace (lo8 + 256 * hi8 + 65536 * (lo8 + 256 * hi8))
      with (lo8 + (hi8 + 256 * (lo8 + 256 * hi8)) * 256) by lia.
    rewrite Z.mod_add, Z.div_add by lia. rewrite Z.mod_small, Z.div_small by lia. lia. }
  assert (D2 : (hi8 + 256 * pat c) mod 256 = hi8 /\ (hi8 + 256 * pat c) / 256 = pat c).
  { replace (hi8 + 256 * pat c) with (hi8 + pat c * 256) by lia.
    rewrite Z.mod_add, Z.div_add by lia. rewrite Z.mod_small, Z.div_small by lia. lia. }
  assert (D3 : pat c mod 256 = lo8 /\ pat c / 256 = hi8) by (split; reflexivity).
  assert (D4 : hi8 mod 256 = hi8) by (apply Z.mod_small; lia).
  cbn [store]. destruct D1 as [-> ->]. destruct D2 as [-> ->]. destruct D3 as [-> ->]. rewrite D4.
  unfold upd.
  assert (X : x = a \/ x = a + 1 \/ x = a + 2 \/ x = a + 3) by lia.
  destruct X as [->|[->|[->| ->]]];
    repeat match goal with |- context [?p =? ?q] => destruct (Z.eqb_spec p q); try lia end.
  - rewrite patb_even; auto.
  - rewrite patb_odd; auto. rewrite even_succ, E; auto.
  - rewrite patb_even; auto. rewrite Z.even_add, E; auto.
  - rewrite patb_odd; auto. rewrite Z.even_add, E; auto.
Qed.
Lemma store4_rev : forall m a x, Z.even a = false -> a <= x < a + 4 ->
  store 4 m a (pattern_reverse c) x = patb c x.
Proof.
  intros m a x E H. destruct lohi as (L & HH & PE).
  set (q := hi8 + 256 * lo8).
  assert (D1 : pattern_reverse c mod 256 = hi8 /\ pattern_reverse c / 256 = lo8 + 256 * q).
  { rewrite reverse_val. fold q. replace (q + 65536 * q) with (hi8 + (lo8 + 256 * q) * 256) by (unfold q; lia).
    rewrite Z.mod_add, Z.div_add by lia. rewrite Z.mod_small, Z.div_small by lia. lia. }
  assert (D2 : (lo8 + 256 * q) mod 256 = lo8 /\ (lo8 + 256 * q) / 256 = q).
  { replace (lo8 + 256 * q) with (lo8 + q * 256) by lia.
    rewrite Z.mod_add, Z.div_add by lia. rewrite Z.mod_small, Z.div_small by lia. lia. }
  assert (D3 : q mod 256 = hi8 /\ q / 256 = lo8).
  { unfold q. replace (hi8 + 256 * lo8) with (hi8 + lo8 * 256) by lia.
    rewrite Z.mod_add, Z.div_add by lia. rewrite Z.mod_small, Z.div_small by lia. lia. }
  assert (D4 : lo8 mod 256 = lo8) by (apply Z.mod_small; lia).
  cbn [store]. destruct D1 as [-> ->]. destruct D2 as [-> ->]. destruct D3 as [-> ->]. rewrite D4.
  unfold upd.
  assert (X : x = a \/ x = a + 1 \/ x = a + 2 \/ x = a + 3) by lia.
  destruct X as [->|[->|[->| ->]]];
    repeat match goal with |- context [?p =? ?q] => destruct (Z.eqb_spec p q); try lia end.
  - rewrite patb_odd; auto.
  - rewrite patb_even; auto. rewrite even_succ, E; auto.
  - rewrite patb_odd; auto. rewrite Z.even_add, E; auto.
  - rewrite patb_even; auto. rewrite Z.even_add, E; auto.
Qed.
Lemma store2_pat : forall m a x, Z.even a = true -> a <= x < a + 2 ->
  store 2 m a (pat c) x = patb c x.
Proof.
  intros m a x E H. destruct lohi as (L & HH & PE).
  cbn [store]. change (pat c mod 256) with lo8. change (pat c / 256) with hi8.
  rewrite (Z.mod_small hi8) by lia. unfold upd.
  assert (X : x = a \/ x = a + 1) by lia.
  destruct X as [->| ->];
    repeat match goal with |- context [?p =? ?q] => destruct (Z.eqb_spec p q); try lia end.
  - rewrite patb_even; auto.
  - rewrite patb_odd; auto. rewrite even_succ, E; auto.
Qed.

Lemma four_even : forall a, (4 | a) -> Z.even a = true.
Proof. intros a [q ->]. rewrite Z.even_mul. apply orb_true_r. Qed.

Lemma fill_spec : forall n m a x, (4 | a) ->
  fill c n m a x = if (a <=? x) && (x <? a + 4 * Z.of_nat n) then patb c x else m x.
Proof.
  induction n; intros m a x A; cbn [fill].
  - destruct (Z.leb_spec a x); destruct (Z.ltb_spec x (a + 4 * Z.of_nat 0)); cbn; auto; lia.
  - rewrite IHn by (apply Z.divide_add_r; auto; exists 1; reflexivity).
    destruct (Z.leb_spec (a + 4) x); destruct (Z.ltb_spec x (a + 4 + 4 * Z.of_nat n));
    destruct (Z.leb_spec a x); destruct (Z.ltb_spec x (a + 4 * Z.of_nat (S n))); cbn [andb]; try lia; auto;
    try (rewrite store_out by lia; reflexivity).
    apply store4_pat; [apply four_even; auto | lia].
Qed.

Lemma align_fwd_spec : forall a, (4 | align_fwd a 4) /\ a <= align_fwd a 4 <= a + 3 /\
  ((4 | a) -> align_fwd a 4 = a).
Proof.
  intros a. unfold align_fwd. split; [exists ((a + 4 - 1) / 4); reflexivity|].
  pose proof (Z.div_mod (a + 4 - 1) 4). pose proof (Z.mod_pos_bound (a + 4 - 1) 4).
  split; [lia|]. intros [q ->]. replace (q * 4 + 4 - 1) with (3 + q * 4) by lia.
  rewrite Z.div_add by lia. reflexivity.
Qed.

(** what is written: everything from start to end, nothing before, and after
    the end only the pattern, at most up to the next word boundary or the
    fourth byte *)
Lemma write_spec : forall m s e x, s <= e ->
  (x < s -> write_pattern c m s e x = m x) /\
  (s <= x < e -> write_pattern c m s e x = patb c x) /\
  (e <= x -> write_pattern c m s e x = m x \/ write_pattern c m s e x = patb c x) /\
  (align_fwd e 4 <= x -> s + 4 <= x \/ Z.even s = true -> write_pattern c m s e x = m x).
Proof.
  intros m s e x SE. unfold write_pattern.
  destruct (align_fwd_spec s) as (F1 & F2 & F3). destruct (align_fwd_spec e) as (H1 & H2 & _).
  rewrite fill_spec by auto.
  set (a := align_fwd s 4) in *.
  assert (MONO : a <= align_fwd e 4).
  { destruct F1 as [q Q]. destruct H1 as [p P]. lia. }
  assert (N : a + 4 * Z.of_nat (Z.to_nat ((e - a + 3) / 4)) = align_fwd e 4).
  { assert (0 <= (e - a + 3) / 4) by (apply Z.div_pos; lia). rewrite Z2Nat.id by auto.
    pose proof (Z.div_mod (e - a + 3) 4). pose proof (Z.mod_pos_bound (e - a + 3) 4).
    destruct F1 as [q Q]. destruct H1 as [p P]. lia. }
  rewrite N. unfold aligned.
  destruct (Z.eqb_spec (s mod 2) 0) as [E2|E2]; cbn [negb].
  - assert (EV : Z.even s = true) by (rewrite Zmod_even in E2; destruct (Z.even s); auto; lia).
    destruct (Z.eqb_spec (s mod 4) 0) as [E4|E4]; cbn [negb].
    + assert (a = s) by (apply F3; apply Z.mod_divide; lia).
      destruct (Z.leb_spec a x); destruct (Z.ltb_spec x (align_fwd e 4)); cbn [andb];
        repeat split; intros; auto; lia.
    + assert (A2 : a = s + 2).
      { destruct F1 as [q Q]. assert (NQ : s <> a).
        { intros K. apply E4. rewrite K, Q. apply Z.mod_mul. lia. }
        rewrite Zmod_even, EV in E2. apply Z.even_spec in EV as [y Y]. lia. }
      destruct (Z.leb_spec a x); destruct (Z.ltb_spec x (align_fwd e 4)); cbn [andb].
      * repeat split; intros; auto; lia.
      * rewrite store_out by lia. repeat split; intros; auto; lia.
      * destruct (Z_lt_ge_dec x s).
        { rewrite store_out by lia. repeat split; intros; auto; lia. }
        { rewrite store2_pat by (auto; lia). repeat split; intros; auto; lia. }
      * destruct (Z_lt_ge_dec x s).
        { rewrite store_out by lia. repeat split; intros; auto; lia. }
        { rewrite store2_pat by (auto; lia).
          repeat split; intros; auto; try lia. }
  - assert (EV : Z.even s = false) by (rewrite Zmod_even in E2; destruct (Z.even s); auto; lia).
    destruct (Z.leb_spec a x); destruct (Z.ltb_spec x (align_fwd e 4)); cbn [andb].
    + repeat split; intros; auto; try lia.
    + destruct (Z_lt_ge_dec x (s + 4)).
      { rewrite store4_rev by (auto; lia). repeat split; intros; auto; try lia. }
      { rewrite store_out by lia. repeat split; intros; auto; lia. }
    + destruct (Z_lt_ge_dec x s).
      { rewrite store_out by lia. repeat split; intros; auto; lia. }
      { rewrite store4_rev by (auto; lia). repeat split; intros; auto; try lia. }
    + lia.
Qed.
End F.
