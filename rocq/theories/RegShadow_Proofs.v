(** Proofs about the register shadow: the layout represents the abstract states. *)
From Verif Require Import Base Mem Shadow_Model Shadow_Spec Shadow_Proofs1 Shadow_Proofs2 RegShadow_Model RegShadow_Spec.
Open Scope Z_scope.

Definition place (c : full) : bool * Z :=
  match c with
  | General i => (false, 2 * i) | Sse i => (true, 4 * i) | SseHigh i => (true, 64 + 4 * i) | Mmx i => (true, 128 + 2 * i)
  end.
Definition at_byte (s : sregs) (c : full) (j : Z) : option Z := part s (fst (place c)) (snd (place c) + j).
Definition isbyte (o : option Z) : Prop := exists b, o = Some b /\ 0 <= b < 256.

Record rep (s : sregs) (a : astate) : Prop := {
  r_tls : forall x, 0 <= x < 39 -> isbyte (tls s x);
  r_aux : forall x, 0 <= x < 144 -> isbyte (aux s x);
  r_D : forall c k, real c -> 0 <= k < bytes c -> exists b, at_byte s c (k / 4) = Some b /\ D a c k = two b (k mod 4);
  r_F : tls s 32 = Some (F a) /\ tls s 33 = Some 0;
  r_H : tls s 34 = Some (H a) }.

Lemma full_eqb_eq a b : full_eqb a b = true <-> a = b.
Proof.
  destruct a, b; cbn; rewrite ?Z.eqb_eq; split; try discriminate; intros E; try congruence; try (injection E; auto).
Qed.
Lemma full_eqb_refl a : full_eqb a a = true. Proof. apply full_eqb_eq. reflexivity. Qed.

Lemma place_addr r : r <> Flags -> reg_shadow_addr r = place (whole r).
Proof. destruct r; intros N; try reflexivity; congruence. Qed.

(** Storing one shadow byte of register [c]. *)
Definition put_byte (s : sregs) (c : full) (j b : Z) : sregs :=
  with_part s (fst (place c)) (upd (part s (fst (place c))) (snd (place c) + j) b).

Lemma at_put s c j b c' j' : real c -> real c' -> 0 <= j < bytes c / 4 -> 0 <= j' < bytes c' / 4 ->
  at_byte (put_byte s c j b) c' j' = if full_eqb c' c && (j' =? j) then Some b else at_byte s c' j'.
Proof.
  intros R R' Hj Hj'.
  destruct (full_eqb c' c) eqn:E; cbn [andb].
  - apply full_eqb_eq in E. subst c'.
    unfold at_byte, put_byte, with_part, part, upd. destruct (fst (place c)); cbn.
    + destruct (j' =? j) eqn:Q; destruct (snd (place c) + j' =? snd (place c) + j) eqn:Q'; try reflexivity; lia.
    + destruct (j' =? j) eqn:Q; destruct (snd (place c) + j' =? snd (place c) + j) eqn:Q'; try reflexivity; lia.
  - unfold at_byte, put_byte, with_part, part, upd.
    destruct c as [i|i|i|i], c' as [k|k|k|k]; cbn [place fst snd bytes real full_eqb tls aux] in *; try reflexivity;
      match goal with |- context [?x =? ?y] => destruct (Z.eqb_spec x y); [exfalso; lia|reflexivity] end.
Qed.

Lemma rep_put s a c j b : rep s a -> real c -> 0 <= j < bytes c / 4 -> 0 <= b < 256 ->
  rep (put_byte s c j b) (A (put (D a) c (4 * j) 4 (two b)) (F a) (H a)).
Proof.
  intros [T X Dd Ff Hh] R Hj Hb.
  assert (TL : forall x, 32 <= x < 39 -> tls (put_byte s c j b) x = tls s x).
  { intros x Hx. unfold put_byte, with_part, part, upd. destruct c; cbn [place fst snd bytes real tls aux] in *; try reflexivity.
    destruct (Z.eqb_spec x (2 * i + j)); [exfalso; lia|reflexivity]. }
  split; cbn [F H D].
  - intros x Hx. unfold put_byte, with_part, part, upd. destruct (fst (place c)); cbn [tls]; auto.
    destruct (x =? snd (place c) + j); [|auto]. exists b. auto.
  - intros x Hx. unfold put_byte, with_part, part, upd. destruct (fst (place c)); cbn [aux]; auto.
    destruct (x =? snd (place c) + j); [|auto]. exists b. auto.
  - intros c' k R' Hk. assert (Hk4 : 0 <= k / 4 < bytes c' / 4).
    { assert (C : bytes c' = 8 \/ bytes c' = 16) by (destruct c'; cbn; auto). destruct C as [C|C]; rewrite C in *; lia. }
    rewrite at_put by assumption. unfold put. destruct (full_eqb c' c) eqn:E; cbn [andb].
    + destruct (k / 4 =? j) eqn:Q.
      * exists b. split; [reflexivity|]. replace ((4 * j <=? k) && (k <? 4 * j + 4)) with true by lia. f_equal. lia.
      * replace ((4 * j <=? k) && (k <? 4 * j + 4)) with false by lia. auto.
    + auto.
  - rewrite !TL by lia. exact Ff.
  - rewrite TL by lia. exact Hh.
Qed.

Lemma at_isbyte s a c j : rep s a -> real c -> 0 <= j < bytes c / 4 -> isbyte (at_byte s c j).
Proof.
  intros [T X _ _ _] R Hj. unfold at_byte, part. destruct c; cbn [place fst snd bytes real tls aux] in *; [apply T|apply X|apply X|apply X]; lia.
Qed.

Lemma rep_ext s a D' : rep s a -> (forall c k, real c -> 0 <= k < bytes c -> D' c k = D a c k) -> rep s (A D' (F a) (H a)).
Proof.
  intros [T X Dd Ff Hh] E. split; cbn [F H D]; auto.
  intros c k R Hk. rewrite E by assumption. auto.
Qed.

Lemma with_part_part s x mm : part (with_part s x mm) x = mm. Proof. destruct x; reflexivity. Qed.
Lemma with_part_twice s x mm mm' : with_part (with_part s x mm) x mm' = with_part s x mm'. Proof. destruct x; reflexivity. Qed.

Lemma store1_put s a c j v : rep s a -> real c -> 0 <= j < bytes c / 4 ->
  (let* mm := storen 1 (part s (fst (place c))) (snd (place c) + j) v in Ok (with_part s (fst (place c)) mm))
  = Ok (put_byte s c j (v mod 256)).
Proof.
  intros Rp R Hj. destruct (at_isbyte s a c j Rp R Hj) as (b & E & _). unfold at_byte in E.
  cbn [storen]. rewrite E. cbn [bind]. reflexivity.
Qed.

Lemma field_two v k : field v k = two v k. Proof. reflexivity. Qed.
Lemma two_mod v j : 0 <= j < 4 -> two (v mod 256) j = field v j.
Proof.
  intros Hj. unfold two, field. assert (C : j = 0 \/ j = 1 \/ j = 2 \/ j = 3) by lia.
  destruct C as [->|[->|[->| ->]]]; [change (4 ^ 0) with 1|change (4 ^ 1) with 4|change (4 ^ 2) with 16|change (4 ^ 3) with 64]; lia.
Qed.
Lemma two_div v i j : 0 <= i -> 0 <= j -> two (v / 256 ^ i) j = field v (4 * i + j).
Proof.
  intros Hi Hj. unfold two, field. rewrite Z.pow_add_r, Z.pow_mul_r by lia. change (4 ^ 4) with 256.
  rewrite Z.div_div by (try apply Z.pow_nonzero; try apply Z.pow_pos_nonneg; lia). reflexivity.
Qed.

(** Setters of whole dwords. *)
Lemma setb_rep s a c j v : rep s a -> real c -> 0 <= j < bytes c / 4 ->
  rep (put_byte s c j (v mod 256)) (A (put (D a) c (4 * j) 4 (field v)) (F a) (H a)).
Proof.
  intros Rp R Hj. assert (Hb : 0 <= v mod 256 < 256) by (apply Z.mod_pos_bound; lia).
  pose proof (rep_put s a c j (v mod 256) Rp R Hj Hb) as Q.
  refine (rep_ext _ _ _ Q _). cbn [D]. intros c' k R' Hk. unfold put.
  destruct (full_eqb c' c && (4 * j <=? k) && (k <? 4 * j + 4)) eqn:E; [|reflexivity].
  symmetry. apply two_mod. lia.
Qed.

(** Several dwords in a row, as [storen] writes them. *)
Lemma storen_rep : forall n s a c j v, rep s a -> real c -> 0 <= j -> j + Z.of_nat n <= bytes c / 4 ->
  exists s', (let* mm := storen n (part s (fst (place c))) (snd (place c) + j) v in Ok (with_part s (fst (place c)) mm)) = Ok s' /\
    rep s' (A (put (D a) c (4 * j) (4 * Z.of_nat n) (field v)) (F a) (H a)).
Proof.
  induction n as [|n IH]; intros s a c j v Rp R Hj Hn.
  - exists s. split.
    + cbn. destruct s as [t x]. unfold with_part, part. destruct (fst (place c)); reflexivity.
    + refine (rep_ext _ _ _ Rp _). intros c' k _ _. unfold put.
      replace ((4 * j <=? k) && (k <? 4 * j + 4 * Z.of_nat 0)) with false by lia.
      rewrite <- andb_assoc. replace ((4 * j <=? k) && (k <? 4 * j + 4 * Z.of_nat 0)) with false by lia.
      rewrite andb_false_r. reflexivity.
  - assert (Hj1 : 0 <= j < bytes c / 4) by lia.
    pose proof (setb_rep s a c j v Rp R Hj1) as R1.
    destruct (IH _ _ c (j + 1) (v / 256) R1 R ltac:(lia) ltac:(lia)) as (s' & E & R2).
    exists s'. split.
    + destruct (at_isbyte s a c j Rp R Hj1) as (b & Eb & _). unfold at_byte in Eb.
      cbn [storen]. rewrite Eb. rewrite <- E. unfold put_byte. rewrite with_part_part.
      replace (snd (place c) + j + 1) with (snd (place c) + (j + 1)) by lia.
      clear. destruct (storen n _ _ _) as [mm| |]; [|reflexivity|reflexivity].
      unfold bind. rewrite with_part_twice. reflexivity.
    + refine (rep_ext _ _ _ R2 _). cbn [D F H]. intros c' k R' Hk. unfold put.
      destruct (full_eqb c' c); cbn [andb]; [|reflexivity].
      destruct ((4 * (j + 1) <=? k) && (k <? 4 * (j + 1) + 4 * Z.of_nat n)) eqn:E1.
      * replace ((4 * j <=? k) && (k <? 4 * j + 4 * Z.of_nat (S n))) with true by lia.
        pose proof (two_div v 1 (k - 4 * (j + 1)) ltac:(lia) ltac:(lia)) as Q. rewrite Z.pow_1_r in Q.
        rewrite (field_two (v / 256)), Q. f_equal. lia.
      * destruct ((4 * j <=? k) && (k <? 4 * j + 4)) eqn:E2.
        -- replace ((4 * j <=? k) && (k <? 4 * j + 4 * Z.of_nat (S n))) with true by lia. reflexivity.
        -- replace ((4 * j <=? k) && (k <? 4 * j + 4 * Z.of_nat (S n))) with false by lia. reflexivity.
Qed.

Lemma field_mod v k n : 0 <= k -> 0 <= n -> 2 * k + 2 <= n -> field (v mod 2 ^ n) k = field v k.
Proof.
  intros Hk Hn H0. unfold field. change 4 with (2 ^ 2). rewrite <- !Z.pow_mul_r by lia.
  apply Z.bits_inj'. intros i Hi.
  destruct (Z_lt_dec i 2).
  - rewrite !Z.mod_pow2_bits_low by lia. rewrite !Z.div_pow2_bits by lia. rewrite Z.mod_pow2_bits_low by lia. reflexivity.
  - rewrite !Z.mod_pow2_bits_high by lia. reflexivity.
Qed.

(** A single two-bit field. *)
Lemma set_2bits_byte b v sh : 0 <= b < 256 -> 0 <= v < 4 -> 0 <= sh < 8 -> sh mod 2 = 0 ->
  0 <= set_2bits b v sh mod 256 < 256 /\
  forall j, 0 <= j < 4 -> two (set_2bits b v sh mod 256) j = if 2 * j =? sh then v else two b j.
Proof.
  intros Hb Hv Hs E. split; [apply Z.mod_pos_bound; lia|]. intros j Hj.
  rewrite two_mod by assumption. unfold field, two.
  assert (P4 : 4 ^ j = 2 ^ (2 * j)) by (rewrite Z.pow_mul_r by lia; reflexivity).
  rewrite !P4. rewrite get_set_2bits by lia. reflexivity.
Qed.

Lemma setbyte_rep s a r k v : rep s a -> named r -> 0 <= k < bytes (whole r) -> 0 <= v < 4 ->
  exists s', set_byte s r k v = Ok s' /\ rep s' (A (put (D a) (whole r) k 1 (fun _ => v)) (F a) (H a)).
Proof.
  intros Rp (R & NF & _) Hk Hv. set (c := whole r) in *.
  assert (Bc : bytes c = 8 \/ bytes c = 16) by (destruct c; cbn; auto).
  assert (Hk4 : 0 <= k / 4 < bytes c / 4) by (destruct Bc as [Q|Q]; rewrite Q in *; lia).
  unfold set_byte. rewrite (place_addr r NF). fold c. rewrite (surjective_pairing (place c)).
  assert (W : w32 (k * 2) = 2 * k) by (unfold w32; rewrite Z.mod_small; lia). rewrite W.
  replace (2 * k / 8) with (k / 4) by lia. replace (2 * k mod 8) with (2 * (k mod 4)) by lia.
  destruct (at_isbyte s a c (k / 4) Rp R Hk4) as (b & Eb & Rb). pose proof Eb as Eb'. unfold at_byte in Eb'.
  cbn [loadn]. rewrite Eb'. cbn [bind]. replace (b + 256 * 0) with b by lia.
  rewrite (store1_put s a) by assumption.
  exists (put_byte s c (k / 4) (set_2bits b v (2 * (k mod 4)) mod 256)). split; [reflexivity|].
  destruct (set_2bits_byte b v (2 * (k mod 4)) Rb Hv ltac:(lia) ltac:(lia)) as (Rg & Tw).
  pose proof (rep_put s a c (k / 4) _ Rp R Hk4 Rg) as Q.
  refine (rep_ext _ _ _ Q _). cbn [D]. intros c' k' R' Hk'. unfold put.
  destruct (full_eqb c' c) eqn:E; cbn [andb]; [|reflexivity]. apply full_eqb_eq in E. subst c'.
  destruct ((4 * (k / 4) <=? k') && (k' <? 4 * (k / 4) + 4)) eqn:E4.
  - rewrite Tw by lia. destruct ((k <=? k') && (k' <? k + 1)) eqn:E1.
    + replace (2 * (k' - 4 * (k / 4)) =? 2 * (k mod 4)) with true by lia. reflexivity.
    + replace (2 * (k' - 4 * (k / 4)) =? 2 * (k mod 4)) with false by lia.
      destruct (r_D s a Rp c k' R Hk') as (b' & Eb2 & Ed). rewrite Ed.
      replace (k' / 4) with (k / 4) in Eb2 by lia. rewrite Eb in Eb2. injection Eb2 as <-. f_equal. lia.
  - replace ((k <=? k') && (k' <? k + 1)) with false by lia. reflexivity.
Qed.

Lemma setbytes_rep r : forall vs s a k, rep s a -> named r -> 0 <= k -> k + Z.of_nat (length vs) <= bytes (whole r) ->
  Forall state vs ->
  exists s', set_bytes s r k vs = Ok s' /\
    rep s' (A (put (D a) (whole r) k (Z.of_nat (length vs)) (fun j => nth (Z.to_nat j) vs 0)) (F a) (H a)).
Proof.
  induction vs as [|v vs IH]; intros s a k Rp N Hk Hn Fv.
  - exists s. split; [reflexivity|]. refine (rep_ext _ _ _ Rp _). intros c' k' _ _. unfold put. cbn [length].
    rewrite <- andb_assoc. replace ((k <=? k') && (k' <? k + Z.of_nat 0)) with false by lia. rewrite andb_false_r. reflexivity.
  - inversion Fv as [|? ? Sv Fv']; subst. cbn [length] in Hn.
    destruct (setbyte_rep s a r k v Rp N ltac:(lia) Sv) as (s1 & E1 & R1).
    destruct (IH s1 _ (k + 1) R1 N ltac:(lia) ltac:(lia) Fv') as (s2 & E2 & R2).
    exists s2. split; [cbn [set_bytes]; rewrite E1; exact E2|].
    refine (rep_ext _ _ _ R2 _). cbn [D F H]. intros c' k' _ _. unfold put. cbn [length].
    destruct (full_eqb c' (whole r)); cbn [andb]; [|reflexivity].
    destruct ((k + 1 <=? k') && (k' <? k + 1 + Z.of_nat (length vs))) eqn:Q.
    + replace ((k <=? k') && (k' <? k + Z.of_nat (S (length vs)))) with true by lia.
      replace (Z.to_nat (k' - k)) with (S (Z.to_nat (k' - (k + 1)))) by lia. reflexivity.
    + destruct ((k <=? k') && (k' <? k + 1)) eqn:Q2.
      * replace ((k <=? k') && (k' <? k + Z.of_nat (S (length vs)))) with true by lia.
        replace (Z.to_nat (k' - k)) with O by lia. reflexivity.
      * replace ((k <=? k') && (k' <? k + Z.of_nat (S (length vs)))) with false by lia. reflexivity.
Qed.
