(** Every legal call does on the layout what the specification says. *)
From Verif Require Import Base Mem Shadow_Model Shadow_Spec Shadow_Proofs1 Shadow_Proofs2 RegShadow_Model RegShadow_Spec RegShadow_Proofs.
Open Scope Z_scope.

Lemma byte_pack b : 0 <= b < 256 -> b = two b 0 + 4 * (two b 1 + 4 * (two b 2 + 4 * two b 3)).
Proof.
  intros Hb. unfold two. change (4 ^ 0) with 1. change (4 ^ 1) with 4. change (4 ^ 2) with 16. change (4 ^ 3) with 64. lia.
Qed.

Lemma rep_states s a c k : rep s a -> real c -> 0 <= k < bytes c -> 0 <= D a c k < 4.
Proof. intros Rp R Hk. destruct (r_D s a Rp c k R Hk) as (b & _ & ->). apply two_range. Qed.

(** A run of whole shadow bytes read as a number. *)
Lemma pack_load : forall n s a c j, rep s a -> real c -> 0 <= j -> j + Z.of_nat n <= bytes c / 4 ->
  loadn n (part s (fst (place c))) (snd (place c) + j) = Ok (pack (D a c) (4 * j) (4 * n)).
Proof.
  induction n as [|n IH]; intros s a c j Rp R Hj Hn; [reflexivity|].
  assert (Bc : bytes c = 8 \/ bytes c = 16) by (destruct c; cbn; auto).
  assert (B4 : bytes c = 4 * (bytes c / 4)) by (destruct Bc as [Q|Q]; rewrite Q; reflexivity).
  destruct (at_isbyte s a c j Rp R ltac:(lia)) as (b & Eb & Rb).
  pose proof Eb as Eb'. unfold at_byte in Eb'. cbn [loadn]. rewrite Eb'.
  replace (snd (place c) + j + 1) with (snd (place c) + (j + 1)) by lia.
  rewrite (IH s a c (j + 1) Rp R ltac:(lia) ltac:(lia)). unfold bind. f_equal.
  replace (4 * S n)%nat with (S (S (S (S (4 * n))))) by lia. cbn [pack].
  replace (4 * j + 1 + 1 + 1 + 1) with (4 * (j + 1)) by lia.
  assert (T : forall i, 0 <= i < 4 -> D a c (4 * j + i) = two b i).
  { intros i Hi. destruct (r_D s a Rp c (4 * j + i) R ltac:(lia)) as (b' & E' & Ed). rewrite Ed.
    replace ((4 * j + i) / 4) with j in E' by lia. rewrite Eb in E'. injection E' as <-. f_equal. lia. }
  pose proof (T 0 ltac:(lia)) as T0. pose proof (T 1 ltac:(lia)) as T1. pose proof (T 2 ltac:(lia)) as T2. pose proof (T 3 ltac:(lia)) as T3.
  replace (4 * j + 0) with (4 * j) in T0 by lia.
  replace (4 * j + 1 + 1) with (4 * j + 2) by lia. replace (4 * j + 2 + 1) with (4 * j + 3) by lia.
  rewrite T0, T1, T2, T3. pose proof (byte_pack b Rb). lia.
Qed.

Lemma land_ones_mod v n : 0 <= n -> Z.land v (2 ^ n - 1) = v mod 2 ^ n.
Proof. intros Hn. rewrite Z.sub_1_r, <- Z.ones_equiv. apply Z.land_ones. exact Hn. Qed.

Lemma pack_mod f : forall n m lo, (forall k, lo <= k < lo + Z.of_nat (n + m) -> 0 <= f k < 4) ->
  pack f lo (n + m) mod 4 ^ Z.of_nat n = pack f lo n.
Proof.
  induction n as [|n IH]; intros m lo Hf; [apply Z.mod_1_r|].
  cbn [pack Nat.add].
  rewrite Nat2Z.inj_succ, Z.pow_succ_r by lia.
  assert (H0 : 0 <= f lo < 4) by (apply Hf; lia).
  pose proof (IH m (lo + 1) ltac:(intros k Hk; apply Hf; lia)) as Q.
  assert (P : 0 < 4 ^ Z.of_nat n) by (apply Z.pow_pos_nonneg; lia).
  rewrite Z.rem_mul_r by lia.
  replace ((f lo + 4 * pack f (lo + 1) (n + m)) mod 4) with (f lo) by lia.
  replace ((f lo + 4 * pack f (lo + 1) (n + m)) / 4) with (pack f (lo + 1) (n + m)) by lia. lia.
Qed.

Lemma get_rep s a r : rep s a -> named r -> mmx r = false ->
  get_shadow_register s r = Ok (pack (D a (whole r)) (first r) (Z.to_nat (span r))).
Proof.
  intros Rp (R & NF & N8) M. unfold get_shadow_register. rewrite (place_addr r NF).
  rewrite (surjective_pairing (place (whole r))).
  destruct r as [i|i|i|i|i|i|i|i|]; try discriminate; try congruence; cbn [whole first span width] in *.
  - pose proof (pack_load 2 s a (General i) 0 Rp R ltac:(lia) ltac:(cbn; lia)) as Q. rewrite Z.add_0_r in Q. exact Q.
  - pose proof (pack_load 1 s a (General i) 0 Rp R ltac:(lia) ltac:(cbn; lia)) as Q. rewrite Z.add_0_r in Q. exact Q.
  - pose proof (pack_load 1 s a (General i) 0 Rp R ltac:(lia) ltac:(cbn; lia)) as Q. rewrite Z.add_0_r in Q. rewrite Q.
    unfold bind. f_equal. change 15 with (2 ^ 4 - 1). rewrite land_ones_mod by lia.
    apply (pack_mod (D a (General i)) 2 2 0). intros k Hk. apply (rep_states s a (General i)); auto. cbn in *. lia.
  - pose proof (pack_load 1 s a (General i) 0 Rp R ltac:(lia) ltac:(cbn; lia)) as Q. rewrite Z.add_0_r in Q. rewrite Q.
    unfold bind. f_equal. change 3 with (2 ^ 2 - 1). rewrite land_ones_mod by lia.
    apply (pack_mod (D a (General i)) 1 3 0). intros k Hk. apply (rep_states s a (General i)); auto. cbn in *. lia.
  - pose proof (pack_load 1 s a (General i) 0 Rp R ltac:(lia) ltac:(cbn; lia)) as Q. rewrite Z.add_0_r in Q. rewrite Q.
    unfold bind. f_equal.
    assert (S4 : forall k, 0 <= k < 4 -> 0 <= D a (General i) k < 4) by (intros k Hk; apply (rep_states s a (General i)); auto; cbn in *; lia).
    pose proof (S4 0 ltac:(lia)). pose proof (S4 1 ltac:(lia)). pose proof (S4 2 ltac:(lia)). pose proof (S4 3 ltac:(lia)).
    cbn [pack Nat.mul Nat.add Z.to_nat Pos.to_nat Pos.iter_op]. change (4 * 0) with 0. change (0 + 1) with 1. change (1 + 1) with 2. change (2 + 1) with 3.
    change 12 with (Z.shiftl 3 2). rewrite Z.shiftr_land, Z.shiftr_shiftl_l by lia. change (Z.shiftl 3 (2 - 2)) with (2 ^ 2 - 1).
    rewrite land_ones_mod, Z.shiftr_div_pow2 by lia. change (2 ^ 2) with 4.
    change (Pos.to_nat 1) with 1%nat. cbn [pack]. lia.
  - pose proof (pack_load 4 s a (Sse i) 0 Rp R ltac:(lia) ltac:(cbn; lia)) as Q. rewrite Z.add_0_r in Q. exact Q.
  - pose proof (pack_load 4 s a (SseHigh i) 0 Rp R ltac:(lia) ltac:(cbn; lia)) as Q. rewrite Z.add_0_r in Q. exact Q.
Qed.

(** MMX: the low half of what is read is right; the rest is the neighbour's. *)
Lemma get_mm_rep s a i : rep s a -> 0 <= i < 7 ->
  get_shadow_register s (Mm i) = Ok (pack (D a (Mmx i)) 0 8 + 2 ^ 16 * pack (D a (Mmx (i + 1))) 0 8).
Proof.
  intros Rp Hi. unfold get_shadow_register. cbn [reg_shadow_addr].
  pose proof (pack_load 2 s a (Mmx i) 0 Rp ltac:(cbn; lia) ltac:(lia) ltac:(cbn; lia)) as Q1.
  pose proof (pack_load 2 s a (Mmx (i + 1)) 0 Rp ltac:(cbn; lia) ltac:(lia) ltac:(cbn; lia)) as Q2.
  change (4 * 0) with 0 in Q1, Q2. change (4 * 2)%nat with 8%nat in Q1, Q2.
  cbn [place fst snd] in Q1, Q2. unfold offs_mm. set (mm := part s true) in *. rewrite Z.add_0_r in Q1, Q2.
  replace (128 + 2 * (i + 1)) with (128 + 2 * i + 2) in Q2 by lia.
  set (p1 := pack (D a (Mmx i)) 0 8) in *. set (p2 := pack (D a (Mmx (i + 1))) 0 8) in *. clearbody p1 p2 mm.
  cbn [loadn] in *. replace (128 + 2 * i + 1 + 1) with (128 + 2 * i + 2) by lia.
  destruct (mm (128 + 2 * i)) as [b0|]; [|discriminate]. destruct (mm (128 + 2 * i + 1)) as [b1|]; [|discriminate].
  destruct (mm (128 + 2 * i + 2)) as [b2|]; [|discriminate]. destruct (mm (128 + 2 * i + 2 + 1)) as [b3|]; [|discriminate].
  unfold bind in *. assert (E1 : b0 + 256 * (b1 + 256 * 0) = p1) by congruence.
  assert (E2 : b2 + 256 * (b3 + 256 * 0) = p2) by congruence. f_equal. change (2 ^ 16) with 65536. lia.
Qed.

Lemma put_put d c lo n f m g c' k : 0 <= n -> 0 <= m ->
  put (put d c lo n f) c (lo + n) m g c' k = put d c lo (n + m) (fun j => if j <? n then f j else g (j - n)) c' k.
Proof.
  intros Hn Hm. unfold put. destruct (full_eqb c' c); cbn [andb]; [|reflexivity].
  destruct ((lo + n <=? k) && (k <? lo + n + m)) eqn:E1.
  - replace ((lo <=? k) && (k <? lo + (n + m))) with true by lia. replace (k - lo <? n) with false by lia. f_equal. lia.
  - destruct ((lo <=? k) && (k <? lo + n)) eqn:E2.
    + replace ((lo <=? k) && (k <? lo + (n + m))) with true by lia. replace (k - lo <? n) with true by lia. reflexivity.
    + replace ((lo <=? k) && (k <? lo + (n + m))) with false by lia. reflexivity.
Qed.

Lemma gpr_whole r : named r -> is_gpr r = true -> bytes (whole r) = 8.
Proof. destruct r; cbn; intros; try discriminate; reflexivity. Qed.
Lemma sse_whole r : named r -> is_gpr r = false -> mmx r = false -> bytes (whole r) = 16.
Proof. intros (_ & NF & _). destruct r; cbn; intros; try discriminate; try reflexivity. congruence. Qed.

Ltac addr r NF := rewrite (place_addr r NF), (surjective_pairing (place (whole r))).

Lemma qword_rep s a r v : rep s a -> named r -> is_gpr r = true -> exists s', set_qword s r v = Ok s' /\
  rep s' (A (put (D a) (whole r) 0 8 (field v)) (F a) (H a)).
Proof.
  intros Rp N G. pose proof (gpr_whole r N G) as B. destruct N as (R & NF & _).
  unfold set_qword. addr r NF.
  destruct (storen_rep 2 s a (whole r) 0 (v mod 2 ^ 16) Rp R ltac:(lia) ltac:(rewrite B; cbn; lia)) as (s' & E & R').
  rewrite Z.add_0_r in E. exists s'. split; [exact E|]. refine (rep_ext _ _ _ R' _). intros c k _ _. cbn [D]. unfold put.
  change (4 * 0) with 0. change (4 * Z.of_nat 2) with 8.
  destruct (full_eqb c (whole r) && (0 <=? k) && (k <? 0 + 8)) eqn:Q; [|reflexivity]. symmetry. apply field_mod; lia.
Qed.
Lemma dword_rep s a r v j : rep s a -> named r -> is_gpr r = true -> j = 0 \/ j = 1 ->
  exists s', (let* mm := storen 1 (part s (fst (place (whole r)))) (snd (place (whole r)) + j) (v mod 2 ^ 8) in
              Ok (with_part s (fst (place (whole r))) mm)) = Ok s' /\
  rep s' (A (put (D a) (whole r) (4 * j) 4 (field v)) (F a) (H a)).
Proof.
  intros Rp N G Hj. pose proof (gpr_whole r N G) as B. destruct N as (R & NF & _).
  destruct (storen_rep 1 s a (whole r) j (v mod 2 ^ 8) Rp R ltac:(lia) ltac:(rewrite B; cbn; lia)) as (s' & E & R').
  exists s'. split; [exact E|]. refine (rep_ext _ _ _ R' _). intros c k _ _. cbn [D]. unfold put.
  change (4 * Z.of_nat 1) with 4.
  destruct (full_eqb c (whole r) && (4 * j <=? k) && (k <? 4 * j + 4)) eqn:Q; [|reflexivity]. symmetry. apply field_mod; lia.
Qed.

Lemma nth_repeat0 n j : nth j (repeat 0 n) 0 = 0.
Proof. revert j. induction n; destruct j; cbn; auto. Qed.

Lemma mark_rep s a r n : rep s a -> named r -> high8 r = false -> 0 <= n <= span r ->
  exists s', mark_defined s r n = Ok s' /\ rep s' (A (put (D a) (whole r) (first r) n (fun _ => 0)) (F a) (H a)).
Proof.
  intros Rp N H8 Hn. assert (F0 : first r = 0) by (destruct r; try reflexivity; discriminate).
  assert (SB : span r <= bytes (whole r)).
  { destruct N as (_ & NF & _). destruct r; cbn; try lia. }
  rewrite F0. unfold mark_defined.
  assert (Fz : forall k, field 0 k = 0) by (intros k; unfold field; rewrite Zdiv_0_l; reflexivity).
  destruct ((n =? 8) && is_gpr r) eqn:E8.
  - apply andb_true_iff in E8. destruct E8 as (E8 & G). assert (n = 8) by lia. subst n.
    destruct (qword_rep s a r 0 Rp N G) as (s' & E & R'). exists s'. split; [exact E|].
    refine (rep_ext _ _ _ R' _). intros c k _ _. cbn [D]. unfold put. rewrite Fz. reflexivity.
  - destruct ((n =? 4) && is_gpr r) eqn:E4.
    + apply andb_true_iff in E4. destruct E4 as (E4 & G). assert (n = 4) by lia. subst n.
      destruct (dword_rep s a r 0 0 Rp N G ltac:(auto)) as (s' & E & R'). exists s'. split.
      * unfold set_dword. destruct N as (R & NF & _). addr r NF. rewrite Z.add_0_r in E. exact E.
      * refine (rep_ext _ _ _ R' _). intros c k _ _. cbn [D]. unfold put. rewrite Fz. reflexivity.
    + destruct (setbytes_rep r (repeat 0 (Z.to_nat n)) s a 0 Rp N ltac:(lia)) as (s' & E & R').
      * rewrite repeat_length. lia.
      * apply Forall_forall. intros x Hx. apply repeat_spec in Hx. subst x. unfold state. lia.
      * exists s'. split; [exact E|]. refine (rep_ext _ _ _ R' _). intros c k _ _. cbn [D]. unfold put.
        rewrite repeat_length. replace (Z.of_nat (Z.to_nat n)) with n by lia. rewrite nth_repeat0. reflexivity.
Qed.

Lemma assign_rep s a r vs : rep s a -> named r -> Z.of_nat (length vs) = span r -> Forall state vs ->
  exists s', assign s r vs = Ok s' /\
    rep s' (A (put (D a) (whole r) (first r) (span r) (fun j => nth (Z.to_nat j) vs 0)) (F a) (H a)).
Proof.
  intros Rp N L Fv.
  assert (SB : span r + first r <= bytes (whole r)).
  { destruct N as (_ & NF & _). destruct r; cbn; try lia. }
  assert (FS : 0 <= first r /\ (first r = 0 \/ span r = 1)) by (destruct r; cbn; lia).
  assert (OF : reg_offs_in_dword r = first r) by (destruct r; reflexivity).
  destruct vs as [|v vs]; [cbn in L; destruct r; cbn in L; lia|].
  cbn [length] in L. inversion Fv as [|? ? Sv Fv']; subst. unfold assign. rewrite OF.
  destruct (setbyte_rep s a r (first r) v Rp N ltac:(lia) Sv) as (s1 & E1 & R1).
  rewrite E1. cbn [bind].
  destruct (setbytes_rep r vs s1 _ 1 R1 N ltac:(lia) ltac:(lia) Fv') as (s2 & E2 & R2).
  exists s2. split; [exact E2|]. refine (rep_ext _ _ _ R2 _). cbn [D F H]. intros c k _ _. unfold put.
  destruct (full_eqb c (whole r)); cbn [andb]; [|reflexivity].
  destruct ((1 <=? k) && (k <? 1 + Z.of_nat (length vs))) eqn:Q.
  - replace ((first r <=? k) && (k <? first r + span r)) with true by lia.
    replace (Z.to_nat (k - first r)) with (S (Z.to_nat (k - 1))) by lia. reflexivity.
  - destruct ((first r <=? k) && (k <? first r + 1)) eqn:Q2.
    + replace ((first r <=? k) && (k <? first r + span r)) with true by lia.
      replace (Z.to_nat (k - first r)) with O by lia. reflexivity.
    + replace ((first r <=? k) && (k <? first r + span r)) with false by lia. reflexivity.
Qed.

Lemma check_rep s a r n : rep s a -> named r -> checkable r = true -> 1 <= n <= span r ->
  exists b s', check_register_defined s r n = Ok (b, s') /\
    (if allz (D a (whole r)) (first r) (Z.to_nat n) then b = false /\ s' = s
     else b = true /\ rep s' (A (put (D a) (whole r) (first r) n (fun _ => 0)) (F a) (H a))).
Proof.
  intros Rp N C Hn.
  assert (M : mmx r = false) by (destruct r; try reflexivity; discriminate).
  assert (H8 : high8 r = false) by (destruct r; try reflexivity; discriminate).
  assert (F0 : first r = 0) by (destruct r; try reflexivity; discriminate).
  assert (W : width r = span r) by (destruct r; try reflexivity; discriminate).
  assert (SB : span r <= bytes (whole r)).
  { destruct N as (_ & NF & _). destruct r; cbn; try lia. }
  unfold check_register_defined. rewrite (get_rep s a r Rp N M). unfold bind at 1. rewrite W.
  assert (E : (if n <? span r then Z.land (pack (D a (whole r)) (first r) (Z.to_nat (span r))) (2 ^ (n * 2) - 1)
               else pack (D a (whole r)) (first r) (Z.to_nat (span r))) = pack (D a (whole r)) (first r) (Z.to_nat n)).
  { destruct (n <? span r) eqn:L.
    - rewrite land_ones_mod by lia. replace (2 ^ (n * 2)) with (4 ^ Z.of_nat (Z.to_nat n))
        by (rewrite Z2Nat.id by lia; change 4 with (2 ^ 2); rewrite <- Z.pow_mul_r by lia; f_equal; lia).
      replace (Z.to_nat (span r)) with (Z.to_nat n + Z.to_nat (span r - n))%nat by lia.
      apply pack_mod. intros k Hk. destruct N as (R & _). apply (rep_states s a _ k Rp R). lia.
    - replace (span r) with n by lia. reflexivity. }
  rewrite E. unfold is_defined, allz. destruct (pack (D a (whole r)) (first r) (Z.to_nat n) =? 0).
  - exists false, s. auto.
  - destruct (mark_rep s a r n Rp N H8 ltac:(lia)) as (s' & Em & R'). rewrite Em. exists true, s'. auto.
Qed.

Lemma tls_rep s a v o : rep s a -> 0 <= v < 256 ->
  (o = offs_inheap -> rep (SR (upd (tls s) o v) (aux s)) (A (D a) (F a) v)).
Proof.
  intros [T X Dd Ff Hh] Hv ->. unfold offs_inheap. split; cbn [tls aux D F H]; auto.
  - intros x Hx. unfold upd. destruct (x =? 34); [exists v|]; auto.
  - intros c k R Hk. destruct (Dd c k R Hk) as (b & E & Ed). exists b. split; auto. rewrite <- E.
    unfold at_byte, part, upd. destruct c; cbn [place fst snd tls aux bytes real] in *; try reflexivity.
    destruct (Z.eqb_spec (2 * i + k / 4) 34); [exfalso; lia|reflexivity].
Qed.
Lemma heap_rep s a v : rep s a -> exists s', set_inheap s v = Ok s' /\ rep s' (A (D a) (F a) (v mod 256)).
Proof.
  intros Rp. unfold set_inheap, offs_inheap. cbn [storen]. rewrite (r_H s a Rp). cbn [bind]. eexists. split; [reflexivity|].
  change (2 ^ 8) with 256. rewrite Zmod_mod. apply tls_rep with (o := offs_inheap); auto. apply Z.mod_pos_bound. lia.
Qed.
Lemma flags_rep s a v : rep s a -> exists s', set_eflags s v = Ok s' /\ rep s' (A (D a) (v mod 256) (H a)).
Proof.
  intros [T X Dd (F1 & F2) Hh]. unfold set_eflags. change (2 ^ 8) with 256. unfold offs_eflags.
  assert (Hv : 0 <= v mod 256 < 256) by (apply Z.mod_pos_bound; lia).
  cbn [storen]. rewrite F1. change (32 + 1) with 33. unfold upd at 1. change (33 =? 32) with false. cbv iota. rewrite F2. cbn [bind].
  eexists. split; [reflexivity|]. rewrite Zmod_mod. replace (v mod 256 / 256 mod 256) with 0 by lia.
  split; cbn [tls aux D F H]; auto.
  - intros x Hx. unfold upd. destruct (x =? 33); [exists 0; split; [reflexivity|lia]|]. destruct (x =? 32); [exists (v mod 256)|]; auto.
  - intros c k R Hk. destruct (Dd c k R Hk) as (b & E & Ed). exists b. split; auto. rewrite <- E.
    unfold at_byte, part, upd. destruct c; cbn [place fst snd tls aux bytes real] in *; try reflexivity.
    destruct (Z.eqb_spec (2 * i + k / 4) 33); [exfalso; lia|]. destruct (Z.eqb_spec (2 * i + k / 4) 32); [exfalso; lia|reflexivity].
Qed.
Lemma get_flags s a : rep s a -> get_eflags s = Ok (F a).
Proof.
  intros Rp. unfold get_eflags, offs_eflags. cbn [loadn]. destruct (r_F s a Rp) as (F1 & F2). rewrite F1.
  change (32 + 1) with 33. rewrite F2. cbn [bind]. f_equal. lia.
Qed.
Lemma get_heap s a : rep s a -> get_inheap s = Ok (H a).
Proof. intros Rp. unfold get_inheap, offs_inheap. cbn [loadn]. rewrite (r_H s a Rp). cbn [bind]. f_equal. lia. Qed.

Lemma step_rep s a o : rep s a -> legal o ->
  exists s', step s o = Ok (s', snd (spec a o)) /\ rep s' (fst (spec a o)).
Proof.
  intros Rp L. destruct o; cbn [legal] in L; cbn [step spec snd fst].
  - destruct L as (N & Hk & Sv). destruct (setbyte_rep s a r k v Rp N Hk Sv) as (s' & E & R'). exists s'. rewrite E. auto.
  - destruct L as (N & G & _). destruct (dword_rep s a r v 0 Rp N G ltac:(auto)) as (s' & E & R'). exists s'. split; auto.
    unfold set_dword. destruct N as (R & NF & _). addr r NF. rewrite Z.add_0_r in E. rewrite E. reflexivity.
  - destruct L as (N & G & _). destruct (qword_rep s a r v Rp N G) as (s' & E & R'). exists s'. rewrite E. auto.
  - destruct L as (N & G & _). destruct (dword_rep s a r v 1 Rp N G ltac:(auto)) as (s' & E & R'). exists s'. split; auto.
    unfold set_high_dword. destruct N as (R & NF & _). addr r NF. rewrite E. reflexivity.
  - destruct L as (N & G & M & _). pose proof (sse_whole r N G M) as B. destruct N as (R & NF & _).
    destruct (storen_rep 4 s a (whole r) 0 v Rp R ltac:(lia) ltac:(rewrite B; cbn; lia)) as (s' & E & R').
    exists s'. split; [|exact R']. unfold set_dqword. addr r NF. rewrite Z.add_0_r in E. rewrite E. reflexivity.
  - destruct L as (N & Le & Fv). destruct (assign_rep s a r vs Rp N Le Fv) as (s' & E & R'). exists s'. rewrite E. auto.
  - destruct L as (Hi & Le & Fv). assert (N : named (R32 i)) by (repeat split; cbn; try lia; try congruence).
    unfold assign32.
    destruct (dword_rep s a (R32 i) 0 1 Rp N eq_refl ltac:(auto)) as (s1 & E1 & R1).
    assert (Eh : set_high_dword s (R32 i) 0 = Ok s1) by exact E1. rewrite Eh. cbn [bind].
    destruct (assign_rep s1 _ (R32 i) vs R1 N ltac:(rewrite Le; reflexivity) Fv) as (s2 & E2 & R2).
    exists s2. rewrite E2. split; [reflexivity|]. refine (rep_ext _ _ _ R2 _). cbn [D F H whole first span width].
    intros c k _ _. unfold put. destruct (full_eqb c (General i)); cbn [andb]; [|reflexivity].
    destruct ((0 <=? k) && (k <? 0 + 8)) eqn:Q.
    + destruct ((0 <=? k) && (k <? 0 + 4)) eqn:Q4; [reflexivity|].
      replace ((4 * 1 <=? k) && (k <? 4 * 1 + 4)) with true by lia. rewrite nth_overflow by lia.
      unfold field. rewrite Zdiv_0_l. reflexivity.
    + replace ((0 <=? k) && (k <? 0 + 4)) with false by lia. replace ((4 * 1 <=? k) && (k <? 4 * 1 + 4)) with false by lia. reflexivity.
  - destruct L as (N & H8 & Hn). destruct (mark_rep s a r n Rp N H8 Hn) as (s' & E & R'). exists s'. rewrite E. auto.
  - destruct (flags_rep s a v Rp) as (s' & E & R'). exists s'. rewrite E. auto.
  - destruct (heap_rep s a v Rp) as (s' & E & R'). exists s'. rewrite E. auto.
  - destruct L as (N & M). exists s. rewrite (get_rep s a r Rp N M). auto.
  - exists s. rewrite (get_flags s a Rp). auto.
  - exists s. rewrite (get_heap s a Rp). auto.
  - destruct L as (N & C & Hn). destruct (check_rep s a r n Rp N C Hn) as (b & s' & E & Q). rewrite E. exists s'.
    destruct (allz (D a (whole r)) (first r) (Z.to_nat n)); destruct Q as (-> & Q); [subst s'|]; auto.
  - unfold check_eflags_defined. rewrite (get_flags s a Rp). cbn [bind]. unfold is_defined.
    destruct (F a =? 0); [exists s; auto|]. destruct (flags_rep s a 0 Rp) as (s' & E & R'). rewrite E. exists s'. auto.
Qed.

Lemma run_rep : forall os s a, rep s a -> Forall legal os ->
  exists s', run s os = Ok (s', snd (spec_run a os)) /\ rep s' (fst (spec_run a os)).
Proof.
  induction os as [|o os IH]; intros s a Rp L; [exists s; auto|].
  inversion L as [|? ? Lo Los]; subst. destruct (step_rep s a o Rp Lo) as (s1 & E1 & R1).
  cbn [run spec_run]. rewrite E1. destruct (spec a o) as (a1, r1). cbn [fst snd] in *. cbn [bind].
  destruct (IH s1 a1 R1 Los) as (s2 & E2 & R2). rewrite E2. destruct (spec_run a1 os) as (a2, rs). cbn [fst snd bind] in *.
  exists s2. auto.
Qed.

Lemma rep_first : rep init_first start_first.
Proof.
  assert (T : forall n x, 0 <= x < n -> filled_to n 0 x = Some 0).
  { intros n x Hx. unfold filled_to. replace ((0 <=? x) && (x <? n)) with true by lia. reflexivity. }
  split.
  - intros x Hx. exists 0. split; [apply T; exact Hx|lia].
  - intros x Hx. exists 0. split; [apply T; exact Hx|lia].
  - intros c k R Hk. exists 0. split; [|cbn [D start_first]; unfold two; rewrite Zdiv_0_l; reflexivity].
    unfold at_byte, part. destruct c; cbn [place fst snd init_first tls aux real bytes] in *; apply T; unfold sizeof_sr, sizeof_aux; lia.
  - split; reflexivity.
  - reflexivity.
Qed.
Lemma rep_later : exists s, init_later = Ok s /\ rep s start_later.
Proof.
  unfold init_later. cbn [tls aux].
  assert (T : forall n x, 0 <= x < n -> filled_to n 255 x = Some 255).
  { intros n x Hx. unfold filled_to. replace ((0 <=? x) && (x <? n)) with true by lia. reflexivity. }
  set (t := filled_to sizeof_sr 255).
  set (t2 := upd (upd (upd (upd (upd (upd (upd t 32 255) 33 0) 8 0) 9 0) 0 0) 1 0) 34 0).
  exists (SR t2 (filled_to sizeof_aux 255)). split; [vm_compute; reflexivity|].
  assert (U : forall x, 0 <= x < 39 -> t2 x = Some (if (x =? 32) then 255 else if (x =? 33) || (x =? 34) || (x =? 8) || (x =? 9) || (x =? 0) || (x =? 1) then 0 else 255)).
  { intros x Hx. unfold t2, upd, t. rewrite T by (unfold sizeof_sr; lia).
    destruct (x =? 34) eqn:E34; [replace (x =? 32) with false by lia; rewrite orb_true_r; reflexivity|].
    destruct (x =? 1) eqn:E1; [replace (x =? 32) with false by lia; rewrite !orb_true_r; reflexivity|].
    destruct (x =? 0) eqn:E0; [replace (x =? 32) with false by lia; rewrite !orb_true_r; reflexivity|].
    destruct (x =? 9) eqn:E9; [replace (x =? 32) with false by lia; rewrite !orb_true_r; reflexivity|].
    destruct (x =? 8) eqn:E8; [replace (x =? 32) with false by lia; rewrite !orb_true_r; reflexivity|].
    destruct (x =? 33) eqn:E33; [replace (x =? 32) with false by lia; reflexivity|].
    destruct (x =? 32); reflexivity. }
  assert (T255 : forall k, 0 <= k -> two 255 (k mod 4) = 3).
  { intros k Hk. assert (C : k mod 4 = 0 \/ k mod 4 = 1 \/ k mod 4 = 2 \/ k mod 4 = 3) by lia.
    destruct C as [->|[->|[->| ->]]]; reflexivity. }
  split; cbn [tls aux D F H start_later].
  - intros x Hx. rewrite U by exact Hx. eexists. split; [reflexivity|]. destruct (x =? 32); [lia|].
    match goal with |- context [if ?b then 0 else 255] => destruct b end; lia.
  - intros x Hx. rewrite T by exact Hx. exists 255. split; [reflexivity|lia].
  - intros c k R Hk. unfold at_byte, part. destruct c; cbn [place fst snd real bytes tls aux] in *.
    + rewrite U by lia. eexists. split; [reflexivity|]. replace (2 * i + k / 4 =? 32) with false by lia.
      destruct ((i =? 0) || (i =? 4)) eqn:E.
      * match goal with |- context [if ?b then 0 else 255] => replace b with true by lia end.
        unfold two. rewrite Zdiv_0_l. reflexivity.
      * match goal with |- context [if ?b then 0 else 255] => replace b with false by lia end.
        symmetry. apply T255. lia.
    + rewrite T by (unfold sizeof_aux; lia). exists 255. split; [reflexivity|]. symmetry. apply T255. lia.
    + rewrite T by (unfold sizeof_aux; lia). exists 255. split; [reflexivity|]. symmetry. apply T255. lia.
    + rewrite T by (unfold sizeof_aux; lia). exists 255. split; [reflexivity|]. symmetry. apply T255. lia.
  - split; reflexivity.
  - reflexivity.
Qed.
