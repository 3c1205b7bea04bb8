(** Proofs about MD5. *)
From Verif Require Import Base Digest_Model Digest_Spec Digest_Proofs.
Local Open Scope Z_scope.

(** ** One step *)

Lemma not_u32 x : wrd x -> u32 (Z.lnot x) = not x.
Proof.
  intros W. unfold u32, not, mask, Z.lnot, wrd in *. symmetry.
  apply Z.mod_unique with (-1); lia.
Qed.

Lemma not_bit x n : wrd x -> 0 <= n -> Z.testbit (not x) n = (n <? 32) && negb (Z.testbit x n).
Proof.
  intros W N. rewrite <- not_u32 by auto. unfold u32.
  destruct (Z.ltb_spec n 32); cbn [andb].
  - rewrite Z.mod_pow2_bits_low by lia. apply Z.lnot_spec. auto.
  - apply Z.mod_pow2_bits_high. lia.
Qed.

Lemma word_bit x n : wrd x -> 32 <= n -> Z.testbit x n = false.
Proof. rewrite word_bits. intros [_ B]. apply B. Qed.

Ltac bitwise :=
  apply Z.bits_inj'; intros n Hn;
  rewrite ?Z.lxor_spec, ?Z.land_spec, ?Z.lor_spec, ?Z.land_spec, ?Z.lxor_spec, ?not_bit by auto;
  destruct (Z.ltb_spec n 32); cbn [andb];
  [repeat match goal with |- context [Z.testbit ?a n] => destruct (Z.testbit a n) end; reflexivity
  |rewrite ?word_bit by auto; reflexivity].

Lemma app_F x y z : wrd x -> wrd y -> wrd z -> app F1 x y z = F x y z.
Proof. intros. unfold app, f1, F. bitwise. Qed.
Lemma app_G x y z : wrd x -> wrd y -> wrd z -> app F2 x y z = G x y z.
Proof. intros. unfold app, f1, G. bitwise. Qed.
Lemma app_H x y z : app F3 x y z = H x y z.
Proof. unfold app, H. apply Z.lxor_assoc. Qed.
Lemma app_I x y z : wrd z -> app F4 x y z = I x y z.
Proof. intros. unfold app, I. now rewrite not_u32. Qed.

Lemma u32_word x : wrd (u32 x).
Proof. apply Z.mod_pos_bound. lia. Qed.

Lemma rot_ok v s : wrd v -> 0 <= s <= 32 ->
  Z.lor (u32 (Z.shiftl v s)) (Z.shiftr v (32 - s)) = rot v s.
Proof.
  intros W S. unfold rot, u32. rewrite Z.shiftl_mul_pow2, Z.shiftr_div_pow2 by lia.
  rewrite <- Z.lxor_lor, <- Z.add_nocarry_lxor; auto;
  apply Z.bits_inj'; intros n Hn; rewrite Z.land_spec, Z.bits_0;
  rewrite <- Z.shiftl_mul_pow2, <- Z.shiftr_div_pow2 by lia;
  (destruct (Z.lt_ge_cases n s);
   [destruct (Z.lt_ge_cases n 32);
    [rewrite Z.mod_pow2_bits_low, Z.shiftl_spec_low by lia; reflexivity
    |rewrite Z.mod_pow2_bits_high by lia; reflexivity]
   |rewrite Z.shiftr_spec, (word_bit v (n + (32 - s))) by (auto; lia); apply andb_false_r]).
Qed.

(** The registers in the order of the operation. *)
Definition view (i : nat) (r : regs) : quad :=
  match (i mod 4)%nat with
  | 0%nat => (ra r, rb r, rc r, rd r)
  | 1%nat => (rd r, ra r, rb r, rc r)
  | 2%nat => (rc r, rd r, ra r, rb r)
  | _ => (rb r, rc r, rd r, ra r)
  end.

Definition all_words (r : regs) : Prop := wrd (ra r) /\ wrd (rb r) /\ wrd (rc r) /\ wrd (rd r).

Definition fn_of (i : nat) : fn := nth (i / 16) [F1; F2; F3; F4] F1.
Definition mkop (i : nat) (t : Z) : op :=
  match (i mod 4)%nat with
  | 0%nat => Op (fn_of i) A B C D (word i) t (shift i)
  | 1%nat => Op (fn_of i) D A B C (word i) t (shift i)
  | 2%nat => Op (fn_of i) C D A B (word i) t (shift i)
  | _ => Op (fn_of i) B C D A (word i) t (shift i)
  end.

Lemma fn_ok i x y z : (i < 64)%nat -> wrd x -> wrd y -> wrd z ->
  app (fn_of i) x y z = func i x y z.
Proof.
  intros L X Y Z0. unfold fn_of, func.
  assert (D : (i / 16 < 4)%nat) by (apply Nat.div_lt_upper_bound; lia).
  destruct (i / 16)%nat as [|[|[|[|]]]]; cbn [nth]; try lia;
    [apply app_F|apply app_G|apply app_H|apply app_I]; auto.
Qed.

Lemma shift_ok i : (i < 64)%nat -> 0 <= shift i <= 32.
Proof.
  intros L. unfold shift.
  assert (D : (i / 16 < 4)%nat) by (apply Nat.div_lt_upper_bound; lia).
  assert (M : (i mod 4 < 4)%nat) by (apply Nat.mod_upper_bound; lia).
  destruct (i / 16)%nat as [|[|[|[|]]]]; try lia; cbn [nth];
    (destruct (i mod 4)%nat as [|[|[|[|]]]]; cbn [nth]; lia).
Qed.

(** What one line computes, whatever registers it is about. *)
Lemma value i x t a b c d : (i < 64)%nat -> wrd b -> wrd c -> wrd d ->
  (let v := u32 (a + u32 (app (fn_of i) b c d + u32 (nth (word i) x 0 + t))) in
   u32 (Z.lor (u32 (Z.shiftl v (shift i))) (Z.shiftr v (32 - shift i)) + b)) =
  plus b (rot (plus (plus a (func i b c d)) (plus (nth (word i) x 0) t)) (shift i)).
Proof.
  intros L B C D. cbn zeta. rewrite fn_ok, rot_ok by auto using u32_word, shift_ok.
  assert (E : forall f y, u32 (a + u32 (f + u32 (y + t))) = plus (plus a f) (plus y t)).
  { intros f y. unfold u32, plus.
    rewrite (Z.add_mod_idemp_r a (f + (y + t) mod 2 ^ 32)) by lia.
    rewrite Z.add_assoc, (Z.add_mod_idemp_l (a + f)) by lia. reflexivity. }
  rewrite E. unfold u32. rewrite Z.add_comm. reflexivity.
Qed.

Lemma succ_mod i k q : (i = 4 * q + k)%nat -> (k < 3)%nat -> (S i mod 4 = S k)%nat.
Proof. intros -> K. symmetry. apply Nat.mod_unique with q; lia. Qed.
Lemma succ_mod3 i q : (i = 4 * q + 3)%nat -> (S i mod 4 = 0)%nat.
Proof. intros ->. symmetry. apply Nat.mod_unique with (S q); lia. Qed.

Lemma step_words x i t r : all_words r -> all_words (step x (mkop i t) r).
Proof.
  intros (WA & WB & WC & WD). unfold mkop.
  destruct (i mod 4)%nat as [|[|[|]]]; unfold all_words; cbn [step set ra rb rc rd];
    auto using u32_word.
Qed.

Lemma step_view x i r : (i < 64)%nat -> all_words r ->
  view (S i) (step x (mkop i (T (S i))) r) = operation x (view i r) i.
Proof.
  intros L (WA & WB & WC & WD).
  pose proof (Nat.div_mod i 4 ltac:(lia)) as DM. pose proof (Nat.mod_upper_bound i 4 ltac:(lia)) as UB4.
  unfold operation. remember (T (S i)) as t eqn:ET. clear ET.
  unfold mkop, view.
  destruct (i mod 4)%nat as [|[|[|[|]]]]; [| | | |lia];
    [rewrite (succ_mod i 0 _ DM ltac:(lia))|rewrite (succ_mod i 1 _ DM ltac:(lia))
    |rewrite (succ_mod i 2 _ DM ltac:(lia))|rewrite (succ_mod3 i _ DM)];
    cbn [step set get ra rb rc rd]; rewrite value by auto; reflexivity.
Qed.

(** ** The program *)

Definition next (p : Z * Z) : Z * Z :=
  ((fst p * cos1 + snd p * sin1) / ONE, (snd p * cos1 - fst p * sin1) / ONE).
Fixpoint iterates (n : nat) (p : Z * Z) : list (Z * Z) :=
  match n with O => [] | S n' => p :: iterates n' (next p) end.

Lemma iterates_ok n : forall k, iterates n (sincos k) = map sincos (seq k n).
Proof.
  induction n as [|n IH]; intros k; cbn [iterates seq map]; auto. f_equal. rewrite <- IH. f_equal.
  cbn [sincos]. unfold next. destruct (sincos k). reflexivity.
Qed.

Definition op_eqb (o p : op) : bool :=
  let 'Op f w x y z k c s := o in
  let 'Op f' w' x' y' z' k' c' s' := p in
  let nf f := match f with F1 => 1 | F2 => 2 | F3 => 3 | F4 => 4 end in
  let nr r := match r with A => 1 | B => 2 | C => 3 | D => 4 end in
  (nf f =? nf f') && (nr w =? nr w') && (nr x =? nr x') && (nr y =? nr y') && (nr z =? nr z') &&
  Nat.eqb k k' && (c =? c') && (s =? s').

Lemma program_ok : program = map (fun i => mkop i (T (S i))) (seq 0 64).
Proof.
  assert (E : map (fun i => mkop i (T (S i))) (seq 0 64) =
              map (fun q => mkop (fst q) (Z.abs (fst (snd q)) * 2 ^ 32 / ONE))
                  (combine (seq 0 64) (iterates 64 (next (sincos 0))))).
  { change (next (sincos 0)) with (sincos 1). rewrite iterates_ok.
    rewrite <- seq_shift, map_map. generalize (seq 0 64) as l.
    induction l as [|i l IH]; cbn [map combine]; auto. f_equal. exact IH. }
  rewrite E. vm_compute. reflexivity.
Qed.

Lemma run_view x n : forall i r, (i + n <= 64)%nat -> all_words r ->
  let r' := fold_left (fun s o => step x o s) (map (fun i => mkop i (T (S i))) (seq i n)) r in
  view (i + n) r' = fold_left (operation x) (seq i n) (view i r) /\ all_words r'.
Proof.
  induction n as [|n IH]; intros i r L W; cbn [seq map fold_left].
  { rewrite Nat.add_0_r. auto. }
  rewrite <- (step_view x i r) by (auto; lia).
  replace (i + S n)%nat with (S i + n)%nat by lia. apply IH; [lia|]. now apply step_words.
Qed.

(** ** Blocks *)

Definition quad_of (r : regs) : quad := (ra r, rb r, rc r, rd r).

Lemma nth_skip {T} (d : T) : forall n l k, nth k (skipn n l) d = nth (n + k) l d.
Proof.
  induction n as [|n IH]; intros l k; [reflexivity|].
  destruct l; cbn [skipn]; [destruct (S n + k)%nat, k; reflexivity|]. apply IH.
Qed.

Lemma words_nth n : forall l k, (k < n)%nat -> nth k (words n l) 0 = word_at l k.
Proof.
  induction n as [|n IH]; intros l k K; [lia|]. cbn [words].
  destruct k as [|k]; cbn [nth].
  - unfold word_at. cbn [Nat.mul Nat.add]. lia.
  - rewrite IH by lia. unfold word_at. rewrite !nth_skip.
    replace (4 * S k)%nat with (4 + 4 * k)%nat by lia.
    rewrite !Nat.add_assoc. reflexivity.
Qed.

Lemma words_length n : forall l, List.length (words n l) = n.
Proof. induction n; intros l; cbn [words List.length]; auto. Qed.

Lemma words_ok l : words 16 l = map (word_at l) (seq 0 16).
Proof.
  apply (nth_ext _ _ 0 0).
  - now rewrite words_length, map_length, seq_length.
  - intros k K. rewrite words_length in K. rewrite words_nth by auto.
    rewrite (nth_indep _ 0 (word_at l 0)) by now rewrite map_length, seq_length.
    rewrite map_nth, seq_nth by auto. reflexivity.
Qed.

Lemma transform_ok st b : all_words st ->
  quad_of (transform st b) = compress (quad_of st) b /\ all_words (transform st b).
Proof.
  intros W. unfold transform, compress. rewrite program_ok, words_ok.
  destruct (run_view (map (word_at b) (seq 0 16)) 64 0 st) as [V _]; auto.
  cbn zeta in V. change (view 0 st) with (quad_of st) in V. rewrite <- V.
  set (r := fold_left _ _ st). change (view (0 + 64) r) with (quad_of r).
  unfold quad_of. cbn [ra rb rc rd]. split; [reflexivity|]. repeat split; apply u32_word.
Qed.

(** ** Chains of blocks *)

Lemma firstn_skipn_app {T} n k (a b : list T) : (n + k <= List.length a)%nat ->
  firstn k (skipn n (a ++ b)) = firstn k (skipn n a).
Proof.
  intros L. rewrite skipn_app, firstn_app, skipn_length.
  replace (k - (List.length a - n))%nat with 0%nat by lia. cbn. apply app_nil_r.
Qed.

Lemma fold_ext {A B} (f g : A -> B -> A) l :
  (forall q i, In i l -> f q i = g q i) -> forall q, fold_left f l q = fold_left g l q.
Proof.
  induction l as [|i l IH]; intros E q; cbn [fold_left]; auto.
  rewrite E by (left; auto). apply IH. intros; apply E. now right.
Qed.

Definition start : quad := (1732584193, 4023233417, 2562383102, 271733878).
Lemma chain_eq m :
  chain m = fold_left (fun q i => compress q (block m i)) (seq 0 (List.length m / 64)) start.
Proof. reflexivity. Qed.

Strategy opaque [compress start].

Lemma chain_snoc p b k : List.length p = (64 * k)%nat -> List.length b = 64%nat ->
  chain (p ++ b) = compress (chain p) b.
Proof.
  intros P B.
  assert (BL : block (p ++ b) k = b).
  { unfold block. rewrite skipn_app, P, Nat.sub_diag.
    rewrite (skipn_all2 p) by lia. cbn [skipn List.app]. apply firstn_all2. lia. }
  rewrite !chain_eq, app_length, P, B.
  replace (64 * k + 64)%nat with (S k * 64)%nat by lia.
  replace (64 * k)%nat with (k * 64)%nat by lia.
  rewrite !Nat.div_mul by lia. rewrite seq_S, fold_left_app. cbn [fold_left Nat.add]. rewrite BL.
  rewrite (fold_ext _ (fun q i => compress q (block p i))); [reflexivity|].
  intros q i IN. apply in_seq in IN. unfold block. rewrite firstn_skipn_app; [reflexivity|lia].
Qed.

(** The context stands for the message m. *)
Definition stands (c : context) (m : list Z) : Prop :=
  count c = u64 (8 * Z.of_nat (List.length m)) /\ List.length (buffer c) = 64%nat /\
  all_words (state c) /\
  exists p t k, m = p ++ t /\ List.length p = (64 * k)%nat /\ (List.length t < 64)%nat /\
    quad_of (state c) = chain p /\ firstn (List.length t) (buffer c) = t.

Lemma have_ok n : 0 <= n -> Z.land (Z.shiftr (u64 (8 * n)) 3) 63 = n mod 64.
Proof.
  intros N. unfold u64. change 63 with (Z.ones 6). rewrite Z.land_ones, Z.shiftr_div_pow2 by lia.
  change (2 ^ 64) with (8 * 2 ^ 61). rewrite Z.mul_mod_distr_l by lia.
  change (2 ^ 3) with 8. rewrite Z.mul_comm, Z.div_mul by lia.
  symmetry. change (2 ^ 6) with 64. rewrite (Z.div_mod n (2 ^ 61)) at 1 by lia.
  replace (2 ^ 61 * (n / 2 ^ 61)) with ((2 ^ 55 * (n / 2 ^ 61)) * 64) by lia.
  rewrite Z.add_comm. apply Z.mod_add. lia.
Qed.

Lemma blocks_ok fuel : forall st input p k,
  (List.length input <= fuel)%nat -> all_words st -> List.length p = (64 * k)%nat ->
  quad_of st = chain p ->
  exists st' x rest j, blocks fuel st input = Ok (st', rest) /\ input = x ++ rest /\
    List.length x = (64 * j)%nat /\ (List.length rest < 64)%nat /\ all_words st' /\
    quad_of st' = chain (p ++ x).
Proof.
  induction fuel as [|n IH]; intros st input p k L W P Q; cbn [blocks].
  - destruct input; [|cbn in L; lia].
    exists st, [], [], 0%nat. rewrite (app_nil_r p). do 3 (split; [reflexivity|]).
    split; [cbn; lia|]. split; auto.
  - destruct (Z.leb_spec 64 (Z.of_nat (List.length input))) as [LE|GT].
    + destruct (transform_ok st (firstn 64 input) W) as [T1 T2].
      destruct (IH (transform st (firstn 64 input)) (skipn 64 input) (p ++ firstn 64 input) (S k))
        as (st' & x & rest & j & E & IE & XL & RL & W' & Q'); auto.
      * rewrite skipn_length. lia.
      * rewrite app_length, firstn_length, P. lia.
      * rewrite T1, Q. symmetry. apply (chain_snoc _ _ k); auto. rewrite firstn_length. lia.
      * exists st', (firstn 64 input ++ x), rest, (S j). rewrite <- app_assoc in Q'.
        split; auto. split; [|split; [|auto]].
        -- rewrite <- app_assoc, <- IE. symmetry. apply firstn_skipn.
        -- rewrite app_length, firstn_length, XL. lia.
    + exists st, [], input, 0%nat. rewrite (app_nil_r p). do 3 (split; [reflexivity|]).
      split; [lia|]. split; auto.
Qed.

Lemma splice_ok buf at_ data :
  List.length buf = 64%nat -> 0 <= at_ -> at_ + Z.of_nat (List.length data) <= 64 ->
  exists b, splice buf at_ data = Ok b /\ List.length b = 64%nat /\
    firstn (Z.to_nat at_ + List.length data) b = firstn (Z.to_nat at_) buf ++ data.
Proof.
  intros L A0 F0. unfold splice. rewrite L.
  destruct (Z.leb_spec (at_ + Z.of_nat (List.length data)) (Z.of_nat 64)); [|lia].
  eexists. split; [reflexivity|].
  assert (LF : List.length (firstn (Z.to_nat at_) buf) = Z.to_nat at_) by (rewrite firstn_length; lia).
  split.
  - rewrite !app_length, LF, skipn_length. lia.
  - rewrite app_assoc, firstn_app, app_length, LF.
    rewrite Nat.sub_diag. cbn [firstn]. rewrite app_nil_r.
    apply firstn_all2. rewrite app_length, LF. lia.
Qed.
