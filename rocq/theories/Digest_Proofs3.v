(** Proofs about MD5: pieces, padding and the digest. *)
From Verif Require Import Base Digest_Model Digest_Spec Digest_Proofs Digest_Proofs2.
Local Open Scope Z_scope.

Lemma tail_ok b h t rest :
  List.length b = 64%nat -> h = Z.of_nat (List.length t) -> firstn (List.length t) b = t ->
  (List.length t + List.length rest < 64)%nat ->
  exists b', (if negb (Z.of_nat (List.length rest) =? 0) then splice b h rest else Ok b) = Ok b' /\
    List.length b' = 64%nat /\ firstn (List.length (t ++ rest)) b' = t ++ rest.
Proof.
  intros L -> FT LT. rewrite app_length.
  destruct (Z.eqb_spec (Z.of_nat (List.length rest)) 0) as [E|N]; cbn [negb].
  - destruct rest; [|cbn in E; lia]. exists b. cbn [List.length]. rewrite Nat.add_0_r, app_nil_r. auto.
  - destruct (splice_ok b (Z.of_nat (List.length t)) rest) as (b' & E & L' & F'); auto; try lia.
    exists b'. rewrite Nat2Z.id in F'. rewrite F', FT. auto.
Qed.

Lemma count_ok n len :
  u64 (u64 (8 * n) + u64 (Z.shiftl len 3)) = u64 (8 * (n + len)).
Proof.
  rewrite Z.shiftl_mul_pow2 by lia. unfold u64. rewrite <- Z.add_mod by lia. f_equal. lia.
Qed.

Lemma update_ok c m x : stands c m -> exists c', update c x = Ok c' /\ stands c' (m ++ x).
Proof.
  intros (CN & LB & W & p & t & k & -> & P & TL & Q & FT).
  unfold update. rewrite CN, have_ok by lia.
  set (n := Z.of_nat (List.length (p ++ t))).
  assert (HV : n mod 64 = Z.of_nat (List.length t)).
  { unfold n. rewrite app_length, P. symmetry. apply Z.mod_unique with (Z.of_nat k); lia. }
  rewrite HV. rewrite count_ok.
  assert (CT : u64 (8 * (n + Z.of_nat (List.length x))) =
               u64 (8 * Z.of_nat (List.length ((p ++ t) ++ x)))).
  { unfold n. rewrite (app_length (p ++ t) x), Nat2Z.inj_add. reflexivity. }
  rewrite CT. clear CT HV CN n.
  destruct (Z.leb_spec (64 - Z.of_nat (List.length t)) (Z.of_nat (List.length x))) as [LE|GT].
  - (* there is a whole block *)
    assert (FIRST : exists st b input q j,
      (if negb (Z.of_nat (List.length t) =? 0)
       then
        let* b :=
          splice (buffer c) (Z.of_nat (List.length t))
            (firstn (Z.to_nat (64 - Z.of_nat (List.length t))) x) in
        Ok (transform (state c) b, b, skipn (Z.to_nat (64 - Z.of_nat (List.length t))) x, 0)
       else Ok (state c, buffer c, x, Z.of_nat (List.length t))) = Ok (st, b, input, 0) /\
      (p ++ t) ++ x = q ++ input /\ List.length q = (64 * j)%nat /\ all_words st /\
      quad_of st = chain q /\ List.length b = 64%nat).
    { destruct (Z.eqb_spec (Z.of_nat (List.length t)) 0) as [E|N]; cbn [negb].
      - destruct t; [|cbn in E; lia].
        exists (state c), (buffer c), x, p, k. rewrite app_nil_r. auto 10.
      - destruct (splice_ok (buffer c) (Z.of_nat (List.length t))
                    (firstn (Z.to_nat (64 - Z.of_nat (List.length t))) x)) as (b & E & L' & F'); auto.
        { lia. } { rewrite firstn_length. lia. }
        rewrite E. cbn [bind]. destruct (transform_ok (state c) b W) as [T1 T2].
        rewrite firstn_length, Nat2Z.id, FT in F'.
        rewrite (firstn_all2 b) in F' by lia.
        exists (transform (state c) b), b, (skipn (Z.to_nat (64 - Z.of_nat (List.length t))) x),
          (p ++ b), (S k).
        split; [reflexivity|]. split; [|split; [|split; [auto|split; [|auto]]]].
        + rewrite F', <- !app_assoc. now rewrite firstn_skipn.
        + rewrite app_length, P, L'. lia.
        + rewrite T1, Q. symmetry. now apply (chain_snoc _ _ k). }
    destruct FIRST as (st & b & input & q & j & E & EM & QL & W' & Q' & LB'). rewrite E.
    cbn [bind]. rewrite EM.
    destruct (blocks_ok (List.length input) st input q j) as
      (st' & y & rest & i & BE & IE & YL & RL & W2 & Q2); auto.
    rewrite BE. cbn [bind fst snd].
    destruct (tail_ok b 0 [] rest) as (b' & E' & L2 & F2); auto.
    rewrite E'. cbn [bind]. eexists. split; [reflexivity|].
    split; [reflexivity|]. split; [auto|]. split; [auto|].
    exists (q ++ y), rest, (j + i)%nat. cbn [state buffer]. split; [|split; [|auto]].
    + rewrite IE. apply app_assoc.
    + rewrite app_length, QL, YL. lia.
  - cbn [bind].
    destruct (tail_ok (buffer c) (Z.of_nat (List.length t)) t x) as (b' & E' & L2 & F2); auto.
    { lia. }
    rewrite E'. cbn [bind]. eexists. split; [reflexivity|].
    split; [reflexivity|]. split; [auto|]. split; [auto|].
    exists p, (t ++ x), k. cbn [state buffer]. split; [|split; [|split; [|auto]]]; auto.
    + symmetry. apply app_assoc.
    + rewrite app_length. lia.
Qed.

Lemma init_ok buf : List.length buf = 64%nat -> stands (init buf) [].
Proof.
  intros L. split; [reflexivity|]. split; [auto|]. split.
  - unfold all_words, wrd, init. cbn [state ra rb rc rd]. lia.
  - exists [], [], 0%nat. do 3 (split; [try reflexivity; cbn; lia|]). split; reflexivity.
Qed.

Lemma updates_ok l : forall c m, stands c m ->
  exists c', updates c l = Ok c' /\ stands c' (m ++ concat l).
Proof.
  induction l as [|x l IH]; intros c m S; cbn [updates concat].
  { rewrite app_nil_r. eauto. }
  destruct (update_ok c m x S) as (c1 & E & S1). rewrite E. cbn [bind].
  destruct (IH c1 _ S1) as (c2 & E2 & S2). rewrite app_assoc. eauto.
Qed.

(** ** The end *)

Lemma put_little n : forall v, put_le n v = little n v.
Proof.
  induction n as [|n IH]; intros v; [reflexivity|].
  cbn [little]. rewrite <- IH. unfold put_le. cbn [seq map]. f_equal.
  rewrite <- seq_shift, map_map. apply map_ext. intros i.
    rewrite !Z.shiftr_div_pow2 by lia. f_equal.
    change 256 with (2 ^ 8). rewrite Z.div_div by (try apply Z.pow_pos_nonneg; lia).
    rewrite <- Z.pow_add_r by lia. f_equal. f_equal. lia.
Qed.

Lemma firstn_repeat {T} (v : T) : forall k n, (k <= n)%nat -> firstn k (repeat v n) = repeat v k.
Proof.
  induction k as [|k IH]; intros n L; [reflexivity|]. destruct n; [lia|]. cbn. f_equal. apply IH. lia.
Qed.

Lemma little_length n : forall v, List.length (little n v) = n.
Proof. induction n; intros v; cbn [little List.length]; auto. Qed.

Lemma pad_ok c m : stands c m -> exists c', pad c = Ok c' /\ stands c' (padded m).
Proof.
  intros ST. assert (CN : count c = u64 (8 * Z.of_nat (List.length m))) by apply ST.
  unfold pad. rewrite CN, have_ok by lia. rewrite put_little.
  set (n := Z.of_nat (List.length m)) in *.
  pose proof (Z.mod_pos_bound n 64 ltac:(lia)) as B.
  set (padlen := if 64 - n mod 64 <? 9 then 64 - n mod 64 + 64 else 64 - n mod 64).
  assert (PL : padlen - 8 = 1 + (55 - n) mod 64 /\ 0 <= (55 - n) mod 64 < 64).
  { split; [|apply Z.mod_pos_bound; lia]. unfold padlen.
    pose proof (Z.div_mod n 64 ltac:(lia)) as DM.
    destruct (Z.ltb_spec (64 - n mod 64) 9).
    - assert (E : 119 - n mod 64 = (55 - n) mod 64); [|lia].
      apply Z.mod_unique with (- (n / 64) - 1); lia.
    - assert (E : 55 - n mod 64 = (55 - n) mod 64); [|lia].
      apply Z.mod_unique with (- (n / 64)); lia. }
  destruct PL as [PL PB]. destruct (Z.leb_spec (padlen - 8) 64); [|lia].
  assert (FP : firstn (Z.to_nat (padlen - 8)) PADDING = [128] ++ repeat 0 (zeros n)).
  { rewrite PL. unfold zeros, PADDING.
    replace (Z.to_nat (1 + (55 - n) mod 64)) with (S (Z.to_nat ((55 - n) mod 64))) by lia.
    cbn [firstn List.app]. f_equal. apply firstn_repeat. lia. }
  rewrite FP. destruct (update_ok c m ([128] ++ repeat 0 (zeros n)) ST) as (c1 & E1 & S1). rewrite E1. cbn [bind].
  destruct (update_ok c1 _ (little 8 (u64 (8 * n))) S1) as (c2 & E2 & S2).
  exists c2. split; [exact E2|]. unfold padded. fold n. unfold u64 in S2.
  rewrite <- !app_assoc in S2. exact S2.
Qed.

Lemma padded_length m : exists k, List.length (padded m) = (64 * k)%nat.
Proof.
  unfold padded. set (n := Z.of_nat (List.length m)).
  rewrite !app_length, repeat_length, little_length. cbn [List.length].
  pose proof (Z.mod_pos_bound (55 - n) 64 ltac:(lia)) as B.
  pose proof (Z.div_mod (55 - n) 64 ltac:(lia)) as DM.
  exists (Z.to_nat (1 - (55 - n) / 64)). unfold zeros. subst n. lia.
Qed.

Lemma final_ok c m : stands c m -> final c = Ok (md5 m).
Proof.
  intros S. unfold final. destruct (pad_ok c m S) as (c' & E & (_ & _ & _ & p & t & k & EM & P & TL & Q & _)).
  rewrite E. cbn [bind]. unfold md5.
  destruct (padded_length m) as [k' PK].
  assert (T0 : t = []).
  { rewrite EM, app_length, P in PK. destruct t; auto. cbn [List.length] in *. lia. }
  subst t. rewrite app_nil_r in EM. rewrite EM, <- Q. unfold quad_of. now rewrite !put_little.
Qed.

Lemma pieces buf l : List.length buf = 64%nat ->
  (let* c := updates (init buf) l in final c) = Ok (md5 (concat l)).
Proof.
  intros L. destruct (updates_ok l _ _ (init_ok buf L)) as (c & E & S).
  rewrite E. cbn [bind]. apply final_ok, S.
Qed.

Lemma region buf m : List.length buf = 64%nat -> get_md5_for_region buf m = Ok (md5 m).
Proof.
  intros L. unfold get_md5_for_region.
  destruct (Z.eqb_spec (Z.of_nat (List.length m)) 0) as [E|N]; cbn [negb bind].
  - destruct m; [|cbn in E; lia]. apply final_ok, init_ok, L.
  - destruct (update_ok _ _ m (init_ok buf L)) as (c & E & S). rewrite E. cbn [bind].
    apply final_ok, S.
Qed.
