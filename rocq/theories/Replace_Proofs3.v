(** string copies, concatenation, substring search *)
From Verif Require Import Base Mem Replace_Model Replace_Spec Replace_Proofs1 Replace_Proofs2.
Open Scope Z_scope.
Arguments Z.mul : simpl never.
Arguments Z.add : simpl never.
Arguments Z.sub : simpl never.

Lemma loadn_ext w : forall m m' a, (forall x, a <= x < a + Z.of_nat w -> m' x = m x) ->
  loadn w m' a = loadn w m a.
Proof.
  induction w as [|w IH]; intros m m' a H; cbn [loadn]; auto.
  rewrite H by lia. destruct (m a); auto. rewrite (IH m m'); auto. intros x X. apply H. lia.
Qed.
Lemma loadn_is_mapped w : forall m a v, loadn w m a = Ok v -> mapped m a (Z.of_nat w).
Proof.
  induction w as [|w IH]; intros m a v H x X; [lia|]. cbn [loadn] in H.
  destruct (m a) eqn:E; [|discriminate]. apply bind_ok in H. destruct H as (r&H&_).
  destruct (Z.eq_dec x a) as [->|]; [congruence|]. apply (IH _ _ _ H). lia.
Qed.
Lemma elems_mapped w m : forall l a, elems_at w m a l -> mapped m a (Z.of_nat w * Z.of_nat (length l)).
Proof.
  induction l as [|v l IH]; intros a H x X; cbn [length] in X; [lia|].
  destruct H as [H1 H2]. destruct (Z.lt_ge_cases x (a + Z.of_nat w)).
  - apply (loadn_is_mapped _ _ _ _ H1). lia.
  - apply (IH _ H2). lia.
Qed.
Lemma elems_ext w m m' : forall l a,
  (forall x, a <= x < a + Z.of_nat w * Z.of_nat (length l) -> m' x = m x) ->
  elems_at w m a l -> elems_at w m' a l.
Proof.
  induction l as [|v l IH]; intros a H E; cbn; auto. destruct E as [E1 E2]. cbn [length] in H. split.
  - rewrite (loadn_ext w m m'); auto. intros x X. apply H. nia.
  - apply IH; auto. intros x X. apply H. nia.
Qed.

Lemma strcpy_gen w m0 dst src s0 : mem_ok m0 -> is_str w m0 src s0 ->
  let n := Z.of_nat w * (Z.of_nat (length s0) + 1) in
  disjoint dst n src n -> mapped m0 dst n ->
  forall s p fuel m, s0 = p ++ s -> copied m0 m dst src (Z.of_nat w * Z.of_nat (length p)) ->
  (length s < fuel)%nat ->
  exists m', strcpy_loop w fuel m (dst + Z.of_nat w * Z.of_nat (length p)) (src + Z.of_nat w * Z.of_nat (length p))
      = Ok (m', dst + Z.of_nat w * Z.of_nat (length s0)) /\ copied m0 m' dst src n.
Proof.
  intros MO [N H] n D Md.
  assert (Ms : mapped m0 src n).
  { replace n with (Z.of_nat w * Z.of_nat (length (s0 ++ [0]))). apply elems_mapped; auto.
    rewrite app_length. cbn. lia. }
  induction s as [|v s IH]; intros p fuel m E C L; (destruct fuel as [|fuel]; [lia|]); cbn [strcpy_loop].
  - rewrite app_nil_r in E. subst p.
    destruct (copy_step w m0 m dst src (Z.of_nat w * Z.of_nat (length s0)) n) as (v&m'&E1&E2&E3); auto; try (unfold n, disjoint in *; lia).
    assert (loadn w m (src + Z.of_nat w * Z.of_nat (length s0)) = Ok 0) as E0.
    { rewrite (loadn_ext w m0 m).
      - apply elems_app in H. apply (proj1 (proj2 H)).
      - intros x X. rewrite C. unfold n, disjoint in D. zcases; auto; exfalso; nia. }
    rewrite E1 in E0. injection E0 as ->. rewrite E1. cbn [bind]. change (0 =? 0) with true; cbv iota.
    rewrite E2. cbn [bind]. exists m'. split; auto.
    replace n with (Z.of_nat w * Z.of_nat (length s0) + Z.of_nat w) by (unfold n; lia). auto.
  - assert (LE : Z.of_nat (length s0) = Z.of_nat (length p) + 1 + Z.of_nat (length s)) by (subst s0; rewrite app_length; cbn [length]; lia).
    destruct (copy_step w m0 m dst src (Z.of_nat w * Z.of_nat (length p)) n) as (v'&m'&E1&E2&E3); auto; try (unfold n, disjoint in *; nia).
    assert (loadn w m (src + Z.of_nat w * Z.of_nat (length p)) = Ok v) as E0.
    { rewrite (loadn_ext w m0 m).
      - subst s0. rewrite <- app_assoc in H. apply elems_app in H. apply (proj1 (proj2 H)).
      - intros x X. rewrite C. unfold n, disjoint in D. zcases; auto; exfalso; nia. }
    rewrite E1 in E0. injection E0 as ->. rewrite E1. cbn [bind].
    destruct (Z.eqb_spec v 0) as [->|K]. { exfalso; apply N. subst s0. apply in_or_app; right; left; auto. }
    rewrite E2. cbn [bind].
    specialize (IH (p ++ [v]) fuel m'). rewrite app_length in IH. cbn [length] in IH.
    replace (Z.of_nat w * Z.of_nat (length p + 1)) with (Z.of_nat w * Z.of_nat (length p) + Z.of_nat w) in IH by lia.
    rewrite !Z.add_assoc in IH. apply IH.
    + subst s0. rewrite <- app_assoc. auto.
    + auto.
    + cbn in L; lia.
Qed.

Lemma strcpy_loop_ok w m dst src s fuel : mem_ok m -> is_str w m src s ->
  let n := Z.of_nat w * (Z.of_nat (length s) + 1) in
  disjoint dst n src n -> mapped m dst n -> (length s < fuel)%nat ->
  exists m', strcpy_loop w fuel m dst src = Ok (m', dst + Z.of_nat w * Z.of_nat (length s)) /\
    copied m m' dst src n.
Proof.
  intros MO H n D Md L.
  destruct (strcpy_gen w m dst src s MO H D Md s [] fuel m eq_refl) as (m'&E&C); auto.
  - cbn [length]. rewrite Z.mul_0_r. apply copied_0.
  - cbn [length] in E. rewrite Z.mul_0_r, !Z.add_0_r in E. eauto.
Qed.

(** the copied string is a string again *)
Lemma copied_str w m m' dst src s : is_str w m src s ->
  copied m m' dst src (Z.of_nat w * (Z.of_nat (length s) + 1)) -> is_str w m' dst s.
Proof.
  intros [N H] C. split; auto.
  set (n := Z.of_nat w * (Z.of_nat (length s) + 1)) in *.
  assert (G : forall l k, 0 <= k -> k + Z.of_nat w * Z.of_nat (length l) <= n ->
            elems_at w m (src + k) l -> elems_at w m' (dst + k) l).
  { induction l as [|v l IH]; intros k K0 K1 E; cbn; auto. destruct E as [E1 E2]. cbn [length] in K1. split.
    - assert (X : forall w' j, 0 <= j -> j + Z.of_nat w' <= n -> loadn w' m' (dst + j) = loadn w' m (src + j)).
      { induction w' as [|w' IHw]; intros j J0 J1; cbn [loadn]; auto.
        rewrite C. zcases; try lia. replace (src + (dst + j - dst)) with (src + j) by lia.
        rewrite <- !Z.add_assoc. rewrite IHw by lia. auto. }
      rewrite X by nia. auto.
    - rewrite <- Z.add_assoc in *. apply IH; auto; nia. }
  specialize (G (s ++ [0]) 0). rewrite !Z.add_0_r in G. apply G; auto; try lia.
  rewrite app_length. cbn. unfold n; lia.
Qed.

(** -- byte writes -- *)
Lemma wrote_nil m d : wrote m m d [].
Proof. intros x. cbn [length]. zcases; auto; lia. Qed.

Lemma wrote_step m0 m d p v : wrote m0 m d p -> 0 <= v < 256 ->
  m0 (d + Z.of_nat (length p)) <> None ->
  exists m', storen 1 m (d + Z.of_nat (length p)) v = Ok m' /\ wrote m0 m' d (p ++ [v]).
Proof.
  intros W V M. destruct (storen_spec 1 m (d + Z.of_nat (length p)) v) as (m'&E1&E2).
  { intros x X. assert (x = d + Z.of_nat (length p)) as -> by lia. rewrite W. zcases; auto; lia. }
  exists m'. split; auto. intros x. rewrite E2, app_length. cbn [length].
  destruct (Z.eq_dec x (d + Z.of_nat (length p))) as [->|NE].
  - zcases; try lia. replace (Z.to_nat (d + Z.of_nat (length p) - d)) with (length p) by lia.
    rewrite nth_error_app2, Nat.sub_diag by lia. cbn. rewrite Z.sub_diag. cbn.
    rewrite Z.div_1_r, Z.mod_small; auto.
  - rewrite W. zcases; try lia; auto. rewrite nth_error_app1 by lia. auto.
Qed.

Lemma wrote_outside m m' d l x : wrote m m' d l -> x < d \/ d + Z.of_nat (length l) <= x -> m' x = m x.
Proof. intros W H. rewrite W. zcases; auto; lia. Qed.

Lemma load1 m a v : mem_ok m -> loadn 1 m a = Ok v -> 0 <= v < 256.
Proof. intros MO H. apply (loadn_spec 1 m a v MO) in H. apply H. Qed.

Lemma strncpy_gen m0 dst src n : mem_ok m0 ->
  forall k l p m, is_bounded 1 m0 (src + Z.of_nat (length p)) k l ->
  wrote m0 m dst p ->
  disjoint dst n src (Z.of_nat (length p) + Z.of_nat (length l)) ->
  Z.of_nat (length p) + Z.of_nat (length (until0 l)) <= n -> mapped m0 dst n ->
  exists m', strncpy_loop m (dst + Z.of_nat (length p)) (src + Z.of_nat (length p)) k =
     Ok (m', dst + Z.of_nat (length p) + Z.of_nat (length (until0 l)), (k - length (until0 l))%nat) /\
    wrote m0 m' dst (p ++ until0 l).
Proof.
  intros MO. induction k as [|k IH]; intros l p m B W D K Md; cbn [strncpy_loop].
  - assert (l = []) as ->. { destruct B as [_ [(s&_&->&X)|(_&X)]]; [rewrite app_length in X; cbn in X; lia|]. apply length_zero_iff_nil; auto. }
    exists m. cbn. rewrite app_nil_r, Z.add_0_r. auto.
  - destruct l as [|v l]; [apply bounded_nil in B; lia|].
    assert (E0 : loadn 1 m0 (src + Z.of_nat (length p)) = Ok v) by apply B.
    assert (loadn 1 m (src + Z.of_nat (length p)) = Ok v) as ->.
    { rewrite (loadn_ext 1 m0 m); auto. intros x X. apply (wrote_outside _ _ _ _ _ W).
      unfold disjoint in D. cbn [length] in D. lia. }
    cbn [bind until0] in *. destruct (Z.eqb_spec v 0) as [->|NV].
    + exists m. cbn. rewrite app_nil_r, Z.add_0_r. auto.
    + cbn [length] in *. destruct (wrote_step m0 m dst p v W) as (m'&E1&W1).
      { apply (load1 m0 _ _ MO E0). } { apply Md. lia. }
      rewrite E1. cbn [bind]. apply bounded_cons in B; auto.
      destruct (IH l (p ++ [v]) m') as (m2&E2&W2); auto; rewrite ?app_length; cbn [length].
      * replace (src + Z.of_nat (length p + 1)) with (src + Z.of_nat (length p) + Z.of_nat 1) by lia. auto.
      * unfold disjoint in *. lia.
      * lia.
      * exists m2. rewrite app_length in E2. cbn [length] in E2. split.
        -- replace (dst + Z.of_nat (length p) + 1) with (dst + Z.of_nat (length p + 1)) by lia.
           replace (src + Z.of_nat (length p) + 1) with (src + Z.of_nat (length p + 1)) by lia.
           rewrite E2. f_equal. f_equal. f_equal. lia.
        -- rewrite <- app_assoc in W2. auto.
Qed.

Lemma zero_loop_ok m0 d : forall k p m, wrote m0 m d p ->
  mapped m0 d (Z.of_nat (length p) + Z.of_nat k) ->
  exists m', zero_loop m (d + Z.of_nat (length p)) k = Ok m' /\ wrote m0 m' d (p ++ repeat 0 k).
Proof.
  induction k as [|k IH]; intros p m W Md; cbn [zero_loop repeat].
  - exists m. rewrite app_nil_r. auto.
  - destruct (wrote_step m0 m d p 0 W) as (m'&E1&W1); [lia|apply Md; lia|].
    rewrite E1. cbn [bind]. destruct (IH (p ++ [0]) m' W1) as (m2&E2&W2).
    { rewrite app_length. cbn [length]. intros x X. apply Md. lia. }
    exists m2. rewrite app_length in E2. cbn [length] in E2.
    replace (d + Z.of_nat (length p) + 1) with (d + Z.of_nat (length p + 1)) by lia.
    rewrite <- app_assoc in W2. auto.
Qed.

Lemma until0_le l : (length (until0 l) <= length l)%nat.
Proof. induction l as [|v l IH]; cbn; auto. destruct (v =? 0); cbn; lia. Qed.
Lemma bounded_until0 w m a n l : is_bounded w m a n l -> (length (until0 l) <= n)%nat.
Proof.
  intros [_ H]. pose proof (until0_le l). destruct H as [(s&_&_&X)|(_&X)]; lia.
Qed.

Lemma strncpy_ok m dst src n l : mem_ok m -> is_bounded 1 m src n l ->
  disjoint dst (Z.of_nat n) src (Z.of_nat (length l)) -> mapped m dst (Z.of_nat n) ->
  exists m', replace_strncpy m dst src n = Ok (m', dst) /\
    wrote m m' dst (until0 l ++ repeat 0 (n - length (until0 l))).
Proof.
  intros MO B D Md. pose proof (bounded_until0 _ _ _ _ _ B) as LE. unfold replace_strncpy.
  destruct (strncpy_gen m dst src (Z.of_nat n) MO n l [] m) as (m1&E1&W1); auto; cbn [length]; rewrite ?Z.add_0_r; auto.
  { apply wrote_nil. } { lia. }
  cbn [length] in E1. rewrite !Z.add_0_r in E1. rewrite E1. cbn [bind app] in *.
  destruct (zero_loop_ok m dst (n - length (until0 l)) (until0 l) m1 W1) as (m2&E2&W2).
  { intros x X. apply Md. lia. }
  rewrite E2. cbn [bind]. eauto.
Qed.

(** wrote from copied, one byte wide *)
Lemma elems1_nth m a l i : elems_at 1 m a l -> (i < length l)%nat -> m (a + Z.of_nat i) = nth_error l i.
Proof.
  intros H L. destruct (nth_error l i) as [v|] eqn:E.
  - pose proof (elems_nth 1 m l a i v H E) as X. replace (Z.of_nat 1 * Z.of_nat i) with (Z.of_nat i) in X by lia.
    cbn [loadn] in X. destruct (m (a + Z.of_nat i)) as [b|]; [|discriminate]. cbn [bind] in X. injection X as <-.
    rewrite Z.mul_0_r, Z.add_0_r. auto.
  - apply nth_error_None in E. lia.
Qed.
Lemma copied_wrote m m' dst src l : elems_at 1 m src l -> copied m m' dst src (Z.of_nat (length l)) -> wrote m m' dst l.
Proof.
  intros H C x. rewrite C. zcases; auto.
  rewrite <- (elems1_nth m src l (Z.to_nat (x - dst)) H) by lia. f_equal. lia.
Qed.
Lemma wrote_elems m m' d l : wrote m m' d l -> elems_at 1 m' d l.
Proof.
  intros W.
  assert (G : forall s p, l = p ++ s -> elems_at 1 m' (d + Z.of_nat (length p)) s).
  { induction s as [|v s IH]; intros p E; cbn [elems_at]; auto. split.
    - cbn [loadn]. rewrite W. assert (length l = length p + S (length s))%nat by (subst l; rewrite app_length; auto).
      zcases; try lia. replace (Z.to_nat (d + Z.of_nat (length p) - d)) with (length p) by lia.
      subst l. rewrite nth_error_app2, Nat.sub_diag by lia. cbn. f_equal. lia.
    - replace (d + Z.of_nat (length p) + Z.of_nat 1) with (d + Z.of_nat (length (p ++ [v])))
        by (rewrite app_length; cbn [length]; lia).
      apply IH. rewrite <- app_assoc. auto. }
  specialize (G l [] eq_refl). cbn [length] in G. rewrite Z.add_0_r in G. auto.
Qed.

Lemma cat_str m m' dst s1 s2 : is_str 1 m dst s1 -> ~ In 0 s2 ->
  wrote m m' (dst + Z.of_nat (length s1)) (s2 ++ [0]) -> is_str 1 m' dst (s1 ++ s2).
Proof.
  intros [N1 H1] N2 W. split. { intros X. apply in_app_or in X. tauto. }
  rewrite <- app_assoc. apply elems_app. split.
  - apply elems_app in H1. apply (elems_ext 1 m m'); [|apply H1].
    intros x X. apply (wrote_outside _ _ _ _ _ W). left. lia.
  - replace (Z.of_nat 1 * Z.of_nat (length s1)) with (Z.of_nat (length s1)) by lia.
    eapply wrote_elems; eauto.
Qed.

Lemma strcat_ok m dst src s1 s2 fuel : mem_ok m -> is_str 1 m dst s1 -> is_str 1 m src s2 ->
  disjoint (dst + Z.of_nat (length s1)) (Z.of_nat (length s2) + 1) src (Z.of_nat (length s2) + 1) ->
  mapped m (dst + Z.of_nat (length s1)) (Z.of_nat (length s2) + 1) ->
  (length s1 < fuel)%nat -> (length s2 < fuel)%nat ->
  exists m', replace_strcat fuel m dst src = Ok (m', dst) /\
    wrote m m' (dst + Z.of_nat (length s1)) (s2 ++ [0]) /\ is_str 1 m' dst (s1 ++ s2).
Proof.
  intros MO H1 H2 D Md L1 L2. unfold replace_strcat. rewrite (strend_ok 1 m s1 dst fuel H1 L1). cbn [bind].
  replace (Z.of_nat 1 * Z.of_nat (length s1)) with (Z.of_nat (length s1)) by lia.
  destruct (strcpy_loop_ok 1 m (dst + Z.of_nat (length s1)) src s2 fuel MO H2) as (m'&E&C); auto.
  - replace (Z.of_nat 1 * (Z.of_nat (length s2) + 1)) with (Z.of_nat (length s2) + 1) by lia. auto.
  - intros x X. apply Md. lia.
  - rewrite E. cbn [bind]. exists m'. split; auto.
    assert (W : wrote m m' (dst + Z.of_nat (length s1)) (s2 ++ [0])).
    { eapply copied_wrote. apply H2. rewrite app_length. cbn [length].
      replace (Z.of_nat (length s2 + 1)) with (Z.of_nat 1 * (Z.of_nat (length s2) + 1)) by lia. auto. }
    split; auto. eapply cat_str; eauto. apply H2.
Qed.

Lemma until0_no0 l : ~ In 0 (until0 l).
Proof. induction l as [|v l IH]; cbn; auto. destruct (Z.eqb_spec v 0); cbn; auto. intros [X|X]; auto. Qed.

Lemma strncat_ok m dst src s1 l n fuel : mem_ok m -> is_str 1 m dst s1 -> is_bounded 1 m src n l ->
  let k := Z.of_nat (length (until0 l)) in
  disjoint (dst + Z.of_nat (length s1)) (k + 1) src (Z.of_nat (length l)) ->
  mapped m (dst + Z.of_nat (length s1)) (k + 1) ->
  (length s1 < fuel)%nat ->
  exists m', replace_strncat fuel m dst src n = Ok (m', dst) /\
    wrote m m' (dst + Z.of_nat (length s1)) (until0 l ++ [0]) /\ is_str 1 m' dst (s1 ++ until0 l).
Proof.
  intros MO H1 B k D Md L1. unfold replace_strncat. rewrite (strend_ok 1 m s1 dst fuel H1 L1). cbn [bind].
  replace (Z.of_nat 1 * Z.of_nat (length s1)) with (Z.of_nat (length s1)) by lia.
  set (d := dst + Z.of_nat (length s1)) in *.
  destruct (strncpy_gen m d src (k + 1) MO n l [] m) as (m1&E1&W1); auto; cbn [length]; rewrite ?Z.add_0_r; auto.
  { apply wrote_nil. } { unfold k; lia. }
  cbn [length app] in *. rewrite !Z.add_0_r in E1. rewrite E1. cbn [bind].
  destruct (wrote_step m m1 d (until0 l) 0 W1) as (m2&E2&W2); [lia|apply Md; unfold k; lia|].
  rewrite E2. cbn [bind]. exists m2. split; auto. split; auto.
  eapply cat_str; eauto. apply until0_no0.
Qed.

(** -- substring -- *)
Lemma str_load w m a s i : is_str w m a s -> (i <= length s)%nat ->
  loadn w m (a + Z.of_nat w * Z.of_nat i) = Ok (nth i s 0).
Proof.
  intros [N H] L. apply (elems_nth w m (s ++ [0])); auto.
  destruct (Nat.eq_dec i (length s)) as [->|NE].
  - rewrite nth_error_app2, Nat.sub_diag by lia. rewrite nth_overflow by lia. reflexivity.
  - rewrite nth_error_app1 by lia. apply nth_error_nth'. lia.
Qed.
Lemma str_nz w m a s i : is_str w m a s -> (i < length s)%nat -> nth i s 0 <> 0.
Proof. intros [N H] L E. apply N. rewrite <- E. apply nth_In. auto. Qed.

Definition occ (h nd : list Z) (i : nat) : Prop :=
  (i + length nd <= length h)%nat /\ forall k, (k < length nd)%nat -> nth (i + k) h 0 = nth k nd 0.
Lemma occ_iff h nd i : occurs_at h nd i <-> occ h nd i.
Proof.
  split.
  - intros (t1&t2&->&<-). split. { rewrite !app_length. lia. }
    intros k K. rewrite app_nth2 by lia. rewrite app_nth1 by lia. f_equal. lia.
  - revert h. induction i as [|i IH]; intros h [L H].
    + revert h L H. induction nd as [|v nd' IHn]; intros h L H.
      * exists [], h. auto.
      * destruct h as [|x h]; [cbn in L; lia|]. destruct (IHn h) as (t1&t2&E&T).
        { cbn in L; lia. } { intros k K. apply (H (S k)). cbn; lia. }
        destruct t1; [|discriminate]. cbn in E. exists [], t2. split; auto. cbn.
        f_equal; auto. apply (H 0%nat). cbn; lia.
    + destruct h as [|x h]; [cbn in L; lia|]. destruct (IH h) as (t1&t2&->&T).
      { split; [cbn in L; lia|]. intros k K. apply (H k K). }
      exists (x :: t1), t2. split; auto. cbn; lia.
Qed.

Section Strstr.
Variables (w : nat) (m : mem) (hay needle : Z) (h nd : list Z).
Hypothesis Hw : (0 < w)%nat.
Hypothesis Hh : is_str w m hay h.
Hypothesis Hn : is_str w m needle nd.
Hypothesis Hne : nd <> [].

Lemma nd_len : (0 < length nd)%nat.
Proof. destruct nd; [congruence|cbn; lia]. Qed.

Lemma strstr_gen : forall fuel st j,
  (j < length nd)%nat -> (st + j <= length h)%nat ->
  (forall k, (k < j)%nat -> nth (st + k) h 0 = nth k nd 0) ->
  (forall i, (i < st)%nat -> ~ occ h nd i) ->
  ((length h - st) * (length nd + 1) + (length nd - j) <= fuel)%nat ->
  exists r, strstr_loop w fuel m needle (hay + Z.of_nat w * Z.of_nat (st + j)) (needle + Z.of_nat w * Z.of_nat j) = Ok r /\
    find_sub w hay h nd r.
Proof.
  pose proof nd_len as NL.
  induction fuel as [|fuel IH]; intros st j J I P Q F.
  { exfalso. nia. }
  cbn [strstr_loop]. rewrite (str_load w m hay h (st + j) Hh I). cbn [bind].
  destruct (Z.eqb_spec (nth (st + j) h 0) 0) as [E|NE].
  { exists None. split; auto. intros i O. apply occ_iff in O.
    destruct (Nat.lt_ge_cases i st); [eapply Q; eauto|].
    destruct (Nat.eq_dec (st + j) (length h)).
    - destruct O as [O _]. lia.
    - apply (str_nz w m hay h (st + j)) in E; auto. lia. }
  assert (I2 : (st + j < length h)%nat).
  { destruct (Nat.lt_ge_cases (st + j) (length h)); auto. rewrite nth_overflow in NE; auto; lia. }
  rewrite (str_load w m needle nd j Hn) by lia. cbn [bind].
  destruct (Z.eqb_spec (nth (st + j) h 0) (nth j nd 0)) as [E|N1].
  - (* characters match *)
    cbn [negb andb]. rewrite (str_load w m hay h (st + j) Hh I), (str_load w m needle nd j Hn) by lia. cbn [bind].
    rewrite E, Z.eqb_refl.
    replace (needle + Z.of_nat w * Z.of_nat j + Z.of_nat w) with (needle + Z.of_nat w * Z.of_nat (S j)) by lia.
    rewrite (str_load w m needle nd (S j) Hn) by lia. cbn [bind].
    assert (P' : forall k, (k < S j)%nat -> nth (st + k) h 0 = nth k nd 0).
    { intros k K. destruct (Nat.eq_dec k j) as [->|]; auto. apply P; lia. }
    destruct (Z.eqb_spec (nth (S j) nd 0) 0) as [E0|N0].
    + assert (S j = length nd). { destruct (Nat.eq_dec (S j) (length nd)); auto. apply (str_nz w m needle nd (S j)) in E0; auto; try tauto; lia. }
      eexists. split; [reflexivity|]. cbn [find_sub]. exists st. repeat split.
      * apply occ_iff. split; [lia|]. intros k K. apply P'. lia.
      * intros i Li O. apply occ_iff in O. eapply Q; eauto.
      * lia.
    + assert (S j < length nd)%nat. { destruct (Nat.lt_ge_cases (S j) (length nd)); auto. rewrite nth_overflow in N0; lia. }
      replace (hay + Z.of_nat w * Z.of_nat (st + j) + Z.of_nat w) with (hay + Z.of_nat w * Z.of_nat (st + S j)) by lia.
      apply IH; auto; lia.
  - (* mismatch *)
    cbn [negb andb].
    assert (QQ : ~ occ h nd st). { intros [_ O]. apply N1. apply O; auto. }
    assert (Q' : forall i, (i < S st)%nat -> ~ occ h nd i).
    { intros i Li. destruct (Nat.eq_dec i st) as [->|]; auto. apply Q; lia. }
    destruct j as [|j].
    + replace (needle + Z.of_nat w * Z.of_nat 0) with needle in * by lia. rewrite Z.ltb_irrefl.
      rewrite (str_load w m hay h (st + 0) Hh I). cbn [bind].
      pose proof (str_load w m needle nd 0 Hn ltac:(lia)) as X. replace (needle + Z.of_nat w * Z.of_nat 0) with needle in X by lia.
      rewrite X. cbn [bind]. destruct (Z.eqb_spec (nth (st + 0) h 0) (nth 0 nd 0)); [congruence|].
      destruct (IH (S st) 0%nat) as (r&E&Fr); auto; try lia; try nia.
      exists r. split; auto.
      replace (needle + Z.of_nat w * Z.of_nat 0) with needle in E by lia.
      rewrite <- E. f_equal. lia.
    + assert (needle <? needle + Z.of_nat w * Z.of_nat (S j) = true) as -> by (apply Z.ltb_lt; nia).
      replace (hay + Z.of_nat w * Z.of_nat (st + S j) - (needle + Z.of_nat w * Z.of_nat (S j) - Z.of_nat w - needle))
        with (hay + Z.of_nat w * Z.of_nat (S st)) by lia.
      rewrite (str_load w m hay h (S st) Hh) by lia. cbn [bind].
      pose proof (str_load w m needle nd 0 Hn ltac:(lia)) as X. replace (needle + Z.of_nat w * Z.of_nat 0) with needle in X by lia.
      rewrite X. cbn [bind].
      destruct (Z.eqb_spec (nth (S st) h 0) (nth 0 nd 0)) as [E|N2].
      * replace (needle + Z.of_nat w) with (needle + Z.of_nat w * Z.of_nat 1) by lia.
        rewrite (str_load w m needle nd 1 Hn) by lia. cbn [bind].
        destruct (Z.eqb_spec (nth 1 nd 0) 0) as [E0|N0].
        { apply (str_nz w m needle nd 1) in E0; auto; try tauto; lia. }
        destruct (IH (S st) 1%nat) as (r&Er&Fr); auto; try lia.
        -- intros k K. assert (k = 0%nat) as -> by lia. rewrite Nat.add_0_r. auto.
        -- exists r. split; auto. rewrite <- Er. f_equal. lia.
      * destruct (IH (S (S st)) 0%nat) as (r&Er&Fr); auto; try lia.
        -- intros i Li. destruct (Nat.eq_dec i (S st)) as [->|]; [|apply Q'; lia].
           intros [_ O]. apply N2. rewrite <- (O 0%nat) by lia. f_equal. lia.
        -- exists r. split; auto. rewrite <- Er. f_equal; lia.
Qed.
End Strstr.

Lemma strstr_ok w m hay needle h nd fuel : (0 < w)%nat -> is_str w m hay h -> is_str w m needle nd ->
  ((length h + 1) * (length nd + 1) <= fuel)%nat ->
  exists r, replace_strstr w fuel m hay needle = Ok r /\ find_sub w hay h nd r.
Proof.
  intros W Hh Hn F. unfold replace_strstr.
  pose proof (str_load w m needle nd 0 Hn ltac:(lia)) as X. replace (needle + Z.of_nat w * Z.of_nat 0) with needle in X by lia.
  rewrite X. cbn [bind]. destruct nd as [|v nd].
  - cbn [nth]. change (0 =? 0) with true; cbv iota. eexists. split; [reflexivity|]. cbn. exists 0%nat. repeat split.
    + exists [], h. auto.
    + lia.
    + lia.
  - cbn [nth]. destruct (Z.eqb_spec v 0) as [->|N]. { exfalso. apply (proj1 Hn). left; auto. }
    destruct (strstr_gen w m hay needle h (v :: nd) W Hh Hn ltac:(discriminate) fuel 0 0) as (r&E&Fr); cbn [length] in *; try lia.
    replace (hay + Z.of_nat w * Z.of_nat (0 + 0)) with hay in E by lia.
    replace (needle + Z.of_nat w * Z.of_nat 0) with needle in E by lia. eauto.
Qed.

(** -- restriction of the memory to the entitled ranges -- *)
Lemma only_eq m rs a n x : In (a, n) rs -> a <= x < a + n -> only m rs x = m x.
Proof.
  intros I H. unfold only.
  assert (existsb (fun r => (fst r <=? x) && (x <? fst r + snd r)) rs = true) as ->; auto.
  apply existsb_exists. exists (a, n). split; auto. cbn. apply andb_true_intro; split; lia.
Qed.
Lemma only_elems w m rs a n l : In (a, n) rs -> Z.of_nat w * Z.of_nat (length l) <= n ->
  elems_at w m a l -> elems_at w (only m rs) a l.
Proof.
  intros I L E. apply (elems_ext w m); auto. intros x X. apply (only_eq m rs a n); auto. lia.
Qed.
Lemma only_str w m rs a s : In (a, Z.of_nat w * (Z.of_nat (length s) + 1)) rs ->
  is_str w m a s -> is_str w (only m rs) a s.
Proof.
  intros I [N E]. split; auto. eapply only_elems; eauto. rewrite app_length. cbn. lia.
Qed.
Lemma only_bounded w m rs a n l : In (a, Z.of_nat w * Z.of_nat (length l)) rs ->
  is_bounded w m a n l -> is_bounded w (only m rs) a n l.
Proof. intros I [E B]. split; auto. eapply only_elems; eauto. lia. Qed.
Lemma only_mapped m rs a n : In (a, n) rs -> mapped m a n -> mapped (only m rs) a n.
Proof. intros I M x X. rewrite (only_eq m rs a n); auto. Qed.
Lemma only_ok m rs : mem_ok m -> mem_ok (only m rs).
Proof. intros M a b H. unfold only in H. destruct (existsb _ _); [eauto|discriminate]. Qed.
