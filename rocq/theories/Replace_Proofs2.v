(** searching, length, comparison *)
From Verif Require Import Base Mem Replace_Model Replace_Spec.
Open Scope Z_scope.
Arguments Z.mul : simpl never.
Arguments Z.add : simpl never.
Arguments Z.sub : simpl never.

Lemma elems_app w m a l1 l2 : elems_at w m a (l1 ++ l2) <->
  elems_at w m a l1 /\ elems_at w m (a + Z.of_nat w * Z.of_nat (length l1)) l2.
Proof.
  revert a; induction l1 as [|v l1 IH]; intros a; cbn [app elems_at length].
  - rewrite Z.mul_0_r, Z.add_0_r. tauto.
  - rewrite IH. replace (a + Z.of_nat w + Z.of_nat w * Z.of_nat (length l1))
      with (a + Z.of_nat w * Z.of_nat (S (length l1))) by lia. tauto.
Qed.

Lemma elems_nth w m l : forall a i v, elems_at w m a l -> nth_error l i = Some v ->
  loadn w m (a + Z.of_nat w * Z.of_nat i) = Ok v.
Proof.
  induction l as [|x l IH]; intros a i v H E; destruct i; cbn [nth_error elems_at] in *; try discriminate.
  - injection E as ->. destruct H as [H _]. rewrite Z.mul_0_r, Z.add_0_r; auto.
  - destruct H as [_ H]. specialize (IH _ _ _ H E). rewrite <- IH. f_equal. lia.
Qed.

(** shift a find_first result by one element *)
Lemma find_first_cons w a c v l r : v <> c ->
  find_first w (a + Z.of_nat w) c l r -> find_first w a c (v :: l) r.
Proof.
  intros N. destruct r as [p|]; cbn.
  - intros (i&[H1 H2]&->). exists (S i). split; [split|]; auto; try lia.
    intros [|j] Hj; cbn; [congruence|]. apply H2. lia.
  - intros H [E|E]; auto.
Qed.
Lemma find_first_here w a c l : find_first w a c (c :: l) (Some a).
Proof. exists 0%nat. split; [split|]; cbn; auto; try lia. Qed.

Lemma memchr_ok w m c : forall l a size,
  elems_at w m a l -> (length l = size \/ (length l <= size)%nat /\ In c l) ->
  exists r, memchr_loop w m a c size = Ok r /\ find_first w a c l r.
Proof.
  induction l as [|v l IH]; intros a size H L.
  - destruct L as [<-|[_ []]]. exists None. split; auto. intros [].
  - destruct size as [|size]; [cbn in L; lia|]. cbn [memchr_loop].
    destruct H as [-> H]. cbn [bind].
    destruct (Z.eqb_spec v c) as [->|N].
    + exists (Some a). split; auto. apply find_first_here.
    + destruct (IH (a + Z.of_nat w) size H) as (r&E&F).
      { destruct L as [L|[L [L2|L2]]]; cbn in *; try congruence; [left; lia|right; split; auto; lia]. }
      exists r. split; auto. apply find_first_cons; auto.
Qed.

Lemma memrchr_ok m c a : forall l, elems_at 1 m a l ->
  exists r, memrchr_loop m (a + Z.of_nat (length l) - 1) c (length l) = Ok r /\ find_last 1 a c l r.
Proof.
  intros l. induction l as [|v l IH] using rev_ind; intros H.
  - exists None. split; auto. intros [].
  - rewrite app_length. cbn [length]. rewrite Nat.add_1_r. cbn [memrchr_loop].
    apply elems_app in H. destruct H as [H1 [H2 _]].
    replace (a + Z.of_nat (S (length l)) - 1) with (a + Z.of_nat 1 * Z.of_nat (length l)) by lia.
    rewrite H2. cbn [bind].
    destruct (Z.eqb_spec v c) as [->|N].
    + eexists. split; [reflexivity|]. exists (length l). split; auto. split.
      * rewrite nth_error_app2, Nat.sub_diag; auto.
      * intros j Hj E. assert (j < length (l ++ [c]))%nat by (apply nth_error_Some; congruence).
        rewrite app_length in *. cbn in *. lia.
    + destruct (IH H1) as (r&E&F).
      exists r. split.
      * rewrite <- E. f_equal. lia.
      * destruct r as [p|]; cbn in *.
        -- destruct F as (i&[F1 F2]&->). exists i. split; auto.
           assert (i < length l)%nat by (apply nth_error_Some; congruence).
           split. { rewrite nth_error_app1; auto. }
           intros j Hj. destruct (Nat.lt_ge_cases j (length l)).
           ++ rewrite nth_error_app1; auto.
           ++ rewrite nth_error_app2 by auto. destruct (j - length l)%nat as [|k]; cbn; [congruence|].
              destruct k; discriminate.
        -- intros X. apply in_app_or in X. destruct X as [X|[X|[]]]; auto.
Qed.

Lemma rawmemchr_ok m c : forall l a fuel, elems_at 1 m a l -> In c l -> (length l <= fuel)%nat ->
  exists p, rawmemchr_loop fuel m a c = Ok p /\ find_first 1 a c l (Some p).
Proof.
  induction l as [|v l IH]; intros a fuel H I L; [destruct I|].
  destruct fuel as [|fuel]; [cbn in L; lia|]. cbn [rawmemchr_loop].
  destruct H as [-> H]. cbn [bind]. destruct (Z.eqb_spec v c) as [->|N].
  - exists a. split; auto. apply find_first_here.
  - destruct I as [I|I]; [congruence|].
    destruct (IH _ fuel H I) as (p&E&F); [cbn in L; lia|].
    exists p. split; auto. apply (find_first_cons 1 a c v l (Some p)); auto.
Qed.

Lemma strchr_ok w m c : forall s a fuel, is_str w m a s -> (length s < fuel)%nat ->
  exists r, strchr_loop w fuel m a c = Ok r /\ find_first w a c (s ++ [0]) r.
Proof.
  induction s as [|v s IH]; intros a fuel [N H] L; (destruct fuel as [|fuel]; [cbn in L; lia|]);
    cbn [strchr_loop app] in *; destruct H as [-> H]; cbn [bind].
  - destruct (Z.eqb_spec 0 c) as [<-|K]; change (0 =? 0) with true; cbv iota.
    + exists (Some a). split; auto. apply find_first_here.
    + exists None. split; auto. intros [X|[]]; auto.
  - destruct (Z.eqb_spec v c) as [->|K].
    + exists (Some a). split; auto. apply find_first_here.
    + destruct (Z.eqb_spec v 0) as [->|K0]; [exfalso; apply N; left; auto|].
      destruct (IH (a + Z.of_nat w) fuel) as (r&E&F).
      * split; auto. intros X; apply N; right; auto.
      * cbn in L; lia.
      * exists r. split; auto. apply find_first_cons; auto.
Qed.

Lemma find_last_here w a c l : ~ In c l -> find_last w a c (c :: l) (Some a).
Proof.
  intros N. exists 0%nat. split; [|cbn; lia]. split; [reflexivity|].
  intros [|j] Hj; [lia|]. cbn. intros X. apply N. eapply nth_error_In; eauto.
Qed.

Lemma strrchr_gen w m c : forall s a fuel last, is_str w m a s -> (length s < fuel)%nat ->
  exists r, strrchr_loop w fuel m a c last = Ok r /\
    ((In c (s ++ [0]) /\ find_last w a c (s ++ [0]) r /\ r <> None) \/ (~ In c (s ++ [0]) /\ r = last)).
Proof.
  induction s as [|v s IH]; intros a fuel last [N H] L; (destruct fuel as [|fuel]; [cbn in L; lia|]);
    cbn [strrchr_loop app] in *; destruct H as [-> H]; cbn [bind].
  - change (0 =? 0) with true; cbv iota. eexists. split; [reflexivity|].
    destruct (Z.eqb_spec 0 c) as [<-|K].
    + left. split; [left; auto|]. split; [|discriminate].
      apply find_last_here. intros [].
    + right. split; auto. intros [X|[]]; auto.
  - destruct (Z.eqb_spec v 0) as [->|K0]; [exfalso; apply N; left; auto|].
    destruct (IH (a + Z.of_nat w) fuel (if v =? c then Some a else last)) as (r&E&F).
    + split; auto. intros X; apply N; right; auto.
    + cbn in L; lia.
    + exists r. split; auto.
      destruct F as [(F1&F2&F3)|(F1&F2)].
      * left. split; [right; auto|]. split; auto.
        destruct r as [p|]; [|congruence]. cbn in *. destruct F2 as (i&[G1 G2]&->).
        exists (S i). split; [|lia]. split; auto.
        intros [|j] Hj; [lia|]. cbn. apply G2. lia.
      * destruct (Z.eqb_spec v c) as [->|K].
        -- left. split; [left; auto|]. subst r. split; [|discriminate].
           apply find_last_here; auto.
        -- right. split; auto. intros [X|X]; auto.
Qed.

Lemma strrchr_ok w m c s a fuel : is_str w m a s -> (length s < fuel)%nat ->
  exists r, strrchr_loop w fuel m a c None = Ok r /\ find_last w a c (s ++ [0]) r.
Proof.
  intros H L. destruct (strrchr_gen w m c s a fuel None H L) as (r&E&[(_&F&_)|(F1&F2)]); eauto.
  subst. exists None. split; auto.
Qed.

Lemma strchrnul_ok m c : forall s a fuel, is_str 1 m a s -> (length s < fuel)%nat ->
  exists p, strchrnul_loop fuel m a c = Ok p /\
    ((In c s /\ find_first 1 a c s (Some p)) \/ (~ In c s /\ p = a + Z.of_nat (length s))).
Proof.
  induction s as [|v s IH]; intros a fuel [N H] L; (destruct fuel as [|fuel]; [cbn in L; lia|]);
    cbn [strchrnul_loop app] in *; destruct H as [-> H]; cbn [bind].
  - change (0 =? 0) with true; cbv iota. exists a. split; auto. right. cbn. split; auto; lia.
  - destruct (Z.eqb_spec v 0) as [->|K0]; [exfalso; apply N; left; auto|].
    destruct (Z.eqb_spec v c) as [->|K].
    + exists a. split; auto. left. split; [left; auto|]. apply find_first_here.
    + destruct (IH (a + Z.of_nat 1) fuel) as (r&E&F).
      * split; auto. intros X; apply N; right; auto.
      * cbn in L; lia.
      * exists r. split; auto. destruct F as [(F1&F2)|(F1&F2)].
        -- left. split; [right; auto|]. apply (find_first_cons 1 a c v s (Some r)); auto.
        -- right. cbn [length]. split; [intros [X|X]; auto|lia].
Qed.

Lemma strend_ok w m : forall s a fuel, is_str w m a s -> (length s < fuel)%nat ->
  strend w fuel m a = Ok (a + Z.of_nat w * Z.of_nat (length s)).
Proof.
  induction s as [|v s IH]; intros a fuel [N H] L; (destruct fuel as [|fuel]; [cbn in L; lia|]);
    cbn [strend app] in *; destruct H as [-> H]; cbn [bind].
  - change (0 =? 0) with true; cbv iota; cbn [length]. rewrite Z.mul_0_r, Z.add_0_r. auto.
  - destruct (Z.eqb_spec v 0) as [->|K0]; [exfalso; apply N; left; auto|].
    rewrite IH. + f_equal. cbn [length]. lia.
    + split; auto. intros X; apply N; right; auto.
    + cbn in L; lia.
Qed.

Lemma strlen_ok w m s a fuel : (0 < w)%nat -> is_str w m a s -> (length s < fuel)%nat ->
  replace_strlen w fuel m a = Ok (Z.of_nat (length s)).
Proof.
  intros W H L. unfold replace_strlen. rewrite (strend_ok w m s a fuel H L). cbn [bind]. f_equal.
  replace (a + Z.of_nat w * Z.of_nat (length s) - a) with (Z.of_nat (length s) * Z.of_nat w) by lia.
  apply Z.div_mul. lia.
Qed.

Lemma strnlen_gen w m : forall l a n,
  is_bounded w m a n l ->
  strnlen_loop w m a n = Ok (a + Z.of_nat w * Z.of_nat (length (until0 l))).
Proof.
  induction l as [|v l IH]; intros a n [H B].
  - destruct B as [(s&_&X&_)|(_&<-)]; [destruct s; discriminate|]. cbn. f_equal; lia.
  - destruct n as [|n]. { destruct B as [(s&_&_&X)|(_&X)]; cbn in X; lia. }
    cbn [strnlen_loop until0]. destruct H as [-> H]. cbn [bind].
    destruct (Z.eqb_spec v 0) as [->|K].
    + cbn. f_equal; lia.
    + rewrite IH. { f_equal. cbn [length]. lia. }
      split; auto. destruct B as [(s&N&X&Y)|(N&Y)].
      * left. destruct s as [|v' s]; cbn in X; [injection X as -> ->; congruence|].
        injection X as <- ->. exists s. split; [intros Q; apply N; right; auto|]. split; auto.
        cbn in Y. lia.
      * right. split; [intros Q; apply N; right; auto|]. cbn in Y; lia.
Qed.

Lemma strnlen_ok w m l a n : (0 < w)%nat -> is_bounded w m a n l ->
  replace_strnlen w m a n = Ok (Z.of_nat (length (until0 l))).
Proof.
  intros W H. unfold replace_strnlen. rewrite (strnlen_gen w m l a n H). cbn [bind]. f_equal.
  replace (a + Z.of_nat w * Z.of_nat (length (until0 l)) - a) with (Z.of_nat (length (until0 l)) * Z.of_nat w) by lia.
  apply Z.div_mul. lia.
Qed.

(** comparison *)
Lemma cmp_cons c l1 l2 r : cmp_result l1 l2 r -> cmp_result (c :: l1) (c :: l2) r.
Proof.
  intros [[-> ->]|(p&c1&c2&t1&t2&->&->&H)]; [left; auto|].
  right. exists (c :: p), c1, c2, t1, t2. auto.
Qed.

Lemma cmp_body_some fold v1 v2 t1 t2 r : (forall x, In x [v1;v2] -> 0 <= fold x) ->
  cmp_body fold v1 v2 = Some r -> r <> 0 ->
  cmp_result (fold v1 :: t1) (fold v2 :: t2) r.
Proof.
  intros P H R. right. exists [], (fold v1), (fold v2), t1, t2. cbn [app]. repeat split; auto.
  unfold cmp_body in H. pose proof (P v1 ltac:(left; auto)). pose proof (P v2 ltac:(right; left; auto)).
  destruct (Z.eqb_spec (fold v1) 0); destruct (Z.eqb_spec (fold v2) 0);
  destruct (Z.ltb_spec (fold v1) (fold v2)); destruct (Z.ltb_spec (fold v2) (fold v1));
  try discriminate; injection H as <-; try lia.
Qed.

Definition fold_str (fold : Z -> Z) : Prop := fold 0 = 0 /\ forall c, 0 < c -> 0 < fold c.

Lemma strcmp_ok w fold m : fold_str fold -> forall s1 s2 a1 a2 fuel,
  is_str w m a1 s1 -> is_str w m a2 s2 -> (forall c, In c (s1 ++ s2) -> 0 <= c) ->
  (length s1 < fuel \/ length s2 < fuel)%nat ->
  exists r, strcmp_loop w fold fuel m a1 a2 = Ok r /\
    cmp_result (map fold (s1 ++ [0])) (map fold (s2 ++ [0])) r.
Proof.
  intros [F0 FP]. induction s1 as [|v1 s1 IH]; intros s2 a1 a2 fuel [N1 H1] [N2 H2] P L.
  - destruct fuel as [|fuel]; [lia|]. cbn [strcmp_loop app] in *. destruct H1 as [-> _]. cbn [bind].
    destruct s2 as [|v2 s2]; cbn [app] in *; destruct H2 as [-> _]; cbn [bind].
    + unfold cmp_body. rewrite F0. change (0 =? 0) with true; cbv iota. exists 0. split; auto. left. cbn. rewrite F0. auto.
    + assert (0 < v2). { specialize (P v2 ltac:(left; auto)). assert (v2 <> 0) by (intros ->; apply N2; left; auto). lia. }
      pose proof (FP v2 H). unfold cmp_body. rewrite F0. change (0 =? 0) with true; cbv iota.
      destruct (Z.eqb_spec (fold v2) 0); [lia|].
      exists (-1). split; auto. right. exists [], (fold 0), (fold v2). cbn [map app]. do 2 eexists.
      repeat split; try reflexivity. rewrite F0. lia.
  - destruct fuel as [|fuel]; [lia|]. cbn [strcmp_loop app] in *. destruct H1 as [-> H1]. cbn [bind].
    assert (Q1: 0 < v1). { specialize (P v1 ltac:(left; auto)). assert (v1 <> 0) by (intros ->; apply N1; left; auto). lia. }
    pose proof (FP v1 Q1) as G1.
    destruct s2 as [|v2 s2]; cbn [app] in *; destruct H2 as [-> H2]; cbn [bind].
    + unfold cmp_body. rewrite F0. change (0 =? 0) with true; cbv iota. destruct (Z.eqb_spec (fold v1) 0); [lia|].
      exists 1. split; auto. right. exists [], (fold v1), (fold 0). cbn [map app]. do 2 eexists.
      repeat split; try reflexivity. rewrite F0. lia.
    + assert (Q2: 0 < v2). { specialize (P v2 ltac:(right; apply in_or_app; right; left; auto)). assert (v2 <> 0) by (intros ->; apply N2; left; auto). lia. }
      pose proof (FP v2 Q2) as G2.
      destruct (cmp_body fold v1 v2) as [r|] eqn:E.
      * exists r. split; auto. cbn [map]. eapply cmp_body_some; eauto.
        { intros x [<-|[<-|[]]]; lia. }
        unfold cmp_body in E. destruct (Z.eqb_spec (fold v1) 0); [lia|]. destruct (Z.eqb_spec (fold v2) 0); [lia|].
        destruct (fold v1 <? fold v2); [injection E as <-; lia|]. destruct (fold v2 <? fold v1); [injection E as <-; lia|discriminate].
      * assert (fold v1 = fold v2) as EQ.
        { unfold cmp_body in E. destruct (Z.eqb_spec (fold v1) 0); [lia|]. destruct (Z.eqb_spec (fold v2) 0); [lia|].
          destruct (Z.ltb_spec (fold v1) (fold v2)); [discriminate|]. destruct (Z.ltb_spec (fold v2) (fold v1)); [discriminate|]. lia. }
        destruct (IH s2 (a1 + Z.of_nat w) (a2 + Z.of_nat w) fuel) as (r&E1&E2).
        -- split; auto. intros X; apply N1; right; auto.
        -- split; auto. intros X; apply N2; right; auto.
        -- intros c X. apply P. right. apply in_app_or in X. apply in_or_app. destruct X; auto. right; right; auto.
        -- cbn in L; lia.
        -- exists r. split; auto. cbn [map]. rewrite EQ. apply cmp_cons; auto.
Qed.

(** tail of a bounded array *)
Lemma bounded_cons w m a n v l : is_bounded w m a (S n) (v :: l) -> v <> 0 ->
  is_bounded w m (a + Z.of_nat w) n l.
Proof.
  intros [H B] N. split; [apply H|]. destruct B as [(s&N1&X&Y)|(N1&Y)].
  - left. destruct s as [|v' s]; cbn in X; [injection X as -> ->; congruence|].
    injection X as <- ->. exists s. split; [intros Q; apply N1; right; auto|]. split; auto. cbn in Y; lia.
  - right. split; [intros Q; apply N1; right; auto|]. cbn in Y; lia.
Qed.
Lemma bounded_zero w m a n l : is_bounded w m a n (0 :: l) -> l = [].
Proof.
  intros [_ [(s&N&X&_)|(N&_)]].
  - destruct s as [|v s]; cbn in X; [injection X as ->; auto|]. injection X as <- ->. exfalso; apply N; left; auto.
  - exfalso; apply N; left; auto.
Qed.
Lemma bounded_nil w m a n : is_bounded w m a n [] -> n = 0%nat.
Proof. intros [_ [(s&_&X&_)|(_&<-)]]; auto. destruct s; discriminate. Qed.

Lemma strncmp_ok w fold m : fold_str fold -> forall n l1 l2 a1 a2,
  is_bounded w m a1 n l1 -> is_bounded w m a2 n l2 -> (forall c, In c (l1 ++ l2) -> 0 <= c) ->
  exists r, strncmp_loop w fold m a1 a2 n = Ok r /\ cmp_result (map fold l1) (map fold l2) r.
Proof.
  intros [F0 FP]. induction n as [|n IH]; intros l1 l2 a1 a2 B1 B2 P.
  - exists 0. split; auto. left.
    assert (l1 = []) as ->. { destruct B1 as [_ [(s&_&->&X)|(_&X)]]; [rewrite app_length in X; cbn in X; lia|]. apply length_zero_iff_nil; auto. }
    assert (l2 = []) as ->. { destruct B2 as [_ [(s&_&->&X)|(_&X)]]; [rewrite app_length in X; cbn in X; lia|]. apply length_zero_iff_nil; auto. }
    auto.
  - destruct l1 as [|v1 l1]; [apply bounded_nil in B1; lia|].
    destruct l2 as [|v2 l2]; [apply bounded_nil in B2; lia|].
    cbn [strncmp_loop]. destruct (proj1 B1) as [-> _]. destruct (proj1 B2) as [-> _]. cbn [bind].
    assert (0 <= v1) by (apply P; left; auto).
    assert (0 <= v2) by (apply P; apply in_or_app; right; left; auto).
    destruct (Z.eq_dec v1 0) as [->|K1]; destruct (Z.eq_dec v2 0) as [->|K2].
    + apply bounded_zero in B1, B2. subst. unfold cmp_body. rewrite F0. change (0 =? 0) with true; cbv iota.
      exists 0. split; auto. left; auto.
    + pose proof (FP v2 ltac:(lia)). unfold cmp_body. rewrite F0. change (0 =? 0) with true; cbv iota. destruct (Z.eqb_spec (fold v2) 0); [lia|].
      exists (-1). split; auto. right. exists [], (fold 0), (fold v2). cbn [map app]. do 2 eexists.
      repeat split; try reflexivity. rewrite F0. lia.
    + pose proof (FP v1 ltac:(lia)). unfold cmp_body. rewrite F0. change (0 =? 0) with true; cbv iota. destruct (Z.eqb_spec (fold v1) 0); [lia|].
      exists 1. split; auto. right. exists [], (fold v1), (fold 0). cbn [map app]. do 2 eexists.
      repeat split; try reflexivity. rewrite F0. lia.
    + pose proof (FP v1 ltac:(lia)). pose proof (FP v2 ltac:(lia)).
      unfold cmp_body. destruct (Z.eqb_spec (fold v1) 0); [lia|]. destruct (Z.eqb_spec (fold v2) 0); [lia|].
      destruct (Z.ltb_spec (fold v1) (fold v2)).
      { exists (-1). split; auto. right. exists [], (fold v1), (fold v2). cbn [map app]. do 2 eexists.
        repeat split; try reflexivity. lia. }
      destruct (Z.ltb_spec (fold v2) (fold v1)).
      { exists 1. split; auto. right. exists [], (fold v1), (fold v2). cbn [map app]. do 2 eexists.
        repeat split; try reflexivity. lia. }
      apply bounded_cons in B1, B2; auto.
      destruct (IH l1 l2 _ _ B1 B2) as (r&E1&E2).
      { intros c X. apply P. right. apply in_app_or in X. apply in_or_app. destruct X; auto. right; right; auto. }
      exists r. split; auto. cbn [map]. replace (fold v2) with (fold v1) by lia. apply cmp_cons; auto.
Qed.

Lemma memcmp_ok m : forall l1 l2 a1 a2, length l1 = length l2 ->
  elems_at 1 m a1 l1 -> elems_at 1 m a2 l2 ->
  exists r, memcmp_loop m a1 a2 (length l1) = Ok r /\ cmp_result l1 l2 r.
Proof.
  induction l1 as [|v1 l1 IH]; intros [|v2 l2] a1 a2 L H1 H2; try discriminate.
  - exists 0. split; auto. left; auto.
  - cbn [memcmp_loop length]. destruct H1 as [-> H1]. destruct H2 as [-> H2]. cbn [bind].
    destruct (Z.eqb_spec (v1 - v2) 0); cbn [negb].
    + destruct (IH l2 (a1 + Z.of_nat 1) (a2 + Z.of_nat 1)) as (r&E1&E2); auto.
      exists r. split; auto. replace v2 with v1 by lia. apply cmp_cons; auto.
    + exists (v1 - v2). split; auto. right. exists [], v1, v2, l1, l2. repeat split; auto. lia.
Qed.

Lemma wmemcmp_ok m : forall l1 l2 a1 a2, length l1 = length l2 ->
  elems_at 4 m a1 l1 -> elems_at 4 m a2 l2 ->
  (forall c, In c (l1 ++ l2) -> 0 <= c < 2 ^ 31) ->
  exists r, wmemcmp_loop m a1 a2 (length l1) = Ok r /\ cmp_result l1 l2 r.
Proof.
  induction l1 as [|v1 l1 IH]; intros [|v2 l2] a1 a2 L H1 H2 P; try discriminate.
  - exists 0. split; auto. left; auto.
  - cbn [wmemcmp_loop length]. destruct H1 as [-> H1]. destruct H2 as [-> H2]. cbn [bind].
    assert (0 <= v1 < 2^31) by (apply P; left; auto).
    assert (0 <= v2 < 2^31) by (apply P; apply in_or_app; right; left; auto).
    unfold to_int32. destruct (Z.ltb_spec v1 (2^31)); [|lia]. destruct (Z.ltb_spec v2 (2^31)); [|lia].
    destruct (Z.ltb_spec (v1 - v2) (- 2^31)); [lia|]. destruct (Z.leb_spec (2^31) (v1 - v2)); [lia|]. cbn [orb].
    destruct (Z.eqb_spec (v1 - v2) 0); cbn [negb].
    + destruct (IH l2 (a1 + Z.of_nat 4) (a2 + Z.of_nat 4)) as (r&E1&E2); auto.
      { intros c X. apply P. right. apply in_app_or in X. apply in_or_app. destruct X; auto. right; right; auto. }
      exists r. split; auto. replace v2 with v1 by lia. apply cmp_cons; auto.
    + exists (v1 - v2). split; auto. right. exists [], v1, v2, l1, l2. repeat split; auto. lia.
Qed.

Lemma tolower_fold_str : fold_str replace_tolower_ascii.
Proof.
  split; [reflexivity|]. intros c H. unfold replace_tolower_ascii.
  destruct (Z.leb_spec 65 c); destruct (Z.leb_spec c 90); cbn [andb]; lia.
Qed.
Lemma id_fold_str : fold_str (fun c => c).
Proof. split; auto. Qed.

(** spans *)
Lemma span_table_ok m b : forall set a fuel (t : table),
  is_str 1 m a set -> (forall c, In c set -> 0 <= c < 255) -> (length set < fuel)%nat ->
  exists t', span_table fuel m a b t = Ok t' /\
    forall c, t' c = if existsb (Z.eqb c) set then b else t c.
Proof.
  induction set as [|v s IH]; intros a fuel t [N H] P L; (destruct fuel as [|fuel]; [cbn in L; lia|]);
    cbn [span_table app] in *; destruct H as [-> H]; cbn [bind].
  - change (0 =? 0) with true; cbv iota. exists t. auto.
  - destruct (Z.eqb_spec v 0) as [->|K]; [exfalso; apply N; left; auto|].
    unfold tbl_set, UCHAR_MAX. pose proof (P v ltac:(left; auto)).
    destruct (Z.ltb_spec v 255); [|lia]. cbn [bind].
    destruct (IH (a + Z.of_nat 1) fuel (fun x => if x =? v then b else t x)) as (t'&E1&E2).
    + split; auto. intros X; apply N; right; auto.
    + intros c X. apply P; right; auto.
    + cbn in L; lia.
    + exists t'. split; auto. intros c. rewrite E2. cbn [existsb].
      destruct (Z.eqb_spec c v); destruct (existsb (Z.eqb c) s); auto.
Qed.

Lemma span_loop_ok m (t : table) : forall s a fuel,
  is_str 1 m a s -> (forall c, In c s -> 0 <= c < 255) -> (length s < fuel)%nat ->
  exists n, span_loop fuel m a t = Ok (a + Z.of_nat n) /\ span_len (fun c => t c = true) s n.
Proof.
  induction s as [|v s IH]; intros a fuel [N H] P L; (destruct fuel as [|fuel]; [cbn in L; lia|]);
    cbn [span_loop app] in *; destruct H as [-> H]; cbn [bind].
  - change (0 =? 0) with true; cbv iota. exists 0%nat. split; [f_equal; lia|]. repeat split; cbn; auto; try lia; discriminate.
  - destruct (Z.eqb_spec v 0) as [->|K]; [exfalso; apply N; left; auto|].
    unfold tbl_get, UCHAR_MAX. pose proof (P v ltac:(left; auto)).
    destruct (Z.ltb_spec v 255); [|lia]. cbn [bind]. destruct (t v) eqn:T.
    + destruct (IH (a + Z.of_nat 1) fuel) as (n&E1&E2&E3&E4).
      * split; auto. intros X; apply N; right; auto.
      * intros c X. apply P; right; auto.
      * cbn in L; lia.
      * exists (S n). change (a + 1) with (a + Z.of_nat 1). rewrite E1. split; [f_equal; lia|].
        repeat split; cbn; try lia; auto.
        intros [|i] c Hi E; cbn in *; [congruence|]. apply (E3 i); auto; lia.
    + exists 0%nat. split; [f_equal; lia|]. repeat split; cbn; try lia.
      intros c E. injection E as ->. congruence.
Qed.

Lemma span_ok b m str set s l fuel :
  is_str 1 m str s -> is_str 1 m set l ->
  (forall c, In c (s ++ l) -> 0 <= c < 255) -> (length s < fuel)%nat -> (length l < fuel)%nat ->
  exists n, replace_span b fuel m str set = Ok (Z.of_nat n) /\
    span_len (fun c => if b then In c l else ~ In c l) s n.
Proof.
  intros H1 H2 P L1 L2. unfold replace_span.
  destruct (span_table_ok m b l set fuel (fun _ => negb b) H2) as (t&E1&E2); auto.
  { intros c X; apply P; apply in_or_app; auto. }
  rewrite E1. cbn [bind].
  destruct (span_loop_ok m t s str fuel H1) as (n&E3&E4&E5&E6); auto.
  { intros c X; apply P; apply in_or_app; auto. }
  rewrite E3. cbn [bind]. exists n. split; [f_equal; lia|].
  assert (EQ : forall c, t c = true <-> (if b then In c l else ~ In c l)).
  { intros c. rewrite E2. assert (existsb (Z.eqb c) l = true <-> In c l).
    { rewrite existsb_exists. split; [intros (x&X&Y); apply Z.eqb_eq in Y; subst; auto|intros X; exists c; split; auto; apply Z.eqb_refl]. }
    destruct (existsb (Z.eqb c) l), b; cbn [negb]; intuition congruence. }
  repeat split; auto.
  - intros i c Hi X. apply EQ. eapply E5; eauto.
  - intros c X Y. apply EQ in Y. eapply E6; eauto.
Qed.
