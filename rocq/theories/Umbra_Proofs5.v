(** Reading, writing, copying, creating and deleting ranges. *)
From Verif Require Import Base Mem Umbra_Model Umbra_Spec Umbra_Proofs1 Umbra_Proofs2 Umbra_Proofs3
  Umbra_Proofs4.
Open Scope Z_scope.

Lemma touch_arch m st x n : map_ok m -> state_ok m st -> app_range (segs st) x n ->
  touch_ok m (create_arch m) st x n.
Proof. intros. apply (touch_create m 3); assumption. Qed.

Lemma gran_inj m ss y y' a : map_ok m -> layout_ok m ss -> in_app ss y -> in_app ss y' ->
  shadow_of m y a -> shadow_of m y' a -> y / den (sc m) = y' / den (sc m).
Proof.
  intros Hm L (i & g & Hi & Hu & Hr) (j & h & Hj & Hv & Hq) H1 H2.
  pose proof (lo_seg m ss L i g Hi Hu) as S1. pose proof (lo_seg m ss L j h Hj Hv) as S2.
  pose proof (seg_shadow_in m g y a Hm S1 Hr H1) as A1.
  pose proof (seg_shadow_in m h y' a Hm S2 Hq H2) as A2.
  assert (i = j).
  { destruct (Nat.eq_dec i j) as [|Hne]; [assumption|]. exfalso.
    exact (lo_sh m ss L i j g h Hi Hj Hne Hu Hv a A1 A2). }
  subst j. assert (h = g) by congruence. subst h.
  unfold shadow_of in H1, H2. rewrite (seg_first m g y Hm S1 Hr) in H1.
  rewrite (seg_first m g y' Hm S1 Hq) in H2.
  pose proof (mod_den_22 (sc m) (ab g) (so_base m g S1)) as B.
  clear - H1 H2 B Hr Hq. destruct (sc m); cbn [num den] in *; lia.
Qed.

Lemma sbyte_addr m x n i : whole m x n -> 0 <= i < nshadow m n ->
  x <= x + i * den (sc m) / num (sc m) < x + n /\
  shadow_of m (x + i * den (sc m) / num (sc m)) (sbyte m x i).
Proof.
  intros [W1 W2] Hi. unfold shadow_of, sbyte, nshadow in *.
  pose proof (scale_exact (sc m) n W2) as E. revert E Hi. generalize (n * num (sc m) / den (sc m)).
  intros N E Hi. split; [|destruct (sc m); cbn [num]; pose proof (Z.mod_pos_bound i 2); lia].
  clear W1. destruct (sc m); cbn [num den] in *; lia.
Qed.

Lemma sbyte_inj m ss x n i j : map_ok m -> layout_ok m ss -> app_range ss x n -> whole m x n ->
  0 <= i < nshadow m n -> 0 <= j < nshadow m n -> sbyte m x i = sbyte m x j -> i = j.
Proof.
  intros Hm L R W Hi Hj E.
  destruct (sbyte_addr m x n i W Hi) as (A1 & S1). destruct (sbyte_addr m x n j W Hj) as (A2 & S2).
  rewrite <- E in S2.
  pose proof (gran_inj m ss _ _ _ Hm L (proj2 (proj2 R) _ A1) (proj2 (proj2 R) _ A2) S1 S2) as G.
  unfold sbyte in E. destruct W as [W1 _]. revert E G W1 Hi Hj. clear.
  intros E G W1 Hi Hj. destruct (sc m); cbn [num den] in *.
  - clear E. lia.
  - clear E. lia.
  - clear E. lia.
  - clear E. lia.
  - rewrite !Z.mul_1_r, !Z.div_1_r in *. assert (i / 2 = j / 2) by lia. rewrite H in E. lia.
Qed.

(** The shadow bytes of one chunk are consecutive. *)
Lemma sbyte_chunk m g x p k b j : map_ok m -> seg_ok m g -> span_at m g p k b ->
  x <= p -> x mod den (sc m) = 0 -> p mod den (sc m) = 0 ->
  0 <= j < to_shadow (sc m) k -> sbyte m x (nshadow m (p - x) + j) = xl8 m p + j.
Proof.
  intros Hm S SP Hx Mx Mp Hj. destruct SP.
  assert (Hk : 0 < k) by (destruct (Z_lt_dec 0 k); [assumption|exfalso]; rewrite sp_n in sp_pos;
    assert (k * num (sc m) / den (sc m) <= 0) by (apply Z.div_le_upper_bound; destruct (sc m); cbn; clear - n; lia); clear - sp_pos H; lia).
  assert (Mx' : (p - x) mod den (sc m) = 0).
  { rewrite Zminus_mod, Mp, Mx. destruct (sc m); reflexivity. }
  assert (Hy : forall t, 0 <= t -> t < k -> first_shadow m (p + t) = xl8 m p + t * num (sc m) / den (sc m)).
  { intros t H0 H1. rewrite (seg_first m g (p + t) Hm S) by (clear - sp_ab sp_ae H0 H1; lia).
    rewrite (seg_xl8 m g p Hm S) by (clear - sp_ab sp_ae H0 H1; lia).
    replace (p + t - ab g) with ((p - ab g) + t) by ring. rewrite scale_add.
    - ring.
    - clear - sp_ab; lia.
    - exact H0.
    - rewrite Zminus_mod, Mp, (mod_den_22 _ _ (so_base m g S)). destruct (sc m); reflexivity. }
  pose proof (scale_exact (sc m) (p - x) Mx') as E.
  unfold sbyte. set (D := nshadow m (p - x)) in *. unfold nshadow in D. fold D in E.
  rewrite sp_n in Hj.
  assert (Hjk : j * den (sc m) / num (sc m) < k).
  { clear - Hj. destruct (sc m); cbn [num den] in *; lia. }
  replace (x + (D + j) * den (sc m) / num (sc m)) with (p + j * den (sc m) / num (sc m)).
  2:{ clear - E Hj Hx. destruct (sc m); cbn [num den] in *; lia. }
  rewrite Hy; [|clear - Hj; destruct (sc m); cbn [num den] in *; lia|exact Hjk].
  clear - E Hj. destruct (sc m); cbn [num den] in *; rewrite ?Z.mul_1_r, ?Z.div_1_r, ?Z.mod_1_r, ?Z.div_mul by lia; try lia.
Qed.

(** Range update by shadow-byte index. *)
Definition wr0 (m : umap) (st s : ustate) (x k : Z) (f : Z -> option Z) : Prop :=
  ext m st s /\
  (forall i, 0 <= i < nshadow m k -> cont m s (sbyte m x i) = f i) /\
  (forall a, (forall i, 0 <= i < nshadow m k -> a <> sbyte m x i) -> cont m s a = cont m st a).
Definition wr (m : umap) (st s : ustate) (x k : Z) (f : Z -> option Z) : Prop :=
  wr0 m st s x k f /\ only m st s x k /\ made m s x k.

Record chunk (m : umap) (st s : ustate) (x n p k : Z) (T : Z) : Prop := {
  ck_n : to_shadow (sc m) k = T;
  ck_pos : 0 < T;
  ck_end : nshadow m (p + k - x) = nshadow m (p - x) + T;
  ck_ge : 0 <= nshadow m (p - x);
  ck_le : nshadow m (p - x) + T <= nshadow m n;
  ck_b : forall j, 0 <= j < T -> sbyte m x (nshadow m (p - x) + j) = xl8 m p + j;
  ck_live : forall j, 0 <= j < T -> liveb m s (xl8 m p + j) = true;
  ck_out : forall i, 0 <= i < nshadow m n -> ~ nshadow m (p - x) <= i < nshadow m (p - x) + T ->
     ~ xl8 m p <= sbyte m x i < xl8 m p + T }.

Lemma chunk_at m st s x n p k : map_ok m -> state_ok m st -> app_range (segs st) x n -> whole m x n ->
  ext m st s -> liveb m s (xl8 m p) = true ->
  x <= p -> 0 < k -> p + k <= x + n -> p mod app_bs m + k <= app_bs m ->
  (p = x \/ p mod app_bs m = 0) -> (p + k = x + n \/ (p + k) mod app_bs m = 0) ->
  exists T i g b, nth_error (segs s) i = Some g /\ used g = true /\ span_at m g p k b /\
    chunk m st s x n p k T.
Proof.
  intros Hm O R W X Hl Hxp Hk Hpk Hblk A1 A2.
  destruct (whole_step m x n p k W A1 A2) as (Mp & Mk).
  pose proof (state_layout m st O) as L.
  assert (Os : state_ok m s) by apply X. pose proof (state_layout m s Os) as Ls.
  destruct (in_app_at m (segs s) p Ls) as (i & g & Hi & Hu & Hr & S1).
  { eapply in_app_same; [apply X|]. apply R. clear - Hxp Hk Hpk; lia. }
  destruct (span m g p k Hm S1 Hr Hk Hblk Mp Mk) as (b & SP).
  exists (to_shadow (sc m) k), i, g, b. split; [exact Hi|]. split; [exact Hu|]. split; [exact SP|].
  assert (Mpx : (p - x) mod den (sc m) = 0).
  { rewrite Zminus_mod, Mp, (proj1 W). destruct (sc m); reflexivity. }
  assert (Eend : nshadow m (p + k - x) = nshadow m (p - x) + to_shadow (sc m) k).
  { unfold nshadow. rewrite (sp_n m g p k b SP). replace (p + k - x) with ((p - x) + k) by ring.
    apply scale_add; [clear - Hxp; lia|clear - Hk; lia|exact Mpx]. }
  assert (E0 : 0 <= nshadow m (p - x)) by (apply scale_pos; clear - Hxp; lia).
  assert (Ele : nshadow m (p - x) + to_shadow (sc m) k <= nshadow m n).
  { rewrite <- Eend. apply scale_mono; clear - Hxp Hk Hpk; lia. }
  assert (Eb : forall j, 0 <= j < to_shadow (sc m) k -> sbyte m x (nshadow m (p - x) + j) = xl8 m p + j).
  { intros j Hj. apply (sbyte_chunk m g x p k b j Hm S1 SP Hxp (proj1 W) Mp Hj). }
  constructor.
  - reflexivity.
  - apply SP.
  - exact Eend.
  - exact E0.
  - exact Ele.
  - exact Eb.
  - intros j Hj. apply (live_run m s i g p k b Os Hi Hu SP Hl). clear - Hj; lia.
  - intros i' Hi' Hn C.
    pose proof (Eb (sbyte m x i' - xl8 m p) ltac:(clear - C; lia)) as E.
    replace (xl8 m p + (sbyte m x i' - xl8 m p)) with (sbyte m x i') in E by ring.
    apply (sbyte_inj m (segs st) x n _ _ Hm L R W) in E; clear - E Hn C Hi' Ele E0; lia.
Qed.

Lemma cont_live m s a : liveb m s a = true -> cont m s a = sm s a.
Proof. unfold cont. intros ->. reflexivity. Qed.

Lemma m_read_ok n : forall mm a, (forall j, 0 <= j < Z.of_nat n -> mm (a + j) <> None) ->
  exists l, m_read n mm a = Ok l /\ length l = n /\
    forall j, 0 <= j < Z.of_nat n -> nth_error l (Z.to_nat j) = mm (a + j).
Proof.
  induction n as [|n IH]; intros mm a H.
  - exists []. split; [reflexivity|]. split; [reflexivity|]. intros; lia.
  - cbn [m_read]. destruct (mm a) as [v|] eqn:E.
    2:{ exfalso. apply (H 0); [lia|]. rewrite Z.add_0_r. exact E. }
    destruct (IH mm (a + 1)) as (l & -> & Hl & Hn).
    { intros j Hj. replace (a + 1 + j) with (a + (j + 1)) by ring. apply H. lia. }
    exists (v :: l). split; [reflexivity|]. split; [cbn; lia|]. intros j Hj.
    destruct (Z.eq_dec j 0) as [->|Hj0]; [cbn; rewrite Z.add_0_r; congruence|].
    replace (Z.to_nat j) with (S (Z.to_nat (j - 1))) by lia. cbn [nth_error].
    rewrite Hn by lia. f_equal. lia.
Qed.

Lemma to_shadow_cap m n : 0 <= n < 2 ^ 62 -> to_shadow (sc m) n = nshadow m n.
Proof. apply to_shadow_eq. Qed.

Lemma read_ok m st x n cap : map_ok m -> state_ok m st -> app_range (segs st) x n ->
  whole m x n -> (x + n - 1) mod app_bs m <> 0 -> to_shadow (sc m) n <= cap ->
  exists st' l, read_arch m st x n cap = Ok (st', S_ok, l) /\ ext m st st' /\
    (forall a, cont m st' a = cont m st a) /\ only m st st' x n /\ made m st' x n /\
    Z.of_nat (length l) = nshadow m n /\
    (forall i, 0 <= i < nshadow m n -> nth_error l (Z.to_nat i) = cont m st (sbyte m x i)).
Proof.
  intros Hm O R W Hlast Hcap.
  pose proof (state_layout m st O) as L. destruct (app_range_top m _ x n L R) as (Hx & Htop).
  assert (Hn : 0 < n) by apply R.
  pose proof (touch_arch m st x n Hm O R) as T.
  unfold read_arch. replace (cap <? to_shadow (sc m) n) with false by (clear - Hcap; lia).
  rewrite add_ovf_none by assumption.
  destruct (app_range_loop_ind m x n
    (fun blk start iter a =>
         let '(st, out) := a in
         let* t := touch (create_arch m) m st (xl8 m start) blk in
         match t with
         | (st', Some s) => Ok ((st', out), Some s)
         | (st', None) =>
           let* l := m_read (Z.to_nat (to_shadow (sc m) iter)) (sm st') (xl8 m start) in
           Ok ((st', out ++ l), None)
         end)
    (fun q (a : ustate * list Z) => ext m st (fst a) /\ (forall y, cont m (fst a) y = cont m st y) /\ only m st (fst a) x (q - x) /\ made m (fst a) x (q - x) /\
       Z.of_nat (length (snd a)) = nshadow m (q - x) /\
       (forall i, 0 <= i < nshadow m (q - x) ->
          nth_error (snd a) (Z.to_nat i) = cont m st (sbyte m x i)))
    (fun _ (_ : status) => False) (st, []) Hx Hn Htop Hlast) as (a' & o & E & Ho).
  - intros p k [s out] Hp Hk Hpk Hblk A1 A2 (X & C & ON & MK & Hlen & Hnth). cbn [fst snd] in *.
    destruct (T s p X) as (s1 & E1 & X1 & C1 & L1 & ON1); [clear - Hp Hk Hpk; lia|].
    rewrite E1. cbn [bind].
    assert (X2 : ext m st s1) by (eapply ext_trans; eauto).
    destruct (chunk_at m st s1 x n p k Hm O R W X2 L1 Hp Hk Hpk Hblk A1 A2) as (N & i & g & b & Hi & Hu & SP & CK).
    destruct CK. rewrite ck_n0.
    destruct (m_read_ok (Z.to_nat N) (sm s1) (xl8 m p)) as (l & -> & Hl & Hln).
    { intros j Hj. destruct (liveb_mapped m s1 (xl8 m p + j)) as (v & -> & _); [apply X1|apply ck_live0; clear - Hj; lia|discriminate]. }
    cbn [bind]. eexists _, None. split; [reflexivity|]. cbn [fst snd].
    split; [exact X2|]. split; [intros y; rewrite C1; apply C|].
    split; [apply (only_trans m st s s1 x (p - x) p 1); try assumption; clear - Hp Hk; lia|].
    split.
    { apply (made_app m s1 x (p - x)); [apply (made_ext m s s1); assumption| |clear; lia].
      apply made_chunk; auto; [apply X1|]. exists i, g. split; [exact Hi|]. split; [exact Hu|].
      destruct SP. clear - sp_ab sp_ae Hk; lia. }
    split; [rewrite app_length, ck_end0; clear - Hlen Hl ck_pos0; lia|].
    intros j Hj. rewrite ck_end0 in Hj.
    destruct (Z_lt_dec j (nshadow m (p - x))) as [Hlt|Hge].
    + rewrite nth_error_app1 by (clear - Hlt Hlen Hj; lia). apply Hnth. clear - Hlt Hj; lia.
    + rewrite nth_error_app2 by (clear - Hge Hlen Hj; lia).
      replace (Z.to_nat j - length out)%nat with (Z.to_nat (j - nshadow m (p - x))) by (clear - Hlen Hge; lia).
      rewrite Hln by (clear - Hj Hge; lia).
      replace j with (nshadow m (p - x) + (j - nshadow m (p - x))) at 2 by ring.
      rewrite ck_b0 by (clear - Hj Hge; lia). rewrite <- C, <- C1.
      symmetry. apply cont_live. apply ck_live0. clear - Hj Hge; lia.
  - cbn [fst snd]. rewrite Z.sub_diag.
    assert (Z0 : nshadow m 0 = 0) by (unfold nshadow; destruct (sc m); reflexivity). rewrite Z0.
    split; [apply ext_refl; exact O|]. split; [reflexivity|]. split; [apply only_refl|]. split; [apply made_nil; clear; lia|]. split; [reflexivity|]. intros; lia.
  - rewrite E. cbn [bind]. destruct a' as [s out]. destruct o as [?|]; [contradiction|].
    cbn [fst snd] in Ho. replace (x + n - x) with n in Ho by ring. destruct Ho as (X & C & ON & MK & H1 & H2).
    exists s, out. auto 8.
Qed.

Lemma all_mapped_src n src : (forall j, 0 <= j < Z.of_nat n -> src j <> None) -> all_mapped n src 0 = true.
Proof. intros H. apply all_mapped_iff. intros x Hx. apply H. lia. Qed.

(** Writing: [buf] must yield the bytes [f] while the range is being written. *)
Lemma write_gen m st x n cap buf f : map_ok m -> state_ok m st -> app_range (segs st) x n ->
  whole m x n -> (x + n - 1) mod app_bs m <> 0 -> to_shadow (sc m) n <= cap ->
  (forall i, 0 <= i < nshadow m n -> exists v, f i = Some v /\ 0 <= v < 256) ->
  (forall q s i, x <= q -> q <= x + n -> wr0 m st s x (q - x) f ->
     nshadow m (q - x) <= i < nshadow m n -> buf s i = f i) ->
  exists st', write_arch m st x n cap buf = Ok (st', S_ok, nshadow m n) /\ wr m st st' x n f.
Proof.
  intros Hm O R W Hlast Hcap Hf Hbuf.
  pose proof (state_layout m st O) as L. destruct (app_range_top m _ x n L R) as (Hx & Htop).
  assert (Hn : 0 < n) by apply R.
  pose proof (touch_arch m st x n Hm O R) as T.
  unfold write_arch. replace (cap <? to_shadow (sc m) n) with false by (clear - Hcap; lia).
  rewrite add_ovf_none by assumption.
  destruct (app_range_loop_ind m x n
      (fun blk start iter a =>
         let '(st, tot) := a in
         let* t := touch (create_arch m) m st (xl8 m start) blk in
         match t with
         | (st', Some s) => Ok ((st', tot), Some s)
         | (st', None) =>
           let n := to_shadow (sc m) iter in
           let* mm := m_put (sm st') (xl8 m start) n (fun i => buf st' (tot + i)) in
           Ok ((with_sm st' mm, tot + n), None)
         end)
    (fun q (a : ustate * Z) => q <= x + n /\ wr m st (fst a) x (q - x) f /\ snd a = nshadow m (q - x))
    (fun _ (_ : status) => False) (st, 0) Hx Hn Htop Hlast) as (a' & o & E & Ho).
  - intros p k [s tot] Hp Hk Hpk Hblk A1 A2 (Hq & ((X & C1 & C2) & ON & MK) & Ht). cbn [fst snd] in *.
    destruct (T s p X) as (s1 & E1 & X1 & C3 & L1 & ON1); [clear - Hp Hk Hpk; lia|].
    rewrite E1. cbn [bind].
    assert (X2 : ext m st s1) by (eapply ext_trans; eauto).
    destruct (chunk_at m st s1 x n p k Hm O R W X2 L1 Hp Hk Hpk Hblk A1 A2) as (N & i & g & b & Hi & Hu & SP & CK).
    assert (O1 : state_ok m s1) by apply X1.
    assert (HB : forall j, 0 <= j < N -> buf s1 (tot + j) = f (nshadow m (p - x) + j)).
    { intros j Hj. rewrite Ht. apply (Hbuf p).
      - exact Hp.
      - clear - Hk Hpk; lia.
      - split; [exact X2|]. split; intros; rewrite C3; auto.
      - destruct CK. clear - Hj ck_le0. lia. }
    assert (HF : forall j, 0 <= j < N -> exists v, buf s1 (tot + j) = Some v /\ 0 <= v < 256).
    { intros j Hj. rewrite (HB j Hj). apply Hf. destruct CK. clear - Hj ck_le0 ck_ge0. lia. }
    destruct (put_run m s1 i g p k b (fun a => buf s1 (tot + (a - xl8 m p))) O1 Hi Hu SP L1) as (X3 & P1 & P2).
    { intros a Ha. apply HF. destruct CK. rewrite ck_n0 in Ha. clear - Ha. lia. }
    pose proof (sp_run m g p k b SP) as RU.
    destruct CK. rewrite ck_n0 in *. cbv zeta in *.
    unfold m_put.
    rewrite (proj2 (all_mapped_iff (Z.to_nat N) (sm s1) (xl8 m p))).
    2:{ intros a Ha. destruct (liveb_mapped m s1 a O1) as (w & -> & _); [|discriminate].
        replace a with (xl8 m p + (a - xl8 m p)) by ring. apply ck_live0. clear - Ha ck_pos0. lia. }
    rewrite all_mapped_src.
    2:{ intros j Hj. destruct (HF j) as (w & -> & _); [clear - Hj ck_pos0; lia|discriminate]. }
    cbn [andb bind].
    set (s2 := with_sm s1 _) in *.
    exists (s2, tot + N), None. split; [reflexivity|]. cbn [fst snd].
    split; [clear - Hpk; lia|]. split; [split; [split; [|split]|split]|].
    + eapply ext_trans; eauto.
    + intros j Hj. rewrite ck_end0 in Hj.
      destruct (Z_lt_dec j (nshadow m (p - x))) as [Hlt|Hge].
      * rewrite P2.
        { rewrite C3. apply C1. clear - Hj Hlt; lia. }
        intros D. apply RU in D. revert D. apply ck_out0; clear - Hj Hlt ck_le0 ck_pos0; lia.
      * assert (Ej : sbyte m x j = xl8 m p + (j - nshadow m (p - x))).
        { rewrite <- ck_b0 by (clear - Hj Hge; lia). f_equal. ring. }
        assert (D : exists y, p <= y < p + k /\ shadow_of m y (sbyte m x j)).
        { apply RU. rewrite Ej. clear - Hj Hge. lia. }
        destruct D as (y & Hy & Hs). rewrite (P1 y _ Hy Hs). rewrite Ej.
        replace (xl8 m p + (j - nshadow m (p - x)) - xl8 m p) with (j - nshadow m (p - x)) by ring.
        rewrite HB by (clear - Hj Hge; lia). f_equal. ring.
    + intros a Ha. rewrite P2.
      * rewrite C3. apply C2. intros j Hj. apply Ha. rewrite ck_end0. clear - Hj ck_pos0; lia.
      * intros D. apply RU in D.
        apply (Ha (nshadow m (p - x) + (a - xl8 m p))).
        { rewrite ck_end0. clear - D ck_ge0; lia. }
        rewrite ck_b0 by (clear - D; lia). ring.
    + apply (only_same m st s1); [reflexivity|].
      apply (only_trans m st s s1 x (p - x) p 1); try assumption; clear - Hp Hk; lia.
    + apply (made_ext m s1 s2); [exact X3|].
      apply (made_app m s1 x (p - x)); [apply (made_ext m s s1); assumption| |clear; lia].
      apply made_chunk; auto. exists i, g. split; [exact Hi|]. split; [exact Hu|].
      destruct SP. clear - sp_ab sp_ae Hk; lia.
    + rewrite ck_end0, Ht. reflexivity.
  - cbn [fst snd]. rewrite Z.sub_diag.
    assert (Z0 : nshadow m 0 = 0) by (unfold nshadow; destruct (sc m); reflexivity).
    split; [clear - Hn; lia|]. split; [|symmetry; exact Z0].
    split; [|split; [apply only_refl|apply made_nil; clear; lia]]. split; [apply ext_refl; exact O|]. rewrite Z0. split; [intros; lia|reflexivity].
  - cbv zeta in E |- *. rewrite E. cbn [bind]. destruct a' as [s tot]. destruct o as [?|]; [contradiction|].
    cbn [fst snd] in Ho. replace (x + n - x) with n in Ho by ring. destruct Ho as (_ & H1 & ->).
    exists s. auto.
Qed.
