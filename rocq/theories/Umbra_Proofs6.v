(** Writing from a buffer, copying, creating, deleting. *)
From Verif Require Import Base Mem Umbra_Model Umbra_Spec Umbra_Proofs1 Umbra_Proofs2 Umbra_Proofs3
  Umbra_Proofs4 Umbra_Proofs5.
Open Scope Z_scope.

Lemma nshadow_nonneg m n : 0 <= n -> 0 <= nshadow m n.
Proof. apply scale_pos. Qed.
Lemma nshadow_0 m : nshadow m 0 = 0.
Proof. unfold nshadow. destruct (sc m); reflexivity. Qed.
Lemma nshadow_mono m a b : 0 <= a -> a <= b -> nshadow m a <= nshadow m b.
Proof. apply scale_mono. Qed.

Lemma write_ok m st x n cap l : map_ok m -> state_ok m st -> app_range (segs st) x n ->
  whole m x n -> (x + n - 1) mod app_bs m <> 0 -> to_shadow (sc m) n <= cap ->
  nshadow m n <= Z.of_nat (length l) -> (forall v, In v l -> 0 <= v < 256) ->
  exists st', write_arch m st x n cap (buf_of_list l) = Ok (st', S_ok, nshadow m n) /\
    wr m st st' x n (fun i => nth_error l (Z.to_nat i)).
Proof.
  intros Hm O R W Hlast Hcap Hl Hv. apply write_gen; auto.
  - intros i Hi. destruct (nth_error l (Z.to_nat i)) as [v|] eqn:E.
    + exists v. split; [reflexivity|]. apply Hv. eapply nth_error_In; eauto.
    + exfalso. apply nth_error_None in E. lia.
  - intros q s i Hq Hq2 _ Hi. unfold buf_of_list.
    pose proof (nshadow_nonneg m (q - x)). replace (i <? 0) with false; [reflexivity|].
    symmetry. apply Z.ltb_ge. assert (0 <= q - x) by lia. specialize (H H0). clear - H Hi. lia.
Qed.

(** The shadow byte of a sub-range. *)
Lemma sbyte_shift m x k i : x mod den (sc m) = 0 -> 0 <= k -> k mod den (sc m) = 0 -> 0 <= i ->
  sbyte m (x + k) i = sbyte m x (nshadow m k + i).
Proof.
  intros Mx Hk Mk Hi. unfold sbyte, nshadow. pose proof (scale_exact (sc m) k Mk) as E.
  revert E. generalize (k * num (sc m) / den (sc m)). intros N E.
  replace (x + (N + i) * den (sc m) / num (sc m)) with (x + k + i * den (sc m) / num (sc m)).
  - f_equal. clear - E. destruct (sc m); cbn [num den] in *; lia.
  - clear - E. destruct (sc m); cbn [num den] in *; lia.
Qed.

Lemma app_range_sub ss x n p k : app_range ss x n -> x <= p -> 0 < k -> p + k <= x + n -> app_range ss p k.
Proof. intros (H0 & H1 & H2) Hp Hk Hpk. split; [lia|]. split; [exact Hk|]. intros y Hy. apply H2. lia. Qed.

Lemma app_range_ext m st s x n : ext m st s -> app_range (segs st) x n -> app_range (segs s) x n.
Proof.
  intros X (H0 & H1 & H2). split; [exact H0|]. split; [exact H1|]. intros y Hy.
  eapply in_app_same; [apply X|]. apply H2. exact Hy.
Qed.

Lemma last_den m x n : 1 < den (sc m) -> whole m x n -> (x + n - 1) mod app_bs m <> 0.
Proof.
  intros Hd [W1 W2] H. apply mod_den_bs in H.
  assert (E : (x + n) mod den (sc m) = 0) by (apply mod_add_den; assumption).
  clear - Hd H E. destruct (sc m); cbn [den] in *; lia.
Qed.

Definition only2 (m : umap) (st st' : ustate) (x y n : Z) : Prop :=
  forall a, liveb m st' a = true -> liveb m st a = true \/
    exists u z, (x <= u < x + n \/ y <= u < y + n) /\ z / app_bs m = u / app_bs m /\ shadow_of m z a.

(** Copying between ranges when the destination does not start inside the
    source. *)
Lemma copy_ok m st src dst n : map_ok m -> state_ok m st -> app_range (segs st) src n ->
  app_range (segs st) dst n -> whole m src n -> dst mod den (sc m) = 0 ->
  1 < den (sc m) -> n < 2 ^ 62 ->
  ~ (src < dst <= src + n - 1) ->
  exists st', copy_arch m st src dst n = Ok (st', S_ok, nshadow m n) /\
    wr0 m st st' dst n (fun i => cont m st (sbyte m src i)) /\ only2 m st st' src dst n /\
    made m st' src n /\ made m st' dst n.
Proof.
  intros Hm O R RD W MD Hden Hbig Hov.
  pose proof (state_layout m st O) as L. destruct (app_range_top m _ src n L R) as (Hx & Htop).
  destruct (app_range_top m _ dst n L RD) as (Hd & Hdtop).
  assert (Hn : 0 < n) by apply R.
  assert (WD : whole m dst n) by (split; [exact MD|apply W]).
  pose proof (last_den m src n Hden W) as Hlast.
  pose proof (touch_arch m st src n Hm O R) as T.
  unfold copy_arch. rewrite !add_ovf_none by assumption. cbn [orb].
  rewrite (w64_small (n - 1)) by (clear - Hn Hbig; lia). rewrite (w64_small (src + (n - 1))) by (clear - Hx Hn Htop; lia).
  replace ((src <? dst) && (dst <=? src + (n - 1))) with false by (clear - Hov; lia).
  cbn [bind].
  set (F := fun i => cont m st (sbyte m src i)).
  destruct (app_range_loop_ind m src n
      (fun blk start iter a =>
         let '(st, d, tot) := a in
         let* t := touch (create_arch m) m st (xl8 m start) blk in
         match t with
         | (st', Some s) => Ok ((st', d, tot), Some (s, true))
         | (st', None) =>
           let n := to_shadow (sc m) iter in
           let* w := write_arch m st' d iter n (fun st i => sm st (xl8 m start + i)) in
           let '(st2, s, k) := w in
           if is_ok s then Ok ((st2, w64 (d + iter), tot + k), None)
           else Ok ((st2, d, tot + k), Some (S_param, false))
         end)
    (fun q (a : ustate * Z * Z) => q <= src + n /\ (wr0 m st (fst (fst a)) dst (q - src) F /\ only2 m st (fst (fst a)) src dst (q - src) /\
       made m (fst (fst a)) src (q - src) /\ made m (fst (fst a)) dst (q - src)) /\
       snd (fst a) = dst + (q - src) /\ snd a = nshadow m (q - src))
    (fun _ (_ : status * bool) => False) (st, dst, 0) Hx Hn Htop Hlast) as (a' & o & E & Ho).
  - intros p k [[s d] tot] Hp Hk Hpk Hblk A1 A2 (Hq & ((X & C1 & C2) & ON & MK1 & MK2) & Hdd & Ht). cbn [fst snd] in *.
    destruct (T s p X) as (s1 & E1 & X1 & C3 & L1 & ON1); [clear - Hp Hk Hpk; lia|].
    rewrite E1. cbn [bind].
    assert (X2 : ext m st s1) by (eapply ext_trans; eauto).
    assert (O1 : state_ok m s1) by apply X1.
    destruct (whole_step m src n p k W A1 A2) as (Mp & Mk).
    assert (Mpx : (p - src) mod den (sc m) = 0).
    { rewrite Zminus_mod, Mp, (proj1 W). destruct (sc m); reflexivity. }
    destruct (chunk_at m st s1 src n p k Hm O R W X2 L1 Hp Hk Hpk Hblk A1 A2) as (N & i & g & b & Hi & Hu & SP & CK).
    destruct CK.
    assert (Nk : N = nshadow m k) by (rewrite <- ck_n; apply SP).
    subst d. set (dd := dst + (p - src)) in *.
    assert (Wd : whole m dd k).
    { split; [|exact Mk]. apply mod_add_den; assumption. }
    assert (Rd : app_range (segs s1) dd k).
    { eapply app_range_ext; [exact X2|]. eapply app_range_sub; [exact RD| | |]; unfold dd; clear - Hp Hk Hpk; lia. }
    (* source bytes of the chunk are still the original ones whatever part of the
       destination chunk has been written *)
    assert (Hsrc : forall q s' f', dd <= q -> q <= dd + k -> wr0 m s1 s' dd (q - dd) f' ->
       forall j, nshadow m (q - dd) <= j < N -> cont m s' (xl8 m p + j) = F (nshadow m (p - src) + j)).
    { intros q s' f' Hq1 Hq2 (X3 & W1 & W2) j Hj.
      assert (0 <= nshadow m (q - dd)) by (apply nshadow_nonneg; clear - Hq1; lia).
      assert (Hlt : nshadow m (q - dd) <= N).
      { rewrite Nk. apply nshadow_mono; clear - Hq1 Hq2; lia. }
      rewrite <- (ck_b j) by (clear - H Hj; lia). unfold F.
      (* not a written destination byte *)
      assert (NO : forall i', 0 <= i' < nshadow m (p - src) + nshadow m (q - dd) ->
                  sbyte m src (nshadow m (p - src) + j) <> sbyte m dst i').
      { intros i' Hi' Eq.
        assert (Hi1 : 0 <= nshadow m (p - src) + j < nshadow m n) by (clear - H Hj ck_le ck_ge; lia).
        assert (Hi2 : 0 <= i' < nshadow m n) by (clear - Hi' Hj Hlt ck_le ck_ge; lia).
        destruct (sbyte_addr m src n _ W Hi1) as (Y1 & S1).
        destruct (sbyte_addr m dst n _ WD Hi2) as (Y2 & S2). rewrite <- Eq in S2.
        pose proof (gran_inj m (segs st) _ _ _ Hm L (proj2 (proj2 R) _ Y1) (proj2 (proj2 RD) _ Y2) S1 S2) as G.
        assert (Hii : i' < nshadow m (p - src) + j) by (clear - Hi' Hj; lia).
        assert (Hover : dst <= src \/ src + n <= dst) by (clear - Hov; lia).
        clear - G Hii Hover Y1 Y2 W MD Hi1 Hi2 Hden. destruct W as [W1 W2].
        destruct Hover as [Ho|Ho].
        - revert G Hii Y1 Y2 Hi1 Hi2. generalize (nshadow m (p - src) + j). intros.
          destruct (sc m); cbn [num den] in *; lia.
        - revert G Hii Y1 Y2 Hi1 Hi2. generalize (nshadow m (p - src) + j). intros.
          destruct (sc m); cbn [num den] in *; lia. }
      rewrite W2.
      - rewrite C3. apply C2. intros i' Hi'. apply NO. clear - Hi' H. lia.
      - intros i' Hi' Eq. revert Eq. unfold dd. rewrite sbyte_shift; [|exact MD|clear - Hp; lia|exact Mpx|clear - Hi'; lia].
        apply NO. clear - Hi' ck_ge. lia. }
    assert (LV : forall s', ext m s1 s' -> forall j, 0 <= j < N -> liveb m s' (xl8 m p + j) = true).
    { intros s' (_ & _ & Lm) j Hj. apply Lm. apply ck_live. exact Hj. }
    assert (WR0 : wr0 m s1 s1 dd (dd - dd) (fun _ => None)).
    { rewrite Z.sub_diag. split; [apply ext_refl; exact O1|]. rewrite nshadow_0. split; [intros; lia|reflexivity]. }
    destruct (write_gen m s1 dd k (to_shadow (sc m) k) (fun st i => sm st (xl8 m p + i))
                (fun j => F (nshadow m (p - src) + j)) Hm O1 Rd Wd) as (s2 & E2 & (X3 & W1 & W2) & ON2 & MK).
    + apply last_den; assumption.
    + clear; lia.
    + intros j Hj. rewrite <- Nk in Hj.
      rewrite <- (Hsrc dd s1 (fun _ => None)); [|clear; lia|clear - Hk; lia|exact WR0|rewrite Z.sub_diag, nshadow_0; exact Hj].
      rewrite cont_live by (apply ck_live; exact Hj).
      apply (liveb_mapped m s1 _ O1). apply ck_live; exact Hj.
    + intros q s' j Hq1 Hq2 WR Hj. rewrite <- Nk in Hj. cbv beta.
      assert (0 <= nshadow m (q - dd)) by (apply nshadow_nonneg; clear - Hq1; lia).
      rewrite <- (Hsrc q s' _ Hq1 Hq2 WR j Hj). symmetry. apply cont_live. apply LV; [apply WR|clear - H Hj; lia].
    + cbv zeta. rewrite E2. cbn [bind is_ok]. eexists _, None. split; [reflexivity|]. cbn [fst snd].
      split; [clear - Hpk; lia|]. rewrite ck_end, Nk.
      split; [split; [split; [|split]|split; [|split]]|split].
      * eapply ext_trans; eauto.
      * intros j Hj. rewrite ck_end in Hj.
        destruct (Z_lt_dec j (nshadow m (p - src))) as [Hlt|Hge].
        -- rewrite W2.
           { rewrite C3. apply C1. clear - Hj Hlt; lia. }
           intros i' Hi' Eq. unfold dd in Eq. rewrite sbyte_shift in Eq; [|exact MD|clear - Hp; lia|exact Mpx|clear - Hi'; lia].
           apply (sbyte_inj m (segs st) dst n _ _ Hm L RD WD) in Eq; clear - Eq Hj Hlt Hi' ck_le Nk ck_ge; lia.
        -- replace j with (nshadow m (p - src) + (j - nshadow m (p - src))) at 1 by ring.
           rewrite <- sbyte_shift; [|exact MD|clear - Hp; lia|exact Mpx|clear - Hge; lia].
           fold dd. rewrite W1 by (clear - Hj Hge Nk; lia). f_equal. ring.
      * intros a Ha. rewrite ck_end in Ha. rewrite W2.
        -- rewrite C3. apply C2. intros i' Hi'. apply Ha. clear - Hi' ck_pos. lia.
        -- intros i' Hi' Eq. unfold dd in Eq. rewrite sbyte_shift in Eq; [|exact MD|clear - Hp; lia|exact Mpx|clear - Hi'; lia].
           revert Eq. apply Ha. clear - Hi' Nk ck_ge. lia.
      * intros a Ha. destruct (ON2 a Ha) as [Q|(u & z & Hu' & Hz)].
        -- destruct (ON1 a Q) as [Q'|(u & z & Hu' & Hz)].
           ++ destruct (ON a Q') as [Q''|(u & z & Hu' & Hz)]; [left; exact Q''|right].
              exists u, z. split; [clear - Hu' Hk; lia|exact Hz].
           ++ right. exists u, z. split; [clear - Hu' Hk Hp; lia|exact Hz].
        -- right. exists u, z. split; [unfold dd in Hu'; clear - Hu' Hk Hp; lia|exact Hz].
      * apply (made_ext m s1 s2); [exact X3|].
        apply (made_app m s1 src (p - src)); [apply (made_ext m s s1); assumption| |clear; lia].
        apply made_chunk; auto. exists i, g. split; [exact Hi|]. split; [exact Hu|].
        destruct SP. clear - sp_ab sp_ae Hk; lia.
      * replace (p + k - src) with (dd + k - dst) by (unfold dd; ring).
        apply (made_app m s2 dst (p - src)); [|exact MK|unfold dd; clear; lia].
        apply (made_ext m s s2); [eapply ext_trans; eauto|exact MK2].
      * unfold dd. rewrite w64_small; [ring|]. destruct R as (_ & _ & R2).
        destruct (in_app_bound m (segs st) (dst + n - 1) L) as (B1 & B2).
        { apply RD. clear - Hn; lia. }
        assert (dst + n <> 2 ^ 64).
        { intros EE. destruct RD as (_ & _ & R3). destruct (R3 (dst + n - 1) ltac:(clear - Hn; lia)) as (i0 & g0 & Hi0 & Hu0 & Hr0).
          destruct (so_range m g0 (lo_seg m _ L i0 g0 Hi0 Hu0)) as (_ & _ & Q). clear - EE Hr0 Q. lia. }
        clear - Hp Hk Hpk Hd B2 H. lia.
      * rewrite Ht. reflexivity.
  - cbn [fst snd]. rewrite Z.sub_diag, nshadow_0. split; [clear - Hn; lia|].
    split; [|split; [ring|reflexivity]].
    split; [|split; [intros a Ha; auto|split; apply made_nil; clear; lia]]. split; [apply ext_refl; exact O|]. rewrite nshadow_0. split; [intros; lia|reflexivity].
  - cbv zeta in E |- *. rewrite E. cbn [bind]. destruct a' as [[s d] tot]. destruct o as [?|]; [contradiction|].
    cbn [fst snd] in Ho. replace (src + n - src) with n in Ho by ring. destruct Ho as (_ & H1 & _ & ->).
    exists s. auto.
Qed.
