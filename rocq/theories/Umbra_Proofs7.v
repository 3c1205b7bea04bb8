(** Creating whole blocks, searching a value, and querying blocks. *)
From Verif Require Import Base Mem Umbra_Model Umbra_Spec Umbra_Proofs1 Umbra_Proofs2 Umbra_Proofs3
  Umbra_Proofs4 Umbra_Proofs5 Umbra_Proofs6.
Open Scope Z_scope.

(** One block of a creation. *)
Lemma create_step m d st i g b v : map_ok m -> state_ok m st ->
  nth_error (segs st) i = Some g -> used g = true -> ab g <= b < ae g -> b mod app_bs m = 0 ->
  0 <= v <= 255 ->
  exists st1 st2, alloc_block m st (xl8 m b) = Ok st1 /\
    set_range_d (S d) m st1 b (app_bs m) v = Ok (st2, S_ok, sh_bs m) /\
    sets m st st2 b (app_bs m) v /\
    (forall y a, b <= y < b + app_bs m -> shadow_of m y a -> liveb m st2 a = true).
Proof.
  intros Hm O Hi Hu Hb Hbm Hv.
  pose proof (state_layout m st O) as L. pose proof (lo_seg m _ L i g Hi Hu) as S1.
  destruct (so_range m g S1) as (R0 & R1 & R2).
  pose proof (app_bs_pos m) as Hbs. pose proof (sh_bs_pos m) as Hsb.
  assert (W : whole m b (app_bs m)).
  { split; [apply mod_den_bs; exact Hbm|apply mod_den_bs, Z.mod_same; clear - Hbs; lia]. }
  destruct (span m g b (app_bs m) Hm S1 Hb Hbs) as (k & SP); try apply W.
  { rewrite Hbm. clear; lia. }
  assert (Hxb : xl8 m b = sb g + k * sh_bs m).
  { rewrite <- (sp_blk m g b _ k SP), Hbm, Z.sub_0_r. reflexivity. }
  assert (Hts : to_shadow (sc m) (app_bs m) = sh_bs m).
  { rewrite (sp_n m g b _ k SP). replace (app_bs m) with (app_bs m * 1) at 1 by ring. rewrite scale_block. ring. }
  assert (RU : forall a, in_blk m g k a <-> exists y, b <= y < b + app_bs m /\ shadow_of m y a).
  { intros a. rewrite <- (sp_run m g b _ k SP a). unfold in_blk. rewrite Hts, Hxb. clear; lia. }
  assert (A : exists st1, alloc_block m st (xl8 m b) = Ok st1 /\ ext m st st1 /\
    (forall a, in_blk m g k a -> liveb m st1 a = true) /\
    (forall a, ~ in_blk m g k a -> cont m st1 a = cont m st a) /\ only m st st1 b (app_bs m)).
  { rewrite Hxb. destruct (liveb m st (sb g + k * sh_bs m)) eqn:El.
    - exists st. unfold alloc_block. rewrite (exist_liveb m st _ L), El. cbn [bind].
      split; [reflexivity|]. split; [apply ext_refl; exact O|]. split; [|split; [reflexivity|apply only_refl]].
      intros a Ha. rewrite (liveb_block m st i g k a L Hi Hu); [|apply SP|apply SP|exact Ha].
      rewrite <- El. symmetry. apply (liveb_block m st i g k _ L Hi Hu); [apply SP|apply SP|clear - Hsb; lia].
    - destruct (alloc_block_new m st i g k Hm O Hi Hu (sp_k m g b _ k SP) (sp_se m g b _ k SP) El) as (st1 & A1 & X1 & In1 & Out1).
      exists st1. split; [exact A1|]. split; [exact X1|]. split; [intros a Ha; apply In1; exact Ha|].
      split; [intros a Ha; unfold cont; destruct (Out1 a Ha) as (-> & ->); reflexivity|].
      intros a Ha. destruct (liveb m st a) eqn:Ela; [left; reflexivity|right].
      assert (IB : in_blk m g k a).
      { unfold in_blk. destruct (Z_le_dec (sb g + k * sh_bs m) a) as [Q1|Q1]; [destruct (Z_lt_dec a (sb g + (k + 1) * sh_bs m)) as [Q2|Q2]|].
        - split; assumption.
        - exfalso. destruct (Out1 a) as (EE & _); [unfold in_blk; clear - Q2; lia|]. congruence.
        - exfalso. destruct (Out1 a) as (EE & _); [unfold in_blk; clear - Q1; lia|]. congruence. }
      apply RU in IB as (y & Hy & Hs). exists y, y. auto. }
  destruct A as (st1 & A1 & X1 & In1 & Out1 & ON1).
  assert (O1 : state_ok m st1) by apply X1.
  assert (AR : app_range (segs st1) b (app_bs m)).
  { split; [clear - Hb R0; lia|]. split; [exact Hbs|]. intros y Hy.
    eapply in_app_same; [apply X1|]. exists i, g. split; [exact Hi|]. split; [exact Hu|].
    pose proof (sp_ae m g b _ k SP). clear - Hy Hb H; lia. }
  assert (Hlast : (b + app_bs m - 1) mod app_bs m <> 0).
  { replace (b + app_bs m - 1) with (app_bs m - 1 + b) by ring.
    apply Z.div_exact in Hbm; [|clear - Hbs; lia]. rewrite Hbm, Z.mul_comm, Z_mod_plus_full.
    destruct (app_bs_vals m) as [E|[E|[E|E]]]; rewrite E; discriminate. }
  assert (LV : forall q, b <= q < b + app_bs m -> liveb m st1 (xl8 m q) = true).
  { intros q Hq. apply In1. apply RU. exists q. split; [exact Hq|].
    unfold shadow_of. rewrite <- xl8_eq; [pose proof (num_pos (sc m)); clear - H; lia|exact Hm|].
    eapply seg_special; [exact S1|]. pose proof (sp_ae m g b _ k SP). clear - Hq Hb H. lia. }
  destruct (set_range_gen m d st1 b (app_bs m) v Hm O1 AR W Hlast Hv) as (st2 & E2 & X2 & C1 & C2 & ON2 & MK).
  { apply touch_live. intros s q (_ & _ & Lm) Hq. apply Lm, LV, Hq. }
  exists st1, st2. split; [exact A1|]. split.
  { rewrite E2. do 2 f_equal. rewrite <- Hts. symmetry. apply (sp_n m g b _ k SP). }
  split; [split; [|split; [|split; [|split]]]|].
  - eapply ext_trans; eauto.
  - exact C1.
  - intros a Ha. rewrite C2 by exact Ha. apply Out1. intros X. apply RU in X. contradiction.
  - replace (app_bs m) with (b + app_bs m - b) by ring.
    apply (only_trans m st st1 st2 b (app_bs m) b (app_bs m)); try assumption; clear; lia.
  - exact MK.
  - intros y a Hy Hs. destruct X2 as (_ & _ & Lm). apply Lm, In1. apply RU. eauto.
Qed.

Lemma create_ok m st i g x n v : map_ok m -> state_ok m st ->
  nth_error (segs st) i = Some g -> used g = true -> ab g <= x -> 0 < n -> x + n <= ae g ->
  x mod app_bs m = 0 -> n mod app_bs m = 0 -> 0 <= v < 255 ->
  exists st', create_arch m st x n v = Ok (st', S_ok) /\ sets m st st' x n v /\
    (forall y a, x <= y < x + n -> shadow_of m y a -> liveb m st' a = true).
Proof.
  intros Hm O Hi Hu H1 H2 H3 Mx Mn Hv.
  pose proof (state_layout m st O) as L. pose proof (lo_seg m _ L i g Hi Hu) as S1.
  destruct (so_range m g S1) as (R0 & R1 & R2).
  pose proof (app_bs_pos m) as Hbs.
  unfold create_arch, create_with. replace (255 <=? v) with false by (clear - Hv; lia).
  rewrite add_ovf_none by (clear - H1 H2 H3 R0 R2; lia).
  rewrite (add_app_inside m (Some m) (segs st) i g x n L Hi Hu H1 H2 H3). cbn [negb].
  replace (with_segs st (segs st)) with st by (destruct st; reflexivity).
  assert (Mxn : (x + n) mod app_bs m = 0).
  { rewrite Z.add_mod, Mx, Mn by (clear - Hbs; lia). apply Z.mod_0_l. clear - Hbs; lia. }
  assert (Hlast : (x + n - 1) mod app_bs m <> 0).
  { replace (x + n - 1) with (app_bs m - 1 + (x + n - app_bs m)) by ring.
    assert (E0 : (x + n - app_bs m) mod app_bs m = 0).
    { rewrite Zminus_mod, Mxn, Z.mod_same by (clear - Hbs; lia). apply Z.mod_0_l. clear - Hbs; lia. }
    apply Z.div_exact in E0; [|clear - Hbs; lia]. rewrite E0, (Z.mul_comm (app_bs m)), Z_mod_plus_full.
    destruct (app_bs_vals m) as [E|[E|[E|E]]]; rewrite E; discriminate. }
  destruct (app_range_loop_ind m x n
    (fun blk start iter st =>
           let* st1 := alloc_block m st (xl8 m blk) in
           let* r := let* r := set_range_d DEPTH m st1 start iter v in
                     let '(st', s, _) := r in Ok (st', s) in
           let '(st2, s) := r in
           if is_ok s then Ok (st2, None) else Ok (st2, Some S_error))
    (fun q s => (q <= x + n) /\ q mod app_bs m = 0 /\ sets m st s x (q - x) v /\
       (forall y a, x <= y < q -> shadow_of m y a -> liveb m s a = true))
    (fun _ (_ : status) => False) st) as (a' & o & E & Ho).
  - clear - H1 R0; lia.
  - exact H2.
  - clear - H3 R2; lia.
  - exact Hlast.
  - intros p k s Hp Hk Hpk Hblk A1 A2 (Hq & Mp & (X & C1 & C2 & ON & MK) & LV).
    rewrite Mp, Z.add_0_l in Hblk. rewrite Mp, Z.sub_0_r.
    assert (Mpk : (p + k) mod app_bs m = 0) by (destruct A2 as [->|]; assumption).
    assert (k = app_bs m).
    { rewrite Z.add_mod, Mp, Z.add_0_l, Z.mod_mod in Mpk by (clear - Hbs; lia).
      destruct (Z.eq_dec k (app_bs m)); [assumption|]. rewrite Z.mod_small in Mpk; clear - Mpk Hk Hblk n0; lia. }
    subst k.
    destruct X as (SL & Os & Lm). pose proof (same_layout_sym _ _ SL) as SL'.
    destruct (same_layout_back _ _ i g SL' Hi) as (g' & Hi' & Eg).
    apply with_bits_inv in Eg as (E1 & E2 & E3 & E4 & E5 & E6 & E7 & E8 & E9).
    destruct (create_step m 3 s i g' p v Hm Os Hi') as (s1 & s2 & B1 & B2 & (X2 & D1 & D2 & ON2 & MK2) & LV2).
    { congruence. } { rewrite ?E1, ?E2 || rewrite <- ?E1, <- ?E2. clear - H1 Hp Hk Hpk H3 E1 E2. lia. } { exact Mp. } { clear - Hv; lia. }
    rewrite B1. cbn [bind]. change DEPTH with 4%nat. rewrite B2. cbn [bind is_ok].
    exists s2, None. split; [reflexivity|]. split; [exact Hpk|]. split; [exact Mpk|].
    split; [split; [|split; [|split; [|split]]]|].
    + eapply ext_trans; [|exact X2]. split; [exact SL|]. split; assumption.
    + intros y a Hy Hs. destruct (Z_lt_dec y p) as [Hlt|Hge].
      * assert (cont m s a = Some v) as <- by (apply (C1 y a); [clear - Hy Hlt; lia|exact Hs]).
        apply D2. intros (y' & Hy' & Hs').
        assert (IA : forall z, x <= z < x + n -> in_app (segs st) z).
        { intros z Hz. exists i, g. split; [exact Hi|]. split; [exact Hu|]. clear - Hz H1 H3. lia. }
        pose proof (gran_inj m (segs st) y y' a Hm L (IA y ltac:(clear - Hy Hlt Hpk Hk; lia)) (IA y' ltac:(clear - Hp Hy' Hpk; lia)) Hs Hs') as G.
        pose proof (mod_den_bs m p Mp) as Md.
        clear - G Md Hlt Hy'. destruct (sc m); cbn [den] in *; lia.
      * apply (D1 y a); [clear - Hy Hge; lia|exact Hs].
    + intros a Ha. rewrite D2.
      * apply C2. intros (y & Hy & Hs). apply Ha. exists y. split; [clear - Hy Hbs; lia|exact Hs].
      * intros (y & Hy & Hs). apply Ha. exists y. split; [clear - Hy Hp; lia|exact Hs].
    + apply (only_trans m st s s2 x (p - x) p (app_bs m)); try assumption; clear - Hp Hbs; lia.
    + apply (made_app m s2 x (p - x)); [apply (made_ext m s s2); assumption|exact MK2|clear; lia].
    + intros y a Hy Hs. destruct (Z_lt_dec y p) as [Hlt|Hge].
      * apply X2. apply (LV y); [clear - Hy Hlt; lia|exact Hs].
      * apply (LV2 y); [clear - Hy Hge; lia|exact Hs].
  - split; [clear - H2; lia|]. split; [exact Mx|]. rewrite Z.sub_diag. split; [split; [|split; [|split; [|split]]]|].
    + apply ext_refl; exact O.
    + intros; lia.
    + reflexivity.
    + apply only_refl.
    + apply made_nil. clear; lia.
    + intros; lia.
  - rewrite E. cbn [bind]. destruct o as [?|]; [contradiction|].
    replace (x + n - x) with n in Ho by ring. destruct Ho as (_ & _ & HS & LV).
    exists a'. auto.
Qed.

(** The byte search. *)
Lemma m_chr_ok n : forall mm a v, (forall j, 0 <= j < Z.of_nat n -> mm (a + j) <> None) ->
  exists r, m_chr n mm a v = Ok r /\
    match r with
    | Some b => a <= b < a + Z.of_nat n /\ mm b = Some v /\ forall c, a <= c < b -> mm c <> Some v
    | None => forall c, a <= c < a + Z.of_nat n -> mm c <> Some v
    end.
Proof.
  induction n as [|n IH]; intros mm a v H.
  - exists None. split; [reflexivity|]. intros; lia.
  - cbn [m_chr]. destruct (mm a) as [w|] eqn:E.
    2:{ exfalso. apply (H 0); [lia|]. rewrite Z.add_0_r. exact E. }
    destruct (w =? v) eqn:Ew.
    + exists (Some a). split; [reflexivity|]. apply Z.eqb_eq in Ew. subst w.
      split; [lia|]. split; [exact E|]. intros; lia.
    + destruct (IH mm (a + 1) v) as (r & -> & Hr).
      { intros j Hj. replace (a + 1 + j) with (a + (j + 1)) by ring. apply H. lia. }
      exists r. split; [reflexivity|]. destruct r as [b|].
      * destruct Hr as (Hb & Hv & Hlt). split; [lia|]. split; [exact Hv|]. intros c Hc.
        destruct (Z.eq_dec c a) as [->|]; [intros X; rewrite E in X; injection X as ->; lia|apply Hlt; lia].
      * intros c Hc. destruct (Z.eq_dec c a) as [->|]; [intros X; rewrite E in X; injection X as ->; lia|apply Hr; lia].
Qed.

Definition found_at (m : umap) (st : ustate) (x n v : Z) (r : option Z) : Prop :=
  match r with
  | Some y => exists i, 0 <= i < nshadow m n /\ y = x + i * den (sc m) / num (sc m) /\
      cont m st (sbyte m x i) = Some v /\
      forall j, 0 <= j < i -> cont m st (sbyte m x j) <> Some v
  | None => forall j, 0 <= j < nshadow m n -> cont m st (sbyte m x j) <> Some v
  end.

Lemma value_in_ok m st x n v : map_ok m -> state_ok m st -> app_range (segs st) x n ->
  whole m x n -> (x + n - 1) mod app_bs m <> 0 -> 0 <= v <= 255 ->
  exists st' r, value_in_arch m st x n v 1 = Ok (st', S_ok, r) /\ ext m st st' /\
    (forall a, cont m st' a = cont m st a) /\ only m st st' x n /\ found_at m st x n v r.
Proof.
  intros Hm O R W Hlast Hv.
  pose proof (state_layout m st O) as L. destruct (app_range_top m _ x n L R) as (Hx & Htop).
  assert (Hn : 0 < n) by apply R.
  pose proof (touch_arch m st x n Hm O R) as T.
  assert (Htop' : x + n < 2 ^ 64).
  { destruct R as (_ & _ & R3). destruct (R3 (x + n - 1) ltac:(clear - Hn; lia)) as (i0 & g0 & Hi0 & Hu0 & Hr0).
    destruct (so_range m g0 (lo_seg m _ L i0 g0 Hi0 Hu0)) as (_ & _ & Q). clear - Hr0 Q. lia. }
  unfold value_in_arch. replace (65535 <? v) with false by (clear - Hv; lia). cbn [Z.eqb Pos.eqb orb negb].
  rewrite add_ovf_none by assumption.
  match goal with |- context [app_range_loop m x n ?bd st] => set (body := bd) end.
  destruct (app_range_loop_ind m x n body
    (fun q s => q <= x + n /\ ext m st s /\ (forall a, cont m s a = cont m st a) /\ only m st s x (q - x) /\
       forall j, 0 <= j < nshadow m (q - x) -> cont m st (sbyte m x j) <> Some v)
    (fun s r => ext m st s /\ (forall a, cont m s a = cont m st a) /\ only m st s x n /\ fst r = S_ok /\
       exists y, snd r = Some y /\ found_at m st x n v (Some y)) st Hx Hn Htop Hlast) as (a' & o & E & Ho).
  - intros p k s Hp Hk Hpk Hblk A1 A2 (Hq & X & C & ON & NF).
    destruct (T s p X) as (s1 & E1 & X1 & C1 & L1 & ON1); [clear - Hp Hk Hpk; lia|].
    assert (X2 : ext m st s1) by (eapply ext_trans; eauto).
    destruct (chunk_at m st s1 x n p k Hm O R W X2 L1 Hp Hk Hpk Hblk A1 A2) as (N & i & g & b & Hi & Hu & SP & CK).
    destruct (whole_step m x n p k W A1 A2) as (Mp & Mk).
    assert (Mpx : (p - x) mod den (sc m) = 0).
    { rewrite Zminus_mod, Mp, (proj1 W). destruct (sc m); reflexivity. }
    assert (Ep : forall j, 0 <= j -> x + (nshadow m (p - x) + j) * den (sc m) / num (sc m)
                                = p + j * den (sc m) / num (sc m)).
    { intros j Hj. pose proof (scale_exact (sc m) (p - x) Mpx) as EE. unfold nshadow. revert EE.
      generalize ((p - x) * num (sc m) / den (sc m)). intros D EE. clear - EE Hj.
      destruct (sc m); cbn [num den] in *; lia. }
    assert (ON2 : only m st s1 x (p + k - x)).
    { apply (only_trans m st s s1 x (p - x) p 1); try assumption; clear - Hp Hk; lia. }
    assert (OQ : forall s', only m st s' x (p - x) -> only m st s' x (p + k - x)).
    { intros s' H. apply (only_trans m st s' s' x (p - x) p 1); [exact H|apply only_refl| | | |]; clear - Hp Hk; lia. }
    assert (OW : forall s' q, only m st s' x q -> q <= n -> only m st s' x n).
    { intros s' q H Hq'. replace n with (x + n - x) by ring. apply (only_trans m st s' s' x q x 0); [exact H|apply only_refl| | | |]; clear - Hn Hq'; lia. }
    destruct CK. unfold body. unfold touch in E1. revert E1.
    rewrite exist_liveb by apply X. cbn [bind].
    destruct (liveb m s (xl8 m p)) eqn:El; cbn [negb].
    + intros E1. injection E1 as <-. rewrite ck_n.
      rewrite (Z.mod_small v 256) by (clear - Hv; lia).
      destruct (m_chr_ok (Z.to_nat N) (sm s) (xl8 m p) v) as (r & Er & Hr).
      { intros j Hj. destruct (liveb_mapped m s (xl8 m p + j)) as (w & -> & _); [apply X|apply ck_live; clear - Hj; lia|discriminate]. }
      cbv zeta. rewrite Er. cbn [bind]. destruct r as [a|].
      * destruct Hr as (Ha & Hva & Hlt). rewrite Z2Nat.id in Ha by (clear - ck_pos; lia).
        set (j := a - xl8 m p). assert (Hj : 0 <= j < N) by (unfold j; clear - Ha; lia).
        assert (Hta : to_app (sc m) j = j * den (sc m) / num (sc m)).
        { apply to_app_eq. split; [apply Hj|]. apply Z.lt_trans with N; [apply Hj|].
          rewrite <- ck_n. pose proof (sp_hi m g p k b SP). pose proof (sp_lo m g p k b SP).
          apply Z.le_lt_trans with (sh_bs m); [clear - H H0; lia|]. rewrite sh_bs_eq. destruct (sc m); reflexivity. }
        assert (Hjk : 0 <= j * den (sc m) / num (sc m) < k).
        { rewrite <- ck_n, (sp_n m g p k b SP) in Hj. clear - Hj. destruct (sc m); cbn [num den] in *; lia. }
        rewrite Hta, !w64_small by (clear - Hjk Hp Hk Hpk Hx Htop'; lia).
        replace (x + n <? p + j * den (sc m) / num (sc m)) with false by (clear - Hjk Hpk; lia).
        eexists _, (Some _). split; [reflexivity|]. split; [exact X|]. split; [exact C|].
        split; [apply (OW _ _ ON); clear - Hk Hpk; lia|]. split; [reflexivity|].
        eexists. split; [reflexivity|]. cbn [found_at].
        exists (nshadow m (p - x) + j). split; [clear - Hj ck_le ck_ge; lia|].
        split; [symmetry; apply Ep; apply Hj|]. split.
        { rewrite ck_b by exact Hj. rewrite <- C. rewrite cont_live by (apply ck_live; exact Hj).
          rewrite <- Hva. f_equal. unfold j. ring. }
        intros j' Hj'. destruct (Z_lt_dec j' (nshadow m (p - x))) as [Hl|Hg].
        { apply NF. clear - Hj' Hl; lia. }
        replace j' with (nshadow m (p - x) + (j' - nshadow m (p - x))) by ring.
        rewrite ck_b by (clear - Hj' Hg Hj; lia). rewrite <- C, cont_live by (apply ck_live; clear - Hj' Hg Hj; lia).
        apply Hlt. unfold j in Hj'. clear - Hj' Hg. lia.
      * rewrite Z2Nat.id in Hr by (clear - ck_pos; lia).
        eexists _, None. split; [reflexivity|]. split; [exact Hpk|]. split; [exact X|]. split; [exact C|].
        split; [exact (OQ _ ON)|].
        intros j Hj. rewrite ck_end in Hj. destruct (Z_lt_dec j (nshadow m (p - x))) as [Hl|Hg].
        { apply NF. clear - Hj Hl; lia. }
        replace j with (nshadow m (p - x) + (j - nshadow m (p - x))) by ring.
        rewrite ck_b by (clear - Hj Hg; lia). rewrite <- C, cont_live by (apply ck_live; clear - Hj Hg; lia).
        apply Hr. clear - Hj Hg. lia.
    + rewrite (mo_touch m Hm). cbn [negb]. intros E1.
      destruct (create_arch m s (p - p mod app_bs m) (app_bs m) (dflt m)) as [[s' stt]| |] eqn:Ec; try discriminate.
      cbn [bind] in E1 |- *. destruct (is_ok stt) eqn:Eo; [|discriminate]. injection E1 as ->. cbn [negb].
      (* every shadow byte of the chunk shows the default *)
      assert (DF : forall j, 0 <= j < N -> cont m st (xl8 m p + j) = Some (dflt m)).
      { intros j Hj. rewrite <- C. unfold cont.
        replace (liveb m s (xl8 m p + j)) with false; [reflexivity|]. symmetry.
        destruct X1 as (SL & _ & _).
        destruct (same_layout_back _ _ i g SL Hi) as (g0 & Hi0 & Eg).
        apply with_bits_inv in Eg as (E1 & E2 & E3 & E4 & E5 & E6 & E7 & E8 & E9).
        assert (Ls : layout_ok m (segs s)) by apply X.
        destruct SP. rewrite ck_n in *.
        rewrite (liveb_block m s i g0 b (xl8 m p + j) Ls Hi0);
          [|congruence|exact sp_k|rewrite E5, E6; exact sp_se|rewrite E5; clear - sp_lo sp_hi Hj; lia].
        rewrite <- El. symmetry. apply (liveb_block m s i g0 b _ Ls Hi0);
          [congruence|exact sp_k|rewrite E5, E6; exact sp_se|rewrite E5; clear - sp_lo sp_hi sp_pos; lia]. }
      rewrite andb_true_r.
      destruct (v =? dflt m) eqn:Ev.
      * apply Z.eqb_eq in Ev. eexists _, (Some _). split; [reflexivity|]. split; [exact X2|].
        split; [intros a; rewrite C1; apply C|]. split; [apply (OW _ _ ON2); clear - Hpk; lia|]. split; [reflexivity|]. eexists. split; [reflexivity|].
        cbn [found_at]. exists (nshadow m (p - x) + 0). split; [clear - ck_ge ck_le ck_pos; lia|].
        split; [rewrite Ep by (clear; lia); destruct (sc m); cbn; clear; lia|].
        split; [rewrite ck_b by (clear - ck_pos; lia); rewrite DF by (clear - ck_pos; lia); congruence|].
        intros j Hj. apply NF. clear - Hj. lia.
      * eexists _, None. split; [reflexivity|]. split; [exact Hpk|]. split; [exact X2|].
        split; [intros a; rewrite C1; apply C|]. split; [exact ON2|].
        intros j Hj. rewrite ck_end in Hj. destruct (Z_lt_dec j (nshadow m (p - x))) as [Hl|Hg].
        { apply NF. clear - Hj Hl; lia. }
        replace j with (nshadow m (p - x) + (j - nshadow m (p - x))) by ring.
        rewrite ck_b by (clear - Hj Hg; lia). rewrite DF by (clear - Hj Hg; lia).
        intros Q. injection Q as Q. clear - Q Ev. lia.
  - split; [clear - Hn; lia|]. split; [apply ext_refl; exact O|]. split; [reflexivity|]. split; [apply only_refl|].
    rewrite Z.sub_diag, nshadow_0. intros; lia.
  - rewrite E. cbn [bind]. destruct o as [[s' f]|].
    + destruct Ho as (X & C & ON & Hs & y & Hy & HF). cbn [fst snd] in Hs, Hy. subst s' f.
      exists a', (Some y). auto 6.
    + replace (x + n - x) with n in Ho by ring. destruct Ho as (_ & X & C & ON & NF).
      exists a', None. auto 6.
Qed.

(** Block queries. *)
Lemma get_type_ok m st i g a : state_ok m st -> nth_error (segs st) i = Some g -> used g = true ->
  sb g <= a < se g -> ~ at_edge (segs st) a -> get_type m st a = Ok (if liveb m st a then Normal else NotAlloc).
Proof.
  intros O Hi Hu Ha NE. pose proof (state_layout m st O) as L. unfold get_type.
  assert (G : forall l, incl l (segs st) -> In g l ->
            get_type_in m st a l = Ok (if liveb m st a then Normal else NotAlloc)).
  { induction l as [|h l IH]; intros Hin Hg; [destruct Hg|]. cbn [get_type_in].
    destruct (In_nth_error (segs st) h (Hin h (or_introl eq_refl))) as (j & Hj).
    assert (N1 : ~ ab h <= a < ae h) by (intros X; exact (lo_app_sh m _ L j i h g Hj Hi Hu a X Ha)).
    assert (N3 : re h <> a) by (intros X; apply NE; exists j, h; auto).
    assert (N2 : ~ rb h <= a < re h) by (intros X; exact (lo_res_sh m _ L j i h g Hj Hi Hu a X Ha)).
    replace ((ab h <=? a) && (a <? ae h) || (rb h <=? a) && (a <=? re h)) with false by (clear - N1 N2 N3; lia).
    rewrite (exist_liveb m st a L). cbn [bind].
    destruct ((sb h <=? a) && (a <=? se h)) eqn:Es; [reflexivity|].
    apply IH.
    - intros z Hz. apply Hin. right. exact Hz.
    - destruct Hg as [->|Hg]; [exfalso; clear - Ha Es; lia|exact Hg]. }
  apply G; [apply incl_refl|]. eapply nth_error_In; eauto.
Qed.

Lemma get_info_ok m st y : map_ok m -> state_ok m st -> in_app (segs st) y ->
  exists b, y - y mod app_bs m = b /\
    (~ at_edge (segs st) (first_shadow m b) -> get_shadow_memory m st y =
      Ok (first_shadow m y, Info b (app_bs m) (first_shadow m b) (sh_bs m)
            (if liveb m st (first_shadow m y) then Normal else NotAlloc))) /\
    in_app (segs st) b /\
    (forall z a, b <= z < b + app_bs m -> shadow_of m z a ->
        first_shadow m b <= a < first_shadow m b + sh_bs m /\
        liveb m st a = liveb m st (first_shadow m y)).
Proof.
  intros Hm O Hy. pose proof (state_layout m st O) as L.
  destruct (in_app_at m (segs st) y L Hy) as (i & g & Hi & Hu & Hr & S1).
  destruct (so_range m g S1) as (R0 & R1 & R2).
  pose proof (app_bs_pos m) as Hbs.
  set (b := y - y mod app_bs m).
  pose proof (Z.mod_pos_bound y (app_bs m) Hbs) as Hmp.
  assert (Hbm : b mod app_bs m = 0).
  { unfold b. rewrite Zminus_mod, Z.mod_mod, Z.sub_diag by (clear - Hbs; lia). apply Z.mod_0_l. clear - Hbs; lia. }
  assert (Hb : ab g <= b <= y).
  { split; [|unfold b; clear - Hmp; lia].
    pose proof (mod_bs_22 m (ab g) (so_base m g S1)) as A.
    apply Z.div_exact in A; [|clear - Hbs; lia].
    pose proof (Z.div_mod y (app_bs m) ltac:(clear - Hbs; lia)) as D.
    assert (H0 : ab g / app_bs m <= y / app_bs m) by (apply Z.div_le_mono; [exact Hbs|clear - Hr; lia]).
    unfold b. clear - A D H0 Hbs Hmp. set (q := y mod app_bs m) in *. revert A D H0 Hmp.
    generalize (ab g / app_bs m) (y / app_bs m). intros. nia. }
  destruct (span m g b (app_bs m) Hm S1) as (k & SP).
  { clear - Hb Hr; lia. } { exact Hbs. } { rewrite Hbm; clear; lia. }
  { apply mod_den_bs; exact Hbm. } { apply mod_den_bs, Z.mod_same. clear - Hbs; lia. }
  assert (X : forall z, ab g <= z < ae g -> xl8 m z = first_shadow m z).
  { intros z Hz. apply xl8_eq; [exact Hm|]. eapply seg_special; eauto. }
  assert (Hxb : first_shadow m b = sb g + k * sh_bs m).
  { rewrite <- X by (clear - Hb Hr; lia). rewrite <- (sp_blk m g b _ k SP), Hbm, Z.sub_0_r. reflexivity. }
  assert (Hts : to_shadow (sc m) (app_bs m) = sh_bs m).
  { rewrite (sp_n m g b _ k SP). replace (app_bs m) with (app_bs m * 1) at 1 by ring. rewrite scale_block. ring. }
  assert (BL : forall z a, b <= z < b + app_bs m -> shadow_of m z a -> in_blk m g k a).
  { intros z a Hz Hs. assert (Q : exists y, b <= y < b + app_bs m /\ shadow_of m y a) by eauto.
    apply (sp_run m g b _ k SP) in Q. rewrite Hts, X, Hxb in Q by (clear - Hb Hr; lia). unfold in_blk. clear - Q. lia. }
  assert (SY : shadow_of m y (first_shadow m y)).
  { unfold shadow_of. pose proof (num_pos (sc m)). clear - H. lia. }
  assert (SB : shadow_of m b (first_shadow m b)).
  { unfold shadow_of. pose proof (num_pos (sc m)). clear - H. lia. }
  assert (Hyb : b <= y < b + app_bs m) by (unfold b; clear - Hmp; lia).
  assert (EL : forall a, in_blk m g k a -> liveb m st a = bit_in (k / 8, k mod 8) (bits g)).
  { intros a Ha. apply (liveb_block m st i g k a L Hi Hu); [apply SP|apply SP|exact Ha]. }
  exists b. split; [reflexivity|]. split; [|split].
  - intros NE. unfold get_shadow_memory. rewrite align_back_app by (clear - Hr R0 R2; lia). fold b.
    rewrite (X b) by (clear - Hb Hr; lia). rewrite (X y) by exact Hr.
    rewrite (get_type_ok m st i g _ O Hi Hu); [| |exact NE].
    2:{ eapply seg_shadow_in; [exact Hm|exact S1| |exact SB]. clear - Hb Hr; lia. }
    cbn [bind]. rewrite (EL (first_shadow m b)) by (apply (BL b); [clear - Hbs; lia|exact SB]).
    rewrite (EL (first_shadow m y)) by (apply (BL y); assumption). reflexivity.
  - exists i, g. split; [exact Hi|]. split; [exact Hu|]. clear - Hb Hr; lia.
  - intros z a Hz Hs. pose proof (BL z a Hz Hs) as B. split; [unfold in_blk in B; rewrite Hxb; clear - B; lia|].
    rewrite (EL a B), (EL (first_shadow m y)) by (apply (BL y); assumption). reflexivity.
Qed.
