(** Range setting, block creation and create-on-touch. *)
From Verif Require Import Base Mem Umbra_Model Umbra_Spec Umbra_Proofs1 Umbra_Proofs2 Umbra_Proofs3.
Open Scope Z_scope.

Definition touch_ok (m : umap) (cr : ustate -> Z -> Z -> Z -> res (ustate * status))
           (st0 : ustate) (x n : Z) : Prop :=
  forall st p, ext m st0 st -> x <= p < x + n ->
    exists st', touch cr m st (xl8 m p) (p - p mod app_bs m) = Ok (st', None) /\
      ext m st st' /\ (forall a, cont m st' a = cont m st a) /\ liveb m st' (xl8 m p) = true /\
      only m st st' p 1.

Lemma mod_den_bs m p : p mod app_bs m = 0 -> p mod den (sc m) = 0.
Proof.
  intros H. pose proof (app_bs_pos m). apply Z.mod_divide; [destruct (sc m); discriminate|].
  apply Z.mod_divide in H; [|lia]. eapply Z.divide_trans; [|exact H].
  rewrite app_bs_eq. exists ALLOC_UNIT. reflexivity.
Qed.

Lemma whole_step m x N p n : whole m x N ->
  (p = x \/ p mod app_bs m = 0) -> (p + n = x + N \/ (p + n) mod app_bs m = 0) ->
  p mod den (sc m) = 0 /\ n mod den (sc m) = 0.
Proof.
  intros [W1 W2] Hp Hn.
  assert (Mp : p mod den (sc m) = 0) by (destruct Hp as [->|Hp]; [exact W1|apply mod_den_bs; exact Hp]).
  assert (Mq : (p + n) mod den (sc m) = 0).
  { destruct Hn as [->|Hn]; [apply mod_add_den; assumption|apply mod_den_bs; exact Hn]. }
  split; [exact Mp|]. replace n with (p + n - p) by ring. rewrite Zminus_mod, Mq, Mp.
  destruct (sc m); reflexivity.
Qed.

(** A range inside live memory of one block. *)
Lemma live_run m st i g p n k : state_ok m st -> nth_error (segs st) i = Some g -> used g = true ->
  span_at m g p n k -> liveb m st (xl8 m p) = true ->
  forall a, xl8 m p <= a < xl8 m p + to_shadow (sc m) n -> liveb m st a = true.
Proof.
  intros O Hi Hu S Hl a Ha. pose proof (state_layout m st O) as L. destruct S.
  assert (B : liveb m st (xl8 m p) = bit_in (k / 8, k mod 8) (bits g)).
  { apply (liveb_block m st i g k (xl8 m p) L Hi Hu sp_k sp_se). clear - sp_lo sp_hi sp_pos. lia. }
  rewrite (liveb_block m st i g k a L Hi Hu sp_k sp_se); [congruence|]. clear - sp_lo sp_hi sp_pos Ha. lia.
Qed.

(** Writing a run of live shadow bytes. *)
Lemma put_run m st i g p n k (f : Z -> option Z) : state_ok m st -> nth_error (segs st) i = Some g ->
  used g = true -> span_at m g p n k -> liveb m st (xl8 m p) = true ->
  (forall a, xl8 m p <= a < xl8 m p + to_shadow (sc m) n -> exists v, f a = Some v /\ 0 <= v < 256) ->
  let st' := with_sm st (fun x => if (xl8 m p <=? x) && (x <? xl8 m p + to_shadow (sc m) n)
                                  then f x else sm st x) in
  ext m st st' /\
  (forall y a, p <= y < p + n -> shadow_of m y a -> cont m st' a = f a) /\
  (forall a, ~ (exists y, p <= y < p + n /\ shadow_of m y a) -> cont m st' a = cont m st a).
Proof.
  intros O Hi Hu S Hl Hf st'.
  assert (Hlive := live_run m st i g p n k O Hi Hu S Hl).
  split; [|split].
  - apply ext_put; [exact O| |].
    + intros a v E. destruct ((xl8 m p <=? a) && (a <? xl8 m p + to_shadow (sc m) n)) eqn:C; [|auto].
      destruct (Hf a) as (w & Hw & Hb); [clear - C; lia|]. right. congruence.
    + intros a Ha E. destruct ((xl8 m p <=? a) && (a <? xl8 m p + to_shadow (sc m) n)) eqn:C; [|auto].
      destruct (Hf a) as (w & Hw & Hb); [clear - C; lia|]. congruence.
  - intros y a Hy Hs. assert (Ha : xl8 m p <= a < xl8 m p + to_shadow (sc m) n).
    { apply (Umbra_Proofs3.sp_run m g p n k S). exists y. auto. }
    unfold cont. change (liveb m st' a) with (liveb m st a). rewrite (Hlive a Ha). cbn [sm with_sm st'].
    replace ((xl8 m p <=? a) && (a <? xl8 m p + to_shadow (sc m) n)) with true by (clear - Ha; lia).
    reflexivity.
  - intros a Ha. unfold cont. change (liveb m st' a) with (liveb m st a). destruct (liveb m st a); [|reflexivity].
    cbn [sm with_sm st'].
    destruct ((xl8 m p <=? a) && (a <? xl8 m p + to_shadow (sc m) n)) eqn:C; [|reflexivity].
    exfalso. apply Ha. apply (Umbra_Proofs3.sp_run m g p n k S). clear - C. lia.
Qed.

Definition sets (m : umap) (st st' : ustate) (x n v : Z) : Prop :=
  ext m st st' /\
  (forall y a, x <= y < x + n -> shadow_of m y a -> cont m st' a = Some v) /\
  (forall a, ~ (exists y, x <= y < x + n /\ shadow_of m y a) -> cont m st' a = cont m st a) /\
  only m st st' x n /\ made m st' x n.

Lemma app_range_top m ss x n : layout_ok m ss -> app_range ss x n -> 0 <= x /\ x + n <= 2 ^ 64.
Proof.
  intros L (H0 & H1 & H2). split; [exact H0|].
  destruct (in_app_bound m ss (x + n - 1) L (H2 (x + n - 1) ltac:(lia))). lia.
Qed.

Lemma in_app_at m ss p : layout_ok m ss -> in_app ss p -> exists i g,
  nth_error ss i = Some g /\ used g = true /\ ab g <= p < ae g /\ seg_ok m g.
Proof. intros L (i & g & Hi & Hu & Hr). exists i, g. split; [exact Hi|]. split; [exact Hu|]. split; [exact Hr|]. exact (lo_seg m ss L i g Hi Hu). Qed.

Lemma pos_dec m g p n k a : span_at m g p n k ->
  {exists y, p <= y < p + n /\ shadow_of m y a} + {~ exists y, p <= y < p + n /\ shadow_of m y a}.
Proof.
  intros S. pose proof (Umbra_Proofs3.sp_run m g p n k S a) as R.
  destruct (Z_le_dec (xl8 m p) a) as [A|A]; [destruct (Z_lt_dec a (xl8 m p + to_shadow (sc m) n)) as [B|B]|].
  - left. apply R. auto.
  - right. intros X. apply R in X. lia.
  - right. intros X. apply R in X. lia.
Qed.

Ltac qlia := repeat match goal with
  | H : context [_ mod _] |- _ => clear H
  | H : context [_ / _] |- _ => clear H end; lia.

Lemma set_range_gen m d st x n v : map_ok m -> state_ok m st -> app_range (segs st) x n ->
  whole m x n -> (x + n - 1) mod app_bs m <> 0 -> 0 <= v <= 255 ->
  touch_ok m (create_with (fun st a n v =>
                let* r := set_range_d d m st a n v in
                let '(st', s, _) := r in Ok (st', s)) m) st x n ->
  exists st', set_range_d (S d) m st x n v = Ok (st', S_ok, n * num (sc m) / den (sc m)) /\
    sets m st st' x n v.
Proof.
  intros Hm O R W Hlast Hv T.
  pose proof (state_layout m st O) as L. destruct (app_range_top m _ x n L R) as (Hx & Htop).
  destruct R as (_ & Hn & Hin).
  set (cr := create_with _ m) in *.
  cbn [set_range_d]. fold cr.
  replace (255 <? v) with false by qlia. rewrite add_ovf_none by assumption.
  destruct (app_range_loop_ind m x n
    (fun blk start iter (a : ustate * Z) =>
           let '(st, tot) := a in
           let* t := touch cr m st (xl8 m start) blk in
           match t with
           | (st', Some s) => Ok ((st', tot), Some s)
           | (st', None) =>
             let* mm := m_set (sm st') (xl8 m start) v (to_shadow (sc m) iter) in
             Ok ((with_sm st' mm, tot + to_shadow (sc m) iter), None)
           end)
    (fun q a => sets m st (fst a) x (q - x) v /\ snd a = (q - x) * num (sc m) / den (sc m))
    (fun _ (_ : status) => False) (st, 0) Hx Hn Htop Hlast) as (a' & o & E & Ho).
  - intros p k [s tot] Hp Hk Hpk Hblk Hal1 Hal2 (HS & Ht). cbn [fst snd] in *.
    destruct HS as (X & C1 & C2 & ON & MK).
    destruct (whole_step m x n p k W Hal1 Hal2) as (Mp & Mk).
    destruct (T s p X ltac:(qlia)) as (s1 & E1 & X1 & C3 & L1 & ON1).
    rewrite E1. cbn [bind].
    destruct (in_app_at m (segs s1) p) as (i & g & Hi & Hu & Hr & S1).
    { apply X1. } { eapply in_app_same; [apply X1|]. eapply in_app_same; [apply X|]. apply Hin. qlia. }
    destruct (span m g p k Hm S1 Hr Hk Hblk Mp Mk) as (b & SP).
    assert (O1 : state_ok m s1) by apply X1.
    assert (Hlive := live_run m s1 i g p k b O1 Hi Hu SP L1).
    rewrite m_set_ok.
    2:{ intros a Ha. destruct (liveb_mapped m s1 a O1 (Hlive a Ha)) as (w & -> & _). discriminate. }
    cbn [bind]. eexists _, None. split; [reflexivity|]. cbn [fst snd].
    destruct (put_run m s1 i g p k b (fun _ => Some v) O1 Hi Hu SP L1) as (X2 & P1 & P2).
    { intros a _. exists v. split; [reflexivity|qlia]. }
    set (s2 := with_sm s1 _) in *. cbv zeta in *. fold s2 in X2, P1, P2.
    split; [split; [|split; [|split; [|split]]]|].
    + apply (ext_trans m st s); [exact X|]. apply (ext_trans m s s1); assumption.
    + intros y a Hy Hs. destruct (pos_dec m g p k b a SP) as [D|D].
      * destruct D as (y' & Hy' & Hs'). apply (P1 y'); assumption.
      * rewrite P2 by exact D. rewrite C3. apply (C1 y); [|exact Hs].
        destruct (Z_lt_dec y p); [qlia|]. exfalso. apply D. exists y. split; [qlia|exact Hs].
    + intros a Ha. rewrite P2.
      * rewrite C3. apply C2. intros (y & Hy & Hs). apply Ha. exists y. split; [qlia|exact Hs].
      * intros (y & Hy & Hs). apply Ha. exists y. split; [qlia|exact Hs].
    + replace (p + k - x) with (p + k - x) by ring. apply (only_same m st s1); [reflexivity|].
      apply (only_trans m st s s1 x (p - x) p 1); try assumption; qlia.
    + apply (made_ext m s1 s2); [exact X2|]. apply (made_app m s1 x (p - x)); [|  |clear; lia].
      * apply (made_ext m s s1); assumption.
      * apply made_chunk; auto. exists i, g. auto.
    + rewrite Ht. rewrite (Umbra_Proofs3.sp_n m g p k b SP).
      replace (p + k - x) with ((p - x) + k) by ring. rewrite scale_add; [reflexivity|qlia|qlia|].
      rewrite Zminus_mod, Mp. destruct W as [W1 _]. rewrite W1. destruct (sc m); reflexivity.
  - cbn [fst snd]. split; [split; [|split; [|split; [|split]]]|].
    + apply ext_refl. exact O.
    + intros y a Hy. qlia.
    + reflexivity.
    + apply only_refl.
    + apply made_nil. clear; lia.
    + rewrite Z.sub_diag, Z.mul_0_l. destruct (sc m); reflexivity.
  - rewrite E. cbn [bind]. destruct a' as [s tot]. destruct o as [b|]; [contradiction|].
    cbn [fst snd] in Ho. replace (x + n - x) with n in Ho by ring. destruct Ho as [HS ->].
    exists s. split; [reflexivity|exact HS].
Qed.

(** Setting a range whose blocks all exist needs no creation. *)
Lemma touch_live m cr st x n : (forall s p, ext m st s -> x <= p < x + n -> liveb m s (xl8 m p) = true) ->
  touch_ok m cr st x n.
Proof.
  intros H s p X Hp. exists s. unfold touch. rewrite exist_liveb by apply X.
  rewrite (H s p X Hp). cbn [bind]. split; [reflexivity|]. split; [apply ext_refl; apply X|].
  split; [reflexivity|]. split; [auto|]. apply only_refl.
Qed.

Lemma set_nth_self {A} i (x : A) l : nth_error l i = Some x -> set_nth i x l = l.
Proof. revert i. induction l as [|y l IH]; intros [|i] H; cbn in *; try discriminate; [congruence|]. rewrite IH; auto. Qed.

Lemma nth_of_error {A} (l : list A) i x d : nth_error l i = Some x -> nth i l d = x.
Proof. intros H. apply nth_error_nth. exact H. Qed.

(** Adding an application range that lies inside a segment in use changes
    nothing. *)
Lemma add_app_inside m mo ss i g base size : layout_ok m ss ->
  nth_error ss i = Some g -> used g = true -> ab g <= base -> 0 < size -> base + size <= ae g ->
  add_app_segment mo base size ss = (ss, true).
Proof.
  intros L Hi Hu H1 H2 H3. unfold add_app_segment.
  destruct (so_range m g (lo_seg m ss L i g Hi Hu)) as (R0 & R1 & R2).
  assert (G : forall n j, (j <= i)%nat -> (i < j + n)%nat ->
            add_app_loop n j mo base size ss = (ss, true)).
  { induction n as [|n IH]; intros j Hj Hn; [lia|]. cbn [add_app_loop].
    rewrite (w64_small (base + size)) by lia.
    destruct (Nat.eq_dec j i) as [->|Hne].
    - rewrite (nth_of_error ss i g empty_seg Hi).
      replace (ae g =? 0) with false by lia. cbn [negb].
      replace ((ab g <=? base) && (base + size <=? ae g)) with true by lia.
      rewrite set_nth_self; [reflexivity|]. rewrite Hi. f_equal. destruct g; cbn in *. rewrite Hu. reflexivity.
    - destruct (nth_error ss j) as [h|] eqn:Ej.
      2:{ exfalso. apply nth_error_None in Ej. assert (nth_error ss i <> None) by congruence.
          apply nth_error_Some in H. lia. }
      rewrite (nth_of_error ss j h empty_seg Ej).
      pose proof (lo_compact m ss L j i h g Ej Hi ltac:(lia) Hu) as Hae.
      pose proof (lo_app m ss L j i h g Ej Hi Hne Hu) as D.
      replace (ae h =? 0) with false by lia. cbn [negb].
      assert (D1 : ~ (ab h <= base < ae h)) by (intros X; apply (D base); lia).
      assert (D2 : ~ (ab h <= base + size - 1 < ae h)) by (intros X; apply (D (base + size - 1)); lia).
      replace ((ab h <=? base) && (base + size <=? ae h)) with false by lia.
      replace ((ab h <? base + size) && (base + size <? ae h)) with false by lia.
      replace ((ab h <? base) && (base <? ae h)) with false by lia.
      apply IH; lia. }
  apply G; [lia|]. cbn. apply nth_error_Some. congruence.
Qed.

(** Creating the missing block around [p]. *)
Lemma create_block m d st i g p n k : map_ok m -> state_ok m st ->
  nth_error (segs st) i = Some g -> used g = true -> span_at m g p n k -> 0 <= p < 2 ^ 64 ->
  liveb m st (xl8 m p) = false ->
  exists st', create_with (fun st a n v =>
                let* r := set_range_d (S d) m st a n v in
                let '(st', s, _) := r in Ok (st', s)) m st (p - p mod app_bs m) (app_bs m) (dflt m)
      = Ok (st', S_ok) /\
    ext m st st' /\ (forall a, cont m st' a = cont m st a) /\ liveb m st' (xl8 m p) = true /\
    only m st st' p 1.
Proof.
  intros Hm O Hi Hu SP Hp Hl.
  pose proof (state_layout m st O) as L. pose proof (lo_seg m _ L i g Hi Hu) as S1.
  destruct (so_range m g S1) as (R0 & R1 & R2).
  pose proof (app_bs_pos m) as Hbs. pose proof (sh_bs_pos m) as Hsb.
  pose proof (Z.mod_pos_bound p (app_bs m) Hbs) as Hr.
  set (b := p - p mod app_bs m) in *.
  assert (Hbm : b mod app_bs m = 0).
  { unfold b. rewrite Zminus_mod, Z.mod_mod, Z.sub_diag by (clear - Hbs; lia). apply Z.mod_0_l. clear - Hbs; lia. }
  destruct SP. fold b in sp_blk, sp_b1, sp_b2.
  assert (Hbp : b <= p < b + app_bs m) by (unfold b; clear - Hr; lia).
  destruct (mo_dflt m Hm) as (D0 & D1).
  assert (Hlk : liveb m st (sb g + k * sh_bs m) = false).
  { rewrite <- Hl. rewrite (liveb_block m st i g k (xl8 m p) L Hi Hu sp_k sp_se) by (clear - sp_lo sp_hi sp_pos; lia).
    apply (liveb_block m st i g k _ L Hi Hu sp_k sp_se). clear - Hsb. lia. }
  destruct (alloc_block_new m st i g k Hm O Hi Hu sp_k sp_se Hlk) as (st1 & A1 & X1 & In1 & Out1).
  assert (Hi1 : exists g1, nth_error (segs st1) i = Some g1 /\ with_bits g [] = with_bits g1 []).
  { destruct X1 as (SL & _). apply same_layout_sym in SL.
    destruct (same_layout_back _ _ i g SL Hi) as (g1 & H1 & H2). eauto. }
  destruct Hi1 as (g1 & Hi1 & Eg1).
  assert (O1 : state_ok m st1) by apply X1.
  (* the inner range setter *)
  assert (AR : app_range (segs st1) b (app_bs m)).
  { split; [clear - sp_b1 R0; lia|]. split; [exact Hbs|]. intros y Hy.
    eapply in_app_same; [apply X1|]. exists i, g. split; [exact Hi|]. split; [exact Hu|]. clear - Hy sp_b1 sp_b2; lia. }
  assert (W : whole m b (app_bs m)).
  { split; [apply mod_den_bs; exact Hbm|apply mod_den_bs, Z.mod_same; clear - Hbs; lia]. }
  assert (Hlast : (b + app_bs m - 1) mod app_bs m <> 0).
  { replace (b + app_bs m - 1) with (app_bs m - 1 + b) by ring.
    apply Z.div_exact in Hbm; [|clear - Hbs; lia]. rewrite Hbm, Z.mul_comm, Z_mod_plus_full.
    destruct (app_bs_vals m) as [E|[E|[E|E]]]; rewrite E; discriminate. }
  assert (Sb : exists kb, span_at m g1 b (app_bs m) kb /\ kb = k).
  { destruct (span m g b (app_bs m) Hm S1) as (kb & SPb).
    - clear - sp_b1 sp_b2 Hbs; lia.
    - exact Hbs.
    - rewrite Hbm. clear; lia.
    - apply W.
    - apply W.
    - assert (kb = k).
      { destruct SPb. rewrite Hbm, Z.sub_0_r in sp_blk0. rewrite sp_blk in sp_blk0.
        assert (k * sh_bs m = kb * sh_bs m) by (clear - sp_blk0; lia).
        apply Z.mul_reg_r in H; [symmetry; exact H|clear - Hsb; lia]. }
      exists kb. split; [|exact H].
      apply with_bits_inv in Eg1 as (E1 & E2 & E3 & E4 & E5 & E6 & E7 & E8 & E9).
      destruct SPb. constructor; rewrite <- ?E1, <- ?E2, <- ?E5, <- ?E6; assumption. }
  destruct Sb as (kb & SPb & ->).
  assert (Hu1 : used g1 = true) by (apply with_bits_inv in Eg1; intuition congruence).
  assert (Hxb : xl8 m b = sb g + k * sh_bs m) by exact sp_blk.
  destruct (set_range_gen m d st1 b (app_bs m) (dflt m) Hm O1 AR W Hlast ltac:(clear - D0 D1; lia)) as (st2 & E2 & X2 & C1 & C2 & ON2 & _).
  { apply touch_live. intros s q Xs Hq. destruct Xs as (_ & _ & Lm). apply Lm.
    apply In1. unfold in_blk.
    assert (Hq1 : ab g <= q < ae g) by (clear - Hq sp_b1 sp_b2; lia).
    assert (shadow_of m q (xl8 m q)).
    { unfold shadow_of. rewrite <- xl8_eq by (eauto using seg_special).
      pose proof (num_pos (sc m)). clear - H. lia. }
    assert (Hru : xl8 m b <= xl8 m q < xl8 m b + to_shadow (sc m) (app_bs m)).
    { apply (Umbra_Proofs3.sp_run m g1 b (app_bs m) k SPb). exists q. auto. }
    pose proof (Umbra_Proofs3.sp_hi m g1 b _ k SPb) as Hh. apply with_bits_inv in Eg1 as (_ & _ & _ & _ & E5 & _).
    rewrite <- E5 in Hh. rewrite Hxb in *. clear - Hru Hh. lia. }
  unfold create_with. replace (255 <=? dflt m) with false by (clear - D0 D1; lia).
  rewrite add_ovf_none by (clear - sp_b1 sp_b2 R0 R2 Hbs; lia).
  rewrite (add_app_inside m (Some m) (segs st) i g b (app_bs m) L Hi Hu sp_b1 Hbs sp_b2). cbn [negb].
  replace (with_segs st (segs st)) with st by (destruct st; reflexivity).
  destruct (app_range_loop_ind m b (app_bs m)
    (fun blk start iter st =>
           let* st1 := alloc_block m st (xl8 m blk) in
           let* r := let* r := set_range_d (S d) m st1 start iter (dflt m) in
                     let '(st', s, _) := r in Ok (st', s) in
           let '(st2, s) := r in
           if is_ok s then Ok (st2, None) else Ok (st2, Some S_error))
    (fun q s => (q = b /\ s = st) \/ (q = b + app_bs m /\ s = st2))
    (fun _ (_ : status) => False) st) as (a' & o & E & Ho).
  - clear - sp_b1 R0; lia.
  - exact Hbs.
  - clear - sp_b2 R2; lia.
  - exact Hlast.
  - intros q j s Hq Hj Hqj Hblk Hal1 Hal2 [[-> ->]|[-> _]]; [|exfalso; clear - Hqj Hj; lia].
    assert (j = app_bs m).
    { destruct Hal2 as [H|H]; [clear - H; lia|].
      rewrite Z.add_mod, Hbm, Z.add_0_l, Z.mod_mod in H by (clear - Hbs; lia).
      destruct (Z.eq_dec j (app_bs m)); [assumption|]. rewrite Z.mod_small in H; clear - H Hj Hqj n0; lia. }
    subst j. rewrite Hbm, Z.sub_0_r. rewrite Hxb, A1. cbn [bind]. rewrite E2. cbn [bind is_ok].
    exists st2, None. split; [reflexivity|]. right. auto.
  - left. auto.
  - rewrite E. cbn [bind]. destruct o as [?|]; [contradiction|].
    destruct Ho as [[Ho _]|[_ ->]]; [exfalso; clear - Ho Hbs; lia|].
    exists st2. split; [reflexivity|]. split; [eapply ext_trans; eauto|].
    assert (Lp : liveb m st1 (xl8 m p) = true).
    { apply In1. unfold in_blk. clear - sp_lo sp_hi sp_pos. lia. }
    split; [|split].
    + intros a. pose proof (Umbra_Proofs3.sp_run m g1 b (app_bs m) k SPb a) as RU.
      destruct (pos_dec m g1 b (app_bs m) k a SPb) as [D|D].
      * assert (Ha : in_blk m g k a).
        { apply RU in D. unfold in_blk. pose proof (Umbra_Proofs3.sp_hi m g1 b _ k SPb) as Hh.
          apply with_bits_inv in Eg1 as (_ & _ & _ & _ & E5 & _). rewrite <- E5 in Hh. rewrite Hxb in *.
          clear - D Hh. lia. }
        assert (liveb m st a = false).
        { rewrite (liveb_block m st i g k a L Hi Hu sp_k sp_se Ha).
          rewrite <- Hlk. symmetry. apply (liveb_block m st i g k _ L Hi Hu sp_k sp_se). clear - Hsb. lia. }
        destruct D as (y & Hy & Hs). rewrite (C1 y a Hy Hs). unfold cont. rewrite H. reflexivity.
      * rewrite (C2 a D). unfold cont.
        assert (Ha : ~ in_blk m g k a).
        { intros X. apply D. apply RU. unfold in_blk in X. rewrite Hxb.
          assert (to_shadow (sc m) (app_bs m) = sh_bs m).
          { rewrite (Umbra_Proofs3.sp_n m g1 b _ k SPb). replace (app_bs m) with (app_bs m * 1) at 1 by ring.
            rewrite scale_block. ring. }
          rewrite H. clear - X. lia. }
        destruct (Out1 a Ha) as (-> & ->). reflexivity.
    + destruct X2 as (_ & _ & Lm). apply Lm. exact Lp.
    + assert (DV : forall y, b <= y < b + app_bs m -> y / app_bs m = p / app_bs m).
      { intros y Hy. apply Z.div_exact in Hbm; [|clear - Hbs; lia].
        rewrite <- (Z.div_unique_pos y (app_bs m) (b / app_bs m) (y - b)) by (clear - Hbm Hy; lia).
        apply (Z.div_unique_pos p (app_bs m) (b / app_bs m) (p - b)); clear - Hbm Hbp; lia. }
      intros a Ha. destruct (ON2 a Ha) as [H1|(y & z & Hy & Hz & Hs)].
      * destruct (liveb m st a) eqn:Ela; [left; reflexivity|right].
        assert (IB : in_blk m g k a).
        { unfold in_blk. destruct (Z_le_dec (sb g + k * sh_bs m) a) as [Q1|Q1]; [destruct (Z_lt_dec a (sb g + (k + 1) * sh_bs m)) as [Q2|Q2]|].
          - split; assumption.
          - exfalso. destruct (Out1 a) as (EE & _); [unfold in_blk; clear - Q2; lia|]. congruence.
          - exfalso. destruct (Out1 a) as (EE & _); [unfold in_blk; clear - Q1; lia|]. congruence. }
        assert (EX : exists y, b <= y < b + app_bs m /\ shadow_of m y a).
        { apply (Umbra_Proofs3.sp_run m g1 b (app_bs m) k SPb a). unfold in_blk in IB. rewrite Hxb.
          assert (TS : to_shadow (sc m) (app_bs m) = sh_bs m).
          { rewrite (Umbra_Proofs3.sp_n m g1 b _ k SPb). replace (app_bs m) with (app_bs m * 1) at 1 by ring.
            rewrite scale_block. ring. }
          rewrite TS. clear - IB. lia. }
        destruct EX as (y & Hy & Hs). exists p, y. split; [clear; lia|]. split; [apply DV; exact Hy|exact Hs].
      * right. exists p, z. split; [clear; lia|]. split; [|exact Hs]. rewrite Hz. apply DV. exact Hy.
Qed.

Lemma touch_create m d st x n : map_ok m -> state_ok m st -> app_range (segs st) x n ->
  touch_ok m (create_with (fun st a n v =>
                let* r := set_range_d (S d) m st a n v in
                let '(st', s, _) := r in Ok (st', s)) m) st x n.
Proof.
  intros Hm O R s p X Hp. pose proof (state_layout m st O) as L.
  assert (Os : state_ok m s) by apply X.
  unfold touch. rewrite exist_liveb by apply X. cbn [bind].
  destruct (liveb m s (xl8 m p)) eqn:El.
  { exists s. split; [reflexivity|]. split; [apply ext_refl; exact Os|].
    split; [reflexivity|]. split; [exact El|]. apply only_refl. }
  rewrite (mo_touch m Hm). cbn [negb].
  destruct (in_app_at m (segs s) p) as (i & g & Hi & Hu & Hr & S1).
  { apply X. } { eapply in_app_same; [apply X|]. apply R. exact Hp. }
  assert (Hden : 0 < den (sc m)) by (destruct (sc m); reflexivity).
  (* use the granule containing p *)
  pose proof (app_bs_pos m) as Hbs.
  destruct (so_range m g S1) as (R0 & R1 & R2).
  destruct (span m g (p - p mod app_bs m) (app_bs m) Hm S1) as (k & SP0).
  - pose proof (Z.mod_pos_bound p (app_bs m) Hbs).
    pose proof (mod_bs_22 m (ab g) (so_base m g S1)) as A.
    assert (ab g <= p - p mod app_bs m); [|clear - H H0 Hr; lia].
    apply Z.div_exact in A; [|qlia].
    pose proof (Z.div_mod p (app_bs m) ltac:(qlia)) as D.
    assert (H0 : ab g / app_bs m <= p / app_bs m) by (apply Z.div_le_mono; qlia).
    clear - A D H0 Hbs H. set (q := p mod app_bs m) in *. revert A D H0 H. generalize (ab g / app_bs m) (p / app_bs m). intros. nia.
  - exact Hbs.
  - rewrite Zminus_mod, Z.mod_mod, Z.sub_diag, Z.mod_0_l by qlia. qlia.
  - apply mod_den_bs. rewrite Zminus_mod, Z.mod_mod, Z.sub_diag by qlia. apply Z.mod_0_l; qlia.
  - apply mod_den_bs, Z.mod_same. qlia.
  - assert (Hb : (p - p mod app_bs m) mod app_bs m = 0).
    { rewrite Zminus_mod, Z.mod_mod, Z.sub_diag by qlia. apply Z.mod_0_l; qlia. }
    pose proof (Z.mod_pos_bound p (app_bs m) Hbs) as Hmp.
    set (b := p - p mod app_bs m) in *.
    assert (Hbp : b <= p < b + app_bs m) by (unfold b; clear - Hmp; lia).
    assert (Hsp : shadow_of m p (xl8 m p)).
    { unfold shadow_of. rewrite <- xl8_eq by (eauto using seg_special).
      pose proof (num_pos (sc m)). clear - H. lia. }
    assert (Hru : xl8 m b <= xl8 m p < xl8 m b + to_shadow (sc m) (app_bs m)).
    { apply (Umbra_Proofs3.sp_run m g b (app_bs m) k SP0). exists p. auto. }
    assert (Eb : liveb m s (xl8 m b) = false).
    { rewrite <- El. destruct SP0.
      rewrite (liveb_block m s i g k (xl8 m p) (state_layout m s Os) Hi Hu sp_k sp_se) by (clear - sp_lo sp_hi Hru; lia).
      apply (liveb_block m s i g k _ (state_layout m s Os) Hi Hu sp_k sp_se). clear - sp_lo sp_hi sp_pos; lia. }
    destruct (create_block m d s i g b (app_bs m) k Hm Os Hi Hu SP0) as (s' & E & X' & C & Lb & ON).
    { destruct SP0. clear - sp_ab sp_ae R0 R2 Hbs. lia. } { exact Eb. }
    rewrite Hb, Z.sub_0_r in E. rewrite E. cbn [bind is_ok].
    exists s'. split; [reflexivity|]. split; [exact X'|]. split; [exact C|].
    split.
    2:{ intros a Ha. destruct (ON a Ha) as [Hl|(y & z & Hy & Hz & Hs)]; [left; exact Hl|right].
        exists p, z. split; [clear; lia|]. split; [|exact Hs]. rewrite Hz. replace y with b by (clear - Hy; lia).
        apply Z.div_exact in Hb; [|clear - Hbs; lia].
        apply (Z.div_unique_pos p (app_bs m) (b / app_bs m) (p - b)); clear - Hb Hbp; lia. }
    destruct X' as (SL & Os' & _). apply same_layout_sym in SL.
    destruct (same_layout_back _ _ i g SL Hi) as (g' & Hi' & Eg).
    assert (SP1 : span_at m g' b (app_bs m) k).
    { apply with_bits_inv in Eg as (E1 & E2 & E3 & E4 & E5 & E6 & E7 & E8 & E9).
      destruct SP0. constructor; rewrite ?E1, ?E2, ?E5, ?E6; assumption. }
    apply (live_run m s' i g' b (app_bs m) k Os' Hi'); auto.
    apply with_bits_inv in Eg. intuition congruence.
Qed.

Lemma set_range_ok m d st x n v : map_ok m -> state_ok m st -> app_range (segs st) x n ->
  whole m x n -> (x + n - 1) mod app_bs m <> 0 -> 0 <= v <= 255 ->
  exists st', set_range_d (S (S d)) m st x n v = Ok (st', S_ok, n * num (sc m) / den (sc m)) /\
    sets m st st' x n v.
Proof. intros. apply set_range_gen; auto. apply touch_create; auto. Qed.
