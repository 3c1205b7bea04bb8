(** One byte: query, read, write. *)
From Verif Require Import Base Mem Umbra_Model Umbra_Spec Umbra_Proofs1 Umbra_Proofs2 Umbra_Proofs3
  Umbra_Proofs4 Umbra_Proofs5 Umbra_Proofs6 Umbra_Proofs7 Umbra_Proofs8 Umbra_Proofs9
  Shadow_Model Shadow_Spec Shadow_Proofs1.
From Coq Require Import Lia.
Open Scope Z_scope.

Definition bst (m : umap) (st : ustate) (x : Z) : Z := two (val m st (first_shadow m x)) (x mod 4).

Definition blk (x : Z) : Z := x - x mod 2 ^ 18.
Definition usable1 (m : umap) (ss : list seg) (x : Z) : Prop :=
  in_app ss x /\ ~ at_edge ss (first_shadow m (blk x)).

Definition blkinfo (m : umap) (st : ustate) (x : Z) : info :=
  Info (blk x) (2 ^ 18) (first_shadow m (blk x)) (2 ^ 16)
       (if liveb m st (first_shadow m x) then Normal else NotAlloc).
Definition inf_ok (m : umap) (st : ustate) (inf : info) : Prop :=
  inf = info0 \/ exists y, in_app (segs st) y /\ inf = blkinfo m st y.

Lemma two_range b k : 0 <= two b k < 4. Proof. apply Z.mod_pos_bound. lia. Qed.
Lemma bst_range m st x : 0 <= bst m st x < 4. Proof. apply two_range. Qed.

Lemma two_ext b b' : 0 <= b < 256 -> 0 <= b' < 256 -> (forall j, 0 <= j < 4 -> two b j = two b' j) -> b = b'.
Proof.
  intros H H' E. pose proof (E 0 ltac:(lia)) as E0. pose proof (E 1 ltac:(lia)) as E1.
  pose proof (E 2 ltac:(lia)) as E2. pose proof (E 3 ltac:(lia)) as E3. unfold two in *.
  change (4 ^ 0) with 1 in *. change (4 ^ 1) with 4 in *. change (4 ^ 2) with 16 in *. change (4 ^ 3) with 64 in *. lia.
Qed.

Lemma two_pattern v j : 0 <= v < 4 -> 0 <= j < 4 -> two (byte_2_dword v) j = v.
Proof.
  intros Hv Hj. assert (C : v = 0 \/ v = 1 \/ v = 2 \/ v = 3) by lia. assert (D : j = 0 \/ j = 1 \/ j = 2 \/ j = 3) by lia.
  destruct C as [->|[->|[->| ->]]]; destruct D as [->|[->|[->| ->]]]; reflexivity.
Qed.
Lemma pattern_range v : 0 <= byte_2_dword v <= 255.
Proof. unfold byte_2_dword. repeat match goal with |- context [if ?c then _ else _] => destruct c end; lia. Qed.
Lemma pattern_55 j : 0 <= j < 4 -> two 0x55 j = UNADDR.
Proof. intros H. exact (two_pattern 1 j ltac:(lia) H). Qed.

Section S.
  Variable m : umap.
  Hypothesis Hm : shadow_map m.

  Let Mok : map_ok m := sh_map m Hm.

  Lemma bs18 : app_bs m = 2 ^ 18.
  Proof. rewrite app_bs_eq, (sh_sc m Hm). reflexivity. Qed.
  Lemma sh16 : sh_bs m = 2 ^ 16.
  Proof. rewrite sh_bs_eq, (sh_sc m Hm). reflexivity. Qed.
  Lemma num1 : num (sc m) = 1. Proof. rewrite (sh_sc m Hm). reflexivity. Qed.
  Lemma den4 : den (sc m) = 4. Proof. rewrite (sh_sc m Hm). reflexivity. Qed.

  Lemma shadow_of1 x a : shadow_of m x a <-> a = first_shadow m x.
  Proof. unfold shadow_of. rewrite num1. lia. Qed.

  Lemma bst_two st y : two (val m st (first_shadow m y)) (y mod 4) = bst m st y.
  Proof. reflexivity. Qed.

  Lemma byte_state_bst st x v : state_ok m st -> byte_state m st x v <-> v = bst m st x.
  Proof.
    intros O. unfold byte_state, bst. split.
    - intros (b & Hb & ->). apply (shows_cont m st _ b (state_layout m st O)) in Hb. rewrite (val_of _ _ _ _ Hb). reflexivity.
    - intros ->. exists (val m st (first_shadow m x)). split; [|reflexivity].
      apply shows_cont; [exact (state_layout m st O)|]. apply cont_val; assumption.
  Qed.

  (** Addresses within a block. *)
  Lemma blk_same x y : blk x <= y < blk x + 2 ^ 18 <-> y / 2 ^ 18 = x / 2 ^ 18.
  Proof. unfold blk. lia. Qed.

  Lemma fs_block ss x y : layout_ok m ss -> in_app ss x -> y / 2 ^ 18 = x / 2 ^ 18 ->
    in_app ss y /\ first_shadow m y = first_shadow m (blk x) + (y - blk x) / 4 /\ 0 <= blk x /\ blk x + 2 ^ 18 < 2 ^ 64.
  Proof.
    intros L Hx Hy.
    assert (Hb : blk x / 2 ^ 18 = x / 2 ^ 18) by (unfold blk; lia).
    pose proof (in_app_blk m ss x y L Hx) as IY. rewrite bs18 in IY. specialize (IY Hy). split; [exact IY|].
    destruct (in_app_at m ss x L Hx) as (i & g & Hi & Hu & Hr & S1).
    pose proof (mod_bs_22 m _ (so_base m g S1)) as A. pose proof (mod_bs_22 m _ (so_end m g S1)) as B.
    rewrite bs18 in A, B. destruct (so_range m g S1) as (R0 & R1 & R2).
    assert (Y : ab g <= y < ae g) by (clear - A B Hr Hy R0; lia).
    assert (Z0 : ab g <= blk x < ae g) by (clear - A B Hr R0; unfold blk; lia).
    split.
    - rewrite (seg_first m g y Mok S1 Y), (seg_first m g (blk x) Mok S1 Z0). rewrite num1, den4.
      clear - A Hy R0 Y Z0. unfold blk in *. lia.
    - clear - A B Hr R0 R2. unfold blk. lia.
  Qed.

  Lemma live_block st x y : state_ok m st -> in_app (segs st) x -> y / 2 ^ 18 = x / 2 ^ 18 ->
    liveb m st (first_shadow m y) = liveb m st (first_shadow m x).
  Proof.
    intros O Hx Hy. destruct (get_info_ok m st x Mok O Hx) as (b & Hb & _ & _ & U).
    rewrite bs18 in Hb, U. apply (U y); [|apply shadow_of1; reflexivity].
    fold (blk x) in Hb. subst b. apply blk_same. exact Hy.
  Qed.

  Lemma blkinfo_same st x y : state_ok m st -> in_app (segs st) x -> y / 2 ^ 18 = x / 2 ^ 18 ->
    blkinfo m st y = blkinfo m st x.
  Proof.
    intros O Hx Hy. unfold blkinfo. rewrite (live_block st x y O Hx Hy).
    replace (blk y) with (blk x) by (unfold blk; lia). reflexivity.
  Qed.

  Lemma query st x : state_ok m st -> usable1 m (segs st) x ->
    get_shadow_memory m st x = Ok (first_shadow m x, blkinfo m st x).
  Proof.
    intros O [Hx NE]. destruct (get_info_ok m st x Mok O Hx) as (b & Hb & G & _ & _).
    rewrite bs18 in Hb. fold (blk x) in Hb. subst b. rewrite (G NE). rewrite bs18, sh16. reflexivity.
  Qed.

  Lemma get_info_miss st inf x : state_ok m st -> usable1 m (segs st) x ->
    (x < i_app_base inf \/ w64 (i_app_base inf + i_app_size inf) <= x) ->
    get_info m st inf x = Ok (blkinfo m st x).
  Proof.
    intros O U H. unfold get_info.
    replace ((x <? i_app_base inf) || (w64 (i_app_base inf + i_app_size inf) <=? x)) with true.
    2:{ symmetry. apply orb_true_iff. rewrite Z.ltb_lt, Z.leb_le. exact H. }
    rewrite (query st x O U). reflexivity.
  Qed.

  Lemma get_info0 st x : state_ok m st -> usable1 m (segs st) x -> get_info m st info0 x = Ok (blkinfo m st x).
  Proof.
    intros O U. apply get_info_miss; [exact O|exact U|]. right. cbn.
    destruct U as [U _]. pose proof (in_app_bound m _ x (state_layout m st O) U). lia.
  Qed.

  Lemma get_info_good st inf x : state_ok m st -> usable1 m (segs st) x -> inf_ok m st inf ->
    get_info m st inf x = Ok (blkinfo m st x).
  Proof.
    intros O U [->|(y & Hy & ->)]; [apply get_info0; assumption|].
    destruct (fs_block (segs st) y y (state_layout m st O) Hy eq_refl) as (_ & _ & B0 & B1).
    destruct (Z.eq_dec (x / 2 ^ 18) (y / 2 ^ 18)) as [E|N].
    - unfold get_info. cbn [i_app_base i_app_size blkinfo]. rewrite w64_small by (clear - B0 B1; lia).
      replace ((x <? blk y) || (blk y + 2 ^ 18 <=? x)) with false.
      + rewrite (blkinfo_same st y x O Hy E). reflexivity.
      + apply blk_same in E. clear - E. lia.
    - apply get_info_miss; [exact O|exact U|]. cbn [i_app_base i_app_size blkinfo].
      rewrite w64_small by (clear - B0 B1; lia). clear - N. unfold blk. lia.
  Qed.

  Lemma blk_bytes4 st x : state_ok m st -> in_app (segs st) x -> liveb m st (first_shadow m x) = true ->
    bytes4 (sm st) (first_shadow m (blk x) + 4 * ((x - blk x) / 16)).
  Proof.
    intros O Hx Hl k Hk. set (z := blk x + 16 * ((x - blk x) / 16) + 4 * k).
    assert (Hz : z / 2 ^ 18 = x / 2 ^ 18) by (subst z; clear - Hk; unfold blk; lia).
    destruct (fs_block (segs st) x z (state_layout m st O) Hx Hz) as (_ & E & _).
    replace (first_shadow m (blk x) + 4 * ((x - blk x) / 16) + k) with (first_shadow m z).
    2:{ rewrite E. subst z. clear - Hk. lia. }
    apply (liveb_mapped m st); [exact O|]. rewrite (live_block st x z O Hx Hz). exact Hl.
  Qed.

  Lemma w32_off x : w32 (x - blk x) = x - blk x.
  Proof. unfold w32. apply Z.mod_small. unfold blk. lia. Qed.

  Lemma off4 x : (x - blk x) mod 4 = x mod 4. Proof. unfold blk. lia. Qed.

  Lemma get_byte_at st inf x : state_ok m st -> in_app (segs st) x -> get_info m st inf x = Ok (blkinfo m st x) ->
    get_byte m st inf x = Ok (bst m st x, blkinfo m st x).
  Proof.
    intros O Hx G. unfold get_byte. rewrite G. cbn [bind blkinfo i_type i_sh_base i_app_base].
    unfold bst, val, cont. destruct (liveb m st (first_shadow m x)) eqn:El; cbn [is_normal].
    - rewrite w32_off.
      destruct (bitmap_get (sm st) (first_shadow m (blk x)) (x - blk x)) as (b & Eb & Eg).
      { unfold blk. clear. lia. } { apply blk_bytes4; assumption. }
      rewrite Eg. cbn [bind]. rewrite off4.
      destruct (fs_block (segs st) x x (state_layout m st O) Hx eq_refl) as (_ & E & _).
      rewrite E, Eb. unfold blkinfo. rewrite El. reflexivity.
    - rewrite (sh_dflt m Hm), pattern_55 by (clear; lia). unfold blkinfo. rewrite El. reflexivity.
  Qed.

  Lemma get_byte_good st inf x : state_ok m st -> usable1 m (segs st) x -> inf_ok m st inf ->
    get_byte m st inf x = Ok (bst m st x, blkinfo m st x).
  Proof. intros O U I. apply get_byte_at; [exact O|apply U|apply get_info_good; assumption]. Qed.

  Lemma usable1_ext st st' x : ext m st st' -> usable1 m (segs st) x -> usable1 m (segs st') x.
  Proof.
    intros X [H N]. split; [apply (in_app_ext m st st' x X); exact H|].
    intros (i & h & Hi & Hr). apply N. destruct (same_layout_back _ _ _ _ (proj1 X) Hi) as (g & Hg & E).
    apply with_bits_inv in E. exists i, g. intuition congruence.
  Qed.

  (** Writing the field of [x] in a live block. *)
  Lemma put_field st x v : state_ok m st -> in_app (segs st) x -> 0 <= v < 4 ->
    liveb m st (first_shadow m x) = true ->
    exists mm, bitmapx2_set (sm st) (first_shadow m (blk x)) (w32 (x - blk x)) v = Ok mm /\
      ext m st (with_sm st mm) /\
      (forall a, liveb m (with_sm st mm) a = liveb m st a) /\
      forall y, in_app (segs st) y -> bst m (with_sm st mm) y = if y =? x then v else bst m st y.
  Proof.
    intros O Hx Hv Hl. pose proof (state_layout m st O) as L. rewrite w32_off.
    set (bm := first_shadow m (blk x)). set (i := x - blk x).
    assert (Hi : 0 <= i < 2 ^ 18) by (subst i; clear; unfold blk; lia).
    pose proof (blk_bytes4 st x O Hx Hl) as B4. fold bm i in B4.
    destruct (bitmap_set (sm st) bm i v (proj1 Hi) Hv B4) as (mm & E & Out & In).
    exists mm. split; [exact E|].
    assert (X : ext m st (with_sm st mm)).
    { apply ext_put; [exact O| |].
      - intros a w Ha. destruct (Z_le_dec (bm + 4 * (i / 16)) a) as [P|P];
          [destruct (Z_lt_dec a (bm + 4 * (i / 16) + 4)) as [Q|Q]|].
        + destruct (In a (conj P Q)) as (b & b' & _ & Eb & Rb & _). right. congruence.
        + left. rewrite <- Out; [exact Ha|]. intros [_ Q']. exact (Q Q').
        + left. rewrite <- Out; [exact Ha|]. intros [P' _]. exact (P P').
      - intros a Ha. destruct (Z_le_dec (bm + 4 * (i / 16)) a) as [P|P];
          [destruct (Z_lt_dec a (bm + 4 * (i / 16) + 4)) as [Q|Q]|].
        + destruct (In a (conj P Q)) as (b & b' & _ & Eb & Rb & _). congruence.
        + rewrite Out; [exact Ha|]. intros [_ Q']. exact (Q Q').
        + rewrite Out; [exact Ha|]. intros [P' _]. exact (P P'). }
    split; [exact X|]. split; [intros a; apply liveb_with_sm|].
    intros y Hy. unfold bst, val, cont. rewrite liveb_with_sm. cbn [sm with_sm].
    destruct (fs_block (segs st) x x L Hx eq_refl) as (_ & Ex & _). fold bm i in Ex.
    destruct (liveb m st (first_shadow m y)) eqn:Ely.
    2:{ replace (y =? x) with false; [reflexivity|]. symmetry. apply Z.eqb_neq. intros ->. congruence. }
    assert (G : first_shadow m y = first_shadow m x -> y / 4 = x / 4).
    { intros Q. pose proof (gran_inj m (segs st) y x (first_shadow m x) Mok L Hy Hx) as J. rewrite den4 in J. apply J;
        apply shadow_of1; [symmetry; exact Q|reflexivity]. }
    assert (D : bm + 4 * (i / 16) <= first_shadow m y < bm + 4 * (i / 16) + 4 \/
                ~ bm + 4 * (i / 16) <= first_shadow m y < bm + 4 * (i / 16) + 4)
      by (clear; lia).
    destruct D as [D|D].
    - destruct (In _ D) as (b & b' & Eb & Eb' & _ & T). rewrite Eb, Eb'.
      rewrite T by (clear; lia).
      replace ((first_shadow m y =? bm + i / 4) && (y mod 4 =? i mod 4)) with (y =? x); [reflexivity|]. symmetry.
      apply eq_true_iff_eq. rewrite andb_true_iff, !Z.eqb_eq. split.
      + intros [Q1 Q2]. rewrite <- Ex in Q1. specialize (G Q1).
        assert (i mod 4 = x mod 4) by (subst i; apply off4). clear - G Q2 H. lia.
      + intros ->. split; [exact Ex|]. symmetry. subst i. apply off4.
    - rewrite Out by exact D. replace (y =? x) with false; [reflexivity|]. symmetry. apply Z.eqb_neq. intros ->.
      apply D. rewrite Ex. clear - Hi. lia.
  Qed.

  Lemma create_blk st x : state_ok m st -> in_app (segs st) x -> liveb m st (first_shadow m x) = false ->
    exists st1, umbra_create m st (blk x) (2 ^ 18) 0x55 = Ok (st1, S_ok) /\ ext m st st1 /\
      liveb m st1 (first_shadow m x) = true /\ (forall y, in_app (segs st) y -> bst m st1 y = bst m st y).
  Proof.
    intros O Hx Hl. pose proof (state_layout m st O) as L.
    destruct (in_app_at m (segs st) x L Hx) as (i & g & Hi & Hu & Hr & S1).
    pose proof (mod_bs_22 m _ (so_base m g S1)) as A. pose proof (mod_bs_22 m _ (so_end m g S1)) as B.
    rewrite bs18 in A, B. destruct (so_range m g S1) as (R0 & R1 & R2).
    destruct (create_ok m st i g (blk x) (2 ^ 18) 0x55 Mok O Hi Hu) as (st1 & E & (X & C1 & C2 & _ & _) & LV).
    { clear - A Hr. unfold blk. lia. } { clear; lia. } { clear - B Hr. unfold blk. lia. }
    { rewrite bs18. unfold blk. clear. lia. } { rewrite bs18. reflexivity. } { clear; lia. }
    exists st1. split; [unfold umbra_create; replace (2 ^ 18 =? 0) with false by (clear; lia); exact E|].
    split; [exact X|]. split.
    - apply (LV x); [unfold blk; clear; lia|apply shadow_of1; reflexivity].
    - intros y Hy. unfold bst. f_equal. destruct (Z.eq_dec (y / 2 ^ 18) (x / 2 ^ 18)) as [Q|Q].
      + transitivity 0x55.
        * apply val_of. apply (C1 y); [apply blk_same; exact Q|apply shadow_of1; reflexivity].
        * symmetry. apply val_of. unfold cont. rewrite (live_block st x y O Hx Q), Hl. rewrite (sh_dflt m Hm). reflexivity.
      + unfold val. rewrite C2; [reflexivity|]. intros (z & Hz & Hs). apply shadow_of1 in Hs.
        apply blk_same in Hz.
        destruct (fs_block (segs st) x z L Hx Hz) as (Iz & _).
        pose proof (gran_inj m (segs st) y z (first_shadow m y) Mok L Hy Iz) as J. rewrite den4 in J.
        assert (y / 4 = z / 4) by (apply J; apply shadow_of1; [reflexivity|exact Hs]).
        clear - H Hz Q. lia.
  Qed.

  Lemma set_byte_at st inf x v : state_ok m st -> usable1 m (segs st) x ->
    get_info m st inf x = Ok (blkinfo m st x) -> 0 <= v < 4 ->
    exists st', set_byte m st inf x v = Ok (st', blkinfo m st' x) /\ ext m st st' /\
      (v <> UNADDR -> liveb m st' (first_shadow m x) = true) /\
      (forall y, in_app (segs st) y -> bst m st' y = if y =? x then v else bst m st y).
  Proof.
    intros O U G Hv. pose proof (proj1 U) as Hx. unfold set_byte. rewrite G. cbn [bind].
    destruct (liveb m st (first_shadow m x)) eqn:El.
    - assert (T : i_type (blkinfo m st x) = Normal) by (unfold blkinfo; rewrite El; reflexivity). rewrite T.
      cbn [i_sh_base i_app_base blkinfo].
      destruct (put_field st x v O Hx Hv El) as (mm & E & X & LV & F). rewrite E. cbn [bind].
      exists (with_sm st mm). split; [|split; [exact X|split; [intros _; rewrite LV; exact El|exact F]]].
      unfold blkinfo. rewrite LV. reflexivity.
    - assert (T : i_type (blkinfo m st x) = NotAlloc) by (unfold blkinfo; rewrite El; reflexivity). rewrite T.
      rewrite (get_byte_at st (blkinfo m st x) x O Hx).
      2:{ apply get_info_good; [exact O|exact U|right; exists x; auto]. }
      assert (B : bst m st x = UNADDR).
      { unfold bst, val, cont. rewrite El, (sh_dflt m Hm). apply pattern_55. clear; lia. }
      cbn [bind fst]. rewrite B. destruct (Z.eqb_spec v UNADDR) as [->|N].
      + exists st. split; [reflexivity|]. split; [apply ext_refl; exact O|]. split; [congruence|].
        intros y Hy. destruct (Z.eqb_spec y x) as [->|]; [symmetry; exact (eq_sym B)|reflexivity].
      + cbn [i_sh_base i_app_base i_app_size blkinfo].
        destruct (create_blk st x O Hx El) as (st1 & E & X & LV & F). rewrite E. cbn [bind is_ok negb].
        assert (O1 : state_ok m st1) by apply X.
        assert (U1 : usable1 m (segs st1) x) by (eapply usable1_ext; eauto).
        rewrite (query st1 x O1 U1). cbn [bind snd]. cbn [i_sh_base i_app_base blkinfo].
        destruct (put_field st1 x v O1 (proj1 U1) Hv LV) as (mm & E2 & X2 & LV2 & F2). rewrite E2. cbn [bind].
        exists (with_sm st1 mm). split; [|split; [|split]].
        * unfold blkinfo. rewrite LV2. reflexivity.
        * eapply ext_trans; eauto.
        * intros _. rewrite LV2. exact LV.
        * intros y Hy. rewrite F2; [|apply (in_app_ext m st st1 y X); exact Hy]. rewrite F by exact Hy. reflexivity.
  Qed.

  Lemma set_byte_good st inf x v : state_ok m st -> usable1 m (segs st) x -> inf_ok m st inf -> 0 <= v < 4 ->
    exists st', set_byte m st inf x v = Ok (st', blkinfo m st' x) /\ ext m st st' /\
      (v <> UNADDR -> liveb m st' (first_shadow m x) = true) /\
      (forall y, in_app (segs st) y -> bst m st' y = if y =? x then v else bst m st y).
  Proof. intros O U I Hv. apply set_byte_at; try assumption. apply get_info_good; assumption. Qed.
End S.
