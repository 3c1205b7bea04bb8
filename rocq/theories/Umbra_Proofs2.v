(** The range loop, block existence and the visible shadow contents. *)
From Verif Require Import Base Mem Umbra_Model Umbra_Spec Umbra_Proofs1.
Open Scope Z_scope.

Lemma w64_small x : 0 <= x < 2 ^ 64 -> w64 x = x.
Proof. intros. apply Z.mod_small. exact H. Qed.

Lemma range_loop_stop {A B} n bs addr e blk (body : Z -> Z -> Z -> A -> res (A * option B)) a :
  e <= blk -> range_loop (S n) bs addr e blk body a = Ok (a, None).
Proof. intros H. cbn. replace (blk <? e) with false by lia. reflexivity. Qed.

Lemma range_loop_S {A B} n bs addr src_end blk (body : Z -> Z -> Z -> A -> res (A * option B)) a :
  range_loop (S n) bs addr src_end blk body a =
    if blk <? src_end then
      let blk_end := w64 (blk + (bs - 1)) in
      let start := if blk <? addr then addr else blk in
      let end_ := if src_end <? blk_end then src_end else blk_end in
      let* r := body blk start (w64 (end_ - start + 1)) a in
      match r with
      | (a', None) =>
        range_loop n bs addr src_end
                   (if add_ovf blk_end 1 then src_end else w64 (blk_end + 1)) body a'
      | (a', Some b) => Ok (a', Some b)
      end
    else Ok (a, None).
Proof. reflexivity. Qed.

Lemma blk_top bs blk x : 0 < bs -> (2 ^ 64) mod bs = 0 -> blk mod bs = 0 -> blk <= x -> x < 2 ^ 64 ->
  blk + bs <= 2 ^ 64.
Proof.
  intros H0 H1 H2 H3 H4. apply Z.div_exact in H1; [|lia]. apply Z.div_exact in H2; [|lia].
  assert (blk / bs < 2 ^ 64 / bs).
  { apply Z.div_lt_upper_bound; [lia|]. rewrite <- H1. lia. }
  rewrite H1, H2. revert H H0. generalize (blk / bs) (2 ^ 64 / bs). clear. intros. nia.
Qed.

Lemma next_blk bs blk e : 0 < bs -> 0 <= blk -> blk + bs <= 2 ^ 64 -> 1 < bs ->
  let nb := if add_ovf (blk + (bs - 1)) 1 then e else w64 (blk + (bs - 1) + 1) in
  (blk + bs = 2 ^ 64 /\ nb = e) \/ (blk + bs < 2 ^ 64 /\ nb = blk + bs).
Proof.
  intros H0 H1 H2 H3. unfold add_ovf. replace (blk + (bs - 1) + 1) with (blk + bs) by lia.
  destruct (Z.eq_dec (blk + bs) (2 ^ 64)) as [E|E].
  - left. split; [exact E|]. rewrite E. replace (w64 (2 ^ 64)) with 0 by reflexivity.
    replace (0 <? blk + (bs - 1)) with true by lia. reflexivity.
  - right. split; [lia|]. rewrite w64_small by lia.
    replace (blk + bs <? blk + (bs - 1)) with false by lia. reflexivity.
Qed.

(** Alignment, kept folded away from [lia]. *)
Definition al (bs x : Z) : Prop := x mod bs = 0.

Lemma range_step {A B} bs addr size (body : Z -> Z -> Z -> A -> res (A * option B))
      (P : Z -> A -> Prop) (Q : A -> B -> Prop) blk a n :
  1 < bs <= 2 ^ 20 -> al bs (2 ^ 64) ->
  0 <= addr -> 0 < size -> addr + size <= 2 ^ 64 -> ~ al bs (addr + size - 1) ->
  (forall p n a, addr <= p -> 0 < n -> p + n <= addr + size -> p mod bs + n <= bs ->
     (p = addr \/ p mod bs = 0) -> (p + n = addr + size \/ (p + n) mod bs = 0) ->
     P p a -> exists a' o, body (p - p mod bs) p n a = Ok (a', o) /\
        match o with None => P (p + n) a' | Some b => Q a' b end) ->
  0 <= blk -> al bs blk -> addr < blk + bs -> blk <= addr + size - 1 ->
  P (Z.max addr blk) a ->
  exists a' o, match o with
               | None => P (Z.min (addr + size) (blk + bs)) a'
               | Some b => Q a' b end /\
    range_loop (S n) bs addr (addr + size - 1) blk body a =
      match o with
      | Some b => Ok (a', Some b)
      | None => range_loop n bs addr (addr + size - 1)
                  (if add_ovf (blk + (bs - 1)) 1 then addr + size - 1
                   else w64 (blk + (bs - 1) + 1)) body a'
      end.
Proof.
  intros Hbs H64 Ha Hs Htop Hlast Hbody Hb0 Hbm Hab Hle HP.
  assert (Hne : blk <> addr + size - 1) by (intros E; apply Hlast; rewrite <- E; exact Hbm).
  assert (Hbe : blk + bs <= 2 ^ 64).
  { apply blk_top with (addr + size - 1); try assumption; lia. }
  set (p := Z.max addr blk) in *.
  assert (Hp : p = Z.max addr blk) by reflexivity. clearbody p.
  assert (Epm : p mod bs = p - blk).
  { symmetry. apply Z.mod_unique_pos with (blk / bs); [lia|].
    pose proof (Z.div_mod blk bs ltac:(lia)) as D. rewrite Hbm in D. revert D.
    generalize (blk / bs). clear. intros. lia. }
  set (e1 := Z.min (addr + size) (blk + bs)).
  assert (He1 : e1 = Z.min (addr + size) (blk + bs)) by reflexivity. clearbody e1.
  assert (Hnext : e1 = addr + size \/ al bs e1).
  { destruct (Z.eq_dec e1 (addr + size)) as [E1|E1]; [left; exact E1|]. right.
    clear Epm. replace e1 with (blk + 1 * bs) by lia.
    unfold al. rewrite Z.mod_add by lia. exact Hbm. }
  assert (Hpp : p = addr \/ p mod bs = 0).
  { rewrite Epm. clear Epm. lia. }
  destruct (Hbody p (e1 - p) a) as (a' & o & Hb & Ho).
  - clear Epm Hpp. lia.
  - clear Epm Hpp. lia.
  - clear Epm Hpp. lia.
  - rewrite Epm. clear Epm Hpp. lia.
  - exact Hpp.
  - replace (p + (e1 - p)) with e1 by ring. exact Hnext.
  - exact HP.
  - clear Hpp. rewrite range_loop_S; cbv zeta.
    rewrite Epm in Hb. clear Epm. replace (p - (p - blk)) with blk in Hb by ring.
    replace (blk <? addr + size - 1) with true by lia.
    rewrite (w64_small (blk + (bs - 1))) by lia.
    replace (if blk <? addr then addr else blk) with p
      by (destruct (blk <? addr) eqn:E; lia).
    replace (if addr + size - 1 <? blk + (bs - 1) then addr + size - 1 else blk + (bs - 1))
      with (e1 - 1) by (destruct (addr + size - 1 <? blk + (bs - 1)) eqn:E; lia).
    replace (e1 - 1 - p + 1) with (e1 - p) by ring.
    rewrite (w64_small (e1 - p)) by lia.
    rewrite Hb. cbn [bind]. exists a', o. split.
    + destruct o; [exact Ho|]. replace (p + (e1 - p)) with e1 in Ho by ring. exact Ho.
    + destruct o; reflexivity.
Qed.

Lemma range_loop_ind {A B} bs addr size (body : Z -> Z -> Z -> A -> res (A * option B))
      (P : Z -> A -> Prop) (Q : A -> B -> Prop) :
  1 < bs <= 2 ^ 20 -> al bs (2 ^ 64) ->
  0 <= addr -> 0 < size -> addr + size <= 2 ^ 64 -> ~ al bs (addr + size - 1) ->
  (forall p n a, addr <= p -> 0 < n -> p + n <= addr + size -> p mod bs + n <= bs ->
     (p = addr \/ p mod bs = 0) -> (p + n = addr + size \/ (p + n) mod bs = 0) ->
     P p a -> exists a' o, body (p - p mod bs) p n a = Ok (a', o) /\
        match o with None => P (p + n) a' | Some b => Q a' b end) ->
  forall k blk a, 0 <= blk -> al bs blk -> addr < blk + bs -> blk <= addr + size - 1 ->
    (addr + size - 1 - blk) / bs <= Z.of_nat k -> P (Z.max addr blk) a ->
    exists a' o, range_loop (S (S k)) bs addr (addr + size - 1) blk body a = Ok (a', o) /\
      match o with None => P (addr + size) a' | Some b => Q a' b end.
Proof.
  intros Hbs H64 Ha Hs Htop Hlast Hbody.
  induction k as [|k IH]; intros blk a Hb0 Hbm Hab Hle Hk HP.
  - destruct (range_step bs addr size body P Q blk a 1) as (a' & o & Ho & E); auto.
    rewrite E. destruct o as [b|]; [exists a', (Some b); auto|].
    assert (Hend : addr + size - 1 < blk + bs).
    { assert ((addr + size - 1 - blk) / bs = 0).
      { assert (0 <= (addr + size - 1 - blk) / bs) by (apply Z.div_pos; lia). lia. }
      apply Z.div_small_iff in H; lia. }
    clear Hk. exists a', None. split.
    + apply range_loop_stop.
      pose proof (blk_top bs blk (addr + size - 1) ltac:(lia) H64 Hbm Hle ltac:(lia)) as Hbe.
      pose proof (next_blk bs blk (addr + size - 1) ltac:(lia) Hb0 Hbe ltac:(lia)) as N. cbv zeta in N.
      clear Hlast Hbm H64. lia.
    + replace (addr + size) with (Z.min (addr + size) (blk + bs)) by lia. exact Ho.
  - destruct (range_step bs addr size body P Q blk a (S (S k))) as (a' & o & Ho & E); auto.
    rewrite E. destruct o as [b|]; [exists a', (Some b); auto|].
    pose proof (blk_top bs blk (addr + size - 1) ltac:(lia) H64 Hbm Hle ltac:(lia)) as Hbe.
    pose proof (next_blk bs blk (addr + size - 1) ltac:(lia) Hb0 Hbe ltac:(lia)) as N. cbv zeta in N.
    destruct (Z.lt_ge_cases (addr + size - 1) (blk + bs)) as [Hend|Hend].
    + exists a', None. split.
      * apply range_loop_stop. clear Hk Hlast Hbm H64. lia.
      * replace (addr + size) with (Z.min (addr + size) (blk + bs)) by lia. exact Ho.
    + destruct N as [[N _]|[N1 N2]]; [exfalso; clear Hk Hlast Hbm H64; lia|]. rewrite N2.
      apply IH.
      * lia.
      * replace (blk + bs) with (blk + 1 * bs) by lia. unfold al; rewrite Z.mod_add by lia. exact Hbm.
      * clear Hk Hlast Hbm H64. lia.
      * lia.
      * replace (addr + size - 1 - (blk + bs)) with (addr + size - 1 - blk + (-1) * bs) by lia.
        rewrite Z.div_add by lia. clear - Hk. lia.
      * replace (Z.max addr (blk + bs)) with (Z.min (addr + size) (blk + bs)) by (clear Hk Hlast Hbm H64; lia). exact Ho.
Qed.

Lemma app_bs_64 m : (2 ^ 64) mod app_bs m = 0.
Proof. destruct (app_bs_vals m) as [E|[E|[E|E]]]; rewrite E; reflexivity. Qed.

Lemma app_range_loop_ind {A B} m addr size (body : Z -> Z -> Z -> A -> res (A * option B))
      (P : Z -> A -> Prop) (Q : A -> B -> Prop) a :
  0 <= addr -> 0 < size -> addr + size <= 2 ^ 64 -> (addr + size - 1) mod app_bs m <> 0 ->
  (forall p n a, addr <= p -> 0 < n -> p + n <= addr + size -> p mod app_bs m + n <= app_bs m ->
     (p = addr \/ p mod app_bs m = 0) ->
     (p + n = addr + size \/ (p + n) mod app_bs m = 0) ->
     P p a -> exists a' o, body (p - p mod app_bs m) p n a = Ok (a', o) /\
        match o with None => P (p + n) a' | Some b => Q a' b end) ->
  P addr a ->
  exists a' o, app_range_loop m addr size body a = Ok (a', o) /\
    match o with None => P (addr + size) a' | Some b => Q a' b end.
Proof.
  intros Ha Hs Ht Hl Hb HP. unfold app_range_loop.
  pose proof (app_bs_pos m) as Hbs. pose proof (Z.mod_pos_bound addr (app_bs m) Hbs) as Hmod.
  rewrite (w64_small (size - 1)) by lia. rewrite (w64_small (addr + (size - 1))) by lia.
  rewrite align_back_app by lia.
  replace (addr + (size - 1)) with (addr + size - 1) by lia.
  pose proof (Z.mod_le addr (app_bs m) Ha Hbs).
  apply range_loop_ind with (P := P) (Q := Q).
  - destruct (app_bs_vals m) as [E|[E|[E|E]]]; rewrite E; lia.
  - apply app_bs_64.
  - exact Ha.
  - exact Hs.
  - exact Ht.
  - exact Hl.
  - exact Hb.
  - lia.
  - unfold al; rewrite Zminus_mod, Z.mod_mod, Z.sub_diag by lia. apply Z.mod_0_l. lia.
  - lia.
  - lia.
  - rewrite Z2Nat.id; [reflexivity|]. apply Z.div_pos; lia.
  - rewrite Z.max_l by lia. exact HP.
Qed.

(** A one-block range that already is one pass. *)
Lemma add_ovf_none addr size : 0 <= addr -> 0 < size -> addr + size <= 2 ^ 64 ->
  add_ovf addr (w64 (size - 1)) = false.
Proof.
  intros. unfold add_ovf. rewrite (w64_small (size - 1)) by lia. rewrite w64_small by lia. lia.
Qed.

(** Membership in the segment table. *)
Lemma covers_iff g a : covers g a = true <->
  used g = true /\ hasmap g = true /\ sb g <= a < se g.
Proof. unfold covers. rewrite !andb_true_iff. intuition lia. Qed.

Lemma bit_in_iff p l : bit_in p l = true <-> In p l.
Proof.
  unfold bit_in. rewrite existsb_exists. split.
  - intros (q & Hq & He). apply andb_true_iff in He as [E1 E2].
    replace p with q; [exact Hq|]. destruct p, q; cbn in *. f_equal; lia.
  - intros H. exists p. split; [exact H|]. rewrite !Z.eqb_refl. reflexivity.
Qed.

Definition liveb (m : umap) (st : ustate) (a : Z) : bool :=
  match block_exist m st a with Ok b => b | _ => false end.

Lemma exist_in m ss a i g :
  nth_error ss i = Some g -> covers g a = true ->
  (forall j h, nth_error ss j = Some h -> j <> i -> covers h a = false) ->
  bm_byte m a (sb g) < nbytes g ->
  block_exist_in m a ss = Ok (bit_in (bidx m g a / 8, bidx m g a mod 8) (bits g)).
Proof.
  revert i. induction ss as [|s ss IH]; intros i Hi Hc Hu Hb; [destruct i; discriminate|].
  cbn [block_exist_in]. destruct i as [|i].
  - injection Hi as ->. rewrite Hc. cbn [fst]. replace (bm_byte m a (sb g) <? nbytes g) with true by lia.
    rewrite bm_bit_eq, bm_byte_eq by (apply covers_iff in Hc; lia). reflexivity.
  - rewrite (Hu 0%nat s) by (reflexivity || discriminate).
    apply (IH i); auto. intros j h Hj Hne. apply (Hu (S j) h Hj). congruence.
Qed.

Lemma exist_none m ss a : (forall j h, nth_error ss j = Some h -> covers h a = false) ->
  block_exist_in m a ss = Ok false.
Proof.
  induction ss as [|s ss IH]; intros H; [reflexivity|]. cbn.
  rewrite (H 0%nat s) by reflexivity. apply IH. intros j h Hj. apply (H (S j) h Hj).
Qed.

Lemma covers_unique m ss a i j g h : layout_ok m ss ->
  nth_error ss i = Some g -> nth_error ss j = Some h -> covers g a = true -> i <> j ->
  covers h a = false.
Proof.
  intros L Hi Hj Hc Hne. destruct (covers h a) eqn:E; [|reflexivity]. exfalso.
  apply covers_iff in Hc as (U1 & _ & R1). apply covers_iff in E as (U2 & _ & R2).
  exact (lo_sh m ss L i j g h Hi Hj Hne U1 U2 a R1 R2).
Qed.

Lemma exist_at m st a i g : layout_ok m (segs st) ->
  nth_error (segs st) i = Some g -> used g = true -> sb g <= a < se g ->
  block_exist m st a = Ok (bit_in (bidx m g a / 8, bidx m g a mod 8) (bits g)).
Proof.
  intros L Hi Hu Hr. pose proof (lo_seg m _ L i g Hi Hu) as S.
  assert (C : covers g a = true) by (apply covers_iff; pose proof (so_map m g S); auto).
  unfold block_exist. apply exist_in with i; [exact Hi|exact C| |].
  - intros j h Hj Hne. eapply covers_unique with (i:=i) (g:=g); eauto.
  - apply byte_in_range; assumption.
Qed.

Lemma exist_total m st a : layout_ok m (segs st) -> exists b, block_exist m st a = Ok b.
Proof.
  intros L. destruct (existsb (fun g => covers g a) (segs st)) eqn:E.
  - apply existsb_exists in E as (g & Hin & Hc). apply In_nth_error in Hin as (i & Hi).
    apply covers_iff in Hc as (Hu & _ & Hr). eexists. eapply exist_at; eauto.
  - exists false. apply exist_none. intros j h Hj. destruct (covers h a) eqn:C; [|reflexivity].
    exfalso. apply not_true_iff_false in E. apply E. apply existsb_exists. exists h.
    split; [eapply nth_error_In; eauto|exact C].
Qed.

Lemma liveb_iff m st a : layout_ok m (segs st) -> liveb m st a = true <-> live m st a.
Proof.
  intros L. unfold liveb, live. split.
  - intros H. destruct (existsb (fun g => covers g a) (segs st)) eqn:E.
    + apply existsb_exists in E as (g & Hin & Hc). apply In_nth_error in Hin as (i & Hi).
      apply covers_iff in Hc as (Hu & _ & Hr). rewrite (exist_at m st a i g) in H by assumption.
      exists i, g. split; [exact Hi|]. split; [exact Hu|]. split; [exact Hr|].
      cbv zeta. apply bit_in_iff in H. unfold bidx in H. rewrite sh_bs_eq in H. exact H.
    + exfalso. unfold block_exist in H. rewrite exist_none in H; [discriminate|].
      intros j h Hj. destruct (covers h a) eqn:C; [|reflexivity].
      exfalso. apply not_true_iff_false in E. apply E. apply existsb_exists. exists h.
      split; [eapply nth_error_In; eauto|exact C].
  - intros (i & g & Hi & Hu & Hr & Hin). rewrite (exist_at m st a i g) by assumption.
    apply bit_in_iff. unfold bidx. rewrite sh_bs_eq. exact Hin.
Qed.

Lemma exist_liveb m st a : layout_ok m (segs st) -> block_exist m st a = Ok (liveb m st a).
Proof. intros L. unfold liveb. destruct (exist_total m st a L) as (b & ->). reflexivity. Qed.

(** The value a shadow byte shows. *)
Definition cont (m : umap) (st : ustate) (a : Z) : option Z :=
  if liveb m st a then sm st a else Some (dflt m).

Lemma shows_cont m st a v : layout_ok m (segs st) -> shows m st a v <-> cont m st a = Some v.
Proof.
  intros L. unfold shows, cont. pose proof (liveb_iff m st a L) as E.
  destruct (liveb m st a).
  - intuition congruence.
  - split.
    + intros [[H _]|[_ ->]]; [|reflexivity]. apply E in H. discriminate.
    + intros H. injection H as <-. right. split; [|reflexivity]. intros X. apply E in X. discriminate.
Qed.
