(** Invariant of the 32-bit shadow table; blocks, permissions and frames. *)
From Verif Require Import Base Umbra32_Model Umbra32_Spec.
Open Scope Z_scope.

(** * Hoare-style reasoning on outcomes *)
Definition holds {A} (m : umap) (o : out A) (P : A -> Prop) : Prop :=
  match o with Ret a => P a | Dead => refused m | _ => False end.

Lemma holds_ret {A} m (a : A) (P : A -> Prop) : P a -> holds m (Ret a) P.
Proof. auto. Qed.
Lemma holds_bind {A B} m (o : out A) (f : A -> out B) (P : A -> Prop) (Q : B -> Prop) :
  holds m o P -> (forall a, P a -> holds m (f a) Q) -> holds m (obind o f) Q.
Proof. destruct o; cbn; auto. Qed.
Lemma holds_mono {A} m (o : out A) (P Q : A -> Prop) :
  holds m o P -> (forall a, P a -> Q a) -> holds m o Q.
Proof. destruct o; cbn; auto. Qed.

(** * Scales *)
Lemma slots_bs m : sh_bs m = SLOTS (sc m).
Proof. unfold sh_bs. destruct (sc m); vm_compute; reflexivity. Qed.
Lemma slots_range s : 8192 <= SLOTS s <= 131072.
Proof. destruct s; vm_compute; split; congruence. Qed.
Lemma numden s : 0 < num s /\ 0 < den s.
Proof. destruct s; split; reflexivity. Qed.

Lemma shiftr_div a n : 0 <= n -> Z.shiftr a n = a / 2 ^ n.
Proof. apply Z.shiftr_div_pow2. Qed.

(** Scaling is exact below 2^31. *)
Lemma to_shadow_slot s v : 0 <= v -> v * num s < 2 ^ 32 -> to_shadow s v = slot s v.
Proof.
  intros H0 H. unfold to_shadow, slot, w32.
  destruct s; cbn [is_down is_up shift num den] in *; rewrite ?Z.mul_1_r, ?Z.div_1_r;
    rewrite ?Z.shiftr_div_pow2, ?Z.shiftl_mul_pow2 by lia; change (2 ^ 3) with 8; change (2 ^ 2) with 4;
    change (2 ^ 1) with 2; try reflexivity.
  rewrite Z.mod_small by lia. reflexivity.
Qed.
Lemma to_shadow_mod s v : 0 <= v < 2 ^ 32 -> w32 (to_shadow s v) = w32 (slot s v).
Proof.
  intros H. unfold to_shadow, slot, w32.
  destruct s; cbn [is_down is_up shift num den]; rewrite ?Z.mul_1_r, ?Z.div_1_r;
    rewrite ?Z.shiftr_div_pow2, ?Z.shiftl_mul_pow2 by lia; change (2 ^ 3) with 8; change (2 ^ 2) with 4;
    change (2 ^ 1) with 2; try reflexivity.
  rewrite Z.mod_mod by lia. reflexivity.
Qed.

Lemma slot_block s i o : 0 <= o -> slot s (i * 65536 + o) = i * SLOTS s + slot s o.
Proof.
  intros H. unfold slot, SLOTS.
  destruct s; cbn [num den]; rewrite ?Z.mul_1_r, ?Z.div_1_r; try lia.
  - replace (i * 65536 + o) with (o + (i * 8192) * 8) by lia. rewrite Z.div_add by lia.
    change (65536 / 8) with 8192. lia.
  - replace (i * 65536 + o) with (o + (i * 16384) * 4) by lia. rewrite Z.div_add by lia.
    change (65536 / 4) with 16384. lia.
  - replace (i * 65536 + o) with (o + (i * 32768) * 2) by lia. rewrite Z.div_add by lia.
    change (65536 / 2) with 32768. lia.
Qed.
Lemma slot_small s o : 0 <= o < 65536 -> 0 <= slot s o /\ slot s o + num s <= SLOTS s.
Proof.
  intros H. unfold slot, SLOTS.
  destruct s; cbn [num den]; rewrite ?Z.mul_1_r, ?Z.div_1_r; lia.
Qed.
Lemma slot_mono s x y : x <= y -> slot s x <= slot s y.
Proof.
  intros H. unfold slot. apply Z.div_le_mono; [apply numden|]. destruct (numden s). nia.
Qed.
Lemma slot_whole s x y : x mod den s = 0 -> y mod den s = 0 -> slot s y - slot s x = (y - x) * num s / den s.
Proof.
  intros Hx Hy. destruct (numden s) as [N D].
  apply Z.div_exact in Hx; [|lia]. apply Z.div_exact in Hy; [|lia].
  set (a := x / den s) in *. set (b := y / den s) in *. clearbody a b. subst x y.
  unfold slot. rewrite <- Z.mul_sub_distr_l.
  rewrite <- !Z.mul_assoc, !(Z.mul_comm (den s)), !Z.div_mul by lia. lia.
Qed.
Lemma slot_whole_add s x n : x mod den s = 0 -> n mod den s = 0 -> slot s (x + n) = slot s x + slot s n.
Proof.
  intros Hx Hn.
  assert (H : (x + n) mod den s = 0)
    by (destruct (numden s); rewrite Z.add_mod, Hx, Hn, Z.mod_0_l by lia; reflexivity).
  pose proof (slot_whole s x (x + n) Hx H) as E. replace (x + n - x) with n in E by lia.
  unfold slot at 3. lia.
Qed.

(** * Table arithmetic *)
Lemma index_div x : table_index x = x / 65536.
Proof. unfold table_index. rewrite Z.shiftr_div_pow2 by (unfold APP_BLOCK_BITS; lia). reflexivity. Qed.
Lemma offset_mod x : table_offset x = x mod 65536.
Proof.
  unfold table_offset. change (APP_BLOCK_SIZE - 1) with (Z.ones 16). rewrite Z.land_ones by lia. reflexivity.
Qed.
Lemma app_base_mul i : 0 <= i < 65536 -> table_app_base i = i * 65536.
Proof.
  intros H. unfold table_app_base, w32, APP_BLOCK_BITS. rewrite Z.shiftl_mul_pow2 by lia.
  change (2 ^ 16) with 65536. apply Z.mod_small. lia.
Qed.
Lemma align_sub x : 0 <= x < 2 ^ 32 -> align_block x = x / 65536 * 65536.
Proof.
  intros H. unfold align_block.
  change (2 ^ 32 - 1 - (APP_BLOCK_SIZE - 1)) with (Z.ldiff (2 ^ 32 - 1) (Z.ones 16)).
  rewrite Z.ldiff_land, Z.land_assoc.
  change (2 ^ 32 - 1) with (Z.ones 32). rewrite Z.land_ones by lia. rewrite Z.mod_small by lia.
  rewrite <- Z.ldiff_land, Z.ldiff_ones_r by lia.
  rewrite Z.shiftl_mul_pow2, Z.shiftr_div_pow2 by lia. reflexivity.
Qed.

Lemma offset_slot m x : block_offset m x = slot (sc m) (x mod 65536).
Proof.
  unfold block_offset. rewrite offset_mod. apply to_shadow_slot.
  - apply Z.mod_pos_bound. lia.
  - pose proof (Z.mod_pos_bound x 65536). destruct (sc m); cbn [num]; lia.
Qed.

Lemma w32_idem x : w32 (w32 x) = w32 x.
Proof. unfold w32. apply Z.mod_mod. lia. Qed.
Lemma w32_add_l x y : w32 (w32 x + y) = w32 (x + y).
Proof. unfold w32. rewrite Zplus_mod_idemp_l. reflexivity. Qed.
Lemma w32_add_r x y : w32 (x + w32 y) = w32 (x + y).
Proof. unfold w32. rewrite Zplus_mod_idemp_r. reflexivity. Qed.
Lemma w32_sub_r x y : w32 (x - w32 y) = w32 (x - y).
Proof. unfold w32. rewrite Zminus_mod_idemp_r. reflexivity. Qed.
Lemma w32_small x : 0 <= x < 2 ^ 32 -> w32 x = x.
Proof. apply Z.mod_small. Qed.

Lemma get_set m st i b j : 0 <= b < 2 ^ 32 ->
  get_block m (set_block m st i b) j = if j =? i then b else get_block m st j.
Proof.
  intros H. unfold get_block, set_block. cbn [table with_table].
  destruct (Z.eqb_spec j i) as [->|]; [|reflexivity].
  rewrite w32_add_l. replace (b - _ + _) with b by ring. apply w32_small. exact H.
Qed.

(** * Regions *)
Definition ro_region (m : umap) (b : Z) : region := Rg (b - rz m) Pages ReadOnly ReadOnly.
Definition norm_region (m : umap) (b : Z) : region :=
  Rg (b - rz m) (block_heap m) (if faulty m then NoAccess else ReadWrite) ReadWrite.

Definition idx (i : Z) : Prop := 0 <= i < 65536.
Definition off (m : umap) (o : Z) : Prop := 0 <= o < SLOTS (sc m).

Record inv (m : umap) (st : ustate) (A : Z -> Prop) (V : Z -> Z) : Prop := {
  i_live : forall r, In r (live st) ->
    SLOTS (sc m) <= r_at r /\ r_at r + alloc_size m < 2 ^ 32;
  i_apart : ForallOrdPairs (fun r s => apart m (r_at r) (r_at s)) (live st);
  i_spec : forall b v, In (b, v) (specials st) ->
    0 <= v <= 255 /\ In (ro_region m b) (live st) /\ forall o, off m o -> smem st (b + o) = v;
  i_nodup : NoDup (map fst (specials st));
  i_def : on_touch m = false ->
    In (ro_region m (dblock st)) (live st) /\ ~ In (dblock st) (map fst (specials st)) /\
    forall o, off m o -> smem st (dblock st + o) = dflt m;
  i_touch : on_touch m = true -> dblock st = 0 /\ exists b, In (b, dflt m) (specials st);
  i_blk : forall i, idx i ->
    (~ A i /\ on_touch m = false /\ get_block m st i = dblock st) \/
    (A i /\ exists v, In (get_block m st i, v) (specials st)) \/
    (A i /\ In (norm_region m (get_block m st i)) (live st) /\
     forall j, idx j -> j <> i -> get_block m st j <> get_block m st i);
  i_own : forall r, In r (live st) ->
    (on_touch m = false /\ r = ro_region m (dblock st)) \/
    (exists b v, In (b, v) (specials st) /\ r = ro_region m b) \/
    (exists i, idx i /\ r = norm_region m (get_block m st i));
  i_val : forall i o, idx i -> off m o ->
    smem st (get_block m st i + o) = V (i * SLOTS (sc m) + o);
  i_red : faulty m = false -> forall r a, In r (live st) ->
    (r_at r <= a < r_at r + rz m \/
     r_at r + rz m + SLOTS (sc m) <= a < r_at r + alloc_size m) -> smem st a = o_rzv m }.

Lemma apart_sym m a b : apart m a b -> apart m b a.
Proof. unfold apart. tauto. Qed.

Section Inv.
Variable m : umap.
Hypothesis Hm : map_ok m.

Lemma rz_range : 0 <= rz m <= 2 ^ 20.
Proof. unfold rz, PAGE. pose proof (mo_rz m Hm). destruct (faulty m); lia. Qed.
Lemma asz_eq : alloc_size m = SLOTS (sc m) + 2 * rz m.
Proof. unfold alloc_size. rewrite slots_bs. reflexivity. Qed.
Lemma asz_pos : 8192 <= alloc_size m < 2 ^ 22.
Proof. rewrite asz_eq. pose proof rz_range. pose proof (slots_range (sc m)). lia. Qed.

Section Fixed.
Variables (st : ustate) (A : Z -> Prop) (V : Z -> Z).
Hypothesis I : inv m st A V.

Lemma two_regions r s : In r (live st) -> In s (live st) -> r = s \/ apart m (r_at r) (r_at s).
Proof.
  intros Hr Hs. destruct (ForallOrdPairs_In (i_apart _ _ _ _ I) r s Hr Hs) as [E|[E|E]]; auto using apart_sym.
Qed.
Lemma same_region r s : In r (live st) -> In s (live st) -> r_at r = r_at s -> r = s.
Proof.
  intros Hr Hs E. destruct (two_regions r s Hr Hs) as [X|X]; [exact X|].
  unfold apart in X. pose proof asz_pos. lia.
Qed.

Lemma ro_not_norm b c : In (ro_region m b) (live st) -> In (norm_region m c) (live st) -> b <> c.
Proof.
  intros Hb Hc ->. pose proof (same_region _ _ Hb Hc eq_refl) as E. discriminate E.
Qed.

(** The three kinds of block. *)
Inductive kind := KDef | KSpec (v : Z) | KNorm.
Definition is_kind (i : Z) (k : kind) : Prop :=
  let b := get_block m st i in
  match k with
  | KDef => ~ A i /\ on_touch m = false /\ b = dblock st /\ In (ro_region m b) (live st) /\
            ~ In b (map fst (specials st))
  | KSpec v => A i /\ In (b, v) (specials st) /\ In (ro_region m b) (live st) /\
               (on_touch m = false -> b <> dblock st)
  | KNorm => A i /\ In (norm_region m b) (live st) /\ ~ In b (map fst (specials st)) /\
             (on_touch m = false -> b <> dblock st) /\
             forall j, idx j -> j <> i -> get_block m st j <> b
  end.
Lemma kind_of i : idx i -> exists k, is_kind i k.
Proof.
  intros Hi. destruct (i_blk _ _ _ _ I i Hi) as [(N & T & E)|[(Ai & v & S)|(Ai & L & U)]].
  - exists KDef. cbn. pose proof (i_def _ _ _ _ I T) as (D1 & D2 & _). rewrite E. auto.
  - exists (KSpec v). cbn. destruct (i_spec _ _ _ _ I _ _ S) as (_ & R & _). split; [exact Ai|].
    split; [exact S|]. split; [exact R|].
    intros T E. destruct (i_def _ _ _ _ I T) as (_ & D2 & _). apply D2. rewrite <- E.
    apply (in_map fst _ _ S).
  - exists KNorm. cbn. split; [exact Ai|]. split; [exact L|]. split; [|split; [|exact U]].
    + intros S. apply in_map_iff in S. destruct S as ((b & v) & E & S). cbn in E. subst b.
      destruct (i_spec _ _ _ _ I _ _ S) as (_ & R & _). exact (ro_not_norm _ _ R L eq_refl).
    + intros T E. destruct (i_def _ _ _ _ I T) as (D1 & _). exact (ro_not_norm _ _ D1 L (eq_sym E)).
Qed.

(** Bounds of a region of the map. *)
Lemma region_bounds b r : In r (live st) -> r_at r = b - rz m ->
  SLOTS (sc m) <= b - rz m /\ b + SLOTS (sc m) + rz m < 2 ^ 32.
Proof.
  intros H E. destruct (i_live _ _ _ _ I r H). rewrite asz_eq in *. lia.
Qed.
Lemma in_block_iff b r a : In r (live st) -> r_at r = b - rz m ->
  in_block m b a = true <-> b - rz m <= a < b + SLOTS (sc m) + rz m.
Proof.
  intros H E. destruct (region_bounds b r H E). pose proof rz_range. pose proof (slots_range (sc m)).
  unfold in_block. rewrite slots_bs, !w32_small by lia. lia.
Qed.

(** An address in the extent of a region is not in the extent of another. *)
Definition ext (r : region) (a : Z) : Prop := r_at r <= a < r_at r + alloc_size m.
Lemma ext_unique r s a : In r (live st) -> In s (live st) -> ext r a -> ext s a -> r = s.
Proof.
  intros Hr Hs Er Es. destruct (two_regions r s Hr Hs) as [E|[E|E]]; [exact E| |]; unfold ext in *; lia.
Qed.

Lemma find_special_spec l a : (forall b v, In (b, v) l -> In (b, v) (specials st)) ->
  match find_special m a l with
  | Some (b, v) => In (b, v) l /\ ext (ro_region m b) a
  | None => forall b v, In (b, v) l -> ~ ext (ro_region m b) a
  end.
Proof.
  induction l as [|(b, v) l IH]; intros H; cbn [find_special]; [intros ? ? []|].
  assert (E : in_block m b a = true <-> ext (ro_region m b) a).
  { destruct (i_spec _ _ _ _ I b v (H b v (or_introl eq_refl))) as (_ & R & _).
    rewrite (in_block_iff b _ a R) by reflexivity. unfold ext, ro_region. cbn [r_at]. rewrite asz_eq. lia. }
  destruct (in_block m b a).
  - split; [left; reflexivity|apply E; reflexivity].
  - specialize (IH (fun b v X => H b v (or_intror X))).
    destruct (find_special m a l) as [(b', v')|].
    + split; [right|]; apply IH.
    + intros b' v' [X|X]; [injection X as <- <-|].
      * intros Y. apply E in Y. discriminate Y.
      * exact (IH b' v' X).
Qed.

Lemma in_default_iff a : SLOTS (sc m) <= a -> 
  is_in_default m st a = true <-> (on_touch m = false /\ ext (ro_region m (dblock st)) a).
Proof.
  intros Ha. destruct (on_touch m) eqn:T.
  - destruct (i_touch _ _ _ _ I T) as (D & _). unfold is_in_default. rewrite D, slots_bs.
    pose proof rz_range. pose proof (slots_range (sc m)).
    split; [|intros [X _]; discriminate X].
    intros X. apply andb_prop in X. destruct X as [X1 X2]. exfalso.
    apply Z.leb_le in X1. apply Z.ltb_lt in X2. rewrite (w32_small (0 + _ + _)) in X2 by lia.
    destruct (Z.eq_dec (rz m) 0) as [E|E]; [lia|].
    assert (W : w32 (0 - rz m) = 2 ^ 32 - rz m).
    { unfold w32. symmetry. apply (Z.mod_unique _ _ (-1)); lia. }
    rewrite W in X1. lia.
  - destruct (i_def _ _ _ _ I T) as (R & _). change (is_in_default m st a) with (in_block m (dblock st) a).
    rewrite (in_block_iff (dblock st) _ a R) by reflexivity.
    unfold ext, ro_region. cbn [r_at]. rewrite asz_eq. split; [intros; split; [reflexivity|lia]|intros [_ X]; lia].
Qed.

(** What the two tests answer for an address of a block of the table (or of its
    redzones). *)
Definition near (b a : Z) : Prop := b - rz m <= a < b + SLOTS (sc m) + rz m.
Lemma near_ext_ro b a : near b a <-> ext (ro_region m b) a.
Proof. unfold near, ext, ro_region. cbn [r_at]. rewrite asz_eq. lia. Qed.
Lemma near_ext_norm b a : near b a <-> ext (norm_region m b) a.
Proof. unfold near, ext, norm_region. cbn [r_at]. rewrite asz_eq. lia. Qed.

Lemma kind_tests i k a : idx i -> is_kind i k -> near (get_block m st i) a ->
  match k with
  | KDef => is_in_default m st a = true /\ is_in_special m st a = None
  | KSpec v => is_in_default m st a = false /\
               exists w, is_in_special m st a = Some (get_block m st i, w) /\
                         In (get_block m st i, w) (specials st)
  | KNorm => is_in_default m st a = false /\ is_in_special m st a = None
  end.
Proof.
  intros Hi Hk Ha.
  assert (Hlow : SLOTS (sc m) <= a).
  { destruct k; cbn in Hk.
    - destruct Hk as (_ & _ & _ & R & _). pose proof (region_bounds _ _ R eq_refl). unfold near in Ha. lia.
    - destruct Hk as (_ & _ & R & _). pose proof (region_bounds _ _ R eq_refl). unfold near in Ha. lia.
    - destruct Hk as (_ & R & _). pose proof (region_bounds _ _ R eq_refl). unfold near in Ha. lia. }
  pose proof (find_special_spec (specials st) a (fun b v X => X)) as F.
  fold (is_in_special m st a) in F.
  destruct k as [|v|]; cbn in Hk.
  - destruct Hk as (_ & T & E & R & NS). split.
    + apply in_default_iff; [exact Hlow|]. split; [exact T|]. rewrite <- E. apply near_ext_ro. exact Ha.
    + destruct (is_in_special m st a) as [(b & v)|]; [|reflexivity]. destruct F as [F1 F2]. exfalso.
      destruct (i_spec _ _ _ _ I b v F1) as (_ & R' & _).
      pose proof (ext_unique _ _ a R R' (proj1 (near_ext_ro _ _) Ha) F2) as X.
      injection X as X. apply NS. replace (get_block m st i) with b by lia. apply (in_map fst _ _ F1).
  - destruct Hk as (_ & S & R & ND). split.
    + destruct (is_in_default m st a) eqn:D; [|reflexivity]. exfalso.
      apply in_default_iff in D; [|exact Hlow]. destruct D as [T D].
      destruct (i_def _ _ _ _ I T) as (R' & _).
      pose proof (ext_unique _ _ a R R' (proj1 (near_ext_ro _ _) Ha) D) as X.
      injection X as X. apply (ND T). lia.
    + destruct (is_in_special m st a) as [(b & w)|].
      * destruct F as [F1 F2]. destruct (i_spec _ _ _ _ I b w F1) as (_ & R' & _).
        pose proof (ext_unique _ _ a R R' (proj1 (near_ext_ro _ _) Ha) F2) as X. injection X as X.
        replace b with (get_block m st i) in * by lia. exists w. auto.
      * exfalso. exact (F _ _ S (proj1 (near_ext_ro _ _) Ha)).
  - destruct Hk as (_ & R & NS & ND & _). split.
    + destruct (is_in_default m st a) eqn:D; [|reflexivity]. exfalso.
      apply in_default_iff in D; [|exact Hlow]. destruct D as [T D].
      destruct (i_def _ _ _ _ I T) as (R' & _).
      pose proof (ext_unique _ _ a R R' (proj1 (near_ext_norm _ _) Ha) D) as X. discriminate X.
    + destruct (is_in_special m st a) as [(b & w)|]; [|reflexivity]. destruct F as [F1 F2]. exfalso.
      destruct (i_spec _ _ _ _ I b w F1) as (_ & R' & _).
      pose proof (ext_unique _ _ a R R' (proj1 (near_ext_norm _ _) Ha) F2) as X. discriminate X.
Qed.

(** Special blocks have one value. *)
Lemma spec_value b v w : In (b, v) (specials st) -> In (b, w) (specials st) -> v = w.
Proof.
  intros H1 H2. destruct (i_spec _ _ _ _ I _ _ H1) as (_ & _ & M1).
  destruct (i_spec _ _ _ _ I _ _ H2) as (_ & _ & M2).
  assert (O : off m 0) by (pose proof (slots_range (sc m)); unfold off; lia).
  rewrite <- (M1 0 O). apply (M2 0 O).
Qed.

Lemma blk_bounds i : idx i -> SLOTS (sc m) <= get_block m st i - rz m /\
  get_block m st i + SLOTS (sc m) + rz m < 2 ^ 32.
Proof.
  intros Hi. destruct (kind_of i Hi) as [[|v|] K]; cbn in K.
  - destruct K as (_ & _ & _ & R & _). exact (region_bounds _ _ R eq_refl).
  - destruct K as (_ & _ & R & _). exact (region_bounds _ _ R eq_refl).
  - destruct K as (_ & R & _). exact (region_bounds _ _ R eq_refl).
Qed.

(** Translation of an address. *)
Lemma xl_eq x : 0 <= x < 2 ^ 32 ->
  app_to_shadow m st x = get_block m st (x / 65536) + slot (sc m) (x mod 65536).
Proof.
  intros Hx. unfold app_to_shadow. rewrite index_div, offset_slot.
  assert (Hi : idx (x / 65536))
    by (unfold idx; split; [apply Z.div_pos; lia|apply Z.div_lt_upper_bound; lia]).
  pose proof (blk_bounds _ Hi). pose proof (slot_small (sc m) (x mod 65536) (Z.mod_pos_bound x 65536 eq_refl)).
  pose proof (numden (sc m)). pose proof rz_range. pose proof (slots_range (sc m)).
  apply w32_small. lia.
Qed.
End Fixed.
End Inv.
