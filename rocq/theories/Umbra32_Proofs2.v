(** Writing to blocks; new blocks. *)
From Verif Require Import Base Umbra32_Model Umbra32_Spec Umbra32_Proofs.
Open Scope Z_scope.

Section Blocks.
Variable m : umap.
Hypothesis Hm : map_ok m.

Lemma inside_body w r a n p : r_body r = p -> grants w p = true -> 0 <= n ->
  r_at r + rz m <= a -> a + n <= r_at r + rz m + SLOTS (sc m) -> inside m w a n r = true.
Proof.
  intros E G Hn H1 H2. unfold inside. rewrite asz_eq, slots_bs, E, G.
  pose proof (rz_range m Hm). rewrite orb_true_r, andb_true_r.
  repeat (apply andb_true_intro; split).
  - apply Z.leb_le. lia.
  - apply Z.leb_le. lia.
  - apply orb_true_intro. left. apply andb_true_intro. split; apply Z.leb_le; lia.
Qed.
Lemma can_in st w r a n : In r (live st) -> inside m w a n r = true -> can m st w a n = true.
Proof.
  intros H1 H2. unfold can. apply orb_true_intro. right. apply existsb_exists. eauto.
Qed.

Section Fixed.
Variables (st : ustate) (A : Z -> Prop) (V : Z -> Z).
Hypothesis I : inv m st A V.

Lemma can_write i o n : is_kind m st A i KNorm -> 0 <= o -> 0 <= n -> o + n <= SLOTS (sc m) ->
  can m st true (get_block m st i + o) n = true.
Proof.
  intros (_ & R & _) H1 H2 H3. apply (can_in _ _ _ _ _ R).
  apply (inside_body _ _ _ _ ReadWrite); [reflexivity|reflexivity|lia|..]; unfold norm_region; cbn [r_at]; lia.
Qed.
Lemma can_read i o n : idx i -> 0 <= o -> 0 <= n -> o + n <= SLOTS (sc m) ->
  can m st false (get_block m st i + o) n = true.
Proof.
  intros Hi H1 H2 H3. destruct (kind_of m Hm st A V I i Hi) as [[|v|] K]; cbn in K.
  - destruct K as (_ & _ & _ & R & _). apply (can_in _ _ _ _ _ R).
    apply (inside_body _ _ _ _ ReadOnly); [reflexivity|reflexivity|lia|..]; unfold ro_region; cbn [r_at]; lia.
  - destruct K as (_ & _ & R & _). apply (can_in _ _ _ _ _ R).
    apply (inside_body _ _ _ _ ReadOnly); [reflexivity|reflexivity|lia|..]; unfold ro_region; cbn [r_at]; lia.
  - destruct K as (_ & R & _). apply (can_in _ _ _ _ _ R).
    apply (inside_body _ _ _ _ ReadWrite); [reflexivity|reflexivity|lia|..]; unfold norm_region; cbn [r_at]; lia.
Qed.
Lemma can_read_special b v o n : In (b, v) (specials st) -> 0 <= o -> 0 <= n -> o + n <= SLOTS (sc m) ->
  can m st false (b + o) n = true.
Proof.
  intros S H1 H2 H3. destruct (i_spec _ _ _ _ I _ _ S) as (_ & R & _). apply (can_in _ _ _ _ _ R).
  apply (inside_body _ _ _ _ ReadOnly); [reflexivity|reflexivity|lia|..]; unfold ro_region; cbn [r_at]; lia.
Qed.

(** The bodies of blocks of the table and of special blocks, as extents. *)
Lemma ext_body r b o : r_at r = b - rz m -> off m o -> ext m r (b + o).
Proof. intros E H. unfold ext, off in *. rewrite asz_eq, E. pose proof (rz_range m Hm). lia. Qed.

(** Writing inside a normal block. *)
Lemma inv_write i o n f : idx i -> is_kind m st A i KNorm -> 0 <= o -> o + n <= SLOTS (sc m) ->
  inv m (with_smem st (fun x => if (get_block m st i + o <=? x) && (x <? get_block m st i + o + n)
                                then f (x - (get_block m st i + o)) else smem st x))
      A (fun k => if (i * SLOTS (sc m) + o <=? k) && (k <? i * SLOTS (sc m) + o + n)
                  then f (k - (i * SLOTS (sc m) + o)) else V k).
Proof.
  intros Hi K Ho Hn. pose proof K as (Ai & R & NS & ND & U).
  set (b := get_block m st i) in *.
  assert (other : forall r c o', In r (live st) -> r_at r = c - rz m -> r <> norm_region m b -> off m o' ->
    (b + o <=? c + o') && (c + o' <? b + o + n) = false).
  { intros r c o' Hr Er Hne Ho'. apply not_true_is_false. intros X. apply andb_prop in X.
    destruct X as [X1 X2]. apply Z.leb_le in X1. apply Z.ltb_lt in X2. apply Hne.
    apply (ext_unique m st A V I r (norm_region m b) (c + o') Hr R).
    - apply ext_body; assumption.
    - unfold ext, norm_region. cbn [r_at]. rewrite asz_eq. pose proof (rz_range m Hm). lia. }
  constructor; cbn [live specials dblock smem with_smem].
  - exact (i_live _ _ _ _ I).
  - exact (i_apart _ _ _ _ I).
  - intros c v S. destruct (i_spec _ _ _ _ I c v S) as (Hv & Rc & M). split; [exact Hv|]. split; [exact Rc|].
    intros o' Ho'. rewrite (other _ c o' Rc eq_refl); [apply M; exact Ho'| |exact Ho'].
    intros E. discriminate E.
  - exact (i_nodup _ _ _ _ I).
  - intros T. destruct (i_def _ _ _ _ I T) as (Rd & Nd & M). split; [exact Rd|]. split; [exact Nd|].
    intros o' Ho'. rewrite (other _ _ o' Rd eq_refl); [apply M; exact Ho'| |exact Ho'].
    intros E. discriminate E.
  - exact (i_touch _ _ _ _ I).
  - exact (i_blk _ _ _ _ I).
  - exact (i_own _ _ _ _ I).
  - intros j o' Hj Ho'.
    change (get_block m (with_smem st _) j) with (get_block m st j).
    destruct (Z.eq_dec j i) as [->|Hne].
    + fold b. unfold off in Ho'.
      replace ((b + o <=? b + o') && (b + o' <? b + o + n))
        with ((i * SLOTS (sc m) + o <=? i * SLOTS (sc m) + o') &&
              (i * SLOTS (sc m) + o' <? i * SLOTS (sc m) + o + n)) by lia.
      replace (b + o' - (b + o)) with (i * SLOTS (sc m) + o' - (i * SLOTS (sc m) + o)) by lia.
      destruct (_ && _); [reflexivity|]. unfold b. apply (i_val _ _ _ _ I); [exact Hi|exact Ho'].
    + assert (X : exists r, In r (live st) /\ r_at r = get_block m st j - rz m /\ r <> norm_region m b).
      { destruct (kind_of m Hm st A V I j Hj) as [[|v|] Kj]; cbn in Kj.
        - destruct Kj as (_ & _ & _ & Rj & _). eexists. split; [exact Rj|]. split; [reflexivity|discriminate].
        - destruct Kj as (_ & _ & Rj & _). eexists. split; [exact Rj|]. split; [reflexivity|discriminate].
        - destruct Kj as (_ & Rj & _). eexists. split; [exact Rj|]. split; [reflexivity|].
          intros E. injection E as E. apply (U j Hj Hne). unfold b. lia. }
      destruct X as (r & Hr & Er & Hr').
      rewrite (other r _ o' Hr Er Hr' Ho').
      replace ((i * SLOTS (sc m) + o <=? j * SLOTS (sc m) + o') &&
               (j * SLOTS (sc m) + o' <? i * SLOTS (sc m) + o + n)) with false
        by (unfold off in Ho'; pose proof (slots_range (sc m)); symmetry; apply not_true_is_false; intros X; nia).
      apply (i_val _ _ _ _ I); assumption.
  - intros Hf r a Hr Ha.
    replace ((b + o <=? a) && (a <? b + o + n)) with false; [exact (i_red _ _ _ _ I Hf r a Hr Ha)|].
    symmetry. apply not_true_is_false. intros X. apply andb_prop in X.
    destruct X as [X1 X2]. apply Z.leb_le in X1. apply Z.ltb_lt in X2.
    assert (E : r = norm_region m b).
    { apply (ext_unique m st A V I r (norm_region m b) a Hr R).
      - unfold ext. rewrite asz_eq in *. pose proof (rz_range m Hm). pose proof (slots_range (sc m)). lia.
      - unfold ext, norm_region. cbn [r_at]. rewrite asz_eq. pose proof (rz_range m Hm). lia. }
    subst r. unfold norm_region in Ha. cbn [r_at] in Ha. lia.
Qed.

(** * New blocks *)
Lemma fresh_bounds a : alloc m (live st) (tick st) = Some a ->
  SLOTS (sc m) <= a /\ a + alloc_size m < 2 ^ 32 /\ (forall r, In r (live st) -> apart m a (r_at r)).
Proof. apply (mo_alloc m Hm). Qed.

Lemma protect_others a p q (f : prot -> prot) (l : list region) :
  (forall r, In r l -> apart m a (r_at r)) ->
  map (fun r => if r_at r =? a then Rg a (r_heap r) (p r) (q r) else r) l = l.
Proof.
  intros H. rewrite <- (map_id l) at 2. apply map_ext_in. intros r Hr.
  destruct (Z.eqb_spec (r_at r) a) as [E|]; [|reflexivity].
  pose proof (H r Hr) as X. unfold apart in X. pose proof (asz_pos m Hm). lia.
Qed.

(** What [shadow_table_init_redzone] does to a new allocation. *)
Lemma init_redzone_ok st1 a h :
  live st1 = Rg a h ReadWrite ReadWrite :: live st -> smem st1 = smem st ->
  (forall r, In r (live st) -> apart m a (r_at r)) ->
  exists st2, init_redzone m st1 a = Ret (st2, a + rz m) /\
    table st2 = table st1 /\ specials st2 = specials st1 /\ dblock st2 = dblock st1 /\
    tick st2 = tick st1 /\
    live st2 = Rg a h (if faulty m then NoAccess else ReadWrite) ReadWrite :: live st /\
    (forall x, ~ (a <= x < a + rz m) -> ~ (a + rz m + SLOTS (sc m) <= x < a + alloc_size m) ->
       smem st2 x = smem st x) /\
    (faulty m = false -> forall x, a <= x < a + rz m \/ a + rz m + SLOTS (sc m) <= x < a + alloc_size m ->
       smem st2 x = o_rzv m).
Proof.
  intros HL HS HA. unfold init_redzone.
  destruct (Z.eqb_spec (rz m) 0) as [Z0|Z0].
  - exists st1. rewrite Z0, Z.add_0_r. split; [reflexivity|]. repeat (split; [reflexivity|]).
    assert (F : faulty m = false) by (unfold rz in Z0; destruct (faulty m); [discriminate Z0|reflexivity]).
    rewrite F. split; [exact HL|]. split; [intros; rewrite HS; reflexivity|].
    rewrite asz_eq, Z0. intros _ x X. lia.
  - destruct (faulty m) eqn:F.
    + eexists. split; [reflexivity|]. unfold protect_red. cbn [table specials dblock tick live smem with_live].
      repeat (split; [reflexivity|]). split; [|split].
      * rewrite HL. cbn [map r_at r_heap r_body]. rewrite Z.eqb_refl. f_equal.
        exact (protect_others a (fun _ => NoAccess) r_body (fun p => p) (live st) HA).
      * intros. rewrite HS. reflexivity.
      * discriminate.
    + pose proof (rz_range m Hm) as RZ. pose proof (slots_range (sc m)) as SL.
      assert (RV : o_rzv m mod 256 = o_rzv m) by (apply Z.mod_small; pose proof (mo_rzv m Hm); lia).
      unfold m_set at 1.
      assert (C1 : can m st1 true a (rz m) = true).
      { apply (can_in st1 true (Rg a h ReadWrite ReadWrite)); [rewrite HL; left; reflexivity|].
        unfold inside. cbn [r_at r_red r_body grants]. rewrite asz_eq, !orb_true_r, !andb_true_r.
        apply andb_true_intro. split; apply Z.leb_le; lia. }
      rewrite C1. cbn [obind]. unfold m_set.
      match goal with |- context [can m ?s true (a + rz m + sh_bs m) (rz m)] =>
        assert (C2 : can m s true (a + rz m + sh_bs m) (rz m) = true) end.
      { apply (can_in _ true (Rg a h ReadWrite ReadWrite)); [cbn [live with_smem]; rewrite HL; left; reflexivity|].
        unfold inside. cbn [r_at r_red r_body grants]. rewrite slots_bs, asz_eq, !orb_true_r, !andb_true_r.
        apply andb_true_intro. split; apply Z.leb_le; lia. }
      rewrite C2. cbn [obind]. eexists. split; [reflexivity|].
      cbn [table specials dblock tick live smem with_smem]. repeat (split; [reflexivity|]).
      split; [exact HL|]. rewrite slots_bs, RV, asz_eq, HS. split.
      * intros x X1 X2. rewrite (proj2 (andb_false_iff _ _)) by lia. rewrite (proj2 (andb_false_iff _ _)) by lia.
        reflexivity.
      * intros _ x X. destruct ((_ <=? x) && (x <? _)) eqn:E; [reflexivity|].
        apply andb_false_iff in E. destruct X as [X|X]; [|lia].
        rewrite (proj2 (andb_true_iff _ _)) by lia. reflexivity.
Qed.

(** A new normal block: everything else is as before. *)
Lemma create_block_ok :
  holds m (create_block m st) (fun r => let '(st2, b) := r in
    table st2 = table st /\ specials st2 = specials st /\ dblock st2 = dblock st /\
    live st2 = norm_region m b :: live st /\
    SLOTS (sc m) <= b - rz m /\ b - rz m + alloc_size m < 2 ^ 32 /\
    (forall r, In r (live st) -> apart m (b - rz m) (r_at r)) /\
    (forall x, ~ (b - rz m <= x < b) -> ~ (b + SLOTS (sc m) <= x < b - rz m + alloc_size m) ->
       smem st2 x = smem st x) /\
    (faulty m = false -> forall x, b - rz m <= x < b \/ b + SLOTS (sc m) <= x < b - rz m + alloc_size m ->
       smem st2 x = o_rzv m)).
Proof.
  unfold create_block, new_region. destruct (alloc m (live st) (tick st)) as [a|] eqn:E;
    [|cbn; exists (live st), (tick st); exact E].
  destruct (fresh_bounds a E) as (B1 & B2 & B3). cbn [obind].
  match goal with |- context [init_redzone m ?s a] =>
    destruct (init_redzone_ok s a (block_heap m) eq_refl eq_refl B3) as (st2 & -> & T & S & D & _ & L & M1 & M2) end.
  cbn [holds]. replace (a + rz m - rz m) with a by lia.
  cbn [table specials dblock] in T, S, D. repeat (split; [assumption|]).
  split; [rewrite L; unfold norm_region; replace (a + rz m - rz m) with a by lia; reflexivity|].
  do 3 (split; [assumption|]). split; assumption.
Qed.

(** A new read-only block that holds [v]. *)
Lemma special_helper_ok v : 0 <= v <= 255 ->
  holds m (special_helper m st v) (fun r => let '(st2, b) := r in
    table st2 = table st /\ specials st2 = specials st /\ dblock st2 = dblock st /\
    live st2 = ro_region m b :: live st /\
    SLOTS (sc m) <= b - rz m /\ b - rz m + alloc_size m < 2 ^ 32 /\
    (forall r, In r (live st) -> apart m (b - rz m) (r_at r)) /\
    (forall x, ~ (b - rz m <= x < b - rz m + alloc_size m) -> smem st2 x = smem st x) /\
    (forall o, off m o -> smem st2 (b + o) = v) /\
    (faulty m = false -> forall x, b - rz m <= x < b \/ b + SLOTS (sc m) <= x < b - rz m + alloc_size m ->
       smem st2 x = o_rzv m)).
Proof.
  intros Hv. unfold special_helper, new_region. destruct (alloc m (live st) (tick st)) as [a|] eqn:E;
    [|cbn; exists (live st), (tick st); exact E].
  destruct (fresh_bounds a E) as (B1 & B2 & B3). cbn [obind].
  match goal with |- context [init_redzone m ?s a] =>
    destruct (init_redzone_ok s a Pages eq_refl eq_refl B3) as (st2 & -> & T & S & D & _ & L & M1 & M2) end.
  cbn [obind]. unfold m_set.
  assert (C : can m st2 true (a + rz m) (sh_bs m) = true).
  { apply (can_in st2 true (Rg a Pages (if faulty m then NoAccess else ReadWrite) ReadWrite)); [rewrite L; left; reflexivity|].
    rewrite slots_bs. pose proof (slots_range (sc m)).
    apply (inside_body _ _ _ _ ReadWrite); [reflexivity|reflexivity|lia|..]; cbn [r_at]; lia. }
  rewrite C. cbn [obind holds]. unfold protect_all. cbn [table specials dblock live smem with_live with_smem].
  replace (a + rz m - rz m) with a by lia. cbn [table specials dblock] in T, S, D.
  repeat (split; [assumption|]). rewrite L. cbn [map r_at r_heap]. rewrite Z.eqb_refl.
  split; [|do 3 (split; [assumption|])].
  - unfold ro_region. replace (a + rz m - rz m) with a by lia. f_equal.
    exact (protect_others a (fun _ => ReadOnly) (fun _ => ReadOnly) (fun p => p) (live st) B3).
  - rewrite slots_bs. pose proof (rz_range m Hm). pose proof (slots_range (sc m)).
    split; [|split].
    + intros x X. rewrite asz_eq in *. rewrite (proj2 (andb_false_iff _ _)) by lia. apply M1; rewrite ?asz_eq; lia.
    + intros o Ho. unfold off in Ho. rewrite (proj2 (andb_true_iff _ _)) by lia. apply Z.mod_small. lia.
    + intros F x X. rewrite asz_eq in *. rewrite (proj2 (andb_false_iff _ _)) by lia.
      apply M2; [exact F|]. rewrite ?asz_eq. lia.
Qed.
End Fixed.
End Blocks.
