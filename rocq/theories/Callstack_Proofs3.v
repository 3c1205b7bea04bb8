(** Stored stacks represent what was observed; decoding and comparing them. *)
From Verif Require Import Base Redblack_Model Redblack_Spec Redblack_Facts Callstack_Model Callstack_Spec Callstack_Proofs1 Callstack_Proofs2.
Open Scope Z_scope.

Definition rep_p (nm : names) (f : pframe) (o : shown) : Prop :=
  match o with
  | ShSys s => p_loc f = LS s /\ p_idx f = 0
  | ShPc a None => f = PF (LA a) MAX_MODOFFS_STORED MAX_MODNAMES_STORED
  | ShPc a (Some (path, off)) => exists i m q r, f = PF (LA a) r (mi_index m + q) /\ nth_error (infos nm) i = Some m /\ mi_path m = path /\
      off = q * MAX_MODOFFS_STORED + r /\ 0 <= r <= MAX_MODOFFS_STORED /\ 0 <= q /\ (0 < q -> 1 <= r) /\ 1 <= mi_index m /\
      mi_index m + q <= 254 /\ nth_error (arr nm) (Z.to_nat (mi_index m + q - 1)) = Some i
  end.
Definition rep_f (nm : names) (f : fframe) (o : shown) : Prop :=
  match o with
  | ShSys s => f_loc f = LS s /\ f_mod f = Syscall
  | ShPc a None => f = FF (LA a) 0 NoMod
  | ShPc a (Some (path, off)) => exists i m, f = FF (LA a) off (Mod i) /\ nth_error (infos nm) i = Some m /\ mi_path m = path
  end.
Definition rep_fs (nm : names) (fs : frames_t) (os : list shown) : Prop :=
  match fs with Packed l => Forall2 (rep_p nm) l os | Full l => Forall2 (rep_f nm) l os end.
Record Rep (nm : names) (p : pcs) (os : list shown) : Prop := {
  p_rep : rep_fs nm (frames p) os;
  p_nn : nonnull p = negb (Nat.eqb (length os) 0);
  p_sys : first_sys p = headsys os;
  p_tl : Forall (fun o => is_sys o = false) (tl os) }.

Lemma rep_p_ext a b f o : ext a b -> rep_p a f o -> rep_p b f o.
Proof.
  intros X H. destruct o as [s|pc [[path off]|]]; auto. destruct H as (i&m&q&r&H). exists i, m, q, r.
  decompose [and] H. repeat (split; [solve [auto|eapply ext_nth; eauto]|]). eapply ext_arr; eauto.
Qed.
Lemma rep_f_ext a b f o : ext a b -> rep_f a f o -> rep_f b f o.
Proof.
  intros X H. destruct o as [s|pc [[path off]|]]; auto. destruct H as (i&m&H1&H2&H3). exists i, m. split; auto. split; auto. eapply ext_nth; eauto.
Qed.
Lemma Forall2_imp {A B} (P Q : A -> B -> Prop) l m : (forall a b, P a b -> Q a b) -> Forall2 P l m -> Forall2 Q l m.
Proof. intros H. induction 1; constructor; auto. Qed.
Lemma rep_fs_ext a b fs os : ext a b -> rep_fs a fs os -> rep_fs b fs os.
Proof. intros X. destruct fs; cbn; apply Forall2_imp; intros; [eapply rep_p_ext|eapply rep_f_ext]; eauto. Qed.
Lemma Rep_ext a b p os : ext a b -> Rep a p os -> Rep b p os.
Proof. intros X [H1 H2 H3 H4]. constructor; auto. eapply rep_fs_ext; eauto. Qed.

Definition nframes (fs : frames_t) : nat := match fs with Packed l => length l | Full l => length l end.
Lemma Forall2_len {A B} (P : A -> B -> Prop) l m : Forall2 P l m -> length l = length m.
Proof. induction 1; cbn; auto. Qed.
Lemma rep_len nm fs os : rep_fs nm fs os -> nframes fs = length os.
Proof. destruct fs; cbn; apply Forall2_len. Qed.
Lemma Forall2_nth {A B} (P : A -> B -> Prop) l m n o : Forall2 P l m -> nth_error m n = Some o -> exists f, nth_error l n = Some f /\ P f o.
Proof. intros H. revert n. induction H; intros [|n] Q; cbn in *; try discriminate; eauto. injection Q as <-. eauto. Qed.

(** ---- splitting an offset ---- *)
Lemma split_ok : forall fuel sz idx, 0 <= sz -> 1 <= idx -> (Z.to_nat (sz / MAX_MODOFFS_STORED) < fuel)%nat ->
  idx + (if sz <=? MAX_MODOFFS_STORED then 0 else (sz - 1) / MAX_MODOFFS_STORED) <= 254 ->
  exists q r, split_offs fuel sz idx = Ok (r, idx + q) /\ sz = q * MAX_MODOFFS_STORED + r /\ 0 <= r <= MAX_MODOFFS_STORED /\ 0 <= q /\
    (0 < q -> 1 <= r) /\ q = (if sz <=? MAX_MODOFFS_STORED then 0 else (sz - 1) / MAX_MODOFFS_STORED).
Proof.
  unfold MAX_MODOFFS_STORED, MAX_MODNAMES_STORED. induction fuel as [|fuel IH]; intros sz idx P1 P2 F B; [lia|]. cbn [split_offs].
  unfold MAX_MODOFFS_STORED, MAX_MODNAMES_STORED. destruct (Z.ltb_spec 16777215 sz).
  - destruct (Z.leb_spec sz 16777215); [lia|].
    assert (D : sz / 16777215 = (sz - 16777215) / 16777215 + 1).
    { replace sz with ((sz - 16777215) + 1 * 16777215) at 1 by lia. rewrite Z.div_add; lia. }
    assert (D2 : (sz - 1) / 16777215 = (sz - 16777215 - 1) / 16777215 + 1).
    { replace (sz - 1) with ((sz - 16777215 - 1) + 1 * 16777215) at 1 by lia. rewrite Z.div_add; lia. }
    assert (D3 : 0 <= (sz - 16777215) / 16777215) by (apply Z.div_pos; lia).
    assert (D4 : 0 <= (sz - 16777215 - 1) / 16777215) by (apply Z.div_pos; lia).
    destruct (Z.eqb_spec (idx + 1) 255); [lia|].
    destruct (IH (sz - 16777215) (idx + 1)) as (q&r&E1&E2&E3&E4&E5&E6); try lia.
    { destruct (sz - 16777215 <=? 16777215); lia. }
    exists (q + 1), r. rewrite E1. split; [do 2 f_equal; lia|]. split; [lia|]. split; [lia|]. split; [lia|].
    destruct (Z.leb_spec (sz - 16777215) 16777215).
    + split; [lia|]. assert ((sz - 16777215 - 1) / 16777215 = 0) by (apply Z.div_small; lia). lia.
    + split; [|lia]. intros _. apply E5. assert (1 <= (sz - 16777215 - 1) / 16777215); [|lia]. apply Z.div_le_lower_bound; lia.
  - exists 0, sz. destruct (Z.leb_spec sz 16777215); [|lia]. split; [do 2 f_equal; lia|]. lia.
Qed.

(** ---- recording ---- *)
Definition ffull (fs : frames_t) : bool := match fs with Full _ => true | _ => false end.
Section Rec.
Variables (done : list event) (l : list entry).
Lemma inv_caches st st' : INV done st l -> Core st' l (loaded done) -> nms st' = nms st -> last_hit st' = last_hit st -> last_miss st' = last_miss st -> INV done st' l.
Proof.
  intros [C N S P] C' X H M. constructor; auto.
  - rewrite X. auto.
  - intros PG. destruct (P PG) as ([G1 G2 G3]&P2). split; auto. constructor; rewrite ?H, ?M; auto.
Qed.
Lemma where_nn ms pc rg : where_is ms pc = Some rg -> In rg ms /\ r_start rg <= pc < r_end rg.
Proof. intros H. apply find_some in H. unfold covers in H. destruct H. split; auto. lia. Qed.

Lemma a2f_ok st fs pc skip os : INV done st l -> no_growth done -> rep_fs (nms st) fs os ->
  (forall fl, fs = Packed fl -> (length (arr (nms st)) < 254)%nat) ->
  exists st' fs', address_to_frame st fs pc skip = Ok (st', fs') /\ INV done st' l /\ nms st' = nms st /\
    rep_fs (nms st) fs' (os ++ see_walk (loaded done) [(pc, skip)]) /\ ffull fs' = ffull fs.
Proof.
  intros V NG R PK. unfold address_to_frame. destruct (lookup_ok st l _ pc (v_core _ _ _ V)) as (st'&r&E1&C'&X&_&H1&H2&H). rewrite E1. cbn [bind].
  pose proof (inv_caches st st' V C' X H1 H2) as V'. cbn [see_walk flat_map fst snd]. rewrite app_nil_r.
  destruct r as [[[b s] i]|].
  - destruct H as (rg&I&CV&->&->&P). rewrite (where_some _ _ _ (v_core _ _ _ V) pc rg I CV). unfold see_pc.
    rewrite (where_some _ _ _ (v_core _ _ _ V) pc rg I CV). unfold path_of in P.
    destruct (nth_error (infos (nms st)) i) as [m|] eqn:NM; [|discriminate]. cbn in P. injection P as P.
    destruct fs as [fl|fl].
    + rewrite X, NM. cbn [of_option bind].
      destruct (v_span _ _ _ V NG rg I) as (sp&S1&S2). destruct (n_ent _ _ (v_ni _ _ _ V) i m NM) as (sp'&S3&S4). rewrite P, S1 in S3. injection S3 as <-.
      destruct (S4 (PK _ eq_refl)) as (k&K1&K2&K3&K4). pose proof (n_len _ _ (v_ni _ _ _ V)).
      assert (OB : 0 <= pc - r_start rg < Z.of_nat k * MAX_MODOFFS_STORED). { unfold covers in CV. lia. }
      assert (KL : (Z.to_nat (mi_index m - 1) + (k - 1) < length (arr (nms st)))%nat). { apply nth_error_Some. rewrite K4 by lia. discriminate. }
      set (sz := pc - r_start rg) in *.
      assert (QB : (if sz <=? MAX_MODOFFS_STORED then 0 else (sz - 1) / MAX_MODOFFS_STORED) <= Z.of_nat k - 1).
      { destruct (Z.leb_spec sz MAX_MODOFFS_STORED); [lia|]. assert ((sz - 1) / MAX_MODOFFS_STORED < Z.of_nat k); [|lia].
        apply Z.div_lt_upper_bound; unfold MAX_MODOFFS_STORED in *; lia. }
      destruct (split_ok 257 sz (mi_index m)) as (q&r&E2&Q1&Q2&Q3&Q4&Q5); try lia.
      { assert (sz / MAX_MODOFFS_STORED < 256); [|lia]. apply Z.div_lt_upper_bound; unfold MAX_MODOFFS_STORED in *; lia. }
      rewrite E2. cbn [bind]. do 2 eexists. split; [reflexivity|]. split; auto. split; auto. split; [|reflexivity].
      cbn [rep_fs]. apply Forall2_app; auto. constructor; [|constructor].
      exists i, m, q, r. change (2 ^ 24) with 16777216. change (2 ^ 8) with 256. rewrite <- Q5 in QB. unfold MAX_MODOFFS_STORED in *.
      split; [rewrite !Z.mod_small by lia; reflexivity|]. split; auto. split; auto. split; auto. split; auto. split; auto. split; auto. split; auto.
      split; [lia|]. replace (Z.to_nat (mi_index m + q - 1)) with (Z.to_nat (mi_index m - 1) + Z.to_nat q)%nat by lia. apply K4. lia.
    + do 2 eexists. split; [reflexivity|]. split; auto. split; auto. split; [|reflexivity]. cbn [rep_fs]. apply Forall2_app; auto. constructor; [|constructor].
      exists i, m. auto.
  - rewrite (where_none _ pc H). destruct skip.
    + rewrite app_nil_r. do 2 eexists. split; [reflexivity|]. split; auto.
    + unfold see_pc. rewrite (where_none _ pc H). destruct fs; do 2 eexists; (split; [reflexivity|]); split; auto; split; auto; (split; [|reflexivity]);
        cbn [rep_fs]; apply Forall2_app; auto; constructor; [reflexivity|constructor|reflexivity|constructor].
Qed.
Lemma see_walk_app ms a b : see_walk ms (a ++ b) = see_walk ms a ++ see_walk ms b.
Proof. apply flat_map_app. Qed.
Lemma add_frames_ok : forall walk st fs os, INV done st l -> no_growth done -> rep_fs (nms st) fs os ->
  (forall fl, fs = Packed fl -> (length (arr (nms st)) < 254)%nat) ->
  exists st' fs', add_frames st fs walk = Ok (st', fs') /\ INV done st' l /\ nms st' = nms st /\ rep_fs (nms st) fs' (os ++ see_walk (loaded done) walk) /\ ffull fs' = ffull fs.
Proof.
  induction walk as [|[pc skip] walk IH]; intros st fs os V NG R PK; cbn [add_frames].
  - do 2 eexists. split; [reflexivity|]. split; auto. split; auto. split; auto. cbn. rewrite app_nil_r. auto.
  - destruct (a2f_ok st fs pc skip os V NG R PK) as (st1&fs1&E1&V1&X1&R1&PK1). rewrite E1. cbn [bind].
    rewrite <- X1 in R1. destruct (IH st1 fs1 _ V1 NG R1) as (st2&fs2&E2&V2&X2&R2&FF2).
    { intros fl ->. rewrite X1. destruct fs; [eapply PK; eauto|discriminate]. }
    exists st2, fs2. split; auto. split; auto. split; [congruence|]. rewrite X1 in R2. rewrite <- app_assoc, <- see_walk_app in R2. split; [auto|congruence].
Qed.
Lemma see_walk_nosys ms walk : Forall (fun o => is_sys o = false) (see_walk ms walk).
Proof.
  apply Forall_forall. intros o I. apply in_flat_map in I. destruct I as ([pc sk]&_&I). cbn in I.
  destruct (where_is ms pc); [|destruct sk]; cbn in I; try tauto; destruct I as [<-|[]]; reflexivity.
Qed.
Lemma record_ok st top walk junk : INV done st l -> no_growth done -> exists st' p, record st top walk junk = Ok (st', p) /\ INV done st' l /\ nms st' = nms st /\
  Rep (nms st) p (seen (loaded done) top walk) /\ is_full p = (255 <=? array_end (nms st)).
Proof.
  intros V NG. unfold record, seen. set (packed := array_end (nms st) <? MAX_MODNAMES_STORED).
  assert (PK : forall fl, (if packed then Packed [] else Full []) = Packed fl -> (length (arr (nms st)) < 254)%nat).
  { intros fl. unfold packed, array_end, MAX_MODNAMES_STORED. destruct (Z.ltb_spec (1 + Z.of_nat (length (arr (nms st)))) 255); [lia|discriminate]. }
  assert (R0 : rep_fs (nms st) (if packed then Packed [] else Full []) []) by (destruct packed; constructor).
  assert (G : exists st1 fs1, match top with
    | None => Ok (st, if packed then Packed [] else Full [], false)
    | Some (AtSyscall s) => Ok (st, if packed then Packed [PF (LS s) junk 0] else Full [FF (LS s) junk Syscall], true)
    | Some (AtPc pc) => let* (st, fs) := address_to_frame st (if packed then Packed [] else Full []) pc false in Ok (st, fs, false)
    end = Ok (st1, fs1, headsys (see_top (loaded done) top)) /\ INV done st1 l /\ nms st1 = nms st /\ rep_fs (nms st) fs1 (see_top (loaded done) top) /\
      ffull fs1 = negb packed).
  { destruct top as [[pc|s]|].
    - destruct (a2f_ok st _ pc false [] V NG R0 PK) as (st1&fs1&E1&V1&X1&R1&PK1). rewrite E1. cbn [bind]. exists st1, fs1. split; auto. split; auto. split; auto.
      split. { cbn in R1. destruct (where_is (loaded done) pc); auto. }
      rewrite PK1. destruct packed; auto.
    - do 2 eexists. split; [reflexivity|]. split; auto. split; auto. split.
      + destruct packed; constructor; try constructor; reflexivity.
      + destruct packed; auto.
    - do 2 eexists. split; [reflexivity|]. split; auto. split; auto. split; auto. destruct packed; auto. }
  destruct G as (st1&fs1&E1&V1&X1&R1&PK1). rewrite E1. cbn [bind]. rewrite <- X1 in R1.
  destruct (add_frames_ok walk st1 fs1 _ V1 NG R1) as (st2&fs2&E2&V2&X2&R2&FF2).
  { intros fl ->. rewrite X1. destruct packed; [eapply PK; reflexivity|discriminate]. }
  rewrite E2. cbn [bind].
  do 2 eexists. split; [reflexivity|]. split; auto. split; [congruence|]. split.
  2:{ unfold is_full. cbn [frames]. change (ffull fs2 = (255 <=? array_end (nms st))). rewrite FF2, PK1. unfold packed, MAX_MODNAMES_STORED. rewrite Z.leb_antisym. auto. }
  rewrite X1 in R2. constructor; cbn [frames nonnull first_sys].
  - auto.
  - apply rep_len in R2. unfold num_frames. cbn [frames]. unfold nframes in R2. destruct fs2; rewrite R2; auto.
  - destruct top as [[|]|]; try reflexivity. cbn. pose proof (see_walk_nosys (loaded done) walk) as W. destruct (see_walk (loaded done) walk); auto.
    inversion W; auto.
  - pose proof (see_walk_nosys (loaded done) walk) as W. destruct top as [[|]|]; cbn; auto. destruct (see_walk (loaded done) walk); [constructor|]. inversion W; auto.
Qed.
End Rec.

(** ---- decoding ---- *)
Definition decoded (nm : names) (o : shown) (r : option (option nat * Z)) : Prop :=
  match o with
  | ShSys _ => r = None
  | ShPc _ None => r = Some (None, 0)
  | ShPc _ (Some (path, off)) => exists i m, r = Some (Some i, off) /\ nth_error (infos nm) i = Some m /\ mi_path m = path
  end.
Definition at_loc (o : shown) : loc := match o with ShSys s => LS s | ShPc a _ => LA a end.
Lemma frame_loc_ok nm p os n o : Rep nm p os -> nth_error os n = Some o -> frame_loc p n = Ok (at_loc o).
Proof.
  intros [R _ _ _] N. unfold frame_loc. destruct (frames p) as [fl|fl]; cbn in R; destruct (Forall2_nth _ _ _ _ _ R N) as (f&F1&F2); rewrite F1; cbn [of_option bind]; f_equal.
  - destruct o as [s|a [[path off]|]]; cbn in F2; [tauto|destruct F2 as (i&m&q&r&->&_); auto|subst f; auto].
  - destruct o as [s|a [[path off]|]]; cbn in F2; [tauto|destruct F2 as (i&m&->&_); auto|subst f; auto].
Qed.
Lemma modinfo_ok nm p os n o : Rep nm p os -> nth_error os n = Some o -> (is_full p = true \/ fits o) -> exists r, frame_modinfo nm p n = Ok r /\ decoded nm o r.
Proof.
  intros [R _ _ _] N FT. unfold frame_modinfo. unfold is_full in FT. destruct (frames p) as [fl|fl]; cbn in R; destruct (Forall2_nth _ _ _ _ _ R N) as (f&F1&F2); rewrite F1; cbn [of_option bind].
  - destruct FT as [FT|FT]; [discriminate|]. destruct o as [s|a [[path off]|]]; cbn in F2.
    + destruct F2 as (_&->). cbn. eauto.
    + destruct F2 as (i&m&q&r&->&H1&H2&H3&H4&H5&H6&H7&H8&H9). cbn [p_idx p_offs]. destruct (Z.eqb_spec (mi_index m + q) 0); [lia|].
      assert (r < MAX_MODOFFS_STORED).
      { destruct (Z.eq_dec r MAX_MODOFFS_STORED); [|lia]. exfalso. cbn in FT. destruct FT as ([Z0|NZ]&_); unfold MAX_MODOFFS_STORED in *; [lia|].
        apply NZ. subst r. rewrite H3. replace (q * 16777215 + 16777215) with ((q + 1) * 16777215) by lia. apply Z.mod_mul. lia. }
      destruct (Z.ltb_spec r MAX_MODOFFS_STORED); [|lia]. rewrite H9. cbn [of_option bind]. rewrite H1. cbn [of_option bind].
      destruct (Z.ltb_spec (mi_index m) (mi_index m + q)).
      * cbn in FT. replace (mi_index m + q - mi_index m) with q by lia. unfold MAX_MODOFFS_STORED, INT_MAX in *.
        destruct (Z.ltb_spec 2147483647 (q * 16777215)); [exfalso; lia|]. eexists. split; [reflexivity|]. exists i, m. split; auto. do 2 f_equal. lia.
      * eexists. split; [reflexivity|]. exists i, m. split; auto. do 2 f_equal. assert (q = 0) by lia. subst q. lia.
    + subst f. cbn [p_idx p_offs]. rewrite Z.ltb_irrefl. cbn. eexists. split; [reflexivity|reflexivity].
  - destruct o as [s|a [[path off]|]]; cbn in F2.
    + destruct F2 as (_&->). eexists. split; reflexivity.
    + destruct F2 as (i&m&->&H1&H2). eexists. split; [reflexivity|]. cbn. eauto.
    + subst f. eexists. split; reflexivity.
Qed.
Lemma num_ok nm p os : Rep nm p os -> num_frames p = length os.
Proof. intros [R _ _ _]. apply rep_len in R. exact R. Qed.
Lemma symb_ok nm p os : Rep nm p os -> (is_full p = true \/ Forall fits os) -> to_symbolized nm p = Ok os.
Proof.
  intros R FT. unfold to_symbolized. rewrite (num_ok _ _ _ R).
  assert (G : forall k n, (n + k = length os)%nat -> sym_loop nm p n k = Ok (skipn n os)).
  { induction k as [|k IH]; intros n E; cbn [sym_loop].
    - rewrite skipn_all2; auto. lia.
    - destruct (nth_error os n) as [o|] eqn:N; [|apply nth_error_None in N; lia].
      unfold frame_to_symbolized. rewrite (frame_loc_ok _ _ _ _ _ R N).
      destruct (modinfo_ok _ _ _ _ _ R N) as (r&E1&D). { destruct FT as [|FT]; auto. right. eapply Forall_forall; [exact FT|]. eapply nth_error_In; eauto. }
      rewrite E1. cbn [bind]. rewrite IH by lia.
      assert (S : skipn n os = o :: skipn (S n) os). { clear -N. revert n N. induction os; intros [|n] N; cbn in *; try discriminate; [congruence|]. apply IHos; auto. }
      rewrite S. destruct o as [s|a [[path off]|]]; cbn in D |- *.
      + subst r. reflexivity.
      + destruct D as (i&m&->&D1&D2). rewrite D1. cbn. rewrite D2. reflexivity.
      + subst r. reflexivity. }
  apply (G (length os) O). lia.
Qed.

(** ---- comparing ---- *)
Definition uniq (nm : names) : Prop :=
  forall i j m m', nth_error (infos nm) i = Some m -> nth_error (infos nm) j = Some m' -> mi_path m = mi_path m' -> i = j.
Lemma loc_eqb_spec a b : loc_eqb a b = true <-> a = b.
Proof.
  destruct a as [x|[[x1 x2] x3]], b as [y|[[y1 y2] y3]]; cbn; try (split; congruence).
  - rewrite Z.eqb_eq. split; congruence.
  - rewrite !Bool.andb_true_iff, !Z.eqb_eq. split; [intros [[-> ->] ->]; auto|intros H; injection H; auto].
Qed.
Lemma decoded_eq nm o1 o2 r1 r2 : uniq nm -> decoded nm o1 r1 -> decoded nm o2 r2 ->
  ((loc_eqb (at_loc o1) (at_loc o2) = true /\ r1 = r2) <-> o1 = o2).
Proof.
  intros U D1 D2. rewrite loc_eqb_spec. split.
  - intros (L&->). destruct o1 as [s|a [[path off]|]], o2 as [s'|a' [[path' off']|]]; cbn in *; try congruence;
      try (destruct D1 as (i&m&H1&H2&H3)); try (destruct D2 as (i'&m'&H1'&H2'&H3')); try congruence.
  - intros <-. split; auto. destruct o1 as [s|a [[path off]|]]; cbn in *; try congruence.
    destruct D1 as (i&m&H1&H2&H3), D2 as (i'&m'&H1'&H2'&H3'). rewrite H1, H1'. do 2 f_equal. f_equal. eapply U; eauto. congruence.
Qed.
Lemma rep_p_eq nm f g o1 o2 : uniq nm -> is_sys o1 = false -> is_sys o2 = false -> rep_p nm f o1 -> rep_p nm g o2 -> (pframe_eqb f g = true <-> o1 = o2).
Proof.
  intros U N1 N2 R1 R2. unfold pframe_eqb. rewrite !Bool.andb_true_iff, loc_eqb_spec, !Z.eqb_eq.
  destruct o1 as [s|a [[path off]|]], o2 as [s'|a' [[path' off']|]]; try discriminate; cbn [rep_p] in R1, R2.
  - destruct R1 as (i&m&q&r&->&A1&A2&A3&A4&A5&A6&A7&A8&A9), R2 as (i'&m'&q'&r'&->&B1&B2&B3&B4&B5&B6&B7&B8&B9). cbn [p_loc p_offs p_idx]. split.
    + intros [[E1 E2] E3]. rewrite E3, B9 in A9. injection A9 as <-. rewrite A1 in B1. injection B1 as <-. assert (q' = q) by lia. subst q' r'. congruence.
    + intros E. injection E as -> E1 E2. rewrite <- A2, <- B2 in E1. rewrite A3, B3 in E2. assert (i = i') by (eapply U; eauto). subst i'.
      rewrite A1 in B1. injection B1 as <-. assert (q = q' /\ r = r'); [|intuition congruence].
      unfold MAX_MODOFFS_STORED in *. destruct (Z.eq_dec q 0), (Z.eq_dec q' 0); lia.
  - destruct R1 as (i&m&q&r&->&A1&A2&A3&A4&A5&A6&A7&A8&A9). subst g. cbn. split; [|discriminate]. intros [[_ _] E]. unfold MAX_MODNAMES_STORED in E. lia.
  - destruct R2 as (i&m&q&r&->&A1&A2&A3&A4&A5&A6&A7&A8&A9). subst f. cbn. split; [|discriminate]. intros [[_ _] E]. unfold MAX_MODNAMES_STORED in E. lia.
  - subst f g. cbn. split; [intros [[E _] _]; congruence|]. intros E. injection E as ->. auto.
Qed.
Lemma rep_f_eq nm f g o1 o2 : uniq nm -> is_sys o1 = false -> is_sys o2 = false -> rep_f nm f o1 -> rep_f nm g o2 -> (fframe_eqb f g = true <-> o1 = o2).
Proof.
  intros U N1 N2 R1 R2. unfold fframe_eqb. rewrite !Bool.andb_true_iff, loc_eqb_spec, !Z.eqb_eq.
  destruct o1 as [s|a [[path off]|]], o2 as [s'|a' [[path' off']|]]; try discriminate; cbn [rep_f] in R1, R2.
  - destruct R1 as (i&m&->&A1&A2), R2 as (i'&m'&->&B1&B2). cbn [f_loc f_offs f_mod fmod_eqb]. rewrite Nat.eqb_eq. split.
    + intros [[E1 E2] <-]. congruence.
    + intros E. injection E as -> E1 ->. assert (i = i') by (eapply U; eauto; congruence). auto.
  - destruct R1 as (i&m&->&A1&A2). subst g. cbn. split; [intros [_ E]; discriminate|discriminate].
  - destruct R2 as (i&m&->&A1&A2). subst f. cbn. split; [intros [_ E]; discriminate|discriminate].
  - subst f g. cbn. split; [intros [[E _] _]; congruence|]. intros E. injection E as ->. auto.
Qed.
Lemma all_eqb_ok {A B} (P : A -> B -> Prop) (eqb : A -> A -> bool) (G : B -> Prop) l1 o1 : Forall2 P l1 o1 -> forall l2 o2, Forall2 P l2 o2 -> Forall G o1 -> Forall G o2 ->
  (forall f g a b, P f a -> P g b -> G a -> G b -> (eqb f g = true <-> a = b)) -> (all_eqb eqb l1 l2 = true <-> o1 = o2).
Proof.
  induction 1 as [|f a l1 o1 H R IH]; intros l2 o2 R2 G1 G2 E; inversion R2 as [|g b l2' o2' H' R2']; subst; cbn; try (split; congruence).
  inversion G1; inversion G2; subst. rewrite Bool.andb_true_iff, (E f g a b), (IH l2' o2'); auto. split; [intros [-> ->]; auto|intros Q; injection Q; auto].
Qed.
Lemma nosys_all o : headsys o = false -> Forall (fun x => is_sys x = false) (tl o) -> Forall (fun x => is_sys x = false) o.
Proof. destruct o; cbn; intros; constructor; auto. Qed.
Lemma opt_eqb_spec a b : opt_eqb a b = true <-> a = b.
Proof. destruct a, b; cbn; try (split; congruence). rewrite Nat.eqb_eq. split; congruence. Qed.
Lemma cmp_ok nm p q o1 o2 : uniq nm -> Rep nm p o1 -> Rep nm q o2 -> cmpable p q o1 o2 -> exists b, cmp nm p q = Ok b /\ (b = true <-> o1 = o2).
Proof.
  intros U R1 R2 CB. unfold cmp. rewrite (p_nn _ _ _ R1), (p_nn _ _ _ R2).
  destruct (Nat.eqb_spec (length o1) 0) as [L1|L1]; cbn [negb].
  { eexists. split; [reflexivity|]. destruct o1; [|discriminate]. destruct o2; cbn; split; congruence. }
  destruct (Nat.eqb_spec (length o2) 0) as [L2|L2]; cbn [negb].
  { eexists. split; [reflexivity|]. destruct o2; [|discriminate]. split; [discriminate|intros ->; exfalso; apply L1; auto]. }
  rewrite (num_ok _ _ _ R1), (num_ok _ _ _ R2).
  destruct (Nat.eqb_spec (length o1) (length o2)) as [L|L]; cbn [negb]; [|eexists; split; [reflexivity|split; [discriminate|congruence]]].
  assert (W : (is_full p = true \/ Forall fits o1) -> (is_full q = true \/ Forall fits o2) -> exists b, cmp_loop nm p q 0 (length o1) = Ok b /\ (b = true <-> o1 = o2)).
  { intros F1 F2.
    assert (G : forall k n, (n + k = length o1)%nat -> exists b, cmp_loop nm p q n k = Ok b /\ (b = true <-> skipn n o1 = skipn n o2)).
    { induction k as [|k IH]; intros n E; cbn [cmp_loop].
      - exists true. split; auto. rewrite !skipn_all2 by lia. tauto.
      - destruct (nth_error o1 n) as [a|] eqn:N1; [|apply nth_error_None in N1; lia]. destruct (nth_error o2 n) as [c|] eqn:N2; [|apply nth_error_None in N2; lia].
        destruct (modinfo_ok _ _ _ _ _ R1 N1) as (r1&E1&D1). { destruct F1 as [|F1]; auto. right. eapply Forall_forall; [exact F1|]. eapply nth_error_In; eauto. }
        destruct (modinfo_ok _ _ _ _ _ R2 N2) as (r2&E2&D2). { destruct F2 as [|F2]; auto. right. eapply Forall_forall; [exact F2|]. eapply nth_error_In; eauto. }
        rewrite E1, E2, (frame_loc_ok _ _ _ _ _ R1 N1), (frame_loc_ok _ _ _ _ _ R2 N2). cbn [bind].
        assert (S : forall os (o : shown), nth_error os n = Some o -> skipn n os = o :: skipn (S n) os).
        { clear. intros os. revert n. induction os; intros [|n] o N; cbn in *; try discriminate; [congruence|]. apply IHos; auto. }
        rewrite (S _ _ N1), (S _ _ N2). pose proof (decoded_eq _ _ _ _ _ U D1 D2) as DE. destruct (IH (Datatypes.S n)) as (b&E3&B3); [lia|].
        assert (EQ : a :: skipn (Datatypes.S n) o1 = c :: skipn (Datatypes.S n) o2 <-> a = c /\ skipn (Datatypes.S n) o1 = skipn (Datatypes.S n) o2).
        { split; [intros Q; injection Q; auto|intros [-> ->]; auto]. }
        rewrite <- DE, <- B3 in EQ. clear DE B3.
        destruct r1 as [[m1 x1]|], r2 as [[m2 x2]|].
        + destruct (loc_eqb (at_loc a) (at_loc c) && opt_eqb m1 m2 && (x1 =? x2)) eqn:Q.
          * exists b. split; [auto|]. rewrite EQ. rewrite !Bool.andb_true_iff, opt_eqb_spec, Z.eqb_eq in Q. destruct Q as [[Q1 ->] ->]. tauto.
          * exists false. split; [auto|]. rewrite EQ. split; [discriminate|]. intros [[Q1 Q2] _]. injection Q2 as -> ->. rewrite Q1, Z.eqb_refl, (proj2 (opt_eqb_spec m2 m2) eq_refl) in Q. discriminate.
        + exists false. split; [auto|]. rewrite EQ. split; [discriminate|]. intros [[_ Q] _]. discriminate.
        + exists false. split; [auto|]. rewrite EQ. split; [discriminate|]. intros [[_ Q] _]. discriminate.
        + destruct (loc_eqb (at_loc a) (at_loc c)) eqn:Q.
          * exists b. split; [auto|]. rewrite EQ. tauto.
          * exists false. split; [auto|]. rewrite EQ. split; [discriminate|]. intros [[Q2 _] _]. discriminate. }
    apply (G (length o1) O). lia. }
  rewrite (p_sys _ _ _ R1), (p_sys _ _ _ R2).
  destruct CB as [(H1&H2&HF)|(F1&F2)].
  - rewrite H1, H2. cbn [orb]. unfold is_full in HF. destruct R1 as [P1 _ _ T1], R2 as [P2 _ _ T2].
    destruct (frames p) as [l1|l1], (frames q) as [l2|l2]; try discriminate; cbn in P1, P2; eexists; (split; [reflexivity|]).
    + eapply all_eqb_ok; [exact P1|exact P2| | |]; try (eapply nosys_all; eassumption). intros; eapply rep_p_eq; eauto.
    + eapply all_eqb_ok; [exact P1|exact P2| | |]; try (eapply nosys_all; eassumption). intros; eapply rep_f_eq; eauto.
  - destruct (headsys o1 || headsys o2) eqn:HS; auto. apply Bool.orb_false_iff in HS. destruct HS as (H1&H2).
    destruct (frames p) as [l1|l1] eqn:Q1, (frames q) as [l2|l2] eqn:Q2; auto; destruct R1 as [P1 _ _ T1], R2 as [P2 _ _ T2]; rewrite Q1 in P1; rewrite Q2 in P2; cbn in P1, P2; eexists; (split; [reflexivity|]).
    + eapply all_eqb_ok; [exact P1|exact P2| | |]; try (eapply nosys_all; eassumption). intros; eapply rep_p_eq; eauto.
    + eapply all_eqb_ok; [exact P1|exact P2| | |]; try (eapply nosys_all; eassumption). intros; eapply rep_f_eq; eauto.
Qed.

(** ---- hashing ---- *)
Definition shown_addr (o : shown) : Z := match o with ShPc a _ => a | _ => 0 end.
Definition ohash (os : list shown) : Z :=
  fold_left (fun h o => Z.lxor h (shown_addr o mod 2 ^ 32)) (if headsys os then tl os else os) 0.
Lemma hash_ok nm p os : Rep nm p os -> hash p = Ok (ohash os).
Proof.
  intros R. unfold hash. rewrite (num_ok _ _ _ R).
  assert (G : forall k n h, (n + k = length os)%nat -> (headsys os = true -> (0 < n)%nat) ->
    hash_loop p h n k = Ok (fold_left (fun h o => Z.lxor h (shown_addr o mod 2 ^ 32)) (skipn n os) h)).
  { induction k as [|k IH]; intros n h E HN; cbn [hash_loop].
    - rewrite skipn_all2 by lia. reflexivity.
    - rewrite (p_sys _ _ _ R).
      assert (Q : negb (headsys os) || (0 <? Z.of_nat n) = true). { destruct (headsys os); auto. cbn. specialize (HN eq_refl). lia. }
      rewrite Q. destruct (nth_error os n) as [o|] eqn:N; [|apply nth_error_None in N; lia].
      rewrite (frame_loc_ok _ _ _ _ _ R N). cbn [bind].
      assert (S : skipn n os = o :: skipn (S n) os). { clear -N. revert n N. induction os; intros [|n] N; cbn in *; try discriminate; [congruence|]. apply IHos; auto. }
      rewrite S. cbn [fold_left].
      assert (NS : is_sys o = false).
      { destruct n as [|n]; [destruct os as [|o' os']; [discriminate|]; cbn in N; injection N as ->; destruct (is_sys o) eqn:IS; auto; exfalso; cbn in HN; specialize (HN IS); lia|].
        pose proof (p_tl _ _ _ R) as T. rewrite Forall_forall in T. apply T. destruct os; [discriminate|]. cbn in *. eapply nth_error_In; eauto. }
      destruct o as [s|a m]; [discriminate|]. cbn [at_loc shown_addr]. apply IH; lia. }
  unfold ohash. destruct (headsys os) eqn:HS.
  - destruct os as [|o os']; [discriminate|]. cbn [length hash_loop]. rewrite (p_sys _ _ _ R), HS. cbn [negb orb Z.of_nat Z.ltb Z.compare].
    rewrite (G (length os') 1%nat); auto.
  - apply (G (length os) O); [lia|congruence].
Qed.
Lemma clone_rep nm al p os : Rep nm p os -> (os <> [] \/ al = false) -> Rep nm (clone al p) os.
Proof.
  intros R H. pose proof (num_ok _ _ _ R) as NF. destruct R as [R1 R2 R3 R4]. constructor; auto. cbn [clone nonnull]. rewrite NF.
  destruct H as [H| ->]; [|rewrite Bool.orb_false_r; auto]. destruct os; [congruence|]. reflexivity.
Qed.
