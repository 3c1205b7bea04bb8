(** Completeness for plain ellipses and exactness for simple suppressions. *)
From Coq Require Import String.
From Verif Require Import Base Glob_Model Glob_Spec Glob_Proofs Supp_Model Supp_Spec Supp_Proofs1.
Open Scope Z_scope.
Open Scope list_scope.

Lemma skipn_nth {A} (l : list A) i f : nth_error l i = Some f -> skipn i l = f :: skipn (S i) l.
Proof. revert l. induction i as [|i IH]; intros [|x l] H; try discriminate; cbn in *; [congruence|]. rewrite (IH l H). destruct l; auto. Qed.
Lemma skipn_none {A} (l : list A) i : nth_error l i = None -> skipn i l = [].
Proof. intros H. apply skipn_all2. apply nth_error_None; auto. Qed.
Lemma skipn_cons_nth {A} (l : list A) i f r : skipn i l = f :: r -> nth_error l i = Some f /\ r = skipn (S i) l.
Proof.
  intros H. destruct (nth_error l i) as [g|] eqn:E.
  - rewrite (skipn_nth _ _ _ E) in H. injection H as <- <-. auto.
  - rewrite (skipn_none _ _ E) in H. discriminate.
Qed.

Lemma al_accepts p ps f st : aligned (p :: ps) (f :: st) -> accepts p f.
Proof. intros H. inversion H; subst; cbn; auto. destruct p; cbn in *; auto; contradiction. Qed.
Lemma al_single_inv p ps st : single p -> aligned (p :: ps) st -> exists f st', st = f :: st' /\ describes p f /\ aligned ps st'.
Proof. intros S H. inversion H; subst; cbn in S; try contradiction. eauto. Qed.
Lemma al_nil_inv p ps : single p -> ~ aligned (p :: ps) [].
Proof. intros S H. apply al_single_inv in H; auto. destruct H as (?&?&?&_). discriminate. Qed.
Lemma al_ell_inv ps st : aligned (Ellipsis :: ps) st -> exists fs st', st = fs ++ st' /\ aligned ps st'.
Proof. intros H. inversion H; subst; eauto. cbn in H2. contradiction. Qed.
Lemma al_ell_skip ps st i : aligned (Ellipsis :: ps) (skipn i st) <-> exists k, (i <= k)%nat /\ aligned ps (skipn k st).
Proof.
  split.
  - intros H. apply al_ell_inv in H. destruct H as (fs&st'&E&H). exists (i + length fs)%nat. split; [lia|].
    rewrite Nat.add_comm, <- skipn_skipn_Z, E, skipn_app, Nat.sub_diag, skipn_all. auto.
  - intros (k&K&H). rewrite <- (firstn_skipn (k - i) (skipn i st)). constructor.
    rewrite skipn_skipn_Z. replace (k - i + i)%nat with k by lia. auto.
Qed.
Lemma al_acc_single p f : single p -> accepts p f <-> describes p f.
Proof. destruct p; cbn; tauto. Qed.
Lemma al_single_nth p ps st i : single p -> aligned (p :: ps) (skipn i st) <->
  exists f, nth_error st i = Some f /\ accepts p f /\ aligned ps (skipn (S i) st).
Proof.
  intros S. split.
  - intros H. apply al_single_inv in H; auto. destruct H as (f&st'&E&D&A). apply skipn_cons_nth in E. destruct E as (E&->).
    exists f. rewrite al_acc_single; auto.
  - intros (f&E&D&A). rewrite (skipn_nth _ _ _ E). constructor; auto. apply al_acc_single; auto.
Qed.

Lemma op_plain_app pre ps : Forall single pre -> only_plain (pre ++ ps) -> only_plain ps.
Proof. induction 1 as [|p pre S F IH]; cbn; auto. destruct p; cbn in S; try contradiction; auto. Qed.

(** frames needed *)
Lemma al_len ps : forall st, only_plain ps -> ps <> [] -> aligned ps st -> st <> [].
Proof.
  induction ps as [|p ps IH]; intros st O NE A; [congruence|]. destruct p; cbn in O; try contradiction;
    try (apply al_single_inv in A; [destruct A as (?&?&->&_); discriminate|exact I]).
  destruct O as (O1&O2). apply al_ell_inv in A. destruct A as (fs&st'&->&A). specialize (IH st' O2 O1 A). destruct fs; auto. discriminate.
Qed.
Lemma al_pre pre : forall ps st, Forall single pre -> aligned (pre ++ ps) st ->
  (length pre <= length st)%nat /\ aligned ps (skipn (length pre) st).
Proof.
  induction pre as [|p pre IH]; intros ps st F A; cbn; [split; [lia|auto]|]. inversion F; subst.
  cbn in A. apply al_single_inv in A; auto. destruct A as (f&st'&->&_&A). destruct (IH _ _ H2 A). cbn. split; [lia|auto].
Qed.

Section L.
Variable rm : bool.
Variable st : list frame.
Hypothesis WF : Forall wf_frame st.

Definition Cc (i : nat) (supp : list pat) : Prop := if Nat.eqb i 0 then described rm supp st else aligned supp (skipn i st).

Lemma Cc_al i supp : aligned supp (skipn i st) -> Cc i supp.
Proof. unfold Cc. destruct (Nat.eqb_spec i 0) as [->|]; auto. intros H. apply d_direct. auto. Qed.

(** a described stack at an accepted top *)
Lemma Cc_acc i p ps f : nth_error st i = Some f -> accepts p f -> Cc i (p :: ps) -> aligned (p :: ps) (skipn i st).
Proof.
  unfold Cc. destruct (Nat.eqb_spec i 0) as [->|]; auto. intros E A H. cbn [skipn]. inversion H; subst; auto; cbn in E; injection E as ->; contradiction.
Qed.
Lemma Cc_end i supp : nth_error st i = None -> Cc i supp -> aligned supp [].
Proof.
  unfold Cc. destruct (Nat.eqb_spec i 0) as [->|].
  - intros E H. destruct st; [|discriminate]. inversion H; subst; auto.
  - intros E. rewrite skipn_none; auto.
Qed.
Lemma Cc_rej i p ps f : nth_error st i = Some f -> ~ accepts p f -> Cc i (p :: ps) ->
  (skip_top rm i f /\ aligned (p :: ps) (skipn (S i) st)) \/ (skip_pat rm i p /\ Cc i ps).
Proof.
  unfold Cc. destruct (Nat.eqb_spec i 0) as [->|].
  - intros E A H. destruct st as [|g l]; [discriminate|]. cbn in E. injection E as ->. inversion H; subst.
    + exfalso. apply al_accepts in H0. contradiction.
    + left. split; [split; auto|]. auto.
    + right. split; [split; auto|]. auto.
  - intros E A H. rewrite (skipn_nth _ _ _ E) in H. apply al_accepts in H. contradiction.
Qed.

Definition Pc (i : nat) (supp : list pat) (last : option (nat * pat)) (b : bool) : Prop :=
  only_plain supp ->
  match last with
  | None => Cc i supp -> b = true
  | Some (l, Ellipsis) =>
      (exists pre q, Forall single pre /\ length pre = (i - l)%nat /\ (l <= q)%nat /\ aligned (pre ++ supp) (skipn q st)) -> b = true
  | _ => True
  end.

Lemma complete_loop fu supp : Forall wf_pat supp -> only_plain supp -> (meas st 0 supp None < fu)%nat ->
  described rm supp st -> match_frames fu rm st 0 (map enc supp) None = Ok true.
Proof.
  intros WS OP F D.
  destruct (loop_ind rm st WF Pc) with (fu := fu) (i := O) (supp := supp) (last := @None (nat * pat)) as (b&E&H); auto; try exact I; try (unfold sane; cbn; lia).
  - intros i sp last b W S SA OP'. inversion S; subst; clear S.
    + destruct sp as [|p ps]; [destruct last as [[l []]|]; auto|].
      destruct last as [[l c]|]; [destruct c; auto|].
      * intros (pre&q&S1&L&Q&A). exfalso. destruct (al_pre _ _ _ S1 A) as (L1&A1). apply al_len in A1; auto; [|discriminate].
        apply A1. apply skipn_all2. rewrite skipn_length. unfold sane in SA. cbn in SA. match goal with H : nth_error st i = None |- _ => apply nth_error_None in H end. lia.
      * intros C. apply Cc_end in C; auto. exfalso. exact (al_len (p :: ps) [] OP' ltac:(discriminate) C eq_refl).
    + destruct last as [[l []]|]; auto.
    + destruct last as [[l c]|].
      * destruct c; auto. exfalso. match goal with H : ~ open_ok _ _ |- _ => apply H; exact I end.
      * intros C. exfalso. match goal with H : nth_error st i = Some _, K : ~ accepts _ _ |- _ => destruct (Cc_rej _ _ _ _ H K C) as [[X _]|[X _]]; contradiction end.
  - intros i sp last i' sp' last' b W SA S IH OP'. unfold sane in SA. inversion S; subst; clear S.
    + (* ellipsis *) destruct p; match goal with H : is_ell _ |- _ => cbn in H; try contradiction end; try solve [destruct OP'].
      destruct OP' as (NE&OP'). specialize (IH OP'). cbn in IH.
      destruct last as [[l c]|]; [destruct c; auto|].
      * intros (pre&q&S1&L&Q&A). apply IH. destruct (al_pre _ _ _ S1 A) as (L1&A1). rewrite skipn_skipn_Z in A1. apply al_ell_skip in A1.
        destruct A1 as (k&K&A1). cbn in SA. exists [], k. cbn. repeat split; auto; lia.
      * intros C. apply IH. eapply Cc_acc in C; eauto. apply al_ell_skip in C. destruct C as (k&K&A1).
        exists [], k. cbn. repeat split; auto; lia.
    + (* single *) assert (OP2 : only_plain sp') by (apply (op_plain_app [p]); auto).
      specialize (IH OP2). destruct last' as [[l c]|]; [destruct c; auto|].
      * intros (pre&q&S1&L&Q&A). apply IH. exists (pre ++ [p]), q. rewrite app_length. cbn [length]. cbn in SA. repeat split; auto; try lia.
        -- apply Forall_app; auto.
        -- rewrite <- app_assoc. auto.
      * intros C. apply IH. eapply Cc_acc in C; eauto. apply al_single_nth in C; auto. destruct C as (f'&_&_&C). apply Cc_al; auto.
    + (* retry *) specialize (IH OP'). cbn in IH. destruct c; auto. intros (pre&q&S1&L&Q&A). apply IH.
      destruct (al_pre _ _ _ S1 A) as (L1&A1). rewrite skipn_skipn_Z in A1. cbn in SA.
      exists [], (length pre + q)%nat. cbn. repeat split; auto; try lia.
      destruct (Nat.eq_dec q l) as [->|]; [|lia]. exfalso. replace (length pre + l)%nat with i in A1 by lia.
      match goal with H : nth_error st i = Some _ |- _ => rewrite (skipn_nth _ _ _ H) in A1 end. apply al_accepts in A1. contradiction.
    + specialize (IH OP'). destruct last' as [[l c]|].
      * destruct c; auto. exfalso. match goal with H : ~ open_ok _ _ |- _ => apply H; exact I end.
      * intros C. apply IH. match goal with H : nth_error st i = Some _, K : ~ accepts p f |- _ => destruct (Cc_rej _ _ _ _ H K C) as [[X A]|[X _]] end.
        -- apply Cc_al; auto.
        -- exfalso. match goal with H : skip_top _ _ _ |- _ => destruct H as (R&_) end. destruct X as (R2&_). congruence.
    + destruct last' as [[l c]|].
      * destruct c; auto. exfalso. match goal with H : ~ open_ok _ _ |- _ => apply H; exact I end.
      * intros C. match goal with H : nth_error st ?k = Some _, K : ~ accepts p f |- _ => destruct (Cc_rej _ _ _ _ H K C) as [[X A]|[X C2]] end.
        -- exfalso. match goal with H : skip_pat _ _ _ |- _ => destruct H as (R&_) end. destruct X as (R2&_). congruence.
        -- assert (OP2 : only_plain sp'). { destruct X as (_&_&X). destruct p; cbn in X; try contradiction. auto. }
           specialize (IH OP2). cbn in IH. auto.
  - rewrite (H OP) in E; auto.
Qed.

Ltac spl := repeat (match goal with |- _ /\ _ => split end).
(** ---- exactness ---- *)
Definition rest_ok (supp : list pat) : Prop := supp = [] \/ exists ps, supp = Ellipsis :: ps /\ one_after ps.
Definition Pe (i : nat) (supp : list pat) (last : option (nat * pat)) (b : bool) : Prop :=
  match last with
  | None => simple supp -> (b = true <-> Cc i supp)
  | Some (l, c) =>
      (rest_ok supp -> (b = true <-> aligned supp (skipn i st))) /\
      (one_after supp -> i = l -> (i = O -> forall f, nth_error st i = Some f -> accepts c f) -> is_ell c ->
         (b = true <-> exists k, (i <= k)%nat /\ (forall j f, (i <= j < k)%nat -> nth_error st j = Some f -> accepts c f) /\
                                 aligned supp (skipn k st)))
  end.

Lemma rest_down ps a b : rest_ok ps -> (b <= a)%nat -> aligned ps (skipn a st) -> aligned ps (skipn b st).
Proof.
  intros [->|(q&->&O)] L A; [constructor|]. apply al_ell_skip in A. destruct A as (k&K&A). apply al_ell_skip. exists k. split; auto; lia.
Qed.
Lemma oa_inv ps : one_after ps -> exists p rest, ps = p :: rest /\ single p /\ rest_ok rest.
Proof. intros H. inversion H; subst; do 2 eexists; (split; [reflexivity|]); split; auto; [left; auto|right; eauto]. Qed.
Lemma oa_end ps k : one_after ps -> nth_error st k = None -> ~ aligned ps (skipn k st).
Proof. intros O E A. apply oa_inv in O. destruct O as (p&r&->&S&_). rewrite skipn_none in A; auto. apply al_nil_inv in A; auto. Qed.
Lemma none_later i k : nth_error st i = None -> (i <= k)%nat -> nth_error st k = None.
Proof. rewrite !nth_error_None. lia. Qed.

Lemma al_mod_skip m ps i : aligned (ModEllipsis m :: ps) (skipn i st) <->
  exists k, (i < k)%nat /\ (k <= length st)%nat /\ (forall j f, (i <= j < k)%nat -> nth_error st j = Some f -> in_module m f) /\ aligned ps (skipn k st).
Proof.
  split.
  - intros H. inversion H; subst; [cbn in *; contradiction|].
    match goal with H : f :: fs ++ st0 = skipn i st |- _ => rename H into E end.
    assert (LE : (length (f :: fs ++ st0) <= length st - i)%nat) by (rewrite E, skipn_length; lia). cbn in LE. rewrite app_length in LE.
    exists (i + S (length fs))%nat. spl; try lia.
    + intros j g J G. assert (G' : nth_error (f :: fs ++ st0) (j - i) = Some g).
      { rewrite E. rewrite <- (firstn_skipn i st) in G. rewrite nth_error_app2 in G; rewrite firstn_length_le in *; auto; lia. }
      destruct (j - i)%nat as [|n] eqn:JI; cbn in G'; [congruence|].
      rewrite nth_error_app1 in G' by lia. apply nth_error_In in G'. rewrite Forall_forall in *. auto.
    + rewrite Nat.add_comm, <- skipn_skipn_Z, <- E. cbn [skipn]. rewrite skipn_app, skipn_all, Nat.sub_diag. auto.
  - intros (k&K&KL&M&A). destruct (nth_error st i) as [f|] eqn:E. 2: { apply nth_error_None in E. lia. }
    rewrite (skipn_nth _ _ _ E). rewrite <- (firstn_skipn (k - S i) (skipn (S i) st)). apply al_mod.
    + apply (M i); auto.
    + apply Forall_forall. intros g G. apply In_nth_error in G. destruct G as (n&G).
      assert (n < k - S i)%nat. { assert (X : nth_error (firstn (k - S i) (skipn (S i) st)) n <> None) by congruence. apply nth_error_Some in X. rewrite firstn_length in X. lia. }
      apply (M (S i + n)%nat); [lia|]. rewrite <- G. rewrite <- (firstn_skipn (S i) st) at 1.
      rewrite nth_error_app2; rewrite firstn_length_le by lia; [|lia]. replace (S i + n - S i)%nat with n by lia.
      rewrite <- (firstn_skipn (k - S i) (skipn (S i) st)) at 1. rewrite nth_error_app1; auto. rewrite firstn_length, skipn_length. lia.
    + rewrite skipn_skipn_Z. replace (k - S i + S i)%nat with k by lia. auto.
Qed.

Lemma exact_loop fu supp : Forall wf_pat supp -> simple supp -> (meas st 0 supp None < fu)%nat ->
  exists b, match_frames fu rm st 0 (map enc supp) None = Ok b /\ (b = true <-> described rm supp st).
Proof.
  intros WS OP F.
  destruct (loop_ind rm st WF Pe) with (fu := fu) (i := O) (supp := supp) (last := @None (nat * pat)) as (b&E&H); auto; try exact I; try (unfold sane; cbn; lia).
  - intros i sp last b W S SA. inversion S; subst; clear S.
    + match goal with H : nth_error st i = None |- _ => rename H into EN end. destruct last as [[l c]|]; cbn [Pe].
      * split.
        -- intros [->|(q&->&O)]; [split; auto; constructor|]. split; [discriminate|]. intros A. exfalso. apply al_ell_skip in A. destruct A as (k&K&A).
           exact (oa_end _ k O (none_later _ _ EN K) A).
        -- intros O _ _ _. destruct (oa_inv _ O) as (p&r&->&_). split; [discriminate|]. intros (k&K&_&A). exfalso. exact (oa_end _ k O (none_later _ _ EN K) A).
      * intros SI. destruct sp as [|p ps]. { split; auto. intros _. apply Cc_al. constructor. }
        split; [discriminate|]. intros C. exfalso. apply Cc_end in C; auto. inversion SI; subst.
        -- eapply al_nil_inv; eauto.
        -- apply al_ell_inv in C. destruct C as (fs&st'&Q&C). destruct st'; [|destruct fs; discriminate].
           match goal with H : one_after _ |- _ => destruct (oa_inv _ H) as (p'&r'&->&S'&_) end. eapply al_nil_inv; eauto.
        -- inversion C.
    + destruct last as [[l c]|]; cbn [Pe].
      * split; [intros _; split; auto; constructor|]. intros O. inversion O.
      * intros _. split; auto. intros _. apply Cc_al. constructor.
    + match goal with H : nth_error st i = Some _, K : ~ accepts _ _ |- _ => rename H into EN; rename K into NA end.
      destruct last as [[l c]|]; cbn [Pe].
      * split.
        -- intros [Q|(q&Q&O)]; [discriminate|]. injection Q as -> ->. exfalso. apply NA. exact I.
        -- intros O -> Z IE. split; [discriminate|]. intros (k&K&M&A). exfalso. destruct (Nat.eq_dec k l) as [->|NE].
           ++ rewrite (skipn_nth _ _ _ EN) in A. apply al_accepts in A. contradiction.
           ++ match goal with H : ~ open_ok _ _ |- _ => apply H end. cbn. apply (M l); auto. lia.
      * intros SI. split; [discriminate|]. intros C. exfalso.
        destruct (Cc_rej _ _ _ _ EN NA C) as [[X _]|[X _]]; contradiction.
  - intros i sp last i' sp' last' b W SA S IH. unfold sane in SA. inversion S; subst; clear S.
    + (* ellipsis *) match goal with H : nth_error st i' = Some _ |- _ => rename H into EN end.
      match goal with H : is_ell p |- _ => rename H into IE end. match goal with H : accepts p f |- _ => rename H into AC end.
      cbn [Pe] in IH. destruct IH as (_&IH). destruct last as [[l c]|]; cbn [Pe].
      * split.
        -- intros [Q|(q&Q&O)]; [discriminate|]. injection Q as -> ->. rewrite IH; auto; try (intros _ g _; exact I).
           rewrite al_ell_skip. split; intros (k&K); exists k; [tauto|]. split; [tauto|]. split; [|tauto]. intros; exact I.
        -- intros O. apply oa_inv in O. destruct O as (p'&r&Q&S'&_). injection Q as <- _. destruct p; cbn in *; contradiction.
      * intros SI. inversion SI; subst.
        -- destruct p; cbn in *; contradiction.
        -- rewrite IH; auto; try (intros _ g _; exact I). split.
           ++ intros (k&K&_&A). apply Cc_al. apply al_ell_skip. eauto.
           ++ intros C. eapply Cc_acc in C; eauto. apply al_ell_skip in C. destruct C as (k&K&A). exists k. spl; auto. 
        -- rewrite IH; auto. 2: { intros -> g G. replace g with f by congruence. exact AC. }
           split.
           ++ intros (k&K&M&A). apply Cc_al. apply al_mod_skip. exists k.
              destruct (Nat.eq_dec k i') as [->|NE].
              { exfalso. rewrite (skipn_nth _ _ _ EN) in A. apply al_accepts in A. match goal with H : one_after _ |- _ => destruct (oa_inv _ H) as (p'&r'&Q&S'&_) end.
                injection Q as <- <-. apply al_acc_single in A; auto. match goal with H : forall f, in_module m f -> _ |- _ => exact (H f AC A) end. }
              split; [lia|]. split.
              { destruct (nth_error st k) eqn:EK. - apply Nat.lt_le_incl, nth_error_Some. congruence.
                - exfalso. match goal with H : one_after _ |- _ => exact (oa_end _ k H EK A) end. }
              split; auto.
           ++ intros C. eapply Cc_acc in C; eauto. apply al_mod_skip in C. destruct C as (k&K&_&M&A). exists k. spl; auto; try lia; try apply (M j); auto.
    + (* single *) match goal with H : nth_error st i = Some _ |- _ => rename H into EN end.
      match goal with H : single p |- _ => rename H into SP end. match goal with H : accepts p f |- _ => rename H into AC end.
      destruct last' as [[l c]|]; cbn [Pe] in *.
      * destruct IH as (IH&_). split.
        -- intros [Q|(q&Q&O)]; [discriminate|]. injection Q as -> ->. destruct SP.
        -- intros O -> Z IE. apply oa_inv in O. destruct O as (p'&r&Q&S'&RO). injection Q as <- <-. rewrite (IH RO). split.
           ++ intros A. exists l. split; [lia|]. split; [intros; lia|]. apply al_single_nth; eauto.
           ++ intros (k&K&_&A). apply al_single_nth in A; auto. destruct A as (g&_&_&A). apply (rest_down _ (S k)); auto; lia.
      * intros SI. inversion SI; subst; try (destruct SP; fail). rewrite IH; auto. split.
        -- intros C. apply Cc_al. apply al_single_nth; auto. exists f. auto.
        -- intros C. eapply Cc_acc in C; eauto. apply al_single_nth in C; auto. destruct C as (g&_&_&C). apply Cc_al; auto.
    + (* retry *) match goal with H : nth_error st i = Some _ |- _ => rename H into EN end.
      match goal with H : ~ accepts _ _ |- _ => rename H into NA end.
      cbn [Pe] in *. destruct IH as (_&IH). split.
      * intros [Q|(q&Q&O)]; [discriminate|]. injection Q as -> ->. exfalso. apply NA. exact I.
      * intros O -> Z IE. rewrite IH; auto; [|discriminate]. split; intros (k&K&M&A).
        -- exists k. spl; auto; try lia. intros j g J G. destruct (Nat.eq_dec j l) as [->|]; [replace g with f by congruence; auto|apply (M j); auto; lia].
        -- exists k. destruct (Nat.eq_dec k l) as [->|].
           { exfalso. rewrite (skipn_nth _ _ _ EN) in A. apply al_accepts in A. contradiction. }
           spl; auto; try lia. intros j g J G. apply (M j); auto; lia.
    + (* skip top frame *) match goal with H : nth_error st i = Some _ |- _ => rename H into EN end.
      match goal with H : ~ accepts _ _ |- _ => rename H into NA end. match goal with H : ~ open_ok _ _ |- _ => rename H into NO end.
      match goal with H : skip_top _ _ _ |- _ => rename H into SK end. pose proof SK as (R&->&T).
      destruct last' as [[l c]|]; cbn [Pe] in *.
      * split.
        -- intros [Q|(q&Q&O)]; [discriminate|]. injection Q as -> ->. exfalso. apply NA. exact I.
        -- intros O <- Z IE. exfalso. apply NO. cbn. apply Z; auto.
      * intros SI. rewrite IH; auto. split.
        -- intros C. unfold Cc in *. cbn [Nat.eqb] in *. destruct st as [|g l]; [discriminate|]. cbn in EN. injection EN as ->. apply d_skip_top; auto.
        -- intros C. destruct (Cc_rej _ _ _ _ EN NA C) as [[_ A]|[X _]]; [apply Cc_al; auto|]. destruct X as (X&_). congruence.
    + (* skip pattern *) match goal with H : nth_error st i' = Some _ |- _ => rename H into EN end.
      match goal with H : ~ accepts _ _ |- _ => rename H into NA end. match goal with H : ~ open_ok _ _ |- _ => rename H into NO end.
      match goal with H : skip_pat _ _ _ |- _ => rename H into SK end. pose proof SK as (R&->&T).
      destruct last' as [[l c]|]; cbn [Pe] in *.
      * split.
        -- intros [Q|(q&Q&O)]; [discriminate|]. injection Q as -> ->. exfalso. apply NA. exact I.
        -- intros O <- Z IE. exfalso. apply NO. cbn. apply Z; auto.
      * intros SI. assert (SI' : simple sp') by (inversion SI; subst; cbn in T; try contradiction; auto). rewrite IH; auto. split.
        -- intros C. unfold Cc in *. cbn [Nat.eqb] in *. destruct st as [|g l]; [discriminate|]. cbn in EN. injection EN as ->. apply d_skip_pat; auto.
        -- intros C. destruct (Cc_rej _ _ _ _ EN NA C) as [[X _]|[_ X]]; auto. destruct X as (X&_). congruence.
  - exists b. split; auto. 
Qed.
End L.
