(** Proofs about the frames that are looked at. *)
From Verif Require Import Base Glob_Model Glob_Spec Glob_Proofs Sep_Model Sep_Spec Sep_Proofs.
Open Scope Z_scope.

Lemma in_top {A} (ws : list A) n s w :
  In w (firstn n (skipn s ws)) <-> exists j, (j < n)%nat /\ nth_error ws (s + j) = Some w.
Proof.
  assert (K : forall (l : list A) n, In w (firstn n l) <-> exists j, (j < n)%nat /\ nth_error l j = Some w).
  { induction l as [|x l IH]; intros m.
    - rewrite firstn_nil. split; [intros []|]. intros (j & _ & Q). destruct j; discriminate.
    - destruct m; cbn [firstn]. { split; [intros []|]. intros (j & Q & _). lia. }
      cbn [In]. rewrite IH. split.
      + intros [->|(j & J1 & J2)]; [exists 0%nat|exists (S j)]; split; auto; lia.
      + intros (j & J1 & J2). destruct j; [left; injection J2; auto|right].
        exists j. split; auto. lia. }
  rewrite K. assert (T : forall s (l : list A) j, nth_error (skipn s l) j = nth_error l (s + j)).
  { clear. induction s as [|s IH]; intros l j; [reflexivity|].
    destruct l; [destruct j; reflexivity|]. cbn. apply IH. }
  split; intros (j & J1 & J2); exists j; rewrite T in *; auto.
Qed.

Section Frames.
Variable fold : Z -> Z.
Hypothesis F : fold_ok fold.
Variable o : opts.
Variable L : lists.
Variable uninit : list (list Z).
Notation eqc := (eq_case fold (o_caseless o)).

Hypothesis Hb : holds (o_block o) (l_block L).
Hypothesis Hd : holds (o_block_default o) (l_block_default L).
Hypothesis Ha : holds (o_allow o) (l_allow L).
Hypothesis Hs : holds (o_src o) (l_src L).
Hypothesis Hu : holds (o_uninit o) uninit.
Hypothesis Ht : no_nul (o_tool o).
Hypothesis Nb : o_block_frames o = l_block_n L.
Hypothesis Na : o_allow_frames o = l_allow_n L.
Hypothesis Ns : o_src_frames o = l_src_n L.

Definition texts (w : where_) : list (list Z) :=
  w_file w :: match w_mod w with
              | None => []
              | Some (None, n) => [n]
              | Some (Some p, n) => [p; n]
              end.

Definition patterns : list (list Z) :=
  l_block L ++ l_block_default L ++ l_allow L ++ l_src L ++ uninit ++ [o_tool o].

Definition enough (ws : list where_) : nat :=
  list_max (map (fun tp => glob_fuel (fst tp) (snd tp)) (list_prod (concat (map texts ws)) patterns)).

Lemma enough_ok ws fuel w t p : (enough ws <= fuel)%nat -> In w ws -> In t (texts w) ->
  In p patterns -> (glob_fuel t p <= fuel)%nat.
Proof.
  intros E W T P. apply list_max_le in E. rewrite Forall_forall in E. apply E.
  apply in_map_iff. exists (t, p). split; auto. apply in_prod; auto.
  apply in_concat. exists (texts w). split; auto. apply in_map; auto.
Qed.

Lemma on_app ps qs t : on eqc (ps ++ qs) t <-> on eqc ps t \/ on eqc qs t.
Proof.
  unfold on. split.
  - intros (p & P & G). apply in_app_iff in P. destruct P; [left|right]; eauto.
  - intros [(p & P & G)|(p & P & G)]; exists p; rewrite in_app_iff; auto.
Qed.

Definition mk (w : where_) : found := {| d_mod := w_mod w; d_file := w_file w |}.

(** The frame [f] says of [w] what the lists say. *)
Definition says (w : where_) (f : frame) : Prop :=
  f_file f = w_file w /\
  match w_mod w with
  | None => f_is_module f = false /\ f_data f = None
  | Some (p, n) =>
    f_is_module f = true /\
    exists m, f_data f = Some m /\
      (m_block m = true <-> path_on eqc (l_block L ++ l_block_default L) w) /\
      (m_allow m = true <-> path_on eqc (l_allow L) w) /\
      (m_tool m = true <-> p <> None /\ glob eqc n (o_tool o)) /\
      (m_uninit m = true <-> on eqc uninit n)
  end.

Lemma symbolize_ok fuel w : (forall t, In t (texts w) -> no_nul t) ->
  (forall t p, In t (texts w) -> In p patterns -> (glob_fuel t p <= fuel)%nat) ->
  exists f, symbolize fold fuel o (mk w) = Ok f /\ says w f.
Proof.
  intros Nt HF. unfold symbolize, says, mk. cbn [d_mod d_file].
  unfold texts in Nt, HF. unfold patterns in HF.
  assert (PO : forall ps p n, w_mod w = Some (Some p, n) ->
    (path_on eqc ps w <-> on eqc ps p)).
  { intros ps p n E. unfold path_on. split.
    - intros (p' & n' & E' & O). rewrite E in E'. injection E' as -> ->. auto.
    - intros O. eauto. }
  assert (PN : forall ps n, w_mod w = Some (None, n) -> ~ path_on eqc ps w).
  { intros ps n E (p' & n' & E' & O). rewrite E in E'. discriminate. }
  destruct (w_mod w) as [[[p|] n]|] eqn:E.
  - assert (Np : no_nul p) by (apply Nt; right; left; auto).
    assert (Nn : no_nul n) by (apply Nt; right; right; left; auto).
    unfold module_load_cb, any.
    destruct (guarded fold F (o_caseless o) p fuel _ _ Np Hb) as (b1 & B1 & B2).
    { intros q Q. apply HF; [right; left; auto|]. rewrite !in_app_iff; auto. }
    destruct (guarded fold F (o_caseless o) p fuel _ _ Np Hd) as (b2 & D1 & D2).
    { intros q Q. apply HF; [right; left; auto|]. rewrite !in_app_iff; auto. }
    destruct (guarded fold F (o_caseless o) p fuel _ _ Np Ha) as (b3 & A1 & A2).
    { intros q Q. apply HF; [right; left; auto|]. rewrite !in_app_iff; auto. }
    destruct (guarded fold F (o_caseless o) n fuel _ _ Nn Hu) as (b4 & U1 & U2).
    { intros q Q. apply HF; [right; right; left; auto|]. rewrite !in_app_iff; auto 7. }
    destruct (text_matches_pattern_ok fold F (o_caseless o) n (o_tool o) fuel Nn Ht) as (b5 & T1 & T2).
    { apply HF; [right; right; left; auto|]. rewrite !in_app_iff. cbn. auto 8. }
    unfold orr at 1. rewrite B1. cbn [bind].
    assert (OB : (if b1 then Ok true
      else andr (nonempty (o_block_default o))
             (text_matches_any_pattern fold fuel p (o_block_default o) (o_caseless o))) = Ok (b1 || b2)).
    { destruct b1; auto. }
    rewrite OB. cbn [bind]. rewrite A1. cbn [bind]. rewrite T1. cbn [bind]. rewrite U1. cbn [bind].
    eexists. split; [reflexivity|]. cbn [f_file f_is_module f_data]. split; auto. split; auto.
    eexists. split; [reflexivity|]. cbn [m_block m_allow m_tool m_uninit].
    rewrite !(PO _ p n eq_refl), on_app, orb_true_iff, B2, D2.
    split; [tauto|]. split; [auto|]. split; [|auto]. rewrite T2. split; [split; [congruence|auto]|tauto].
  - assert (Nn : no_nul n) by (apply Nt; right; left; auto).
    unfold module_load_cb, any. cbn [bind].
    destruct (guarded fold F (o_caseless o) n fuel _ _ Nn Hu) as (b4 & U1 & U2).
    { intros q Q. apply HF; [right; left; auto|]. rewrite !in_app_iff; auto 7. }
    rewrite U1. cbn [bind].
    eexists. split; [reflexivity|]. cbn [f_file f_is_module f_data]. split; auto. split; auto.
    eexists. split; [reflexivity|]. cbn [m_block m_allow m_tool m_uninit].
    split; [|split; [|split; [|auto]]]; (split; [discriminate|]).
    + intros Q. exfalso. eapply PN; eauto.
    + intros Q. exfalso. eapply PN; eauto.
    + intros (Q & _). congruence.
  - eexists. split; [reflexivity|]. cbn. auto.
Qed.

Lemma symbolize_all_ok fuel ws : (forall w t, In w ws -> In t (texts w) -> no_nul t) ->
  (forall w t p, In w ws -> In t (texts w) -> In p patterns -> (glob_fuel t p <= fuel)%nat) ->
  exists fs, symbolize_all fold fuel o (map mk ws) = Ok fs /\ Forall2 says ws fs.
Proof.
  induction ws as [|w ws IH]; intros Nt HF.
  - exists []. split; constructor.
  - destruct (symbolize_ok fuel w) as (f & E1 & E2).
    { intros t. apply Nt; left; auto. } { intros t p. apply HF; left; auto. }
    destruct IH as (fs & E3 & E4).
    { intros v t V. apply Nt; right; auto. } { intros v t p V. apply HF; right; auto. }
    exists (f :: fs). cbn [map symbolize_all]. rewrite E1. cbn [bind]. rewrite E3. cbn [bind].
    split; auto.
Qed.

Section Walk.
Variable fuel : nat.
Variable ws : list where_.
Variable fs : list frame.
Hypothesis S : Forall2 says ws fs.
Hypothesis Nt : forall w t, In w ws -> In t (texts w) -> no_nul t.
Hypothesis HF : forall w t p, In w ws -> In t (texts w) -> In p patterns -> (glob_fuel t p <= fuel)%nat.

Lemma S_len : List.length fs = List.length ws.
Proof. clear - S. induction S as [|w f ws' fs' A B IH]; cbn; [reflexivity|]. rewrite IH; auto. Qed.

Lemma S_nth i : match nth_error ws i, nth_error fs i with
  | Some w, Some f => says w f
  | None, None => True
  | _, _ => False
  end.
Proof.
  clear - S. revert i. induction S as [|w f ws' fs' A B IH]; intros [|i]; cbn; auto. apply IH; auto.
Qed.

Lemma S_allow i : match frame_data fs (Z.of_nat i) with Some m => m_allow m | None => false end = true <->
  exists w, nth_error ws i = Some w /\ path_on eqc (l_allow L) w.
Proof.
  unfold frame_data. rewrite Nat2Z.id. pose proof (S_nth i) as Q.
  destruct (nth_error ws i) as [w|], (nth_error fs i) as [f|]; try contradiction.
  - unfold says in Q. destruct Q as (_ & Q). destruct (w_mod w) as [[p n]|] eqn:E.
    + destruct Q as (_ & m & -> & _ & Q & _). rewrite Q. split; [eauto|].
      intros (w' & W & P). injection W as <-. auto.
    + destruct Q as (_ & ->). split; [discriminate|]. intros (w' & W & p & n & P & _).
      injection W as <-. congruence.
  - split; [discriminate|]. intros (w' & W & _). discriminate.
Qed.

Lemma S_block i : match frame_data fs (Z.of_nat i) with Some m => m_block m | None => false end = true <->
  exists w, nth_error ws i = Some w /\ path_on eqc (l_block L ++ l_block_default L) w.
Proof.
  unfold frame_data. rewrite Nat2Z.id. pose proof (S_nth i) as Q.
  destruct (nth_error ws i) as [w|], (nth_error fs i) as [f|]; try contradiction.
  - unfold says in Q. destruct Q as (_ & Q). destruct (w_mod w) as [[p n]|] eqn:E.
    + destruct Q as (_ & m & -> & Q & _). rewrite Q. split; [eauto|].
      intros (w' & W & P). injection W as <-. auto.
    + destruct Q as (_ & ->). split; [discriminate|]. intros (w' & W & p & n & P & _).
      injection W as <-. congruence.
  - split; [discriminate|]. intros (w' & W & _). discriminate.
Qed.

Lemma S_file i : exists b,
  match frame_file fs (Z.of_nat i) with
  | None => Ok false
  | Some f => any fold fuel o f (o_src o)
  end = Ok b /\
  (b = true <-> exists w, nth_error ws i = Some w /\ on eqc (l_src L) (w_file w)).
Proof.
  unfold frame_file. rewrite Nat2Z.id. pose proof (S_nth i) as Q.
  destruct (nth_error ws i) as [w|] eqn:W, (nth_error fs i) as [f|]; try contradiction.
  - destruct Q as (-> & _). apply nth_error_In in W.
    destruct (any_holds fold F (o_caseless o) (w_file w) fuel _ _ (Nt w _ W (or_introl eq_refl)) Hs)
      as (b & E1 & E2).
    { intros p P. apply (HF w); auto; [left; auto|]. unfold patterns. rewrite !in_app_iff. auto. }
    exists b. split; auto. rewrite E2. split; [eauto|]. intros (w' & W' & P). congruence.
  - exists false. split; auto. split; [discriminate|]. intros (w' & W' & _). discriminate.
Qed.

Lemma allow_loop_ok s : forall n i,
  allow_loop o n (Z.of_nat i) fs (Z.of_nat s) = true <->
  exists j, (i <= j < i + n)%nat /\ Z.of_nat j < l_allow_n L /\
    exists w, nth_error ws (s + j) = Some w /\ path_on eqc (l_allow L) w.
Proof.
  induction n as [|n IH]; intros i; cbn [allow_loop].
  - split; [discriminate|]. intros (j & J & _). lia.
  - rewrite Na. destruct (Z.ltb_spec (Z.of_nat i) (l_allow_n L)) as [Q|Q].
    2:{ split; [discriminate|]. intros (j & J & J2 & _). lia. }
    rewrite <- Nat2Z.inj_add. pose proof (S_allow (s + i)) as K.
    replace (Z.of_nat i + 1) with (Z.of_nat (Datatypes.S i)) by lia.
    assert (R : allow_loop o n (Z.of_nat (Datatypes.S i)) fs (Z.of_nat s) = true <->
      exists j, (i < j < i + Datatypes.S n)%nat /\ Z.of_nat j < l_allow_n L /\
        exists w, nth_error ws (s + j) = Some w /\ path_on eqc (l_allow L) w).
    { rewrite IH. split; intros (j & J & H); exists j; (split; [lia|auto]). }
    destruct (frame_data fs (Z.of_nat (s + i))) as [m|]; [destruct (m_allow m)|].
    + split; auto. intros _. exists i. split; [lia|]. split; auto. apply K; auto.
    + rewrite R. split; intros (j & J & J2 & H).
      * exists j. split; [lia|auto].
      * exists j. split; auto. destruct (Nat.eq_dec i j) as [->|]; [|lia].
        apply K in H. discriminate.
    + rewrite R. split; intros (j & J & J2 & H).
      * exists j. split; [lia|auto].
      * exists j. split; auto. destruct (Nat.eq_dec i j) as [->|]; [|lia].
        apply K in H. discriminate.
Qed.

Lemma src_loop_ok s : forall n i,
  exists b, src_loop fold fuel o n (Z.of_nat i) fs (Z.of_nat s) = Ok b /\
  (b = true <-> exists j, (i <= j < i + n)%nat /\ Z.of_nat j < l_src_n L /\
    exists w, nth_error ws (s + j) = Some w /\ on eqc (l_src L) (w_file w)).
Proof.
  induction n as [|n IH]; intros i; cbn [src_loop].
  - exists false. split; auto. split; [discriminate|]. intros (j & J & _). lia.
  - rewrite Ns. destruct (Z.ltb_spec (Z.of_nat i) (l_src_n L)) as [Q|Q].
    2:{ exists false. split; auto. split; [discriminate|]. intros (j & J & J2 & _). lia. }
    rewrite <- Nat2Z.inj_add. destruct (S_file (s + i)) as (b & -> & K). cbn [bind].
    replace (Z.of_nat i + 1) with (Z.of_nat (Datatypes.S i)) by lia.
    destruct b.
    + exists true. split; auto. split; auto. intros _. exists i. split; [lia|]. split; auto.
      apply K; auto.
    + destruct (IH (Datatypes.S i)) as (b & E1 & E2). exists b. split; auto. rewrite E2.
      split; intros (j & J & J2 & H).
      * exists j. split; [lia|auto].
      * exists j. split; auto. destruct (Nat.eq_dec i j) as [->|]; [|lia].
        apply K in H. discriminate.
Qed.

Lemma block_loop_ok s : forall n i, Z.of_nat i <= l_block_n L ->
  (l_block_n L <= block_loop o n (Z.of_nat i) fs (Z.of_nat s) <->
   l_block_n L <= Z.of_nat (i + n) /\
   forall j, (i <= j)%nat -> Z.of_nat j < l_block_n L ->
     exists w, nth_error ws (s + j) = Some w /\
       path_on eqc (l_block L ++ l_block_default L) w).
Proof.
  induction n as [|n IH]; intros i Hi; cbn [block_loop].
  - split; [|lia]. intros H. split; [lia|]. intros. lia.
  - rewrite Nb. destruct (Z.ltb_spec (Z.of_nat i) (l_block_n L)) as [Q|Q].
    2:{ split; [|lia]. intros H. split; [lia|]. intros. lia. }
    rewrite <- Nat2Z.inj_add. pose proof (S_block (s + i)) as K.
    replace (Z.of_nat i + 1) with (Z.of_nat (Datatypes.S i)) by lia.
    specialize (IH (Datatypes.S i) ltac:(lia)).
    destruct (frame_data fs (Z.of_nat (s + i))) as [m|]; [destruct (m_block m)|].
    + rewrite IH. replace (Datatypes.S i + n)%nat with (i + Datatypes.S n)%nat by lia.
      split; intros (H1 & H2); (split; [auto|]); intros j J1 J2.
      * destruct (Nat.eq_dec i j) as [<-|]; [apply K; auto|apply H2; auto; lia].
      * apply H2; auto; lia.
    + split; [lia|]. intros (_ & H2). specialize (H2 i ltac:(lia) Q). apply K in H2. discriminate.
    + split; [lia|]. intros (_ & H2). specialize (H2 i ltac:(lia) Q). apply K in H2. discriminate.
Qed.

Lemma nth_lt (A : Type) (l : list A) j w : nth_error l j = Some w -> (j < List.length l)%nat.
Proof. intros H. apply nth_error_Some. congruence. Qed.

Lemma allow_none s : allow_loop o (List.length fs) 0 fs (Z.of_nat s) = true <->
  ~ none_allowed eqc L s ws.
Proof.
  change 0 with (Z.of_nat 0). rewrite allow_loop_ok. unfold none_allowed, top. rewrite S_len. split.
  - intros (j & J1 & J2 & w & W & P) H. apply (H w); auto. apply in_top. exists j. split; [lia|auto].
  - intros H. destruct (allow_loop o (List.length fs) (Z.of_nat 0) fs (Z.of_nat s)) eqn:E.
    + apply allow_loop_ok in E. rewrite S_len in E. auto.
    + exfalso. apply H. intros w W P. apply in_top in W. destruct W as (j & J1 & J2).
      assert (X : allow_loop o (List.length fs) (Z.of_nat 0) fs (Z.of_nat s) = true).
      { apply allow_loop_ok. exists j. rewrite S_len. pose proof (nth_lt _ _ _ _ J2).
        split; [lia|]. split; [lia|]. eauto. }
      congruence.
Qed.

Lemma src_none s : exists b, src_loop fold fuel o (List.length fs) 0 fs (Z.of_nat s) = Ok b /\
  (b = false <-> none_src eqc L s ws).
Proof.
  destruct (src_loop_ok s (List.length fs) 0) as (b & E1 & E2). exists b. split; auto.
  unfold none_src, top. rewrite S_len in E2. split.
  - intros -> w W P. apply in_top in W. destruct W as (j & J1 & J2).
    assert (X : false = true); [|discriminate]. apply E2. exists j.
    pose proof (nth_lt _ _ _ _ J2). split; [lia|]. split; [lia|]. eauto.
  - intros H. destruct b; auto. destruct E2 as [E2 _].
    destruct (E2 eq_refl) as (j & J1 & J2 & w & W & P). exfalso. apply (H w); auto.
    apply in_top. exists j. split; [lia|auto].
Qed.

Lemma block_all s : l_block_n L > 0 ->
  (l_block_n L <= block_loop o (List.length fs) 0 fs (Z.of_nat s) <-> all_blocked eqc L s ws).
Proof.
  intros N. change 0 with (Z.of_nat 0) at 1. rewrite block_loop_ok by lia.
  unfold all_blocked, top. rewrite S_len. rewrite firstn_length, skipn_length. split.
  - intros (H1 & H2). split.
    + destruct (H2 (Z.to_nat (l_block_n L) - 1)%nat) as (w & W & _); [lia|lia|].
      apply nth_lt in W. lia.
    + intros w W. apply in_top in W. destruct W as (j & J1 & J2).
      destruct (H2 j) as (w' & W' & P); [lia|lia|]. congruence.
  - intros (H1 & H2). split; [lia|]. intros j _ J.
    destruct (nth_error ws (s + j)) as [w|] eqn:W.
    + exists w. split; auto. apply H2. apply in_top. exists j. split; [lia|auto].
    + apply nth_error_None in W. lia.
Qed.

Lemma src_check_ok s : exists b, check_src_allowlist fold fuel o fs (Z.of_nat s) = Ok b /\
  (b = true <-> src_used L /\ none_src eqc L s ws).
Proof.
  unfold check_src_allowlist, src_used. rewrite (nonempty_holds fold F _ _ Hs), Ns. cbn [bind].
  destruct (Z.ltb_spec 0 (l_src_n L)) as [Q|Q]; cbn [andb].
  2:{ exists false. split; auto. split; [discriminate|lia]. }
  assert (D : match l_src L with [] => false | _ :: _ => true end = true <-> l_src L <> []).
  { clear. destruct (l_src L); intuition congruence. }
  destruct (match l_src L with [] => false | _ :: _ => true end).
  2:{ exists false. split; auto. split; [discriminate|]. intros ((_ & H) & _).
      apply D in H. discriminate. }
  destruct (src_none s) as (b & -> & K). cbn [bind]. destruct b.
  - exists false. split; auto. split; [discriminate|]. intros (_ & H). apply K in H. discriminate.
  - exists true. split; auto. split; auto. intros _. split; [split; [lia|apply D; auto]|]. apply K; auto.
Qed.

Lemma check_ok s : exists b, check_lists fold fuel o fs (Z.of_nat s) = Ok b /\
  (b = true <-> separated eqc L s ws).
Proof.
  unfold check_lists, separated. rewrite (nonempty_holds fold F _ _ Ha), Na. cbn [bind].
  destruct (src_check_ok s) as (bs & Es & Ks).
  assert (A : allow_used L \/ ~ allow_used L).
  { unfold allow_used. destruct (Z_gt_dec (l_allow_n L) 0), (l_allow L); intuition congruence. }
  assert (A' : ((0 <? l_allow_n L) && match l_allow L with [] => false | _ :: _ => true end = true)
    <-> allow_used L).
  { unfold allow_used. destruct (Z.ltb_spec 0 (l_allow_n L)), (l_allow L); cbn [andb];
      split; try discriminate; try (split; [lia|congruence]); auto; intros (? & ?); [congruence|lia|lia]. }
  assert (B' : ((0 <? l_src_n L) && match l_src L with [] => false | _ :: _ => true end = true)
    <-> src_used L).
  { unfold src_used. destruct (Z.ltb_spec 0 (l_src_n L)), (l_src L); cbn [andb];
      split; try discriminate; try (split; [lia|congruence]); auto; intros (? & ?); [congruence|lia|lia]. }
  destruct ((0 <? l_allow_n L) && match l_allow L with [] => false | _ :: _ => true end) eqn:E.
  - assert (U : allow_used L) by (apply A'; auto).
    pose proof (allow_none s) as K.
    destruct (allow_loop o (List.length fs) 0 fs (Z.of_nat s)) eqn:E2.
    + exists bs. split; auto. rewrite Ks.
      assert (X : ~ none_allowed eqc L s ws) by (apply K; auto). tauto.
    + exists true. split; auto. split; auto. intros _. left. split; auto.
      intros w W P. assert (X : false = true); [|discriminate]. apply K. intros H. apply (H w); auto.
  - assert (U : ~ allow_used L) by (intros X; apply A' in X; discriminate).
    rewrite (nonempty_holds fold F _ _ Hs), Ns. cbn [bind].
    destruct ((0 <? l_src_n L) && match l_src L with [] => false | _ :: _ => true end) eqn:E2.
    + assert (V : src_used L) by (apply B'; auto). exists bs. split; auto. rewrite Ks. tauto.
    + assert (V : ~ src_used L) by (intros X; apply B' in X; discriminate).
      rewrite (nonempty_holds fold F _ _ Hb), (nonempty_holds fold F _ _ Hd), Nb. cbn [bind].
      unfold block_used. destruct (Z.ltb_spec 0 (l_block_n L)) as [Q|Q]; cbn [andb].
      2:{ exists false. split; auto. split; [discriminate|]. intros [?|[?|?]]; [tauto|tauto|lia]. }
      pose proof (block_all s ltac:(lia)) as K.
      destruct (match l_block L with [] => false | _ :: _ => true end ||
                match l_block_default L with [] => false | _ :: _ => true end) eqn:E3.
      * eexists. split; [reflexivity|].
        rewrite andb_true_iff, Z.leb_le, Z.ltb_lt, K.
        split.
        -- intros (_ & H). right. right. split; auto. split; auto. split; [lia|auto].
        -- intros [H|[H|(_ & _ & _ & H)]]; [tauto|tauto|]. split; [|auto]. apply K in H. lia.
      * exists false. split; auto. split; [discriminate|].
        intros [H|[H|(_ & _ & _ & H1 & H2)]]; [tauto|tauto|]. exfalso.
        destruct (l_block L); [|discriminate]. destruct (l_block_default L); [|discriminate].
        destruct (top (l_block_n L) s ws) as [|w r]; [cbn in H1; lia|].
        destruct (H2 w) as (p & n & _ & q & [] & _). left; auto.
Qed.

Lemma start_ok : exists s : nat,
  (if negb (frame_is_module fs 0) then 1
   else match frame_data fs 0 with Some m => if m_tool m then 1 else 0 | None => 0 end) = Z.of_nat s /\
  (s = 1%nat /\ ignored_top eqc (o_tool o) ws \/ s = 0%nat /\ ~ ignored_top eqc (o_tool o) ws).
Proof.
  unfold frame_is_module, frame_data, ignored_top. change (Z.to_nat 0) with 0%nat.
  pose proof (S_nth 0) as Q.
  destruct ws as [|w ws'], fs as [|f fs']; cbn [nth_error] in *; try contradiction.
  - exists 1%nat. auto.
  - destruct Q as (_ & Q). destruct (w_mod w) as [[p n]|].
    + destruct Q as (-> & m & -> & _ & _ & Q & _). cbn [negb].
      destruct (m_tool m); [exists 1%nat|exists 0%nat]; split; auto; [left|right]; split; auto.
      * apply Q; auto.
      * intros X. apply Q in X. discriminate.
    + destruct Q as (-> & ->). exists 1%nat. auto.
Qed.
End Walk.

Lemma error_ok ws : (forall w t, In w ws -> In t (texts w) -> no_nul t) ->
  exists n0, forall fuel, (n0 <= fuel)%nat ->
  exists fs, symbolize_all fold fuel o (map mk ws) = Ok fs /\
  forall potential,
  exists b s, error_is_likely_false_positive fold fuel o potential fs = Ok b /\
    (s = 1%nat /\ ignored_top eqc (o_tool o) ws \/ s = 0%nat /\ ~ ignored_top eqc (o_tool o) ws) /\
    (b = true <-> potential = true \/ separated eqc L s ws).
Proof.
  intros Nt. exists (enough ws). intros fuel Hf.
  assert (HF : forall w t p, In w ws -> In t (texts w) -> In p patterns -> (glob_fuel t p <= fuel)%nat).
  { intros. eapply enough_ok; eauto. }
  destruct (symbolize_all_ok fuel ws Nt HF) as (fs & E1 & S). exists fs. split; auto.
  intros potential. destruct (start_ok fuel ws fs S Nt HF) as (s & Es & Ks).
  unfold error_is_likely_false_positive. rewrite Es.
  destruct (check_ok fuel ws fs S Nt HF s) as (b & E2 & K2).
  destruct potential.
  - exists true, s. split; auto. split; auto. tauto.
  - exists b, s. split; auto. split; auto. rewrite K2. intuition discriminate.
Qed.

Lemma leak_ok ws : (forall w t, In w ws -> In t (texts w) -> no_nul t) ->
  exists n0, forall fuel, (n0 <= fuel)%nat ->
  exists fs b, symbolize_all fold fuel o (map mk ws) = Ok fs /\
    leak_is_likely_false_positive fold fuel o fs = Ok b /\
    (b = true <-> separated eqc L (if o_replace_malloc o then 1 else 0) ws).
Proof.
  intros Nt. exists (enough ws). intros fuel Hf.
  assert (HF : forall w t p, In w ws -> In t (texts w) -> In p patterns -> (glob_fuel t p <= fuel)%nat).
  { intros. eapply enough_ok; eauto. }
  destruct (symbolize_all_ok fuel ws Nt HF) as (fs & E1 & S).
  destruct (check_ok fuel ws fs S Nt HF (if o_replace_malloc o then 1 else 0)) as (b & E2 & K2).
  exists fs, b. split; auto. split; auto. unfold leak_is_likely_false_positive. rewrite <- E2.
  destruct (o_replace_malloc o); reflexivity.
Qed.

Lemma uninit_ok path name : no_nul name -> (forall p, path = Some p -> no_nul p) ->
  exists n0, forall fuel, (n0 <= fuel)%nat ->
  exists m, module_load_cb fold fuel o path name = Ok m /\ (m_uninit m = true <-> on eqc uninit name).
Proof.
  intros Nn Np. set (w := {| w_mod := Some (path, name); w_file := [] |}).
  assert (Nt : forall t, In t (texts w) -> no_nul t).
  { intros t. unfold texts, w. cbn [w_mod w_file]. destruct path as [p|]; cbn [In].
    - intros [<-|[<-|[<-|[]]]]; auto. intros [].
    - intros [<-|[<-|[]]]; auto. intros []. }
  exists (enough [w]). intros fuel Hf.
  destruct (symbolize_ok fuel w Nt) as (f & E & S).
  { intros t p T P. eapply enough_ok; eauto. left; auto. }
  unfold symbolize, mk, w in E. cbn [d_mod w_mod d_file w_file] in E.
  apply bind_ok in E. destruct E as (m & E1 & E2). exists m. split; auto.
  injection E2 as <-. destruct S as (_ & S). unfold w in S. cbn [w_mod] in S.
  destruct S as (_ & m' & M & _ & _ & _ & U). cbn in M. injection M as <-. auto.
Qed.
End Frames.
