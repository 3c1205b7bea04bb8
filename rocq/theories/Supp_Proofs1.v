(** Single frames; the matching loop: termination, completeness, exactness. *)
From Coq Require Import String.
From Verif Require Import Base Glob_Model Glob_Spec Glob_Proofs Supp_Model Supp_Spec.
Open Scope Z_scope.
Open Scope list_scope.

Lemma tm_ok t p ic : no_nul t -> no_nul p ->
  exists b, tm t (Some p) ic = Ok b /\ (b = true <-> glob (eq_case ascii_tolower ic) t p).
Proof. intros A B. unfold tm. cbn [of_option bind]. apply (text_matches_pattern_ok _ ascii_fold_ok); auto. Qed.

Lemma no_nul_chars : no_nul REPLACE_PAT /\ no_nul DRMEMORY_LIBNAME.
Proof. split; intros H; vm_compute in H; repeat destruct H as [H|H]; try discriminate; auto. Qed.

Lemma modname_ok f p m : wf_frame f -> s_modname (enc p) = Some m -> no_nul m ->
  exists b, frame_matches_modname f (enc p) = Ok b /\ (b = true <-> same (f_modname f) m).
Proof. intros (A&_) E N. unfold frame_matches_modname. rewrite E. apply tm_ok; auto. Qed.

Lemma tmf_ok f p : wf_frame f -> wf_pat p ->
  exists b, top_frame_matches_suppression_frame f (enc p) = Ok b /\ (b = true <-> accepts p f).
Proof.
  intros W P. pose proof W as (A&B&C&D). unfold top_frame_matches_suppression_frame.
  destruct p as [|t|m fn|m o| |m]; cbn [enc s_ellipsis s_star s_ismod s_func s_modname s_modoffs negb accepts describes wf_pat] in *.
  - exists true. tauto.
  - destruct (f_ismod f). { exists false. split; auto. split; [discriminate|intros [X _]; discriminate]. }
    destruct P as (P&_). destruct (tm_ok (f_func f) t false C P) as (b&E&H). exists b. split; auto. unfold same. tauto.
  - unfold in_module. destruct (f_ismod f); cbn [negb].
    2: { exists false. split; auto. split; [discriminate|intros [[X _] _]; discriminate]. }
    destruct P as (P1&P2). destruct (modname_ok f (ModFunc m fn) m W eq_refl P1) as (b&E&H). cbn [enc] in E. rewrite E. cbn [bind].
    destruct b. 2: { exists false. split; auto. split; [discriminate|]. intros [[_ X] _]. apply H in X. discriminate. }
    destruct (tm_ok (f_func f) fn false C P2) as (b&E2&H2). exists b. split; auto. unfold same in *. tauto.
  - unfold in_module. destruct (f_ismod f); cbn [negb].
    2: { exists false. split; auto. split; [discriminate|intros [[X _] _]; discriminate]. }
    destruct P as (P1&P2). destruct (modname_ok f (ModOffs m o) m W eq_refl P1) as (b&E&H). cbn [enc] in E. rewrite E. cbn [bind].
    destruct b. 2: { exists false. split; auto. split; [discriminate|]. intros [[_ X] _]. apply H in X. discriminate. }
    destruct (tm_ok (f_modoffs f) o true B P2) as (b&E2&H2). exists b. split; auto. unfold same_nocase. tauto.
  - exists true. tauto.
  - destruct P as (P1&P2). destruct (modname_ok f (ModEllipsis m) m W eq_refl P1) as (b&E&H). cbn [enc] in E.
    exists b. split; auto. rewrite H. unfold in_module. split; [|tauto]. intros S. split; auto.
    destruct (f_ismod f); auto. exfalso. rewrite D in S; auto.
Qed.

(** the "open ellipsis" test *)
Definition pl (last : option (nat * pat)) : option (nat * sframe) :=
  match last with None => None | Some (l, c) => Some (l, enc c) end.
Definition is_ell (p : pat) : Prop := match p with Ellipsis | ModEllipsis _ => True | _ => False end.
Definition open_ok (last : option (nat * pat)) (f : frame) : Prop :=
  match last with None => False | Some (_, c) => accepts c f end.
Lemma open_test f last : wf_frame f -> match last with None => True | Some (_, c) => wf_pat c /\ is_ell c end ->
  exists b, match pl last with
            | Some (_, c) => if s_ismod c then frame_matches_modname f c else Ok true
            | None => Ok false
            end = Ok b /\ (b = true <-> open_ok last f).
Proof.
  intros W L. destruct last as [[l c]|]; cbn [pl open_ok].
  2: { exists false. split; auto. split; [discriminate|tauto]. }
  destruct L as [P E]. destruct (tmf_ok f c W P) as (b&T&H). destruct c; cbn in E; try contradiction.
  - exists true. cbn. tauto.
  - exists b. split; auto.
Qed.

Definition skip_top rm i f := rm = true /\ i = O /\ tool_frame f.
Definition skip_pat rm (i : nat) p := rm = false /\ i = O /\ tool_pattern p.

Section Loop.
Variable rm : bool.
Variable st : list frame.
Hypothesis WF : Forall wf_frame st.
Notation N := (length st).

Lemma wf_nth i f : nth_error st i = Some f -> wf_frame f.
Proof. intros H. apply nth_error_In in H. rewrite Forall_forall in WF. auto. Qed.

(** one iteration *)
Inductive step (i : nat) : list pat -> option (nat * pat) -> bool + (nat * list pat * option (nat * pat)) -> Prop :=
| st_end supp last : nth_error st i = None -> step i supp last (inl (match supp with [] => true | _ => false end))
| st_done f last : nth_error st i = Some f -> step i [] last (inl true)
| st_ell f p rest last : nth_error st i = Some f -> is_ell p -> accepts p f -> step i (p :: rest) last (inr (i, rest, Some (i, p)))
| st_one f p rest last : nth_error st i = Some f -> single p -> accepts p f -> step i (p :: rest) last (inr (S i, rest, last))
| st_retry f p rest l c : nth_error st i = Some f -> ~ accepts p f -> accepts c f ->
    step i (p :: rest) (Some (l, c)) (inr (S l, p :: rest, Some (S l, c)))
| st_top f p rest last : nth_error st i = Some f -> ~ accepts p f -> ~ open_ok last f -> skip_top rm i f ->
    step i (p :: rest) last (inr (S i, p :: rest, last))
| st_pat f p rest last : nth_error st i = Some f -> ~ accepts p f -> ~ open_ok last f -> skip_pat rm i p ->
    step i (p :: rest) last (inr (i, rest, last))
| st_no f p rest last : nth_error st i = Some f -> ~ accepts p f -> ~ open_ok last f ->
    ~ skip_top rm i f -> ~ skip_pat rm i p -> step i (p :: rest) last (inl false).

Definition wf_last (last : option (nat * pat)) := match last with None => True | Some (_, c) => wf_pat c /\ is_ell c end.

Lemma loop_step fu i supp last : Forall wf_pat supp -> wf_last last ->
  exists r, step i supp last r /\
    match_frames (S fu) rm st i (map enc supp) (pl last) =
      match r with
      | inl b => Ok b
      | inr (i', supp', last') => match_frames fu rm st i' (map enc supp') (pl last')
      end.
Proof.
  intros WS WL. cbn [match_frames].
  destruct (nth_error st i) as [f|] eqn:NE.
  2: { eexists. split; [apply st_end; auto|]. destruct supp; auto. }
  pose proof (wf_nth _ _ NE) as WFf.
  destruct supp as [|p rest]; cbn [map].
  { eexists. split; [eapply st_done; eauto|]. auto. }
  inversion_clear WS as [|? ? Wp Wr].
  destruct (tmf_ok f p WFf Wp) as (b&E&H). rewrite E. cbn [bind]. destruct b.
  - assert (AC : accepts p f) by (apply H; auto).
    destruct p; cbn [enc s_ellipsis]; eexists; (split; [solve [eapply st_one; eauto; exact I | eapply st_ell; eauto; exact I] | auto]).
  - assert (AC : ~ accepts p f) by (rewrite <- H; discriminate). clear H.
    destruct (open_test f last WFf WL) as (b&E2&H2). rewrite E2. cbn [bind]. destruct b.
    + destruct last as [[l c]|]; [|exfalso; apply H2; auto]. cbn [pl].
      eexists. split; [eapply st_retry; eauto; apply H2; auto|]. reflexivity.
    + assert (NO : ~ open_ok last f) by (rewrite <- H2; discriminate).
      set (ST := if Nat.eqb i 0 && rm then _ else _).
      assert (X : exists b, ST = Ok b /\ (b = true <-> skip_top rm i f)).
      { unfold ST, skip_top, tool_frame. destruct (Nat.eqb_spec i 0) as [->|NZ]; cbn [andb].
        2: { exists false. split; auto. split; [discriminate|intros (_&Z&_); contradiction]. }
        destruct rm. 2: { exists false. split; auto. split; [discriminate|intros (Z&_); discriminate]. }
        destruct WFf as (F1&_&F3&_). destruct no_nul_chars as (K1&K2).
        destruct (tm_ok (f_func f) REPLACE_PAT false F3 K1) as (b1&G1&H1). rewrite G1. cbn [bind].
        destruct b1. 2: { exists false. split; auto. split; [discriminate|]. intros (_&_&X&_). apply H1 in X. discriminate. }
        destruct (tm_ok (f_modname f) DRMEMORY_LIBNAME FILESYS_CASELESS F1 K2) as (b&G2&H3). exists b. split; auto.
        unfold same. unfold FILESYS_CASELESS, REPLACE_PAT, DRMEMORY_LIBNAME in *. tauto. }
      destruct X as (b&EX&HX). clearbody ST. subst ST. cbn [bind].
      assert (Y : exists b, (if Nat.eqb i 0 && negb rm then
              match s_func (enc p) with
              | None => Ok false
              | Some f =>
                let* a := tm f (Some REPLACE_PAT) false in
                if a then let* m := of_option (s_modname (enc p)) in tm m (Some DRMEMORY_LIBNAME) FILESYS_CASELESS
                else Ok false
              end
            else Ok false) = Ok b /\ (b = true <-> skip_pat rm i p)).
      { unfold skip_pat. destruct (Nat.eqb_spec i 0) as [->|NZ]; cbn [andb].
        2: { exists false. split; auto. split; [discriminate|intros (_&Z&_); contradiction]. }
        destruct rm; cbn [negb]. { exists false. split; auto. split; [discriminate|intros (Z&_); discriminate]. }
        destruct no_nul_chars as (K1&K2).
        destruct p as [|t|m fn|m o| |m]; cbn [enc s_func s_modname tool_pattern]; try (exists false; split; auto; split; [discriminate|tauto]).
        - destruct Wp as (P1&P2). destruct (tm_ok t REPLACE_PAT false P1 K1) as (b1&G1&H1). rewrite G1. cbn [bind].
          destruct b1. { exfalso. apply P2, H1; auto. }
          exists false; split; auto; split; [discriminate|tauto].
        - destruct Wp as (P1&P2). destruct (tm_ok fn REPLACE_PAT false P2 K1) as (b1&G1&H1). rewrite G1. cbn [bind].
          destruct b1. 2: { exists false. split; auto. split; [discriminate|]. intros (_&_&X&_). apply H1 in X. discriminate. }
          destruct (tm_ok m DRMEMORY_LIBNAME FILESYS_CASELESS P1 K2) as (b2&G2&H3). exists b2. split; auto.
          unfold same. unfold FILESYS_CASELESS, REPLACE_PAT, DRMEMORY_LIBNAME in *. tauto. }
      destruct Y as (b'&EY&HY).
      assert (RW : forall (A : Type) (k : bool -> res A), match pl last with Some (_, _) => k false | None => k false end = k false)
        by (intros; destruct (pl last) as [[? ?]|]; auto).
      destruct (pl last) as [[l0 c0]|] eqn:PL.
      * destruct b.
        { eexists. split; [eapply st_top; eauto; apply HX; auto|]. cbn. rewrite PL. auto. }
        rewrite EY. cbn [bind]. destruct b'.
        { eexists. split; [eapply st_pat; eauto; apply HY; auto|]. cbn. rewrite PL. auto. }
        eexists. split; [eapply st_no; eauto; [rewrite <- HX|rewrite <- HY]; discriminate|]. auto.
      * destruct b.
        { eexists. split; [eapply st_top; eauto; apply HX; auto|]. cbn. rewrite PL. auto. }
        rewrite EY. cbn [bind]. destruct b'.
        { eexists. split; [eapply st_pat; eauto; apply HY; auto|]. cbn. rewrite PL. auto. }
        eexists. split; [eapply st_no; eauto; [rewrite <- HX|rewrite <- HY]; discriminate|]. auto.
Qed.

(** measure *)
Definition lastp (last : option (nat * pat)) := match last with None => O | Some (l, _) => l end.
Definition meas (i : nat) (supp : list pat) (last : option (nat * pat)) : nat :=
  length supp * (N + 3) + (N + 1 - lastp last) + (if Nat.eqb i 0 then 1 else 0).
Definition sane (i : nat) (last : option (nat * pat)) := (lastp last <= i)%nat.

Lemma step_meas i supp last i' supp' last' : Forall wf_pat supp -> wf_last last -> sane i last ->
  step i supp last (inr (i', supp', last')) ->
  (meas i' supp' last' < meas i supp last)%nat /\ Forall wf_pat supp' /\ wf_last last' /\ sane i' last'.
Proof.
  intros WS WL SA S. unfold meas, sane in *.
  assert (NT : forall f, nth_error st i = Some f -> (i < N)%nat) by (intros f H; apply nth_error_Some; congruence).
  inversion S; subst; clear S;
    match goal with H : nth_error st i = Some _ |- _ => pose proof (NT _ H) | H : nth_error st _ = Some _ |- _ => pose proof (NT _ H) end;
    cbn [length lastp] in *; inversion WS as [|? ? W1 W2]; subst.
  - split; [destruct (Nat.eqb i' 0); lia|]. split; auto. cbn. split; auto.
  - split; [destruct (Nat.eqb i 0), (Nat.eqb (Datatypes.S i) 0); lia|]. split; auto.
  - split; [destruct (Nat.eqb i 0); cbn [Nat.eqb]; lia|]. split; auto.
  - match goal with H : skip_top _ _ _ |- _ => destruct H as (_&->&_) end. split; [cbn [Nat.eqb]; lia|]. split; auto.
  - split; [destruct (Nat.eqb i' 0); lia|]. split; auto.
Qed.

Lemma loop_terminates : forall fu i supp last, Forall wf_pat supp -> wf_last last -> sane i last ->
  (meas i supp last < fu)%nat -> exists b, match_frames fu rm st i (map enc supp) (pl last) = Ok b.
Proof.
  induction fu as [|fu IH]; intros i supp last WS WL SA F; [lia|].
  destruct (loop_step fu i supp last WS WL) as ([b|[[i' supp'] last']]&S&E); rewrite E; [eauto|].
  destruct (step_meas _ _ _ _ _ _ WS WL SA S) as (M&A&B&C). apply IH; auto. lia.
Qed.

(** no open ellipsis yet / generic induction principle *)
Lemma loop_ind (P : nat -> list pat -> option (nat * pat) -> bool -> Prop) :
  (forall i supp last b, Forall wf_pat supp -> step i supp last (inl b) -> sane i last -> P i supp last b) ->
  (forall i supp last i' supp' last' b, Forall wf_pat supp -> sane i last -> step i supp last (inr (i', supp', last')) ->
     P i' supp' last' b -> P i supp last b) ->
  forall fu i supp last, Forall wf_pat supp -> wf_last last -> sane i last -> (meas i supp last < fu)%nat ->
  exists b, match_frames fu rm st i (map enc supp) (pl last) = Ok b /\ P i supp last b.
Proof.
  intros HB HS. induction fu as [|fu IH]; intros i supp last WS WL SA F; [lia|].
  destruct (loop_step fu i supp last WS WL) as ([b|[[i' supp'] last']]&S&E); rewrite E; [eauto|].
  destruct (step_meas _ _ _ _ _ _ WS WL SA S) as (M&A&B&C).
  destruct (IH i' supp' last') as (b&E2&HP); auto; [lia|]. eauto.
Qed.
End Loop.
