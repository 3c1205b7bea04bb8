From Verif Require Import Base Glob_Model Glob_Spec.
Open Scope Z_scope.

Section P.
Variable fold : Z -> Z.
Hypothesis FOK : fold_ok fold.
Variable ic : bool.
Notation eqc := (eq_case fold ic).
Notation G := (glob eqc).

Definition nostar (w : list Z) := ~ In 42 w.

Lemma glob_nil_inv p : G [] p <-> skip_stars p = [].
Proof.
  induction p as [|d p IH]; cbn [skip_stars].
  - split; auto. constructor.
  - destruct (Z.eqb_spec d STAR) as [->|N].
    + rewrite <- IH. split; intros H.
      * inversion H; subst; try congruence.
        match goal with X : _ ++ _ = [] |- _ => apply app_eq_nil in X; destruct X; subst; auto end.
      * apply (glob_star _ [] []). auto.
    + split; [|discriminate]. intros H; inversion H; subst; unfold STAR in *; congruence.
Qed.

Lemma glob_star_inv t p : G t (42 :: p) <-> exists k, G (skipn k t) p.
Proof.
  split.
  - intros H; inversion H; subst.
    + exists (length t1). rewrite skipn_app, skipn_all, Nat.sub_diag. auto.
    + congruence.
  - intros [k H]. rewrite <- (firstn_skipn k t). constructor; auto.
Qed.

Lemma skipn_skipn_Z {A} a b (l : list A) : skipn a (skipn b l) = skipn (a + b) l.
Proof.
  revert l; induction b; intros l.
  - rewrite Nat.add_0_r; auto.
  - destruct l. + rewrite !skipn_nil; auto. + rewrite Nat.add_succ_r. cbn [skipn]. auto.
Qed.

(** several stars are one star *)
Lemma glob_skip t p : (exists k, G (skipn k t) p) <-> (exists k, G (skipn k t) (skip_stars p)).
Proof.
  induction p as [|d p IH]; cbn [skip_stars]; [tauto|].
  destruct (Z.eqb_spec d STAR) as [->|N]; [|tauto].
  rewrite <- IH. split; intros [k H].
  - apply glob_star_inv in H. destruct H as [j H]. rewrite skipn_skipn_Z in H. eauto.
  - exists k. apply glob_star_inv. exists 0%nat. auto.
Qed.

Lemma glob_cons_inv c t d p : d <> 42 ->
  (G (c :: t) (d :: p) <-> (d = 63 \/ eqc c d) /\ G t p).
Proof.
  intros N; split; intros H.
  - inversion H; subst; tauto.
  - destruct H as [[->|E] H]; [constructor 3|constructor 4]; auto.
Qed.

Lemma glob_nostar_app w p t : nostar w -> G t (w ++ p) ->
  exists u t', t = u ++ t' /\ length u = length w /\ G t' p.
Proof.
  revert t; induction w as [|d w IH]; intros t N H; cbn [app] in *.
  - exists [], t; auto.
  - assert (d <> 42) by (intros ->; apply N; left; auto).
    assert (nostar w) by (intros X; apply N; right; auto).
    inversion H; subst; try congruence.
    all: destruct (IH _ H1 ltac:(eassumption)) as (u&t'&->&L&K).
    all: exists (c :: u), t'; cbn; auto.
Qed.

Definition LastOk (cur pat : list Z) (last : option (list Z * list Z)) : Prop :=
  match last with
  | None => True
  | Some (lt, lp) => exists w u j,
      lp = w ++ pat /\ nostar w /\ length u = length w /\ lt = skipn j (u ++ cur)
  end.
Definition LastG (last : option (list Z * list Z)) : Prop :=
  match last with None => False | Some (lt, lp) => exists k, G (skipn k lt) lp end.

(** a later start that succeeds leaves a suffix of the current text *)
Lemma last_absorb cur pat last : LastOk cur pat last -> LastG last ->
  exists k, G (skipn k cur) pat.
Proof.
  destruct last as [[lt lp]|]; [|intros _ []].
  intros (w&u&j&->&NS&L&->) (k&H).
  rewrite skipn_skipn_Z in H.
  apply glob_nostar_app in H; auto. destruct H as (v&t'&E&Lv&H).
  assert (t' = skipn (length w + (k + j)) (u ++ cur)) as ->.
  { rewrite <- skipn_skipn_Z, E, skipn_app, <- Lv, skipn_all, Nat.sub_diag. auto. }
  rewrite skipn_app, skipn_all2 in H by lia. eauto.
Qed.

Definition lexm (n m : nat) (cur : list Z) (last : option (list Z * list Z)) : nat :=
  match last with
  | None => (S m) * ((n + 2) * (n + 1)) + (n + 1) * (n + 1) + length cur
  | Some (lt, lp) => length lp * ((n + 2) * (n + 1)) + length lt * (n + 1) + length cur
  end.

Lemma skip_stars_len p : (length (skip_stars p) <= length p)%nat.
Proof. induction p as [|d p IH]; cbn; auto. destruct (d =? STAR); cbn; lia. Qed.
Lemma skip_stars_in p x : In x (skip_stars p) -> In x p.
Proof. induction p as [|d p IH]; cbn; auto. destruct (d =? STAR); cbn; tauto. Qed.

Definition lastN (last : option (list Z * list Z)) :=
  match last with None => True | Some (lt, lp) => no_nul lt /\ no_nul lp end.
(* the restart text of [last] is strictly beyond the start of the current
   attempt, or equal to it: needed for the measure *)
Definition LastLen (n m : nat) (cur pat : list Z) (last : option (list Z * list Z)) :=
  (length cur <= n)%nat /\
  match last with
  | None => (length pat <= m)%nat
  | Some (lt, lp) => (length lt <= n)%nat /\ (length pat <= length lp)%nat /\ (length lp <= m)%nat
  end.

Lemma no_nul_tl l : no_nul l -> no_nul (tl l).
Proof. destruct l; cbn; auto. intros H X. apply H; right; auto. Qed.
Lemma no_nul_skip l : no_nul l -> no_nul (skip_stars l).
Proof. intros H X. apply H. apply skip_stars_in; auto. Qed.

Lemma match_loop_ok n m fuel : forall cur pat last,
  (lexm n m cur last < fuel)%nat ->
  no_nul cur -> no_nul pat -> lastN last ->
  LastLen n m cur pat last -> LastOk cur pat last ->
  exists b, match_loop fold fuel ic cur pat last = Ok b /\
    (b = true <-> G cur pat \/ LastG last).
Proof.
  induction fuel as [|fuel IH]; intros cur pat last HF Nc Np Nl LL LO; [lia|].
  cbn [match_loop].
  destruct cur as [|c cur]; cbn [rd].
  - (* text exhausted *)
    cbn [Z.eqb].
    exists (rd (skip_stars pat) =? 0). split; auto.
    assert (R: (rd (skip_stars pat) =? 0) = true <-> G [] pat).
    { rewrite glob_nil_inv. pose proof (no_nul_skip _ Np) as K.
      destruct (skip_stars pat) as [|d q]; cbn [rd].
      - split; auto.
      - split; [|discriminate]. intros E. apply Z.eqb_eq in E. subst.
        exfalso; apply K; left; auto. }
    rewrite R. split; auto. intros [H|H]; auto.
    destruct (last_absorb _ _ _ LO H) as [k K]. rewrite skipn_nil in K. auto.
  - assert (c <> 0) by (intros ->; apply Nc; left; auto).
    destruct (Z.eqb_spec c 0); [congruence|].
    destruct (Z.eqb_spec (rd pat) STAR) as [E|NE].
    + (* star *)
      destruct pat as [|d p]; cbn [rd] in E; [unfold STAR in E; lia|]. subst d.
      cbn [adv bind].
      assert (AB : G (c :: cur) (STAR :: p) \/ LastG last <->
                   exists k, G (skipn k (c :: cur)) (skip_stars p)).
      { rewrite <- glob_skip. change STAR with 42. rewrite <- glob_star_inv.
        split; auto. intros [H1|H1]; auto.
        destruct (last_absorb _ _ _ LO H1) as [k K]. change STAR with 42 in K.
        rewrite glob_star_inv in *. destruct K as [j K]. rewrite skipn_skipn_Z in K. eauto. }
      assert (no_nul p) by (intros X; apply Np; right; auto).
      pose proof (no_nul_skip p H0) as Nq.
      pose proof (skip_stars_len p) as Lq.
      destruct (Z.eqb_spec (rd (skip_stars p)) 0) as [E0|N0].
      * exists true. split; auto. rewrite AB. split; auto. intros _.
        exists (length (c :: cur)). rewrite skipn_all.
        destruct (skip_stars p) as [|d q]; [constructor|].
        cbn [rd] in E0; subst. exfalso; apply Nq; left; auto.
      * destruct (IH (c :: cur) (skip_stars p) (Some (c :: cur, skip_stars p))) as (b&E1&E2); auto.
        -- destruct LL as [L1 L2]. cbn [lexm length] in *.
           destruct last as [[lt lp]|]; cbn [lexm length] in *.
           ++ assert (S (length (skip_stars p)) <= length lp)%nat by lia.
              nia.
           ++ nia.
        -- cbn; auto.
        -- destruct LL as [L1 L2]. cbn [length] in *. split; [cbn; lia|]. repeat split; try (cbn;lia).
           destruct last as [[lt lp]|]; lia.
        -- exists [], [], 0%nat. cbn. repeat split; auto. intros [].
        -- exists b. split; auto. rewrite E2, AB. cbn [LastG]. split.
           ++ intros [K|K]; auto. exists 0%nat; auto.
           ++ auto.
    + set (cc := (if ic then fold c else c) =? (if ic then fold (rd pat) else rd pat)).
      destruct (cc || (rd pat =? QMARK)) eqn:EM.
      * (* consume *)
        destruct pat as [|d p]; cbn [rd] in *.
        { exfalso. unfold cc in EM. rewrite orb_true_iff in EM. destruct EM as [EM|EM].
          - apply Z.eqb_eq in EM. destruct ic; [apply FOK in EM|]; congruence.
          - discriminate EM. }
        cbn [adv bind].
        assert (ND : d <> 42) by exact NE.
        assert (MM : d = 63 \/ eqc c d).
        { rewrite orb_true_iff in EM. destruct EM as [EM|EM]; apply Z.eqb_eq in EM; auto.
          right. unfold eq_case. destruct ic; auto. }
        destruct (IH cur p last) as (b&E1&E2); auto.
        -- destruct last as [[lt lp]|]; cbn [lexm length] in *; lia.
        -- intros X; apply Nc; right; auto.
        -- intros X; apply Np; right; auto.
        -- destruct LL as [L1 L2]. cbn [length] in *. split; [lia|].
           destruct last as [[lt lp]|]; lia.
        -- destruct last as [[lt lp]|]; cbn; auto.
           destruct LO as (w&u&j&->&NS&L&->).
           exists (w ++ [d]), (u ++ [c]), j. rewrite <- !app_assoc. cbn. repeat split; auto.
           ++ intros X. apply in_app_or in X. destruct X as [X|[X|[]]]; auto.
           ++ rewrite !app_length; cbn; lia.
        -- exists b. split; auto. rewrite E2, glob_cons_inv by auto. tauto.
      * (* mismatch *)
        assert (NG : ~ G (c :: cur) pat).
        { intros H1. apply orb_false_iff in EM. destruct EM as [EM1 EM2].
          apply Z.eqb_neq in EM1, EM2.
          destruct pat as [|d p]; [inversion H1|]. cbn [rd] in *.
          apply glob_cons_inv in H1; auto. destruct H1 as [[->|H1] _]; [apply EM2; reflexivity|].
          apply EM1. unfold eq_case in H1. destruct ic; auto. }
        destruct last as [[lt lp]|].
        -- cbn [lastN LastLen LastOk] in *. destruct Nl as [Nlt Nlp].
           destruct LL as (L1&L2&L3&L4).
           destruct (IH lt lp (Some (tl lt, lp))) as (b&E1&E2); auto.
           ++ destruct lt; cbn [lexm length tl] in *; lia.
           ++ cbn. split; auto. apply no_nul_tl; auto.
           ++ unfold LastLen. destruct lt; cbn [tl length] in *; lia.
           ++ cbn. exists [], [], 1%nat. repeat split; auto. intros [].
           ++ exists b. split; auto. rewrite E2. cbn [LastG]. split.
              ** intros [K|[k K]]; right; [exists 0%nat; auto|].
                 exists (S k). destruct lt; [rewrite skipn_nil in *|]; auto.
              ** intros [K|[k K]]; [contradiction|]. destruct k; [left; auto|].
                 right. exists k. destruct lt; [rewrite skipn_nil in *|]; auto.
        -- exists false. split; auto. cbn [LastG]. split; [discriminate|tauto].
Qed.

Definition glob_fuel (text pat : list Z) : nat :=
  let n := length text in let m := length pat in
  S ((S m) * ((n + 2) * (n + 1)) + (n + 1) * (n + 1) + n).

Lemma text_matches_pattern_ok text pat fuel :
  no_nul text -> no_nul pat -> (glob_fuel text pat <= fuel)%nat ->
  exists b, text_matches_pattern fold fuel text pat ic = Ok b /\ (b = true <-> G text pat).
Proof.
  intros Nt Np HF.
  destruct (match_loop_ok (length text) (length pat) fuel text pat None) as (b&E1&E2); auto.
  - exact I.
  - unfold LastLen; lia.
  - exact I.
  - exists b. split; auto. cbn [LastG] in E2. tauto.
Qed.

Lemma cstr_app p rest : no_nul p -> cstr (p ++ 0 :: rest) = Ok p.
Proof.
  induction p as [|c p IH]; intros N; cbn [cstr app]; auto.
  destruct (Z.eqb_spec c 0) as [->|K].
  - exfalso; apply N; left; auto.
  - rewrite IH; auto. intros X; apply N; right; auto.
Qed.

Lemma encode_cons p ps : encode_list (p :: ps) = p ++ 0 :: encode_list ps.
Proof. unfold encode_list. cbn [map concat]. rewrite <- !app_assoc. auto. Qed.

Lemma matches_any_ok text fuel ps : forall n,
  no_nul text -> (forall p, In p ps -> p <> [] /\ no_nul p /\ (glob_fuel text p <= fuel)%nat) ->
  (length ps < n)%nat ->
  exists b, matches_any_loop fold n fuel text (encode_list ps) ic = Ok b /\
    (b = true <-> exists p, In p ps /\ G text p).
Proof.
  induction ps as [|p ps IH]; intros n Nt HP HN.
  - destruct n; [lia|]. exists false. split; auto. split; [discriminate|]. intros (?&[]&_).
  - destruct n; [lia|]. cbn [matches_any_loop].
    destruct (HP p) as (Pne&Pn&PF); [left; auto|].
    rewrite encode_cons.
    destruct p as [|c p]; [congruence|]. cbn [app].
    destruct (Z.eqb_spec c 0) as [->|K]; [exfalso; apply Pn; left; auto|].
    change (c :: p ++ 0 :: encode_list ps) with ((c :: p) ++ 0 :: encode_list ps).
    rewrite cstr_app by auto. cbn [bind].
    destruct (text_matches_pattern_ok text (c :: p) fuel Nt Pn PF) as (b&E1&E2).
    rewrite E1. cbn [bind]. destruct b.
    + exists true. split; auto. split; auto. intros _. exists (c :: p). split; [left; auto|]. apply E2; auto.
    + destruct (IH n) as (b&F1&F2); auto.
      * intros q Q. apply HP; right; auto.
      * cbn in HN; lia.
      * rewrite skipn_app, skipn_all2 by lia.
        replace (length (c :: p) + 1 - length (c :: p))%nat with 1%nat by lia.
        cbn [app skipn]. exists b. split; auto. rewrite F2.
        split; intros (q&Q1&Q2).
        -- exists q; split; auto; right; auto.
        -- destruct Q1 as [<-|Q1]; eauto. exfalso. apply E2 in Q2. discriminate.
Qed.

Lemma encode_len ps : (length ps < length (encode_list ps))%nat.
Proof.
  induction ps as [|p ps IH]; [cbn; lia|]. rewrite encode_cons, app_length. cbn [length]. lia.
Qed.

Lemma text_matches_any_pattern_ok text fuel ps :
  no_nul text -> (forall p, In p ps -> p <> [] /\ no_nul p /\ (glob_fuel text p <= fuel)%nat) ->
  exists b, text_matches_any_pattern fold fuel text (encode_list ps) ic = Ok b /\
    (b = true <-> exists p, In p ps /\ G text p).
Proof.
  intros. apply matches_any_ok; auto. pose proof (encode_len ps); lia.
Qed.
End P.

Lemma ascii_fold_ok : fold_ok ascii_tolower.
Proof.
  intros c. unfold ascii_tolower. cbn [Z.leb Z.compare andb].
  destruct ((65 <=? c) && (c <=? 90)) eqn:E; intros; lia.
Qed.
