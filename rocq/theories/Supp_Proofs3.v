(** The parser, and generated suppressions. *)
From Coq Require Import String.
From Verif Require Import Base Glob_Model Glob_Spec Glob_Proofs Supp_Model Supp_Spec Supp_Proofs1 Supp_Proofs2.
Open Scope Z_scope.
Open Scope list_scope.

Lemma starts_ok p s : starts p s = true <-> prefix_of p s.
Proof.
  unfold prefix_of. revert s. induction p as [|c p IH]; intros s; cbn.
  - split; eauto.
  - destruct s as [|d s]; [split; [discriminate|intros (r&H); discriminate]|].
    rewrite andb_true_iff, IH, Z.eqb_eq. split.
    + intros (->&r&->). eauto.
    + intros (r&H). injection H as -> ->. eauto.
Qed.
Lemma starts_no p s : ~ prefix_of p s -> starts p s = false.
Proof. rewrite <- starts_ok. destruct (starts p s); congruence. Qed.
Lemma strchr_none s c : ~ In c s -> strchr s c = None.
Proof. induction s as [|d s IH]; cbn; auto. intros H. destruct (Z.eqb_spec d c); [exfalso; auto|]. apply IH. tauto. Qed.
Lemma strchr_app a c b : ~ In c a -> strchr (a ++ c :: b) c = Some (c :: b).
Proof.
  induction a as [|d a IH]; cbn; intros H.
  - rewrite Z.eqb_refl. auto.
  - destruct (Z.eqb_spec d c); [exfalso; auto|]. apply IH. tauto.
Qed.
Lemma strchr_some s c : In c s -> exists r, strchr s c = Some r.
Proof. induction s as [|d s IH]; cbn; intros H; [tauto|]. destruct (Z.eqb_spec d c); eauto. destruct H; [congruence|]. auto. Qed.
Lemma upto_app a b : upto (a ++ b) b = a.
Proof. unfold upto. rewrite app_length. replace (length a + length b - length b)%nat with (length a) by lia. rewrite firstn_app, Nat.sub_diag, firstn_all. cbn. apply app_nil_r. Qed.
Lemma list_eqb_refl a : list_eqb a a = true.
Proof. induction a; cbn; auto. rewrite Z.eqb_refl. auto. Qed.
Lemma list_eqb_eq a : forall b, list_eqb a b = true <-> a = b.
Proof.
  induction a as [|x a IH]; intros [|y b]; cbn; try (split; [discriminate|congruence]); try tauto.
  rewrite andb_true_iff, IH, Z.eqb_eq. split; [intros [-> ->]; auto|]. intros H. injection H. auto.
Qed.
Lemma contains_app a p b : contains p (a ++ p ++ b) = true.
Proof.
  induction a as [|x a IH]; cbn [app].
  - assert (H : starts p (p ++ b) = true) by (apply starts_ok; exists b; auto). destruct (p ++ b); cbn [contains]; rewrite H; auto.
  - cbn [contains]. rewrite IH. apply orb_true_r.
Qed.

Lemma c_bang : chars "!" = [BANG]. Proof. reflexivity. Qed.
Lemma c_lt : chars "<" = [LT]. Proof. reflexivity. Qed.
Lemma c_gt : chars ">" = [GT]. Proof. reflexivity. Qed.
Lemma c_plus : chars "+" = [PLUS]. Proof. reflexivity. Qed.

Lemma rd_lt m r : ~ prefix_of (chars "<") m -> m = [] /\ rd r <> LT \/ m <> [] -> (rd (m ++ r) =? LT) = false.
Proof.
  intros P H. destruct m as [|c m]; cbn.
  - destruct H as [[_ H]|H]; [lia|congruence].
  - apply Z.eqb_neq. intros ->. apply P. exists m. auto.
Qed.
Lemma not_lt_line m r : ~ prefix_of (chars "<") m -> (rd (m ++ BANG :: r) =? LT) = false.
Proof. intros P. apply rd_lt; auto. destruct m; [left; split; auto; cbn; unfold BANG, LT; lia|right; discriminate]. Qed.

Lemma parse_frame_ok p : match p with
  | NotModule t => t = chars "<not in a module>" \/
      (exists a b, t = a ++ chars "system call " ++ b) /\ ~ In BANG t /\ ~ In EQS t /\ ~ In LT t
  | ModFunc m f => ~ In BANG m /\ ~ prefix_of (chars "<") m /\ ~ prefix_of (chars "...") f
  | ModOffs m o => ~ In BANG m /\ ~ In PLUS m /\ ~ In GT m /\ ~ In BANG o /\ ~ In GT o /\
      (exists c r, o = chars "0x" ++ c :: r)
  | ModEllipsis m => ~ In BANG m /\ ~ prefix_of (chars "<") m
  | _ => True
  end -> parse_frame (text p) = PFrame (enc p).
Proof.
  destruct p as [|t|m f|m o| |m]; cbn [text enc]; intros R.
  - reflexivity.
  - destruct R as [->|((a&b&E)&NB&NE&NL)]; [reflexivity|].
    assert (C0 : (rd t =? LT) = false). { destruct t as [|c t]; cbn; auto. apply Z.eqb_neq. intros ->. apply NL. left; auto. }
    unfold parse_frame. rewrite C0. rewrite (strchr_none t BANG NB).
    assert (C : contains (chars "system call ") t = true) by (rewrite E; apply contains_app).
    assert (NS : forall s, contains (chars "system call ") s = false -> list_eqb t s = false).
    { intros s K. destruct (list_eqb t s) eqn:Q; auto. apply (proj1 (list_eqb_eq _ _)) in Q. congruence. }
    pose proof (NS (chars "<not in a module>") eq_refl) as L1. pose proof (NS (chars "...") eq_refl) as L2. pose proof (NS (chars "*") eq_refl) as L3.
    destruct (strchr t GT); rewrite L1, L2, L3, C; auto.
  - destruct R as (NB&NL&NE). rewrite c_bang. cbn [app]. unfold parse_frame. rewrite not_lt_line by auto.
    rewrite strchr_app by auto. cbn [negb tl]. rewrite (starts_no _ _ NE). rewrite upto_app. try match goal with |- context [strchr ?x GT] => destruct (strchr x GT) end; auto.
  - destruct R as (B1&P1&G1&B2&G2&c&r&->). rewrite c_lt, c_plus, c_gt. cbn [app].
    unfold parse_frame. cbn [rd]. change (LT =? LT) with true. cbv iota.
    assert (E1 : strchr (LT :: m ++ PLUS :: (chars "0x" ++ c :: r) ++ [GT]) PLUS = Some (PLUS :: (chars "0x" ++ c :: r) ++ [GT])).
    { apply (strchr_app (LT :: m)). intros [H|H]; [discriminate|auto]. }
    assert (E2 : strchr (LT :: m ++ PLUS :: (chars "0x" ++ c :: r) ++ [GT]) GT = Some [GT]).
    { replace (LT :: m ++ PLUS :: (chars "0x" ++ c :: r) ++ [GT]) with ((LT :: m ++ PLUS :: (chars "0x" ++ c :: r)) ++ [GT])
        by (cbn [app]; rewrite <- app_assoc; auto).
      apply strchr_app. intros [H|H]; [discriminate|]. apply in_app_iff in H. destruct H as [H|[H|H]]; [auto|discriminate|auto]. }
    assert (E3 : strchr (LT :: m ++ PLUS :: (chars "0x" ++ c :: r) ++ [GT]) BANG = None).
    { apply strchr_none. intros [H|H]; [discriminate|]. apply in_app_iff in H. destruct H as [H|[H|H]]; [auto|discriminate|].
      apply in_app_iff in H. destruct H as [H|[H|[]]]; [auto|discriminate]. }
    rewrite E1, E2, E3. cbn [tl].
    assert (LT' : Nat.ltb (length (PLUS :: (chars "0x" ++ c :: r) ++ [GT])) (length [GT]) = false) by (apply Nat.ltb_ge; cbn; lia).
    rewrite LT', upto_app. cbn [chars app Ascii.nat_of_ascii]. 
    change (SF false false true (Some (upto (m ++ PLUS :: (chars "0x" ++ c :: r) ++ [GT]) (PLUS :: (chars "0x" ++ c :: r) ++ [GT]))) (Some (chars "0x" ++ c :: r)) None)
      with (SF false false true (Some (upto (m ++ PLUS :: (chars "0x" ++ c :: r) ++ [GT]) (PLUS :: (chars "0x" ++ c :: r) ++ [GT]))) (Some (chars "0x" ++ c :: r)) None).
    match goal with |- (if ?b then PFrame (SF _ _ _ (Some ?u) _ _) else _) = _ => change b with true; cbv iota; replace u with m end; auto.
    symmetry. apply upto_app.
  - reflexivity.
  - destruct R as (NB&NL). change (chars "!...") with (BANG :: chars "..."). unfold parse_frame. rewrite not_lt_line by auto.
    rewrite strchr_app by auto. cbn [negb tl]. change (starts (chars "...") (chars "...")) with true. cbv iota. rewrite upto_app. try match goal with |- context [strchr ?x GT] => destruct (strchr x GT) end; auto.
Qed.

Lemma parse_ok ty p : readable p -> parse_line ty (text p) = PFrame (enc p).
Proof.
  intros (R&N1&N2). unfold parse_line. rewrite (starts_no _ _ N1), (starts_no _ _ N2). rewrite parse_frame_ok by auto. match goal with |- context [strchr ?x EQS] => destruct (strchr x EQS) end; auto.
Qed.
