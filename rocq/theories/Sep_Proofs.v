(** Proofs about the lists of patterns in the options. *)
From Verif Require Import Base Glob_Model Glob_Spec Glob_Proofs Sep_Model Sep_Spec.
Open Scope Z_scope.

Lemma cstr_ok p rest : no_nul p -> cstr (p ++ 0 :: rest) = Ok p.
Proof. exact (cstr_app ascii_tolower ascii_fold_ok p rest). Qed.

Definition c2n (c : Z) : Z := if c =? COMMA then 0 else c.

Lemma commas_ok s X : ~ In 0 s -> commas (s ++ 0 :: X) = Ok (map c2n s ++ 0 :: X).
Proof.
  induction s as [|c s IH]; intros N; [reflexivity|].
  cbn [commas app map]. destruct (Z.eqb_spec c 0) as [->|K].
  - exfalso; apply N; left; auto.
  - rewrite IH by (intros Q; apply N; right; auto). reflexivity.
Qed.

Lemma c2n_id p : ~ In 44 p -> map c2n p = p.
Proof.
  induction p as [|c p IH]; intros N; [reflexivity|]. cbn [map].
  rewrite IH by (intros Q; apply N; right; auto). f_equal.
  unfold c2n, COMMA. destruct (Z.eqb_spec c 44) as [->|]; auto.
  exfalso; apply N; left; auto.
Qed.

Lemma typed_no_nul ps : (forall p, In p ps -> entry p) -> ~ In 0 (typed ps).
Proof.
  induction ps as [|p ps IH]; intros H; [intros []|].
  destruct (H p) as (_ & P0 & _); [left; auto|].
  cbn [typed]. destruct ps as [|q ps]; [exact P0|].
  rewrite in_app_iff. intros [Q|[Q|Q]]; [auto|discriminate|].
  apply IH in Q; auto. intros r R. apply H. right; auto.
Qed.

Lemma typed_c2n ps X : ps <> [] -> (forall p, In p ps -> entry p) ->
  map c2n (typed ps) ++ 0 :: 0 :: X = encode_list ps ++ X.
Proof.
  induction ps as [|p ps IH]; intros N H; [congruence|].
  destruct (H p) as (_ & _ & P44); [left; auto|].
  rewrite encode_cons. cbn [typed]. destruct ps as [|q ps].
  - rewrite c2n_id by auto. unfold encode_list. cbn. rewrite <- app_assoc. reflexivity.
  - rewrite map_app, c2n_id by auto. cbn [map].
    change (c2n 44) with 0. rewrite <- !app_assoc. cbn [app]. f_equal. f_equal.
    apply IH; [congruence|]. intros r R. apply H. right; auto.
Qed.

Lemma put0_app a x b : put0 (List.length a) (a ++ x :: b) = Ok (a ++ 0 :: b).
Proof. induction a as [|y a IH]; [reflexivity|]. cbn [List.length put0 app]. rewrite IH. reflexivity. Qed.

Lemma store0_app a x b n : n = len a -> store0 n (a ++ x :: b) = Ok (a ++ 0 :: b).
Proof.
  intros ->. unfold store0, len. destruct (Z.ltb_spec (Z.of_nat (List.length a)) 0); [lia|].
  rewrite Nat2Z.id. apply put0_app.
Qed.

Lemma convert_ok ps x y rest : (forall p, In p ps -> entry p) ->
  exists junk, convert_commas_to_nulls (typed ps ++ 0 :: x :: y :: rest) =
    Ok (encode_list ps ++ junk) /\
    junk = match ps with [] => 0 :: y :: rest | _ => y :: rest end.
Proof.
  intros H. pose proof (typed_no_nul ps H) as N0.
  unfold convert_commas_to_nulls. rewrite cstr_ok by auto. cbn [bind].
  unfold len at 1. rewrite app_length. cbn [List.length].
  destruct (Z.leb_spec
    (Z.of_nat (List.length (typed ps) + S (S (S (List.length rest)))) - 1)
    (len (typed ps) + 1)) as [Q|Q]; [unfold len in Q; lia|].
  change (typed ps ++ 0 :: x :: y :: rest) with (typed ps ++ [0] ++ x :: y :: rest).
  rewrite app_assoc, store0_app by (unfold len; rewrite app_length; cbn; lia).
  cbn [bind]. rewrite <- app_assoc. cbn [app]. rewrite commas_ok by auto.
  destruct ps as [|p ps].
  - exists (0 :: y :: rest). split; reflexivity.
  - exists (y :: rest). split; [|reflexivity]. f_equal. apply typed_c2n; auto. congruence.
Qed.

(** A list that nearly fills its buffer loses its last character. *)
Lemma convert_full s a rest : ~ In 0 (s ++ [a]) -> (List.length rest <= 1)%nat ->
  convert_commas_to_nulls ((s ++ [a]) ++ 0 :: rest) = Ok (map c2n s ++ 0 :: 0 :: rest).
Proof.
  intros N Lr. unfold convert_commas_to_nulls. rewrite cstr_ok by auto. cbn [bind].
  unfold len at 1. rewrite !app_length. cbn [List.length].
  destruct (Z.leb_spec
    (Z.of_nat (List.length s + 1 + S (List.length rest)) - 1) (len (s ++ [a]) + 1)) as [Q|Q].
  2:{ unfold len in Q. rewrite app_length in Q. cbn in Q. lia. }
  rewrite <- app_assoc. cbn [app].
  rewrite store0_app by (unfold len; rewrite app_length; cbn; lia).
  cbn [bind]. apply commas_ok. intros Q1. apply N. apply in_or_app; auto.
Qed.

Section Any.
Variable fold : Z -> Z.
Hypothesis F : fold_ok fold.
Variable ic : bool.
Notation G := (glob (eq_case fold ic)).

Lemma any_junk text fuel junk ps : forall n,
  no_nul text -> (forall p, In p ps -> entry p /\ (glob_fuel text p <= fuel)%nat) ->
  (List.length ps < n)%nat ->
  exists b, matches_any_loop fold n fuel text (encode_list ps ++ junk) ic = Ok b /\
    (b = true <-> exists p, In p ps /\ G text p).
Proof.
  induction ps as [|p ps IH]; intros n Nt HP HN.
  - destruct n; [lia|]. exists false. split; auto. split; [discriminate|]. intros (?&[]&_).
  - destruct n; [lia|]. cbn [matches_any_loop].
    destruct (HP p) as ((Pne&Pn&_)&PF); [left; auto|].
    rewrite encode_cons, <- app_assoc. cbn [app].
    destruct p as [|c p]; [congruence|]. cbn [app].
    destruct (Z.eqb_spec c 0) as [->|K]; [exfalso; apply Pn; left; auto|].
    change (c :: p ++ 0 :: encode_list ps ++ junk)
      with ((c :: p) ++ 0 :: (encode_list ps ++ junk)).
    rewrite cstr_ok by auto. cbn [bind].
    destruct (text_matches_pattern_ok fold F ic text (c :: p) fuel Nt Pn PF) as (b&E1&E2).
    rewrite E1. cbn [bind]. destruct b.
    + exists true. split; auto. split; auto. intros _. exists (c :: p).
      split; [left; auto|]. apply E2; auto.
    + destruct (IH n) as (b&F1&F2); auto.
      * intros q Q. apply HP; right; auto.
      * cbn in HN; lia.
      * rewrite skipn_app, skipn_all2 by lia.
        replace (List.length (c :: p) + 1 - List.length (c :: p))%nat with 1%nat by lia.
        cbn [app skipn]. exists b. split; auto. rewrite F2.
        split; intros (q&Q1&Q2).
        -- exists q; split; auto; right; auto.
        -- destruct Q1 as [<-|Q1]; eauto. exfalso. apply E2 in Q2. discriminate.
Qed.

(** The option [buf] holds the patterns [ps]. *)
Definition holds (buf : list Z) (ps : list (list Z)) : Prop :=
  (forall p, In p ps -> entry p) /\ exists junk, buf = encode_list ps ++ junk.

Lemma any_holds text fuel buf ps :
  no_nul text -> holds buf ps -> (forall p, In p ps -> (glob_fuel text p <= fuel)%nat) ->
  exists b, text_matches_any_pattern fold fuel text buf ic = Ok b /\
    (b = true <-> on (eq_case fold ic) ps text).
Proof.
  intros Nt (He & junk & ->) HF. unfold text_matches_any_pattern.
  apply any_junk; auto.
  rewrite app_length. pose proof (encode_len ps). lia.
Qed.

Lemma nonempty_holds buf ps : holds buf ps ->
  nonempty buf = Ok (match ps with [] => false | _ => true end).
Proof.
  intros (He & junk & ->). destruct ps as [|p ps]; [reflexivity|].
  destruct (He p) as (Pne&Pn&_); [left; auto|].
  rewrite encode_cons. destruct p as [|c p]; [congruence|]. cbn.
  destruct (Z.eqb_spec c 0) as [->|K]; [exfalso; apply Pn; left; auto|]. reflexivity.
Qed.

Lemma guarded text fuel buf ps :
  no_nul text -> holds buf ps -> (forall p, In p ps -> (glob_fuel text p <= fuel)%nat) ->
  exists b, andr (nonempty buf) (text_matches_any_pattern fold fuel text buf ic) = Ok b /\
    (b = true <-> on (eq_case fold ic) ps text).
Proof.
  intros Nt Hh HF. unfold andr. rewrite (nonempty_holds _ _ Hh). cbn [bind].
  destruct (any_holds text fuel buf ps Nt Hh HF) as (b & E1 & E2).
  destruct ps as [|p ps]; [|eauto].
  exists false. split; auto. split; [discriminate|]. intros (q & [] & _).
Qed.
End Any.

(** The option [buf] was set to the patterns [ps], in a buffer with room. *)
Definition set_to (ps : list (list Z)) (buf : list Z) : Prop :=
  (forall p, In p ps -> entry p) /\
  exists x y rest, convert_commas_to_nulls (typed ps ++ 0 :: x :: y :: rest) = Ok buf.

Lemma set_holds ps buf : set_to ps buf -> holds buf ps.
Proof.
  intros (He & x & y & rest & E). split; auto.
  destruct (convert_ok ps x y rest He) as (junk & E' & _). exists junk. congruence.
Qed.

(** Patterns after an empty one. *)
Lemma gap_ok ps X x y rest : ps <> [] -> (forall p, In p ps -> entry p) -> ~ In 0 X ->
  exists buf, convert_commas_to_nulls (typed ps ++ 44 :: 44 :: X ++ 0 :: x :: y :: rest) = Ok buf /\
    holds buf ps.
Proof.
  intros Pn He NX. unfold convert_commas_to_nulls.
  change (typed ps ++ 44 :: 44 :: X ++ 0 :: x :: y :: rest)
    with (typed ps ++ [44; 44] ++ X ++ 0 :: x :: y :: rest).
  rewrite (app_assoc [44; 44]), (app_assoc (typed ps)).
  set (s := typed ps ++ [44; 44] ++ X).
  assert (N0 : ~ In 0 s).
  { unfold s. rewrite !in_app_iff. intros [Q|[Q|Q]]; auto.
    - eapply typed_no_nul; eauto.
    - cbn in Q. intuition discriminate. }
  rewrite cstr_ok by auto. cbn [bind].
  unfold len at 1. rewrite app_length. cbn [List.length].
  destruct (Z.leb_spec
    (Z.of_nat (List.length s + S (S (S (List.length rest)))) - 1) (len s + 1)) as [Q|Q];
    [unfold len in Q; lia|].
  change (s ++ 0 :: x :: y :: rest) with (s ++ [0] ++ x :: y :: rest).
  rewrite app_assoc, store0_app by (unfold len; rewrite app_length; cbn; lia).
  cbn [bind]. rewrite <- app_assoc. cbn [app]. rewrite commas_ok by auto.
  eexists. split; [reflexivity|]. split; auto.
  unfold s. rewrite !map_app. cbn [map]. change (c2n 44) with 0.
  rewrite <- !app_assoc. cbn [app]. eexists. apply typed_c2n; auto.
Qed.

Lemma lead_ok X x y rest : ~ In 0 X ->
  exists buf, convert_commas_to_nulls (44 :: X ++ 0 :: x :: y :: rest) = Ok buf /\
    nonempty buf = Ok false.
Proof.
  intros NX. unfold convert_commas_to_nulls.
  set (s := 44 :: X).
  change (44 :: X ++ 0 :: x :: y :: rest) with (s ++ 0 :: x :: y :: rest).
  assert (N0 : ~ In 0 s) by (intros [Q|Q]; [discriminate|auto]).
  rewrite cstr_ok by auto. cbn [bind].
  unfold len at 1. rewrite app_length. cbn [List.length].
  destruct (Z.leb_spec
    (Z.of_nat (List.length s + S (S (S (List.length rest)))) - 1) (len s + 1)) as [Q|Q];
    [unfold len in Q; lia|].
  change (s ++ 0 :: x :: y :: rest) with (s ++ [0] ++ x :: y :: rest).
  rewrite app_assoc, store0_app by (unfold len; rewrite app_length; cbn; lia).
  cbn [bind]. rewrite <- app_assoc. cbn [app]. rewrite commas_ok by auto.
  eexists. split; reflexivity.
Qed.

Lemma gap_any fold ic text ps X x y rest : fold_ok fold -> no_nul text ->
  ps <> [] -> (forall p, In p ps -> entry p) -> ~ In 0 X ->
  exists buf, convert_commas_to_nulls (typed ps ++ 44 :: 44 :: X ++ 0 :: x :: y :: rest) = Ok buf /\
  exists n0, forall fuel, (n0 <= fuel)%nat ->
  exists b, text_matches_any_pattern fold fuel text buf ic = Ok b /\
    (b = true <-> on (eq_case fold ic) ps text).
Proof.
  intros F Nt Pn He NX. destruct (gap_ok ps X x y rest Pn He NX) as (buf & E & H).
  exists buf. split; auto. exists (list_max (map (glob_fuel text) ps)). intros fuel Hf.
  apply any_holds; auto. intros p P. apply list_max_le in Hf. rewrite Forall_forall in Hf.
  apply Hf. apply in_map; auto.
Qed.

Lemma list_any fold ic text ps x y rest : fold_ok fold -> no_nul text ->
  (forall p, In p ps -> entry p) ->
  exists buf, convert_commas_to_nulls (typed ps ++ 0 :: x :: y :: rest) = Ok buf /\
  nonempty buf = Ok (match ps with [] => false | _ => true end) /\
  exists n0, forall fuel, (n0 <= fuel)%nat ->
  exists b, text_matches_any_pattern fold fuel text buf ic = Ok b /\
    (b = true <-> on (eq_case fold ic) ps text).
Proof.
  intros F Nt He. destruct (convert_ok ps x y rest He) as (junk & E & _).
  assert (H : holds (encode_list ps ++ junk) ps) by (split; eauto).
  exists (encode_list ps ++ junk). split; auto. split; [apply (nonempty_holds fold F); auto|].
  exists (list_max (map (glob_fuel text) ps)). intros fuel Hf.
  apply any_holds; auto. intros p P. apply list_max_le in Hf. rewrite Forall_forall in Hf.
  apply Hf. apply in_map; auto.
Qed.
