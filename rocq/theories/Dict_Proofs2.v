(** Proofs about whole files and dictionaries. *)
From Verif Require Import Base Dict_Model Dict_Spec Dict_Proofs.
From Coq Require Import Permutation.
Local Open Scope Z_scope.

Lemma text_cons c t ls last : text ((c, t) :: ls) last = c ++ t ++ text ls last.
Proof. unfold text. cbn [flat_map fst snd]. rewrite <- !app_assoc. reflexivity. Qed.
Lemma text_app l1 l2 last : text (l1 ++ l2) last = text l1 (text l2 last).
Proof. unfold text. rewrite flat_map_app, <- app_assoc. reflexivity. Qed.
Lemma text_rest ls last : text ls last = text ls [] ++ last.
Proof. unfold text. rewrite app_nil_r. reflexivity. Qed.

Lemma slice_mid f a m b : f_bytes f = a ++ m ++ b ->
  slice f (len a) (len a + len m) = m.
Proof.
  intros E. unfold slice. replace (len a + len m - len a) with (len m) by lia.
  unfold len. rewrite !Nat2Z.id, E.
  rewrite skipn_app, skipn_all, Nat.sub_diag. cbn [skipn app].
  rewrite firstn_app, Nat.sub_diag, firstn_all. cbn [firstn]. apply app_nil_r.
Qed.

Lemma lines_count ls last : lines_ok ls -> 2 * Z.of_nat (List.length ls) + len last <= len (text ls last).
Proof.
  induction ls as [|[c t] ls IH]; intros L.
  - unfold text. cbn. lia.
  - inversion L as [|? ? [(C0 & _) (e & _ & T)] L']; subst. cbn [fst snd] in *.
    specialize (IH L'). rewrite text_cons, !len_app. cbn [List.length].
    assert (1 <= len c) by (destruct c; [congruence|rewrite len_cons; pose proof (len_pos c); lia]).
    assert (1 <= len t).
    { destruct T as [-> | ->]; rewrite ?len_cons; pose proof (len_pos e); lia. }
    lia.
Qed.
Lemma text_room f ls last : (last <> [] \/ room f) -> text ls last <> [] \/ room f.
Proof.
  intros [N|R]; auto. left. rewrite text_rest. destruct last; [congruence|].
  destruct (text ls []); discriminate.
Qed.

Lemma lines_loop f last : 0 < f_page f -> tail_ok last -> (last <> [] \/ room f) ->
  forall ls pre acc n, f_bytes f = pre ++ text ls last -> lines_ok ls ->
  (List.length ls + 1 + match last with [] => 0 | _ => 1 end <= n)%nat ->
  loop f (fun l _ sol nl => Ok (l ++ [slice f sol nl], true)) n acc (len pre) =
  Ok (acc ++ filter keep (map (fun x => trim (fst x)) ls ++ [ltrim last]), true).
Proof.
  intros P T R. induction ls as [|[c t] ls IH]; intros pre acc n E L N.
  - unfold text in E. cbn [flat_map app] in E. cbn [map app filter].
    destruct last as [|z last].
    + destruct n as [|n]; [cbn in N; lia|]. rewrite app_nil_r in E.
      replace (len pre) with (eof f) by (unfold eof; rewrite E; auto).
      rewrite loop_done. cbn. rewrite app_nil_r. reflexivity.
    + destruct n as [|[|n]]; [cbn in N; lia..|].
      rewrite loop_last with (c := z :: last); auto; [|discriminate|apply T].
      destruct (keep (ltrim (z :: last))) eqn:K; [|rewrite app_nil_r; auto].
      cbn [bind]. do 4 f_equal. destruct (ltrim_split (z :: last)) as [x [Y _]].
      assert (LY : len (z :: last) = len x + len (ltrim (z :: last))).
      { rewrite Y at 1. apply len_app. }
      replace (len pre + (len (z :: last) - len (ltrim (z :: last)))) with (len (pre ++ x)).
      2:{ rewrite (len_app pre). lia. }
      replace (len pre + len (z :: last)) with (len (pre ++ x) + len (ltrim (z :: last))).
      2:{ rewrite (len_app pre). lia. }
      apply slice_mid with (b := []). rewrite app_nil_r, <- app_assoc, <- Y. exact E.
  - destruct n as [|n]; [cbn in N; lia|]. inversion L as [|? ? [C TT] L']; subst. cbn [fst snd] in *.
    rewrite text_cons in E.
    rewrite loop_line with (c := c) (t := t) (rest := text ls last); auto.
    2:{ apply text_room; auto. }
    2:{ apply text_begins; auto. }
    assert (E' : f_bytes f = (pre ++ c ++ t) ++ text ls last) by (rewrite E, <- !app_assoc; auto).
    cbn [map app filter fst]. destruct (keep (trim c)) eqn:K.
    + cbn [bind]. rewrite (IH (pre ++ c ++ t)); auto; [|cbn in N; lia].
      rewrite <- app_assoc. cbn [app]. do 4 f_equal.
      destruct (ltrim_split (rtrim c)) as [x [Y _]]. destruct (rtrim_split c) as [y [X _]].
      fold (trim c) in Y.
      replace (len pre + (len (rtrim c) - len (trim c))) with (len (pre ++ x)).
      2:{ rewrite Y, !len_app. lia. }
      replace (len pre + len (rtrim c)) with (len (pre ++ x) + len (trim c)).
      2:{ rewrite Y, !len_app. lia. }
      apply slice_mid with (b := y ++ t ++ text ls last).
      rewrite E. rewrite X at 1. rewrite Y at 1. rewrite <- !app_assoc. reflexivity.
    + apply (IH (pre ++ c ++ t)); auto. cbn in N; lia.
Qed.
Lemma lines_run page ls last : 0 < page -> lines_ok ls -> tail_ok last ->
  let f := mkF (text ls last) page in (last <> [] \/ room f) ->
  lines f = Ok (filter keep (map (fun x => trim (fst x)) ls ++ [ltrim last])).
Proof.
  intros P L T f R. unfold lines.
  pose proof (lines_loop f last P T R ls [] [] (S (Z.to_nat (eof f))) eq_refl L) as Q.
  rewrite len_nil in Q. rewrite Q; [reflexivity|].
  pose proof (lines_count ls last L). 
  change (eof f) with (len (text ls last)).
  destruct last as [|z last]; [rewrite len_nil in H; lia|].
  rewrite len_cons in H. pose proof (len_pos last). lia.
Qed.

(** * A dictionary *)
Lemma seek_spec f x : forall pre rest n, f_bytes f = pre ++ x ++ 34 :: rest ->
  Forall (fun b => b <> 34) x -> (List.length x < n)%nat ->
  seek f n (len pre) = Ok (len pre + len x + 1).
Proof.
  induction x as [|b x IH]; intros pre rest n E F L; destruct n as [|n]; try (cbn in L; lia);
    cbn [seek]; cbn [app] in E; rewrite (rd_at _ _ _ _ E); cbn [bind]; unfold QUOTE.
  - rewrite len_nil, Z.add_0_r. reflexivity.
  - inversion F; subst. destruct (Z.eqb_spec b 34); [lia|].
    specialize (IH (pre ++ [b]) rest n). rewrite len_app, len_cons, len_nil in IH.
    replace (len pre + 1) with (len pre + (1 + 0)) by lia.
    rewrite IH; auto.
    + rewrite len_cons. f_equal. lia.
    + rewrite <- app_assoc. exact E.
    + cbn in L. lia.
Qed.
(** past the end only zeroes, then nothing *)
Lemma rd_zero f p : eof f <= p -> rd f p = Ok 0 \/ rd f p = UB.
Proof.
  intros L. unfold rd. assert (0 <= eof f) by apply len_pos.
  destruct (Z.ltb_spec p 0); [lia|]. destruct (Z.ltb_spec p (eof f)); [lia|].
  destruct (p <? mapped f); auto.
Qed.
Lemma seek_end f n : forall p, eof f <= p -> (Z.to_nat (mapped f - p) < n)%nat -> seek f n p = UB.
Proof.
  induction n as [|n IH]; intros p L N; [lia|]. cbn [seek]. unfold rd.
  assert (0 <= eof f) by apply len_pos.
  destruct (Z.ltb_spec p 0); [lia|]. destruct (Z.ltb_spec p (eof f)); [lia|].
  destruct (Z.ltb_spec p (mapped f)); [|reflexivity]. cbn [bind]. unfold QUOTE. cbn [Z.eqb].
  apply IH; lia.
Qed.
Lemma seek_ub f x : 0 < f_page f -> forall pre n, f_bytes f = pre ++ x ->
  Forall (fun b => b <> 34) x -> (Z.to_nat (mapped f - len pre) < n)%nat ->
  seek f n (len pre) = UB.
Proof.
  intros P. induction x as [|b x IH]; intros pre n E F L.
  - rewrite app_nil_r in E. apply seek_end; auto. unfold eof. rewrite E. lia.
  - destruct n as [|n]; [lia|]. cbn [seek]. rewrite (rd_at _ _ _ _ E); cbn [bind]. unfold QUOTE.
    inversion F; subst. destruct (Z.eqb_spec b 34); [lia|].
    specialize (IH (pre ++ [b]) n). rewrite len_app, len_cons, len_nil in IH.
    replace (len pre + 1) with (len pre + (1 + 0)) by lia.
    assert (len pre < mapped f).
    { pose proof (mapped_ge f P). unfold eof in H. rewrite E, len_app, len_cons in H.
      pose proof (len_pos x). lia. }
    apply IH; auto.
    + rewrite <- app_assoc. exact E.
    + pose proof (len_pos pre). lia.
Qed.

Lemma hexval_ok d x : hexval d = Some x -> d <> 10 /\ d <> 0 /\ 0 <= x < 16.
Proof.
  unfold hexval. intros H.
  destruct ((48 <=? d) && (d <=? 57)) eqn:A; [|destruct ((97 <=? d) && (d <=? 102)) eqn:B;
    [|destruct ((65 <=? d) && (d <=? 70)) eqn:C; [|discriminate]]];
  injection H as <-; lia.
Qed.

Section Run.
Variable scan : list Z -> option Z.
Hypothesis SC : scan_ok scan.
Variable f : file.
Hypothesis P : 0 < f_page f.

(** the pieces of a token, and what is left of the loop after them *)
Lemma chars_pieces ps : forall pre rest n cap nl tok,
  f_bytes f = pre ++ enc ps ++ rest -> Forall piece_ok ps ->
  len pre + len (enc ps) <= nl - 1 -> len tok + len (val ps) <= cap ->
  chars scan f (List.length ps + n) cap (len pre) nl tok =
  chars scan f n cap (len (pre ++ enc ps)) nl (tok ++ val ps).
Proof.
  induction ps as [|p ps IH]; intros pre rest n cap nl tok E F NL CAP.
  - cbn. rewrite !app_nil_r. reflexivity.
  - inversion F as [|? ? OK F']; subst. cbn [List.length plus chars].
    cbn [enc flat_map] in E, NL. fold (enc ps) in E, NL. rewrite len_app in NL.
    cbn [val map] in CAP. fold (val ps) in CAP. rewrite len_cons in CAP.
    pose proof (len_pos (val ps)). pose proof (len_pos (enc ps)). pose proof (len_pos tok).
    assert (E' : f_bytes f = (pre ++ enc1 p) ++ enc ps ++ rest).
    { rewrite E, <- !app_assoc. reflexivity. }
    assert (L1 : 1 <= len (enc1 p)) by (destruct p; cbn; lia).
    destruct (Z.ltb_spec (len pre) (nl - 1)); [|lia].
    destruct (Z.leb_spec cap (len tok)); [lia|].
    specialize (IH (pre ++ enc1 p) rest n cap nl (tok ++ [val1 p]) E' F').
    assert (Q1 : len (pre ++ enc1 p) + len (enc ps) <= nl - 1) by (rewrite len_app; lia).
    assert (Q2 : len (tok ++ [val1 p]) + len (val ps) <= cap)
      by (rewrite len_app, len_cons, len_nil; lia).
    specialize (IH Q1 Q2).
    rewrite (len_app pre (enc1 p)) in IH.
    replace (len ((pre ++ enc1 p) ++ enc ps)) with (len (pre ++ enc (p :: ps))) in IH
      by (cbn [enc flat_map]; rewrite <- app_assoc; reflexivity).
    rewrite <- app_assoc in IH. cbn [app] in IH. change (val1 p :: val ps) with (val (p :: ps)) in IH.
    destruct p as [b|b|d1 d2]; cbn [enc1 app] in *.
    + rewrite (rd_at _ _ _ _ E). cbn [bind]. destruct OK as [_ OK]. unfold BSL.
      destruct (Z.eqb_spec b 92); [lia|]. exact IH.
    + rewrite (rd_at _ _ _ _ E). cbn [bind]. unfold BSL at 1. rewrite Z.eqb_refl.
      replace (len pre + 1) with (len (pre ++ [92])) by (rewrite len_app; reflexivity).
      rewrite (rd_at f (pre ++ [92]) b (enc ps ++ rest)); [|rewrite E, <- app_assoc; reflexivity].
      cbn [bind]. unfold CHX, QUOTE, BSL. destruct OK as [-> | ->]; exact IH.
    + rewrite (rd_at _ _ _ _ E). cbn [bind]. unfold BSL at 1. rewrite Z.eqb_refl.
      replace (len pre + 1) with (len (pre ++ [92])) by (rewrite len_app; reflexivity).
      rewrite (rd_at f (pre ++ [92]) 120 (d1 :: d2 :: enc ps ++ rest));
        [|rewrite E, <- app_assoc; reflexivity].
      cbn [bind]. unfold CHX. rewrite Z.eqb_refl.
      assert (SK : skipn (Z.to_nat (len pre + 2)) (f_bytes f) = d1 :: d2 :: enc ps ++ rest).
      { rewrite E. replace (Z.to_nat (len pre + 2)) with (List.length (pre ++ [92; 120])).
        - change (pre ++ 92 :: 120 :: d1 :: d2 :: enc ps ++ rest)
            with (pre ++ [92; 120] ++ (d1 :: d2 :: enc ps ++ rest)).
          rewrite app_assoc, skipn_app, skipn_all, Nat.sub_diag. reflexivity.
        - rewrite app_length. unfold len. cbn [List.length]. lia. }
      rewrite SK. destruct OK as [O1 O2].
      destruct (hexval d1) as [x|] eqn:HX; [|congruence].
      destruct (hexval d2) as [y|] eqn:HY; [|congruence].
      rewrite (SC d1 d2 x y _ HX HY).
      destruct (hexval_ok _ _ HX) as (_ & _ & B1). destruct (hexval_ok _ _ HY) as (_ & _ & B2).
      rewrite Z.mod_small by lia.
      cbn [val1] in IH. rewrite HX, HY in IH. exact IH.
Qed.
Lemma val_enc ps : len (val ps) <= len (enc ps).
Proof.
  induction ps as [|p ps IH]; [cbn; lia|]. cbn [val map enc flat_map].
  fold (val ps). fold (enc ps). rewrite len_app, len_cons. destruct p; cbn [enc1]; ll.
Qed.
Lemma pieces_enc ps : (List.length ps <= List.length (enc ps))%nat.
Proof. pose proof (val_enc ps). unfold len, val in H. rewrite map_length in H. lia. Qed.

Definition push (d : dict) (l : list (list Z)) : dict :=
  mkD (d_vec d ++ combine (seq (d_n d) (List.length l)) l)
      (match l with [] => d_cur d | _ => Some (d_n d + List.length l - 1)%nat end)
      (d_n d + List.length l).

Lemma no_quote lead name : Forall ws lead -> name_ok name ->
  Forall (fun b => b <> 34) (lead ++ name).
Proof.
  intros W [N _]. apply Forall_app. split.
  - eapply Forall_impl; [|exact W]. intros b [-> | ->]; lia.
  - eapply Forall_impl; [|exact N]. intros b [_ Q]. exact Q.
Qed.

(** a token *)
Lemma parse_tok d pre lead name ps rest sol :
  f_bytes f = pre ++ lead ++ name ++ 34 :: enc ps ++ 34 :: rest ->
  Forall ws lead -> name_ok name -> Forall piece_ok ps -> len (enc ps) < 65535 ->
  parse_line scan f d (len pre) sol (len (pre ++ lead ++ name ++ 34 :: enc ps ++ [34])) =
  Ok (push d [val ps], true).
Proof.
  intros E W N OK B. unfold parse_line.
  set (nl := len (pre ++ lead ++ name ++ 34 :: enc ps ++ [34])).
  assert (EL : eof f = len pre + len lead + len name + len (enc ps) + 2 + len rest).
  { unfold eof. rewrite E. rewrite !len_app, len_cons, !len_app, len_cons. lia. }
  assert (NL : nl = len pre + len lead + len name + len (enc ps) + 2).
  { unfold nl. rewrite !len_app, len_cons, !len_app, len_cons, len_nil. lia. }
  pose proof (len_pos pre). pose proof (len_pos lead). pose proof (len_pos name).
  pose proof (len_pos (enc ps)). pose proof (len_pos rest).
  rewrite (seek_spec f (lead ++ name) pre (enc ps ++ 34 :: rest)).
  2:{ rewrite E, <- !app_assoc. reflexivity. }
  2:{ apply no_quote; auto. }
  2:{ apply fuel_enough; auto. rewrite len_app. lia. }
  cbn [bind]. rewrite len_app.
  set (c := len pre + (len lead + len name) + 1).
  set (pre2 := pre ++ lead ++ name ++ [34]).
  assert (CP : c = len pre2) by (unfold c, pre2; rewrite !len_app; cbn; lia).
  assert (E2 : f_bytes f = pre2 ++ enc ps ++ 34 :: rest).
  { unfold pre2. rewrite E, <- !app_assoc. reflexivity. }
  replace (nl - 1) with (len (pre2 ++ enc ps)) by (rewrite len_app, <- CP; unfold c; lia).
  rewrite (rd_at f (pre2 ++ enc ps) 34 rest); [|rewrite E2, <- app_assoc; reflexivity].
  cbn [bind]. unfold QUOTE. rewrite Z.eqb_refl. cbn [negb].
  assert (NC : nl - c = len (enc ps) + 1) by (unfold c; lia). rewrite NC.
  destruct (Z.leb_spec 0 (len (enc ps) + 1)); [|lia].
  destruct (Z.leb_spec (len (enc ps) + 1) 65535); [|lia]. cbn [andb negb].
  replace (len (enc ps) + 1 - 1) with (len (enc ps)) by lia.
  destruct (Z.ltb_spec (len (enc ps)) 0); [lia|].
  pose proof (val_enc ps) as VE. pose proof (pieces_enc ps) as PE.
  pose proof (fuel_enough f (enc ps) P ltac:(lia)) as FE.
  replace (fuel_of f) with (List.length ps + S (fuel_of f - List.length ps - 1))%nat by lia.
  rewrite CP. rewrite (chars_pieces ps pre2 (34 :: rest) _ _ _ [] E2 OK);
    [|rewrite <- CP; unfold c; lia|rewrite len_nil; lia].
  cbn [chars].
  destruct (Z.ltb_spec (len (pre2 ++ enc ps)) (nl - 1)) as [Q|_].
  { rewrite len_app, <- CP in Q. unfold c in Q. lia. }
  cbn [bind app]. unfold push. cbn [List.length combine seq]. do 3 f_equal; [f_equal; lia|lia].
Qed.

(** contents *)
Lemma ws_is b : ws b -> is_ws b = true.
Proof. intros [-> | ->]; reflexivity. Qed.
Lemma not_ws_is b : ~ ws b -> is_ws b = false.
Proof. unfold ws, is_ws. intros N. destruct (Z.eqb_spec b 32); [lia|]. destruct (Z.eqb_spec b 9); [lia|auto]. Qed.
Lemma rtrim_app_ws a : Forall ws a -> forall c, rtrim (c ++ a) = rtrim c.
Proof.
  induction a as [|b a IH] using rev_ind; intros F c; [rewrite app_nil_r; auto|].
  apply Forall_app in F. destruct F as [F1 F2]. inversion F2; subst.
  rewrite app_assoc, rtrim_snoc_ws by (apply ws_is; auto). auto.
Qed.
Lemma ltrim_app_ws a c : Forall ws a -> ltrim (a ++ c) = ltrim c.
Proof. induction 1 as [|b a W F IH]; cbn; auto. rewrite ws_is by auto. exact IH. Qed.

(** a line with white space around it *)
Lemma trim_line lead m z trail : Forall ws lead -> Forall ws trail ->
  (forall b r, m ++ [z] = b :: r -> ~ ws b) -> ~ ws z ->
  rtrim (lead ++ m ++ z :: trail) = lead ++ m ++ [z] /\
  trim (lead ++ m ++ z :: trail) = m ++ [z].
Proof.
  intros W1 W2 H Z1.
  assert (R : rtrim (lead ++ m ++ z :: trail) = lead ++ m ++ [z]).
  { change (z :: trail) with ([z] ++ trail). rewrite !app_assoc, rtrim_app_ws by auto.
    rewrite rtrim_snoc_no by (apply not_ws_is; auto). reflexivity. }
  split; auto. unfold trim. rewrite R, ltrim_app_ws by auto.
  destruct (m ++ [z]) as [|b r] eqn:Q; [reflexivity|]. cbn. rewrite not_ws_is by eauto. reflexivity.
Qed.
Lemma content_line lead m z trail : Forall ws lead -> Forall ws trail ->
  Forall char_ok (m ++ [z]) -> (forall b r, m ++ [z] = b :: r -> b <> 13) -> z <> 13 ->
  content (lead ++ m ++ z :: trail).
Proof.
  intros W1 W2 C H Z1.
  assert (WC : forall a, Forall ws a -> Forall char_ok a).
  { intros a F. eapply Forall_impl; [|exact F]. intros b [-> | ->]; unfold char_ok; lia. }
  split; [|split; [|split]].
  - destruct lead; [destruct m; discriminate|discriminate].
  - apply Forall_app in C. destruct C as [C1 C2]. inversion C2; subst.
    apply Forall_app; split; auto. apply Forall_app; split; auto.
  - intros b r E. destruct lead as [|x lead].
    + cbn [app] in E. destruct m as [|y m].
      * cbn [app] in *. injection E as <- _. exact Z1.
      * cbn [app] in *. injection E as <- _. exact (H y (m ++ [z]) eq_refl).
    + cbn [app] in E. injection E as <- _. inversion W1 as [|? ? W]; subst. destruct W as [-> | ->]; lia.
  - intros b r E. rewrite !rev_app_distr in E. cbn [rev] in E.
    rewrite <- !app_assoc in E. destruct (rev trail) as [|x l] eqn:RT.
    + cbn [app] in E. injection E as <- _. exact Z1.
    + cbn [app] in E. injection E as <- _.
      assert (W : ws x).
      { assert (F : Forall ws (rev trail)) by (apply Forall_rev; auto). rewrite RT in F.
        inversion F; auto. }
      destruct W as [-> | ->]; lia.
Qed.
Lemma enc_chars ps : Forall piece_ok ps -> Forall char_ok (enc ps).
Proof.
  intros F. unfold enc. induction F as [|p ps OK F IH]; cbn; auto.
  apply Forall_app. split; auto. destruct p as [b|b|d1 d2]; cbn [enc1 piece_ok] in *.
  - constructor; [tauto|constructor].
  - repeat constructor; unfold char_ok; destruct OK; lia.
  - destruct OK as [O1 O2]. destruct (hexval d1) eqn:H1; [|congruence].
    destruct (hexval d2) eqn:H2; [|congruence].
    destruct (hexval_ok _ _ H1) as (? & ? & _). destruct (hexval_ok _ _ H2) as (? & ? & _).
    repeat constructor; unfold char_ok; lia.
Qed.
(** the middle of a token's line, with anything as the characters *)
Lemma tok_line lead name cs trail : Forall ws lead -> name_ok name -> Forall char_ok cs ->
  Forall ws trail ->
  let c := lead ++ name ++ 34 :: cs ++ 34 :: trail in
  content c /\ rtrim c = lead ++ name ++ 34 :: cs ++ [34] /\ trim c = name ++ 34 :: cs ++ [34] /\
  keep (trim c) = true.
Proof.
  intros W N C W2 c.
  assert (E : c = lead ++ (name ++ 34 :: cs) ++ 34 :: trail).
  { unfold c. rewrite <- !app_assoc. reflexivity. }
  assert (H : forall b r, (name ++ 34 :: cs) ++ [34] = b :: r -> ~ ws b /\ b <> 35 /\ b <> 13).
  { intros b r Q. destruct name as [|x name]; cbn [app] in Q; injection Q as <- _.
    - unfold ws. lia.
    - destruct N as [_ N]. exact (N _ _ eq_refl). }
  assert (CO : content c).
  { rewrite E. apply content_line; auto; [|intros b r Q; apply (H b r Q)|lia].
    apply Forall_app. split; [|repeat constructor; unfold char_ok; lia].
    apply Forall_app. split; [|constructor; auto; unfold char_ok; lia].
    destruct N as [N _]. eapply Forall_impl; [|exact N]. cbn. tauto. }
  destruct (trim_line lead (name ++ 34 :: cs) 34 trail) as [R T]; auto.
  { intros b r Q. apply (H b r Q). }
  { unfold ws. lia. }
  rewrite <- E in R, T. rewrite <- !app_assoc in R, T. cbn [app] in R, T.
  split; [auto|]. split; [auto|]. split; [auto|].
  rewrite T. rewrite <- app_assoc in H. cbn [app] in H.
  destruct (name ++ 34 :: cs ++ [34]) as [|b r] eqn:Q; [destruct name; discriminate|].
  destruct (H b r eq_refl) as (_ & K & _). cbn. destruct (Z.eqb_spec b 35); [lia|auto].
Qed.

Lemma entry_line e : entry_ok e -> content (fst (line_of e)) /\ term (snd (line_of e)).
Proof.
  destruct e as [c t|lead name ps trail t]; cbn [entry_ok line_of fst snd].
  - tauto.
  - intros (W & N & F & W2 & T & _). split; auto.
    apply (tok_line lead name (enc ps) trail); auto. apply enc_chars; auto.
Qed.

Lemma push_push d l1 l2 : push (push d l1) l2 = push d (l1 ++ l2).
Proof.
  unfold push. cbn [d_vec d_n d_cur]. rewrite app_length. f_equal.
  - rewrite <- app_assoc. f_equal.
    generalize (d_n d) as k. induction l1 as [|x l1 IH]; intros k.
    + cbn. rewrite Nat.add_0_r. reflexivity.
    + cbn. f_equal. rewrite <- (IH (S k)). f_equal. f_equal. f_equal. lia.
  - destruct l1, l2; cbn [app List.length]; rewrite ?app_nil_r; auto; f_equal; cbn [List.length]; lia.
  - lia.
Qed.
Lemma push_nil d : push d [] = d.
Proof. unfold push. destruct d. cbn. rewrite app_nil_r, Nat.add_0_r. reflexivity. Qed.

Lemma lines_of_ok es : Forall entry_ok es -> lines_ok (map line_of es).
Proof.
  intros F. unfold lines_ok. apply Forall_map. eapply Forall_impl; [|exact F]. apply entry_line.
Qed.

(** all entries, whatever comes after them *)
Lemma dict_loop rest : (rest <> [] \/ room f) ->
  (forall b r, rest = b :: r -> b <> 10 /\ b <> 13) ->
  forall es pre d n, f_bytes f = pre ++ text (map line_of es) rest -> Forall entry_ok es ->
  loop f (parse_line scan f) (List.length es + n) d (len pre) =
  loop f (parse_line scan f) n (push d (tokens es)) (len (pre ++ text (map line_of es) [])).
Proof.
  intros R G. induction es as [|e es IH]; intros pre d n E F.
  - cbn [List.length plus map tokens flat_map]. unfold text. cbn. rewrite app_nil_r, push_nil. reflexivity.
  - inversion F as [|? ? OK F']; subst. cbn [map] in E. cbn [map].
    destruct (line_of e) as [c t] eqn:LE.
    pose proof (entry_line e OK) as [CO TE]. rewrite LE in CO, TE. cbn [fst snd] in *.
    rewrite text_cons in *.
    assert (B : forall b r, text (map line_of es) rest = b :: r -> b <> 10 /\ b <> 13).
    { intros b r Q. destruct es as [|e2 es].
      - unfold text in Q. cbn in Q. eauto.
      - inversion F' as [|? ? OK2 _]; subst. pose proof (entry_line e2 OK2) as [(C0 & C1 & C2 & _) _].
        cbn [map] in Q. destruct (line_of e2) as [c2 t2]. rewrite text_cons in Q. cbn [fst] in *.
        destruct c2 as [|x c2]; [congruence|]. cbn [app] in Q. injection Q as <- _.
        split; [inversion C1 as [|? ? [? ?]]; auto|eapply C2; eauto]. }
    cbn [List.length plus].
    rewrite loop_line with (c := c) (t := t) (rest := text (map line_of es) rest); auto.
    2:{ apply text_room; auto. }
    assert (E' : f_bytes f = (pre ++ c ++ t) ++ text (map line_of es) rest)
      by (rewrite E, <- !app_assoc; auto).
    replace (pre ++ c ++ t ++ text (map line_of es) [])
      with ((pre ++ c ++ t) ++ text (map line_of es) []) by (rewrite <- !app_assoc; auto).
    destruct e as [c' t'|lead name ps trail t']; cbn [line_of] in LE; injection LE as E1 E2;
      subst c t'; cbn [entry_ok] in OK.
    + destruct OK as (_ & _ & K). rewrite K. rewrite IH by auto. reflexivity.
    + destruct OK as (W & N & FP & W2 & _ & LB).
      destruct (tok_line lead name (enc ps) trail W N (enc_chars ps FP) W2) as (_ & RT & TR & K).
      rewrite K, RT.
      replace (len pre + len (lead ++ name ++ 34 :: enc ps ++ [34]))
        with (len (pre ++ lead ++ name ++ 34 :: enc ps ++ [34])) by (rewrite (len_app pre); reflexivity).
      rewrite (parse_tok d pre lead name ps (trail ++ t ++ text (map line_of es) rest)); auto.
      2:{ rewrite E. rewrite <- !app_assoc. cbn [app]. rewrite <- !app_assoc. reflexivity. }
      cbn [bind]. rewrite IH by auto. rewrite push_push. reflexivity.
Qed.
End Run.
