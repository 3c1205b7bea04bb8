(** Proofs about whole dictionaries, good and bad, and about bad files. *)
From Verif Require Import Base Dict_Model Dict_Spec Dict_Proofs Dict_Proofs2.
From Coq Require Import Permutation.
Local Open Scope Z_scope.

(** * Bad files *)
Lemma skip_ends_total f n : forall s, 0 <= s -> (Z.to_nat (mapped f - s) < n)%nat ->
  0 < f_page f -> (exists p, skip_ends f n s = Ok p) \/ skip_ends f n s = UB.
Proof.
  induction n as [|n IH]; intros s S0 N P; [lia|]. cbn [skip_ends].
  pose proof (mapped_ge f P). unfold rd. destruct (Z.ltb_spec s 0); [lia|].
  destruct (Z.ltb_spec s (eof f)).
  - cbn [bind]. destruct ((_ =? CR) || _); [apply IH; lia|eauto].
  - destruct (Z.ltb_spec s (mapped f)); cbn [bind]; auto.
    destruct ((0 =? CR) || _); [apply IH; lia|eauto].
Qed.
Lemma blank_first r page : 0 < page -> lines (mkF (10 :: r) page) = UB.
Proof.
  intros P. set (f := mkF (10 :: r) page). unfold lines.
  assert (EO : eof f = 1 + len r) by (unfold eof, f; cbn [f_bytes]; apply len_cons).
  pose proof (len_pos r). cbn [loop].
  destruct (Z.ltb_spec 0 (eof f)); [|lia].
  assert (Q : find_next_line f 0 = UB).
  { unfold find_next_line. replace (Z.to_nat (eof f - 0)) with (S (Z.to_nat (len r))) by lia.
    cbn [strnchr]. change 0 with (len []). rewrite (rd_at f [] 10 r) by reflexivity.
    cbn [bind]. change (10 =? LF) with true. cbv iota. cbn [bind].
    destruct (skip_ends_total f (fuel_of f) (len [])) as [[p ->] | ->]; auto.
    - rewrite len_nil. lia.
    - rewrite len_nil. unfold fuel_of. lia. }
  rewrite Q. reflexivity.
Qed.
Lemma page_loop f : 0 < f_page f -> eof f mod f_page f = 0 ->
  forall ls pre acc n, ls <> [] -> f_bytes f = pre ++ text ls [] -> lines_ok ls ->
  (List.length ls <= n)%nat ->
  loop f (fun l _ sol nl => Ok (l ++ [slice f sol nl], true)) n acc (len pre) = UB.
Proof.
  intros P M. induction ls as [|[c t] ls IH]; intros pre acc n N E L LN; [congruence|].
  destruct n as [|n]; [cbn in LN; lia|]. inversion L as [|? ? [C T] L']; subst.
  cbn [fst snd] in *. rewrite text_cons in E. destruct ls as [|x ls].
  - unfold text in E. cbn [flat_map app] in E. rewrite app_nil_r in E. cbn [loop].
    destruct C as (C0 & C1 & _). pose proof (len_pos c) as P2. pose proof (len_pos t) as P3.
    assert (EO : eof f = len pre + len c + len t) by (unfold eof; rewrite E, !len_app; lia).
    assert (1 <= len c) by (destruct c as [|z c]; [congruence|rewrite len_cons; pose proof (len_pos c); lia]).
    destruct (Z.ltb_spec (len pre) (eof f)); [|lia].
    assert (Q : find_next_line f (len pre) = UB).
    { unfold find_next_line. destruct T as (e & T1 & T2).
      assert (Q : exists cr, (cr = [] \/ cr = [13]) /\ t = cr ++ 10 :: e).
      { destruct T2 as [-> | ->]; [exists []|exists [13]]; auto. }
      destruct Q as (cr & CR0 & ->).
      assert (CRF : Forall char_ok (c ++ cr)).
      { apply Forall_app. split; auto.
        destruct CR0 as [-> | ->]; repeat constructor; unfold char_ok; lia. }
      assert (E1 : f_bytes f = pre ++ (c ++ cr) ++ 10 :: e) by (rewrite E, <- !app_assoc; auto).
      rewrite len_app, len_cons in *. pose proof (len_pos pre) as P4. pose proof (len_pos cr) as P5.
      pose proof (len_pos e) as P6.
      rewrite (strnchr_some f (c ++ cr) pre e _ E1 CRF).
      2:{ rewrite EO. unfold len in *. rewrite app_length. lia. }
      cbn [bind]. rewrite len_app.
      replace (len pre + (len c + len cr)) with (len (pre ++ c ++ cr)) by (rewrite !len_app; lia).
      rewrite (skip_ends_ub f (10 :: e) (pre ++ c ++ cr)); auto.
      - rewrite E1, <- !app_assoc. reflexivity.
      - apply fuel_enough; auto. rewrite len_cons. lia. }
    rewrite Q. reflexivity.
  - assert (B : forall b r, text (x :: ls) [] = b :: r -> b <> 10 /\ b <> 13).
    { apply text_begins; auto. split; [constructor|]. intros b r Q. discriminate. }
    rewrite loop_line with (c := c) (t := t) (rest := text (x :: ls) []); auto.
    2:{ left. destruct x as [c2 t2]. rewrite text_cons.
        inversion L' as [|? ? [(C0 & _) _] _]; subst. cbn [fst] in C0.
        destruct c2; [congruence|discriminate]. }
    assert (E' : f_bytes f = (pre ++ c ++ t) ++ text (x :: ls) []) by (rewrite E, <- !app_assoc; auto).
    destruct (keep (trim c)); cbn [bind].
    + apply IH; auto; [discriminate|cbn in *; lia].
    + apply IH; auto; [discriminate|cbn in *; lia].
Qed.
Lemma page_end page ls : 0 < page -> ls <> [] -> lines_ok ls ->
  let f := mkF (text ls []) page in eof f mod page = 0 -> lines f = UB.
Proof.
  intros P N L f M. unfold lines.
  pose proof (page_loop f P M ls [] [] (S (Z.to_nat (eof f))) N eq_refl L) as Q.
  rewrite len_nil in Q. rewrite Q; [reflexivity|].
  pose proof (lines_count ls [] L). rewrite len_nil in H.
  change (eof f) with (len (text ls [])). lia.
Qed.

(** * Dictionaries *)
Section Whole.
Variable scan : list Z -> option Z.
Hypothesis SC : scan_ok scan.

Definition d0 : dict := mkD [] None 0.
Lemma dict_pre f es rest : 0 < f_page f -> (rest <> [] \/ room f) ->
  (forall b r, rest = b :: r -> b <> 10 /\ b <> 13) ->
  f_bytes f = text (map line_of es) rest -> Forall entry_ok es ->
  exists n, (rest <> [] -> (1 <= n)%nat) /\
  loop f (parse_line scan f) (S (Z.to_nat (eof f))) d0 0 =
  loop f (parse_line scan f) (S n) (push d0 (tokens es)) (len (text (map line_of es) [])).
Proof.
  intros P R G E F.
  pose proof (lines_count _ rest (lines_of_ok es F)) as LC. rewrite map_length in LC.
  assert (EO : eof f = len (text (map line_of es) rest)) by (unfold eof; rewrite E; auto).
  exists (Z.to_nat (eof f) - List.length es)%nat. split.
  - intros N. destruct rest as [|b r]; [congruence|]. rewrite len_cons in LC.
    pose proof (len_pos r). lia.
  - pose proof (dict_loop scan SC f P rest R G es [] d0
      (S (Z.to_nat (eof f) - List.length es)) E F) as Q.
    rewrite len_nil in Q. cbn [app] in Q. rewrite <- Q. f_equal. pose proof (len_pos rest). lia.
Qed.
Lemma push_d0 l : push d0 l =
  mkD (numbered l) (match l with [] => None | _ => Some (List.length l - 1)%nat end) (List.length l).
Proof. reflexivity. Qed.

Lemma dict_good page es : 0 < page -> Forall entry_ok es ->
  let f := mkF (text (map line_of es) []) page in room f ->
  parse_dict scan f = Ok (true, numbered (tokens es), List.length (tokens es), []).
Proof.
  intros P F f R. unfold parse_dict.
  destruct (dict_pre f es [] P (or_intror R)) as (n & _ & Q); auto; [intros; discriminate|].
  change (mkD [] None 0) with d0. rewrite Q.
  change (len (text (map line_of es) [])) with (eof f).
  rewrite loop_done. reflexivity.
Qed.

(** the last line may do without its end *)
Lemma dict_last page es lead name ps : 0 < page -> Forall entry_ok es ->
  Forall ws lead -> name_ok name -> Forall piece_ok ps -> len (enc ps) < 65535 ->
  parse_dict scan (mkF (text (map line_of es) (lead ++ name ++ 34 :: enc ps ++ [34])) page) =
  Ok (true, numbered (tokens es ++ [val ps]), S (List.length (tokens es)), []).
Proof.
  intros P F W N FP LB. set (last := lead ++ name ++ 34 :: enc ps ++ [34]).
  set (f := mkF (text (map line_of es) last) page). unfold parse_dict.
  destruct (tok_line lead name (enc ps) [] W N (enc_chars ps FP) (Forall_nil _)) as (C & RT & TR & K).
  assert (NN : last <> []) by (unfold last; destruct lead; [destruct name; discriminate|discriminate]).
  destruct C as (C0 & C1 & C2 & C3).
  destruct (dict_pre f es last P (or_introl NN)) as (n & N1 & Q); auto.
  { intros b r Q. split; [|exact (C2 b r Q)].
    fold last in C1. rewrite Q in C1. inversion C1 as [|? ? [? ?]]; auto. }
  change (mkD [] None 0) with d0. rewrite Q.
  destruct n as [|n]; [specialize (N1 NN); lia|].
  assert (E : f_bytes f = text (map line_of es) [] ++ last) by (cbn; apply text_rest).
  rewrite loop_last with (c := last); auto.
  assert (KL : keep (ltrim last) = true).
  { unfold trim in K. rewrite RT in K. exact K. }
  rewrite KL. unfold last at 2. rewrite <- (len_app (text (map line_of es) []) last). unfold last.
  rewrite (parse_tok scan SC f P _ _ lead name ps []); auto.
  cbn [bind]. rewrite push_push, push_d0. cbn [d_vec d_n]. rewrite app_length. cbn [List.length].
  rewrite Nat.add_1_r. reflexivity.
Qed.

(** a line that the parser gets to *)
Lemma dict_line page es c t rest : 0 < page -> Forall entry_ok es -> content c -> term t ->
  let f := mkF (text (map line_of es) (c ++ t ++ rest)) page in
  (rest <> [] \/ room f) -> (forall b r, rest = b :: r -> b <> 10 /\ b <> 13) ->
  keep (trim c) = true ->
  let pre := text (map line_of es) [] in
  exists n,
  loop f (parse_line scan f) (S (Z.to_nat (eof f))) d0 0 =
  let* (a1, ok) := parse_line scan f (push d0 (tokens es)) (len pre)
                     (len pre + (len (rtrim c) - len (trim c))) (len pre + len (rtrim c)) in
  if ok : bool then loop f (parse_line scan f) n a1 (len (pre ++ c ++ t)) else Ok (a1, false).
Proof.
  intros P F C T f R G K pre.
  assert (NN : c ++ t ++ rest <> []) by (destruct C as (C0 & _); destruct c; [congruence|discriminate]).
  destruct (dict_pre f es (c ++ t ++ rest) P (or_introl NN)) as (n & _ & Q); auto.
  { intros b r Q. destruct C as (C0 & C1 & C2 & _). destruct c as [|z c]; [congruence|].
    cbn [app] in Q. injection Q as <- _. split; [inversion C1 as [|? ? [? ?]]; auto|eapply C2; eauto]. }
  exists n. rewrite Q. rewrite loop_line with (c := c) (t := t) (rest := rest); auto.
  - rewrite K. reflexivity.
  - cbn. apply text_rest.
Qed.

Lemma dict_unterminated page es c t rest x y : 0 < page -> Forall entry_ok es -> content c ->
  term t -> let f := mkF (text (map line_of es) (c ++ t ++ rest)) page in
  (rest <> [] \/ room f) -> (forall b r, rest = b :: r -> b <> 10 /\ b <> 13) ->
  keep (trim c) = true -> (forall m, trim c <> m ++ [34]) ->
  c ++ t ++ rest = x ++ 34 :: y -> Forall (fun b => b <> 34) x ->
  let k := List.length (tokens es) in
  parse_dict scan f = Ok (false, numbered (tokens es), k, match k with O => [] | S j => [j] end).
Proof.
  intros P F C T f R G K NE Q NX k. unfold parse_dict. change (mkD [] None 0) with d0.
  destruct (dict_line page es c t rest P F C T R G K) as (n & LQ). fold f in LQ. rewrite LQ. clear LQ.
  set (pre := text (map line_of es) []).
  assert (E : f_bytes f = pre ++ c ++ t ++ rest) by (cbn; apply text_rest).
  unfold parse_line. rewrite (seek_spec f x pre y); auto.
  2:{ rewrite E, Q. reflexivity. }
  2:{ apply fuel_enough; auto. unfold eof. rewrite E, Q, !len_app, len_cons.
      pose proof (len_pos pre). pose proof (len_pos y). lia. }
  cbn [bind].
  (* the last character *)
  assert (TN : trim c <> []) by (intros X; rewrite X in K; discriminate).
  destruct (exists_last TN) as (m & z & Z1).
  destruct (ltrim_split (rtrim c)) as [u [Y _]]. fold (trim c) in Y.
  destruct (rtrim_split c) as [v [X _]].
  assert (ZQ : z <> 34) by (intros ->; exact (NE m Z1)).
  replace (len pre + len (rtrim c) - 1) with (len (pre ++ u ++ m)).
  2:{ rewrite Y, Z1, !len_app, len_cons, len_nil. lia. }
  rewrite (rd_at f (pre ++ u ++ m) z (v ++ t ++ rest)).
  2:{ rewrite E. rewrite X at 1. rewrite Y, Z1, <- !app_assoc. reflexivity. }
  cbn [bind]. unfold QUOTE. destruct (Z.eqb_spec z 34); [lia|]. cbn [negb bind].
  rewrite push_d0. cbn [d_vec d_cur d_n]. unfold k. destruct (tokens es); cbn [List.length]; auto.
  rewrite Nat.sub_succ, Nat.sub_0_r. reflexivity.
Qed.

Lemma dict_no_quote page es c t rest : 0 < page -> Forall entry_ok es -> content c ->
  term t -> let f := mkF (text (map line_of es) (c ++ t ++ rest)) page in
  (rest <> [] \/ room f) -> (forall b r, rest = b :: r -> b <> 10 /\ b <> 13) ->
  keep (trim c) = true -> Forall (fun b => b <> 34) (c ++ t ++ rest) ->
  parse_dict scan f = UB.
Proof.
  intros P F C T f R G K NX. unfold parse_dict. change (mkD [] None 0) with d0.
  destruct (dict_line page es c t rest P F C T R G K) as (n & LQ). fold f in LQ. rewrite LQ. clear LQ.
  set (pre := text (map line_of es) []).
  assert (E : f_bytes f = pre ++ c ++ t ++ rest) by (cbn; apply text_rest).
  unfold parse_line. rewrite (seek_ub f (c ++ t ++ rest) P pre); auto.
  unfold fuel_of. pose proof (len_pos pre). lia.
Qed.

Lemma dict_lone page es lead name trail t rest : 0 < page -> Forall entry_ok es ->
  Forall ws lead -> name_ok name -> Forall ws trail -> term t ->
  let f := mkF (text (map line_of es) ((lead ++ name ++ 34 :: trail) ++ t ++ rest)) page in
  (rest <> [] \/ room f) -> (forall b r, rest = b :: r -> b <> 10 /\ b <> 13) ->
  parse_dict scan f = UB.
Proof.
  intros P F W N W2 T f R G.
  assert (H : forall b r, name ++ [34] = b :: r -> ~ ws b /\ b <> 35 /\ b <> 13).
  { intros b r Q. destruct name as [|x name]; cbn [app] in Q; injection Q as <- _.
    - unfold ws. lia.
    - destruct N as [_ N]. exact (N _ _ eq_refl). }
  assert (C : content (lead ++ name ++ 34 :: trail)).
  { apply content_line; auto; [|intros b r Q; apply (H b r Q)|lia].
    apply Forall_app. split; [|repeat constructor; unfold char_ok; lia].
    destruct N as [N _]. eapply Forall_impl; [|exact N]. cbn. tauto. }
  destruct (trim_line lead name 34 trail) as [RT TR]; auto.
  { intros b r Q. apply (H b r Q). }
  { unfold ws. lia. }
  assert (K : keep (trim (lead ++ name ++ 34 :: trail)) = true).
  { rewrite TR. destruct (name ++ [34]) as [|b r] eqn:Q; [destruct name; discriminate|].
    destruct (H b r eq_refl) as (_ & K & _). cbn. destruct (Z.eqb_spec b 35); [lia|auto]. }
  unfold parse_dict. change (mkD [] None 0) with d0.
  destruct (dict_line page es _ t rest P F C T R G K) as (n & LQ). fold f in LQ. rewrite LQ. clear LQ.
  set (pre := text (map line_of es) []).
  assert (E : f_bytes f = pre ++ (lead ++ name ++ 34 :: trail) ++ t ++ rest) by (cbn; apply text_rest).
  pose proof (len_pos pre). pose proof (len_pos lead). pose proof (len_pos name).
  pose proof (len_pos trail). pose proof (len_pos t). pose proof (len_pos rest).
  unfold parse_line. rewrite RT. rewrite (seek_spec f (lead ++ name) pre (trail ++ t ++ rest)).
  2:{ rewrite E, <- !app_assoc. reflexivity. }
  2:{ apply no_quote; auto. }
  2:{ apply fuel_enough; auto. unfold eof. rewrite E, !len_app, len_cons. lia. }
  cbn [bind].
  replace (len pre + len (lead ++ name ++ [34]) - 1) with (len (pre ++ lead ++ name)).
  2:{ rewrite !len_app, len_cons, len_nil. lia. }
  rewrite (rd_at f (pre ++ lead ++ name) 34 (trail ++ t ++ rest)).
  2:{ rewrite E, <- !app_assoc. reflexivity. }
  cbn [bind]. unfold QUOTE. rewrite Z.eqb_refl. cbn [negb].
  assert (Z0 : len pre + len (lead ++ name ++ [34]) - (len pre + len (lead ++ name) + 1) = 0).
  { rewrite !len_app, len_cons, len_nil. lia. }
  rewrite Z0. reflexivity.
Qed.

Lemma dict_bad_escape page es lead name ps x more trail t rest : 0 < page ->
  Forall entry_ok es -> Forall ws lead -> name_ok name -> Forall piece_ok ps ->
  Forall char_ok (x :: more) -> x <> 120 -> x <> 34 -> x <> 92 -> Forall ws trail -> term t ->
  len (enc ps ++ 92 :: x :: more) < 65535 ->
  let c := lead ++ name ++ 34 :: (enc ps ++ 92 :: x :: more) ++ 34 :: trail in
  let f := mkF (text (map line_of es) (c ++ t ++ rest)) page in
  (rest <> [] \/ room f) -> (forall b r, rest = b :: r -> b <> 10 /\ b <> 13) ->
  let k := List.length (tokens es) in
  parse_dict scan f = Ok (false, numbered (tokens es), S k, [k]).
Proof.
  intros P F W N FP CM X1 X2 X3 W2 T LB c f R G k.
  set (cs := enc ps ++ 92 :: x :: more).
  assert (CC : Forall char_ok cs).
  { apply Forall_app. split; [apply enc_chars; auto|]. constructor; auto. unfold char_ok. lia. }
  destruct (tok_line lead name cs trail W N CC W2) as (C & RT & TR & K).
  unfold parse_dict. change (mkD [] None 0) with d0.
  destruct (dict_line page es c t rest P F C T R G K) as (n & LQ). fold f in LQ. rewrite LQ. clear LQ.
  set (pre := text (map line_of es) []).
  assert (E : f_bytes f = pre ++ c ++ t ++ rest) by (cbn; apply text_rest).
  fold cs in c.
  assert (RT' : rtrim c = lead ++ name ++ 34 :: cs ++ [34]) by exact RT. rewrite RT'.
  unfold parse_line.
  pose proof (len_pos pre). pose proof (len_pos lead). pose proof (len_pos name).
  pose proof (len_pos trail). pose proof (len_pos t). pose proof (len_pos rest). pose proof (len_pos cs).
  assert (EO : eof f = len pre + len lead + len name + len cs + 2 + len trail + len t + len rest).
  { unfold eof. rewrite E. unfold c. rewrite !len_app, len_cons, !len_app, len_cons. lia. }
  rewrite (seek_spec f (lead ++ name) pre (cs ++ 34 :: trail ++ t ++ rest)).
  2:{ rewrite E. unfold c. rewrite <- !app_assoc. cbn [app]. rewrite <- !app_assoc. reflexivity. }
  2:{ apply no_quote; auto. }
  2:{ apply fuel_enough; auto. rewrite len_app. lia. }
  cbn [bind].
  set (pre2 := pre ++ lead ++ name ++ [34]).
  assert (E2 : f_bytes f = pre2 ++ cs ++ 34 :: trail ++ t ++ rest).
  { unfold pre2. rewrite E. unfold c. rewrite <- !app_assoc. cbn [app].
    rewrite <- !app_assoc. reflexivity. }
  assert (LP : len pre2 = len pre + len lead + len name + 1).
  { unfold pre2. rewrite !len_app, len_cons, len_nil. lia. }
  replace (len pre + len (lead ++ name) + 1) with (len pre2) by (rewrite LP, len_app; lia).
  assert (NL : len pre + len (lead ++ name ++ 34 :: cs ++ [34]) = len pre2 + len cs + 1).
  { rewrite LP, !len_app, len_cons, len_app, len_cons, len_nil. lia. }
  rewrite NL. replace (len pre2 + len cs + 1 - 1) with (len (pre2 ++ cs)) by (rewrite len_app; lia).
  rewrite (rd_at f (pre2 ++ cs) 34 (trail ++ t ++ rest)); [|rewrite E2, <- app_assoc; reflexivity].
  cbn [bind]. unfold QUOTE at 1. rewrite Z.eqb_refl. cbn [negb].
  replace (len pre2 + len cs + 1 - len pre2) with (len cs + 1) by lia.
  destruct (Z.leb_spec 0 (len cs + 1)); [|lia].
  destruct (Z.leb_spec (len cs + 1) 65535); [|fold cs in LB; lia]. cbn [andb negb].
  replace (len cs + 1 - 1) with (len cs) by lia.
  destruct (Z.ltb_spec (len cs) 0); [lia|].
  pose proof (val_enc ps) as VE. pose proof (pieces_enc ps) as PE.
  assert (CE : len cs = len (enc ps) + 2 + len more).
  { unfold cs. rewrite len_app, !len_cons. lia. }
  pose proof (len_pos more). pose proof (len_pos (enc ps)).
  assert (FE : (List.length (enc ps) < fuel_of f)%nat) by (apply fuel_enough; auto; lia).
  replace (fuel_of f) with (List.length ps + S (fuel_of f - List.length ps - 1))%nat by lia.
  assert (E3 : f_bytes f = pre2 ++ enc ps ++ (92 :: x :: more ++ 34 :: trail ++ t ++ rest)).
  { rewrite E2. unfold cs. rewrite <- !app_assoc. reflexivity. }
  rewrite (chars_pieces scan SC f ps pre2 _ _ _ _ [] E3 FP);
    [|lia|rewrite len_nil; lia].
  cbn [chars]. rewrite len_app at 1.
  destruct (Z.ltb_spec (len pre2 + len (enc ps)) (len pre2 + len cs + 1 - 1)); [|lia].
  rewrite (rd_at f (pre2 ++ enc ps) 92 (x :: more ++ 34 :: trail ++ t ++ rest));
    [|rewrite E3, <- app_assoc; reflexivity].
  cbn [bind]. unfold BSL at 1. rewrite Z.eqb_refl.
  replace (len (pre2 ++ enc ps) + 1) with (len ((pre2 ++ enc ps) ++ [92]))
    by (rewrite (len_app _ [92]); reflexivity).
  rewrite (rd_at f ((pre2 ++ enc ps) ++ [92]) x (more ++ 34 :: trail ++ t ++ rest));
    [|rewrite E3, <- !app_assoc; reflexivity].
  cbn [bind]. unfold CHX, QUOTE, BSL. destruct (Z.eqb_spec x 120); [lia|].
  destruct (Z.eqb_spec x 34); [lia|]. destruct (Z.eqb_spec x 92); [lia|]. cbn [orb bind].
  rewrite push_d0. reflexivity.
Qed.

Lemma fst_numbered l : map fst (numbered l) = seq 0 (List.length l).
Proof.
  unfold numbered. generalize 0%nat. induction l as [|x l IH]; intros k; cbn; auto.
  rewrite IH. reflexivity.
Qed.
End Whole.
