(** Proofs about words and lists of strings. *)
From Verif Require Import Base Opt_Model Opt_Spec.
Open Scope Z_scope.

Lemma isspace_iff c : isspace c = true <-> space c.
Proof. unfold isspace, space. lia. Qed.
Lemma isspace_not c : ~ space c -> isspace c = false.
Proof. intros H. destruct (isspace c) eqn:E; auto. apply isspace_iff in E. contradiction. Qed.
Lemma isquote_iff c : isquote c = true <-> quote c.
Proof. unfold isquote, quote. lia. Qed.
Lemma quote_not_space c : quote c -> ~ space c.
Proof. unfold quote, space. lia. Qed.

Lemma skip_app sp s : blank sp -> skip_spaces (sp ++ s) = skip_spaces s.
Proof.
  induction sp as [|c sp IH]; intros H; auto. cbn [app skip_spaces].
  assert (S : space c) by (apply H; left; auto). apply isspace_iff in S. rewrite S.
  apply IH. intros d D. apply H. right; auto.
Qed.

(** What can follow a word. *)
Definition starts_blank (s : list Z) : Prop := match s with [] => True | c :: _ => space c end.

Lemma take_plain w rest : starts_blank rest -> (forall c, In c w -> ~ space c) ->
  forall room, (List.length w <= room)%nat -> take room false 0 (w ++ rest) = (w, rest).
Proof.
  intros HR. induction w as [|c w IH]; intros H room HL.
  - cbn [app]. destruct rest as [|d rest]; [destruct room; reflexivity|].
    apply isspace_iff in HR. destruct room; cbn [take]; rewrite HR; reflexivity.
  - cbn [app]. destruct room as [|room]; [cbn in HL; lia|]. cbn [take].
    rewrite isspace_not by (apply H; left; auto). cbn [negb].
    rewrite IH; auto. { intros d D. apply H; right; auto. } cbn in HL; lia.
Qed.

Lemma take_quoted q w rest : ~ In q w ->
  forall room, (List.length w <= room)%nat -> take room true q (w ++ q :: rest) = (w, q :: rest).
Proof.
  induction w as [|c w IH]; intros H room HL.
  - cbn [app]. destruct room; cbn [take]; rewrite Z.eqb_refl; reflexivity.
  - cbn [app]. destruct room as [|room]; [cbn in HL; lia|]. cbn [take].
    destruct (Z.eqb_spec c q) as [->|K]; [exfalso; apply H; left; auto|]. cbn [negb].
    rewrite IH; auto. { intros D. apply H; right; auto. } cbn in HL; lia.
Qed.

Definition left_of (w rest : list Z) : option (list Z) :=
  match w, rest with [], [] => None | _, _ => Some rest end.

Lemma word_ok maxlen sp i rest : blank sp -> good i -> starts_blank rest ->
  (List.length (word i) < maxlen)%nat ->
  get_option_word maxlen (sp ++ show i ++ rest) = (left_of (word i) rest, word i).
Proof.
  intros Hs Hg Hr HL. unfold get_option_word. rewrite skip_app by auto.
  destruct i as [w|q w]; cbn [show word good] in *.
  - destruct Hg as (Hw & c & r & -> & Hq). cbn [app skip_spaces].
    rewrite isspace_not by (apply Hw; left; auto).
    destruct (isquote c) eqn:Q; [apply isquote_iff in Q; contradiction|].
    change (c :: r ++ rest) with ((c :: r) ++ rest).
    rewrite take_plain; auto. lia.
  - destruct Hg as (Hq & Hn). cbn [app skip_spaces].
    rewrite isspace_not by (apply quote_not_space; auto).
    apply isquote_iff in Hq. rewrite Hq. rewrite <- app_assoc. cbn [app].
    rewrite take_quoted by (auto; lia). rewrite Z.eqb_refl. reflexivity.
Qed.

Lemma word_end maxlen tail : blank tail -> get_option_word maxlen tail = (None, []).
Proof.
  intros H. unfold get_option_word. rewrite <- (app_nil_r tail), skip_app by auto.
  cbn [skip_spaces]. destruct (maxlen - 1)%nat; reflexivity.
Qed.

Lemma blank_starts tail : blank tail -> starts_blank tail.
Proof. destruct tail; cbn; auto. intros H. apply H. left; auto. Qed.

(** The rest of a line starts with white space. *)
Lemma text_starts l rest : line_ok l -> (forall sp i, In (sp, i) l -> sp <> []) ->
  starts_blank rest -> starts_blank (text l ++ rest).
Proof.
  destruct l as [|[sp i] l]; intros H A R; auto. cbn [text].
  destruct (H sp i) as (B & _); [left; auto|]. specialize (A sp i (or_introl eq_refl)).
  destruct sp as [|c sp]; [congruence|]. cbn. apply B. left; auto.
Qed.

Lemma show_len i : good i -> (List.length (word i) <= List.length (show i) /\ 1 <= List.length (show i))%nat.
Proof.
  destruct i as [w|q w]; cbn [good word show].
  - intros (_ & c & r & -> & _). cbn. lia.
  - intros _. cbn. rewrite app_length. cbn. lia.
Qed.

Lemma line_tl x l : line_ok (x :: l) -> line_ok l.
Proof. intros H sp i I. apply H. right; auto. Qed.
Lemma apart_tl x l : apart (x :: l) -> apart l.
Proof. intros H sp i I. apply (H sp i). cbn. destruct l; [destruct I|right; exact I]. Qed.
Lemma apart_all x l : apart (x :: l) -> forall sp i, In (sp, i) l -> sp <> [].
Proof. intros H sp i I. apply (H sp i). exact I. Qed.

(** The last word is not an empty one at the very end. *)
Definition not_empty_last (l : list (list Z * item)) (tail : list Z) : Prop :=
  forall l' sp i, l = l' ++ [(sp, i)] -> word i = [] -> tail <> [].

Lemma nel_tl x l tail : not_empty_last (x :: l) tail -> not_empty_last l tail.
Proof. intros H l' sp i ->. apply (H (x :: l') sp i). reflexivity. Qed.

Lemma text_nonempty x l : line_ok (x :: l) -> text (x :: l) <> [].
Proof.
  destruct x as [sp i]. intros H. destruct (H sp i) as (_ & G); [left; auto|].
  apply show_len in G. cbn [text]. intros Q. apply (f_equal (@List.length Z)) in Q.
  rewrite !app_length in Q. cbn in Q. lia.
Qed.

Lemma left_some sp i l tail : line_ok ((sp, i) :: l) -> not_empty_last ((sp, i) :: l) tail ->
  left_of (word i) (text l ++ tail) = Some (text l ++ tail).
Proof.
  intros H N. unfold left_of. destruct (word i) eqn:W; auto.
  destruct (text l ++ tail) eqn:T; auto. exfalso.
  apply app_eq_nil in T. destruct T as (T1 & T2). destruct l as [|y l].
  - apply (N [] sp i); auto.
  - exact (text_nonempty y l (line_tl _ _ H) T1).
Qed.

Lemma words_ok maxlen l : forall tail fuel, line_ok l -> apart l -> blank tail ->
  not_empty_last l tail ->
  (forall sp i, In (sp, i) l -> (List.length (word i) < maxlen)%nat) ->
  (List.length l < fuel)%nat ->
  read_words maxlen fuel (text l ++ tail) = Ok (map (fun x => word (snd x)) l).
Proof.
  induction l as [|[sp i] l IH]; intros tail fuel Hl Ha Ht Hn Hm Hf.
  - destruct fuel; [lia|]. cbn [text app read_words map]. rewrite word_end by auto. reflexivity.
  - destruct fuel; [cbn in Hf; lia|]. cbn [text read_words map snd].
    destruct (Hl sp i) as (B & G); [left; auto|].
    rewrite <- !app_assoc. rewrite word_ok; auto.
    2:{ apply text_starts; [eapply line_tl; eauto|eapply apart_all; eauto|apply blank_starts; auto]. }
    2:{ apply (Hm sp). left; auto. }
    rewrite (left_some sp) by auto. cbn in Hf.
    rewrite IH; auto; [eapply line_tl; eauto|eapply apart_tl; eauto|eapply nel_tl; eauto| |lia].
    intros sp' i' I. apply (Hm sp'). right; auto.
Qed.

(** * Lists of strings, each ended by a zero and the last by two *)
Definition E (ws : list (list Z)) : list Z := concat (map (fun w => w ++ [0]) ws).

Definition fine (ws : list (list Z)) : Prop := forall w, In w ws -> w <> [] /\ ~ In 0 w.

Lemma E_app ws w : E (ws ++ [w]) = E ws ++ w ++ [0].
Proof. unfold E. rewrite map_app, concat_app. cbn. rewrite app_nil_r. reflexivity. Qed.

Lemma find_end_cons x y r c : find_end (x :: y :: r) c =
  if negb (x =? 0) || negb (y =? 0) then find_end (y :: r) (S c) else c.
Proof. reflexivity. Qed.

Lemma walk w : ~ In 0 w -> forall r c, find_end (w ++ 0 :: r) c = find_end (0 :: r) (c + List.length w).
Proof.
  induction w as [|x w IH]; intros N r c.
  - cbn [app List.length]. f_equal. lia.
  - assert (X : (x =? 0) = false) by (apply Z.eqb_neq; intros ->; apply N; left; auto).
    assert (K : find_end ((x :: w) ++ 0 :: r) c = find_end (w ++ 0 :: r) (S c)).
    { cbn [app]. destruct (w ++ 0 :: r) as [|y t] eqn:T; [destruct w; discriminate|].
      rewrite find_end_cons, X. reflexivity. }
    rewrite K, IH by (intros Q; apply N; right; auto). cbn [List.length]. f_equal. lia.
Qed.

Lemma find_E ws m : fine ws -> ws <> [] -> forall c,
  find_end (E ws ++ repeat 0 (S m)) c = (c + List.length (E ws) - 1)%nat.
Proof.
  induction ws as [|w ws IH]; intros H N c; [congruence|].
  destruct (H w) as (Wn & W0); [left; auto|].
  assert (Ew : E (w :: ws) = w ++ 0 :: E ws) by (unfold E; cbn; rewrite <- app_assoc; reflexivity).
  rewrite Ew, <- app_assoc. cbn [app]. rewrite walk by auto.
  rewrite app_length. cbn [List.length].
  destruct ws as [|v ws].
  - cbn [E map concat app repeat]. rewrite find_end_cons. cbn. lia.
  - destruct (H v) as (Vn & V0); [right; left; auto|].
    assert (K : exists y t, E (v :: ws) ++ repeat 0 (S m) = y :: t /\ y <> 0).
    { destruct v as [|y v]; [congruence|].
      assert (Y0 : y <> 0) by (intros ->; apply V0; left; auto).
      cbn [E map concat app]. eauto. }
    destruct K as (y & t & K & Y).
    rewrite K, find_end_cons, <- K. apply Z.eqb_neq in Y. rewrite Y. cbn [negb orb Z.eqb].
    rewrite IH; [lia| |congruence]. intros u U. apply H. right; auto.
Qed.

Lemma write_mid a l b r : List.length l = List.length b ->
  write_at (List.length a) l (a ++ b ++ r) = Ok (a ++ l ++ r).
Proof.
  intros H. unfold write_at. rewrite !app_length.
  destruct (Nat.leb_spec (List.length a + List.length l)
    (List.length a + (List.length b + List.length r))); [|lia].
  f_equal. rewrite firstn_app, firstn_all, Nat.sub_diag. cbn [firstn]. rewrite app_nil_r.
  f_equal. f_equal. rewrite app_assoc, skipn_app, skipn_all2 by (rewrite app_length; lia).
  rewrite app_length. replace (List.length a + List.length l - (List.length a + List.length b))%nat
    with 0%nat by lia. reflexivity.
Qed.

Lemma write_last a m : write_at (List.length (a ++ repeat 0 (S m)) - 1) [0] (a ++ repeat 0 (S m)) =
  Ok (a ++ repeat 0 (S m)).
Proof.
  assert (R : repeat 0 (S m) = repeat 0 m ++ [0]).
  { replace (S m) with (m + 1)%nat by lia. rewrite repeat_app. reflexivity. }
  rewrite R, app_assoc. rewrite app_length. cbn [List.length].
  replace (List.length (a ++ repeat 0%Z m) + 1 - 1)%nat with (List.length (a ++ repeat 0 m)) by lia.
  pose proof (write_mid (a ++ repeat 0 m) [0] [0] [] eq_refl) as W.
  rewrite !app_nil_r in W. exact W.
Qed.

Lemma append_ok ws w m : fine ws -> ~ In 0 w -> (List.length w + 1 <= m)%nat ->
  append (E ws ++ repeat 0 (S m)) w =
    Ok (match w with
        | [] => E ws ++ repeat 0 (S m)
        | _ => E (ws ++ [w]) ++ repeat 0 (S (m - List.length w - 1))
        end).
Proof.
  intros Hf Hw Hm. unfold append.
  set (c := find_end (E ws ++ repeat 0 (S m)) 0).
  assert (P : (if Nat.eqb c 0 then 0 else S c)%nat = List.length (E ws)).
  { destruct ws as [|v ws].
    - unfold c. cbn [E map concat app]. destruct m; [lia|]. cbn. reflexivity.
    - unfold c. rewrite find_E by (auto; congruence).
      destruct (Hf v) as (Vn & _); [left; auto|].
      assert (L : (2 <= List.length (E (v :: ws)))%nat).
      { unfold E. cbn [map concat]. rewrite !app_length. destruct v; [congruence|]. cbn. lia. }
      destruct (Nat.eqb_spec (0 + List.length (E (v :: ws)) - 1) 0); lia. }
  assert (C : (c + 1 <= List.length (E ws) \/ ws = [] /\ c = 0)%nat).
  { destruct (Nat.eqb_spec c 0) as [Q|Q]; [|left; lia].
    destruct ws; [auto|]. unfold c in Q. rewrite find_E in Q by (auto; congruence).
    left. unfold c. rewrite find_E by (auto; congruence).
    destruct (E (l :: ws)) eqn:EE; [|cbn; lia]. exfalso.
    unfold E in EE. cbn in EE. destruct l; discriminate. }
  rewrite P, app_length, repeat_length.
  destruct (Nat.ltb_spec (List.length w) (List.length (E ws) + S m - (c + 1))) as [Q|Q].
  2:{ destruct C as [C|(C1 & C2)]; [lia|]. rewrite C2 in Q. rewrite C1 in Q. cbn in Q. lia. }
  assert (R : repeat 0 (S m) = repeat 0 (List.length w + 1) ++ repeat 0 (S (m - List.length w - 1))).
  { rewrite <- repeat_app. f_equal. lia. }
  rewrite R. rewrite write_mid by (rewrite app_length, repeat_length; reflexivity). cbn [bind].
  rewrite app_assoc, write_last. f_equal. destruct w as [|x w].
  - cbn [List.length app Nat.add repeat]. rewrite <- app_assoc. reflexivity.
  - rewrite E_app. reflexivity.
Qed.
