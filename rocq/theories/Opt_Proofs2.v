(** Proofs about the settings of options. *)
From Verif Require Import Base Opt_Model Opt_Spec Opt_Proofs.
Open Scope Z_scope.

Definition type_of (k : kind) : opty :=
  match k with
  | KBool => TBool
  | KNum false mn mx => TUint mn mx
  | KNum true mn mx => TInt mn mx
  | KStr => TStr
  | KMulti => TMulti
  end.

(** The option as it is written in optionsx.h. *)
Definition ent (o : option_) : entry :=
  {| e_name := o_name o;
     e_alt := match o_alias o with Some a => a | None => NO_ALT end;
     e_type := type_of (o_kind o) |}.

(** The words that an option answers to. *)
Definition all_words (o : option_) : list (list Z) :=
  map on_ (names o) ++ match o_kind o with KBool => map off_ (names o) | _ => [] end.

(** No two options answer to the same word; a name has no quotes in it. *)
Definition distinct (fold : Z -> Z) (os : list option_) : Prop :=
  (forall j k o o' w w', j <> k -> nth_error os j = Some o -> nth_error os k = Some o' ->
    In w (all_words o) -> In w' (all_words o') -> map fold w <> map fold w') /\
  (forall o w w', In o os -> o_kind o = KBool -> In w (map on_ (names o)) ->
    In w' (map off_ (names o)) -> map fold w <> map fold w') /\
  (forall o w, In o os -> In w (all_words o) -> ~ In (fold 34) (map fold w)) /\
  (forall o a, In o os -> o_alias o = Some a -> a <> []).

Section Settings.
Variable maxlen : nat.
Variable fold : Z -> Z.
Variables hex dec : list Z -> option Z.
Variable numeral : list Z -> Z -> Prop.
Hypothesis Hnum : forall w v, numeral w v -> hex w = Some v \/ hex w = None /\ dec w = Some v.
Variable os : list option_.
Hypothesis Hd : distinct fold os.
Notation tab := (map ent os).

Lemma eqs_iff a b : eqs fold a b = true <-> map fold a = map fold b.
Proof.
  revert b. induction a as [|x a IH]; intros [|y b]; cbn; split; try discriminate; auto.
  - intros H. apply andb_true_iff in H. destruct H as (H1 & H2). apply Z.eqb_eq in H1.
    apply IH in H2. congruence.
  - intros H. injection H as H1 H2. apply andb_true_iff. split; [apply Z.eqb_eq; auto|apply IH; auto].
Qed.

Lemma eqs_not a b : map fold a <> map fold b -> eqs fold a b = false.
Proof. intros H. destruct (eqs fold a b) eqn:E; auto. apply eqs_iff in E. contradiction. Qed.

Lemma no_alt_word w : ~ In (fold 34) (map fold w) ->
  eqs fold w (on_word NO_ALT) = false /\ eqs fold w (off_word NO_ALT) = false.
Proof.
  intros H. split; apply eqs_not; intros Q; rewrite Q in H; apply H; cbn; auto 8.
Qed.

(** A word that is not one of the option's. *)
Lemma match_none o w : ~ In (fold 34) (map fold w) ->
  (forall w', In w' (all_words o) -> map fold w <> map fold w') ->
  match_entry fold (ent o) w = None.
Proof.
  intros Hq Hn. destruct (no_alt_word w Hq) as (Q1 & Q2).
  unfold match_entry, ent, has_alt. cbn [e_type e_name e_alt].
  assert (On : forall n, In n (names o) -> eqs fold w (on_word n) = false).
  { intros n N. apply eqs_not. apply Hn. unfold all_words. apply in_or_app. left.
    apply in_map_iff. exists n. split; auto. }
  assert (Off : o_kind o = KBool -> forall n, In n (names o) -> eqs fold w (off_word n) = false).
  { intros K n N. apply eqs_not. apply Hn. unfold all_words. rewrite K. apply in_or_app. right.
    apply in_map_iff. exists n. split; auto. }
  unfold names in On, Off.
  assert (A1 : (match match o_alias o with Some a => a | None => NO_ALT end with
      [] => false | _ :: _ => true end &&
      eqs fold w (on_word match o_alias o with Some a => a | None => NO_ALT end)) = false).
  { destruct (o_alias o) as [a|]; [|rewrite Q1; apply andb_false_r].
    rewrite On by (right; left; auto). apply andb_false_r. }
  rewrite (On (o_name o)) by (left; auto). rewrite A1. cbn [orb].
  destruct (o_kind o) as [|[|] mn mx| |] eqn:K; cbn [type_of]; try reflexivity.
  rewrite (Off eq_refl (o_name o)) by (left; auto).
  assert (A2 : (match match o_alias o with Some a => a | None => NO_ALT end with
      [] => false | _ :: _ => true end &&
      eqs fold w (off_word match o_alias o with Some a => a | None => NO_ALT end)) = false).
  { destruct (o_alias o) as [a|]; [|rewrite Q2; apply andb_false_r].
    rewrite (Off eq_refl) by (right; left; auto). apply andb_false_r. }
  rewrite A2. reflexivity.
Qed.

Lemma find_at (t : list entry) e a w : forall k j, nth_error t k = Some e ->
  match_entry fold e w = Some a ->
  (forall i e', (i < k)%nat -> nth_error t i = Some e' -> match_entry fold e' w = None) ->
  find fold t j w = Some ((j + k)%nat, e, a).
Proof.
  induction t as [|x t IH]; intros k j N M H; [destruct k; discriminate|].
  destruct k as [|k].
  - cbn in N. injection N as ->. cbn [find]. rewrite M, Nat.add_0_r. reflexivity.
  - cbn [find]. rewrite (H 0%nat x) by (auto; lia).
    rewrite (IH k (S j)); auto.
    + rewrite Nat.add_succ_r. reflexivity.
    + intros i e' I N'. apply (H (S i)); auto. lia.
Qed.

Lemma find_none (t : list entry) w : (forall e, In e t -> match_entry fold e w = None) ->
  forall j, find fold t j w = None.
Proof.
  induction t as [|x t IH]; intros H j; auto. cbn [find]. rewrite H by (left; auto).
  apply IH. intros e E. apply H. right; auto.
Qed.

(** The word is found at its option. *)
Lemma find_word k o w a : nth_error os k = Some o -> In w (all_words o) ->
  match_entry fold (ent o) w = Some a -> find fold tab 0 w = Some (k, ent o, a).
Proof.
  intros N W M. destruct Hd as (D1 & _ & D3 & _).
  rewrite (find_at tab (ent o) a w k 0); auto.
  - rewrite nth_error_map, N. reflexivity.
  - intros i e' I N'. rewrite nth_error_map in N'.
    destruct (nth_error os i) as [o'|] eqn:E; [|discriminate]. injection N' as <-.
    apply match_none.
    + apply (D3 o); auto. eapply nth_error_In; eauto.
    + intros w' W'. apply (D1 k i o o'); auto. lia.
Qed.

Lemma on_match o n : In o os -> In n (names o) -> match_entry fold (ent o) (on_ n) =
  Some (match o_kind o with KBool => ABool true | _ => AVal end).
Proof.
  intros O N. destruct Hd as (_ & _ & _ & D4).
  assert (T : eqs fold (on_ n) (on_word (o_name o)) ||
    (has_alt (ent o) && eqs fold (on_ n) (on_word (e_alt (ent o)))) = true).
  { unfold has_alt, ent. cbn [e_alt]. unfold names in N. destruct N as [<-|N].
    - apply orb_true_iff. left. apply eqs_iff. reflexivity.
    - destruct (o_alias o) as [a|] eqn:A; [|destruct N]. destruct N as [<-|[]].
      apply orb_true_iff. right. specialize (D4 o a O A). destruct a; [congruence|].
      cbn [andb]. apply eqs_iff. reflexivity. }
  unfold match_entry. change (e_name (ent o)) with (o_name o). rewrite T.
  change (e_type (ent o)) with (type_of (o_kind o)).
  destruct (o_kind o) as [|[|] mn mx| |]; reflexivity.
Qed.

Lemma off_match o n : In o os -> In n (names o) -> o_kind o = KBool ->
  match_entry fold (ent o) (off_ n) = Some (ABool false).
Proof.
  intros O N K. destruct Hd as (_ & D2 & D3 & D4).
  assert (W : In (off_ n) (map off_ (names o))) by (apply in_map; auto).
  assert (Q : ~ In (fold 34) (map fold (off_ n))).
  { apply (D3 o); auto. unfold all_words. rewrite K. apply in_or_app. auto. }
  destruct (no_alt_word _ Q) as (Q1 & _).
  assert (On : forall m, In m (names o) -> eqs fold (off_ n) (on_word m) = false).
  { intros m M. apply eqs_not. intros X. apply (D2 o (on_ m) (off_ n)); auto.
    apply in_map; auto. }
  assert (F : eqs fold (off_ n) (on_word (o_name o)) ||
    (has_alt (ent o) && eqs fold (off_ n) (on_word (e_alt (ent o)))) = false).
  { rewrite On by (left; auto). cbn [orb ent e_alt]. unfold names in On.
    destruct (o_alias o) as [a|]; [|rewrite Q1; apply andb_false_r].
    rewrite On by (right; left; auto). apply andb_false_r. }
  assert (T : eqs fold (off_ n) (off_word (o_name o)) ||
    (has_alt (ent o) && eqs fold (off_ n) (off_word (e_alt (ent o)))) = true).
  { unfold has_alt, ent. cbn [e_alt]. unfold names in N. destruct N as [<-|N].
    - apply orb_true_iff. left. apply eqs_iff. reflexivity.
    - destruct (o_alias o) as [a|] eqn:A; [|destruct N]. destruct N as [<-|[]].
      apply orb_true_iff. right. specialize (D4 o a O A). destruct a; [congruence|].
      cbn [andb]. apply eqs_iff. reflexivity. }
  unfold match_entry. replace (e_type (ent o)) with TBool by (unfold ent; cbn; rewrite K; auto).
  change (e_name (ent o)) with (o_name o). rewrite F, T. reflexivity.
Qed.

(** The value of an option stands for what it means. *)
Definition rep (m : meaning) (v : value) : Prop :=
  match m, v with
  | MBool b, VBool c => b = c
  | MNum x, VNum y => x = y
  | MStr s, VStr t => s = t
  | MList ws, VMulti buf =>
    fine ws /\ exists m, buf = E ws ++ repeat 0 (S m) /\ List.length buf = maxlen
  | _, _ => False
  end.

Variable def : nat -> meaning.

Definition Inv (hs : list setting) (spec0 : nat -> bool) (R : nat) (st : state) : Prop :=
  forall k o, nth_error os k = Some o ->
  (exists m, means numeral k o hs (def k) m /\ rep m (vals st k) /\
    (forall ws, m = MList ws -> (List.length (E ws) + R < maxlen)%nat)) /\
  specified st k = spec0 k || existsb (fun s => Nat.eqb (key s) k) hs.

Lemma on_k_app k hs s : on_k k (hs ++ [s]) = on_k k hs ++ (if Nat.eqb (key s) k then [s] else []).
Proof. unfold on_k. rewrite filter_app. cbn. destruct (Nat.eqb (key s) k); reflexivity. Qed.

Lemma means_other k o hs s m : key s <> k -> means numeral k o hs (def k) m ->
  means numeral k o (hs ++ [s]) (def k) m.
Proof.
  intros N. unfold means. rewrite on_k_app.
  destruct (Nat.eqb_spec (key s) k); [contradiction|]. rewrite app_nil_r. auto.
Qed.

Lemma Inv_le hs sp R R' st : (R' <= R)%nat -> Inv hs sp R st -> Inv hs sp R' st.
Proof.
  intros L H k o N. destruct (H k o N) as ((m & M1 & M2 & M3) & S). split; auto.
  exists m. split; auto. split; auto. intros ws W. specialize (M3 ws W). lia.
Qed.

Lemma Inv_set hs sp R R' st s o m v : (R' <= R)%nat -> Inv hs sp R st ->
  nth_error os (key s) = Some o ->
  means numeral (key s) o (hs ++ [s]) (def (key s)) m -> rep m v ->
  (forall ws, m = MList ws -> (List.length (E ws) + R' < maxlen)%nat) ->
  Inv (hs ++ [s]) sp R' (set_val st (key s) v).
Proof.
  intros L H N M Rp Bd k o' N'. cbn [set_val vals specified].
  rewrite existsb_app. cbn [existsb]. rewrite orb_false_r.
  destruct (H k o' N') as ((m' & M1 & M2 & M3) & S).
  destruct (Nat.eqb_spec k (key s)) as [->|Q].
  - rewrite N in N'. injection N' as <-. split; [eauto|].
    rewrite Nat.eqb_refl, !orb_true_r. reflexivity.
  - split.
    + exists m'. split; [apply means_other; auto|]. split; auto.
      intros ws W. specialize (M3 ws W). lia.
    + destruct (Nat.eqb_spec (key s) k); [congruence|]. rewrite orb_false_r. auto.
Qed.

Lemma means_last k o hs s m : o_kind o <> KMulti -> key s = k -> says1 numeral o s m ->
  means numeral k o (hs ++ [s]) (def k) m.
Proof.
  intros K Q H. unfold means. rewrite on_k_app, Q, Nat.eqb_refl, rev_app_distr. cbn [rev app].
  destruct (o_kind o); auto. congruence.
Qed.

Lemma len_text_cons sp i l rest : List.length (text ((sp, i) :: l) ++ rest) =
  (List.length sp + List.length (show i) + List.length (text l ++ rest))%nat.
Proof. cbn [text]. rewrite <- !app_assoc, !app_length. lia. Qed.

(** The value of an option that has one is read from its word. *)
Lemma read_ok o n v k i sp rest hs spec0 R st :
  nth_error os k = Some o -> valid numeral os (Val k n v) -> word i = v ->
  blank sp -> good i -> starts_blank rest -> left_of v rest = Some rest ->
  (List.length v < maxlen)%nat ->
  Inv hs spec0 R st -> (List.length v + 2 + List.length rest <= R)%nat ->
  exists x, read_value maxlen hex dec (e_type (ent o)) (sp ++ show i ++ rest) (vals st k) =
      Ok (Some (x, rest)) /\
    Inv (hs ++ [Val k n v]) spec0 (List.length rest) (set_val st k x).
Proof.
  intros N V Wi Hs Hg Hr Lf Hm HI HR.
  destruct V as (o' & N' & Hn & Hk). cbn [key] in N'. rewrite N in N'. injection N' as <-.
  unfold read_value. rewrite word_ok by (auto; congruence). rewrite Wi, Lf.
  destruct (HI k o N) as ((m0 & M1 & M2 & M3) & _).
  assert (Fin : forall x m, means numeral k o (hs ++ [Val k n v]) (def k) m -> rep m x ->
    (forall ws, m = MList ws -> (List.length (E ws) + List.length rest < maxlen)%nat) ->
    Inv (hs ++ [Val k n v]) spec0 (List.length rest) (set_val st k x)).
  { intros x m A B C. apply (Inv_set hs spec0 R (List.length rest) st (Val k n v) o m); auto. lia. }
  unfold ent. cbn [e_type].
  destruct (o_kind o) as [|neg mn mx| |] eqn:K; [contradiction| | |].
  - destruct Hk as (x & Nu & Rg & Vn & Ng).
    assert (RV : (match v with
      | [] => Ok None
      | c :: _ =>
        if negb neg && (c =? DASH) then Ok None
        else match (match hex v with Some y => Some y | None => dec v end) with
             | None => Ok None
             | Some y => if (y <? mn) || (mx <? y) then Ok None else Ok (Some (VNum y, rest))
             end
      end) = Ok (Some (VNum x, rest))).
    { destruct v as [|c r]; [congruence|].
      assert (D : negb neg && (c =? DASH) = false).
      { destruct Ng as [->|Ng]; auto. destruct (Z.eqb_spec c DASH) as [->|]; [|apply andb_false_r].
        exfalso. apply (Ng r). reflexivity. }
      rewrite D. apply Hnum in Nu.
      assert (X : match hex (c :: r) with Some y => Some y | None => dec (c :: r) end = Some x).
      { destruct Nu as [->|(-> & ->)]; reflexivity. }
      rewrite X. destruct (Z.ltb_spec x mn); [lia|]. destruct (Z.ltb_spec mx x); [lia|]. reflexivity. }
    exists (VNum x). split.
    + destruct neg; cbn [type_of]; cbn [negb] in RV |- *; exact RV.
    + apply (Fin _ (MNum x)); [|reflexivity|discriminate].
      apply means_last; auto; [congruence|]. cbn [says1]. rewrite K. eauto.
  - exists (VStr v). split.
    + cbn [type_of]. destruct v as [|c r]; auto.
      destruct (Z.eqb_spec c DASH) as [->|]; auto. exfalso. apply (Hk r). reflexivity.
    + apply (Fin _ (MStr v)); [|reflexivity|discriminate].
      apply means_last; auto; [congruence|]. cbn [says1]. rewrite K. reflexivity.
  - unfold means in M1. rewrite K in M1. destruct M1 as (d & Dd & ->).
    set (ws := d ++ concat (map (fun s => match s with Val _ _ (c :: r) => [c :: r] | _ => [] end)
      (on_k k hs))) in *.
    specialize (M3 ws eq_refl). destruct (vals st k) as [| | |buf]; cbn [rep] in M2; try contradiction.
    destruct M2 as (Fw & m & -> & Lb). cbn [type_of].
    assert (Lm : (List.length v + 1 <= m)%nat).
    { rewrite app_length, repeat_length in Lb. lia. }
    rewrite append_ok by auto. cbn [bind].
    eexists. split; [reflexivity|].
    assert (MM : means numeral k o (hs ++ [Val k n v]) (def k)
      (MList (match v with [] => ws | _ => ws ++ [v] end))).
    { unfold means. rewrite K. exists d. split; auto.
      rewrite on_k_app. cbn [key]. rewrite Nat.eqb_refl, map_app, concat_app. cbn [map concat].
      unfold ws. destruct v; rewrite ?app_nil_r, ?app_assoc; reflexivity. }
    eapply Fin; [exact MM| |].
    + destruct v as [|c r].
      * cbn [rep]. split; auto. exists m. split; auto.
      * cbn [rep]. split.
        -- intros u U. apply in_app_or in U. destruct U as [U|[<-|[]]]; [auto|].
           split; [congruence|auto].
        -- exists (m - List.length (c :: r) - 1)%nat. split; auto.
           rewrite <- Lb, E_app, !app_length, !repeat_length. cbn [List.length]. cbn in Lm. lia.
    + intros ws' W. injection W as <-. destruct v as [|c r].
      * lia.
      * rewrite E_app, !app_length. cbn [List.length]. cbn in HR. lia.
Qed.

Lemma run_ok ss : forall l rest hs spec0 st fuel,
  line_ok l -> apart l -> starts_blank rest -> not_empty_last l rest ->
  map (fun x => word (snd x)) l = concat (map words_of ss) ->
  (forall s, In s ss -> valid numeral os s) ->
  (List.length (text l ++ rest) < maxlen)%nat ->
  Inv hs spec0 (List.length (text l ++ rest)) st ->
  exists st', parse maxlen fold hex dec tab (List.length ss + fuel) (text l ++ rest) st =
      parse maxlen fold hex dec tab fuel rest st' /\
    Inv (hs ++ ss) spec0 (List.length rest) st'.
Proof.
  induction ss as [|s ss IH]; intros l rest hs spec0 st fuel Hl Ha Hr Hn Hw Hv Hm HI.
  - destruct l as [|x l]; [|discriminate]. cbn [text app List.length Nat.add] in *.
    exists st. rewrite app_nil_r. auto.
  - destruct (Hv s) as (o & No & Vs); [left; auto|].
    assert (Oi : In o os) by (eapply nth_error_In; eauto).
    destruct s as [k n b|k n v]; cbn [key] in No.
    + cbn [map concat words_of app] in Hw. destruct l as [|[sp i] l]; [discriminate|].
      cbn [map snd] in Hw. injection Hw as Wi Hw.
      destruct (Hl sp i) as (B & G); [left; auto|].
      pose proof (show_len i G) as SL. rewrite len_text_cons in Hm, HI.
      assert (St : starts_blank (text l ++ rest)).
      { apply text_starts; [eapply line_tl; eauto|eapply apart_all; eauto|auto]. }
      destruct Vs as (K & Nn).
      assert (F : find fold tab 0 (word i) = Some (k, ent o, ABool b)).
      { rewrite Wi. apply find_word; auto.
        - unfold all_words. rewrite K. apply in_or_app.
          destruct b; [left|right]; apply in_map; auto.
        - destruct b; [rewrite on_match by auto; rewrite K; auto|apply off_match; auto]. }
      destruct (IH l rest (hs ++ [Flag k n b]) spec0 (set_val st k (VBool b)) fuel) as (st' & E1 & E2); auto.
      * eapply line_tl; eauto.
      * eapply apart_tl; eauto.
      * eapply nel_tl; eauto.
      * intros s' S'. apply Hv. right; auto.
      * lia.
      * refine (Inv_set hs spec0 _ _ st (Flag k n b) o (MBool b) (VBool b) _ HI No _ eq_refl _);
          [lia| |discriminate].
        apply means_last; auto; [congruence|reflexivity].
      * exists st'. rewrite <- app_assoc in E2. split; auto.
        rewrite <- E1. cbn [List.length Nat.add parse text]. rewrite <- !app_assoc.
        rewrite word_ok by (auto; lia).
        rewrite (left_some sp) by auto. rewrite F. reflexivity.
    + cbn [map concat words_of app] in Hw. destruct l as [|[sp i] [|[sp2 i2] l]]; try discriminate.
      cbn [map snd] in Hw. injection Hw as Wi Wi2 Hw.
      destruct (Hl sp i) as (B & G); [left; auto|].
      destruct (Hl sp2 i2) as (B2 & G2); [right; left; auto|].
      pose proof (show_len i G) as SL. pose proof (show_len i2 G2) as SL2.
      rewrite !len_text_cons in Hm, HI.
      assert (St : starts_blank (text l ++ rest)).
      { apply text_starts; [do 2 (eapply line_tl); eauto| |auto].
        intros sp' i' I. apply (Ha sp' i'). right; auto. }
      assert (St2 : starts_blank (text ((sp2, i2) :: l) ++ rest)).
      { apply text_starts; [eapply line_tl; eauto|eapply apart_all; eauto|auto]. }
      destruct Vs as (Nn & Vk).
      assert (KB : o_kind o <> KBool) by (intros K; rewrite K in Vk; contradiction).
      assert (F : find fold tab 0 (word i) = Some (k, ent o, AVal)).
      { rewrite Wi. apply find_word; auto.
        - unfold all_words. apply in_or_app. left. apply in_map; auto.
        - rewrite on_match by auto. destruct (o_kind o); congruence. }
      assert (Wl : (1 <= List.length (show i))%nat) by lia.
      destruct (read_ok o n v k i2 sp2 (text l ++ rest) hs spec0
        (List.length sp + List.length (show i) + (List.length sp2 + List.length (show i2) +
          List.length (text l ++ rest)))%nat st) as (x & X1 & X2); auto.
      * apply Hv. left; auto.
      * rewrite <- Wi2. apply (left_some sp2); [eapply line_tl; eauto|eapply nel_tl; eauto].
      * rewrite <- Wi2. lia.
      * assert (S2 : (2 <= List.length (show i) \/ 1 <= List.length sp2)%nat).
        { right. pose proof (apart_all _ _ Ha sp2 i2 (or_introl eq_refl)). destruct sp2; [congruence|cbn; lia]. }
        rewrite Wi2 in SL2. lia.
      * destruct (IH l rest (hs ++ [Val k n v]) spec0 (set_val st k x) fuel) as (st' & E1 & E2); auto.
        -- do 2 (eapply line_tl); eauto.
        -- do 2 (eapply apart_tl); eauto.
        -- do 2 (eapply nel_tl); eauto.
        -- intros s' S'. apply Hv. right; auto.
        -- lia.
        -- exists st'. rewrite <- app_assoc in E2. split; auto.
           rewrite <- E1. cbn [List.length Nat.add parse].
           change (text ((sp, i) :: (sp2, i2) :: l)) with (sp ++ show i ++ text ((sp2, i2) :: l)).
           rewrite <- !app_assoc. rewrite word_ok by (auto; lia).
           rewrite (left_some sp) by auto. rewrite F.
           cbn [text]. rewrite <- !app_assoc. rewrite X1. reflexivity.
Qed.

Lemma words_count l ss : map (fun x : list Z * item => word (snd x)) l = concat (map words_of ss) ->
  line_ok l -> (List.length ss <= List.length (text l))%nat.
Proof.
  intros H Hl.
  assert (A : (List.length ss <= List.length l)%nat).
  { rewrite <- (map_length (fun x : list Z * item => word (snd x))), H. clear.
    induction ss as [|s ss IH]; auto. cbn [map concat]. rewrite app_length.
    destruct s; cbn [words_of List.length]; lia. }
  assert (B : (List.length l <= List.length (text l))%nat).
  { clear - Hl. induction l as [|[sp i] l IH]; auto. cbn [text]. rewrite !app_length.
    destruct (Hl sp i) as (_ & G); [left; auto|]. apply show_len in G.
    assert (line_ok l) by (eapply line_tl; eauto). cbn [List.length]. apply IH in H. lia. }
  lia.
Qed.

Definition start_ok (st : state) : Prop :=
  forall k o, nth_error os k = Some o -> rep (def k) (vals st k) /\
    (o_kind o = KMulti <-> exists ws, def k = MList ws) /\ (forall ws, def k = MList ws -> ws = []).

Lemma start_inv st R : start_ok st -> (R < maxlen)%nat -> Inv [] (specified st) R st.
Proof.
  intros H L k o N. destruct (H k o N) as (H1 & H2 & H3). cbn [existsb]. rewrite orb_false_r.
  split; auto. exists (def k). split; [|split; auto].
  - unfold means. cbn. destruct (o_kind o) eqn:K; auto.
    destruct H2 as (H2 & _). destruct (H2 eq_refl) as (ws & W). exists ws. rewrite app_nil_r. auto.
  - intros ws W. rewrite (H3 ws W). cbn. lia.
Qed.

Theorem options_ok l tail ss st :
  line_ok l -> apart l -> blank tail -> not_empty_last l tail ->
  map (fun x => word (snd x)) l = concat (map words_of ss) ->
  (forall s, In s ss -> valid numeral os s) ->
  (List.length (text l ++ tail) < maxlen)%nat -> start_ok st ->
  exists st', options_init maxlen fold hex dec tab (text l ++ tail) st = Ok (Some st') /\
  forall k o, nth_error os k = Some o ->
    (exists m, means numeral k o ss (def k) m /\ rep m (vals st' k)) /\
    specified st' k = specified st k || existsb (fun s => Nat.eqb (key s) k) ss.
Proof.
  intros Hl Ha Ht Hn Hw Hv Hm Hs. unfold options_init.
  pose proof (words_count l ss Hw Hl) as C.
  set (f := (S (List.length (text l ++ tail)) - List.length ss)%nat).
  replace (S (List.length (text l ++ tail))) with (List.length ss + f)%nat
    by (unfold f; rewrite app_length; lia).
  destruct (run_ok ss l tail [] (specified st) st f) as (st' & E1 & E2); auto.
  - apply blank_starts; auto.
  - apply start_inv; auto.
  - exists st'. rewrite E1. split.
    + destruct f eqn:F. { unfold f in F. rewrite app_length in F. lia. }
      cbn [parse]. rewrite word_end by auto. reflexivity.
    + intros k o N. destruct (E2 k o N) as ((m & M1 & M2 & _) & S). split; eauto.
Qed.

(** Whatever follows, after settings a bad one ends in a usage error. *)
Lemma refused l rest ss st :
  line_ok l -> apart l -> starts_blank rest -> not_empty_last l rest ->
  map (fun x => word (snd x)) l = concat (map words_of ss) ->
  (forall s, In s ss -> valid numeral os s) ->
  (List.length (text l ++ rest) < maxlen)%nat -> start_ok st ->
  (forall f st', parse maxlen fold hex dec tab (S f) rest st' = Ok None) ->
  options_init maxlen fold hex dec tab (text l ++ rest) st = Ok None.
Proof.
  intros Hl Ha Ht Hn Hw Hv Hm Hs HR. unfold options_init.
  pose proof (words_count l ss Hw Hl) as C.
  set (f := (List.length (text l ++ rest) - List.length ss)%nat).
  replace (S (List.length (text l ++ rest))) with (List.length ss + S f)%nat
    by (unfold f; rewrite app_length; lia).
  destruct (run_ok ss l rest [] (specified st) st (S f)) as (st' & E1 & E2); auto.
  - apply start_inv; auto.
  - rewrite E1. apply HR.
Qed.

Lemma unknown_step sp i rest : blank sp -> good i -> starts_blank rest ->
  (List.length (word i) < maxlen)%nat -> word i <> [] ->
  ~ In (fold 34) (map fold (word i)) ->
  (forall o w, In o os -> In w (all_words o) -> map fold (word i) <> map fold w) ->
  forall f st, parse maxlen fold hex dec tab (S f) (sp ++ show i ++ rest) st = Ok None.
Proof.
  intros B G S L Wn Q U f st. cbn [parse]. rewrite word_ok by auto.
  unfold left_of. destruct (word i) eqn:W; [congruence|]. rewrite <- W in *.
  rewrite find_none; auto. intros e E. apply in_map_iff in E. destruct E as (o & <- & O).
  apply match_none; auto. intros w' W'. apply (U o); auto.
Qed.

Lemma number_step sp i sp2 i2 rest k o n neg mn mx : blank sp -> good i -> blank sp2 -> sp2 <> [] ->
  good i2 -> starts_blank rest -> (List.length (word i) < maxlen)%nat ->
  (List.length (word i2) < maxlen)%nat ->
  nth_error os k = Some o -> o_kind o = KNum neg mn mx -> In n (names o) -> word i = on_ n ->
  (forall v, hex (word i2) = Some v \/ hex (word i2) = None /\ dec (word i2) = Some v ->
    ~ (mn <= v <= mx)) \/ (neg = false /\ exists r, word i2 = DASH :: r) ->
  forall f st, parse maxlen fold hex dec tab (S f) (sp ++ show i ++ sp2 ++ show i2 ++ rest) st = Ok None.
Proof.
  intros B G B2 Sn G2 S L L2 No K Nn Wi Bad f st. cbn [parse].
  assert (Oi : In o os) by (eapply nth_error_In; eauto).
  rewrite word_ok; auto.
  2:{ destruct sp2 as [|c sp2]; [congruence|]. cbn. apply B2. left; auto. }
  rewrite Wi. assert (LF : forall r, left_of (on_ n) r = Some r) by reflexivity.
  assert (F : find fold tab 0 (on_ n) = Some (k, ent o, AVal)).
  { apply find_word; auto.
    - unfold all_words. apply in_or_app. left. apply in_map; auto.
    - rewrite on_match by auto. rewrite K. reflexivity. }
  rewrite LF, F. unfold read_value. rewrite word_ok by auto.
  destruct (left_of (word i2) rest); [|reflexivity].
  unfold ent. cbn [e_type]. rewrite K.
  assert (RV : (match word i2 with
      | [] => Ok None
      | c :: _ =>
        if negb neg && (c =? DASH) then Ok None
        else match (match hex (word i2) with Some y => Some y | None => dec (word i2) end) with
             | None => Ok None
             | Some y => if (y <? mn) || (mx <? y) then Ok None else Ok (Some (VNum y, l))
             end
      end) = Ok (@None (value * list Z))).
  { destruct (word i2) as [|c r] eqn:W; auto.
    destruct (negb neg && (c =? DASH)) eqn:D; auto.
    destruct Bad as [Bad|(-> & r' & R)].
    2:{ injection R as -> ->. discriminate. }
    destruct (match hex (c :: r) with Some y => Some y | None => dec (c :: r) end) as [y|] eqn:Y; auto.
    assert (X : ~ (mn <= y <= mx)).
    { apply Bad. destruct (hex (c :: r)); [left; congruence|right; auto]. }
    destruct (Z.ltb_spec y mn); auto. destruct (Z.ltb_spec mx y); auto. lia. }
  destruct neg; cbn [type_of]; cbn [negb] in RV |- *; rewrite RV; reflexivity.
Qed.

(** An empty value at the very end. *)
Lemma empty_step sp i sp2 i2 k o n : blank sp -> good i -> blank sp2 -> sp2 <> [] ->
  good i2 -> (List.length (word i) < maxlen)%nat -> (0 < maxlen)%nat ->
  nth_error os k = Some o -> o_kind o <> KBool -> In n (names o) -> word i = on_ n ->
  word i2 = [] ->
  forall f st, parse maxlen fold hex dec tab (S f) (sp ++ show i ++ sp2 ++ show i2) st = Ok None.
Proof.
  intros B G B2 Sn G2 L L2 No K Nn Wi Em f st. cbn [parse].
  assert (Oi : In o os) by (eapply nth_error_In; eauto).
  rewrite word_ok; auto.
  2:{ destruct sp2 as [|c sp2]; [congruence|]. cbn. apply B2. left; auto. }
  rewrite Wi. assert (LF : forall r, left_of (on_ n) r = Some r) by reflexivity.
  assert (F : find fold tab 0 (on_ n) = Some (k, ent o, AVal)).
  { apply find_word; auto.
    - unfold all_words. apply in_or_app. left. apply in_map; auto.
    - rewrite on_match by auto. destruct (o_kind o); congruence. }
  rewrite LF, F. unfold read_value.
  rewrite <- (app_nil_r (show i2)), word_ok by (cbn; auto; rewrite Em; cbn; lia).
  rewrite Em. reflexivity.
Qed.
End Settings.

(** The word -"" is taken for the first flag without an alias. *)
Lemma quotes_ok maxlen fold hex dec o r st : (4 <= maxlen)%nat -> o_kind o = KBool -> o_alias o = None ->
  exists st', options_init maxlen fold hex dec (map ent (o :: r)) [45; 34; 34] st = Ok (Some st') /\
    vals st' 0%nat = VBool true.
Proof.
  intros L K A. unfold options_init. cbn [List.length parse].
  assert (W : get_option_word maxlen [45; 34; 34] = (Some [], [45; 34; 34])).
  { change [45; 34; 34] with ([] ++ show (Plain [45; 34; 34]) ++ []) at 1.
    rewrite word_ok; cbn [word]; auto.
    - intros c [].
    - cbn. split.
      + intros c [<-|[<-|[<-|[]]]]; unfold space; lia.
      + exists 45, [34; 34]. split; auto. unfold quote. lia.
    - exact I. }
  rewrite W. cbn [map find].
  assert (M : match_entry fold (ent o) [45; 34; 34] = Some (ABool true)).
  { unfold match_entry, ent. cbn [e_type e_name e_alt]. rewrite K, A. cbn [type_of].
    assert (X : has_alt {| e_name := o_name o; e_alt := NO_ALT; e_type := TBool |} &&
      eqs fold [45; 34; 34] (on_word NO_ALT) = true).
    { cbn. rewrite !Z.eqb_refl. reflexivity. }
    rewrite X, orb_true_r. reflexivity. }
  rewrite M. rewrite (word_end maxlen []) by (intros c []).
  eexists. split; reflexivity.
Qed.

(** [distinct] can be computed. *)
Definition distinctb (fold : Z -> Z) (os : list option_) : bool :=
  let ne a b := negb (eqs fold a b) in
  (fix go os := match os with
   | [] => true
   | o :: r =>
     forallb (fun o' => forallb (fun w => forallb (ne w) (all_words o')) (all_words o)) r && go r
   end) os &&
  forallb (fun o =>
    forallb (fun w => forallb (ne w) (map off_ (names o))) (map on_ (names o)) &&
    forallb (fun w => forallb (fun c => negb (fold 34 =? c)) (map fold w)) (all_words o) &&
    match o_alias o with Some [] => false | _ => true end) os.

Lemma distinctb_ok fold os : distinctb fold os = true -> distinct fold os.
Proof.
  unfold distinctb. intros H. apply andb_true_iff in H. destruct H as (H1 & H2).
  rewrite forallb_forall in H2.
  assert (NE : forall a b, negb (eqs fold a b) = true -> map fold a <> map fold b).
  { intros a b N Q. apply (eqs_iff fold) in Q. rewrite Q in N. discriminate. }
  assert (P : forall j k o o' w w', (j < k)%nat -> nth_error os j = Some o -> nth_error os k = Some o' ->
    In w (all_words o) -> In w' (all_words o') -> map fold w <> map fold w').
  { clear H2. revert H1. induction os as [|x os IH]; intros H1 j k o o' w w' L Nj Nk W W'.
    - destruct j; discriminate.
    - apply andb_true_iff in H1. destruct H1 as (A & B).
      destruct k as [|k]; [lia|]. cbn in Nk. destruct j as [|j].
      + cbn in Nj. injection Nj as ->. rewrite forallb_forall in A.
        specialize (A o' (nth_error_In _ _ Nk)). rewrite forallb_forall in A.
        specialize (A w W). rewrite forallb_forall in A. apply NE. apply A; auto.
      + cbn in Nj. apply (IH B j k o o'); auto. lia. }
  split; [|split; [|split]].
  - intros j k o o' w w' N Nj Nk W W' Q. destruct (Nat.lt_ge_cases j k).
    + apply (P j k o o' w w'); auto.
    + apply (P k j o' o w' w); auto. lia.
  - intros o w w' O K W W'. specialize (H2 o O). apply andb_true_iff in H2. destruct H2 as (H2 & _).
    apply andb_true_iff in H2. destruct H2 as (H2 & _). rewrite forallb_forall in H2.
    specialize (H2 w W). rewrite forallb_forall in H2. apply NE. auto.
  - intros o w O W Q. specialize (H2 o O). apply andb_true_iff in H2. destruct H2 as (H2 & _).
    apply andb_true_iff in H2. destruct H2 as (_ & H2). rewrite forallb_forall in H2.
    specialize (H2 w W). rewrite forallb_forall in H2. specialize (H2 _ Q).
    rewrite Z.eqb_refl in H2. discriminate.
  - intros o a O A. specialize (H2 o O). apply andb_true_iff in H2. destruct H2 as (_ & H2).
    rewrite A in H2. destruct a; congruence.
Qed.
