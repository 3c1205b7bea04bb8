(** Proofs about text files and dictionaries. *)
From Verif Require Import Base Dict_Model Dict_Spec.
From Coq Require Import Permutation.
Local Open Scope Z_scope.

Ltac ll := unfold len in *; repeat rewrite ?app_length, ?List.app_length in *; cbn [List.length] in *; lia.

Lemma len_app a b : len (a ++ b) = len a + len b.
Proof. ll. Qed.
Lemma len_cons x a : len (x :: a) = 1 + len a.
Proof. ll. Qed.
Lemma len_nil : len [] = 0.
Proof. reflexivity. Qed.
Lemma len_pos a : 0 <= len a.
Proof. ll. Qed.

Lemma rd_at f pre b rest : f_bytes f = pre ++ b :: rest -> rd f (len pre) = Ok b.
Proof.
  intros E. unfold rd. pose proof (len_pos pre).
  destruct (Z.ltb_spec (len pre) 0); [lia|].
  assert (L : eof f = len pre + 1 + len rest).
  { unfold eof. rewrite E, len_app, len_cons. lia. }
  pose proof (len_pos rest). destruct (Z.ltb_spec (len pre) (eof f)); [|lia].
  unfold len at 1. rewrite Nat2Z.id, E, app_nth2, Nat.sub_diag by lia. reflexivity.
Qed.
Lemma mapped_ge f : 0 < f_page f -> eof f <= mapped f.
Proof.
  intros P. unfold mapped.
  pose proof (Z.div_mod (eof f + f_page f - 1) (f_page f) ltac:(lia)).
  pose proof (Z.mod_pos_bound (eof f + f_page f - 1) (f_page f) P). nia.
Qed.
Lemma room_mapped f : room f -> eof f < mapped f.
Proof.
  intros [P R]. pose proof (mapped_ge f P).
  destruct (Z.eq_dec (eof f) (mapped f)) as [E|]; [|lia].
  exfalso. apply R. rewrite E. unfold mapped. apply Z.mod_mul. lia.
Qed.
Lemma rd_end f : room f -> rd f (eof f) = Ok 0.
Proof.
  intros R. pose proof (room_mapped f R). unfold rd.
  assert (0 <= eof f) by apply len_pos.
  destruct (Z.ltb_spec (eof f) 0); [lia|]. rewrite Z.ltb_irrefl.
  destruct (Z.ltb_spec (eof f) (mapped f)); [auto|lia].
Qed.
Lemma rd_past f : 0 < f_page f -> eof f mod f_page f = 0 -> rd f (eof f) = UB.
Proof.
  intros P R. unfold rd. assert (0 <= eof f) by apply len_pos.
  destruct (Z.ltb_spec (eof f) 0); [lia|]. rewrite Z.ltb_irrefl.
  assert (E : mapped f = eof f).
  { unfold mapped. apply Z.mod_divide in R; [|lia]. destruct R as [k ->].
    replace (k * f_page f + f_page f - 1) with (f_page f - 1 + k * f_page f) by lia.
    rewrite Z.div_add, Z.div_small by lia. lia. }
  rewrite E, Z.ltb_irrefl. reflexivity.
Qed.

Lemma strnchr_some f c : forall pre rest n, f_bytes f = pre ++ c ++ 10 :: rest ->
  Forall char_ok c -> (List.length c < n)%nat ->
  strnchr f n (len pre) = Ok (Some (len pre + len c)).
Proof.
  induction c as [|b c IH]; intros pre rest n E F L; destruct n as [|n]; try (cbn in L; lia);
    cbn [strnchr]; cbn [app] in E; rewrite (rd_at _ _ _ _ E); cbn [bind].
  - rewrite len_nil, Z.add_0_r. reflexivity.
  - inversion F as [|? ? [N1 N2] F']; subst. unfold LF, NUL.
    destruct (Z.eqb_spec b 10); [lia|]. destruct (Z.eqb_spec b 0); [lia|].
    specialize (IH (pre ++ [b]) rest n). rewrite len_app, len_cons, len_nil in IH.
    replace (len pre + 1) with (len pre + (1 + 0)) by lia.
    rewrite IH; auto.
    + rewrite len_cons. do 2 f_equal. lia.
    + rewrite <- app_assoc. exact E.
    + cbn in L. lia.
Qed.
Lemma strnchr_none f c : forall pre n, f_bytes f = pre ++ c -> Forall char_ok c ->
  n = List.length c -> strnchr f n (len pre) = Ok None.
Proof.
  induction c as [|b c IH]; intros pre n E F ->; cbn [strnchr List.length]; auto.
  rewrite (rd_at _ _ _ _ E); cbn [bind].
  inversion F as [|? ? [N1 N2] F']; subst. unfold LF, NUL.
  destruct (Z.eqb_spec b 10); [lia|]. destruct (Z.eqb_spec b 0); [lia|].
  specialize (IH (pre ++ [b]) (List.length c)). rewrite len_app, len_cons, len_nil in IH.
  replace (len pre + 1) with (len pre + (1 + 0)) by lia.
  apply IH; auto. rewrite <- app_assoc. exact E.
Qed.

Lemma skip_ends_spec f e : forall pre rest n, f_bytes f = pre ++ e ++ rest ->
  Forall (fun b => b = 13 \/ b = 10) e -> (List.length e < n)%nat ->
  (rest <> [] \/ room f) -> (forall b r, rest = b :: r -> b <> 10 /\ b <> 13) ->
  skip_ends f n (len pre) = Ok (len pre + len e).
Proof.
  induction e as [|b e IH]; intros pre rest n E F L R G; destruct n as [|n];
    try (cbn in L; lia); cbn [skip_ends]; cbn [app] in E.
  - rewrite len_nil, Z.add_0_r. destruct rest as [|b r].
    + destruct R as [R|R]; [congruence|]. rewrite app_nil_r in E.
      assert (X : len pre = eof f) by (unfold eof; rewrite E; auto).
      rewrite X, rd_end by auto. reflexivity.
    + rewrite (rd_at _ _ _ _ E); cbn [bind]. destruct (G b r eq_refl).
      unfold CR, LF. destruct (Z.eqb_spec b 13); [lia|]. destruct (Z.eqb_spec b 10); [lia|]. auto.
  - rewrite (rd_at _ _ _ _ E); cbn [bind]. inversion F as [|? ? N F']; subst.
    replace ((b =? CR) || (b =? LF)) with true
      by (unfold CR, LF; destruct N as [-> | ->]; reflexivity).
    specialize (IH (pre ++ [b]) rest n). rewrite len_app, len_cons, len_nil in IH.
    replace (len pre + 1) with (len pre + (1 + 0)) by lia.
    rewrite IH; auto.
    + rewrite len_cons. f_equal. lia.
    + rewrite <- app_assoc. exact E.
    + cbn in L. lia.
Qed.
Lemma skip_ends_ub f e : forall pre n, f_bytes f = pre ++ e ->
  Forall (fun b => b = 13 \/ b = 10) e -> (List.length e < n)%nat ->
  0 < f_page f -> eof f mod f_page f = 0 -> skip_ends f n (len pre) = UB.
Proof.
  induction e as [|b e IH]; intros pre n E F L P M; destruct n as [|n];
    try (cbn in L; lia); cbn [skip_ends].
  - rewrite app_nil_r in E. assert (X : len pre = eof f) by (unfold eof; rewrite E; auto).
    rewrite X, rd_past by auto. reflexivity.
  - rewrite (rd_at _ _ _ _ E); cbn [bind]. inversion F as [|? ? N F']; subst.
    replace ((b =? CR) || (b =? LF)) with true
      by (unfold CR, LF; destruct N as [-> | ->]; reflexivity).
    specialize (IH (pre ++ [b]) n). rewrite len_app, len_cons, len_nil in IH.
    replace (len pre + 1) with (len pre + (1 + 0)) by lia.
    apply IH; auto.
    + rewrite <- app_assoc. exact E.
    + cbn in L. lia.
Qed.

(** trimming *)
Lemma rtrim_snoc_ws c b : is_ws b = true -> rtrim (c ++ [b]) = rtrim c.
Proof. intros W. unfold rtrim. rewrite rev_app_distr. cbn. rewrite W. reflexivity. Qed.
Lemma rtrim_snoc_no c b : is_ws b = false -> rtrim (c ++ [b]) = c ++ [b].
Proof.
  intros W. unfold rtrim. rewrite rev_app_distr. cbn. rewrite W. cbn.
  rewrite rev_involutive. reflexivity.
Qed.
Lemma ltrim_split c : exists a, c = a ++ ltrim c /\ Forall ws a.
Proof.
  induction c as [|b c [a [E F]]]; cbn.
  - exists []. auto.
  - destruct (is_ws b) eqn:W.
    + exists (b :: a). cbn. rewrite <- E. split; auto. constructor; auto.
      unfold is_ws in W. apply Bool.orb_true_iff in W. unfold ws. lia.
    + exists []. auto.
Qed.
Lemma rtrim_split c : exists a, c = rtrim c ++ a /\ Forall ws a.
Proof.
  destruct (ltrim_split (rev c)) as [a [E F]]. exists (rev a). unfold rtrim.
  rewrite <- rev_app_distr, <- E, rev_involutive. split; auto.
  apply Forall_rev. exact F.
Qed.
Lemma trim_end_spec f : forall c pre rest n, f_bytes f = pre ++ c ++ rest ->
  (List.length c < n)%nat ->
  trim_end f n (len pre) (len pre + len c) = Ok (len pre + len (rtrim c)).
Proof.
  intros c. induction c as [|b c IH] using rev_ind; intros pre rest n E L;
    (destruct n as [|n]; [cbn in L; lia|]); cbn [trim_end].
  - rewrite len_nil, Z.add_0_r, Z.ltb_irrefl. cbn. rewrite Z.add_0_r. reflexivity.
  - rewrite len_app, len_cons, len_nil. pose proof (len_pos c).
    destruct (Z.ltb_spec (len pre) (len pre + (len c + (1 + 0)))); [|lia].
    replace (len pre + (len c + (1 + 0)) - 1) with (len (pre ++ c)) by (rewrite len_app; lia).
    rewrite (rd_at f (pre ++ c) b rest); [|rewrite E, <- !app_assoc; reflexivity]. cbn [bind].
    change ((b =? SP) || (b =? TAB)) with (is_ws b). destruct (is_ws b) eqn:W.
    + rewrite rtrim_snoc_ws by auto. rewrite len_app. eapply IH with (rest := b :: rest).
      * rewrite E, <- !app_assoc. reflexivity.
      * rewrite app_length in L. cbn in L. lia.
    + rewrite rtrim_snoc_no by auto. rewrite len_app, len_cons, len_nil. reflexivity.
Qed.
Lemma trim_start_spec f : forall c pre rest n, f_bytes f = pre ++ c ++ rest ->
  (List.length c < n)%nat ->
  trim_start f n (len pre) (len pre + len c) = Ok (len pre + (len c - len (ltrim c))).
Proof.
  intros c. induction c as [|b c IH]; intros pre rest n E L;
    (destruct n as [|n]; [cbn in L; lia|]); cbn [trim_start].
  - rewrite len_nil, Z.add_0_r, Z.ltb_irrefl. cbn. rewrite Z.add_0_r. reflexivity.
  - rewrite len_cons. pose proof (len_pos c).
    destruct (Z.ltb_spec (len pre) (len pre + (1 + len c))); [|lia].
    cbn [app] in E. rewrite (rd_at _ _ _ _ E); cbn [bind].
    change ((b =? SP) || (b =? TAB)) with (is_ws b). cbn [ltrim]. destruct (is_ws b) eqn:W.
    + specialize (IH (pre ++ [b]) rest n). rewrite len_app, len_cons, len_nil in IH.
      replace (len pre + 1) with (len pre + (1 + 0)) by lia.
      replace (len pre + (1 + len c)) with (len pre + (1 + 0) + len c) by lia.
      rewrite IH.
      * f_equal. lia.
      * rewrite <- app_assoc. exact E.
      * cbn in L. lia.
    + rewrite len_cons. f_equal. lia.
Qed.

Lemma fuel_enough f l : 0 < f_page f -> len l <= eof f -> (List.length l < fuel_of f)%nat.
Proof. intros P L. pose proof (mapped_ge f P). unfold fuel_of. unfold len in L. lia. Qed.

(** * One line *)
Lemma find_line f pre c t rest : 0 < f_page f -> f_bytes f = pre ++ c ++ t ++ rest ->
  content c -> term t -> (rest <> [] \/ room f) ->
  (forall b r, rest = b :: r -> b <> 10 /\ b <> 13) ->
  find_next_line f (len pre) =
    Ok (len pre + len c + len t, len pre + (len (rtrim c) - len (trim c)),
        len pre + len (rtrim c)).
Proof.
  intros P E (C0 & C1 & C2 & C3) (e & T1 & T2) R G. unfold find_next_line.
  assert (EO : eof f = len pre + len c + len t + len rest).
  { unfold eof. rewrite E, !len_app. lia. }
  pose proof (len_pos pre) as P1. pose proof (len_pos c) as P2.
  pose proof (len_pos t) as P3. pose proof (len_pos rest) as P4. pose proof (len_pos e) as P5.
  assert (RT : len (rtrim c) <= len c).
  { destruct (rtrim_split c) as [a [X _]]. rewrite X at 2. rewrite len_app.
    pose proof (len_pos a). lia. }
  destruct (exists_last C0) as (c0 & z & EZ).
  assert (Z13 : z <> 13).
  { apply (C3 z (rev c0)). rewrite EZ, rev_app_distr. reflexivity. }
  (* where the line feed is *)
  assert (Q : exists cr, (cr = [] \/ cr = [13]) /\ t = cr ++ 10 :: e).
  { destruct T2 as [-> | ->]; [exists []|exists [13]]; auto. }
  destruct Q as (cr & CR0 & ->). rewrite len_app, len_cons in *.
  assert (CRF : Forall char_ok (c ++ cr)).
  { apply Forall_app. split; auto. destruct CR0 as [-> | ->]; repeat constructor; unfold char_ok; lia. }
  assert (E1 : f_bytes f = pre ++ (c ++ cr) ++ 10 :: (e ++ rest)).
  { rewrite E, <- !app_assoc. reflexivity. }
  assert (CL : len cr <= 1) by (destruct CR0 as [-> | ->]; cbn; lia).
  pose proof (len_pos cr) as P6.
  rewrite (strnchr_some f (c ++ cr) pre (e ++ rest) _ E1 CRF).
  2:{ rewrite EO. unfold len in *. rewrite app_length. lia. }
  cbn [bind]. rewrite len_app.
  replace (len pre + (len c + len cr)) with (len (pre ++ c ++ cr)) by (rewrite !len_app; lia).
  rewrite (skip_ends_spec f (10 :: e) (pre ++ c ++ cr) rest); auto.
  2:{ rewrite E1. rewrite <- !app_assoc. reflexivity. }
  2:{ apply fuel_enough; auto. rewrite len_cons. lia. }
  cbn [bind].
  assert (B : rd f (len (pre ++ c ++ cr) - 1) = Ok (match cr with [] => z | _ => 13 end)).
  { destruct CR0 as [-> | ->].
    - rewrite app_nil_r, EZ, app_assoc, len_app, len_cons, len_nil.
      replace (len (pre ++ c0) + (1 + 0) - 1) with (len (pre ++ c0)) by lia.
      eapply rd_at. rewrite E, EZ, <- !app_assoc. reflexivity.
    - rewrite app_assoc, len_app, len_cons, len_nil.
      replace (len (pre ++ c) + (1 + 0) - 1) with (len (pre ++ c)) by lia.
      eapply rd_at. rewrite E, <- !app_assoc. reflexivity. }
  rewrite B. cbn [bind].
  assert (NL : (if (match cr with [] => z | _ => 13 end) =? CR then len (pre ++ c ++ cr) - 1
                else len (pre ++ c ++ cr)) = len pre + len c).
  { unfold CR. destruct CR0 as [-> | ->].
    - destruct (Z.eqb_spec z 13); [lia|]. rewrite app_nil_r, len_app. reflexivity.
    - change (13 =? 13) with true. cbv iota. rewrite !len_app, len_cons, len_nil. lia. }
  rewrite NL. rewrite (trim_end_spec f c pre _ _ E).
  2:{ apply fuel_enough; auto. lia. }
  cbn [bind].
  destruct (rtrim_split c) as [a [X _]].
  rewrite (trim_start_spec f (rtrim c) pre (a ++ (cr ++ 10 :: e) ++ rest)).
  2:{ rewrite E. rewrite X at 1. rewrite <- !app_assoc. reflexivity. }
  2:{ apply fuel_enough; auto. lia. }
  cbn [bind]. unfold trim. do 2 f_equal. f_equal. rewrite !len_app, len_cons. lia.
Qed.
Lemma find_last f pre c : 0 < f_page f -> f_bytes f = pre ++ c -> Forall char_ok c ->
  find_next_line f (len pre) = Ok (eof f + 1, len pre + (len c - len (ltrim c)), len pre + len c).
Proof.
  intros P E C. unfold find_next_line.
  assert (EO : eof f = len pre + len c) by (unfold eof; rewrite E, !len_app; lia).
  pose proof (len_pos pre) as P1. pose proof (len_pos c) as P2.
  rewrite (strnchr_none f c pre _ E C).
  2:{ rewrite EO. unfold len. lia. }
  cbn [bind]. rewrite EO. rewrite (trim_start_spec f c pre []).
  2:{ rewrite app_nil_r. exact E. }
  2:{ apply fuel_enough; auto. lia. }
  reflexivity.
Qed.

(** * The loop *)
Lemma rd_trim f pre c a b m : f_bytes f = pre ++ c ++ a -> trim c = b :: m ->
  rd f (len pre + (len (rtrim c) - len (trim c))) = Ok b.
Proof.
  intros E T. destruct (rtrim_split c) as [y [X _]]. destruct (ltrim_split (rtrim c)) as [x [Y _]].
  fold (trim c) in Y. rewrite T in *.
  replace (len pre + (len (rtrim c) - len (b :: m))) with (len (pre ++ x)).
  - eapply rd_at with (rest := m ++ y ++ a). rewrite E. rewrite X at 1. rewrite Y at 1.
    rewrite <- !app_assoc. reflexivity.
  - rewrite Y, !len_app. lia.
Qed.
Lemma loop_line A f (body : A -> Z -> Z -> Z -> res (A * bool)) n a pre c t rest :
  0 < f_page f -> f_bytes f = pre ++ c ++ t ++ rest ->
  content c -> term t -> (rest <> [] \/ room f) ->
  (forall b r, rest = b :: r -> b <> 10 /\ b <> 13) ->
  loop f body (S n) a (len pre) =
    if keep (trim c) then
      let* (a1, ok) := body a (len pre) (len pre + (len (rtrim c) - len (trim c)))
                            (len pre + len (rtrim c)) in
      if ok : bool then loop f body n a1 (len (pre ++ c ++ t)) else Ok (a1, false)
    else loop f body n a (len (pre ++ c ++ t)).
Proof.
  intros P E C T R G. cbn [loop].
  assert (L : len pre < eof f).
  { unfold eof. rewrite E, !len_app. destruct C as (C0 & _). destruct c; [congruence|].
    rewrite len_cons. pose proof (len_pos c). pose proof (len_pos t). pose proof (len_pos rest). lia. }
  destruct (Z.ltb_spec (len pre) (eof f)); [|lia].
  rewrite (find_line f pre c t rest) by auto. cbn [bind].
  replace (len pre + len c + len t) with (len (pre ++ c ++ t)) by (rewrite !len_app; lia).
  destruct (trim c) as [|b m] eqn:TR.
  - rewrite len_nil, Z.sub_0_r, Z.eqb_refl. reflexivity.
  - rewrite <- TR. destruct (Z.eqb_spec (len pre + (len (rtrim c) - len (trim c)))
      (len pre + len (rtrim c))) as [Q|_].
    { rewrite TR, len_cons in Q. pose proof (len_pos m). lia. }
    rewrite (rd_trim f pre c (t ++ rest) b m) by auto. cbn [bind].
    unfold HASH. rewrite TR. cbn [keep]. destruct (b =? 35); reflexivity.
Qed.
Lemma loop_last A f (body : A -> Z -> Z -> Z -> res (A * bool)) n a pre c :
  0 < f_page f -> f_bytes f = pre ++ c -> c <> [] -> Forall char_ok c ->
  loop f body (S (S n)) a (len pre) =
    if keep (ltrim c) then
      let* (a1, ok) := body a (len pre) (len pre + (len c - len (ltrim c)))
                            (len pre + len c) in
      Ok (a1, ok)
    else Ok (a, true).
Proof.
  intros P E N C. remember (S n) as k. cbn [loop].
  assert (L : len pre < eof f).
  { unfold eof. rewrite E, !len_app. destruct c; [congruence|].
    rewrite len_cons. pose proof (len_pos c). lia. }
  destruct (Z.ltb_spec (len pre) (eof f)); [|lia].
  rewrite (find_last f pre c) by auto. cbn [bind].
  assert (EX : forall a0, loop f body k a0 (eof f + 1) = Ok (a0, true)).
  { intros a0. subst k. cbn [loop]. destruct (Z.ltb_spec (eof f + 1) (eof f)); [lia|auto]. }
  destruct (ltrim_split c) as [x [Y _]].
  destruct (ltrim c) as [|b m] eqn:TR.
  - rewrite len_nil, Z.sub_0_r, Z.eqb_refl. apply EX.
  - destruct (Z.eqb_spec (len pre + (len c - len (b :: m))) (len pre + len c)) as [Q|_].
    { rewrite len_cons in Q. pose proof (len_pos m). lia. }
    assert (RB : rd f (len pre + (len c - len (b :: m))) = Ok b).
    { replace (len pre + (len c - len (b :: m))) with (len (pre ++ x)).
      - eapply rd_at with (rest := m). rewrite E, Y, <- !app_assoc. reflexivity.
      - rewrite Y, !len_app. lia. }
    rewrite RB. cbn [bind]. unfold HASH. cbn [keep].
    destruct (b =? 35); cbn [negb]; [apply EX|].
    destruct (body a _ _ _) as [[a1 ok]| |]; cbn [bind]; auto.
    destruct ok; [apply EX|auto].
Qed.
Lemma loop_done A f (body : A -> Z -> Z -> Z -> res (A * bool)) n a :
  loop f body (S n) a (eof f) = Ok (a, true).
Proof. cbn [loop]. rewrite Z.ltb_irrefl. reflexivity. Qed.

(** what follows a line in a text begins well *)
Lemma text_begins ls last : lines_ok ls -> tail_ok last ->
  forall b r, text ls last = b :: r -> b <> 10 /\ b <> 13.
Proof.
  intros L [T1 T2] b r E. unfold text in E. destruct ls as [|[c t] ls]; cbn [flat_map] in E.
  - cbn [app] in E. split; [|eapply T2; eauto]. rewrite E in T1. inversion T1 as [|? ? [? ?]]; auto.
  - inversion L as [|? ? [(C0 & C1 & C2 & C3) T] L']; subst. cbn [fst snd] in *.
    destruct c as [|z c]; [congruence|]. cbn [app] in E. injection E as E0 E1. subst z.
    split; [inversion C1 as [|? ? [? ?]]; auto|eapply C2; eauto].
Qed.
