(** Rows of the table that follow a contract: whole walks. *)
From Verif Require Import Base Sysarg_Model Sysarg_Spec Sysarg_Table Sysarg_Proofs.
From Coq Require Import String.
Local Open Scope Z_scope.

Definition width (u : use) : nat :=
  match u with WritesCounted _ _ _ => 2%nat | _ => 1%nat end.

Fixpoint steps (w : world) (c : list use) (t : list entry) (s : cls) : cls :=
  match c with
  | [] => s
  | u :: c' => steps w c' (skipn (width u) t) (step w u (firstn (width u) t) s)
  end.

Lemma rows_cons c0 t0 i last u c t :
  rows_ok c0 t0 i last (u :: c) t = true ->
  last < param_of u /\
  row_ok c0 t0 i u (firstn (width u) t) = true /\
  rows_ok c0 t0 (i + width u) (param_of u) c (skipn (width u) t) = true /\
  List.length (firstn (width u) t) = width u.
Proof.
  cbn [rows_ok]. intros H. apply andb_prop in H as [H1 H2].
  apply andb_prop in H2 as [H2 H3]. apply Z.ltb_lt in H1.
  repeat split; auto.
  change (row_ok c0 t0 i u (firstn (width u) t) = true) in H2.
  unfold row_ok in H2. apply andb_prop in H2 as [_ H2].
  destruct u; cbn [width] in *; destruct t as [|e [|e' t]]; cbn in *;
    try discriminate; reflexivity.
Qed.

Lemma rows_params c0 t0 c : forall i last t u,
  rows_ok c0 t0 i last c t = true -> In u c -> last < param_of u.
Proof.
  induction c as [|v c IH]; intros i last t u R I; [destruct I|]; destruct I as [<-|I].
  - apply rows_cons in R. tauto.
  - apply rows_cons in R as (L & _ & R & _). specialize (IH _ _ _ _ R I). lia.
Qed.

Lemma step_first w u es s : first (step w u es s) = first s.
Proof. unfold step. destruct u; cbn; try destruct (_ && _); reflexivity. Qed.

Lemma steps_first w c : forall t s, first (steps w c t s) = first s.
Proof. induction c as [|u c IH]; intros; cbn; [auto|]. now rewrite IH, step_first. Qed.

Lemma step_known w u es s p :
  known (step w u es s) p =
  match room w u with
  | Some v => if p =? param_of u then v else known s p
  | None => known s p
  end.
Proof. unfold step. destruct u; cbn; try destruct (_ && _); reflexivity. Qed.

Lemma step_x_sock w u es s :
  sized u = false \/ first s = false -> x_sock (step w u es s) = x_sock s.
Proof.
  unfold step. destruct u; cbn; intros [H|H]; try reflexivity; try discriminate.
  now rewrite H, andb_false_r.
Qed.

Lemma steps_other w c : forall t s p,
  (forall u, In u c -> param_of u <> p) -> known (steps w c t s) p = known s p.
Proof.
  induction c as [|u c IH]; intros t s p N; cbn [steps]; auto.
  rewrite IH by (intros; apply N; right; auto). rewrite step_known.
  destruct (room w u); auto. specialize (N u (or_introl eq_refl)).
  destruct (Z.eqb_spec p (param_of u)); congruence.
Qed.

Lemma steps_known c0 t0 w c : forall i last t s u v,
  rows_ok c0 t0 i last c t = true -> In u c -> room w u = Some v ->
  known (steps w c t s) (param_of u) = v.
Proof.
  induction c as [|x c IH]; intros i last t s u v R I E; [destruct I|]; destruct I as [<-|I]; cbn [steps].
  - apply rows_cons in R as (L & _ & R & _).
    rewrite steps_other.
    + now rewrite step_known, E, Z.eqb_refl.
    + intros y Y. pose proof (rows_params _ _ _ _ _ _ _ R Y). lia.
  - apply rows_cons in R as (L & _ & R & _). eapply IH; eauto.
Qed.

Lemma steps_x_sock w c : forall t s,
  first s = false \/ filter sized c = [] -> x_sock (steps w c t s) = x_sock s.
Proof.
  induction c as [|u c IH]; intros t s H; cbn [steps]; auto.
  rewrite IH.
  - apply step_x_sock. destruct H as [H|H]; auto. left.
    cbn in H. destruct (sized u); [discriminate|reflexivity].
  - destruct H as [H|H]; [left; now rewrite step_first|right].
    cbn in H. destruct (sized u); [discriminate|exact H].
Qed.

Fixpoint socks (w : world) (c : list use) (t : list entry) (x : Z) : Prop :=
  match c with
  | [] => True
  | u :: c' =>
      (forall p q, u = WritesSized p q -> existsb sock (firstn (width u) t) = true ->
         args w p <> 0 -> 0 < size_at w q -> x = size_at w q) /\
      socks w c' (skipn (width u) t) x
  end.

Lemma socks_none w x c : forall t, filter sized c = [] -> socks w c t x.
Proof.
  induction c as [|u c IH]; intros t F; cbn [socks]; auto.
  cbn in F. destruct (sized u) eqn:S; [discriminate|].
  split; [intros; subst; discriminate|apply IH; auto].
Qed.

Lemma socks_first w c : forall t s,
  first s = true -> (List.length (filter sized c) <= 1)%nat ->
  socks w c t (x_sock (steps w c t s)).
Proof.
  induction c as [|u c IH]; intros t s F L; cbn [socks steps]; auto.
  cbn in L. destruct (sized u) eqn:S; cbn in L.
  - assert (N : filter sized c = []) by (destruct (filter sized c); [auto|cbn in L; lia]).
    split; [|apply socks_none; auto].
    intros p q -> K A0 P0. rewrite steps_x_sock by auto.
    unfold step. rewrite K, F. replace (args w p =? 0) with false by lia.
    replace (0 <? size_at w q) with true by lia. reflexivity.
  - split; [intros; subst; discriminate|]. apply IH; auto. now rewrite step_first.
Qed.

Lemma pre_zeros w t0 m i last s :
  pre_loop w t0 (repeat zero_entry m) i last s = Ok (s, []).
Proof. destruct m; reflexivity. Qed.

Lemma post_zeros w t0 m i prev last ls s :
  post_loop w t0 (repeat zero_entry m) i prev last ls s = Ok [].
Proof. destruct m; reflexivity. Qed.

Section Walk.
Variables (before after : world) (str : Z -> Z) (c0 : list use) (t0 : list entry).
Hypothesis A : forall p, 0 <= args before p < 2 ^ 64.
Hypothesis V4 : forall q, value4 c0 q = true -> args before q < 2 ^ 32.
Hypothesis B : bytes_in (mem before).

Lemma pre_rows m c : forall t i last s,
  rows_ok c0 t0 i last c t = true -> Forall (earnest1 before after str) c ->
  pre_loop before t0 (t ++ repeat zero_entry m) i last s =
  Ok (steps before c t s, flat_map (pre_reps before str) c).
Proof.
  induction c as [|u c IH]; intros t i last s R F.
  - cbn in R. destruct t; [|discriminate]. cbn [app steps flat_map]. apply pre_zeros.
  - apply rows_cons in R as (L & R1 & R2 & LE). inversion F; subst.
    rewrite <- (firstn_skipn (width u) t) at 1. rewrite <- app_assoc.
    erewrite pre_use; try eassumption.
    2: { rewrite LE. apply IH; auto. }
    reflexivity.
Qed.

Hypothesis AA : forall p, args after p = args before p.
Hypothesis BA : bytes_in (mem after).
Hypothesis RA : 0 <= ret after.

Lemma rows_head i last c t m p :
  rows_ok c0 t0 i last c t = true -> p <= last ->
  head_ok (t ++ repeat zero_entry m) p.
Proof.
  destruct c as [|u c]; intros R P.
  - cbn in R. destruct t; [|discriminate]. destruct m; cbn; auto.
    unfold invalid; cbn. now rewrite andb_false_r.
  - apply rows_cons in R as (L & R1 & _ & _). unfold row_ok in R1.
    apply andb_prop in R1 as [R1 _].
    destruct t as [|e t]; [destruct u; discriminate R1|].
    assert (X : param e = param_of u).
    { destruct u; cbn [width firstn] in R1; bools; assumption. }
    cbn. rewrite X. replace (param_of u =? p) with false by lia. reflexivity.
Qed.

Lemma post_rows m c s : forall t i prev last ls,
  rows_ok c0 t0 i last c t = true -> Forall (earnest1 before after str) c ->
  (forall u, In u c -> writing u = true -> Some (known s (param_of u)) = room before u) ->
  socks before c t (x_sock s) ->
  post_loop after t0 (t ++ repeat zero_entry m) i prev last ls s =
  Ok (flat_map (post_reps before after) c).
Proof.
  induction c as [|u c IH]; intros t i prev last ls R F KN XS.
  - cbn in R. destruct t; [|discriminate]. cbn [app flat_map]. apply post_zeros.
  - pose proof (rows_cons _ _ _ _ _ _ _ R) as (L & R1 & R2 & LE). inversion F; subst.
    destruct XS as [X1 X2].
    rewrite <- (firstn_skipn (width u) t) at 1. rewrite <- app_assoc.
    erewrite post_use with (before := before) (str := str); try eassumption.
    + reflexivity.
    + eapply rows_head; [exact R2|lia].
    + apply KN. now left.
    + intros p' l' s' LL. rewrite LE. apply IH; auto.
      * clear - R2 LL. destruct c as [|v c]; cbn in *; auto.
        apply andb_prop in R2 as [P Q]. rewrite Q, andb_true_r.
        apply Z.ltb_lt in P. apply Z.ltb_lt. lia.
      * intros; apply KN; auto. now right.
Qed.
End Walk.

Lemma view_pre w str u : map view_before (pre_reps w str u) = needs1 w str u.
Proof.
  unfold pre_reps. rewrite map_map. rewrite <- (map_id (needs1 w str u)) at 2.
  apply map_ext. intros [[d a] n]. reflexivity.
Qed.

Lemma view_post w w' u : map view_after (post_reps w w' u) = writes1 w w' u.
Proof.
  unfold post_reps. rewrite map_map. rewrite <- (map_id (writes1 w w' u)) at 2.
  apply map_ext. intros [a n]. reflexivity.
Qed.

Lemma map_flat {X Y W} (f : Y -> W) (g : X -> list Y) l :
  map f (flat_map g l) = flat_map (fun x => map f (g x)) l.
Proof. induction l; cbn; auto. now rewrite map_app, IHl. Qed.

Theorem checked_follows c t : checked c t = true -> follows t c.
Proof.
  intros CH before after str s (A & AA & B & BA & RA & F).
  unfold checked in CH. apply andb_prop in CH as [CH S1].
  apply andb_prop in CH as [R LT]. apply Nat.leb_le in LT, S1.
  assert (V4 : forall q, value4 c q = true -> args before q < 2 ^ 32).
  { intros q H. unfold value4 in H. apply existsb_exists in H as (u & I & H).
    destruct u; try discriminate. bools. subst.
    rewrite Forall_forall in F. apply (F _ I). reflexivity. }
  unfold session, iterate_args, iterate_pre, array.
  rewrite (pre_rows before after str c t A V4 B _ c t 0 (-1) _ R F). cbn [bind fst snd].
  rewrite (pre_rows before after str c t A V4 B _ c t 0 (-1) _ R F). cbn [bind fst snd].
  set (s1 := not_first (steps before c t (start_call s))).
  unfold iterate_post, succeeded.
  replace (ret after <? 2 ^ 63) with true by (symmetry; apply Z.ltb_lt; lia).
  unfold array.
  rewrite (post_rows before after str c t A V4 B AA BA ltac:(lia) _ c
             (not_first (steps before c t s1)) t 0 _ (-1) _ R F).
  - cbn [bind]. eexists _, _. split; [reflexivity|].
    unfold needs, writes. rewrite !map_flat. split.
    + apply flat_map_ext. intros; apply view_pre.
    + apply flat_map_ext. intros; apply view_post.
  - intros u I W. cbn [not_first known].
    destruct (room before u) as [v|] eqn:E.
    + f_equal. eapply steps_known; eauto.
    + destruct u; discriminate.
  - cbn [not_first x_sock]. rewrite steps_x_sock by (left; reflexivity).
    cbn [s1 not_first x_sock]. apply socks_first; auto.
Qed.

(** ** The table *)

Definition row (n : string) : list entry :=
  match lookup n linux_table with Some t => t | None => [] end.

Lemma table_checked :
  forallb (fun x => member (fst x) departures || checked (snd x) (row (fst x)))
          kernel_contracts = true.
Proof. vm_compute. reflexivity. Qed.

Lemma table_found :
  forallb (fun x => match lookup (fst x) linux_table with Some _ => true | None => false end)
          kernel_contracts = true.
Proof. vm_compute. reflexivity. Qed.

Theorem table_follows n c :
  In (n, c) kernel_contracts -> member n departures = false ->
  exists t, lookup n linux_table = Some t /\ follows t c.
Proof.
  intros I D. pose proof table_checked as T. rewrite forallb_forall in T.
  specialize (T _ I). cbn [fst snd] in T. rewrite D in T. cbn [orb] in T.
  pose proof table_found as Q. rewrite forallb_forall in Q.
  specialize (Q _ I). cbn [fst] in Q.
  unfold row in T. destruct (lookup n linux_table) as [t|] eqn:L; [|discriminate].
  exists t. split; auto. now apply checked_follows.
Qed.

Lemma unread_follows :
  follows (row "accept") (unread_length 1 2) /\
  follows (row "getsockname") (unread_length 1 2) /\
  follows (row "getpeername") (unread_length 1 2) /\
  follows (row "getsockopt") (unread_length 3 4) /\
  follows (row "paccept") (unread_length 1 2).
Proof.
  repeat split; apply checked_follows; vm_compute; reflexivity.
Qed.
