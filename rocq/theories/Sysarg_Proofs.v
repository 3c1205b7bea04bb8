(** Proofs about rows of the table that follow a contract. *)
From Verif Require Import Base Sysarg_Model Sysarg_Spec Sysarg_Table.
From Coq Require Import String.
Local Open Scope Z_scope.

Local Arguments Z.pow : simpl never.
Local Arguments Z.mul : simpl never.
Local Arguments Z.add : simpl never.

(** ** Recognising the entries of a use *)

Definition core (e : entry) : list flag :=
  filter (fun f => negb (flag_eqb f fTYPE)) (flags e).

Definition flags_eqb (a b : list flag) : bool :=
  (fix go a b := match a, b with
                 | [], [] => true
                 | x :: a', y :: b' => flag_eqb x y && go a' b'
                 | _, _ => false
                 end) a b.

Lemma flag_eqb_eq f g : flag_eqb f g = true -> f = g.
Proof. destruct f, g; simpl; congruence. Qed.

Lemma flags_eqb_eq a : forall b, flags_eqb a b = true -> a = b.
Proof.
  induction a as [|x a IH]; intros [|y b]; simpl; try congruence.
  intros H. apply andb_prop in H as [H1 H2].
  apply flag_eqb_eq in H1. apply IH in H2. congruence.
Qed.

Lemma core_has e f :
  f <> fTYPE -> has f e = existsb (flag_eqb f) (core e).
Proof.
  unfold has, core. induction (flags e) as [|g l IH]; intros H; simpl; auto.
  destruct g; simpl; rewrite ?IH by auto; destruct f; try reflexivity; congruence.
Qed.

Definition is_core (e : entry) (l : list flag) : bool := flags_eqb (core e) l.

(** The result of the search for the entry of the size, compared with what the
    contract says of argument q. *)
Definition value4 (c : list use) (q : Z) : bool :=
  existsb (fun u => match u with Value p n => (p =? q) && (n =? 4) | _ => false end) c.

Definition size_ok (c : list use) (t : list entry) (i : nat) (e : entry) (q : Z) : bool :=
  (size e =? - q) && (0 <=? q) && (q <? 6) && negb ((q =? 0) && has fCOMPLEX e) &&
  match size_entry t i e with
  | Ok e' => Bool.eqb (size e' =? 4) (value4 c q)
  | _ => false
  end.

Definition len_ok c t i e (l : len) (fl : list flag) : bool :=
  match l with
  | Bytes n => (size e =? n) && (0 <? n) && is_core e fl
  | Times q n =>
      size_ok c t i e q && (0 <? n) &&
      (if n =? 1 then is_core e fl
       else is_core e (fl ++ [fELEMENTS]) && (misc e =? n))
  end.

Definition param_of (u : use) : Z :=
  match u with
  | Value p _ | Reads p _ | ReadsString p | Writes p _ | WritesCounted p _ _
  | WritesSized p _ | Exchanges p _ => p
  end.

Definition row_ok (c : list use) (t : list entry) (i : nat) (u : use)
    (es : list entry) : bool :=
  match es with
  | e :: _ => (param e =? param_of u) && (0 <=? param_of u) && (param_of u <? 6)
  | [] => false
  end &&
  match u, es with
  | Value p n, [e] => (size e =? n) && (0 <? n) && is_core e [fINLINED]
  | Reads p l, [e] => len_ok c t i e l [fREAD]
  | ReadsString p, [e] =>
      (size e =? 0) && is_core e [fREAD; fCOMPLEX] && (misc e =? T_CSTRING)
  | Writes p l, [e] => len_ok c t i e l [fWRITE]
  | WritesCounted p q n, [e; e'] =>
      len_ok c t i e (Times q n) [fWRITE] && (param e' =? p) &&
      (size e' =? SIZE_RETVAL) &&
      (if n =? 1 then is_core e' [fWRITE]
       else is_core e' [fWRITE; fELEMENTS] && (misc e' =? n))
  | WritesSized p q, [e] =>
      (size e =? - q) && (1 <=? q) && (q <? 6) &&
      match size_entry t i e with Ok e' => size e' =? 4 | _ => false end &&
      (is_core e [fWRITE; fINOUT] ||
       is_core e [fWRITE; fINOUT; fCOMPLEX] && (misc e =? T_SOCKADDR))
  | Exchanges p n, [e] =>
      (size e =? n) && (0 <? n) && (n <? 4096) && is_core e [fREAD; fWRITE]
  | _, _ => false
  end.

(** A row of the table, cut up along a contract. *)
Fixpoint rows_ok (c0 : list use) (t0 : list entry) (i : nat) (last : Z)
    (c : list use) (t : list entry) : bool :=
  match c with
  | [] => match t with [] => true | _ => false end
  | u :: c' =>
      (last <? param_of u) &&
      let k := match u with WritesCounted _ _ _ => 2%nat | _ => 1%nat end in
      row_ok c0 t0 i u (firstn k t) && rows_ok c0 t0 (i + k) (param_of u) c' (skipn k t)
  end.

(** At most one use goes through the handler of socket addresses. *)
Definition sized (u : use) : bool :=
  match u with WritesSized _ _ => true | _ => false end.

Definition checked (c : list use) (t : list entry) : bool :=
  rows_ok c t 0 (-1) c t && (List.length t <=? 6)%nat &&
  (List.length (filter sized c) <=? 1)%nat.

(** ** Reading memory *)

Lemma safe_read4 m a : safe_read m a 4 = word32 m a.
Proof.
  unfold word32. cbn [safe_read].
  replace (a + 1 + 1) with (a + 2) by lia.
  replace (a + 2 + 1) with (a + 3) by lia.
  destruct (m a), (m (a + 1)), (m (a + 2)), (m (a + 3)); try reflexivity.
  f_equal. lia.
Qed.

Lemma word32_range m a v :
  bytes_in m -> word32 m a = Some v -> 0 <= v < 2 ^ 32.
Proof.
  unfold word32. intros B.
  destruct (m a) as [b0|] eqn:E0, (m (a + 1)) as [b1|] eqn:E1,
    (m (a + 2)) as [b2|] eqn:E2, (m (a + 3)) as [b3|] eqn:E3; try discriminate.
  intros E. injection E as E.
  apply B in E0, E1, E2, E3. rewrite <- E.
  change (2 ^ 8) with 256. change (2 ^ 16) with 65536.
  change (2 ^ 24) with 16777216. change (2 ^ 32) with 4294967296. lia.
Qed.

Lemma size_at_range w q : bytes_in (mem w) -> 0 <= size_at w q < 2 ^ 32.
Proof.
  intros B. unfold size_at.
  destruct (args w q =? 0); [change (2 ^ 32) with 4294967296; lia|].
  destruct (word32 (mem w) (args w q)) eqn:E;
    [|change (2 ^ 32) with 4294967296; lia].
  eapply word32_range; eauto.
Qed.

Lemma scan_string_at m n : forall a k,
  string_at m a k -> (Z.to_nat k < n)%nat -> scan_string m a n = k.
Proof.
  induction n as [|n IH]; intros a k [K [A B]] L; [lia|].
  cbn [scan_string].
  destruct (Z.eq_dec k 0) as [->|].
  - rewrite Z.add_0_r in B. rewrite B. reflexivity.
  - destruct (A 0) as [b [E N]]; [lia|]. rewrite Z.add_0_r in E. rewrite E.
    destruct (b =? 0) eqn:Z0; [lia|].
    rewrite (IH (a + 1) (k - 1)); [lia| |lia].
    split; [lia|]. split.
    + intros j J. replace (a + 1 + j) with (a + (j + 1)) by lia. apply A. lia.
    + replace (a + 1 + (k - 1)) with (a + k) by lia. exact B.
Qed.

(** ** Sizes *)

Lemma sysarg_ok w p : 0 <= p -> p < 6 -> sysarg w p = Ok (args w p).
Proof.
  intros. unfold sysarg, MAX_ARGS.
  replace (0 <=? p) with true by lia. replace (p <? 6) with true by lia. reflexivity.
Qed.

Lemma invalid_size e : size e <> 0 -> invalid e = false.
Proof. intros. unfold invalid. replace (size e =? 0) with false by lia. now rewrite andb_false_r. Qed.

Lemma invalid_flags e f : has f e = true -> invalid e = false.
Proof.
  unfold invalid, has. destruct (flags e); simpl; [discriminate|].
  intros _. now rewrite andb_false_r.
Qed.

Lemma is_core_has e l f :
  is_core e l = true -> f <> fTYPE -> has f e = existsb (flag_eqb f) l.
Proof.
  intros H N. rewrite core_has by auto. apply flags_eqb_eq in H. now rewrite H.
Qed.

Ltac bools :=
  repeat match goal with
  | H : _ && _ = true |- _ => apply andb_prop in H as [? ?]
  | H : (_ =? _) = true |- _ => apply Z.eqb_eq in H
  | H : (_ <? _) = true |- _ => apply Z.ltb_lt in H
  | H : (_ <=? _) = true |- _ => apply Z.leb_le in H
  | H : negb _ = true |- _ => apply negb_true_iff in H
  end.

(** The flags of an entry whose core is known. *)
Ltac use_core H :=
  match type of H with
  | is_core ?e ?l = true =>
      pose proof (is_core_has e l fREAD H ltac:(discriminate)) as ?HR;
      pose proof (is_core_has e l fWRITE H ltac:(discriminate)) as ?HW;
      pose proof (is_core_has e l fCOMPLEX H ltac:(discriminate)) as ?HC;
      pose proof (is_core_has e l fINOUT H ltac:(discriminate)) as ?HI;
      pose proof (is_core_has e l fELEMENTS H ltac:(discriminate)) as ?HE;
      pose proof (is_core_has e l fINLINED H ltac:(discriminate)) as ?HL;
      pose proof (is_core_has e l fCOUNT0 H ltac:(discriminate)) as ?H0;
      pose proof (is_core_has e l fNEXTNULL H ltac:(discriminate)) as ?HN;
      pose proof (is_core_has e l fPREVNULL H ltac:(discriminate)) as ?HP;
      pose proof (is_core_has e l fNONMEM H ltac:(discriminate)) as ?HM;
      pose proof (is_core_has e l fPLUS1 H ltac:(discriminate)) as ?H1;
      cbn [existsb flag_eqb orb app] in *
  end.

(** Decide a comparison of numbers, with no boolean in sight. *)
Ltac lia_z :=
  repeat match goal with
  | H : @eq bool _ _ |- _ => clear H
  | H : _ \/ _ |- _ => clear H
  end; lia.

Ltac decide_z b v :=
  replace b with v
    by (symmetry;
        first [apply Z.eqb_eq | apply Z.eqb_neq | apply Z.ltb_lt | apply Z.ltb_ge];
        lia_z).

Ltac core_all := match goal with X : is_core _ _ = true |- _ => use_core X end.

Ltac name_all e :=
  try match goal with X : param e = _ |- _ => rename X into PE end;
  try match goal with X : param ?e' = _ |- _ =>
        lazymatch e' with e => fail | _ => rename X into PE2 end end;
  try match goal with X : size _ = SIZE_RETVAL |- _ => rename X into SZ2 end;
  try match goal with X : size e = _ |- _ => rename X into SZ end;
  try match goal with X : misc _ = _ |- _ => rename X into MI end;
  try match goal with X : len_ok _ _ _ _ _ _ = true |- _ => rename X into LK end.

Lemma get_size_imm pre w t i e start s :
  has fCOMPLEX e = false -> has fINOUT e = false -> has fELEMENTS e = false ->
  has fPLUS1 e = false -> 0 < size e ->
  get_size pre w t i e start s = Ok (size e, s, []).
Proof.
  intros HC HI HE HP L. unfold get_size. rewrite HC, HI, HE, HP, !andb_false_r.
  cbn [andb]. unfold SIZE_RETVAL, SIZE_IN_FIELD.
  decide_z (size e =? -101) false. decide_z (size e =? -102) false.
  decide_z (0 <? size e) true. reflexivity.
Qed.

(** A length that does not wrap around is computed exactly. *)
Lemma get_size_len pre w c t i e l fl start s :
  len_ok c t i e l fl = true ->
  fl = [fREAD] \/ fl = [fWRITE] ->
  (forall p, 0 <= args w p < 2 ^ 64) ->
  (forall q, value4 c q = true -> args w q < 2 ^ 32) ->
  length_of w l < 2 ^ 64 - 1 ->
  get_size pre w t i e start s = Ok (length_of w l, s, []) /\
  has fCOMPLEX e = false /\ has fNEXTNULL e = false /\ has fPREVNULL e = false /\
  has fINLINED e = false /\ has fNONMEM e = false /\
  has fREAD e = existsb (flag_eqb fREAD) fl /\
  has fWRITE e = existsb (flag_eqb fWRITE) fl /\ 0 <= length_of w l.
Proof.
  intros H F A V L. destruct l as [n|q n]; cbn [len_ok length_of] in *; bools.
  - assert (G : get_size pre w t i e start s = Ok (n, s, [])).
    { replace n with (size e) by lia_z.
      destruct F as [-> | ->]; core_all; apply get_size_imm; auto; lia_z. }
    destruct F as [-> | ->]; use_core H0; repeat split; auto; lia_z.
  - unfold size_ok in H. bools.
    destruct (size_entry t i e) as [e'| |] eqn:SE; try discriminate.
    match goal with X : Bool.eqb _ _ = true |- _ => apply eqb_prop in X; rename X into EQ4 end.
    assert (X : has fCOMPLEX e = false /\ has fINOUT e = false /\ has fPLUS1 e = false /\
      has fNEXTNULL e = false /\ has fPREVNULL e = false /\
      has fINLINED e = false /\ has fNONMEM e = false /\
      has fREAD e = existsb (flag_eqb fREAD) fl /\
      has fWRITE e = existsb (flag_eqb fWRITE) fl /\
      has fELEMENTS e = negb (n =? 1) /\ (n <> 1 -> misc e = n)).
    { destruct (n =? 1) eqn:N1; bools; destruct F as [-> | ->];
        match goal with X : is_core _ _ = true |- _ => use_core X end;
        repeat split; auto; lia_z. }
    destruct X as (HC & HI & H1' & HN & HP & HL & HM & HR & HW & HE & HMi).
    assert (0 <= args w q * n) by (specialize (A q); repeat match goal with X : @eq bool _ _ |- _ => clear X end; nia).
    repeat split; auto.
    unfold get_size.
    rewrite HC, HI, H1', HE, !andb_false_r; cbn [andb].
    unfold SIZE_RETVAL, SIZE_IN_FIELD.
    decide_z (size e =? -101) false.
    decide_z (size e =? -102) false.
    decide_z (0 <? size e) false.
    rewrite SE. replace (- size e) with q by lia_z.
    rewrite sysarg_ok by lia_z. cbn [bind].
    assert (U : (if size e' =? 4 then u32 (args w q) else args w q) = args w q).
    { destruct (size e' =? 4) eqn:S4; auto. unfold u32.
      apply Z.mod_small. split; [apply A|]. apply V. symmetry. exact EQ4. }
    rewrite U.
    destruct (n =? 1) eqn:N1; cbn [negb].
    + apply Z.eqb_eq in N1. subst n. now rewrite Z.mul_1_r.
    + rewrite HMi by (apply Z.eqb_neq; exact N1). decide_z (0 <? n) true.
      unfold u64. rewrite Z.mod_small by lia_z. reflexivity.
Qed.

Lemma get_size_ret w t i e start s n :
  size e = SIZE_RETVAL ->
  (if n =? 1 then is_core e [fWRITE]
   else is_core e [fWRITE; fELEMENTS] && (misc e =? n)) = true ->
  0 < n -> 0 <= ret w -> ret w * n < 2 ^ 64 ->
  get_size false w t i e start s = Ok (ret w * n, s, []) /\
  has fCOMPLEX e = false /\ has fNEXTNULL e = false /\ has fPREVNULL e = false /\
  has fCOUNT0 e = false /\ has fREAD e = false /\ has fWRITE e = true.
Proof.
  intros S C N R L.
  assert (X : has fCOMPLEX e = false /\ has fINOUT e = false /\ has fPLUS1 e = false /\
      has fNEXTNULL e = false /\ has fPREVNULL e = false /\ has fCOUNT0 e = false /\
      has fREAD e = false /\ has fWRITE e = true /\
      has fELEMENTS e = negb (n =? 1) /\ (n <> 1 -> misc e = n)).
  { destruct (n =? 1) eqn:N1; bools;
      match goal with X : is_core _ _ = true |- _ => use_core X end;
      repeat split; auto; lia_z. }
  destruct X as (HC & HI & H1' & HN & HP & H0 & HR & HW & HE & HMi).
  repeat split; auto.
  unfold get_size. rewrite HC, H1', HE, !andb_false_r, S; cbn [andb].
  change (SIZE_RETVAL =? SIZE_RETVAL) with true. cbn [bind].
  destruct (n =? 1) eqn:N1; cbn [negb].
  - apply Z.eqb_eq in N1. subst n. now rewrite Z.mul_1_r.
  - rewrite HMi by (apply Z.eqb_neq; exact N1). decide_z (0 <? n) true.
    unfold u64. rewrite Z.mod_small by (clear - N R L; nia). reflexivity.
Qed.

Lemma get_size_sized pre w t i e q e' start s :
  size e = - q -> 1 <= q -> q < 6 -> size_entry t i e = Ok e' -> size e' = 4 ->
  has fINOUT e = true -> has fPLUS1 e = false -> has fELEMENTS e = false ->
  get_size pre w t i e start s = Ok (size_at w q, s, []).
Proof.
  intros S Q1 Q6 SE S4 HI HP HE.
  unfold get_size. rewrite HI, HP, HE.
  unfold SIZE_RETVAL, SIZE_IN_FIELD.
  decide_z (size e =? 0) false. cbn [andb].
  decide_z (size e =? -101) false.
  decide_z (size e =? -102) false.
  decide_z (0 <? size e) false.
  rewrite SE. replace (- size e) with q by lia_z.
  rewrite sysarg_ok by lia_z. cbn [bind]. rewrite S4.
  change ((4 <? 0) || (8 <? 4)) with false. cbn [bind].
  change (Z.to_nat 4) with 4%nat. rewrite safe_read4. reflexivity.
Qed.

(** ** The walk before the call *)

Definition writing (u : use) : bool :=
  match u with Value _ _ | Reads _ _ | ReadsString _ => false | _ => true end.

Definition reading (u : use) : bool :=
  match u with Exchanges _ _ => true | _ => false end.

Definition pre_reps (w : world) (str : Z -> Z) (u : use) : list report :=
  map (fun x => Report (param_of u) (fst (fst x)) (writing u) (snd (fst x)) (snd x))
      (needs1 w str u).

Definition post_reps (before after : world) (u : use) : list report :=
  map (fun x => Report (param_of u) (reading u) true (fst x) (snd x))
      (writes1 before after u).

(** The size that is stored for a use, if one is. *)
Definition room (w : world) (u : use) : option Z :=
  match u with
  | Value _ _ => None
  | Reads _ l | Writes _ l => Some (length_of w l)
  | ReadsString _ => Some SIZE_DYNAMIC
  | WritesCounted _ q n => Some (args w q * n)
  | WritesSized _ q => Some (size_at w q)
  | Exchanges _ n => Some n
  end.

Definition sock (e : entry) : bool :=
  has fCOMPLEX e && (misc e =? T_SOCKADDR) && has fWRITE e.

Definition step (w : world) (u : use) (es : list entry) (s : cls) : cls :=
  let s1 := match room w u with
            | Some v => set_known s (param_of u) v
            | None => s
            end in
  match u with
  | WritesSized p q =>
      if existsb sock es && first s && negb (args w p =? 0) && (0 <? size_at w q)
      then Cls (known s1) (x_field s1) (size_at w q) (first s1) else s1
  | _ => s1
  end.

Lemma report_out pre ord fl a n :
  existsb (flag_eqb fWRITE) fl = true ->
  report_memarg pre ord fl a n = [Report ord (existsb (flag_eqb fREAD) fl) true a n].
Proof. intros H. unfold report_memarg. rewrite H. destruct pre; reflexivity. Qed.

Lemma report_pre ord fl a n :
  report_memarg true ord fl a n =
  [Report ord (existsb (flag_eqb fREAD) fl) (existsb (flag_eqb fWRITE) fl) a n].
Proof. reflexivity. Qed.

Lemma ltb_leb_false x : (0 <? x) = negb (x <=? 0).
Proof. destruct (0 <? x) eqn:A, (x <=? 0) eqn:B; lia. Qed.

Lemma not_ignored w t i e :
  has fNEXTNULL e = false -> has fPREVNULL e = false ->
  should_ignore w t i e = Ok false.
Proof. intros A B. unfold should_ignore. now rewrite A, B. Qed.

(** An entry of no complex type and of known size, before the call. *)
Lemma pre_plain w t0 i e l last s n k :
  invalid e = false -> param e <> last -> 0 <= param e -> param e < 6 ->
  has fINLINED e = false -> has fNONMEM e = false -> has fCOMPLEX e = false ->
  has fNEXTNULL e = false -> has fPREVNULL e = false ->
  get_size true w t0 i e (args w (param e)) s = Ok (n, s, []) ->
  n < 2 ^ 64 - 1 ->
  pre_loop w t0 l (S i) (param e) (set_known s (param e) n) = Ok k ->
  pre_loop w t0 (e :: l) i last s =
  Ok (fst k,
      map (fun x => Report (param e) (has fREAD e) (has fWRITE e) (fst x) (snd x))
          (range w (param e) n pair) ++ snd k).
Proof.
  intros V L P0 P6 HL HM HC HN HP G N K.
  cbn [pre_loop]. rewrite V. decide_z (param e =? last) false.
  rewrite HL, HM. cbn [orb]. rewrite sysarg_ok by auto. cbn [bind].
  rewrite G. cbn [bind]. unfold range.
  destruct (args w (param e) =? 0) eqn:A0; cbn [negb andb orb].
  - rewrite K. cbn [bind map app]. reflexivity.
  - rewrite ltb_leb_false. destruct (n <=? 0) eqn:N0; cbn [negb].
    + rewrite K. cbn [bind map app]. reflexivity.
    + unfold SIZE_DYNAMIC. decide_z (n =? 2 ^ 64 - 1) false.
      unfold os_access. rewrite HC. cbn [negb bind].
      rewrite not_ignored by auto. cbn [bind].
      rewrite K. cbn [bind map app fst snd].
      rewrite report_pre. unfold has. reflexivity.
Qed.

Lemma needs_plain w p n d wr :
  map (fun x : bool * Z * Z => Report p (fst (fst x)) wr (snd (fst x)) (snd x))
      (range w p n (fun a n => (d, a, n))) =
  map (fun x => Report p d wr (fst x) (snd x)) (range w p n pair).
Proof. unfold range. destruct (_ || _); reflexivity. Qed.

Section Before.
Variables (before after : world) (str : Z -> Z) (c0 : list use) (t0 : list entry).
Hypothesis A : forall p, 0 <= args before p < 2 ^ 64.
Hypothesis V4 : forall q, value4 c0 q = true -> args before q < 2 ^ 32.
Hypothesis B : bytes_in (mem before).

Lemma pre_use i u es l last s k :
  row_ok c0 t0 i u es = true -> earnest1 before after str u ->
  last < param_of u ->
  pre_loop before t0 l (i + List.length es) (param_of u) (step before u es s) = Ok k ->
  pre_loop before t0 (es ++ l) i last s =
  Ok (fst k, pre_reps before str u ++ snd k).
Proof.
  intros R E L K. unfold row_ok in R. apply andb_prop in R as [R1 R2].
  destruct es as [|e es]; [discriminate|]. bools.
  assert (IE : param e <> last) by lia_z.
  destruct u as [p n|p ln|p|p ln|p q n|p q|p n]; cbn [param_of] in *;
    destruct es as [|e' es]; try discriminate; bools; cbn [List.length app] in *;
    name_all e; rewrite ?Nat.add_1_r in K; unfold pre_reps; cbn [needs1 param_of writing].
  - (* Value *)
    core_all. cbn [pre_loop].
    rewrite invalid_size by lia_z. decide_z (param e =? last) false.
    rewrite HL. cbn [orb map app]. rewrite PE. unfold step in K; cbn [room] in K.
    rewrite K. destruct k; reflexivity.
  - (* Reads *)
    cbn [earnest1] in E.
    destruct (get_size_len true before c0 t0 i e ln [fREAD] (args before (param e)) s LK
                ltac:(auto) A V4 E) as (G & HC & HN & HP & HL & HM & HR & HW & _).
    unfold step in K; cbn [room param_of] in K. rewrite <- PE in *.
    erewrite pre_plain; eauto.
    + rewrite needs_plain, HR, HW. reflexivity.
    + apply invalid_flags with fREAD. now rewrite HR.
  - (* ReadsString *)
    core_all. unfold step in K; cbn [room param_of] in K. rewrite <- PE in *.
    cbn [pre_loop]. rewrite (invalid_flags e fREAD) by auto.
    decide_z (param e =? last) false. rewrite HL, HM. cbn [orb].
    rewrite sysarg_ok by lia_z. cbn [bind].
    unfold get_size. rewrite SZ, HC, MI. cbn [andb Z.eqb].
    change (T_CSTRING =? T_CSTRING) with true. cbn [bind].
    change (0 <? SIZE_DYNAMIC) with true. rewrite andb_true_r.
    change (SIZE_DYNAMIC =? SIZE_DYNAMIC) with true. cbn iota.
    cbn [earnest1] in E.
    unfold range. destruct (args before (param e) =? 0) eqn:A0; cbn [negb orb].
    + rewrite K. cbn [bind map app]. reflexivity.
    + destruct E as [E1 E2]; [now apply Z.eqb_neq|].
      assert (0 <= str (param e)) by apply E1.
      replace (str (param e) + 1 <=? 0) with false
        by (symmetry; apply Z.leb_gt; lia_z).
      unfold os_access. rewrite HC, MI. cbn [negb].
      change (T_CSTRING =? T_CSTRING) with true. cbn iota.
      unfold handle_cstring. rewrite A0. change (u32 0 =? 0) with true.
      change (existsb (flag_eqb fREAD) (flags e)) with (has fREAD e). rewrite HR.
      cbn [negb andb bind]. rewrite K. cbn [bind map app fst snd].
      rewrite (scan_string_at _ _ _ (str (param e)) E1)
        by (unfold MAX_PATH; lia_z).
      rewrite report_pre.
      change (existsb (flag_eqb fREAD) (flags e)) with (has fREAD e).
      change (existsb (flag_eqb fWRITE) (flags e)) with (has fWRITE e).
      rewrite HR, HW. reflexivity.
  - (* Writes *)
    cbn [earnest1] in E.
    destruct (get_size_len true before c0 t0 i e ln [fWRITE] (args before (param e)) s LK
                ltac:(auto) A V4 E) as (G & HC & HN & HP & HL & HM & HR & HW & _).
    unfold step in K; cbn [room param_of] in K. rewrite <- PE in *.
    erewrite pre_plain; eauto.
    + rewrite needs_plain, HR, HW. reflexivity.
    + apply invalid_flags with fWRITE. now rewrite HW.
  - (* WritesCounted *)
    destruct es; [|discriminate]. bools. name_all e. cbn [List.length app] in *.
    destruct E as [E _].
    destruct (get_size_len true before c0 t0 i e (Times q n) [fWRITE]
                (args before (param e)) s LK ltac:(auto) A V4 E)
      as (G & HC & HN & HP & HL & HM & HR & HW & _).
    unfold step in K; cbn [room param_of] in K. rewrite <- PE in *.
    rewrite !Nat.add_succ_r, Nat.add_0_r in K.
    erewrite pre_plain; eauto.
    + rewrite needs_plain, HR, HW. reflexivity.
    + apply invalid_flags with fWRITE. now rewrite HW.
    + cbn [length_of] in *. cbn [pre_loop].
      rewrite (invalid_size e') by (rewrite SZ2; discriminate).
      rewrite PE2, Z.eqb_refl. exact K.
  - (* WritesSized *)
    destruct (size_entry t0 i e) as [e'| |] eqn:SE; try discriminate. bools.
    match goal with X : _ || _ = true |- _ => rename X into OR end.
    assert (X : has fINOUT e = true /\ has fPLUS1 e = false /\ has fELEMENTS e = false /\
      has fINLINED e = false /\ has fNONMEM e = false /\
      has fNEXTNULL e = false /\ has fPREVNULL e = false /\
      has fREAD e = false /\ has fWRITE e = true /\
      (has fCOMPLEX e = true -> misc e = T_SOCKADDR)).
    { apply orb_prop in OR as [X|X]; bools;
        match goal with X : is_core _ _ = true |- _ => use_core X end;
        repeat split; auto; congruence. }
    destruct X as (HI & H1' & HE & HL & HM & HN & HP & HR & HW & HS).
    pose proof (get_size_sized true before t0 i e q e' (args before (param e)) s
                  SZ ltac:(lia_z) ltac:(lia_z) SE ltac:(lia_z) HI H1' HE) as G.
    pose proof (size_at_range before q B) as SR.
    unfold step in K; cbn [room param_of existsb] in K.
    destruct (has fCOMPLEX e) eqn:HC.
    + specialize (HS eq_refl).
      replace (sock e) with true in K
        by (unfold sock; now rewrite HC, HW, HS).
      rewrite orb_false_r in K. cbn [andb] in K. rewrite <- PE in *.
      cbn [pre_loop]. rewrite (invalid_flags e fWRITE) by auto.
      decide_z (param e =? last) false. rewrite HL, HM. cbn [orb].
      rewrite sysarg_ok by lia_z. cbn [bind]. rewrite G. cbn [bind].
      unfold range. rewrite ltb_leb_false in *.
      destruct (args before (param e) =? 0) eqn:A0; cbn [negb andb orb] in *.
      { rewrite andb_false_r in K. cbn [andb] in K. rewrite K. reflexivity. }
      rewrite andb_true_r in K.
      destruct (size_at before q <=? 0) eqn:S0; cbn [negb] in *.
      { rewrite andb_false_r in K. rewrite K. reflexivity. }
      rewrite andb_true_r in K.
      replace (size_at before q =? SIZE_DYNAMIC) with false
        by (symmetry; apply Z.eqb_neq; unfold SIZE_DYNAMIC;
            change (2 ^ 32) with 4294967296 in SR;
            change (2 ^ 64) with 18446744073709551616; lia_z).
      unfold os_access. rewrite HC, HS. cbn [negb].
      change (T_SOCKADDR =? T_CSTRING) with false.
      change (T_SOCKADDR =? T_SOCKADDR) with true. cbn iota.
      unfold handle_sockaddr.
      change (existsb (flag_eqb fWRITE) (flags e)) with (has fWRITE e). rewrite HW.
      unfold u32. rewrite Z.mod_small by exact SR.
      rewrite report_out by exact HW.
      change (existsb (flag_eqb fREAD) (flags e)) with (has fREAD e). rewrite HR.
      unfold set_known in *. cbn [first known x_field x_sock] in *.
      destruct (first s); cbn [andb bind negb app] in *; rewrite K; reflexivity.
    + replace (sock e) with false in K by (unfold sock; now rewrite HC).
      cbn [orb andb] in K. rewrite <- PE in *.
      erewrite pre_plain; eauto.
      * rewrite needs_plain, HR, HW. reflexivity.
      * apply invalid_flags with fWRITE. exact HW.
      * change (2 ^ 32) with 4294967296 in SR.
        change (2 ^ 64) with 18446744073709551616. lia_z.
  - (* Exchanges *)
    core_all. unfold step in K; cbn [room param_of] in K. rewrite <- PE in *.
    assert (G : get_size true before t0 i e (args before (param e)) s = Ok (n, s, [])).
    { rewrite <- SZ. apply get_size_imm; auto. lia_z. }
    erewrite pre_plain; eauto.
    + rewrite needs_plain, HR, HW. reflexivity.
    + apply invalid_flags with fWRITE. exact HW.
    + change (2 ^ 64) with 18446744073709551616. lia_z.
Qed.

(** ** The walk after the call *)

Hypothesis AA : forall p, args after p = args before p.
Hypothesis BA : bytes_in (mem after).
Hypothesis RA : 0 <= ret after.

Lemma length_same l : length_of after l = length_of before l.
Proof. destruct l; cbn; rewrite ?AA; reflexivity. Qed.

Definition head_ok (l : list entry) (p : Z) : Prop :=
  match l with
  | e1 :: _ => (param e1 =? p) && negb (invalid e1) = false
  | [] => True
  end.

(** An entry of no complex type and of known size, after the call. *)
Lemma post_plain i e l prev last ls s n k :
  invalid e = false -> has fWRITE e = true -> param e <> last ->
  0 <= param e -> param e < 6 -> head_ok l (param e) -> has fCOMPLEX e = false ->
  get_size false after t0 i e (args before (param e)) s = Ok (n, s, []) ->
  known s (param e) = n ->
  (post_loop after t0 l (S i) e (param e) n s = Ok k) ->
  post_loop after t0 (e :: l) i prev last ls s =
  Ok (map (fun x => Report (param e) (has fREAD e) true (fst x) (snd x))
          (range before (param e) n pair) ++ k).
Proof.
  intros V W L P0 P6 HO HC G N K.
  cbn [post_loop]. rewrite V, W. cbn [negb].
  rewrite sysarg_ok by auto. cbn [bind]. rewrite AA, G. cbn [bind].
  rewrite N, Z.ltb_irrefl. decide_z (param e =? last) false.
  replace (match l with
           | [] => false
           | e1 :: _ => (param e1 =? param e) && negb (invalid e1)
           end) with false by (destruct l; cbn in HO; congruence).
  unfold range. rewrite ltb_leb_false.
  destruct (args before (param e) =? 0) eqn:A0; cbn [negb andb orb].
  - cbn [bind map app]. rewrite K. reflexivity.
  - destruct (n <=? 0) eqn:N0; cbn [negb bind].
    + rewrite K. reflexivity.
    + unfold os_access. rewrite HC. cbn [negb bind app].
      rewrite K. cbn [bind]. rewrite report_out by exact W. reflexivity.
Qed.

Lemma post_skip i e l prev last ls s :
  invalid e = false -> has fWRITE e = false ->
  post_loop after t0 (e :: l) i prev last ls s =
  post_loop after t0 l (S i) e last ls s.
Proof. intros V W. cbn [post_loop]. now rewrite V, W. Qed.

Lemma post_use i u es l prev last ls s k :
  row_ok c0 t0 i u es = true -> earnest1 before after str u ->
  last < param_of u -> head_ok l (param_of u) ->
  (writing u = true -> Some (known s (param_of u)) = room before u) ->
  (forall p q, u = WritesSized p q -> existsb sock es = true ->
     args before p <> 0 -> 0 < size_at before q -> x_sock s = size_at before q) ->
  (forall prev last ls, last <= param_of u ->
     post_loop after t0 l (i + List.length es) prev last ls s = Ok k) ->
  post_loop after t0 (es ++ l) i prev last ls s = Ok (post_reps before after u ++ k).
Proof.
  intros R E L HO KN XS K. unfold row_ok in R. apply andb_prop in R as [R1 R2].
  destruct es as [|e es]; [discriminate|]. bools.
  assert (IE : param e <> last) by lia_z.
  destruct u as [p n|p ln|p|p ln|p q n|p q|p n]; cbn [param_of writing room] in *;
    destruct es as [|e' es]; try discriminate; bools; cbn [List.length app] in *;
    name_all e; unfold post_reps; cbn [writes1 param_of reading].
  - (* Value *)
    core_all. rewrite post_skip; auto; [|apply invalid_size; lia_z].
    rewrite Nat.add_1_r in K. apply K. lia_z.
  - (* Reads *)
    cbn [earnest1] in E.
    destruct (get_size_len true before c0 t0 i e ln [fREAD] (args before (param e)) s LK
                ltac:(auto) A V4 E) as (G & HC & HN & HP & HL & HM & HR & HW & _).
    rewrite post_skip; auto; [|apply invalid_flags with fREAD; auto].
    rewrite Nat.add_1_r in K. apply K. lia_z.
  - (* ReadsString *)
    core_all. rewrite post_skip; auto; [|apply invalid_flags with fREAD; auto].
    rewrite Nat.add_1_r in K. apply K. lia_z.
  - (* Writes *)
    cbn [earnest1] in E.
    assert (A' : forall p, 0 <= args after p < 2 ^ 64) by (intros; rewrite AA; apply A).
    assert (V' : forall q, value4 c0 q = true -> args after q < 2 ^ 32)
      by (intros; rewrite AA; auto).
    assert (E' : length_of after ln < 2 ^ 64 - 1) by (rewrite length_same; auto).
    destruct (get_size_len false after c0 t0 i e ln [fWRITE] (args before (param e)) s LK
                ltac:(auto) A' V' E') as (G & HC & HN & HP & HL & HM & HR & HW & _).
    rewrite length_same in G. specialize (KN eq_refl). injection KN as KN.
    rewrite Nat.add_1_r in K. rewrite <- PE in *.
    erewrite post_plain; eauto.
    + rewrite HR. reflexivity.
    + apply invalid_flags with fWRITE; auto.
    + apply K. apply Z.le_refl.
  - (* WritesCounted *)
    destruct es; [|discriminate]. bools. name_all e. cbn [List.length app] in *.
    destruct E as [E [E1 E2]].
    assert (A' : forall p, 0 <= args after p < 2 ^ 64) by (intros; rewrite AA; apply A).
    assert (V' : forall q, value4 c0 q = true -> args after q < 2 ^ 32)
      by (intros; rewrite AA; auto).
    assert (E' : length_of after (Times q n) < 2 ^ 64 - 1) by (rewrite length_same; auto).
    destruct (get_size_len false after c0 t0 i e (Times q n) [fWRITE]
                (args before (param e)) s LK
                ltac:(auto) A' V' E') as (G & HC & HN & HP & HL & HM & HR & HW & G0).
    rewrite length_same in G, G0. cbn [length_of] in G, G0.
    assert (N0 : 0 < n).
    { cbn [len_ok] in LK. bools. assumption. }
    match goal with X : (if n =? 1 then _ else _) = true |- _ => rename X into CC end.
    destruct (get_size_ret after t0 (S i) e' (args before p) s n SZ2 CC N0 RA E2)
      as (G2 & HC2 & HN2 & HP2 & H02 & HR2 & HW2).
    specialize (KN eq_refl). injection KN as KN.
    rewrite !Nat.add_succ_r, Nat.add_0_r in K. rewrite <- PE in *.
    cbn [post_loop]. rewrite (invalid_flags e fWRITE), HW by auto. cbn [negb existsb flag_eqb orb].
    rewrite sysarg_ok by lia_z. cbn [bind]. rewrite AA, G. cbn [bind].
    rewrite KN, Z.ltb_irrefl. decide_z (param e =? last) false.
    rewrite (invalid_size e') by (rewrite SZ2; discriminate).
    rewrite PE2, Z.eqb_refl. cbn [negb andb bind].
    rewrite HW2. cbn [negb]. rewrite sysarg_ok by lia_z. cbn [bind].
    rewrite AA, G2. cbn [bind]. rewrite KN, H02. cbn [andb bind].
    set (m := if args before q * n <? ret after * n then args before q * n else ret after * n).
    assert (M : m = Z.min (ret after) (args before q) * n).
    { unfold m. rewrite <- Z.mul_min_distr_nonneg_r by lia_z.
      destruct (Z.ltb_spec (args before q * n) (ret after * n)); lia_z. }
    replace (if m =? 0 then args before q * n else m) with m.
    2: { destruct (m =? 0) eqn:M0; [|reflexivity]. apply Z.eqb_eq in M0.
         rewrite M0 in M |- *. clear - M E1 N0 A. specialize (A q).
         assert (Z.min (ret after) (args before q) = 0) by nia.
         replace (args before q) with 0 by lia. lia. }
    rewrite M. unfold range. rewrite ltb_leb_false.
    destruct (args before (param e) =? 0) eqn:A0; cbn [negb andb orb bind].
    + rewrite K by apply Z.le_refl. reflexivity.
    + destruct (Z.min (ret after) (args before q) * n <=? 0) eqn:M0; cbn [negb bind].
      * rewrite K by apply Z.le_refl. reflexivity.
      * unfold os_access. rewrite HC2. cbn [negb bind].
        rewrite not_ignored by auto. cbn [bind app].
        rewrite K by apply Z.le_refl. cbn [bind]. rewrite report_out by exact HW2.
        change (existsb (flag_eqb fREAD) (flags e')) with (has fREAD e').
        rewrite HR2. reflexivity.
  - (* WritesSized *)
    destruct (size_entry t0 i e) as [e'| |] eqn:SE; try discriminate. bools.
    match goal with X : _ || _ = true |- _ => rename X into OR end.
    assert (X : has fINOUT e = true /\ has fPLUS1 e = false /\ has fELEMENTS e = false /\
      has fREAD e = false /\ has fWRITE e = true /\
      (has fCOMPLEX e = true -> misc e = T_SOCKADDR)).
    { apply orb_prop in OR as [X|X]; bools;
        match goal with X : is_core _ _ = true |- _ => use_core X end;
        repeat split; auto; congruence. }
    destruct X as (HI & H1' & HE & HR & HW & HS).
    pose proof (get_size_sized false after t0 i e q e' (args before (param e)) s
                  SZ ltac:(lia_z) ltac:(lia_z) SE ltac:(lia_z) HI H1' HE) as G.
    pose proof (size_at_range before q B) as SR.
    pose proof (size_at_range after q BA) as SA.
    specialize (KN eq_refl). injection KN as KN.
    rewrite Nat.add_1_r in K. rewrite <- PE in *.
    cbn [post_loop]. rewrite (invalid_flags e fWRITE), HW by auto. cbn [negb].
    rewrite sysarg_ok by lia_z. cbn [bind]. rewrite AA, G. cbn [bind].
    rewrite KN. decide_z (param e =? last) false.
    replace (match l with
           | [] => false
           | e1 :: _ => (param e1 =? param e) && negb (invalid e1)
           end) with false by (destruct l; cbn in HO; congruence).
    replace (if size_at before q <? size_at after q then size_at before q
             else size_at after q)
      with (Z.min (size_at before q) (size_at after q))
      by (destruct (Z.ltb_spec (size_at before q) (size_at after q)); lia_z).
    unfold range. rewrite ltb_leb_false.
    destruct (args before (param e) =? 0) eqn:A0; cbn [negb andb orb bind].
    { rewrite K by apply Z.le_refl. reflexivity. }
    destruct (Z.min (size_at before q) (size_at after q) <=? 0) eqn:M0; cbn [negb bind].
    { rewrite K by apply Z.le_refl. reflexivity. }
    apply Z.leb_gt in M0. apply Z.eqb_neq in A0.
    unfold os_access. destruct (has fCOMPLEX e) eqn:HC.
    + specialize (HS eq_refl). rewrite HS. cbn [negb].
      change (T_SOCKADDR =? T_CSTRING) with false.
      change (T_SOCKADDR =? T_SOCKADDR) with true. cbn iota.
      unfold handle_sockaddr.
      change (existsb (flag_eqb fWRITE) (flags e)) with (has fWRITE e). rewrite HW.
      rewrite andb_false_r. cbn [andb negb].
      rewrite (XS (param e) q eq_refl) by
        (try lia_z; cbn [existsb]; unfold sock; now rewrite HC, HW, HS).
      unfold u32. rewrite Z.mod_small by lia_z.
      rewrite report_out by exact HW.
      change (existsb (flag_eqb fREAD) (flags e)) with (has fREAD e). rewrite HR.
      cbn [bind app]. rewrite K by apply Z.le_refl. cbn [bind map app fst snd].
      replace (Z.min (Z.min (size_at before q) (size_at after q)) (size_at before q))
        with (Z.min (size_at before q) (size_at after q)) by lia_z.
      reflexivity.
    + cbn [negb bind app]. rewrite K by apply Z.le_refl. cbn [bind].
      rewrite report_out by exact HW.
      change (existsb (flag_eqb fREAD) (flags e)) with (has fREAD e). rewrite HR.
      reflexivity.
  - (* Exchanges *)
    core_all.
    assert (G : get_size false after t0 i e (args before (param e)) s = Ok (n, s, [])).
    { rewrite <- SZ. apply get_size_imm; auto. lia_z. }
    specialize (KN eq_refl). injection KN as KN.
    rewrite Nat.add_1_r in K. rewrite <- PE in *.
    erewrite post_plain; eauto.
    + rewrite HR. reflexivity.
    + apply invalid_flags with fWRITE; auto.
    + apply K. apply Z.le_refl.
Qed.
End Before.
