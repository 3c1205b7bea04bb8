(** The table of a module against the ideal list of offsets; numbers and
    lines of the file. *)
From Coq Require Import String Ascii Permutation.
From Verif Require Import Base Symcache_Model Symcache_Spec.
Open Scope Z_scope.
Open Scope list_scope.

Lemma str_eqb_spec a b : reflect (a = b) (str_eqb a b).
Proof.
  revert b; induction a as [|x a IH]; intros [|y b]; cbn; try (constructor; congruence).
  destruct (Z.eqb_spec x y); cbn; [|constructor; congruence].
  destruct (IH b); constructor; congruence.
Qed.
Lemma str_eqb_refl a : str_eqb a a = true.
Proof. destruct (str_eqb_spec a a); congruence. Qed.

(** ---- tables ---- *)

Definition lst (tb : table) (sym : bytes) : list Z :=
  match sym_find tb sym with Some o => ol_list o | None => [] end.

Definition wf_list (l : list Z) : Prop :=
  l <> [] /\ NoDup l /\ (nth 0 l 1 = 0 -> l = [0]) /\ nth 1 l 1 <> 0 /\ Forall ok_off l.
Definition wf_ol (o : olist) : Prop :=
  wf_list (ol_list o) /\ ol_num o = len (ol_list o) /\
  match ol_table o with
  | None => ol_num o < 3
  | Some t => 3 <= ol_num o /\ forall k, In k t <-> exists x, In x (ol_list o) /\ k = x + 1
  end.
Definition wf_tb (tb : table) : Prop :=
  NoDup (map fst tb) /\ forall k o, In (k, o) tb -> ok_sym k /\ wf_ol o.

Lemma sym_find_in tb sym o : sym_find tb sym = Some o -> In (sym, o) tb.
Proof.
  induction tb as [|[k o'] r IH]; cbn; [discriminate|].
  destruct (str_eqb_spec k sym) as [->|]; [intros [= ->]; auto|auto].
Qed.
Lemma sym_find_none tb sym : sym_find tb sym = None -> ~ In sym (map fst tb).
Proof.
  induction tb as [|[k o'] r IH]; cbn; [tauto|].
  destruct (str_eqb_spec k sym) as [->|]; [discriminate|]. intros Hs [E|E]; [congruence|].
  exact (IH Hs E).
Qed.
Lemma sym_find_iff tb sym o : NoDup (map fst tb) -> In (sym, o) tb -> sym_find tb sym = Some o.
Proof.
  induction tb as [|[k o'] r IH]; cbn; [tauto|]. intros N [E|E].
  - injection E as -> ->. now rewrite str_eqb_refl.
  - inversion N; subst. destruct (str_eqb_spec k sym) as [->|]; auto.
    exfalso. apply H1. change sym with (fst (sym, o)). now apply in_map.
Qed.
Lemma sym_find_put tb sym o s :
  sym_find (sym_put tb sym o) s = if str_eqb s sym then Some o else sym_find tb s.
Proof.
  induction tb as [|[k o'] r IH]; cbn.
  - destruct (str_eqb_spec sym s), (str_eqb_spec s sym); congruence.
  - destruct (str_eqb_spec k sym) as [->|Nk]; cbn.
    + destruct (str_eqb_spec sym s), (str_eqb_spec s sym); try congruence.
    + rewrite IH. destruct (str_eqb_spec k s), (str_eqb_spec s sym); congruence.
Qed.
Lemma sym_put_keys tb sym o k :
  In k (map fst (sym_put tb sym o)) <-> k = sym \/ In k (map fst tb).
Proof.
  induction tb as [|[k' o'] r IH]; cbn; [intuition congruence|].
  destruct (str_eqb_spec k' sym) as [->|]; cbn; [intuition congruence|].
  rewrite IH. intuition congruence.
Qed.
Lemma sym_put_nodup tb sym o : NoDup (map fst tb) -> NoDup (map fst (sym_put tb sym o)).
Proof.
  induction tb as [|[k' o'] r IH]; cbn; intros N; [constructor; auto; constructor|].
  inversion N; subst. destruct (str_eqb_spec k' sym) as [->|]; cbn; [constructor; auto|].
  constructor; [|auto]. rewrite sym_put_keys. intros [E|E]; congruence.
Qed.
Lemma sym_put_in tb sym o k x :
  NoDup (map fst tb) -> In (k, x) (sym_put tb sym o) -> (k = sym /\ x = o) \/ In (k, x) tb.
Proof.
  intros N I0. apply sym_find_iff in I0; [|now apply sym_put_nodup].
  rewrite sym_find_put in I0. destruct (str_eqb_spec k sym) as [->|].
  - injection I0 as <-. auto.
  - right. now apply sym_find_in.
Qed.
Lemma wf_put tb sym o : wf_tb tb -> ok_sym sym -> wf_ol o -> wf_tb (sym_put tb sym o).
Proof.
  intros [N H] Hs Ho. split; [now apply sym_put_nodup|].
  intros k x I0. apply sym_put_in in I0 as [[-> ->]|I0]; auto.
Qed.
Lemma lst_put tb sym o s :
  lst (sym_put tb sym o) s = if str_eqb s sym then ol_list o else lst tb s.
Proof. unfold lst. rewrite sym_find_put. now destruct (str_eqb s sym). Qed.

Lemma existsb_eq k t : existsb (Z.eqb k) t = true <-> In k t.
Proof.
  rewrite existsb_exists. split; [intros (x & I0 & E); apply Z.eqb_eq in E; now subst|].
  intros I0. exists k. rewrite Z.eqb_refl. auto.
Qed.
Lemma off_add_in t k x : In x (off_add t k) <-> x = k \/ In x t.
Proof.
  unfold off_add. destruct (existsb (Z.eqb k) t) eqn:E.
  - apply existsb_eq in E. intuition congruence.
  - rewrite in_app_iff. cbn. intuition congruence.
Qed.
Lemma key_of_off o : ok_off o -> key_of o = o + 1.
Proof. unfold ok_off, key_of, W64. intros. apply Z.mod_small. lia. Qed.
Lemma fold_off_add l t x :
  In x (fold_left (fun t e => off_add t (key_of e)) l t) <->
  In x t \/ exists o, In o l /\ x = key_of o.
Proof.
  revert t; induction l as [|o l IH]; intros t; cbn.
  - split; [auto|intros [H|(o & [] & _)]; auto].
  - rewrite IH, off_add_in. split.
    + intros [[->|H]|(o' & H & ->)]; eauto.
    + intros [H|(o' & [<-|H] & ->)]; eauto.
Qed.

Lemma nodup_snoc {A} (l : list A) a : NoDup l -> ~ In a l -> NoDup (l ++ [a]).
Proof.
  induction l as [|x l IH]; cbn; intros N Na; [constructor; auto; constructor|].
  inversion N; subst. constructor; [|apply IH; auto; tauto].
  rewrite in_app_iff. cbn. intuition congruence.
Qed.
Lemma iadd_wf l o l' :
  (l = [] \/ wf_list l) -> ok_off o -> iadd l o = Some l' -> wf_list l'.
Proof.
  intros W Ho E. unfold iadd in E.
  assert (S1 : wf_list [o]).
  { split; [congruence|]. split; [constructor; auto; constructor|].
    split; [cbn; congruence|]. split; [cbn; lia|]. constructor; auto. }
  destruct W as [->|W]; [now injection E as <-|]. pose proof W as (Nn & Nd & Z0 & Z1 & F).
  destruct l as [|x [|y r]]; [congruence| |].
  - destruct (Z.eqb_spec x 0); [now injection E as <-|].
    destruct (Z.eqb_spec o 0); [discriminate|].
    destruct (Z.eqb_spec x o); injection E as <-; [exact W|].
    cbn. inversion F; subst. split; [congruence|]. split.
    { constructor; [cbn; intuition congruence|]. constructor; auto. constructor. }
    split; [cbn; congruence|]. split; [cbn; auto|]. auto.
  - destruct (in_dec Z.eq_dec o (x :: y :: r)); injection E as <-; [exact W|].
    split; [discriminate|]. split; [now apply (nodup_snoc (x :: y :: r))|].
    split; [cbn; intros ->; specialize (Z0 eq_refl); discriminate|].
    split; [exact Z1|]. change (x :: y :: r ++ [o]) with ((x :: y :: r) ++ [o]).
    apply Forall_app; auto.
Qed.

Lemma wf_append tb sym o offs :
  wf_tb tb -> ok_sym sym -> ok_off offs ->
  (o = mkOL 0 [] None \/ wf_ol o) ->
  wf_list (ol_list o ++ [offs]) ->
  exists tb', symbol_append tb sym o offs = ADone tb' true /\ wf_tb tb' /\
    forall s, lst tb' s = if str_eqb s sym then ol_list o ++ [offs] else lst tb s.
Proof.
  intros Wt Hs Ho Wo Wl. unfold symbol_append.
  eexists. split; [reflexivity|]. split; [|intros s; now rewrite lst_put].
  apply wf_put; auto. unfold wf_ol. cbn [ol_list ol_num ol_table].
  split; [exact Wl|].
  assert (En : ol_num o = len (ol_list o)) by (destruct Wo as [->|(_ & E & _)]; auto).
  split; [rewrite En; unfold len; rewrite app_length; cbn; lia|].
  destruct (Z.leb_spec MIN_TABLE (ol_num o + 1)); unfold MIN_TABLE in *.
  - destruct (ol_table o) as [t|] eqn:Et.
    + split; [lia|]. destruct Wo as [->|(_ & _ & Hk)]; [discriminate|].
      rewrite Et in Hk. destruct Hk as [_ Hk]. intros k. rewrite off_add_in, Hk, key_of_off by auto.
      split.
      * intros [->|(x & I0 & ->)]; [exists offs|exists x]; rewrite in_app_iff; cbn; auto.
      * intros (x & I0 & ->). rewrite in_app_iff in I0. cbn in I0.
        destruct I0 as [I0|[<-|[]]]; eauto.
    + split; [lia|]. intros k. rewrite fold_off_add.
      destruct Wl as (_ & _ & _ & _ & F). rewrite Forall_forall in F.
      split.
      * intros [[]|(x & I0 & ->)]. exists x. rewrite key_of_off by auto. auto.
      * intros (x & I0 & ->). right. exists x. rewrite key_of_off by auto. auto.
  - destruct (ol_table o) as [t|] eqn:Et; [|lia].
    destruct Wo as [->|(_ & _ & Hk)]; [discriminate|]. rewrite Et in Hk. lia.
Qed.

(** symcache_symbol_add does to the list of the symbol what the ideal does *)
Lemma symbol_add_spec tb sym offs :
  wf_tb tb -> ok_sym sym -> ok_off offs ->
  match iadd (lst tb sym) offs with
  | None => symbol_add tb sym offs = AAbort
  | Some l => exists tb' ch, symbol_add tb sym offs = ADone tb' ch /\ wf_tb tb' /\
      (ch = false -> tb' = tb) /\
      forall s, lst tb' s = if str_eqb s sym then l else lst tb s
  end.
Proof.
  intros Wt Hs Ho. unfold symbol_add, lst at 1.
  destruct (sym_find tb sym) as [o|] eqn:Ef.
  2:{ cbn [iadd]. destruct (wf_append tb sym (mkOL 0 [] None) offs) as (tb' & E & W & L); auto.
      { cbn. apply (iadd_wf [] offs); auto. }
      exists tb', true. rewrite E. split; [auto|]. split; [auto|]. split; [discriminate|]. exact L. }
  pose proof (sym_find_in _ _ _ Ef) as Io. destruct (proj2 Wt _ _ Io) as [_ Wo].
  pose proof Wo as (Wl & En & Ht). pose proof Wl as (Nn & Nd & Z0 & Z1 & F).
  assert (Ad : wf_list (ol_list o ++ [offs]) ->
     exists tb' ch, symbol_append tb sym o offs = ADone tb' ch /\ wf_tb tb' /\
      (ch = false -> tb' = tb) /\
      forall s, lst tb' s = if str_eqb s sym then ol_list o ++ [offs] else lst tb s).
  { intros W. destruct (wf_append tb sym o offs) as (tb' & E & W' & L); auto.
    exists tb', true. split; [auto|]. split; [auto|]. split; [discriminate|auto]. }
  assert (Same : exists tb' ch, ADone tb false = ADone tb' ch /\ wf_tb tb' /\
      (ch = false -> tb' = tb) /\
      forall s, lst tb' s = if str_eqb s sym then ol_list o else lst tb s).
  { exists tb, false. split; [auto|]. split; [auto|]. split; [auto|].
    intros s. destruct (str_eqb_spec s sym) as [->|]; auto. unfold lst. now rewrite Ef. }
  assert (Dup : match ol_table o with
              | Some t => off_find t (key_of offs)
              | None => existsb (Z.eqb offs) (ol_list o)
              end = if in_dec Z.eq_dec offs (ol_list o) then true else false).
  { destruct (ol_table o) as [t|].
    - destruct Ht as [_ Ht]. unfold off_find. rewrite key_of_off by auto.
      destruct (Z.eqb_spec (offs + 1) 0); [unfold ok_off in Ho; lia|]. cbn.
      apply eq_true_iff_eq. rewrite existsb_eq, Ht.
      destruct (in_dec Z.eq_dec offs (ol_list o)) as [i|n0].
      + split; [auto|]. intros _. eauto.
      + split; [|discriminate]. intros (x & I0 & E). exfalso. apply n0.
        replace offs with x by lia. auto.
    - apply eq_true_iff_eq. rewrite existsb_eq.
      destruct (in_dec Z.eq_dec offs (ol_list o)); split; auto; try tauto; discriminate. }
  rewrite Dup. clear Dup.
  assert (Ix : forall l', iadd (ol_list o) offs = Some l' -> wf_list l').
  { intros l' E. apply (iadd_wf (ol_list o) offs); auto. }
  destruct (ol_list o) as [|x [|y r]] eqn:El; [congruence| |].
  - cbn [iadd] in *. rewrite En. cbn [len List.length hd]. cbn -[in_dec].
    destruct (Z.eqb_spec x 0) as [->|Nx]; cbn [andb].
    + eexists _, true. split; [reflexivity|]. split.
      { apply wf_put; auto. unfold wf_ol. cbn [ol_list ol_num ol_table tl].
        split; [apply Ix; auto|]. split; [reflexivity|].
        destruct (ol_table o); [|lia]. rewrite En in Ht. cbn in Ht. lia. }
      split; [discriminate|]. intros s. now rewrite lst_put.
    + destruct (Z.eqb_spec offs 0) as [->|No]; [reflexivity|].
      destruct (in_dec Z.eq_dec offs [x]) as [i|n0], (Z.eqb_spec x offs) as [->|Nxo].
      * exact Same.
      * exfalso. destruct i as [i|[]]. congruence.
      * exfalso. apply n0. now left.
      * apply Ad, Ix. now destruct (Z.eqb_spec x offs).
  - assert (E1 : (ol_num o =? 1) = false) by (rewrite En; unfold len; cbn [List.length]; lia).
    rewrite E1. cbn [andb]. cbn [iadd] in *.
    destruct (in_dec Z.eq_dec offs (x :: y :: r)); [exact Same|].
    apply Ad, Ix. reflexivity.
Qed.

(** ---- numbers ---- *)

Definition isd (b c : Z) : Prop := dig_val b c <> None.
Definition dval (b c : Z) : Z := match dig_val b c with Some d => d | None => 0 end.
Definition val (b a : Z) (D : bytes) : Z := fold_left (fun a c => a * b + dval b c) D a.

Lemma scan_digits_app b D rest a seen :
  Forall (isd b) D ->
  scan_digits b (D ++ rest) a seen =
  scan_digits b rest (val b a D) (match D with [] => seen | _ => true end).
Proof.
  revert a seen; induction D as [|c D IH]; intros a seen F; cbn; [reflexivity|].
  inversion F; subst. unfold isd in H1.
  destruct (dig_val b c) as [z|] eqn:E; [|congruence]. rewrite IH by auto.
  assert (Ez : dval b c = z) by (unfold dval; now rewrite E).
  unfold val. rewrite Ez. now destruct D.
Qed.
Lemma isd_range b c : isd b c -> 48 <= c <= 57 \/ (b = 16 /\ (97 <= c <= 102 \/ 65 <= c <= 70)).
Proof.
  unfold isd, dig_val.
  destruct ((48 <=? c) && (c <=? 57)) eqn:E1; [lia|].
  destruct (b =? 16) eqn:E0; cbn [andb]; [|congruence].
  destruct ((97 <=? c) && (c <=? 102)) eqn:E2; [lia|].
  destruct ((65 <=? c) && (c <=? 70)) eqn:E3; [lia|congruence].
Qed.
Lemma skip_ws_app k l c : is_space c = false -> skip_ws (repeat 32 k ++ c :: l) = Ok (c :: l).
Proof. intros E. induction k; cbn; [now rewrite E|exact IHk]. Qed.

(** a number followed by something else *)
Lemma scan_int_num b w k D c rest :
  (b = 10 \/ b = 16) -> D <> [] -> Forall (isd b) D ->
  dig_val b c = None -> c <> 120 -> c <> 88 ->
  scan_int b w (repeat 32 k ++ D ++ c :: rest) = Ok (Some (val b 0 D mod 2 ^ w), c :: rest).
Proof.
  intros Hb Nn F Hc N1 N2. unfold scan_int. destruct D as [|d D]; [congruence|].
  pose proof F as F0. inversion F0; subst. pose proof (isd_range _ _ H1) as R.
  rewrite <- app_comm_cons, skip_ws_app by (unfold is_space; lia). cbn [bind].
  unfold scan_sign. destruct (Z.eqb_spec d 45); [lia|]. destruct (Z.eqb_spec d 43); [lia|].
  assert (Ep : scan_prefix b (d :: D ++ c :: rest) = d :: D ++ c :: rest).
  { unfold scan_prefix. destruct D as [|y D]; cbn [app].
    - destruct (Z.eqb_spec c 120); [congruence|]. destruct (Z.eqb_spec c 88); [congruence|].
      now rewrite Bool.andb_false_r.
    - inversion H2; subst. pose proof (isd_range _ _ H3) as R'.
      destruct (Z.eqb_spec y 120); [lia|]. destruct (Z.eqb_spec y 88); [lia|].
      now rewrite Bool.andb_false_r. }
  rewrite Ep, app_comm_cons, scan_digits_app by auto. cbn [scan_digits]. rewrite Hc. cbn. reflexivity.
Qed.

Lemma isd_dig b d : (b = 10 \/ b = 16) -> 0 <= d < b -> isd b (dig d) /\ dval b (dig d) = d.
Proof.
  intros Hb Hd. unfold isd, dval, dig, dig_val.
  destruct (Z.ltb_spec d 10).
  - replace ((48 <=? 48 + d) && (48 + d <=? 57)) with true by lia. split; [congruence|lia].
  - assert (b = 16) as -> by lia.
    replace ((48 <=? 97 + (d - 10)) && (97 + (d - 10) <=? 57)) with false by lia.
    replace ((16 =? 16) && (97 <=? 97 + (d - 10)) && (97 + (d - 10) <=? 102)) with true by lia.
    split; [congruence|lia].
Qed.
Lemma digits_spec b f n acc :
  (b = 10 \/ b = 16) -> 0 <= n < b ^ Z.of_nat f ->
  (0 < f)%nat ->
  exists D, digits f b n acc = D ++ acc /\ D <> [] /\ Forall (isd b) D /\ val b 0 D = n /\
    (List.length D <= f)%nat.
Proof.
  intros Hb. revert n acc. induction f as [|f IH]; intros n acc Hn Hf; [lia|].
  cbn [digits]. destruct (Z.ltb_spec n b).
  - exists [dig n]. destruct (isd_dig b n); try lia.
    split; [auto|]. split; [congruence|]. split; [auto|]. split; [|cbn; lia]. cbn. lia.
  - assert (Hf' : (0 < f)%nat).
    { destruct f; [|lia]. change (Z.of_nat 1) with 1 in Hn. rewrite Z.pow_1_r in Hn. lia. }
    destruct (IH (n / b) (dig (n mod b) :: acc)) as (D & E & Nn & F & V & L).
    { split; [apply Z.div_pos; lia|]. apply Z.div_lt_upper_bound; [lia|].
      rewrite Nat2Z.inj_succ, Z.pow_succ_r in Hn by lia. lia. }
    { exact Hf'. }
    exists (D ++ [dig (n mod b)]). rewrite E, <- app_assoc.
    destruct (isd_dig b (n mod b)) as [I1 I2]; [auto|apply Z.mod_pos_bound; lia|].
    split; [auto|]. split; [destruct D; discriminate|].
    split; [apply Forall_app; auto|]. split.
    + unfold val in *. rewrite fold_left_app, V. cbn. rewrite I2.
      pose proof (Z.div_mod n b). lia.
    + rewrite app_length. cbn. lia.
Qed.
Lemma digits_more f g b n acc :
  (b = 10 \/ b = 16) -> 0 <= n < b ^ Z.of_nat f -> (0 < f)%nat -> (f <= g)%nat ->
  digits g b n acc = digits f b n acc.
Proof.
  intros Hb. revert g n acc. induction f as [|f IH]; intros g n acc Hn Hf Hg; [lia|].
  destruct g as [|g]; [lia|]. cbn [digits]. destruct (Z.ltb_spec n b); [auto|].
  assert (Hf' : (0 < f)%nat).
  { destruct f; [|lia]. change (Z.of_nat 1) with 1 in Hn. rewrite Z.pow_1_r in Hn. lia. }
  apply IH; try lia. split; [apply Z.div_pos; lia|]. apply Z.div_lt_upper_bound; [lia|].
  rewrite Nat2Z.inj_succ, Z.pow_succ_r in Hn by lia. lia.
Qed.
(** [k] digits suffice for a number below [b ^ k] *)
Lemma fmt_spec b n k :
  (b = 10 \/ b = 16) -> 0 <= n < b ^ Z.of_nat k -> (0 < k)%nat -> (k <= 64)%nat ->
  exists D, fmt b n = D /\ D <> [] /\ Forall (isd b) D /\ val b 0 D = n /\
    (List.length D <= k)%nat.
Proof.
  intros Hb Hn H0 Hk. unfold fmt. rewrite (digits_more k 64) by auto.
  destruct (digits_spec b k n [] Hb Hn H0) as (D & E & R). rewrite app_nil_r in E.
  exists D. auto.
Qed.
Lemma val_zeros b k D : (b = 10 \/ b = 16) -> val b 0 (repeat 48 k ++ D) = val b 0 D.
Proof.
  intros Hb. induction k; cbn [repeat app]; [reflexivity|].
  unfold val in *. cbn [fold_left]. rewrite <- IHk. reflexivity.
Qed.

(** ---- lines ---- *)

Lemma strchr_hit a c r :
  Forall (fun x => x <> c /\ x <> 0) a -> strchr (a ++ c :: r) c = Ok (Some (c :: r)).
Proof.
  induction a as [|x a IH]; intros F; cbn.
  - now rewrite Z.eqb_refl.
  - inversion F; subst. destruct (Z.eqb_spec x c); [lia|]. destruct (Z.eqb_spec x 0); [lia|]. auto.
Qed.
Lemma starts_with_app h r : starts_with (h ++ r) h = Ok true.
Proof. induction h; cbn; [reflexivity|]. now rewrite Z.eqb_refl. Qed.
Lemma scan_lit_app h r : scan_lit h (h ++ r) = Ok (Some r).
Proof. induction h; cbn; [reflexivity|]. now rewrite Z.eqb_refl. Qed.

(** characters of numbers are neither separators nor NUL *)
Lemma isd_sep b D c : Forall (isd b) D -> c < 48 -> c <> 0 -> Forall (fun x => x <> c /\ x <> 0) D.
Proof.
  intros F Hc Hc0. eapply Forall_impl; [|exact F]. cbn beta. intros x Hx. apply isd_range in Hx. lia.
Qed.
