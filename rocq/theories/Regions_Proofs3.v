(** Mapped memory: every call keeps the table in step with the set of addresses. *)
From Coq Require Import Permutation.
From Verif Require Import Base Redblack_Model Redblack_Spec Redblack_Facts
  Regions_Model Regions_Spec Regions_Proofs Regions_Proofs2.
Open Scope Z_scope.

Definition iv (en : entry) : Z * Z := (e_base en, e_base en + e_size en).
Definition MShows (l : list entry) (J : list (Z * Z)) : Prop := forall i, In i J <-> exists en, In en l /\ i = iv en.
Lemma crosses_iv b s en : crosses b s (iv en) = meets b (b + s) en. Proof. reflexivity. Qed.

Lemma none_ok dbg : none dbg None = Ok tt.
Proof. unfold none, assert. cbn [negb]. rewrite andb_false_r. reflexivity. Qed.

(** * Addition *)
Lemma tree_add dbg t l J b s : Idx t l -> MShows l J -> add_ok dbg J b s ->
  exists t' l', mmap_tree_add dbg t b s = Ok t' /\ Idx t' l' /\ MShows l' (add_iv b s J).
Proof.
  intros H S ((P1 & P2 & P3) & P4 & P5). unfold mmap_tree_add. assert (V : valid (b, s, 0)) by (unfold valid; cbn [e_base e_size fst snd]; lia).
  unfold add_iv. destruct (filter (crosses b s) J) as [|i F] eqn:FL.
  - destruct (idx_insert dbg t l b s 0 H V) as (t' & E & H' & _).
    { intros en I. destruct (ovl (b, s, 0) en) eqn:Q; [|reflexivity]. assert (X : In (iv en) (filter (crosses b s) J)).
      { apply filter_In. split; [apply S; eauto|exact Q]. } rewrite FL in X. destruct X. }
    rewrite E. cbn [bind]. exists t', (put (b, s, 0) l). split; [reflexivity|]. split; [exact H'|]. intros j. cbn [In]. rewrite (S j). split.
    + intros [<-|(en & I & ->)]; [exists (b, s, 0); split; [apply in_put; auto|reflexivity]|exists en; split; [apply in_put; auto|reflexivity]].
    + intros (en & I & ->). apply in_put in I. destruct I as [->|I]; [left; reflexivity|right; eauto].
  - assert (IF : In i (filter (crosses b s) J)) by (rewrite FL; left; auto). apply filter_In in IF. destruct IF as (IJ & CR).
    assert (UN : forall j, In j J -> crosses b s j = true -> j = i).
    { intros j Ij C. assert (X : In j (filter (crosses b s) J)) by (apply filter_In; auto). rewrite FL in X. destruct F; [|cbn in P4; lia]. destruct X as [X|[]]. auto. }
    pose proof (proj1 (S i) IJ) as (en & Ie & Ei). subst i. rewrite crosses_iv in CR.
    destruct (idx_insert_clash dbg t l b s 0 en H V Ie CR) as (t1 & x & en' & E & Hx & O & _).
    { intros Q. exists en. split; [exact Ie|]. specialize (P5 Q (iv en) IJ CR). cbn [iv fst] in P5. unfold same_start. cbn [e_base fst snd]. lia. }
    pose proof (handle_in _ _ _ _ Hx) as Ie'. assert (en' = en).
    { assert (X : iv en' = iv en) by (apply UN; [apply S; eauto|exact O]). apply (idx_base t l); auto. injection X as X _. exact X. }
    subst en'. rewrite E. cbn [bind]. rewrite (idx_fields _ _ _ _ Hx). destruct (idx_delete t1 l x en Hx) as (t2 & E2 & H2 & _).
    assert (Ve : valid en) by exact (idx_valid t l en H Ie).
    assert (RS : forall y, In y (filter (fun y => negb (e_base y =? e_base en)) l) <-> In y l /\ y <> en) by (intros y; apply (rest_in t l en); auto).
    assert (SEP : forall y, In y l -> y <> en -> meets b (b + s) y = false /\ (e_base y + e_size y <= e_base en \/ e_base en + e_size en <= e_base y)).
    { intros y Iy N. split; [|apply (rest_sep t l); auto]. destruct (meets b (b + s) y) eqn:Q; [|reflexivity]. exfalso. apply N.
      assert (X : iv y = iv en) by (apply UN; [apply S; eauto|exact Q]). apply (idx_base t l); auto. injection X as X _. exact X. }
    destruct en as [[mb ms] mc]. unfold valid in Ve. cbn [e_base e_size fst snd] in *. cbn [bind]. rewrite E2. cbn [bind].
    rewrite !add64_id by lia. set (me := if mb + ms <? b + s then b + s else mb + ms). set (nb := if b <? mb then b else mb).
    assert (ME : me = Z.max (b + s) (mb + ms)) by (unfold me; destruct (mb + ms <? b + s) eqn:Q; lia).
    assert (NB : nb = Z.min b mb) by (unfold nb; destruct (b <? mb) eqn:Q; lia).
    unfold meets in CR. cbn [e_base e_size fst snd] in CR.
    rewrite sub64_id by lia. destruct (idx_insert dbg t2 _ nb (me - nb) 0 H2) as (t3 & E3 & H3 & _).
    { unfold valid. cbn [e_base e_size fst snd]. lia. }
    { intros y Iy. apply RS in Iy. destruct Iy as (Iy & N). destruct (SEP y Iy N) as (A & B). pose proof (idx_valid _ _ _ H Iy) as Vy. unfold valid in Vy.
      unfold ovl, meets in *. cbn [e_base e_size fst snd] in *. lia. }
    rewrite E3. cbn [bind]. unfold assert. cbn [negb]. rewrite andb_false_r. cbn [bind].
    exists t3. eexists. split; [reflexivity|]. split; [exact H3|]. intros j. cbn [In iv fst snd e_base e_size]. rewrite filter_In. split.
    + intros [<-|(Ij & C)].
      * exists (nb, me - nb, 0). split; [apply in_put; auto|]. unfold iv. cbn [e_base e_size fst snd]. f_equal; lia.
      * apply S in Ij. destruct Ij as (y & Iy & ->). exists y. split; [|reflexivity]. apply in_put. right. apply RS. split; [exact Iy|]. intros ->. rewrite crosses_iv in C. unfold meets in C. cbn [e_base e_size fst snd] in C. lia.
    + intros (y & Iy & ->). apply in_put in Iy. destruct Iy as [->|Iy].
      * left. unfold iv. cbn [e_base e_size fst snd]. f_equal; lia.
      * right. apply RS in Iy. destruct Iy as (Iy & N). split; [apply S; eauto|]. rewrite crosses_iv, (proj1 (SEP y Iy N)). reflexivity.
Qed.

(** * Removal *)
Lemma cut_none b s i : crosses b s i = false -> cut b s i = [i]. Proof. intros Q. unfold cut. rewrite Q. reflexivity. Qed.
Lemma filter_put_len (f : entry -> bool) e l : length (filter f (put e l)) = length (filter f (e :: l)).
Proof.
  apply Permutation_length. assert (P := put_perm e l). induction P as [|x l1 l2 P IH|x y l1|l1 l2 l3 P1 IH1 P2 IH2]; cbn [filter]; auto.
  - destruct (f x); auto.
  - destruct (f x), (f y); auto. apply perm_swap.
  - eapply perm_trans; eauto.
Qed.
Lemma filter_drop_len (f : entry -> bool) l e : ascending l -> In e l -> f e = true -> 
  (length (filter f (filter (fun y => negb (e_base y =? e_base e)%Z) l)) < length (filter f l))%nat.
Proof.
  intros A I Q. destruct (filter_out l e A I) as (l1 & l2 & -> & ->). rewrite !filter_app, !app_length. cbn [filter]. rewrite Q. cbn [length]. lia.
Qed.

Lemma filter_length_le {A} (f : A -> bool) l : (length (filter f l) <= length l)%nat.
Proof. induction l as [|x l IH]; cbn [filter length]; [lia|]. destruct (f x); cbn [length]; lia. Qed.

Definition Cutted (b s : Z) (l l' : list entry) : Prop :=
  forall i, (exists en, In en l' /\ In i (cut b s (iv en))) <-> exists en, In en l /\ In i (cut b s (iv en)).

(** one turn of the loop *)
Lemma remove_once dbg t l b s x en : range_ok b s -> Handle t l x en -> meets b (b + s) en = true ->
  exists t1 t2 t3 l', rb_node_fields t x = Ok en /\ rb_delete t x = Ok t1 /\
    (if e_base en <? b then let* (t, n) := rb_insert dbg t1 (e_base en) (sub64 b (e_base en)) 0 in let* _ := none dbg n in Ok t else Ok t1) = Ok t2 /\
    (if add64 b s <? add64 (e_base en) (e_size en)
     then let* (t, n) := rb_insert dbg t2 (add64 b s) (sub64 (add64 (e_base en) (e_size en)) (add64 b s)) 0 in let* _ := none dbg n in Ok t
     else Ok t2) = Ok t3 /\
    Idx t3 l' /\ Cutted b s l l' /\ (length (filter (meets b (b + s)) l') < length (filter (meets b (b + s)) l))%nat.
Proof.
  intros (P1 & P2 & P3) Hx M. pose proof (handle_idx _ _ _ _ Hx) as H. pose proof (handle_in _ _ _ _ Hx) as Ie. pose proof (idx_valid _ _ _ H Ie) as Ve.
  destruct (idx_delete t l x en Hx) as (t1 & E1 & H1 & _). set (rest := filter (fun y => negb (e_base y =? e_base en)) l) in *.
  assert (RS : forall y, In y rest <-> In y l /\ y <> en) by (intros y; apply (rest_in t l en); auto).
  assert (SEP : forall y, In y rest -> e_base y + e_size y <= e_base en \/ e_base en + e_size en <= e_base y).
  { intros y Iy. apply RS in Iy. apply (rest_sep t l); tauto. }
  assert (VY : forall y, In y rest -> valid y) by (intros y Iy; apply RS in Iy; eapply idx_valid; [exact H|apply Iy]).
  assert (LEN : (length (filter (meets b (b + s)) rest) < length (filter (meets b (b + s)) l))%nat) by (apply filter_drop_len; auto; eapply idx_asc; eauto).
  assert (CE : cut b s (iv en) = (if e_base en <? b then [(e_base en, b)] else []) ++ (if b + s <? e_base en + e_size en then [(b + s, e_base en + e_size en)] else [])).
  { unfold cut. rewrite crosses_iv, M. reflexivity. }
  assert (M' : b < e_base en + e_size en /\ e_base en < b + s) by (unfold meets in M; lia). unfold valid in Ve.
  rewrite !add64_id by lia. exists t1.
  assert (ST2 : exists t2 l2, (if e_base en <? b then let* (t, n) := rb_insert dbg t1 (e_base en) (sub64 b (e_base en)) 0 in let* _ := none dbg n in Ok t else Ok t1) = Ok t2 /\ Idx t2 l2 /\
     (forall y, In y l2 <-> In y rest \/ (e_base en < b /\ y = (e_base en, b - e_base en, 0))) /\
     length (filter (meets b (b + s)) l2) = length (filter (meets b (b + s)) rest)).
  { destruct (e_base en <? b) eqn:Q.
    - rewrite sub64_id by lia. destruct (idx_insert dbg t1 rest (e_base en) (b - e_base en) 0 H1) as (t2 & E2 & H2 & _).
      { unfold valid. cbn [e_base e_size fst snd]. lia. }
      { intros y Iy. specialize (SEP y Iy). specialize (VY y Iy). unfold valid in VY. unfold ovl, meets. cbn [e_base e_size fst snd]. unfold e_base, e_size in *. lia. }
      rewrite E2. cbn [bind]. rewrite none_ok. cbn [bind]. exists t2. eexists. split; [reflexivity|]. split; [exact H2|]. split.
      + intros y. rewrite in_put. split; [intros [->|I]; auto; right; split; [lia|reflexivity]|intros [I|(_ & ->)]; auto].
      + rewrite filter_put_len. cbn [filter]. replace (meets b (b + s) (e_base en, b - e_base en, 0)) with false; [reflexivity|]. symmetry. unfold meets. cbn [fst snd]. unfold e_base, e_size in *. cbn [fst snd]. lia.
    - exists t1, rest. split; [reflexivity|]. split; [exact H1|]. split; [|reflexivity]. intros y. split; [auto|]. intros [I|(X & _)]; [auto|lia]. }
  destruct ST2 as (t2 & l2 & E2 & H2 & R2 & L2). exists t2.
  assert (ST3 : exists t3 l3, (if b + s <? e_base en + e_size en then let* (t, n) := rb_insert dbg t2 (b + s) (sub64 (e_base en + e_size en) (b + s)) 0 in let* _ := none dbg n in Ok t else Ok t2) = Ok t3 /\ Idx t3 l3 /\
     (forall y, In y l3 <-> In y l2 \/ (b + s < e_base en + e_size en /\ y = (b + s, e_base en + e_size en - (b + s), 0))) /\
     length (filter (meets b (b + s)) l3) = length (filter (meets b (b + s)) l2)).
  { destruct (b + s <? e_base en + e_size en) eqn:Q.
    - rewrite sub64_id by lia. destruct (idx_insert dbg t2 l2 (b + s) (e_base en + e_size en - (b + s)) 0 H2) as (t3 & E3 & H3 & _).
      { unfold valid. cbn [e_base e_size fst snd]. unfold e_base, e_size in *. lia. }
      { intros y Iy. apply R2 in Iy. unfold ovl, meets. destruct Iy as [Iy|(X & ->)].
        - specialize (SEP y Iy). specialize (VY y Iy). unfold valid in VY. cbn [e_base e_size fst snd]. unfold e_base, e_size in *. lia.
        - cbn [e_base e_size fst snd]. unfold e_base, e_size in *. lia. }
      rewrite E3. cbn [bind]. rewrite none_ok. cbn [bind]. exists t3. eexists. split; [reflexivity|]. split; [exact H3|]. split.
      + intros y. rewrite in_put. split; [intros [->|I]; auto; right; split; [lia|reflexivity]|intros [I|(_ & ->)]; auto].
      + rewrite filter_put_len. cbn [filter]. replace (meets b (b + s) (b + s, e_base en + e_size en - (b + s), 0)) with false; [reflexivity|]. symmetry. unfold meets. unfold e_base, e_size in *. cbn [fst snd]. lia.
    - exists t2, l2. split; [reflexivity|]. split; [exact H2|]. split; [|reflexivity]. intros y. split; [auto|]. intros [I|(X & _)]; [auto|lia]. }
  destruct ST3 as (t3 & l3 & E3 & H3 & R3 & L3). exists t3, l3.
  split; [apply (idx_fields _ _ _ _ Hx)|]. split; [exact E1|]. split; [exact E2|]. split; [exact E3|]. split; [exact H3|]. split; [|lia].
  set (LP := (e_base en, b - e_base en, 0) : entry). set (RP := (b + s, e_base en + e_size en - (b + s), 0) : entry).
  assert (CL : cut b s (iv LP) = [(e_base en, b)]).
  { rewrite cut_none; [|unfold crosses, iv, LP, e_base, e_size; cbn [fst snd]; lia]. unfold iv, LP, e_base, e_size. cbn [fst snd]. f_equal. f_equal. lia. }
  assert (CR : cut b s (iv RP) = [(b + s, e_base en + e_size en)]).
  { rewrite cut_none; [|unfold crosses, iv, RP, e_base, e_size; cbn [fst snd]; lia]. unfold iv, RP, e_base, e_size. cbn [fst snd]. f_equal. f_equal. lia. }
  intros i. split.
  - intros (y & Iy & Ii). apply R3 in Iy. destruct Iy as [Iy|(X & ->)].
    + apply R2 in Iy. destruct Iy as [Iy|(X & ->)]; [apply RS in Iy; exists y; tauto|]. exists en. split; [exact Ie|]. rewrite CE. change (In i (cut b s (iv LP))) in Ii. rewrite CL in Ii.
      replace (e_base en <? b) with true by lia. apply in_or_app. left. exact Ii.
    + exists en. split; [exact Ie|]. rewrite CE. change (In i (cut b s (iv RP))) in Ii. rewrite CR in Ii.
      replace (b + s <? e_base en + e_size en) with true by lia. apply in_or_app. right. exact Ii.
  - intros (y & Iy & Ii). assert (D : y = en \/ y <> en).
    { destruct (Z.eq_dec (e_base y) (e_base en)) as [Q|Q]; [left; apply (idx_base t l); auto|right; congruence]. }
    destruct D as [->|D].
    + rewrite CE in Ii. apply in_app_or in Ii. destruct Ii as [Ii|Ii].
      * destruct (e_base en <? b) eqn:Q; [|destruct Ii]. exists LP. split; [apply R3; left; apply R2; right; split; [lia|reflexivity]|]. rewrite CL. exact Ii.
      * destruct (b + s <? e_base en + e_size en) eqn:Q; [|destruct Ii]. exists RP. split; [apply R3; right; split; [lia|reflexivity]|]. rewrite CR. exact Ii.
    + exists y. split; [apply R3; left; apply R2; left; apply RS; auto|exact Ii].
Qed.

Lemma remove_loop_ok dbg b s : range_ok b s -> forall fuel t l node found, Idx t l ->
  match node with Some x => exists en, Handle t l x en /\ meets b (b + s) en = true | None => forall en, In en l -> meets b (b + s) en = false end ->
  (length (filter (meets b (b + s)) l) < fuel)%nat ->
  exists t' l', remove_loop fuel dbg t b s node found = Ok (t', found || existsb (meets b (b + s)) l) /\ Idx t' l' /\
    forall i, (exists en, In en l' /\ i = iv en) <-> exists en, In en l /\ In i (cut b s (iv en)).
Proof.
  intros P. induction fuel as [|fuel IH]; intros t l node found H Hn Hf; [lia|]. cbn [remove_loop]. destruct node as [x|].
  - destruct Hn as (en & Hx & M). destruct (remove_once dbg t l b s x en P Hx M) as (t1 & t2 & t3 & l' & E0 & E1 & E2 & E3 & H3 & C & LT).
    rewrite E0. destruct en as [[nb ns] nc]. cbn [e_base e_size fst snd] in E2, E3. cbn [bind]. rewrite E1. cbn [bind]. rewrite E2. cbn [bind]. rewrite E3. cbn [bind].
    rewrite add64_id by (destruct P; lia). destruct (idx_overlaps t3 l' b (b + s) H3) as (node & E4 & Hn'). rewrite E4. cbn [bind].
    destruct (IH t3 l' node true H3 Hn' ltac:(lia)) as (t' & l'' & E5 & H5 & C5). exists t', l''. split.
    + rewrite E5. cbn [orb]. replace (existsb (meets b (b + s)) l) with true; [rewrite orb_true_r; reflexivity|]. symmetry. apply existsb_exists. exists (nb, ns, nc). split; [eapply handle_in; eauto|exact M].
    + split; [exact H5|]. intros i. rewrite C5. apply C.
  - exists t, l. rewrite (existsb_not (meets b (b + s)) l Hn), orb_false_r. split; [reflexivity|]. split; [exact H|]. intros i. split; intros (en & I & Q); exists en; split; auto.
    + rewrite cut_none by (rewrite crosses_iv; apply Hn; auto). left. auto.
    + rewrite cut_none in Q by (rewrite crosses_iv; apply Hn; auto). destruct Q as [Q|[]]. auto.
Qed.

Lemma tree_remove dbg t l J b s : Idx t l -> MShows l J -> range_ok b s ->
  exists t' l', mmap_tree_remove dbg t b s = Ok (t', existsb (crosses b s) J) /\ Idx t' l' /\ MShows l' (flat_map (cut b s) J).
Proof.
  intros H S P. unfold mmap_tree_remove. rewrite add64_id by (destruct P; lia). destruct (idx_overlaps t l b (b + s) H) as (node & E & Hn). rewrite E. cbn [bind].
  destruct (remove_loop_ok dbg b s P (Datatypes.S (fresh t)) t l node false H Hn) as (t' & l' & E1 & H1 & C).
  { pose proof (idx_size t l H). pose proof (filter_length_le (meets b (b + s)) l). lia. }
  exists t', l'. rewrite E1. cbn [orb]. split; [|split; [exact H1|]].
  - f_equal. f_equal. destruct (existsb (crosses b s) J) eqn:Q.
    + apply existsb_exists in Q. destruct Q as (i & I & Q). apply S in I. destruct I as (en & I & ->). apply existsb_exists. eauto.
    + apply existsb_not. intros en I. rewrite <- crosses_iv. destruct (crosses b s (iv en)) eqn:Q2; [|reflexivity]. rewrite <- Q. symmetry. apply existsb_exists. exists (iv en). split; [apply S; eauto|exact Q2].
  - intros i. rewrite C, in_flat_map. split; [intros (j & I & Q); apply S in I; destruct I as (en & I & ->); eauto|intros (en & I & Q); exists (iv en); split; [apply S; eauto|exact Q]].
Qed.

(** * The intervals and the set of addresses *)
Definition Covers (J : list (Z * Z)) (P : Z -> Prop) : Prop := forall a, P a <-> exists i, In i J /\ fst i <= a < snd i.
Definition Solid (J : list (Z * Z)) : Prop := forall i, In i J -> fst i < snd i.
Lemma cut_covers b s J P : 0 < s -> Covers J P -> Covers (flat_map (cut b s) J) (fun a => P a /\ ~ within b s a).
Proof.
  intros P2 C a. rewrite (C a). unfold within. split.
  - intros ((i & I & R) & N). destruct (crosses b s i) eqn:Q.
    + destruct (Z.lt_ge_cases a b) as [LT|GE].
      * exists (fst i, b). split; [|cbn; lia]. apply in_flat_map. exists i. split; [exact I|]. unfold cut. rewrite Q. replace (fst i <? b) with true by lia. left. reflexivity.
      * exists (b + s, snd i). split; [|cbn; lia]. apply in_flat_map. exists i. split; [exact I|]. unfold cut. rewrite Q. replace (b + s <? snd i) with true by lia. apply in_or_app. right. left. reflexivity.
    + exists i. split; [|exact R]. apply in_flat_map. exists i. split; [exact I|]. rewrite cut_none by exact Q. left. reflexivity.
  - intros (j & Ij & R). apply in_flat_map in Ij. destruct Ij as (i & I & Ij). unfold cut in Ij. destruct (crosses b s i) eqn:Q.
    + unfold crosses in Q. apply in_app_or in Ij. destruct Ij as [Ij|Ij].
      * destruct (fst i <? b) eqn:Q2; [|destruct Ij]. destruct Ij as [<-|[]]. cbn [fst snd] in R. split; [exists i; split; [exact I|lia]|lia].
      * destruct (b + s <? snd i) eqn:Q2; [|destruct Ij]. destruct Ij as [<-|[]]. cbn [fst snd] in R. split; [exists i; split; [exact I|lia]|lia].
    + destruct Ij as [<-|[]]. unfold crosses in Q. split; [eauto|lia].
Qed.
Lemma cut_solid b s J : Solid J -> Solid (flat_map (cut b s) J).
Proof.
  intros S j Ij. apply in_flat_map in Ij. destruct Ij as (i & I & Ij). specialize (S i I). unfold cut in Ij. destruct (crosses b s i) eqn:Q; [|destruct Ij as [<-|[]]; auto].
  unfold crosses in Q. apply in_app_or in Ij. destruct Ij as [Ij|Ij].
  - destruct (fst i <? b) eqn:Q2; [|destruct Ij]. destruct Ij as [<-|[]]. cbn. lia.
  - destruct (b + s <? snd i) eqn:Q2; [|destruct Ij]. destruct Ij as [<-|[]]. cbn. lia.
Qed.
Lemma add_covers b s J P : 0 < s -> (length (filter (crosses b s) J) <= 1)%nat -> Covers J P -> Covers (add_iv b s J) (fun a => P a \/ within b s a).
Proof.
  intros P2 P4 C a. rewrite (C a). unfold add_iv, within. destruct (filter (crosses b s) J) as [|i F] eqn:FL.
  - split; [intros [(i & I & R)|R]; [exists i; split; [right|]; auto|exists (b, b + s); split; [left; auto|exact R]]|].
    intros (i & [<-|I] & R); [right; exact R|left; eauto].
  - assert (IF : In i (filter (crosses b s) J)) by (rewrite FL; left; auto). apply filter_In in IF. destruct IF as (IJ & CR).
    assert (UN : forall j, In j J -> crosses b s j = true -> j = i).
    { intros j Ij Q. assert (X : In j (filter (crosses b s) J)) by (apply filter_In; auto). rewrite FL in X. destruct F; [|cbn in P4; lia]. destruct X as [X|[]]. auto. }
    unfold crosses in CR. split.
    + intros [(j & Ij & R)|R].
      * destruct (crosses b s j) eqn:Q.
        -- rewrite (UN j Ij Q) in R. eexists. split; [left; reflexivity|]. cbn [fst snd]. lia.
        -- exists j. split; [right; apply filter_In; rewrite Q; auto|exact R].
      * eexists. split; [left; reflexivity|]. cbn [fst snd]. lia.
    + intros (j & [<-|Ij] & R).
      * cbn [fst snd] in R. destruct (Z.lt_ge_cases a b) as [X|X]; [left; exists i; split; [exact IJ|lia]|].
        destruct (Z.lt_ge_cases a (b + s)) as [Y|Y]; [right; lia|left; exists i; split; [exact IJ|lia]].
      * apply filter_In in Ij. left. exists j. tauto.
Qed.
Lemma add_solid b s J : 0 < s -> Solid J -> Solid (add_iv b s J).
Proof.
  intros P2 S j. unfold add_iv. destruct (filter (crosses b s) J) as [|i F] eqn:FL.
  - intros [<-|I]; [cbn; lia|auto].
  - assert (IF : In i (filter (crosses b s) J)) by (rewrite FL; left; auto). apply filter_In in IF. destruct IF as (IJ & CR). specialize (S i IJ) as Si.
    intros [<-|I]; [cbn; lia|]. apply filter_In in I. apply S, I.
Qed.
Lemma crosses_any b s J P : 0 < s -> Solid J -> Covers J P -> (existsb (crosses b s) J = true <-> exists x, within b s x /\ P x).
Proof.
  intros P2 S C. rewrite existsb_exists. unfold within, crosses. split.
  - intros (i & I & Q). specialize (S i I). exists (Z.max b (fst i)). split; [lia|]. apply C. exists i. split; [exact I|lia].
  - intros (x & R & X). apply C in X. destruct X as (i & I & R'). exists i. split; [exact I|lia].
Qed.
Lemma covers_ext J P Q : (forall a, P a <-> Q a) -> Covers J P -> Covers J Q.
Proof. intros E C a. rewrite <- (E a). apply C. Qed.

Definition of_m (c : mchange) : mcall := match c with MAdd b s => Map b s | MDrop b s => Unmap b s | MMove ob os nb ns => Remap ob os nb ns end.
Lemma mone dbg t l J past c : Idx t l -> MShows l J -> Solid J -> Covers J (held past) -> mproper dbg J c ->
  exists t' l' r, mstep dbg t (of_m c) = Ok (t', r) /\ Idx t' l' /\ MShows l' (kept1 J c) /\ Solid (kept1 J c) /\ Covers (kept1 J c) (held (c :: past)) /\
    r = match c with MDrop b s => [existsb (crosses b s) J] | _ => [] end.
Proof.
  intros H S SO C P. destruct c as [b s|b s|ob os nb ns]; cbn [of_m mstep kept1 held mproper] in *.
  - destruct (tree_add dbg t l J b s H S P) as (t' & l' & E & H' & S'). rewrite E. cbn [bind]. destruct P as ((P1 & P2 & P3) & P4 & P5).
    exists t', l', []. split; [reflexivity|]. split; [exact H'|]. split; [exact S'|]. split; [apply add_solid; auto|]. split; [apply add_covers; auto|reflexivity].
  - destruct (tree_remove dbg t l J b s H S P) as (t' & l' & E & H' & S'). rewrite E. cbn [bind]. destruct P as (P1 & P2 & P3).
    exists t', l'. eexists. split; [reflexivity|]. split; [exact H'|]. split; [exact S'|]. split; [apply cut_solid; auto|]. split; [apply cut_covers; auto|reflexivity].
  - destruct P as (P & PA). destruct (tree_remove dbg t l J ob os H S P) as (t1 & l1 & E & H1 & S1). rewrite E. cbn [bind]. destruct P as (P1 & P2 & P3).
    pose proof (crosses_any ob os J _ P2 SO C) as ANY. destruct (existsb (crosses ob os) J) eqn:Q.
    + specialize (PA eq_refl). destruct (tree_add dbg t1 l1 _ nb ns H1 S1 PA) as (t2 & l2 & E2 & H2 & S2). rewrite E2. cbn [bind]. destruct PA as ((A1 & A2 & A3) & A4 & A5).
      exists t2, l2, []. split; [reflexivity|]. split; [exact H2|]. split; [exact S2|]. split; [apply add_solid; [auto|apply cut_solid; auto]|]. split; [|reflexivity].
      apply covers_ext with (P := fun a => (held past a /\ ~ within ob os a) \/ within nb ns a); [|apply add_covers; auto; apply cut_covers; auto].
      intros a. pose proof (proj1 ANY eq_refl). tauto.
    + exists t1, l1, []. split; [reflexivity|]. split; [exact H1|].
      assert (NX : forall x, within ob os x -> held past x -> False) by (intros x A B; assert (X : false = true) by (apply ANY; eauto); discriminate).
      assert (CC : forall i, In i J -> crosses ob os i = false).
      { intros i I. destruct (crosses ob os i) eqn:Q2; [|reflexivity]. rewrite <- Q. symmetry. apply existsb_exists. eauto. }
      split; [|split; [exact SO|split; [|reflexivity]]].
      * intros i. rewrite <- (S1 i), in_flat_map. split; [intros I; exists i; split; [exact I|rewrite cut_none by auto; left; auto]|].
        intros (j & I & Q2). rewrite cut_none in Q2 by auto. destruct Q2 as [<-|[]]. exact I.
      * apply covers_ext with (P := held past); [|exact C]. intros a. split; [intros X; left; split; [exact X|intros W; eapply NX; eauto]|].
        intros [(X & _)|((x & W & X) & _)]; [exact X|destruct (NX x W X)].
Qed.
Lemma mrun_all dbg cs : forall t l J past, Idx t l -> MShows l J -> Solid J -> Covers J (held past) -> mproper_all dbg J cs ->
  exists t' l' r, mrun dbg t (map of_m cs) = Ok (t', r) /\ Idx t' l' /\ MShows l' (fold_left kept1 cs J) /\ Covers (fold_left kept1 cs J) (held (rev cs ++ past)) /\
    replies past cs r.
Proof.
  induction cs as [|c cs IH]; intros t l J past H S SO C P.
  - exists t, l, []. cbn. auto.
  - destruct P as (P1 & P2). destruct (mone dbg t l J past c H S SO C P1) as (t1 & l1 & r1 & E1 & H1 & S1 & SO1 & C1 & R1).
    destruct (IH t1 l1 (kept1 J c) (c :: past) H1 S1 SO1 C1 P2) as (t2 & l2 & r2 & E2 & H2 & S2 & C2 & R2).
    exists t2, l2, (r1 ++ r2). cbn [map mrun]. rewrite E1. cbn [bind]. rewrite E2. cbn [bind]. split; [reflexivity|]. split; [exact H2|]. cbn [fold_left rev].
    split; [exact S2|]. rewrite <- app_assoc. split; [exact C2|]. subst r1. destruct c as [b s|b s|ob os nb ns]; cbn [replies app]; auto.
    eexists. exists r2. split; [reflexivity|]. split; [|exact R2]. cbn [mproper] in P1. destruct P1 as (_ & P1 & _). apply crosses_any; auto.
Qed.
Theorem map_history dbg cs : mproper_all dbg [] cs ->
  exists t r, mrun dbg rb_tree_create (map of_m cs) = Ok (t, r) /\ replies [] cs r /\
    forall a, exists x, mmap_anon_lookup t a = Ok x /\
      match x with
      | None => ~ held (rev cs) a
      | Some (b, s) => within b s a /\ In (b, b + s) (kept cs) /\ forall y, within b s y -> held (rev cs) y
      end.
Proof.
  intros P. destruct (mrun_all dbg cs rb_tree_create [] [] []) as (t & l & r & E & H & S & C & R).
  - apply idx_create.
  - intros i. cbn. split; [tauto|intros (en & [] & _)].
  - intros i [].
  - intros a. cbn. split; [tauto|intros (i & [] & _)].
  - exact P.
  - rewrite app_nil_r in C. exists t, r. split; [exact E|]. split; [exact R|]. intros a. unfold mmap_anon_lookup.
    destruct (idx_in_node t l a H) as (x & E1 & Hx). rewrite E1. cbn [bind]. destruct x as [x|].
    + destruct Hx as (en & Hx & Q). pose proof (handle_in _ _ _ _ Hx) as I. rewrite (idx_fields _ _ _ _ Hx). destruct en as [[b s] c]. cbn [bind].
      exists (Some (b, s)). split; [reflexivity|]. unfold inside in Q. cbn [e_base e_size fst snd] in Q.
      assert (K : In (b, b + s) (kept cs)) by (apply S; exists (b, s, c); auto). split; [unfold within; lia|]. split; [exact K|].
      intros y W. apply C. exists (b, b + s). split; [exact K|exact W].
    + exists None. split; [reflexivity|]. intros X. apply C in X. destruct X as (i & I & R1). apply S in I. destruct I as (en & I & ->). specialize (Hx en I). unfold inside in Hx. cbn [iv fst snd] in R1. lia.
Qed.
