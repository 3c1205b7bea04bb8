(** Heap regions: every call keeps the table in step with the list of regions. *)
From Coq Require Import Permutation.
From Verif Require Import Base Redblack_Model Redblack_Spec Redblack_Facts Regions_Model Regions_Spec.
Open Scope Z_scope.

Lemma sub64_id a b : 0 <= b <= a -> a < 2 ^ 64 -> sub64 a b = a - b.
Proof. intros. apply Z.mod_small. lia. Qed.
Lemma add64_id a b : 0 <= a -> 0 <= b -> a + b < 2 ^ 64 -> add64 a b = a + b.
Proof. intros. apply Z.mod_small. lia. Qed.

(** Payload blocks: [X] are all blocks ever allocated. *)
Definition Own (X : list Z) (n : Z) : Prop := 0 <= n /\ NoDup X /\ forall i, In i X <-> 0 <= i < n.
Lemma own_perm X Y n : Permutation X Y -> Own X n -> Own Y n.
Proof.
  intros P (N0 & N & I). split; [exact N0|]. split; [eapply Permutation_NoDup; eauto|]. intros i. rewrite <- I. split; apply Permutation_in; [symmetry|]; auto.
Qed.
Lemma own_new X n : Own X n -> Own (n :: X) (n + 1).
Proof.
  intros (N0 & N & I). split; [lia|]. split; [constructor; auto; rewrite I; lia|]. intros i. cbn [In]. rewrite I. lia.
Qed.
Lemma put_perm e l : Permutation (put e l) (e :: l).
Proof.
  induction l as [|x l IH]; cbn; [auto|]. destruct (e_base e <? e_base x); [auto|]. rewrite IH. apply perm_swap.
Qed.
Lemma filter_out (l : list entry) e : ascending l -> In e l -> exists l1 l2, l = l1 ++ e :: l2 /\ filter (fun y => negb (e_base y =? e_base e)) l = l1 ++ l2.
Proof.
  induction l as [|x l IH]; intros A I; [destruct I|]. cbn in A. destruct A as (A1 & A2). cbn [filter]. destruct I as [->|I].
  - exists [], l. split; [reflexivity|]. rewrite Z.eqb_refl. cbn [negb app]. clear IH A2. induction l as [|y l IH]; [reflexivity|]. cbn [filter].
    pose proof (A1 y (or_introl eq_refl)). replace (e_base y =? e_base e) with false by lia. cbn [negb]. f_equal. apply IH. intros; apply A1; right; auto.
  - pose proof (A1 e I). replace (e_base x =? e_base e) with false by lia. cbn [negb]. destruct (IH A2 I) as (l1 & l2 & -> & ->).
    exists (x :: l1), l2. auto.
Qed.
Lemma own_delete p l fr n e : ascending l -> In e l -> Own (p ++ map e_client l ++ fr) n ->
  Own (p ++ map e_client (filter (fun y => negb (e_base y =? e_base e)) l) ++ fr ++ [e_client e]) n.
Proof.
  intros A I. destruct (filter_out l e A I) as (l1 & l2 & -> & ->). apply own_perm. apply Permutation_app_head. rewrite !map_app. cbn [map].
  rewrite <- !app_assoc. apply Permutation_app_head. cbn [app]. rewrite app_assoc. apply Permutation_cons_append.
Qed.
Lemma own_insert p l fr n b s c : Own ((c :: p) ++ map e_client l ++ fr) n -> Own (p ++ map e_client (put (b, s, c) l) ++ fr) n.
Proof.
  apply own_perm. rewrite (Permutation_map e_client (put_perm (b, s, c) l)). cbn [map app]. apply Permutation_middle.
Qed.

Definition view (h : table) (en : entry) : region := (e_base en, e_base en + e_size en, flags_of h (e_client en)).
Definition Shows (h : table) (l : list entry) (L : list region) : Prop :=
  forall r, In r L <-> exists en, In en l /\ r = view h en.
Definition HInv (p : list Z) (h : table) (l : list entry) : Prop :=
  Idx (tr h) l /\ Own (p ++ map e_client l ++ freed (tr h)) (next_info h).

Lemma nodup_app_r {A} (a b : list A) x : NoDup (a ++ b) -> In x a -> ~ In x b.
Proof. induction a as [|y a IH]; cbn; [tauto|]. intros N [->|I] J; inversion N; subst; [|apply IH in I; auto]. apply H1. apply in_or_app. auto. Qed.
Lemma read_ok p h l i : HInv p h l -> In i (p ++ map e_client l) -> read_info h i = Ok (flags_of h i).
Proof.
  intros (_ & (_ & N & B)) I. unfold read_info. rewrite app_assoc in N, B. assert (R : 0 <= i < next_info h) by (apply B; apply in_or_app; auto).
  assert (F : existsb (Z.eqb i) (freed (tr h)) = false).
  { destruct (existsb (Z.eqb i) (freed (tr h))) eqn:Q; [|reflexivity]. apply existsb_exists in Q. destruct Q as (j & J & E). apply Z.eqb_eq in E. subst j.
    destruct (nodup_app_r _ _ _ N I J). }
  rewrite F. replace ((0 <=? i) && (i <? next_info h)) with true by lia. reflexivity.
Qed.
Lemma client_below p h l en : HInv p h l -> In en l -> 0 <= e_client en < next_info h.
Proof. intros (_ & (_ & _ & B)) I. apply B. apply in_or_app. right. apply in_or_app. left. apply in_map. exact I. Qed.

Lemma clone_ok p h l i : HInv p h l -> In i (p ++ map e_client l) ->
  exists h', heap_info_clone h i = Ok (h', next_info h) /\ HInv (next_info h :: p) h' l /\ tr h' = tr h /\ log h' = log h /\
    flags_of h' (next_info h) = flags_of h i /\ next_info h' = next_info h + 1 /\ (forall j, j < next_info h -> flags_of h' j = flags_of h j).
Proof.
  intros H I. unfold heap_info_clone. rewrite (read_ok p h l i H I). cbn [bind]. eexists. split; [reflexivity|].
  destruct H as (H1 & H2). split; [split; [exact H1|cbn [freed tr next_info]; apply own_new in H2; exact H2]|].
  cbn [tr log flags_of next_info]. unfold put_flags. rewrite Z.eqb_refl. repeat split; auto. intros j Hj. replace (j =? next_info h) with false by lia. reflexivity.
Qed.
Lemma insert_ok dbg p h l b s c : HInv (c :: p) h l -> valid (b, s, c) -> (forall e, In e l -> ovl (b, s, c) e = false) ->
  exists t', rb_insert dbg (tr h) b s c = Ok (t', None) /\ HInv p (with_tree h t') (put (b, s, c) l).
Proof.
  intros (H1 & H2) V N. destruct (idx_insert dbg (tr h) l b s c H1 V N) as (t' & E & I & F). exists t'. split; [exact E|]. split; [exact I|].
  cbn [tr with_tree next_info]. rewrite F. apply own_insert. exact H2.
Qed.
Lemma delete_ok p h l x e : HInv p h l -> Handle (tr h) l x e ->
  exists t', rb_delete (tr h) x = Ok t' /\ HInv p (with_tree h t') (filter (fun y => negb (e_base y =? e_base e)) l).
Proof.
  intros (H1 & H2) Hx. destruct (idx_delete (tr h) l x e Hx) as (t' & E & I & F). exists t'. split; [exact E|]. split; [exact I|].
  cbn [tr with_tree next_info]. rewrite F. apply own_delete; [eapply idx_asc; eauto|eapply handle_in; eauto|exact H2].
Qed.

Lemma rest_in t l e y : Idx t l -> In e l -> (In y (filter (fun y => negb (e_base y =? e_base e)) l) <-> In y l /\ y <> e).
Proof.
  intros H I. rewrite filter_In. split; intros (J & Q); split; auto.
  - intros ->. rewrite Z.eqb_refl in Q. discriminate.
  - destruct (Z.eqb_spec (e_base y) (e_base e)) as [E|]; [|reflexivity]. exfalso. apply Q. eapply idx_base; eauto.
Qed.
(** entries other than [e] lie entirely on one side of it *)
Lemma rest_sep t l e y : Idx t l -> In e l -> In y l -> y <> e -> e_base y + e_size y <= e_base e \/ e_base e + e_size e <= e_base y.
Proof.
  intros H I J N. destruct (Z.lt_trichotomy (e_base y) (e_base e)) as [C|[C|C]].
  - left. eapply idx_sep; eauto.
  - exfalso. apply N. eapply idx_base; eauto.
  - right. eapply idx_sep; eauto.
Qed.

Lemma touches_view s e h en : touches s e (view h en) = meets s e en. Proof. reflexivity. Qed.
Lemma contains_view a h en : contains (view h en) a = inside a en. Proof. reflexivity. Qed.
Lemma shows_existsb h l L (f : region -> bool) : Shows h l L -> (existsb f L = true <-> exists en, In en l /\ f (view h en) = true).
Proof.
  intros S. rewrite existsb_exists. split.
  - intros (r & I & E). apply S in I. destruct I as (en & I & ->). eauto.
  - intros (en & I & E). exists (view h en). split; [apply S; eauto|exact E].
Qed.
Definition of_notice (n : notice) : event := match n with NAdd s e => Added s e | NDel s e => Removed s e end.
Definition of_change (c : change) : call := match c with Grow s e f => Add s e f | Shrink s e => Remove s e | Resize s e => Adjust s e end.
Definition StepOK (dbg : bool) (h : table) (L : list region) (c : change) : Prop :=
  exists h' l', step dbg h (of_change c) = Ok (h', answer L c) /\ HInv [] h' l' /\ Shows h' l' (after L c) /\
    log h' = log h ++ map of_notice (notices1 L c).

Lemma add_step dbg h l L s e f : HInv [] h l -> Shows h l L -> proper dbg L (Grow s e f) -> StepOK dbg h L (Grow s e f).
Proof.
  intros H S (P1 & P2 & P3). unfold StepOK. cbn [of_change step]. unfold heap_region_add. cbn [tr next_info log flags_of].
  set (h1 := T (tr h) (put_flags (T (tr h) (flags_of h) (next_info h + 1) (log h ++ [Added s e])) (next_info h) f) (next_info h + 1) (log h ++ [Added s e])).
  assert (H1 : HInv [next_info h] h1 l).
  { destruct H as (A & B). split; [exact A|]. cbn [tr h1 next_info app]. apply own_new in B. exact B. }
  rewrite sub64_id by lia.
  destruct (insert_ok dbg [] h1 l s (e - s) (next_info h) H1) as (t' & E & H2).
  { unfold valid. cbn [e_base e_size fst snd]. lia. }
  { intros en I. specialize (P3 (view h en)). rewrite touches_view in P3. unfold ovl. cbn [e_base e_size fst snd].
    replace (s + (e - s)) with e by lia. apply P3. apply S. eauto. }
  change (tr h1) with (tr h) in E. rewrite E. cbn [bind assert]. unfold assert. cbn [negb]. rewrite andb_false_r. cbn [bind].
  eexists. exists (put (s, e - s, next_info h) l). split; [reflexivity|]. split; [exact H2|]. split; [|reflexivity].
  intros r. cbn [after In]. split.
  - intros [<-|I].
    + exists (s, e - s, next_info h). split; [apply in_put; auto|]. unfold view, put_flags. cbn [e_base e_size e_client fst snd flags_of].
      rewrite Z.eqb_refl. replace (s + (e - s)) with e by lia. reflexivity.
    + apply S in I. destruct I as (en & I & ->). exists en. split; [apply in_put; auto|]. unfold view, put_flags. cbn [flags_of].
      pose proof (client_below _ _ _ _ H I). replace (e_client en =? next_info h) with false by lia. reflexivity.
  - intros (en & I & ->). apply in_put in I. destruct I as [->|I].
    + left. unfold view, put_flags. cbn [e_base e_size e_client fst snd flags_of]. rewrite Z.eqb_refl. replace (s + (e - s)) with e by lia. reflexivity.
    + right. apply S. exists en. split; [exact I|]. unfold view, put_flags. cbn [flags_of].
      pose proof (client_below _ _ _ _ H I). replace (e_client en =? next_info h) with false by lia. reflexivity.
Qed.

Lemma adjust_step dbg h l L s e : HInv [] h l -> Shows h l L -> proper dbg L (Resize s e) -> (forall r, In r L -> NoDup L) -> StepOK dbg h L (Resize s e).
Proof.
  intros H S (P2 & P3) ND. unfold StepOK. cbn [of_change step]. unfold heap_region_adjust. destruct (idx_in_node (tr h) l s (proj1 H)) as (x & E & Hx).
  rewrite E. cbn [bind]. destruct x as [x|].
  - destruct Hx as (en & Hx & In1). rewrite (idx_fields _ _ _ _ Hx). pose proof (handle_in _ _ _ _ Hx) as Il.
    assert (IL : In (view h en) L) by (apply S; eauto). destruct (P3 (view h en) IL In1) as (Q1 & Q2 & Q3). cbn [view r_start fst] in Q1, Q2, Q3.
    assert (Ve : valid en) by (eapply idx_valid; [apply H|exact Il]). destruct en as [[nb ns] info]. cbn [bind].
    unfold valid in Ve. cbn [e_base e_size e_client fst snd view r_start] in *.
    assert (A : assert dbg (s =? nb) = Ok tt) by (unfold assert; destruct dbg; [rewrite (Q2 eq_refl), Z.eqb_refl|]; reflexivity). rewrite A. cbn [bind].
    set (h0 := with_event h (Added nb e)). assert (H0 : HInv [] h0 l) by exact H.
    destruct (clone_ok [] h0 l info H0) as (h1 & E1 & H1 & T1 & L1 & F1 & N1 & K1).
    { cbn [app]. apply in_map_iff. exists (nb, ns, info). auto. }
    rewrite E1. cbn [bind]. assert (Hx1 : Handle (tr h1) l x (nb, ns, info)) by (rewrite T1; exact Hx).
    destruct (delete_ok _ h1 l x _ H1 Hx1) as (t2 & E2 & H2). rewrite E2. cbn [bind]. rewrite sub64_id by lia.
    destruct (insert_ok dbg [] (with_tree h1 t2) _ nb (e - nb) (next_info h) H2) as (t3 & E3 & H3).
    { unfold valid. cbn [e_base e_size fst snd]. lia. }
    { intros y Iy. apply (rest_in (tr h) l) in Iy; [|apply H|exact Il]. destruct Iy as (Iy & Ny). unfold ovl. cbn [e_base e_size fst snd].
      replace (nb + (e - nb)) with e by lia. specialize (Q3 (view h y)). rewrite touches_view in Q3. apply Q3; [apply S; eauto|].
      intros V. apply Ny. apply (idx_base (tr h) l); [apply H|exact Iy|exact Il|]. injection V as V _ _. exact V. }
    change (tr (with_tree h1 t2)) with t2 in E3. change (next_info h0) with (next_info h) in *. rewrite E3. cbn [bind].
    exists (with_tree h1 t3), (put (nb, e - nb, next_info h) (filter (fun y => negb (e_base y =? nb)) l)).
    split.
    { f_equal. f_equal. cbn [answer]. f_equal. symmetry. apply (shows_existsb h l L _ S). exists (nb, ns, info). auto. }
    split; [exact H3|].
    assert (NEW : view (with_tree h1 t3) (nb, e - nb, next_info h) = (nb, e, flags_of h info)).
    { unfold view. cbn [e_base e_size e_client fst snd flags_of with_tree]. rewrite F1. replace (nb + (e - nb)) with e by lia. reflexivity. }
    assert (OLD : forall y, In y l -> view (with_tree h1 t3) y = view h y).
    { intros y Iy. unfold view. cbn [flags_of with_tree]. rewrite K1; [reflexivity|]. apply (client_below _ _ _ _ H Iy). }
    assert (UNIQ : forall y, In y l -> inside s y = true -> y = (nb, ns, info)).
    { intros y Iy Q. eapply idx_inside_uniq; [apply H| | |exact Q|]; auto. }
    split.
    + intros r. cbn [after]. rewrite in_map_iff. split.
      * intros (r0 & Er & I0). apply S in I0. destruct I0 as (y & Iy & ->). rewrite contains_view in Er. destruct (inside s y) eqn:Q.
        -- pose proof (UNIQ y Iy Q). subst y. exists (nb, e - nb, next_info h). split; [apply in_put; auto|]. rewrite NEW, <- Er. reflexivity.
        -- exists y. split; [apply in_put; right; apply (rest_in (tr h) l (nb, ns, info)); [apply H|exact Il|split; [exact Iy|intros ->; congruence]]|].
           rewrite OLD by exact Iy. auto.
      * intros (y & Iy & ->). apply in_put in Iy. destruct Iy as [->|Iy].
        -- exists (view h (nb, ns, info)). rewrite contains_view, In1, NEW. split; [reflexivity|exact IL].
        -- apply (rest_in (tr h) l (nb, ns, info)) in Iy; [|apply H|exact Il]. destruct Iy as (Iy & Ny). exists (view h y).
           rewrite contains_view. destruct (inside s y) eqn:Q; [elim Ny; apply UNIQ; auto|]. rewrite OLD by exact Iy. split; [reflexivity|apply S; eauto].
    + cbn [log with_tree]. rewrite L1. cbn [log h0 with_event notices1]. f_equal.
      assert (FL : filter (fun r => contains r s) L = [view h (nb, ns, info)]).
      { specialize (ND _ IL). assert (AL : forall r, In r L -> contains r s = true -> r = view h (nb, ns, info)).
        { intros r Ir Q. apply S in Ir. destruct Ir as (y & Iy & ->). rewrite contains_view in Q. rewrite (UNIQ y Iy Q). reflexivity. }
        clear - ND AL IL In1. revert IL ND AL. induction L as [|r L IH]; intros IL ND AL; [destruct IL|]. inversion ND; subst. cbn [filter].
        destruct IL as [->|IL].
        - rewrite contains_view, In1. f_equal. assert (G : forall M, (forall r, In r M -> contains r s = true -> r = view h (nb, ns, info)) -> ~ In (view h (nb, ns, info)) M -> filter (fun r => contains r s) M = []).
          { induction M as [|q M IHM]; intros HM NM; [reflexivity|]. cbn [filter]. destruct (contains q s) eqn:Q; [elim NM; left; apply HM; [left|]; auto|].
            apply IHM; [intros; apply HM; [right|]; auto|intros J; apply NM; right; auto]. }
          apply G; [intros; apply AL; [right|]; auto|exact H1].
        - destruct (contains r s) eqn:Q; [|apply IH; auto; intros; apply AL; [right|]; auto].
          exfalso. rewrite (AL r (or_introl eq_refl) Q) in H1. auto. }
      rewrite FL. reflexivity.
  - exists h, l. assert (NO : existsb (fun r => contains r s) L = false).
    { destruct (existsb (fun r => contains r s) L) eqn:Q; [|reflexivity]. apply (shows_existsb h l L _ S) in Q. destruct Q as (en & I & Q).
      rewrite contains_view, Hx in Q by exact I. discriminate. }
    split; [cbn [answer]; rewrite NO; reflexivity|]. split; [exact H|].
    assert (NR : forall r, In r L -> contains r s = false).
    { intros r I. destruct (contains r s) eqn:Q; [|reflexivity]. rewrite <- NO. symmetry. apply existsb_exists. eauto. }
    split.
    + intros r. cbn [after]. rewrite in_map_iff. rewrite <- (S r). split.
      * intros (r0 & Er & I0). rewrite (NR r0 I0) in Er. subst. exact I0.
      * intros I. exists r. rewrite (NR r I). auto.
    + cbn [notices1]. assert (FL : filter (fun r => contains r s) L = []).
      { clear - NR. induction L as [|r L IH]; [reflexivity|]. cbn [filter]. rewrite (NR r (or_introl eq_refl)). apply IH. intros; apply NR; right; auto. }
      rewrite FL. cbn. rewrite app_nil_r. reflexivity.
Qed.

Lemma remove_step dbg h l L s e : HInv [] h l -> Shows h l L -> proper dbg L (Shrink s e) -> StepOK dbg h L (Shrink s e).
Proof.
  intros H S (P1 & P2 & P3 & P4). unfold StepOK. cbn [of_change step]. unfold heap_region_remove.
  destruct (idx_overlaps (tr h) l s e (proj1 H)) as (x & E & Hx). rewrite E. cbn [bind]. destruct x as [x|].
  - destruct Hx as (en & Hx & M1). rewrite (idx_fields _ _ _ _ Hx). pose proof (handle_in _ _ _ _ Hx) as Il.
    assert (IL : In (view h en) L) by (apply S; eauto). assert (Ve : valid en) by (eapply idx_valid; [apply H|exact Il]).
    assert (AE : dbg = true -> e <= e_base en + e_size en) by (intros D; apply (P4 D (view h en) IL M1)).
    assert (UNIQ : forall y, In y l -> meets s e y = true -> y = en).
    { intros y Iy Q. assert (V : view h y = view h en) by (apply P3; [apply S; eauto|exact IL|exact Q|exact M1]).
      apply (idx_base (tr h) l); [apply H|exact Iy|exact Il|]. injection V as V _ _. exact V. }
    destruct en as [[nb ns] info]. cbn [bind]. unfold valid in Ve. cbn [e_base e_size e_client fst snd] in *. rewrite add64_id by lia.
    assert (A : assert dbg (e <=? nb + ns) = Ok tt) by (unfold assert; destruct dbg; [specialize (AE eq_refl); replace (e <=? nb + ns) with true by lia|]; reflexivity).
    rewrite A. cbn [bind]. clear A. set (ne := nb + ns) in *.
    assert (Mb : s < ne /\ nb < e) by (unfold meets in M1; cbn [e_base e_size fst snd] in M1; fold ne in M1; lia).
    set (h0 := with_event h (Removed s e)). assert (H0 : HInv [] h0 l) by exact H.
    set (rest := filter (fun y => negb (e_base y =? nb)) l).
    assert (REST : forall y, In y rest <-> In y l /\ y <> (nb, ns, info)) by (intros y; apply (rest_in (tr h) l (nb, ns, info)); [apply H|exact Il]).
    assert (SEP : forall y, In y rest -> e_base y + e_size y <= nb \/ ne <= e_base y).
    { intros y Iy. apply REST in Iy. apply (rest_sep (tr h) l (nb, ns, info)); [apply H|exact Il| |]; tauto. }
    assert (AFT : forall r, In r (after L (Shrink s e)) <->
      (exists y, In y rest /\ r = view h y) \/ (nb < s /\ r = (nb, s, flags_of h info)) \/ (e < ne /\ r = (e, ne, flags_of h info))).
    { intros r. cbn [after]. rewrite in_flat_map. split.
      - intros (r0 & I0 & Ir). apply S in I0. destruct I0 as (y & Iy & ->). unfold without in Ir. rewrite touches_view in Ir. destruct (meets s e y) eqn:Q.
        + pose proof (UNIQ y Iy Q). subst y. cbn [view r_start r_end r_flags e_base e_size e_client fst snd] in Ir. fold ne in Ir.
          apply in_app_or in Ir. destruct Ir as [Ir|Ir].
          * destruct (nb <? s) eqn:Q2; [|destruct Ir]. destruct Ir as [<-|[]]. right. left. split; [lia|reflexivity].
          * destruct (e <? ne) eqn:Q2; [|destruct Ir]. destruct Ir as [<-|[]]. right. right. split; [lia|reflexivity].
        + destruct Ir as [<-|[]]. left. exists y. split; [apply REST; split; [exact Iy|intros ->; congruence]|reflexivity].
      - intros [(y & Iy & ->)|[(Q & ->)|(Q & ->)]].
        + apply REST in Iy. destruct Iy as (Iy & Ny). exists (view h y). split; [apply S; eauto|]. unfold without. rewrite touches_view.
          destruct (meets s e y) eqn:Q; [elim Ny; apply UNIQ; auto|left; reflexivity].
        + exists (view h (nb, ns, info)). split; [exact IL|]. unfold without. rewrite touches_view, M1. cbn [view r_start r_end r_flags e_base e_size e_client fst snd]. fold ne.
          replace (nb <? s) with true by lia. left. reflexivity.
        + exists (view h (nb, ns, info)). split; [exact IL|]. unfold without. rewrite touches_view, M1. cbn [view r_start r_end r_flags e_base e_size e_client fst snd]. fold ne.
          replace (e <? ne) with true by lia. apply in_or_app. right. left. reflexivity. }
    assert (ANS : answer L (Shrink s e) = [true]).
    { cbn [answer]. f_equal. apply (shows_existsb h l L _ S). exists (nb, ns, info). auto. }
    assert (NOT : notices1 L (Shrink s e) = [NDel s e]).
    { cbn [notices1]. replace (existsb (touches s e) L) with true; [reflexivity|]. symmetry. apply (shows_existsb h l L _ S). exists (nb, ns, info). auto. }
    rewrite ANS, NOT. cbn [map of_notice].
    assert (CI : In info (map e_client l)) by (apply in_map_iff; exists (nb, ns, info); auto).
    assert (BEL : forall y, In y rest -> e_client y < next_info h) by (intros y Iy; apply REST in Iy; apply (client_below _ _ _ _ H (proj1 Iy))).
    destruct (nb <? s) eqn:Q1; [|destruct (e <? ne) eqn:Q2]; cbn [orb].
    + (* a left piece *)
      destruct (clone_ok [] h0 l info H0 CI) as (h1 & E1 & H1 & T1 & L1 & F1 & N1 & K1). rewrite E1. cbn [bind].
      assert (Hx1 : Handle (tr h1) l x (nb, ns, info)) by (rewrite T1; exact Hx).
      destruct (delete_ok _ h1 l x _ H1 Hx1) as (t2 & E2 & H2). rewrite E2. cbn [bind the_clone of_option].
      change (filter (fun y => negb (e_base y =? e_base (nb, ns, info))) l) with rest in H2. rewrite sub64_id by lia.
      destruct (insert_ok dbg [] (with_tree h1 t2) rest nb (s - nb) (next_info h0) H2) as (t3 & E3 & H3).
      { unfold valid. cbn [e_base e_size fst snd]. lia. }
      { intros y Iy. specialize (SEP y Iy). unfold ovl, meets. cbn [e_base e_size fst snd]. pose proof (proj1 (REST y) Iy) as (Iy' & _).
        pose proof (idx_valid _ _ _ (proj1 H) Iy') as Vy. unfold valid in Vy. lia. }
      rewrite E3. cbn [bind].
      set (h3 := with_tree (with_tree h1 t2) t3) in *.
      assert (BL3 : flags_of h3 (next_info h0) = flags_of h info) by exact F1.
      destruct (e <? ne) eqn:Q2.
      * assert (C3 : In (next_info h0) (map e_client (put (nb, s - nb, next_info h0) rest))).
        { apply in_map_iff. exists (nb, s - nb, next_info h0). split; [reflexivity|]. apply in_put. auto. }
        destruct (clone_ok [] h3 _ (next_info h0) H3 C3) as (h4 & E4 & H4 & T4 & L4 & F4 & N4 & K4). rewrite E4. cbn [bind the_clone of_option]. rewrite sub64_id by lia.
        destruct (insert_ok dbg [] h4 (put (nb, s - nb, next_info h0) rest) e (ne - e) (next_info h3) H4) as (t5 & E5 & H5).
        { unfold valid. cbn [e_base e_size fst snd]. lia. }
        { intros y Iy. apply in_put in Iy. unfold ovl, meets. cbn [e_base e_size fst snd]. destruct Iy as [->|Iy]; [cbn [e_base e_size fst snd]; lia|].
          specialize (SEP y Iy). pose proof (proj1 (REST y) Iy) as (Iy' & _). pose proof (idx_valid _ _ _ (proj1 H) Iy') as Vy. unfold valid in Vy. lia. }
        rewrite E5. cbn [bind]. unfold assert. cbn [negb]. rewrite andb_false_r. cbn [bind].
        exists (with_tree h4 t5), (put (e, ne - e, next_info h3) (put (nb, s - nb, next_info h0) rest)).
        split; [reflexivity|]. split; [exact H5|].
        assert (N3 : next_info h3 = next_info h + 1) by exact N1.
        assert (V1 : view (with_tree h4 t5) (e, ne - e, next_info h3) = (e, ne, flags_of h info)).
        { unfold view. cbn [e_base e_size e_client fst snd flags_of with_tree]. rewrite F4, BL3. f_equal. f_equal. lia. }
        assert (V2 : view (with_tree h4 t5) (nb, s - nb, next_info h0) = (nb, s, flags_of h info)).
        { unfold view. cbn [e_base e_size e_client fst snd flags_of with_tree]. rewrite K4 by (rewrite N3; change (next_info h0) with (next_info h); lia). rewrite BL3. f_equal. f_equal. lia. }
        assert (V3 : forall y, In y rest -> view (with_tree h4 t5) y = view h y).
        { intros y Iy. unfold view. cbn [flags_of with_tree]. rewrite K4 by (rewrite N3; specialize (BEL y Iy); lia).
          cbn [h3 flags_of with_tree]. rewrite K1 by (apply BEL; exact Iy). reflexivity. }
        split; [|cbn [log with_tree]; rewrite L4; cbn [log h3 with_tree]; rewrite L1; reflexivity].
        intros r. rewrite AFT. split.
        -- intros [(y & Iy & ->)|[(Q & ->)|(Q & ->)]].
           ++ exists y. split; [apply in_put; right; apply in_put; auto|symmetry; apply V3; auto].
           ++ exists (nb, s - nb, next_info h0). split; [apply in_put; right; apply in_put; auto|auto].
           ++ exists (e, ne - e, next_info h3). split; [apply in_put; auto|auto].
        -- intros (y & Iy & ->). apply in_put in Iy. destruct Iy as [->|Iy]; [right; right; split; [lia|exact V1]|].
           apply in_put in Iy. destruct Iy as [->|Iy]; [right; left; split; [lia|exact V2]|]. left. exists y. split; [exact Iy|apply V3; exact Iy].
      * cbn [bind]. unfold assert. cbn [negb]. rewrite andb_false_r. cbn [bind].
        exists h3, (put (nb, s - nb, next_info h0) rest). split; [reflexivity|]. split; [exact H3|].
        assert (V2 : view h3 (nb, s - nb, next_info h0) = (nb, s, flags_of h info)).
        { unfold view. cbn [e_base e_size e_client fst snd]. rewrite BL3. f_equal. f_equal. lia. }
        assert (V3 : forall y, In y rest -> view h3 y = view h y).
        { intros y Iy. unfold view. cbn [h3 flags_of with_tree]. rewrite K1 by (apply BEL; exact Iy). reflexivity. }
        split; [|cbn [log h3 with_tree]; rewrite L1; reflexivity].
        intros r. rewrite AFT. split.
        -- intros [(y & Iy & ->)|[(Q & ->)|(Q & ->)]].
           ++ exists y. split; [apply in_put; auto|symmetry; apply V3; auto].
           ++ exists (nb, s - nb, next_info h0). split; [apply in_put; auto|auto].
           ++ lia.
        -- intros (y & Iy & ->). apply in_put in Iy. destruct Iy as [->|Iy]; [right; left; split; [lia|exact V2]|]. left. exists y. split; [exact Iy|apply V3; exact Iy].
    + (* only a right piece *)
      destruct (clone_ok [] h0 l info H0 CI) as (h1 & E1 & H1 & T1 & L1 & F1 & N1 & K1). rewrite E1. cbn [bind].
      assert (Hx1 : Handle (tr h1) l x (nb, ns, info)) by (rewrite T1; exact Hx).
      destruct (delete_ok _ h1 l x _ H1 Hx1) as (t2 & E2 & H2). rewrite E2. cbn [bind the_clone of_option].
      change (filter (fun y => negb (e_base y =? e_base (nb, ns, info))) l) with rest in H2. rewrite sub64_id by lia.
      destruct (insert_ok dbg [] (with_tree h1 t2) rest e (ne - e) (next_info h0) H2) as (t3 & E3 & H3).
      { unfold valid. cbn [e_base e_size fst snd]. lia. }
      { intros y Iy. specialize (SEP y Iy). unfold ovl, meets. cbn [e_base e_size fst snd]. pose proof (proj1 (REST y) Iy) as (Iy' & _).
        pose proof (idx_valid _ _ _ (proj1 H) Iy') as Vy. unfold valid in Vy. lia. }
      rewrite E3. cbn [bind]. unfold assert. cbn [negb]. rewrite andb_false_r. cbn [bind].
      set (h3 := with_tree (with_tree h1 t2) t3) in *.
      exists h3, (put (e, ne - e, next_info h0) rest). split; [reflexivity|]. split; [exact H3|].
      assert (V1 : view h3 (e, ne - e, next_info h0) = (e, ne, flags_of h info)).
      { unfold view. cbn [e_base e_size e_client fst snd h3 flags_of with_tree]. rewrite F1. change (flags_of h0 info) with (flags_of h info). f_equal. f_equal. lia. }
      assert (V3 : forall y, In y rest -> view h3 y = view h y).
      { intros y Iy. unfold view. cbn [h3 flags_of with_tree]. rewrite K1 by (apply BEL; exact Iy). reflexivity. }
      split; [|cbn [log h3 with_tree]; rewrite L1; reflexivity].
      intros r. rewrite AFT. split.
      * intros [(y & Iy & ->)|[(Q & ->)|(Q & ->)]].
        -- exists y. split; [apply in_put; auto|symmetry; apply V3; auto].
        -- lia.
        -- exists (e, ne - e, next_info h0). split; [apply in_put; auto|auto].
      * intros (y & Iy & ->). apply in_put in Iy. destruct Iy as [->|Iy]; [right; right; split; [lia|exact V1]|]. left. exists y. split; [exact Iy|apply V3; exact Iy].
    + cbn [bind]. assert (Hx1 : Handle (tr h0) l x (nb, ns, info)) by exact Hx.
      destruct (delete_ok _ h0 l x _ H0 Hx1) as (t2 & E2 & H2). rewrite E2. cbn [bind]. unfold assert. cbn [negb]. rewrite andb_false_r. cbn [bind].
      exists (with_tree h0 t2), rest. split; [reflexivity|]. split; [exact H2|]. split; [|reflexivity].
      intros r. rewrite AFT. split.
      * intros [(y & Iy & ->)|[(Q & ->)|(Q & ->)]]; [exists y; auto|lia|lia].
      * intros (y & Iy & ->). left. exists y. auto.
  - exists h, l. assert (NO : existsb (touches s e) L = false).
    { destruct (existsb (touches s e) L) eqn:Q; [|reflexivity]. apply (shows_existsb h l L _ S) in Q. destruct Q as (en & I & Q).
      rewrite touches_view, Hx in Q by exact I. discriminate. }
    split; [cbn [answer]; rewrite NO; reflexivity|]. split; [exact H|].
    assert (NR : forall r, In r L -> touches s e r = false).
    { intros r I. destruct (touches s e r) eqn:Q; [|reflexivity]. rewrite <- NO. symmetry. apply existsb_exists. eauto. }
    split; [|cbn [notices1]; rewrite NO; cbn; rewrite app_nil_r; reflexivity].
    intros r. cbn [after]. rewrite in_flat_map. rewrite <- (S r). split.
    + intros (r0 & I0 & Ir). unfold without in Ir. rewrite (NR r0 I0) in Ir. destruct Ir as [<-|[]]. exact I0.
    + intros I. exists r. split; [exact I|]. unfold without. rewrite (NR r I). left. reflexivity.
Qed.
