(** Proofs about rows of any contents: what is reported does not depend on
    earlier system calls, and what is marked after a call was checked before. *)
From Verif Require Import Base Sysarg_Model Sysarg_Spec.
Local Open Scope Z_scope.

Definition rel {X} (R : X -> X -> Prop) (x y : res X) : Prop :=
  match x, y with
  | Ok a, Ok b => R a b
  | UB, UB | Fuel, Fuel => True
  | _, _ => False
  end.

Lemma bind_rel {X Y} (R : X -> X -> Prop) (Q : Y -> Y -> Prop) x y f g :
  rel R x y -> (forall a b, R a b -> rel Q (f a) (g b)) ->
  rel Q (bind x f) (bind y g).
Proof. destruct x, y; cbn; auto; try contradiction. Qed.

Lemma rel_refl {X} (R : X -> X -> Prop) x :
  (forall a, R a a) -> rel R x x.
Proof. destruct x; cbn; auto. Qed.

Lemma bind_rel_eq {X Y} (R : X -> X -> Prop) (Q : Y -> Y -> Prop) x y f g :
  rel R x y -> (forall a b, x = Ok a -> y = Ok b -> R a b -> rel Q (f a) (g b)) ->
  rel Q (bind x f) (bind y g).
Proof. destruct x, y; cbn; auto; try contradiction. Qed.

Lemma bind_same {X Y} (Q : Y -> Y -> Prop) (x : res X) f g :
  (forall a, x = Ok a -> rel Q (f a) (g a)) -> rel Q (bind x f) (bind x g).
Proof. destruct x; cbn; auto. Qed.

(** What two states have in common. *)
Definition agree (K : Z -> Prop) (F S : Prop) (s s' : cls) : Prop :=
  first s = first s' /\ (forall p, K p -> known s p = known s' p) /\
  (F -> x_field s = x_field s') /\ (S -> x_sock s = x_sock s').

Lemma agree_weaken (K K' : Z -> Prop) (F F' S S' : Prop) s s' :
  (forall p, K' p -> K p) -> (F' -> F) -> (S' -> S) ->
  agree K F S s s' -> agree K' F' S' s s'.
Proof. intros HK HF HS (A & B & C & D). repeat split; auto. Qed.

Lemma get_size_agree pre w t i e start K F S s s' :
  agree K F S s s' ->
  (size e = SIZE_IN_FIELD -> F \/ (pre = true /\ first s = true)) ->
  rel (fun a b => fst (fst a) = fst (fst b) /\ snd a = snd b /\
         agree K (F \/ (size e = SIZE_IN_FIELD /\ pre = true /\ first s = true)) S
               (snd (fst a)) (snd (fst b)))
      (get_size pre w t i e start s) (get_size pre w t i e start s').
Proof.
  intros AG IF. unfold get_size.
  destruct ((size e =? 0) && has fCOMPLEX e && (misc e =? T_CSTRING)) eqn:C.
  { cbn. repeat split; try apply AG.
    intros [HF|[E _]]; [now apply AG|].
    exfalso. apply andb_prop in C as [C _]. apply andb_prop in C as [C _].
    rewrite E in C. discriminate. }
  apply bind_rel with (R := fun a b => fst (fst a) = fst (fst b) /\ snd a = snd b /\
         agree K (F \/ (size e = SIZE_IN_FIELD /\ pre = true /\ first s = true)) S
               (snd (fst a)) (snd (fst b))).
  - destruct (size e =? SIZE_RETVAL) eqn:ER.
    { cbn. repeat split; try apply AG.
      intros [HF|[E _]]; [now apply AG|]. rewrite E in ER. discriminate. }
    destruct (size e =? SIZE_IN_FIELD) eqn:EF.
    + apply Z.eqb_eq in EF. specialize (IF EF).
      destruct AG as (A1 & A2 & A3 & A4).
      destruct pre.
      * cbn. rewrite <- A1. destruct (first s) eqn:FS.
        { repeat split; cbn; auto. }
        destruct IF as [HF|[_ X]]; [|discriminate].
        rewrite (A3 HF). repeat split; cbn; auto. congruence.
      * cbn. destruct IF as [HF|[X _]]; [|discriminate].
        rewrite (A3 HF). repeat split; cbn; auto.
    + apply Z.eqb_neq in EF.
      assert (AG' : agree K (F \/ (size e = SIZE_IN_FIELD /\ pre = true /\ first s = true))
                          S s s').
      { eapply agree_weaken; [| | |exact AG]; auto. tauto. }
      apply bind_same. intros sz _.
      destruct (has fINOUT e); [|cbn; auto].
      apply bind_same. intros e' _. apply bind_same. intros p _.
      destruct ((size e' <? 0) || (8 <? size e')); cbn; auto.
  - intros [[a s1] r1] [[b s2] r2]. cbn. intros (-> & -> & AG').
    destruct (has fELEMENTS e); [|cbn; auto].
    destruct (0 <? misc e); [cbn; auto|].
    apply bind_same. intros k _. cbn. auto.
Qed.

Definition is_sock (e : entry) : Prop :=
  has fCOMPLEX e = true /\ misc e = T_SOCKADDR /\ has fWRITE e = true.

Lemma os_access_agree pre w e start sz K F S s s' :
  agree K F S s s' ->
  (is_sock e -> pre = false -> S) ->
  rel (fun a b => fst (fst a) = fst (fst b) /\ snd a = snd b /\
         agree K F (S \/ (is_sock e /\ pre = true /\ first s = true))
               (snd (fst a)) (snd (fst b)))
      (os_access pre w s e start sz) (os_access pre w s' e start sz).
Proof.
  intros AG SO. unfold os_access.
  assert (AG' : ~ is_sock e ->
    agree K F (S \/ (is_sock e /\ pre = true /\ first s = true)) s s').
  { intros NS. eapply agree_weaken; [| | |exact AG]; tauto. }
  destruct (has fCOMPLEX e) eqn:HC; cbn [negb].
  2: { cbn. repeat split; try apply AG'; unfold is_sock; rewrite HC; intuition congruence. }
  destruct (misc e =? T_CSTRING) eqn:MC.
  { destruct (handle_cstring pre w (param e) (flags e) start (u32 sz)) as [b r].
    apply Z.eqb_eq in MC.
    cbn. repeat split; try apply AG'; unfold is_sock; rewrite MC;
      intuition discriminate. }
  destruct (misc e =? T_SOCKADDR) eqn:MS.
  2: { apply Z.eqb_neq in MS.
       cbn. repeat split; try apply AG'; unfold is_sock; intuition congruence. }
  apply Z.eqb_eq in MS.
  apply bind_rel with (R := fun a b => snd a = snd b /\
    agree K F (S \/ (is_sock e /\ pre = true /\ first s = true)) (fst a) (fst b)).
  2: { intros [a ra] [b rb]. cbn. intuition. }
  unfold handle_sockaddr.
  change (existsb (flag_eqb fWRITE) (flags e)) with (has fWRITE e).
  destruct (has fWRITE e) eqn:HW.
  - destruct AG as (A1 & A2 & A3 & A4). rewrite <- A1.
    destruct (first s) eqn:FS, pre; cbn [andb negb].
    + cbn. repeat split; cbn; auto.
    + cbn. assert (SS : S) by (apply SO; [repeat split; auto|auto]).
      rewrite (A4 SS). repeat split; cbn; auto. congruence.
    + cbn. repeat split; cbn; auto; [congruence|].
      intros [SS|[_ [_ X]]]; [auto|congruence].
    + cbn. assert (SS : S) by (apply SO; [repeat split; auto|auto]).
      rewrite (A4 SS). repeat split; cbn; auto. congruence.
  - rewrite !andb_false_r. cbn [andb].
    assert (AG2 : agree K F (S \/ (is_sock e /\ pre = true /\ first s = true)) s s')
      by (apply AG'; unfold is_sock; rewrite HW; intuition discriminate).
    destruct (safe_read (mem w) start 2) as [fam|]; [|cbn; auto].
    destruct (fam =? 1); [|cbn; auto].
    apply bind_same. intros n _. cbn. auto.
Qed.

(** The entries before the first empty one. *)
Fixpoint live (l : list entry) : list entry :=
  match l with
  | [] => []
  | e :: l' => if invalid e then [] else e :: live l'
  end.

Lemma live_in l e : In e (live l) -> In e l.
Proof.
  induction l as [|x l IH]; cbn; auto. destruct (invalid x); cbn; [contradiction|].
  intuition.
Qed.

(** Sizes of arguments that do not occur stay. *)
Lemma get_size_state pre w t i e start s sz s1 r :
  get_size pre w t i e start s = Ok (sz, s1, r) ->
  known s1 = known s /\ x_sock s1 = x_sock s /\ first s1 = first s.
Proof.
  unfold get_size. destruct (_ && _ && _).
  { intros E. injection E as <- <- <-. auto. }
  intros E. apply bind_ok in E as ([[z s2] r2] & E1 & E2).
  assert (X : known s2 = known s /\ x_sock s2 = x_sock s /\ first s2 = first s).
  { destruct (size e =? SIZE_RETVAL).
    { injection E1 as <- <- <-. auto. }
    destruct (size e =? SIZE_IN_FIELD).
    { destruct pre.
      - injection E1 as <- <- <-. destruct (first s) eqn:FS; auto.
      - injection E1 as <- <- <-. auto. }
    apply bind_ok in E1 as (z1 & _ & E1).
    destruct (has fINOUT e).
    - apply bind_ok in E1 as (e' & _ & E1). apply bind_ok in E1 as (p & _ & E1).
      destruct (_ || _); [discriminate|]. injection E1 as <- <- <-. auto.
    - injection E1 as <- <- <-. auto. }
  destruct (has fELEMENTS e).
  - destruct (0 <? misc e).
    + injection E2 as <- <- <-. exact X.
    + apply bind_ok in E2 as (k & _ & E2). injection E2 as <- <- <-. exact X.
  - injection E2 as <- <- <-. exact X.
Qed.

Lemma os_access_state pre w s e start sz b s1 r :
  os_access pre w s e start sz = Ok (b, s1, r) ->
  known s1 = known s /\ x_field s1 = x_field s /\ first s1 = first s.
Proof.
  unfold os_access. destruct (negb _); [intros E; injection E as <- <- <-; auto|].
  destruct (misc e =? T_CSTRING).
  { destruct (handle_cstring _ _ _ _ _ _). intros E. injection E as <- <- <-; auto. }
  destruct (misc e =? T_SOCKADDR); [|intros E; injection E as <- <- <-; auto].
  intros E. apply bind_ok in E as ([s2 r2] & E1 & E2). injection E2 as <- <- <-.
  unfold handle_sockaddr in E1.
  set (u := first s && pre && existsb (flag_eqb fWRITE) (flags e)) in *.
  set (s' := if u then _ else s) in *.
  assert (X : known s' = known s /\ x_field s' = x_field s /\ first s' = first s)
    by (unfold s'; destruct u; auto).
  destruct (existsb (flag_eqb fWRITE) (flags e)).
  { injection E1 as <- <-. exact X. }
  destruct (safe_read (mem w) start 2); [|injection E1 as <- <-; exact X].
  destruct (_ =? 1).
  - apply bind_ok in E1 as (n & _ & E1). injection E1 as <- <-. exact X.
  - injection E1 as <- <-. exact X.
Qed.

Lemma pre_loop_other w t l : forall i last s f r p,
  pre_loop w t l i last s = Ok (f, r) ->
  (forall e, In e (live l) -> param e <> p) -> known f p = known s p /\ first f = first s.
Proof.
  induction l as [|e l IH]; intros i last s f r p E N; cbn [pre_loop live] in *.
  { injection E as <- <-. auto. }
  destruct (invalid e); [injection E as <- <-; auto|].
  assert (N' : forall e0, In e0 (live l) -> param e0 <> p)
    by (intros; apply N; right; auto).
  destruct (param e =? last); [eauto|].
  destruct (_ || _); [eauto|].
  apply bind_ok in E as (start & _ & E).
  apply bind_ok in E as ([[sz s1] r1] & G & E). apply get_size_state in G as (G1 & G2 & G3).
  assert (PN : param e <> p) by (apply N; left; auto).
  destruct (_ && _).
  - apply bind_ok in E as ([[sk s2] r2] & O & E). apply os_access_state in O as (O1 & O2 & O3).
    apply bind_ok in E as (sk' & _ & E). apply bind_ok in E as ([f' r'] & E & E2).
    injection E2 as <- <-. apply IH with (p := p) in E as [E3 E4]; auto.
    cbn [fst]. rewrite E3, E4, O1, O3. cbn. rewrite G1, G3.
    destruct (Z.eqb_spec p (param e)); [congruence|auto].
  - apply bind_ok in E as ([f' r'] & E & E2). injection E2 as <- <-.
    apply IH with (p := p) in E as [E3 E4]; auto. cbn [fst]. rewrite E3, E4. cbn. rewrite G1, G3.
    destruct (Z.eqb_spec p (param e)); [congruence|auto].
Qed.

(** ** Two walks before the call *)

(** The conditions on the entries still to come, given which argument was
    walked last. *)
Definition fine (l : list entry) (last : Z) : Prop :=
  forall e e', In e l -> In e' l -> has fWRITE e' = true \/ size e' = SIZE_IN_FIELD ->
    param e = param e' -> has fINLINED e = false /\ has fNONMEM e = false /\
    (size e' = SIZE_IN_FIELD \/ is_sock e' -> param e' <> last /\ sole l e').

Lemma sole_tail x l e : sole (x :: l) e -> param x <> param e -> sole l e.
Proof. unfold sole. cbn. intros U N. destruct (Z.eqb_spec (param x) (param e)); congruence. Qed.

Lemma sole_head x l e :
  sole (x :: l) e -> In e l -> param x = param e -> False.
Proof.
  unfold sole. cbn. intros U I N.
  destruct (Z.eqb_spec (param x) (param e)); [|congruence].
  injection U as _ U.
  assert (In e (filter (fun x => param x =? param e) l))
    by (apply filter_In; split; auto; apply Z.eqb_refl).
  rewrite U in H. destruct H.
Qed.

Lemma fine_tail x l last : fine (x :: l) last -> fine l (param x).
Proof.
  intros H e e' I I' W P.
  destruct (H e e') as (A & B & C); auto; [right; auto|right; auto|].
  repeat split; auto; destruct (C H0) as [C1 C2].
  - intros X. apply (sole_head x l e'); auto.
  - apply sole_tail with x; auto. intros X. apply (sole_head x l e'); auto.
Qed.

Lemma fine_skip x l last : fine (x :: l) last -> param x = last -> fine l last.
Proof. intros H <-. eapply fine_tail; eauto. Qed.

Section Pre.
Variables (w : world) (t : list entry).

(** After the walk: the sizes of all outputs agree; so does the size in a
    field, on the first walk; so does the length of a socket address, unless
    there is no room for one. *)
Definition later (l : list entry) (K : Z -> Prop) (F S : Prop) (s : cls)
    (f f' : cls) : Prop :=
  first f = first s /\ first f' = first s /\
  (forall p, K p -> known f p = known f' p) /\
  (forall e, In e (live l) -> has fWRITE e = true -> known f (param e) = known f' (param e)) /\
  (F -> x_field f = x_field f') /\
  (forall e, In e (live l) -> size e = SIZE_IN_FIELD -> x_field f = x_field f') /\
  (S -> x_sock f = x_sock f') /\
  (first s = true -> forall e, In e (live l) -> is_sock e ->
     x_sock f = x_sock f' \/ args w (param e) = 0 \/
     (known f (param e) <= 0 /\ known f' (param e) <= 0)).

Lemma pre_loop_agree l : forall i last K F S s s',
  agree K F S s s' -> fine l last ->
  (forall e, In e (live l) -> has fWRITE e = true -> param e = last -> K last) ->
  first s = true \/ (forall e, In e (live l) -> size e = SIZE_IN_FIELD -> F) ->
  rel (fun a b => snd a = snd b /\ later l K F S s (fst a) (fst b))
      (pre_loop w t l i last s) (pre_loop w t l i last s').
Proof.
  induction l as [|e l IH]; intros i last K F S s s' AG FI KL FF; cbn [pre_loop].
  { cbn. destruct AG as (A1 & A2 & A3 & A4). unfold later. cbn.
    repeat split; auto; contradiction. }
  unfold later. cbn [live] in *. destruct (invalid e) eqn:IV.
  { cbn. destruct AG as (A1 & A2 & A3 & A4).
    repeat split; auto; contradiction. }
  assert (FF' : first s = true \/
                (forall e, In e (live l) -> size e = SIZE_IN_FIELD -> F)).
  { destruct FF as [|FF]; auto. right. intros. eapply FF; [right|]; eauto. }
  destruct (Z.eqb_spec (param e) last) as [PL|PL].
  { (* second entry of a pair *)
    specialize (IH (Datatypes.S i) last K F S s s' AG (fine_skip _ _ _ FI PL)
                  ltac:(intros; apply (KL e0); auto; right; auto) FF').
    destruct (pre_loop w t l (Datatypes.S i) last s) as [[f r]| |],
      (pre_loop w t l (Datatypes.S i) last s') as [[f' r']| |]; cbn in *; auto; try contradiction.
    destruct IH as (-> & L1 & L2 & L3 & L4 & L5 & L6 & L7 & L8).
    repeat split; auto.
    - intros e0 [<-|I] W; auto. apply L3. rewrite PL. apply (KL e); auto; left; auto.
    - intros e0 [<-|I] SF; [|eauto].
      destruct (FI e e) as (_ & _ & C); auto; [left; auto|left; auto|].
      destruct (C (or_introl SF)) as [C1 _]. congruence.
    - intros FS e0 [<-|I] SK; [|auto].
      destruct (FI e e) as (_ & _ & C); auto; [left; auto|left; auto|left; apply SK|].
      destruct (C (or_intror SK)) as [C1 _]. congruence. }
  destruct (has fINLINED e || has fNONMEM e) eqn:NI.
  { (* not in memory: not an output *)
    assert (NW : forall e', In e' (e :: l) -> has fWRITE e' = true \/ size e' = SIZE_IN_FIELD ->
              param e <> param e').
    { intros e' I' W P. destruct (FI e e') as (A & B & _); auto; [left; auto|].
      rewrite A, B in NI. discriminate. }
    specialize (IH (Datatypes.S i) (param e) K F S s s' AG (fine_tail _ _ _ FI)).
    assert (Q : forall e0, In e0 (live l) -> has fWRITE e0 = true ->
                param e0 = param e -> K (param e)).
    { intros e0 I W P. exfalso. apply (NW e0); auto. right. now apply live_in. }
    specialize (IH Q FF').
    destruct (pre_loop w t l (Datatypes.S i) (param e) s) as [[f r]| |],
      (pre_loop w t l (Datatypes.S i) (param e) s') as [[f' r']| |]; cbn in *; auto; try contradiction.
    destruct IH as (-> & L1 & L2 & L3 & L4 & L5 & L6 & L7 & L8).
    repeat split; auto.
    - intros e0 [<-|I] W; auto. exfalso. apply (NW e); auto.
    - intros e0 [<-|I] SF; [|eauto]. exfalso. apply (NW e); auto.
    - intros FS e0 [<-|I] SK; [|auto]. exfalso. apply (NW e); auto. left. apply SK. }
  (* a memory argument *)
  apply bind_same. intros start ST.
  assert (SA : start = args w (param e)).
  { unfold sysarg in ST. destruct (_ && _); congruence. }
  set (F1 := F \/ (size e = SIZE_IN_FIELD /\ true = true /\ first s = true)).
  eapply bind_rel_eq.
  { apply get_size_agree; [exact AG|]. intros SF. destruct FF as [|FF]; auto.
    left. apply (FF e); auto. now left. }
  intros [[sz s1] r1] [[sz' s1'] r1'] G G' (Q1 & Q2 & AG1). cbn [fst snd] in Q1, Q2, AG1.
  subst sz' r1'. fold F1 in AG1.
  apply get_size_state in G as (_ & _ & FS1). apply get_size_state in G' as (_ & _ & FS1').
  assert (FSS : first s' = first s) by (symmetry; apply AG). rewrite FSS in FS1'.
  set (K1 := fun p => K p \/ p = param e).
  assert (AG2 : agree K1 F1 S (set_known s1 (param e) sz) (set_known s1' (param e) sz)).
  { destruct AG1 as (A1 & A2 & A3 & A4). repeat split; cbn; auto.
    intros p [KP|KP]; destruct (Z.eqb_spec p (param e)); auto; congruence. }
  assert (FF1 : first s = true \/ (forall e, In e (live l) -> size e = SIZE_IN_FIELD -> F1))
    by (destruct FF'; [left|right; left]; eauto).
  assert (KL1 : forall e0, In e0 (live l) -> has fWRITE e0 = true ->
                param e0 = param e -> K1 (param e)) by (intros; right; auto).
  (* what the rest of the walk gives, from any states that agree *)
  assert (REST : forall S1 u u',
    agree K1 F1 S1 u u' -> first u = first s -> (S -> S1) ->
    (is_sock e -> first s = true -> S1 \/ args w (param e) = 0 \/
       (known u (param e) <= 0 /\ known u' (param e) <= 0)) ->
    rel (fun a b => snd a = snd b /\ later (e :: l) K F S s (fst a) (fst b))
        (pre_loop w t l (Datatypes.S i) (param e) u)
        (pre_loop w t l (Datatypes.S i) (param e) u')).
  { intros S1 u u' AGu FU SS SK.
    pose proof (IH (Datatypes.S i) (param e) K1 F1 S1 u u' AGu (fine_tail _ _ _ FI) KL1
                  ltac:(rewrite FU; exact FF1)) as R.
    destruct (pre_loop w t l (Datatypes.S i) (param e) u) as [[f r]| |] eqn:E1,
      (pre_loop w t l (Datatypes.S i) (param e) u') as [[f' r']| |] eqn:E2;
      cbn in *; auto; try contradiction.
    destruct R as (-> & L1 & L2 & L3 & L4 & L5 & L6 & L7 & L8). split; auto.
    unfold later. cbn [live]. rewrite IV. repeat split.
    - congruence.
    - congruence.
    - intros p KP. apply L3. now left.
    - intros e0 [<-|I] W; auto. apply L3. now right.
    - intros HF. apply L5. now left.
    - intros e0 [<-|I] SF; [|eauto]. apply L5.
      destruct FF as [|FF]; [right; auto|left]. apply (FF e); auto.
    - auto.
    - intros FS e0 [<-|I] SO; [|apply L8; auto; congruence].
      destruct (SK SO FS) as [X|[X|[X1 X2]]]; auto.
      right. right.
      assert (NO : forall e1, In e1 (live l) -> param e1 <> param e).
      { intros e1 I1 P1. apply live_in in I1.
        destruct (FI e e) as (_ & _ & C); auto; [left; auto|left; auto|left; apply SO|].
        destruct (C (or_intror SO)) as [_ C2]. unfold sole in C2. cbn in C2.
        rewrite Z.eqb_refl in C2. injection C2 as C2.
        assert (Y : In e1 (filter (fun x => param x =? param e) l))
          by (apply filter_In; split; auto; now apply Z.eqb_eq).
        rewrite C2 in Y. destruct Y. }
      apply pre_loop_other with (p := param e) in E1 as [E1 _]; auto.
      apply pre_loop_other with (p := param e) in E2 as [E2 _]; auto.
      rewrite E1, E2. auto. }
  destruct (negb (start =? 0) && (0 <? sz)) eqn:GO.
  - eapply bind_rel_eq.
    { apply os_access_agree; [exact AG2|]. intros _ X. discriminate X. }
    intros [[sk s2] r2] [[sk' s2'] r2'] O O' (Q1 & Q2 & AG3). cbn [fst snd] in Q1, Q2, AG3.
    subst sk' r2'.
    apply os_access_state in O as (_ & _ & O3). cbn in O3.
    apply bind_same. intros sk' _.
    eapply bind_rel.
    + eapply (REST _ s2 s2'); [exact AG3|congruence|auto|].
      intros SO FS. left. right. repeat split; auto; try apply SO. cbn. congruence.
    + intros [f r] [f' r'] (E1 & E2). cbn in E1. subst r'.
      unfold later in E2. cbn [live] in E2. rewrite IV in E2. cbn. auto.
  - eapply bind_rel.
    + eapply (REST S _ _); [exact AG2|cbn; congruence|auto|].
      intros SO FS. right. cbn. rewrite Z.eqb_refl.
      destruct (Z.eqb_spec start 0); [left; congruence|right].
      cbn in GO. apply Z.ltb_ge in GO. auto.
    + intros [f r] [f' r'] (E1 & E2). cbn in E1. subst r'.
      unfold later in E2. cbn [live] in E2. rewrite IV in E2. cbn. auto.
Qed.
End Pre.

Lemma fine_keep x l last : fine (x :: l) last -> fine l last.
Proof.
  intros H e e' I I' W P.
  destruct (H e e') as (A & B & C); auto; [right; auto|right; auto|].
  repeat split; auto; destruct (C H0) as [C1 C2]; auto.
  apply sole_tail with x; auto. intros X. apply (sole_head x l e'); auto.
Qed.

(** ** Two walks after the call *)
Section Post.
Variables (w : world) (t : list entry).

Definition enough (l : list entry) (s s' : cls) : Prop :=
  forall e, In e (live l) -> has fWRITE e = true ->
    known s (param e) = known s' (param e) /\
    (size e = SIZE_IN_FIELD -> x_field s = x_field s') /\
    (is_sock e -> x_sock s = x_sock s' \/ args w (param e) = 0 \/ known s (param e) <= 0).

Lemma post_loop_agree l : forall i prev last ls s s',
  fine l last -> enough l s s' ->
  rel eq (post_loop w t l i prev last ls s) (post_loop w t l i prev last ls s').
Proof.
  induction l as [|e l IH]; intros i prev last ls s s' FI EN; cbn [post_loop].
  { reflexivity. }
  unfold enough in *. cbn [live] in *. destruct (invalid e) eqn:IV; [reflexivity|].
  assert (EN' : forall e, In e (live l) -> has fWRITE e = true ->
    known s (param e) = known s' (param e) /\
    (size e = SIZE_IN_FIELD -> x_field s = x_field s') /\
    (is_sock e -> x_sock s = x_sock s' \/ args w (param e) = 0 \/ known s (param e) <= 0))
    by (intros; apply EN; auto; right; auto).
  destruct (has fWRITE e) eqn:W; cbn [negb].
  2: { apply IH; auto. eapply fine_keep; eauto. }
  destruct (EN e (or_introl eq_refl) W) as (EK & EF & ES).
  apply bind_same. intros start ST.
  assert (SA : start = args w (param e)).
  { unfold sysarg in ST. destruct (_ && _); congruence. }
  set (K := fun p => known s p = known s' p).
  set (AF := x_field s = x_field s'). set (AS := x_sock s = x_sock s').
  assert (SUB : forall f, agree K AF AS (Cls (known s) (x_field s) (x_sock s) f)
                            (Cls (known s') (x_field s') (x_sock s') f)).
  { intros f. repeat split; auto. }
  (* sizes do not look at whether this is the first walk *)
  assert (G : rel (fun a b => fst (fst a) = fst (fst b))
                (get_size false w t i e start s) (get_size false w t i e start s')).
  { unfold get_size. destruct (_ && _ && _); [reflexivity|].
    apply bind_rel with (R := fun a b => fst (fst a) = fst (fst b)).
    - destruct (size e =? SIZE_RETVAL); [reflexivity|].
      destruct (Z.eqb_spec (size e) SIZE_IN_FIELD); [cbn; auto|].
      apply bind_same. intros sz _. destruct (has fINOUT e); [|reflexivity].
      apply bind_same. intros e' _. apply bind_same. intros p _.
      destruct (_ || _); cbn; auto.
    - intros [[a s1] r1] [[b s2] r2]. cbn. intros ->.
      destruct (has fELEMENTS e); [|reflexivity].
      destruct (0 <? misc e); [reflexivity|]. apply bind_same. reflexivity. }
  eapply bind_rel; [exact G|].
  intros [[sz s1] r1] [[sz' s1'] r1'] Q. cbn in Q. subst sz'. rewrite <- EK.
  set (z := if known s (param e) <? sz then known s (param e) else sz).
  assert (ZL : z <= known s (param e)) by (unfold z; destruct (Z.ltb_spec (known s (param e)) sz); lia).
  (* the handler *)
  assert (H : forall y, (is_sock e -> AS) ->
    rel (fun a b => fst (fst a) = fst (fst b) /\ snd a = snd b)
        (os_access false w s e start y) (os_access false w s' e start y)).
  { intros y SK. unfold os_access.
    destruct (has fCOMPLEX e) eqn:HC; cbn [negb]; [|cbn; auto].
    destruct (misc e =? T_CSTRING).
    { destruct (handle_cstring false w (param e) (flags e) start (u32 y)). cbn. auto. }
    destruct (Z.eqb_spec (misc e) T_SOCKADDR); [|cbn; auto].
    apply bind_rel with (R := fun a b => snd a = snd b);
      [|intros [? ?] [? ?]; cbn; auto].
    unfold handle_sockaddr.
    change (existsb (flag_eqb fWRITE) (flags e)) with (has fWRITE e). rewrite W.
    rewrite !andb_false_r. cbn [andb negb].
    replace (x_sock s') with (x_sock s) by (apply SK; repeat split; auto). reflexivity. }
  destruct (Z.eqb_spec (param e) last) as [PL|PL].
  - assert (NS : ~ is_sock e).
    { intros SO. destruct (FI e e) as (_ & _ & C); auto; [left; auto|left; auto|].
      destruct (C (or_intror SO)) as [C1 _]. congruence. }
    apply bind_same. intros y _.
    eapply bind_rel with (R := eq).
    + destruct (_ && _); [|reflexivity].
      eapply bind_rel; [apply H; intros; contradiction|].
      intros [[sk s2] r2] [[sk' s2'] r2'] [Q1 Q2]. cbn in Q1, Q2. subst.
      apply bind_same. reflexivity.
    + intros r ? <-. eapply bind_rel with (R := eq); [apply IH; auto; eapply fine_keep; eauto|].
      intros k ? <-. reflexivity.
  - eapply bind_rel with (R := eq).
    + destruct (match l with [] => false | e1 :: _ => _ end); [reflexivity|].
      destruct (negb (start =? 0) && (0 <? z)) eqn:GO; [|reflexivity].
      apply andb_prop in GO as [GO1 GO2].
      eapply bind_rel.
      * apply H. intros SO. destruct (ES SO) as [X|[X|X]]; auto; exfalso.
        -- rewrite SA, X in GO1. discriminate.
        -- apply Z.ltb_lt in GO2. lia.
      * intros [[sk s2] r2] [[sk' s2'] r2'] [Q1 Q2]. cbn in Q1, Q2. subst. reflexivity.
    + intros r ? <-. eapply bind_rel with (R := eq).
      * apply IH; auto. eapply fine_tail; eauto.
      * intros k ? <-. reflexivity.
Qed.
End Post.

(** ** Whole sessions *)

Lemma live_app l m : live (l ++ repeat zero_entry m) = live l.
Proof.
  induction l as [|e l IH]; cbn; [destruct m; reflexivity|].
  destruct (invalid e); congruence.
Qed.

Lemma pre_loop_live w t l : forall i last s,
  pre_loop w t l i last s = pre_loop w t (live l) i last s.
Proof.
  induction l as [|e l IH]; intros; cbn [live]; auto.
  destruct (invalid e) eqn:IV; cbn [pre_loop]; rewrite IV; [reflexivity|].
  rewrite IH. destruct (param e =? last); auto.
  destruct (_ || _); auto.
  destruct (sysarg w (param e)) as [start| |]; cbn [bind]; auto.
  destruct (get_size _ _ _ _ _ _ _) as [[[sz s1] r1]| |]; cbn [bind]; auto.
  destruct (_ && _).
  - destruct (os_access _ _ _ _ _ _) as [[[a b] c]| |]; cbn [bind]; auto.
    destruct (if a then Ok true else _); cbn [bind]; auto. now rewrite IH.
  - now rewrite IH.
Qed.

Lemma post_loop_live w t l : forall i prev last ls s,
  post_loop w t l i prev last ls s = post_loop w t (live l) i prev last ls s.
Proof.
  induction l as [|e l IH]; intros; cbn [live]; auto.
  destruct (invalid e) eqn:IV; cbn [post_loop]; rewrite IV; [reflexivity|].
  destruct (negb _); [apply IH|].
  destruct (sysarg w (param e)) as [start| |]; cbn [bind]; auto.
  destruct (get_size _ _ _ _ _ _ _) as [[[sz s1] r1]| |]; cbn [bind]; auto.
  assert (D : match l with e1 :: _ => (param e1 =? param e) && negb (invalid e1) | [] => false end
            = match live l with e1 :: _ => (param e1 =? param e) && negb (invalid e1) | [] => false end).
  { destruct l as [|e1 l']; cbn [live]; auto. destruct (invalid e1) eqn:I1.
    - apply andb_false_r.
    - now rewrite I1. }
  rewrite D.
  destruct (param e =? last).
  - destruct (if has fCOUNT0 e && _ then _ else _) as [y| |]; cbn [bind]; auto.
    match goal with |- bind ?x _ = bind ?y _ => change y with x; destruct x; cbn [bind]; auto end.
    now rewrite IH.
  - match goal with |- bind ?x _ = bind ?y _ => change y with x; destruct x; cbn [bind]; auto end.
    now rewrite IH.
Qed.

Lemma live_sole l e : sole l e -> In e (live l) -> sole (live l) e.
Proof.
  unfold sole. induction l as [|x l IH]; cbn [live]; [contradiction|].
  intros U I. destruct (invalid x); [contradiction|].
  cbn [filter] in *. destruct (Z.eqb_spec (param x) (param e)) as [E|E].
  - injection U as -> U.
    assert (N : filter (fun x => param x =? param e) (live l) = []).
    { clear - U. induction l as [|y l IH]; cbn [live]; auto. destruct (invalid y); auto.
      cbn [filter] in *. destruct (param y =? param e); [discriminate|auto]. }
    now rewrite N.
  - destruct I as [->|I]; [congruence|]. auto.
Qed.

Lemma fine_start t : sensible t -> fine (live t) (-1).
Proof.
  intros S e e' I I' W P.
  destruct (S e e') as (Z0 & A & B & C & D); auto; try (now apply live_in).
  repeat split; auto.
  - lia.
  - apply live_sole; auto.
Qed.

Lemma get_size_indep w t i e start s s' sz sz' s1 s1' r r' :
  size e <> SIZE_IN_FIELD ->
  get_size true w t i e start s = Ok (sz, s1, r) ->
  get_size true w t i e start s' = Ok (sz', s1', r') -> sz = sz'.
Proof.
  intros N E E'.
  enough (R : rel (fun a b => fst (fst a) = fst (fst b))
                (get_size true w t i e start s) (get_size true w t i e start s')).
  { rewrite E, E' in R. exact R. }
  clear E E'.
  unfold get_size. destruct (_ && _ && _); [reflexivity|].
  apply bind_rel with (R := fun a b => fst (fst a) = fst (fst b)).
  - destruct (size e =? SIZE_RETVAL); [reflexivity|].
    destruct (Z.eqb_spec (size e) SIZE_IN_FIELD); [contradiction|].
    apply bind_same. intros sz0 _. destruct (has fINOUT e); [|reflexivity].
    apply bind_same. intros e' _. apply bind_same. intros p _.
    destruct (_ || _); cbn; auto.
  - intros [[a s2] r2] [[b s3] r3]. cbn. intros ->.
    destruct (has fELEMENTS e); [|reflexivity].
    destruct (0 <? misc e); [reflexivity|]. apply bind_same. reflexivity.
Qed.

(** The size found for a socket address is the same in every walk. *)
Lemma pre_known w t e l : forall i last s s' f f' r r',
  fine l last -> In e (live l) -> is_sock e -> size e <> SIZE_IN_FIELD ->
  pre_loop w t l i last s = Ok (f, r) -> pre_loop w t l i last s' = Ok (f', r') ->
  known f (param e) = known f' (param e).
Proof.
  induction l as [|x l IH]; intros i last s s' f f' r r' FI I SO N E E'; [contradiction|].
  assert (WE : has fWRITE e = true) by apply SO.
  assert (I0 : In e (x :: l)) by now apply live_in.
  cbn [live] in I. cbn [pre_loop] in *.
  destruct (invalid x); [contradiction|].
  destruct (Z.eqb_spec (param x) last) as [PL|PL].
  { destruct I as [->|I].
    - destruct (FI e e) as (_ & _ & C); auto. destruct (C (or_intror SO)). congruence.
    - eapply (IH (S i) last s s'); eauto. eapply fine_keep; eauto. }
  destruct (has fINLINED x || has fNONMEM x) eqn:NI.
  { destruct I as [->|I].
    - destruct (FI e e) as (A & B & _); auto. rewrite A, B in NI. discriminate.
    - eapply (IH (S i) (param x) s s'); eauto. eapply fine_tail; eauto. }
  apply bind_ok in E as (start & ST & E). rewrite ST in E'. cbn [bind] in E'.
  apply bind_ok in E as ([[sz s1] r1] & G & E).
  apply bind_ok in E' as ([[sz' s1'] r1'] & G' & E').
  assert (J : forall u b c, (let* k := pre_loop w t l (S i) (param x) u in Ok (fst k, b ++ snd k)) = Ok c ->
              exists k, pre_loop w t l (S i) (param x) u = Ok (fst c, k)).
  { intros u b c H. apply bind_ok in H as ([k1 k2] & H1 & H2). injection H2 as <-. cbn. eauto. }
  assert (STEP : forall s sz s1 r1 f r, get_size true w t i x start s = Ok (sz, s1, r1) ->
    (let s2 := set_known s1 (param x) sz in
     if negb (start =? 0) && (0 <? sz) then
       let real := if sz =? SIZE_DYNAMIC then 0 else sz in
       let* a := os_access true w s2 x start real in
       let '(skip, s, r2) := a in
       let* skip := if skip then Ok true else should_ignore w t i x in
       let r3 := if skip then []
                 else report_memarg true (param x) (flags x) start real in
       let* k := pre_loop w t l (S i) (param x) s in
       Ok (fst k, r1 ++ r2 ++ r3 ++ snd k)
     else
       let* k := pre_loop w t l (S i) (param x) s2 in
       Ok (fst k, r1 ++ snd k)) = Ok (f, r) ->
    exists u k, pre_loop w t l (S i) (param x) u = Ok (f, k) /\ known u (param x) = sz).
  { clear. intros s sz s1 r1 f r G E. cbn zeta in E.
    destruct (negb (start =? 0) && (0 <? sz)).
    - apply bind_ok in E as ([[sk s2] r2] & O & E). apply bind_ok in E as (sk' & _ & E).
      apply bind_ok in E as ([k1 k2] & E1 & E2). injection E2 as <- <-.
      exists s2, k2. split; auto. apply os_access_state in O as (O & _). rewrite O. cbn.
      now rewrite Z.eqb_refl.
    - apply bind_ok in E as ([k1 k2] & E1 & E2). injection E2 as <- <-.
      eexists _, k2. split; [exact E1|]. cbn. now rewrite Z.eqb_refl. }
  apply (STEP s sz s1 r1) in E as (u & k & E & KU); auto.
  apply (STEP s' sz' s1' r1') in E' as (u' & k' & E' & KU'); auto.
  destruct I as [->|I].
  - assert (NO : forall e1, In e1 (live l) -> param e1 <> param e).
    { intros e1 I1 P1. apply live_in in I1.
      destruct (FI e e) as (_ & _ & C); auto.
      destruct (C (or_intror SO)) as [_ C2]. unfold sole in C2. cbn in C2.
      rewrite Z.eqb_refl in C2. injection C2 as C2.
      assert (Y : In e1 (filter (fun x => param x =? param e) l))
        by (apply filter_In; split; auto; now apply Z.eqb_eq).
      rewrite C2 in Y. destruct Y. }
    apply pre_loop_other with (p := param e) in E as [E _]; auto.
    apply pre_loop_other with (p := param e) in E' as [E' _]; auto.
    rewrite E, E', KU, KU'. eapply get_size_indep; eauto.
  - eapply (IH (S i) (param x) u u'); eauto. eapply fine_tail; eauto.
Qed.

Lemma live_live l : live (live l) = live l.
Proof.
  induction l as [|x l IH]; cbn [live]; auto. destruct (invalid x) eqn:E; auto.
  cbn [live]. now rewrite E, IH.
Qed.

Lemma session_live before after t s :
  session before after t s =
  let* r1 := pre_loop before t (live t) 0 (-1) (start_call s) in
  let* r2 := pre_loop before t (live t) 0 (-1) (not_first (fst r1)) in
  let* q := if succeeded after
            then post_loop after t (live t) 0 zero_entry (-1) 0 (not_first (fst r2))
            else Ok [] in
  Ok (snd r2, q).
Proof.
  unfold session, iterate_args, iterate_pre, iterate_post.
  rewrite (pre_loop_live before t (array t)).
  assert (LA : live (array t) = live t) by apply live_app. rewrite LA.
  destruct (pre_loop before t (live t) 0 (-1) (start_call s)) as [[f r]| |]; cbn [bind fst snd]; auto.
  rewrite (pre_loop_live before t (array t)), LA.
  destruct (pre_loop before t (live t) 0 (-1) (not_first f)) as [[g q]| |]; cbn [bind fst snd]; auto.
  now rewrite (post_loop_live after t (array t)), LA.
Qed.

(** What is reported does not depend on what earlier calls left behind. *)
Lemma history before after t s1 s2 :
  sensible t -> (forall p, args after p = args before p) ->
  session before after t s1 = session before after t s2.
Proof.
  intros S AR. pose proof (fine_start t S) as FI.
  assert (NEG : forall e, In e (live (live t)) -> has fWRITE e = true -> param e = -1 -> False).
  { intros e I W P. rewrite live_live in I.
    destruct (S e e) as (Z0 & _); auto; try (now apply live_in). lia. }
  enough (R : rel eq (session before after t s1) (session before after t s2)).
  { destruct (session before after t s1), (session before after t s2); cbn in R; subst; auto; contradiction. }
  rewrite !session_live.
  eapply bind_rel_eq.
  { apply (pre_loop_agree before t (live t) 0 (-1) (fun _ => False) False False
             (start_call s1) (start_call s2)).
    - repeat split; contradiction.
    - exact FI.
    - intros. eapply NEG; eauto.
    - left; reflexivity. }
  intros [f r] [f' r'] P1 P1' (_ & L1 & L2 & _ & L4 & _ & L6 & _ & L8). cbn [fst snd] in *.
  rewrite live_live in *.
  eapply bind_rel_eq.
  { apply (pre_loop_agree before t (live t) 0 (-1)
             (fun p => exists e, In e (live t) /\ has fWRITE e = true /\ param e = p)
             (exists e, In e (live t) /\ size e = SIZE_IN_FIELD)
             (x_sock f = x_sock f') (not_first f) (not_first f')).
    - repeat split; cbn; auto.
      + intros p (e & I & W & <-). auto.
      + intros (e & I & SF). eauto.
    - exact FI.
    - rewrite live_live. intros e I W P. eauto.
    - right. rewrite live_live. eauto. }
  intros [g q] [g' q'] P2 P2' (-> & M1 & M2 & _ & M4 & _ & M6 & M7 & _). cbn [fst snd] in *.
  rewrite live_live in *.
  apply bind_rel with (R := eq); [|intros a ? <-; reflexivity].
  destruct (succeeded after); [|reflexivity].
  apply post_loop_agree; [exact FI|].
  intros e I W. rewrite live_live in I. cbn. repeat split; eauto.
  intros SO. rewrite AR.
  destruct (L8 eq_refl e I SO) as [X|[X|[X _]]]; auto.
  right. right.
  assert (N : size e <> SIZE_IN_FIELD).
  { destruct (S e e) as (_ & _ & _ & _ & N); auto; try (now apply live_in). apply N, SO. }
  rewrite (pre_known before t e (live t) 0 (-1) _ _ _ _ _ _ FI ltac:(now rewrite live_live)
             SO N P2 P1). exact X.
Qed.

(** ** What is marked was checked *)

(** The entries of argument p are plain. *)
Definition simple (l : list entry) (p : Z) : Prop :=
  forall e, In e l -> param e = p ->
    has fINLINED e = false /\ has fNONMEM e = false /\ has fCOMPLEX e = false /\
    has fNEXTNULL e = false /\ has fPREVNULL e = false.

Definition covers (p a k : Z) (r : list report) : Prop :=
  k <= 0 \/ exists x, In x r /\ r_ord x = p /\ r_start x = a /\ k <= r_size x.

Lemma covers_app p a k r q : covers p a k r -> covers p a k (r ++ q).
Proof. intros [H|(x & I & H)]; [left; auto|right; exists x; split; auto using in_or_app]. Qed.

Lemma pre_covers w t p l : forall i last s f r R0,
  simple l p -> args w p <> 0 ->
  pre_loop w t l i last s = Ok (f, r) -> (forall x, In x r -> 0 < r_size x) ->
  covers p (args w p) (known s p) R0 \/ (p <> last /\ exists e, In e (live l) /\ param e = p) ->
  covers p (args w p) (known f p) (R0 ++ r).
Proof.
  induction l as [|e l IH]; intros i last s f r R0 SI A0 E POS ST; cbn [pre_loop live] in *.
  { injection E as <- <-. rewrite app_nil_r. destruct ST as [|(_ & e & [] & _)]; auto. }
  destruct (invalid e) eqn:IV.
  { injection E as <- <-. rewrite app_nil_r. destruct ST as [|(_ & e0 & [] & _)]; auto. }
  assert (SI' : simple l p) by (intros e0 I0; apply SI; right; auto).
  assert (TL : forall q, p <> param e -> last = q ->
    covers p (args w p) (known s p) R0 \/ (p <> q /\ exists e0, In e0 (e :: live l) /\ param e0 = p) ->
    covers p (args w p) (known s p) R0 \/ exists e0, In e0 (live l) /\ param e0 = p).
  { intros q N _ [|(_ & e0 & [<-|I0] & P)]; auto; [congruence|right; eauto]. }
  destruct (Z.eqb_spec (param e) last) as [PL|PL].
  { eapply IH; eauto. destruct ST as [|(N & e0 & [<-|I0] & P)]; auto; [congruence|].
    right. eauto. }
  destruct (has fINLINED e || has fNONMEM e) eqn:NI.
  { assert (N : p <> param e).
    { intros X. destruct (SI e) as (X1 & X2 & _); auto; [left; auto|].
      rewrite X1, X2 in NI. discriminate. }
    eapply IH; eauto. destruct (TL last N eq_refl ST); auto. }
  apply bind_ok in E as (start & SA & E).
  assert (SE : start = args w (param e)).
  { unfold sysarg in SA. destruct (_ && _); congruence. }
  apply bind_ok in E as ([[sz s1] r1] & G & E).
  apply get_size_state in G as (KN & _ & _).
  destruct (Z.eq_dec p (param e)) as [P|P].
  - destruct (SI e) as (_ & _ & C & N1 & N2); auto; [left; auto|].
    destruct (negb (start =? 0) && (0 <? sz)) eqn:GO.
    + apply andb_prop in GO as [_ GO]. apply Z.ltb_lt in GO.
      unfold os_access in E. rewrite C in E. cbn [negb bind] in E.
      unfold should_ignore in E. rewrite N1, N2 in E. cbn [bind] in E.
      unfold report_memarg in E. cbn [negb andb] in E.
      apply bind_ok in E as ([f' k] & E1 & E2). injection E2 as <- <-.
      cbn [app fst snd] in *.
      match goal with |- covers _ _ _ (_ ++ _ ++ ?x :: _) => set (rep := x) in * end.
      replace (R0 ++ r1 ++ rep :: k) with ((R0 ++ r1 ++ [rep]) ++ k)
        by (rewrite <- !app_assoc; reflexivity).
      eapply IH; [exact SI'|exact A0|exact E1| |].
      * intros x I. apply POS. apply in_or_app. right. right. auto.
      * left. cbn. rewrite P, Z.eqb_refl. right. exists rep. split.
        { apply in_or_app. right. apply in_or_app. right. left. auto. }
        assert (PR : 0 < r_size rep).
        { apply POS. apply in_or_app. right. left. auto. }
        unfold rep in *. cbn [r_ord r_start r_size] in *. split; [reflexivity|split; [exact SE|]].
        destruct (sz =? SIZE_DYNAMIC); lia.
    + apply bind_ok in E as ([f' k] & E1 & E2). injection E2 as <- <-. cbn [fst snd] in *.
      rewrite app_assoc. eapply IH; [exact SI'|exact A0|exact E1| |].
      * intros x I. apply POS. apply in_or_app. auto.
      * left. left. cbn. rewrite P, Z.eqb_refl.
        destruct (Z.eqb_spec start 0); [congruence|]. cbn in GO. apply Z.ltb_ge in GO. auto.
  - destruct (negb (start =? 0) && (0 <? sz)) eqn:GO.
    + apply bind_ok in E as ([[sk s2] r2] & O & E). apply bind_ok in E as (sk' & _ & E).
      apply bind_ok in E as ([f' k] & E1 & E2). injection E2 as <- <-. cbn [fst snd] in *.
      match goal with |- covers _ _ _ (_ ++ _ ++ _ ++ ?x ++ _) => set (r3 := x) in * end.
      replace (R0 ++ r1 ++ r2 ++ r3 ++ k) with ((R0 ++ r1 ++ r2 ++ r3) ++ k)
        by (rewrite <- !app_assoc; reflexivity).
      apply os_access_state in O as (KO & _).
      eapply IH; [exact SI'|exact A0|exact E1| |].
      * intros x I. apply POS. repeat (apply in_or_app; right). auto.
      * rewrite KO. cbn. destruct (Z.eqb_spec p (param e)); [congruence|]. rewrite KN.
        destruct (TL last P eq_refl ST) as [H|H]; auto. left. now apply covers_app.
    + apply bind_ok in E as ([f' k] & E1 & E2). injection E2 as <- <-. cbn [fst snd] in *.
      rewrite app_assoc. eapply IH; [exact SI'|exact A0|exact E1| |].
      * intros x I. apply POS. apply in_or_app. auto.
      * cbn. destruct (Z.eqb_spec p (param e)); [congruence|]. rewrite KN.
        destruct (TL last P eq_refl ST) as [H|H]; auto. left. now apply covers_app.
Qed.

Lemma post_within w t l : forall i prev last ls s q,
  (forall e, In e (live l) -> has fWRITE e = true -> 0 <= param e /\ has fCOMPLEX e = false) ->
  (0 <= last -> ls <= known s last) ->
  post_loop w t l i prev last ls s = Ok q ->
  forall r, In r q -> exists e, In e (live l) /\ has fWRITE e = true /\
    r_ord r = param e /\ r_start r = args w (param e) /\ r_out r = true /\
    args w (param e) <> 0 /\ 0 < r_size r <= known s (param e).
Proof.
  induction l as [|e l IH]; intros i prev last ls s q SI LS E r I; cbn [post_loop live] in *.
  { injection E as <-. contradiction. }
  destruct (invalid e) eqn:IV; [injection E as <-; contradiction|].
  assert (SI' : forall e, In e (live l) -> has fWRITE e = true ->
            0 <= param e /\ has fCOMPLEX e = false) by (intros; apply SI; auto; right; auto).
  assert (LIFT : (exists e, In e (live l) /\ has fWRITE e = true /\
    r_ord r = param e /\ r_start r = args w (param e) /\ r_out r = true /\
    args w (param e) <> 0 /\ 0 < r_size r <= known s (param e)) ->
    exists e0, In e0 (e :: live l) /\ has fWRITE e0 = true /\
    r_ord r = param e0 /\ r_start r = args w (param e0) /\ r_out r = true /\
    args w (param e0) <> 0 /\ 0 < r_size r <= known s (param e0)).
  { intros (x & X & Y). exists x. split; auto. right. auto. }
  destruct (has fWRITE e) eqn:W; cbn [negb] in E; [|eauto].
  destruct (SI e) as [P0 C]; auto; [left; auto|].
  apply bind_ok in E as (start & SA & E).
  assert (SE : start = args w (param e)).
  { unfold sysarg in SA. destruct (_ && _); congruence. }
  apply bind_ok in E as ([[sz s1] r1] & G & E).
  set (z := if known s (param e) <? sz then known s (param e) else sz) in *.
  assert (ZL : z <= known s (param e)) by (unfold z; destruct (Z.ltb_spec (known s (param e)) sz); lia).
  assert (HIT : forall y, negb (start =? 0) && (0 <? y) = true -> y <= known s (param e) ->
    In r (report_memarg false (param e) (flags e) start y) ->
    exists e0, In e0 (e :: live l) /\ has fWRITE e0 = true /\
    r_ord r = param e0 /\ r_start r = args w (param e0) /\ r_out r = true /\
    args w (param e0) <> 0 /\ 0 < r_size r <= known s (param e0)).
  { intros y GO YL IR. apply andb_prop in GO as [G1 G2]. apply Z.ltb_lt in G2.
    destruct (Z.eqb_spec start 0); [discriminate|].
    unfold report_memarg in IR. change (existsb (flag_eqb fWRITE) (flags e)) with (has fWRITE e) in IR.
    rewrite W in IR. cbn in IR. destruct IR as [<-|[]].
    exists e. cbn. repeat split; auto; lia. }
  unfold os_access in E. rewrite C in E. cbn [negb bind] in E.
  destruct (Z.eqb_spec (param e) last) as [PL|PL].
  - apply bind_ok in E as (y & Y & E). apply bind_ok in E as (a & A & E).
    apply bind_ok in E as (k & K & E). injection E as <-.
    assert (YL : y <= known s (param e) \/ y <= 0).
    { assert (Z1 : (if z =? 0 then ls else z) <= known s (param e)).
      { destruct (z =? 0); auto. rewrite PL. apply LS. lia. }
      destruct (_ && _) in Y.
      - apply bind_ok in Y as (c & _ & Y). injection Y as <-. destruct (c =? 0); auto. right. lia.
      - injection Y as <-. auto. }
    apply in_app_or in I as [I|I]; [|apply LIFT; eapply IH; eauto].
    destruct (negb (start =? 0) && (0 <? y)) eqn:GO; [|injection A as <-; contradiction].
    apply bind_ok in A as (sk & _ & A). injection A as <-.
    destruct sk; [contradiction|]. apply (HIT y); auto.
    apply andb_prop in GO as [_ GO]. apply Z.ltb_lt in GO. lia.
  - apply bind_ok in E as (a & A & E). apply bind_ok in E as (k & K & E). injection E as <-.
    apply in_app_or in I as [I|I].
    + destruct (match l with [] => false | e1 :: _ => _ end); [injection A as <-; contradiction|].
      destruct (negb (start =? 0) && (0 <? z)) eqn:GO; injection A as <-; [|contradiction].
      apply (HIT z); auto.
    + apply LIFT. eapply IH; [exact SI'| |exact K|exact I]. auto.
Qed.

Lemma within before after t s pre post :
  sensible t -> plain_outputs t -> (forall p, args after p = args before p) ->
  session before after t s = Ok (pre, post) ->
  (forall r, In r pre -> 0 < r_size r) ->
  forall r, In r post ->
    r_out r = true /\ 0 < r_size r /\
    (exists e, In e t /\ has fWRITE e = true /\ param e = r_ord r) /\
    exists r', In r' pre /\ inside r r'.
Proof.
  intros S PO AR E POS r I. rewrite session_live in E.
  apply bind_ok in E as ([f r1] & _ & E). apply bind_ok in E as ([g r2] & P & E).
  apply bind_ok in E as (q & Q & E). injection E as <- <-. cbn [fst snd] in *.
  destruct (succeeded after); [|injection Q as <-; contradiction].
  assert (X : forall e, In e (live (live t)) -> has fWRITE e = true ->
            0 <= param e /\ has fCOMPLEX e = false).
  { intros e J W. rewrite live_live in J. apply live_in in J.
    destruct (S e e) as (Z0 & _); auto. destruct (PO e e) as (C & _); auto. }
  destruct (post_within after t (live t) 0 zero_entry (-1) 0 (not_first g) q X
              ltac:(lia) Q r I) as (e & J & W & O & ST & RO & NZ & SZ).
  rewrite live_live in J. cbn [not_first known] in SZ. rewrite AR in *.
  repeat split; auto; try lia; [exists e; split; [now apply live_in|auto]|].
  assert (SI : simple (live t) (param e)).
  { intros x JX PX. apply live_in in JX. pose proof (live_in _ _ J) as JT.
    destruct (S x e) as (_ & A & B & _); auto. destruct (PO x e) as (C & D & F); auto. }
  destruct (pre_covers before t (param e) (live t) 0 (-1) (not_first f) g r2 [] SI NZ P POS)
    as [N|(x & IX & O1 & O2 & O3)].
  - right. split; [|exists e; rewrite live_live; auto].
    destruct (S e e) as (Z0 & _); auto; try (now apply live_in). lia.
  - lia.
  - exists x. split; auto. unfold inside. repeat split; try congruence. lia.
Qed.
