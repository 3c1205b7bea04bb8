(** Running code on the named machine with the few registers it mentions renamed
    to fixed ones, so that it can be run by computation. *)
From Verif Require Import Base ShadowTables_Model FastPath_Model FastPath_Spec FastPath_Abs FastPath_Run.
Open Scope Z_scope.

Fixpoint names (gs ns : list gpr) (r : gpr) : option gpr :=
  match gs, ns with
  | g :: gs, n :: ns => if gpr_eqb r g then Some n else names gs ns r
  | _, _ => None
  end.
Definition fixed : list gpr := [EAX; ECX; EDX].

Lemma names_in gs : forall ns r n, names gs ns r = Some n -> In n ns.
Proof.
  induction gs as [|g gs IH]; intros [|n0 ns] r n; try discriminate. cbn.
  destruct (gpr_eqb r g); [intros [= <-]; left; reflexivity|]. intros HH. right. eapply IH, HH.
Qed.
Lemma names_inj gs : forall ns r r' n, NoDup ns -> names gs ns r = Some n -> names gs ns r' = Some n -> r = r'.
Proof.
  induction gs as [|g gs IH]; intros [|n0 ns] r r' n ND; try discriminate. inversion ND as [|? ? Hn ND']; subst. cbn.
  destruct (gpr_eqb r g) eqn:E1, (gpr_eqb r' g) eqn:E2.
  - intros _ _. apply gpr_true in E1, E2. congruence.
  - intros [= <-] HH. apply names_in in HH. contradiction.
  - intros HH [= <-]. apply names_in in HH. contradiction.
  - apply IH. assumption.
Qed.
Lemma fixed_nodup : NoDup fixed.
Proof. repeat constructor; cbn; intuition discriminate. Qed.

Section Rename.
Context (nm : gpr -> option gpr).
Context (inj : forall r r' n, nm r = Some n -> nm r' = Some n -> r = r').

Definition ro8 (o : o8) : option o8 :=
  match o with Slot g => match nm g with Some n => Some (Slot n) | None => None end | _ => Some o end.
Definition rins (i : ins) : option ins :=
  match i with
  | Movzx8 d s => do s <- ro8 s; Some (Movzx8 d s)
  | Mov8 d s => do d <- ro8 d; do s <- ro8 s; Some (Mov8 d s)
  | And8 d s => do d <- ro8 d; do s <- ro8 s; Some (And8 d s)
  | Or8 d s => do d <- ro8 d; do s <- ro8 s; Some (Or8 d s)
  | Dec8 d => do d <- ro8 d; Some (Dec8 d)
  | Shift8 k d n => do d <- ro8 d; Some (Shift8 k d n)
  | Cmp8 a b => do a <- ro8 a; do b <- ro8 b; Some (Cmp8 a b)
  | LdTab d t b => do d <- ro8 d; Some (LdTab d t b)
  | i => Some i
  end.
Fixpoint rename (p : list ins) : option (list ins) :=
  match p with
  | [] => Some []
  | i :: q => do i <- rins i; do q <- rename q; Some (i :: q)
  end.

Definition reslot (a : amach) (sl : gpr -> byte) : amach :=
  {| a1 := a1 a; a2 := a2 a; a3 := a3 a; az := az a; aslot := sl; afl := afl a; aprim := aprim a; asec := asec a;
     adirty := adirty a |}.

Context (s : gpr -> byte) (u : aworld).
Definition rel (sl : gpr -> byte) (a : amach) : Prop :=
  forall r, sl r = match nm r with Some n => aslot a n | None => s r end.

Lemma get8_re o o' a sl : ro8 o = Some o' -> rel sl a -> aget8 u (reslot a sl) o = aget8 u a o'.
Proof.
  intros Eo R. destruct o; cbn in Eo; try (injection Eo as <-; reflexivity).
  destruct (nm g) eqn:Eg; [|discriminate]. injection Eo as <-. cbn. rewrite (R g), Eg. reflexivity.
Qed.

Definition rel_out (r r' : aout) : Prop :=
  match r, r' with
  | AGo b, AGo b' => exists sl, b = reslot b' sl /\ rel sl b'
  | ATaken l b, ATaken l' b' => l = l' /\ exists sl, b = reslot b' sl /\ rel sl b'
  | ASlow, ASlow | ABad, ABad => True
  | _, _ => False
  end.

Lemma go8_re o o' a sl z v : ro8 o = Some o' -> rel sl a ->
  rel_out (ago8 u (reslot a sl) z o v) (ago8 u a z o' v).
Proof.
  intros Eo R. destruct o; cbn in Eo; try (injection Eo as <-).
  - exists sl. split; [reflexivity|exact R].
  - exists sl. split; [reflexivity|exact R].
  - unfold ago8, aset8. replace (aget (reslot a sl) r) with (aget a r) by reflexivity.
    destruct v; [|exact Logic.I]. destruct (aget a r) as [| | | |[]]; try exact Logic.I.
    exists sl. split; [reflexivity|exact R].
  - destruct (nm g) as [n|] eqn:Eg; [|discriminate]. injection Eo as <-.
    destruct v as [b|]; [|exact Logic.I]. eexists. split; [reflexivity|].
    intros r. cbn. unfold upd. destruct (gpr_eqb r g) eqn:Er.
    + apply gpr_true in Er. subst r. rewrite Eg, gpr_refl. reflexivity.
    + rewrite (R r). destruct (nm r) as [n'|] eqn:En; [|reflexivity].
      destruct (gpr_eqb n' n) eqn:Enn; [|reflexivity]. apply gpr_true in Enn. subst n'.
      rewrite (inj _ _ _ En Eg), gpr_refl in Er. discriminate.
  - destruct v as [b|]; [|exact Logic.I]. exists sl. split; [reflexivity|exact R].
  - destruct v; exact Logic.I.
Qed.

Ltac binds := repeat match goal with
  | E : obind (ro8 ?o) _ = Some _ |- _ => destruct (ro8 o) eqn:?; [cbn [obind] in E|discriminate E]
  | E : Some _ = Some _ |- _ => injection E as <-
  end.
Ltac same_st := first [exact Logic.I|eexists; split; [reflexivity|assumption]].
Lemma exec_re i i' a sl : rins i = Some i' -> rel sl a -> rel_out (aexec u i (reslot a sl)) (aexec u i' a).
Proof.
  intros Ei R. destruct i; cbn [rins] in Ei; binds; cbn [aexec];
    rewrite ?(fun o o' E => get8_re o o' a sl E R); 
    repeat match goal with E : ro8 ?o = Some _ |- context [aget8 u (reslot a sl) ?o] => rewrite (get8_re _ _ a sl E R) end;
    try (apply go8_re; assumption); try same_st.
  - replace (aget (reslot a sl) base) with (aget a base) by reflexivity.
    replace (match idx with Some r => Some (aget (reslot a sl) r) | None => None end)
      with (match idx with Some r => Some (aget a r) | None => None end) by (destruct idx; reflexivity).
    destruct (aget a base) as [[] [] []| | | |]; try exact Logic.I.
    destruct (arow _ _); [|exact Logic.I]. destruct (is0 _); [|exact Logic.I]. destruct (atab _ _ _); same_st.
  - replace (aget (reslot a sl) base) with (aget a base) by reflexivity.
    destruct (aget a base) as [[] [] []| | | |]; try exact Logic.I.
    destruct (is0 _); [|exact Logic.I]. destruct (asx _ _); [apply go8_re; assumption|exact Logic.I].
  - cbn [az reslot]. destruct (az a) as [z|]; [|exact Logic.I]. destruct (holds c z); same_st.
  - cbn [az reslot]. destruct (az a) as [z|]; [|exact Logic.I]. destruct (holds c z); [split; [reflexivity|]|]; same_st.
Qed.

Definition rel_res (r r' : ares) : Prop :=
  match r, r' with
  | ADone b, ADone b' => exists sl, b = reslot b' sl /\ rel sl b'
  | AToSlow, AToSlow | AStuck, AStuck => True
  | _, _ => False
  end.
Lemma run_re p : forall p' skip a sl, rename p = Some p' -> rel sl a ->
  rel_res (brun u skip p (reslot a sl)) (brun u skip p' a).
Proof.
  induction p as [|i p IH]; intros p' skip a sl Ep R; cbn [rename] in Ep.
  - injection Ep as <-. destruct skip; [exact Logic.I|]. eexists. split; [reflexivity|exact R].
  - destruct (rins i) as [i'|] eqn:Ei; [cbn [obind] in Ep|discriminate].
    destruct (rename p) as [q|] eqn:Eq; [cbn [obind] in Ep|discriminate]. injection Ep as <-.
    pose proof (exec_re i i' a sl Ei R) as X. specialize (IH q).
    destruct skip as [l|].
    { destruct i; cbn [rins] in Ei; binds; cbn [brun]; apply IH; auto. }
    destruct i; cbn [rins] in Ei; binds; cbn [brun];
      try (destruct (aexec u _ (reslot a sl)), (aexec u _ a); try contradiction X; try exact Logic.I;
           destruct X as (sl' & -> & R'); apply IH; auto).
    + destruct c; cbn [az reslot]; destruct (az a) as [[]|]; try exact Logic.I; apply IH; auto.
    + destruct c; cbn [az reslot]; destruct (az a) as [[]|]; try exact Logic.I; apply IH; auto.
Qed.
End Rename.

Fixpoint agree (gs : list gpr) (bs : list byte) (sl : gpr -> byte) : Prop :=
  match gs, bs with g :: gs, b :: bs => sl g = b /\ agree gs bs sl | _, _ => True end.
Definition three (a b c : byte) (r : gpr) : byte :=
  match r with EAX => a | ECX => b | EDX => c | _ => zero8 end.

Lemma good_named gs front back mem (Fine : view -> Prop) (Post : (Z -> bool) -> view -> view -> Prop) prog :
  rename (names gs fixed) (front ++ back) = Some prog ->
  (length gs <= 3)%nat ->
  (forall x y app sl f p q a b c, agree gs [a; b; c] sl ->
     match brun (uw x y app) None prog (start0 (three a b c) f p q) with
     | ADone r => forall q' sl',
         (forall g, sl' g = match names gs fixed g with Some n => aslot r n | None => sl g end) ->
         Post app (aview x y (start0 sl f p q) q) (aview x y (reslot r sl') q')
     | AToSlow => ~ Fine (aview x y (start0 sl f p q) q)
     | AStuck => False
     end) ->
  good (Some (front, mem, back)) mem Fine Post.
Proof.
  intros Ep Hl HH. split; [reflexivity|]. intros x y app s f p q.
  pose (pick k := match nth_error gs k with Some g => s g | None => zero8 end).
  specialize (HH x y app s f p q (pick 0%nat) (pick 1%nat) (pick 2%nat)).
  assert (A : agree gs [pick 0%nat; pick 1%nat; pick 2%nat] s)
    by (destruct gs as [|? [|? [|? []]]]; cbn; auto).
  specialize (HH A).
  pose proof (run_re (names gs fixed) (fun r r' n => names_inj gs fixed r r' n fixed_nodup) s (uw x y app)
    (front ++ back) prog None (start0 (three (pick 0%nat) (pick 1%nat) (pick 2%nat)) f p q) s Ep) as R.
  lapply R; clear R; [intros R|].
  2:{ intros r. subst pick. destruct gs as [|g0 [|g1 [|g2 []]]]; cbn in Hl |- *; try lia; try reflexivity;
      repeat (match goal with |- context [gpr_eqb r ?g] =>
        let E := fresh in destruct (gpr_eqb r g) eqn:E; [apply gpr_true in E; subst; reflexivity|] end); reflexivity. }
  change (reslot (start0 _ f p q) s) with (start0 s f p q) in R.
  destruct (brun (uw x y app) None (front ++ back) (start0 s f p q)) as [r| |],
    (brun (uw x y app) None prog _) as [r'| |]; try contradiction R; try exact HH.
  destruct R as (sl & -> & R). intros q'. apply HH, R.
Qed.
