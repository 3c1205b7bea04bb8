(** Tactics for running generated code on the named machine. *)
From Verif Require Import Base ShadowTables_Model FastPath_Model FastPath_Spec FastPath_Abs FastPath_Run
  FastPath_Named.
Open Scope Z_scope.

Lemma every1 (p : Z -> Prop) : p 0 -> every 1 p.
Proof. intros H0 k Hk. assert (k = 0) by lia. subst. assumption. Qed.
Lemma every2 (p : Z -> Prop) : p 0 -> p 1 -> every 2 p.
Proof. intros H0 H1 k Hk. assert (k = 0 \/ k = 1) by lia. intuition (subst; assumption). Qed.
Lemma every4 (p : Z -> Prop) : p 0 -> p 1 -> p 2 -> p 3 -> every 4 p.
Proof. intros H0 H1 H2 H3 k Hk. assert (k = 0 \/ k = 1 \/ k = 2 \/ k = 3) by lia. intuition (subst; assumption). Qed.
Lemma every1_inv (p : Z -> Prop) : every 1 p -> p 0.
Proof. intros HH. apply HH. lia. Qed.
Lemma every2_inv (p : Z -> Prop) : every 2 p -> p 0 /\ p 1.
Proof. intros HH. split; apply HH; lia. Qed.
Lemma every4_inv (p : Z -> Prop) : every 4 p -> p 0 /\ p 1 /\ p 2 /\ p 3.
Proof. intros HH. repeat split; apply HH; lia. Qed.
Lemma is_D_eq a b : is_D a b = true -> a = false /\ b = false.
Proof. destruct a, b; cbn; auto; discriminate. Qed.
Lemma is_plain_eq a b : is_plain a b = true -> plain (a, b).
Proof. unfold plain. destruct a, b; cbn; auto; discriminate. Qed.

Lemma B_inj a b c d e f g h a' b' c' d' e' f' g' h' :
  B a b c d e f g h = B a' b' c' d' e' f' g' h' ->
  a = a' /\ b = b' /\ c = c' /\ d = d' /\ e = e' /\ f = f' /\ g = g' /\ h = h'.
Proof. intros [= ]. subst. tauto. Qed.

Lemma is_plain_ne a b : plain (a, b) -> is_plain a b = false -> False.
Proof. intros [[= -> ->]|[= -> ->]]; discriminate. Qed.

Lemma gpr_cases g g' : g = g' \/ gpr_eqb g g' = false /\ gpr_eqb g' g = false.
Proof.
  destruct (gpr_eqb g g') eqn:E; [left; apply gpr_true, E|right]. split; [reflexivity|]. rewrite gpr_sym. exact E.
Qed.

Ltac comp := cbv -[gpr_eqb eqb8 is_plain is_D low2].
Ltac regs := repeat (rewrite gpr_refl || match goal with
  | E : gpr_eqb ?a ?b = false |- context [gpr_eqb ?a ?b] => rewrite E
  | E : by_bytes ?n = false |- context [by_bytes ?n] => rewrite E
  | |- context [by_bytes ?n] => let v := eval cbv in (by_bytes n) in
      first [constr_eq v true|constr_eq v false]; change (by_bytes n) with v
  | |- context [gpr_eqb ?a ?b] => is_constructor a; is_constructor b;
      let v := eval cbv in (gpr_eqb a b) in change (gpr_eqb a b) with v
  | E : ?s ?g = B _ _ _ _ _ _ _ _ |- context [?s ?g] => rewrite E end).
(** The code of an instruction, stage by stage, so that comparisons of registers
    are decided before they are used. *)
Ltac code :=
  match goal with |- good ?c ?b ?F ?P =>
    let Fn := fresh "Fine" in let EF := fresh "EF" in remember F as Fn eqn:EF;
    let Po := fresh "Post" in let EP := fresh "EP" in remember P as Po eqn:EP end;
  cbv -[gpr_eqb by_bytes good set_shadow adjust third post_regs mark_defined second_mem lookup_code
        set_mem_offs check_sources check_addressable combine_write]; regs;
  cbv -[gpr_eqb by_bytes good third post_regs mark_defined second_mem lookup_code
        set_mem_offs check_sources check_addressable combine_write]; regs;
  cbv -[gpr_eqb by_bytes good mark_defined second_mem lookup_code
        set_mem_offs check_sources check_addressable combine_write]; regs;
  cbv -[gpr_eqb by_bytes good set_mem_offs check_sources check_addressable combine_write]; regs;
  cbv -[gpr_eqb by_bytes good check_sources check_addressable combine_write]; regs;
  cbv -[gpr_eqb by_bytes good check_addressable combine_write]; regs;
  cbv -[gpr_eqb by_bytes good dst_write]; regs;
  cbv -[gpr_eqb by_bytes good]; regs;
  cbv -[gpr_eqb by_bytes good].
(** Run it with the registers [gs] named. *)
Ltac named gs :=
  eapply (good_named gs);
  [ cbv -[gpr_eqb by_bytes]; regs; cbv -[gpr_eqb by_bytes]; regs; reflexivity
  | apply Nat.leb_le; reflexivity
  | let x := fresh "x" in let y := fresh "y" in let ap := fresh "ap" in let sl := fresh "sl" in
    let f := fresh "f" in let p := fresh "p" in let q := fresh "q" in
    let a := fresh "a" in let b := fresh "b" in let c := fresh "c" in let Hs := fresh "Hs" in
    intros x y ap sl f p q a b c Hs; cbv [agree] in Hs;
    repeat match type of Hs with
      | True => clear Hs
      | _ /\ _ => let Eg := fresh "Eg" in destruct Hs as [Eg Hs]
      end;
    destruct f, p;
    repeat match goal with E : sl _ = ?v |- _ => is_var v; destruct v end ].
Ltac tidy := repeat match goal with
  | E : (if ?b then true else _) = false |- _ => destruct b; [discriminate E|]
  | E : ?a = ?b :> bool |- _ => (is_var a; subst a) || (is_var b; subst b) 
  | E : true = false |- _ => discriminate E
  | E : false = true |- _ => discriminate E
  | E : ?a = ?a :> bool |- _ => clear E
  end.
Ltac branches := repeat match goal with
  | |- match (if is_plain ?a ?b then _ else _) with _ => _ end =>
      let E := fresh "Pl" in destruct (is_plain a b) eqn:E; [apply is_plain_eq in E|]
  | |- match (if (if is_plain ?a ?b then _ else _) then _ else _) with _ => _ end =>
      let E := fresh "Pl" in destruct (is_plain a b) eqn:E; cbv iota; [apply is_plain_eq in E|]
  | |- match (if (if is_D ?a ?b then _ else _) then _ else _) with _ => _ end =>
      let E := fresh "E" in destruct (is_D a b) eqn:E; cbv iota; [apply is_D_eq in E; destruct E; tidy|]
  | |- match (if is_D ?a ?b then _ else _) with _ => _ end =>
      let E := fresh "E" in destruct (is_D a b) eqn:E; [apply is_D_eq in E; destruct E; tidy|]
  | |- match (if eqb8 ?a ?b then _ else _) with _ => _ end =>
      let E := fresh "E" in destruct (eqb8 a b) eqn:E;
        [apply eqb8_eq, B_inj in E; destruct E as (?&?&?&?&?&?&?&?); tidy|]
  | |- match (if ?f (Zneg ?v) then _ else _) with _ => _ end => let E := fresh "Ap" in destruct (f (Zneg v)) eqn:E
  | |- match (if ?f 0 then _ else _) with _ => _ end => let E := fresh "Ap" in destruct (f 0) eqn:E
  | |- match (if ?b then _ else _) with _ => _ end => destruct b
  end.
(** Why it left for the slow path. *)
Ltac spread HH := first
  [ apply every1_inv in HH | apply every2_inv in HH; destruct HH | apply every4_inv in HH; destruct HH as (?&?&?&?) ].
Ltac facts := repeat match goal with
  | HH : True |- _ => clear HH
  | HH : _ /\ _ |- _ => destruct HH
  | HH : every _ _ |- _ => spread HH
  | HH : true = true -> _ |- _ => specialize (HH eq_refl)
  | HH : false = true -> _ |- _ => clear HH
  end.
Ltac bit_eqs := repeat match goal with
  | E : (_, _) = (_, _) |- _ => apply pair_equal_spec in E; destruct E
  | E : B _ _ _ _ _ _ _ _ = B _ _ _ _ _ _ _ _ |- _ => apply B_inj in E; destruct E as (?&?&?&?&?&?&?&?)
  end.
Ltac left_for F :=
  subst F; let HF := fresh "HF" in intros HF;
  cbv -[gpr_eqb eqb8 is_plain is_D plain every not lane] in HF;
  repeat match goal with E : ?s ?g = B _ _ _ _ _ _ _ _ |- _ => rewrite E in HF end;
  facts;
  repeat match goal with HH : _ |- _ =>
    lazymatch type of HH with context [lane] => idtac | context [Z.modulo] => idtac | _ => fail end;
    progress cbv -[gpr_eqb eqb8 is_plain is_D plain every not] in HH end; facts;
  bit_eqs; tidy;
  first [ discriminate
        | match goal with Hp : plain (?a, ?b), E : is_plain ?a ?b = false |- _ => exact (is_plain_ne a b Hp E) end
        | match goal with E : is_plain _ _ = false |- _ => discriminate E end
        | match goal with E : is_D _ _ = false |- _ => discriminate E | E : eqb8 _ _ = false |- _ => discriminate E end ].

Ltac bits_in :=
  repeat match goal with
  | E : forall g, _ g = _ |- _ => clear E
  | E : ?s ?g = B _ _ _ _ _ _ _ _ |- _ => clear E
  end;
  repeat match goal with E : ?x = (if _ then _ else _) |- ?G =>
    lazymatch G with context [x] => fail | _ => clear E end end;
  repeat match goal with E : context [if ?b then _ else _] |- _ => is_var b; destruct b end;
  cbv iota in *; congruence.
Ltac bits := repeat match goal with |- context [if ?b then _ else _] => is_var b; destruct b end;
  (reflexivity || assumption || congruence || bits_in).
Ltac lanes := first [apply every1|apply every2|apply every4].


Lemma out4 (Q : Z -> Prop) : Q 0 -> Q 1 -> Q 2 -> Q 3 -> forall i, 0 <= i < 4 -> Q i.
Proof. intros H0 H1 H2 H3 i Hi. exact (every4 Q H0 H1 H2 H3 i Hi). Qed.

Ltac see := cbv -[plain gpr_eqb lane]; regs; cbv -[plain gpr_eqb].
Ltac one_lane := see; bits.
Ltac all_lanes := lanes; one_lane.
Ltac outside :=
  hnf; match goal with |- forall i, 0 <= i < 4 -> @?Q i => apply (out4 Q) end; cbv beta; (let C := fresh in intros C;
    first [exfalso; apply C; split; [apply Zle_bool_imp_le|apply Z.ltb_lt]; reflexivity
          |clear C; one_lane]).
(** The registers after. *)
Ltac slots := repeat match goal with
  | Hr : forall g, ?sl' g = _ |- _ =>
      lazymatch goal with
      | E : sl' _ = _ |- _ => fail
      | _ => idtac
      end;
      repeat match goal with
        | E : ?sl ?g = B _ _ _ _ _ _ _ _ |- _ =>
            tryif constr_eq sl sl' then fail else
            lazymatch goal with
            | E' : sl' g = _ |- _ => fail
            | _ => let E' := fresh "Er" in pose proof (Hr g) as E'; cbv -[gpr_eqb] in E';
                   revert E'; regs; intros E'
            end
        end
  end.
Ltac others := cbv -[gpr_eqb];
  let x := fresh "x" in intros x; try (let Hx := fresh in intros Hx);
  match goal with Hr : forall g, ?sl' g = _ |- ?sl' x = _ => rewrite (Hr x); cbv -[gpr_eqb] end;
  repeat match goal with
  | Hx : x = ?g -> False |- context [gpr_eqb x ?g] => rewrite (gpr_neq _ _ Hx)
  | |- context [gpr_eqb x ?g] => let E := fresh in destruct (gpr_eqb x g) eqn:E; [apply gpr_true in E; subst x|]
  end; regs; cbv -[gpr_eqb]; regs; bits.

Lemma lane_zero x : x = zero8 <-> lane x 0 = D /\ lane x 1 = D /\ lane x 2 = D /\ lane x 3 = D.
Proof.
  destruct x. unfold zero8, lane, D. cbn. split; [intros [= -> -> -> -> -> -> -> ->]; auto|].
  intros ([= -> ->] & [= -> ->] & [= -> ->] & [= -> ->]). reflexivity.
Qed.
Lemma flags_lanes t fl v' n f : 0 <= t -> t + n <= 4 ->
  every n (fun k => lane (v_fl v') (t + k) = f k) ->
  (forall i, 0 <= i < 4 -> ~ (t <= i < t + n) -> lane (v_fl v') i = D) ->
  flags_follow fl v' n f.
Proof.
  intros Ht Hn Hf Ho _. rewrite lane_zero. split.
  - intros (L0 & L1 & L2 & L3) k Hk. rewrite <- Hf by assumption.
    assert (t + k = 0 \/ t + k = 1 \/ t + k = 2 \/ t + k = 3) as [->|[->|[->| ->]]] by lia; assumption.
  - intros HH.
    assert (G : forall i, 0 <= i < 4 -> lane (v_fl v') i = D).
    { intros i Hi. destruct (Z_le_dec t i) as [T1|T1]; [destruct (Z_lt_dec i (t + n)) as [T2|T2]|];
        [|apply Ho; lia|apply Ho; lia].
      rewrite <- (HH (i - t)) by lia. rewrite <- Hf by lia. f_equal. lia. }
    repeat split; apply G; lia.
Qed.
Ltac num := first [apply Zle_bool_imp_le; reflexivity|apply Z.ltb_lt; reflexivity].
Ltac flags_at t := apply (flags_lanes t); [num|num|all_lanes|outside].
Ltac flags_tac := first
  [ let E := fresh in intros E; discriminate E
  | solve [flags_at 0] | solve [flags_at 1] | solve [flags_at 2] | solve [flags_at 3] ].
Ltac plain_lane := see; first [assumption|left; reflexivity|right; reflexivity|bits].
Ltac usable_tac := first [exact Logic.I|split; [reflexivity|lanes; plain_lane]].
Ltac same_fl_tac := first [left; reflexivity|right; reflexivity].
Ltac eval8 := see; bits.
Ltac bytes_tac := split; [same_fl_tac|first [split; [others|split; [reflexivity|outside]]|split; [others|outside]]].
Ltac dword_tac := split; [same_fl_tac|first [split; [others|reflexivity]|hnf; others]].
Ltac result_tac := split; [all_lanes|split; [bytes_tac|flags_tac]].
Ltac flag0 := first [let E := fresh in intros E; discriminate E|intros _; eval8].
Ltac dd_tac := split; [eval8|split; [dword_tac|flag0]].
Ltac covers_lane := see; split; let E := fresh in intros E; bits.
Lemma or_false (a b : bool) : (if a then true else b) = false -> a = false /\ b = false.
Proof. destruct a, b; auto. Qed.
Ltac falses := repeat match goal with
  | E : (if ?a then true else ?b) = false |- _ => apply or_false in E; destruct E
  end.
Ltac over_flags := first
  [ let E := fresh in intros E; discriminate E
  | let E := fresh in intros _ E; cbv -[gpr_eqb every] in E; apply B_inj in E; destruct E as (?&?&?&?&?&?&?&?); falses; tidy; all_lanes ].
Ltac over_tac := split; [lanes; covers_lane|split; [bytes_tac|over_flags]].
Ltac sure := first [left; all_lanes|right; split; [reflexivity|assumption]].
Ltac atom := match goal with
  | |- True => exact Logic.I
  | |- usable _ _ _ => usable_tac
  | |- defined _ _ _ => all_lanes
  | |- FastPath_Spec.result _ _ _ _ _ _ => result_tac
  | |- result_over _ _ _ _ _ _ => over_tac
  | |- only_flags _ _ _ => split; [same_fl_tac|split; [others|reflexivity]]
  | |- flags_follow _ _ _ _ => flags_tac
  | |- dword_defined _ _ _ _ => dd_tac
  | |- settled _ _ _ _ _ => first [result_tac|dd_tac]
  | |- v_fl _ = zero8 => eval8
  | |- _ \/ defined _ _ _ /\ _ => first [left; reflexivity|right; split; [all_lanes|sure]]
  | |- _ \/ decided _ _ _ _ _ _ => first [left; reflexivity|right; split; [all_lanes|sure]]
  | |- defined _ _ _ \/ _ => sure
  end.
Ltac conj := repeat match goal with
  | |- _ /\ _ => split
  | |- ready _ _ _ _ => split
  | |- flags_ready _ _ _ => first [exact Logic.I|let E := fresh in intros E; first [discriminate E|clear E; eval8]]
  | |- high_to_first _ _ _ _ = false -> _ => let E := fresh in intros E; first [discriminate E|clear E]
  | |- true = true -> _ => intros _
  | |- false = true -> _ => let E := fresh in intros E; discriminate E
  | |- decided _ _ _ _ _ _ => split
  | |- forall a, In a _ -> _ =>
      let a := fresh "a" in let Ha := fresh in intros a Ha; cbn [In] in Ha;
      repeat (destruct Ha as [Ha|Ha]; [subst a|]); [..|contradiction Ha]
  | |- S4 = S4 -> _ => intros _
  | |- _ = S4 -> _ => let E := fresh in intros E; discriminate E
  | |- Osar <> Osar -> _ => let E := fresh in intros E; exfalso; apply E; reflexivity
  | |- _ <> Osar -> _ => intros _
  end.

(** Run one concrete shape to the end. *)
Ltac crunch := comp; regs; comp; branches;
  match goal with
  | |- ?F _ -> False => left_for F
  | |- forall q' sl', _ -> ?P _ _ _ =>
      let q' := fresh "q'" in let sl' := fresh "sl'" in let Hr := fresh "Hr" in
      intros q' sl' Hr; slots; subst P; hnf; conj
  end.
Ltac low2bits x := destruct x as [[] [] ? ? ? ? ? ?].
