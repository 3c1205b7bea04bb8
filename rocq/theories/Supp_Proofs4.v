(** Generated suppressions suppress the error they were generated from. *)
From Coq Require Import String.
From Verif Require Import Base Glob_Model Glob_Spec Glob_Proofs Supp_Model Supp_Spec Supp_Proofs1 Supp_Proofs2 Supp_Proofs3.
Open Scope Z_scope.
Open Scope list_scope.

Lemma fuel_ok st supp : (meas st 0 supp None < mf_fuel st (map enc supp))%nat.
Proof. unfold meas, mf_fuel. cbn [lastp Nat.eqb]. rewrite map_length. lia. Qed.

Lemma glob_refl ic t : glob (eq_case ascii_tolower ic) t t.
Proof.
  induction t as [|c t IH]; [constructor|]. destruct (Z.eq_dec c 42) as [->|N].
  - apply (glob_star _ [42] t t IH).
  - apply glob_lit; auto. unfold eq_case. destruct ic; auto.
Qed.

Lemma frame_line_text sym f : frame_line sym f = text (pat_of sym f).
Proof. unfold frame_line, pat_of. destruct (f_ismod f); auto. destruct sym; auto. Qed.

Lemma pat_of_single sym f : single (pat_of sym f).
Proof. unfold pat_of. destruct (f_ismod f); [destruct sym|]; exact I. Qed.
Lemma pat_of_describes sym f : describes (pat_of sym f) f.
Proof.
  unfold pat_of. destruct (f_ismod f) eqn:M; [destruct sym|]; cbn [describes].
  - split; [split; auto; apply glob_refl|]. destruct (list_eqb (f_func f) (chars "?")); [|apply glob_refl].
    change (chars "*") with [42]. unfold same. rewrite <- (app_nil_r (f_func f)). apply glob_star. constructor.
  - split; [split; auto; apply glob_refl|apply glob_refl].
  - split; auto. apply glob_refl.
Qed.
Lemma pats_aligned sym : forall st k, aligned (map (pat_of sym) (firstn k st)) st.
Proof.
  induction st as [|f st IH]; intros [|k]; cbn; try constructor. apply pat_of_describes. auto.
Qed.
Lemma pats_simple sym st : simple (map (pat_of sym) st).
Proof. induction st; cbn; constructor; auto. apply pat_of_single. Qed.

Definition addf (sym : bool) (mx : nat) (b : building) (f : frame) : building :=
  let n := S (b_num b) in
  B (b_type b) (b_name b) (b_instr b) n (if Nat.leb mx n then b_frames b else b_frames b ++ [enc (pat_of sym f)]).

Lemma len_nz {A} (l : list A) : l <> [] -> Nat.eqb (length l) 0 = false.
Proof. destruct l; [congruence|auto]. Qed.
Lemma read_frames sym mx : forall fs b ls acc, Forall (printable sym) fs ->
  read_lines mx (map (frame_line sym) fs ++ ls) (Some b) acc = read_lines mx ls (Some (fold_left (addf sym mx) fs b)) acc.
Proof.
  induction fs as [|f fs IH]; intros b ls acc H; cbn [map app fold_left]; auto. inversion_clear H as [|? ? P PS].
  destruct P as (R&W&T&NN&NH&NB). cbn [read_lines]. rewrite frame_line_text.
  rewrite (len_nz _ NN), T. cbn [orb]. apply Z.eqb_neq in NH, NB. rewrite NH, NB. unfold add_line. rewrite (parse_ok _ _ R).
  rewrite <- IH by auto. unfold addf. destruct (Nat.leb mx (S (b_num b))); auto.
Qed.
Lemma addf_frames sym mx : forall fs b, 
  fold_left (addf sym mx) fs b =
  B (b_type b) (b_name b) (b_instr b) (b_num b + length fs)
    (b_frames b ++ map enc (map (pat_of sym) (firstn (mx - 1 - b_num b) fs))).
Proof.
  induction fs as [|f fs IH]; intros b; cbn [fold_left].
  - rewrite firstn_nil. cbn. rewrite app_nil_r, Nat.add_0_r. destruct b; auto.
  - rewrite IH. unfold addf. cbn [b_type b_name b_instr b_num b_frames length].
    replace (b_num b + S (length fs))%nat with (S (b_num b) + length fs)%nat by lia. f_equal.
    destruct (Nat.leb_spec mx (S (b_num b))).
    + replace (mx - 1 - S (b_num b))%nat with O by lia. replace (mx - 1 - b_num b)%nat with O by lia. auto.
    + replace (mx - 1 - b_num b)%nat with (S (mx - 1 - S (b_num b))) by lia. cbn [firstn map]. rewrite <- app_assoc. auto.
Qed.

Definition gname (id : list Z) : list Z := chars "Error #" ++ id ++ chars " (update to meaningful name)".
Definition gspec (sym : bool) (mx ty : nat) (st : list frame) (id : list Z) : spec :=
  Spec ty (Some (gname id)) None (map enc (map (pat_of sym) (firstn (mx - 1) st))).
Definition gbuild (sym : bool) (mx ty : nat) (st : list frame) (id : list Z) : building :=
  B ty (Some (gname id)) None (length st) (map enc (map (pat_of sym) (firstn (mx - 1) st))).
Lemma gfinish sym mx ty st id : (2 <= mx)%nat -> st <> [] -> finish (gbuild sym mx ty st id) = Some (gspec sym mx ty st id).
Proof.
  intros M NE. unfold finish, gbuild, gspec. cbn [b_frames b_type b_name b_instr].
  destruct (rev (map enc (map (pat_of sym) (firstn (mx - 1) st)))) as [|f l] eqn:Q.
  - exfalso. apply (f_equal (@length _)) in Q. rewrite rev_length, !map_length, firstn_length in Q. destruct st; [congruence|]. cbn in Q. lia.
  - assert (I : In f (map enc (map (pat_of sym) (firstn (mx - 1) st)))) by (apply in_rev; rewrite Q; left; auto).
    rewrite map_map in I. apply in_map_iff in I. destruct I as (g&<-&_). pose proof (pat_of_single sym g) as S. destruct (pat_of sym g); cbn in *; try contradiction; auto.
Qed.

Lemma type_line ty : (ty < 7)%nat -> get_suppress_type (nth ty suppress_name []) = Some ty /\
  Nat.eqb (length (nth ty suppress_name [])) 0 || (rd (nth ty suppress_name []) =? HASH) = false.
Proof. intros H. do 7 (destruct ty as [|ty]; [vm_compute; auto|]). lia. Qed.

Definition cur_ok (cur : option building) : option (list spec) :=
  match cur with None => Some [] | Some b => match finish b with Some sp => Some [sp] | None => None end end.
Lemma read_pattern sym mx ty st id ls cur acc fin : (ty < 7)%nat -> Forall (printable sym) st -> cur_ok cur = Some fin ->
  read_lines mx (write_suppress_pattern ty st sym id ++ ls) cur acc =
  read_lines mx ls (Some (gbuild sym mx ty st id)) (acc ++ fin).
Proof.
  intros T P CO. unfold write_suppress_pattern. cbn [app read_lines].
  destruct (type_line ty T) as (T1&T2). rewrite T2, T1.
  assert (X : match cur with
    | Some b => match finish b with
        | Some sp => read_lines mx ((chars "name=Error #" ++ id ++ chars " (update to meaningful name)") :: map (frame_line sym) st ++ ls) (Some (B ty None None 0 [])) (acc ++ [sp])
        | None => None end
    | None => read_lines mx ((chars "name=Error #" ++ id ++ chars " (update to meaningful name)") :: map (frame_line sym) st ++ ls) (Some (B ty None None 0 [])) acc
    end = read_lines mx ((chars "name=Error #" ++ id ++ chars " (update to meaningful name)") :: map (frame_line sym) st ++ ls) (Some (B ty None None 0 [])) (acc ++ fin)).
  { destruct cur as [b|]; cbn [cur_ok] in CO.
    - destruct (finish b); [|discriminate]. injection CO as <-. auto.
    - injection CO as <-. rewrite app_nil_r. auto. }
  etransitivity; [exact X|]. clear X. cbn [read_lines].
  assert (G : get_suppress_type (chars "name=Error #" ++ id ++ chars " (update to meaningful name)") = None) by reflexivity.
  rewrite G. cbn [chars app length rd Nat.eqb orb].
  match goal with |- context [add_line mx ?b ?l] => assert (A : add_line mx b l = Some (B ty (Some (gname id)) None 0 [])) by reflexivity; rewrite A end.
  match goal with |- context [(?x =? HASH)] => change (x =? HASH) with false end.
  match goal with |- context [(?x =? LBRACE)] => change (x =? LBRACE) with false end. cbv iota.
  rewrite read_frames by auto. rewrite addf_frames. cbn [b_num b_type b_name b_instr b_frames app]. rewrite Nat.sub_0_r. reflexivity.
Qed.

(** ---- matching generated specifications ---- *)
Lemma gmatch rm sym mx ty st id instr : Forall wf_frame st -> Forall (printable sym) st ->
  stack_matches_suppression rm instr st (gspec sym mx ty st id) = Ok true.
Proof.
  intros W P. unfold stack_matches_suppression, gspec. cbn [sp_instr sp_frames bind].
  destruct (exact_loop rm st W (mf_fuel st (map enc (map (pat_of sym) (firstn (mx - 1) st)))) (map (pat_of sym) (firstn (mx - 1) st))) as (b&E&H).
  - apply Forall_forall. intros p I. apply in_map_iff in I. destruct I as (f&<-&I). rewrite Forall_forall in P.
    assert (In f st) by (rewrite <- (firstn_skipn (mx - 1) st); apply in_or_app; auto). apply P; auto.
  - apply pats_simple.
  - apply fuel_ok.
  - rewrite E. f_equal. apply H. apply d_direct. apply pats_aligned.
Qed.
Lemma gdecides rm sym mx ty st id instr st' : Forall wf_frame st' -> Forall (printable sym) st ->
  exists b, stack_matches_suppression rm instr st' (gspec sym mx ty st id) = Ok b.
Proof.
  intros W P. unfold stack_matches_suppression, gspec. cbn [sp_instr sp_frames bind].
  apply (loop_terminates rm st' W (mf_fuel st' (map enc (map (pat_of sym) (firstn (mx - 1) st)))) 0 (map (pat_of sym) (firstn (mx - 1) st)) None).
  - apply Forall_forall. intros p I. apply in_map_iff in I. destruct I as (f&<-&I). rewrite Forall_forall in P.
    assert (In f st) by (rewrite <- (firstn_skipn (mx - 1) st); apply in_or_app; auto). apply P; auto.
  - exact I.
  - unfold sane. cbn. lia.
  - apply fuel_ok.
Qed.

Definition gspecs (syms offs : bool) (mx : nat) (e : err) : list spec :=
  let '(ty, st, id) := e in (if syms then [gspec true mx ty st id] else []) ++ (if offs then [gspec false mx ty st id] else []).
Lemma read_blank mx ls cur acc : read_lines mx ([] :: ls) cur acc = read_lines mx ls cur acc.
Proof. reflexivity. Qed.
Lemma read_hash mx l ls cur acc : read_lines mx ((HASH :: l) :: ls) cur acc = read_lines mx ls cur acc.
Proof. cbn [read_lines rd length]. change (HASH =? HASH) with true. rewrite orb_true_r. auto. Qed.

Lemma read_error syms offs mx e ls cur acc fin : syms || offs = true -> (2 <= mx)%nat -> err_ok syms offs e -> cur_ok cur = Some fin ->
  exists cur', read_lines mx (lines_of syms offs e ++ ls) cur acc = read_lines mx ls cur' (acc ++ fin ++ removelast (gspecs syms offs mx e)) /\
               cur_ok cur' = Some [last (gspecs syms offs mx e) (Spec 0 None None [])].
Proof.
  intros SO M OK CO. destruct e as [[ty st] id]. destruct OK as (T&NE&W&P1&P2). unfold lines_of, report_error_suppression, gspecs.
  assert (CL : chars "# Suppression for Error #" ++ id = HASH :: (chars " Suppression for Error #" ++ id)) by reflexivity.
  assert (CL2 : chars "## Mod+offs-style suppression for Error #" ++ id ++ chars ":" = HASH :: (chars "# Mod+offs-style suppression for Error #" ++ id ++ chars ":")) by reflexivity.
  rewrite CL, CL2. destruct syms, offs; try discriminate SO; cbn [negb andb app removelast last].
  - specialize (P1 eq_refl). specialize (P2 eq_refl). exists (Some (gbuild false mx ty st id)). rewrite read_hash. rewrite <- !app_assoc.
    rewrite (read_pattern true mx ty st id _ cur acc fin) by auto. cbn [app]. rewrite read_blank, read_hash. rewrite <- app_assoc.
    rewrite (read_pattern false mx ty st id _ _ _ [gspec true mx ty st id]); auto.
    2: { cbn [cur_ok]. rewrite gfinish; auto. }
    cbn [app]. rewrite read_blank, <- app_assoc. split; auto. cbn [cur_ok]. rewrite gfinish; auto.
  - specialize (P1 eq_refl). exists (Some (gbuild true mx ty st id)). rewrite read_hash. rewrite <- !app_assoc.
    rewrite (read_pattern true mx ty st id _ cur acc fin) by auto. cbn [app]. rewrite read_blank, app_nil_r. split; auto.
    cbn [cur_ok]. rewrite gfinish; auto.
  - specialize (P2 eq_refl). exists (Some (gbuild false mx ty st id)). rewrite read_hash. rewrite <- !app_assoc.
    rewrite (read_pattern false mx ty st id _ cur acc fin) by auto. cbn [app]. rewrite read_blank, app_nil_r. split; auto.
    cbn [cur_ok]. rewrite gfinish; auto.
Qed.
Lemma gspecs_ne syms offs mx e : syms || offs = true -> gspecs syms offs mx e <> [].
Proof. destruct e as [[? ?] ?]. destruct syms, offs; cbn; discriminate. Qed.

Lemma read_errors syms offs mx : syms || offs = true -> (2 <= mx)%nat -> forall es cur acc fin,
  Forall (err_ok syms offs) es -> cur_ok cur = Some fin ->
  read_lines mx (flat_map (lines_of syms offs) es) cur acc = Some (acc ++ fin ++ flat_map (gspecs syms offs mx) es).
Proof.
  intros SO M. induction es as [|e es IH]; intros cur acc fin F CO; cbn [flat_map].
  - rewrite app_nil_r. cbn [read_lines]. destruct cur as [b|]; cbn [cur_ok] in CO.
    + destruct (finish b); [|discriminate]. injection CO as <-. auto.
    + injection CO as <-. rewrite app_nil_r. auto.
  - inversion_clear F as [|? ? F1 F2]. destruct (read_error syms offs mx e (flat_map (lines_of syms offs) es) cur acc fin SO M F1 CO) as (cur'&E&CO').
    rewrite E. rewrite (IH cur' _ _ F2 CO'). f_equal. rewrite <- !app_assoc. f_equal. f_equal. rewrite app_assoc.
    rewrite <- app_removelast_last; auto. apply gspecs_ne; auto.
Qed.

Lemma on_list_found rm instr st l sp : (forall s, In s l -> exists b, stack_matches_suppression rm instr st s = Ok b) -> In sp l ->
  stack_matches_suppression rm instr st sp = Ok true -> exists sp', on_list rm instr st l = Ok (Some sp').
Proof.
  induction l as [|s l IH]; intros D I E; [destruct I|]. cbn [on_list]. destruct (D s (or_introl eq_refl)) as (b&B1). rewrite B1. cbn [bind].
  destruct b; eauto. destruct I as [->|I]; [congruence|]. apply IH; auto. intros s' I'. apply D; right; auto.
Qed.

Lemma generated rm syms offs mx es : syms || offs = true -> (2 <= mx)%nat -> Forall (err_ok syms offs) es ->
  exists specs, read_suppressions mx (flat_map (lines_of syms offs) es) = Some specs /\
    forall ty st id instr, In (ty, st, id) es -> exists sp, on_suppression_list rm (supp_list_of specs) ty instr st = Ok (Some sp).
Proof.
  intros SO M F. unfold read_suppressions. rewrite (read_errors syms offs mx SO M es None [] [] F eq_refl). cbn [app].
  eexists. split; [reflexivity|]. intros ty st id instr I. pose proof F as F'. rewrite Forall_forall in F'.
  pose proof (F' _ I) as (T&NE&W&P1&P2).
  unfold on_suppression_list.
  set (specs := flat_map (gspecs syms offs mx) es).
  assert (HD : forall s, In s (supp_list_of specs ty) -> exists b, stack_matches_suppression rm instr st s = Ok b).
  { intros s J. unfold supp_list_of in J. apply in_rev in J. apply filter_In in J. destruct J as (J&_).
    apply in_flat_map in J. destruct J as ([[ty' st'] id']&J1&J2). destruct (F' _ J1) as (T'&NE'&W'&P1'&P2'). cbn in J2. apply in_app_iff in J2.
    destruct J2 as [J2|J2]; [destruct syms|destruct offs]; cbn in J2; try contradiction; destruct J2 as [<-|[]]; apply gdecides; auto. }
  assert (HS : exists sp, In sp (supp_list_of specs ty) /\ stack_matches_suppression rm instr st sp = Ok true).
  { destruct syms.
    - exists (gspec true mx ty st id). split; [|apply gmatch; auto]. unfold supp_list_of. apply -> in_rev. apply filter_In. split; [|cbn; apply Nat.eqb_refl].
      apply in_flat_map. eexists. split; [exact I|]. cbn. auto.
    - destruct offs; [|discriminate]. exists (gspec false mx ty st id). split; [|apply gmatch; auto]. unfold supp_list_of. apply -> in_rev. apply filter_In. split; [|cbn; apply Nat.eqb_refl].
      apply in_flat_map. eexists. split; [exact I|]. cbn. auto. }
  destruct HS as (sp&I1&I2). destruct (on_list_found rm instr st _ sp HD I1 I2) as (sp'&E). rewrite E. cbn. eauto.
Qed.

(** ---- the list ---- *)
Lemma on_list_exact rm instr st l : (forall s, In s l -> exists b, stack_matches_suppression rm instr st s = Ok b) ->
  exists r, on_list rm instr st l = Ok r /\
    match r with
    | Some sp => exists l1 l2, l = l1 ++ sp :: l2 /\ stack_matches_suppression rm instr st sp = Ok true /\
                               forall s, In s l1 -> stack_matches_suppression rm instr st s = Ok false
    | None => forall s, In s l -> stack_matches_suppression rm instr st s = Ok false
    end.
Proof.
  induction l as [|s l IH]; intros D; cbn [on_list].
  - exists None. split; auto. intros s [].
  - destruct (D s (or_introl eq_refl)) as (b&B1). rewrite B1. cbn [bind]. destruct b.
    + exists (Some s). split; auto. exists [], l. repeat split; auto. intros s' [].
    + destruct IH as (r&E&H). { intros s' I. apply D; right; auto. }
      exists r. split; auto. destruct r as [sp|].
      * destruct H as (l1&l2&->&H1&H2). exists (s :: l1), l2. repeat split; auto. intros s' [<-|I]; auto.
      * intros s' [<-|I]; auto.
Qed.

Lemma decides rm instr st sp : Forall wf_frame st -> no_nul instr -> spec_ok sp -> exists b, stack_matches_suppression rm instr st sp = Ok b.
Proof.
  intros W NI ((ps&E&WP)&NP). unfold stack_matches_suppression.
  assert (X : exists b, match_frames (mf_fuel st (sp_frames sp)) rm st 0 (sp_frames sp) None = Ok b).
  { rewrite E. apply (loop_terminates rm st W _ 0 ps None); auto; [exact I|unfold sane; cbn; lia|apply fuel_ok]. }
  destruct (sp_instr sp) as [p|]; [|exact X].
  destruct (tm_ok instr p false NI NP) as (b&E1&_). rewrite E1. cbn [bind]. destruct b; [exact X|eauto].
Qed.
Lemma complete rm st ps ty nm : Forall wf_frame st -> Forall wf_pat ps -> only_plain ps -> described rm ps st ->
  forall instr, stack_matches_suppression rm instr st (Spec ty nm None (map enc ps)) = Ok true.
Proof. intros. unfold stack_matches_suppression. cbn [sp_instr sp_frames bind]. apply complete_loop; auto. apply fuel_ok. Qed.
Lemma exact_simple rm st ps ty nm instr ip : Forall wf_frame st -> Forall wf_pat ps -> simple ps -> no_nul instr -> (forall p, ip = Some p -> no_nul p) ->
  exists b, stack_matches_suppression rm instr st (Spec ty nm ip (map enc ps)) = Ok b /\
    (b = true <-> described rm ps st /\ forall p, ip = Some p -> same instr p).
Proof.
  intros W P S NI NP. unfold stack_matches_suppression. cbn [sp_instr sp_frames].
  destruct (exact_loop rm st W (mf_fuel st (map enc ps)) ps P S (fuel_ok st ps)) as (b&E&H).
  destruct ip as [p|].
  - destruct (tm_ok instr p false NI (NP p eq_refl)) as (c&E1&H1). rewrite E1. cbn [bind]. destruct c.
    + exists b. split; auto. rewrite H. split; [|tauto]. intros D. split; auto. intros q Q. injection Q as <-. apply H1; auto.
    + exists false. split; auto. split; [discriminate|]. intros (_&Q). specialize (Q p eq_refl). apply H1 in Q. discriminate.
  - exists b. split; auto. rewrite H. split; [|tauto]. intros D. split; auto. discriminate.
Qed.
Lemma list_ok rm supp ty instr st : Forall wf_frame st -> no_nul instr -> (forall t s, In s (supp t) -> spec_ok s) ->
  exists r, on_suppression_list rm supp ty instr st = Ok r /\
    let cands := supp ty ++ (if type_is_leak ty && negb (Nat.eqb ty ERROR_LEAK) then supp ERROR_LEAK else []) in
    match r with
    | Some sp => exists l1 l2, cands = l1 ++ sp :: l2 /\ stack_matches_suppression rm instr st sp = Ok true /\
                               forall s, In s l1 -> stack_matches_suppression rm instr st s = Ok false
    | None => forall s, In s cands -> stack_matches_suppression rm instr st s = Ok false
    end.
Proof.
  intros W NI OK. unfold on_suppression_list.
  destruct (on_list_exact rm instr st (supp ty)) as (r&E&H). { intros s I. apply decides; eauto. }
  rewrite E. cbn [bind]. destruct r as [sp|].
  - exists (Some sp). split; auto. cbv zeta. destruct H as (l1&l2&->&H1&H2). exists l1. eexists. rewrite <- app_assoc. cbn [app]. eauto.
  - destruct (type_is_leak ty && negb (Nat.eqb ty ERROR_LEAK)).
    + destruct (on_list_exact rm instr st (supp ERROR_LEAK)) as (r&E2&H2). { intros s I. apply decides; eauto. }
      rewrite E2. exists r. split; auto. cbv zeta. destruct r as [sp|].
      * destruct H2 as (l1&l2&->&H3&H4). exists (supp ty ++ l1), l2. rewrite <- app_assoc. repeat split; auto.
        intros s I. apply in_app_iff in I. destruct I; auto.
      * intros s I. apply in_app_iff in I. destruct I; auto.
    + exists None. split; auto. cbv zeta. rewrite app_nil_r. auto.
Qed.
Lemma not_same t p : no_nul t -> no_nul p -> tm t (Some p) false = Ok false -> ~ same t p.
Proof. intros A B E H. destruct (tm_ok t p false A B) as (b&E1&H1). apply H1 in H. congruence. Qed.
(** what a file can yield *)
Definition closed (sp : spec) : Prop := exists fs f, sp_frames sp = fs ++ [f] /\ s_ellipsis f = false.
Lemma finish_closed b sp : finish b = Some sp -> closed sp.
Proof.
  unfold finish. destruct (List.rev (b_frames b)) as [|f r] eqn:R; [discriminate|]. destruct (s_ellipsis f) eqn:E; [discriminate|]. intros [= <-].
  exists (List.rev r), f. split; [|exact E]. cbn [sp_frames]. rewrite <- (rev_involutive (b_frames b)), R. reflexivity.
Qed.
Lemma read_closed mx ls : forall cur acc l, Forall closed acc -> read_lines mx ls cur acc = Some l -> Forall closed l.
Proof.
  induction ls as [|x ls IH]; intros cur acc l A; cbn [read_lines].
  - destruct cur as [b|]; [|intros [= <-]; exact A]. destruct (finish b) as [sp|] eqn:F; [|discriminate]. intros [= <-]. apply Forall_app. split; [exact A|]. constructor; [eapply finish_closed; eauto|constructor].
  - destruct (_ || _); [apply IH; exact A|]. destruct (get_suppress_type x).
    + destruct cur as [b|]; [|apply IH; exact A]. destruct (finish b) as [sp|] eqn:F; [|discriminate]. apply IH. apply Forall_app. split; [exact A|]. constructor; [eapply finish_closed; eauto|constructor].
    + destruct (rd x =? LBRACE); [discriminate|]. destruct cur as [b|]; [|discriminate]. destruct (add_line mx b x); [apply IH; exact A|discriminate].
Qed.
