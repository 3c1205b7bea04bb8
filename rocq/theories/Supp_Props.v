(** Property C28: suppressions match exactly the call stacks they describe. *)
From Coq Require Import String.
From Verif Require Import Base Glob_Model Glob_Spec Supp_Model Supp_Spec Supp_Proofs1 Supp_Proofs2 Supp_Proofs3 Supp_Proofs4.
Open Scope Z_scope.
Open Scope list_scope.

(** example frames *)
Definition fm (m f : string) : frame := Fr true (chars m) (chars "0x10") (chars f).
Definition sysc : frame := Fr false [] [] (chars "system call read").
Definition mf (m f : string) : pat := ModFunc (chars m) (chars f).
Ltac nonul := let H := fresh in intros H; vm_compute in H; repeat destruct H as [H|H]; try discriminate; auto.
Ltac wff := repeat constructor; cbn; try nonul; try (intros; discriminate).
Lemma fm_wf m f : no_nul (chars m) -> no_nul (chars f) -> wf_frame (fm m f).
Proof. intros. repeat split; auto; cbn; try nonul; discriminate. Qed.

(** Matching terminates without touching a NULL string, whatever the
    suppression and the stack. *)
Theorem C28_matching_terminates : forall rm instr st sp, Forall wf_frame st -> no_nul instr -> spec_ok sp ->
  exists b, stack_matches_suppression rm instr st sp = Ok b.
Proof. exact decides. Qed.
Print Assumptions C28_matching_terminates.
Example C28_matching_terminates_case :
  stack_matches_suppression true [] [fm "a" "f"; fm "a" "g"; sysc; fm "b" "h"; fm "b" "h"]
    (Spec 0 None None (map enc [Ellipsis; ModEllipsis (chars "a"); AnyFrame; Ellipsis; mf "b" "h"; mf "b" "z"])) = Ok false.
Proof. vm_compute. auto. Qed.

(** Nothing that is described is missed, with any number of "..." frames: the
    error is suppressed. *)
Theorem C28_described_is_suppressed : forall rm st ps ty nm,
  Forall wf_frame st -> Forall wf_pat ps -> only_plain ps -> described rm ps st ->
  forall instr, stack_matches_suppression rm instr st (Spec ty nm None (map enc ps)) = Ok true.
Proof. exact complete. Qed.
Print Assumptions C28_described_is_suppressed.
Example C28_described_case :
  described true [Ellipsis; mf "m" "A"; mf "m" "B"; Ellipsis; mf "n" "*"] [fm "m" "A"; fm "m" "A"; fm "m" "B"; sysc; fm "n" "x"; sysc] /\
  only_plain [Ellipsis; mf "m" "A"; mf "m" "B"; Ellipsis; mf "n" "*"] /\
  stack_matches_suppression true [] [fm "m" "A"; fm "m" "A"; fm "m" "B"; sysc; fm "n" "x"; sysc]
     (Spec 0 None None (map enc [Ellipsis; mf "m" "A"; mf "m" "B"; Ellipsis; mf "n" "*"])) = Ok true.
Proof.
  split; [|split; [cbn; repeat split; discriminate|vm_compute; auto]].
  apply d_direct. apply (al_ellipsis _ [fm "m" "A"]). constructor. { split; [split; [auto|apply glob_refl]|apply glob_refl]. }
  constructor. { split; [split; [auto|apply glob_refl]|apply glob_refl]. }
  apply (al_ellipsis _ [sysc]). constructor; [|constructor]. split; [split; [auto|apply glob_refl]|]. apply (glob_star _ [_] [] []). constructor.
Qed.

(** For suppressions in which every "..." is followed by one frame before the
    next "..." or the end (and "m!..." comes first and is followed by a frame
    outside m) the answer is exact, including prefix matching, the instruction=
    restriction and the handling of Dr. Memory's own replace_ frame. *)
Theorem C28_exact : forall rm st ps ty nm instr ip,
  Forall wf_frame st -> Forall wf_pat ps -> simple ps -> no_nul instr -> (forall p, ip = Some p -> no_nul p) ->
  exists b, stack_matches_suppression rm instr st (Spec ty nm ip (map enc ps)) = Ok b /\
    (b = true <-> described rm ps st /\ forall p, ip = Some p -> same instr p).
Proof. exact exact_simple. Qed.
Print Assumptions C28_exact.
Example C28_exact_case :
  simple [mf "m" "A"; ModEllipsis (chars "k"); mf "n" "x"; Ellipsis; mf "n" "y"] /\
  (let sp := Spec 0 None (Some (chars "mov*")) (map enc [mf "m" "A"; ModEllipsis (chars "k"); mf "n" "x"; Ellipsis; mf "n" "y"]) in
   stack_matches_suppression true (chars "mov eax") [fm "m" "A"; fm "k" "1"; fm "k" "2"; fm "n" "x"; sysc; fm "n" "y"; sysc] sp = Ok true /\
   stack_matches_suppression true (chars "add eax") [fm "m" "A"; fm "k" "1"; fm "k" "2"; fm "n" "x"; sysc; fm "n" "y"; sysc] sp = Ok false /\
   stack_matches_suppression true (chars "mov eax") [fm "m" "A"; fm "k" "1"; sysc; fm "n" "x"; sysc; fm "n" "y"; sysc] sp = Ok false /\
   stack_matches_suppression true (chars "mov eax") [fm "libdrmemorylib.so" "replace_malloc"; fm "m" "A"; fm "k" "1"; fm "n" "x"; fm "n" "y"] sp = Ok true).
Proof.
  split; [|vm_compute; auto].
  constructor; [exact I|]. apply si_mod.
  - intros f (_&K) ((_&N)&_). 
    assert (X : f_modname f = chars "k") by (inversion K as [| | |? ? ? ? ? E G]; subst; inversion G; subst; unfold eq_case in E; subst; auto).
    rewrite X in N. revert N. apply not_same; try nonul. reflexivity.
  - apply oa_more; [exact I|]. apply oa_last. exact I.
Qed.

(** Reading: the documented text of a frame is stored as that frame. *)
Theorem C28_parse_exact : forall ty p, readable p -> parse_line ty (text p) = PFrame (enc p).
Proof. exact parse_ok. Qed.
Print Assumptions C28_parse_exact.
Example C28_parse_exact_case :
  parse_line 0 (chars "lib.so!operator<<") = PFrame (enc (mf "lib.so" "operator<<")) /\
  parse_line 0 (chars "<lib.so+0x4af>") = PFrame (enc (ModOffs (chars "lib.so") (chars "0x4af"))) /\
  parse_line 0 (chars "lib.so!...") = PFrame (enc (ModEllipsis (chars "lib.so"))) /\
  parse_line 0 (chars "...") = PFrame (enc Ellipsis) /\ parse_line 0 (chars "oops") = PBad.
Proof. vm_compute. auto 10. Qed.

(** The first entry of the list for the error's type that matches is used
    (qualified leak types fall back to the LEAK list), and none is used only if
    none matches. *)
Theorem C28_list_exact : forall rm supp ty instr st,
  Forall wf_frame st -> no_nul instr -> (forall t s, In s (supp t) -> spec_ok s) ->
  exists r, on_suppression_list rm supp ty instr st = Ok r /\
    let cands := supp ty ++ (if type_is_leak ty && negb (Nat.eqb ty ERROR_LEAK) then supp ERROR_LEAK else []) in
    match r with
    | Some sp => exists l1 l2, cands = l1 ++ sp :: l2 /\ stack_matches_suppression rm instr st sp = Ok true /\
                               forall s, In s l1 -> stack_matches_suppression rm instr st s = Ok false
    | None => forall s, In s cands -> stack_matches_suppression rm instr st s = Ok false
    end.
Proof. exact list_ok. Qed.
Print Assumptions C28_list_exact.
Example C28_list_exact_case :
  let s1 := Spec 4 None None (map enc [mf "m" "A"]) in let s2 := Spec 4 None None (map enc [mf "m" "*"]) in
  let supp := fun t => if Nat.eqb t 4 then [s1; s2] else [] in
  on_suppression_list true supp ERROR_POSSIBLE_LEAK [] [fm "m" "B"] = Ok (Some s2) /\
  on_suppression_list true supp ERROR_UNDEFINED [] [fm "m" "B"] = Ok None.
Proof. vm_compute. auto. Qed.

(** The suppressions Dr. Memory writes to suppress.txt, read back, suppress
    every error they were written for. *)
Theorem C28_generated_suppresses : forall rm syms offs max_frames es,
  syms || offs = true -> (2 <= max_frames)%nat -> Forall (err_ok syms offs) es ->
  exists specs, read_suppressions max_frames (flat_map (lines_of syms offs) es) = Some specs /\
    forall ty st id instr, In (ty, st, id) es ->
      exists sp, on_suppression_list rm (supp_list_of specs) ty instr st = Ok (Some sp).
Proof. exact generated. Qed.
Print Assumptions C28_generated_suppresses.
Definition e1 : err := (4%nat, [fm "a.so" "f"; fm "b.so" "?"; Fr false [] [] (chars "<not in a module>")], chars "1").
Definition e2 : err := (1%nat, [sysc; fm "b.so" "operator*"], chars "2").
Example C28_generated_case :
  Forall (err_ok true true) [e1; e2] /\
  match read_suppressions 20 (flat_map (lines_of true true) [e1; e2]) with
  | Some specs => length specs = 4%nat /\
      (exists sp, on_suppression_list true (supp_list_of specs) 4 [] (snd (fst e1)) = Ok (Some sp)) /\
      (exists sp, on_suppression_list true (supp_list_of specs) 1 [] (snd (fst e2)) = Ok (Some sp)) /\
      on_suppression_list true (supp_list_of specs) 1 [] (snd (fst e1)) = Ok None
  | None => False
  end.
Proof.
  assert (NP : forall p s, starts p s = false -> ~ prefix_of p s) by (intros p s H K; apply starts_ok in K; congruence).
  assert (NI : forall c l, existsb (Z.eqb c) l = false -> ~ In c l).
  { intros c l H K. assert (existsb (Z.eqb c) l = true); [|congruence]. apply existsb_exists. exists c. split; auto. apply Z.eqb_refl. }
  assert (RF : forall m f, existsb (Z.eqb BANG) m = false -> starts (chars "<") m = false -> starts (chars "...") f = false ->
     starts (chars "name=") (text (ModFunc m f)) = false -> starts (chars "instruction=") (text (ModFunc m f)) = false -> readable (ModFunc m f)).
  { intros. split; [|split; apply NP; auto]. split; [auto|split; apply NP; auto]. }
  assert (RO : forall m, existsb (Z.eqb BANG) m = false -> existsb (Z.eqb PLUS) m = false -> existsb (Z.eqb GT) m = false ->
     readable (ModOffs m (chars "0x10"))).
  { intros. split; [|split; apply NP; reflexivity]. repeat split; auto; try (apply NI; reflexivity). exists 49, [48]. reflexivity. }
  assert (PS : forall sym, printable sym sysc).
  { intros sym. split; [|split; [|split; [destruct sym; reflexivity|destruct sym; vm_compute; repeat split; discriminate]]].
    - split; [|split; apply NP; destruct sym; reflexivity]. right. repeat split; try (apply NI; reflexivity). exists [], (chars "read"). reflexivity.
    - split; [nonul|]. apply not_same; [nonul|nonul|reflexivity]. }
  assert (PN : forall sym, printable sym (Fr false [] [] (chars "<not in a module>"))).
  { intros sym. split; [|split; [|split; [destruct sym; reflexivity|destruct sym; vm_compute; repeat split; discriminate]]].
    - split; [left; reflexivity|split; apply NP; destruct sym; reflexivity].
    - split; [nonul|]. apply not_same; [nonul|nonul|reflexivity]. }
  split.
  - constructor; [|constructor; [|constructor]]; (split; [lia|split; [discriminate|split; [|split; intros _]]]).
    all: repeat (apply Forall_cons || apply Forall_nil); auto; try (apply fm_wf; nonul); try (repeat split; auto; cbn; nonul; fail);
      (split; [first [apply RF|apply RO]; reflexivity|split; [split; cbn; nonul|vm_compute; repeat split; discriminate]]).
  - vm_compute. repeat split; eexists; reflexivity.
Qed.

(** ---- decided exceptions ---- *)
Ltac inv H := inversion H; subst; clear H.

(** "... A B" matches A C B although A is not followed by B. *)
Theorem C28_ellipsis_refuted : exists ps st, Forall wf_frame st /\ Forall wf_pat ps /\ only_plain ps /\
  stack_matches_suppression true [] st (Spec 0 None None (map enc ps)) = Ok true /\ ~ described true ps st.
Proof.
  exists [Ellipsis; mf "m" "A"; mf "m" "B"], [fm "m" "A"; fm "m" "C"; fm "m" "B"].
  split; [repeat (apply Forall_cons || apply Forall_nil); apply fm_wf; nonul|].
  split; [repeat (apply Forall_cons || apply Forall_nil); cbn; auto; split; nonul|].
  split; [cbn; split; auto; discriminate|]. split; [reflexivity|].
  assert (CB : ~ same (chars "C") (chars "B")) by (apply not_same; [nonul|nonul|reflexivity]).
  assert (CA : ~ same (chars "C") (chars "A")) by (apply not_same; [nonul|nonul|reflexivity]).
  assert (BA : ~ same (chars "B") (chars "A")) by (apply not_same; [nonul|nonul|reflexivity]).
  intros D. inv D; [|cbn in *; tauto|discriminate]. apply al_ell_inv in H. destruct H as (fs&st'&E&A).
  destruct fs as [|f1 [|f2 [|f3 [|f4 fs]]]]; cbn in E; try discriminate; inv E; apply al_single_inv in A; try exact I;
    destruct A as (f&r&E&D1&A); inv E; destruct D1 as (_&D1); cbn in D1; try contradiction.
  apply al_single_inv in A; try exact I. destruct A as (f&r&E&D2&A). inv E. destruct D2 as (_&D2). cbn in D2. contradiction.
Qed.
Print Assumptions C28_ellipsis_refuted.

(** "m!..." is documented to need at least one frame of m; it accepts none. *)
Theorem C28_module_ellipsis_zero_refuted : exists ps st, Forall wf_frame st /\ Forall wf_pat ps /\
  stack_matches_suppression true [] st (Spec 0 None None (map enc ps)) = Ok true /\ ~ described true ps st.
Proof.
  exists [ModEllipsis (chars "m"); mf "m" "f"], [fm "m" "f"].
  assert (ME : ~ same [] (chars "m")) by (apply not_same; [nonul|nonul|reflexivity]).
  split; [repeat (apply Forall_cons || apply Forall_nil); apply fm_wf; nonul|].
  split; [repeat (apply Forall_cons || apply Forall_nil); cbn; auto; split; auto; nonul|].
  split; [reflexivity|].
  intros D. inv D; [| |discriminate].
  - match goal with H : aligned (ModEllipsis _ :: _) _ |- _ => inversion H; subst end; [cbn in *; tauto|].
    destruct fs; [|discriminate]. cbn in *. subst.
    match goal with H : aligned (mf _ _ :: _) [] |- _ => apply al_nil_inv in H; [auto|exact I] end.
  - match goal with H : tool_frame _ |- _ => destruct H as (T&_) end. revert T. apply not_same; [nonul|nonul|reflexivity].
Qed.
Print Assumptions C28_module_ellipsis_zero_refuted.

(** "m!..." can miss a stack that is described. *)
Theorem C28_module_ellipsis_missed_refuted : exists ps st, Forall wf_frame st /\ Forall wf_pat ps /\ aligned ps st /\
  stack_matches_suppression true [] st (Spec 0 None None (map enc ps)) = Ok false.
Proof.
  exists [ModEllipsis (chars "m"); mf "*" "*"; mf "n" "f"], [fm "m" "a"; fm "m" "b"; fm "k" "c"; fm "n" "f"].
  assert (ME : ~ same [] (chars "m")) by (apply not_same; [nonul|nonul|reflexivity]).
  split; [repeat (apply Forall_cons || apply Forall_nil); apply fm_wf; nonul|].
  split; [repeat (apply Forall_cons || apply Forall_nil); cbn; auto; split; auto; nonul|].
  split; [|reflexivity].
  assert (ST : forall t, same t (chars "*")) by (intros t; unfold same; rewrite <- (app_nil_r t); apply glob_star; constructor).
  apply (al_mod _ _ _ [fm "m" "b"]); [split; auto; apply glob_refl|constructor; [split; auto; apply glob_refl|constructor]|].
  constructor; [split; [split; auto|auto]|]. constructor; [split; [split; auto; apply glob_refl|apply glob_refl]|]. constructor.
Qed.
Print Assumptions C28_module_ellipsis_missed_refuted.

(** "*!..." also swallows frames that are in no module ("*!*" does not). *)
Theorem C28_module_ellipsis_nomodule_refuted : exists st, Forall wf_frame st /\
  stack_matches_suppression true [] st (Spec 0 None None (map enc [ModEllipsis (chars "*"); mf "n" "f"])) = Ok true /\
  ~ described true [ModEllipsis (chars "*"); mf "n" "f"] st.
Proof.
  exists [sysc; fm "n" "f"].
  split; [repeat (apply Forall_cons || apply Forall_nil); [repeat split; auto; cbn; nonul|apply fm_wf; nonul]|].
  split; [reflexivity|]. intros D. inv D; [| |discriminate].
  - match goal with H : aligned (ModEllipsis _ :: _) _ |- _ => inversion H; subst end; [cbn in *; tauto|].
    match goal with H : in_module _ sysc |- _ => destruct H; discriminate end.
  - match goal with H : tool_frame _ |- _ => destruct H as (T&_) end. revert T. apply not_same; [nonul|nonul|reflexivity].
Qed.
Print Assumptions C28_module_ellipsis_nomodule_refuted.

(** The generated <module+offset> suppression of a frame in libstdc++.so is
    rejected as malformed when read back: the parser cuts at the first '+'. *)
Theorem C28_generated_offset_refuted : exists st, Forall wf_frame st /\ st <> [] /\
  read_suppressions 20 (lines_of false true (ERROR_LEAK, st, chars "1")) = None.
Proof.
  exists [fm "libstdc++.so.6" "f"]. split; [repeat (apply Forall_cons || apply Forall_nil); apply fm_wf; nonul|].
  split; [discriminate|reflexivity].
Qed.
Print Assumptions C28_generated_offset_refuted.

(** Whatever the file, every suppression accepted has a frame and its last frame is
    not an ellipsis. *)
Theorem C28_read_closed : forall max_frames lines l, read_suppressions max_frames lines = Some l ->
  Forall (fun sp => exists fs f, sp_frames sp = fs ++ [f] /\ s_ellipsis f = false) l.
Proof. intros mx ls l H. exact (read_closed mx ls None [] l (Forall_nil _) H). Qed.
Print Assumptions C28_read_closed.
Example C28_read_closed_case :
  read_suppressions 20 [chars "LEAK"; chars "m!f"; chars "..."] = None /\ read_suppressions 20 [chars "LEAK"; chars "m!f"; chars "m!..."] = None /\
  read_suppressions 20 [chars "LEAK"; chars "UNINITIALIZED READ"; chars "m!f"] = None /\
  option_map (@List.length spec) (read_suppressions 20 [chars "LEAK"; chars "..."; chars "m!f"]) = Some 1%nat.
Proof. vm_compute. auto. Qed.
