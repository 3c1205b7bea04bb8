(** Property C05: wildcard matching is exact and terminates. *)
From Verif Require Import Base Glob_Model Glob_Spec Glob_Proofs.
Open Scope Z_scope.

(** For every NUL-free text and pattern, both case modes and every folding
    function that keeps the terminator apart: the matcher terminates (enough
    fuel always gives [Ok]), never reads outside the strings ([Ok], not [UB]),
    and answers true exactly if the text matches the pattern. *)
Theorem C05_text_matches_pattern_exact : forall fold ic text pat fuel,
  fold_ok fold -> no_nul text -> no_nul pat ->
  (glob_fuel text pat <= fuel)%nat ->
  exists b, text_matches_pattern fold fuel text pat ic = Ok b /\
            (b = true <-> glob (eq_case fold ic) text pat).
Proof. intros fold ic text pat fuel H. exact (text_matches_pattern_ok fold H ic text pat fuel). Qed.
Print Assumptions C05_text_matches_pattern_exact.
(* text "abcabd", pattern "*ab?" needs backtracking; "A*" folds case *)
Example C05_text_matches_pattern_case :
  fold_ok ascii_tolower /\
  text_matches_pattern ascii_tolower 1000 [97;98;99;97;98;100] [42;97;98;63] false = Ok true /\
  text_matches_pattern ascii_tolower 1000 [97;98;99;97;98;100] [42;97;98;99] false = Ok false /\
  text_matches_pattern ascii_tolower 1000 [97;98] [65;42] true = Ok true.
Proof. split; [exact ascii_fold_ok|]. vm_compute. auto. Qed.

(** The list variant is true exactly if some pattern of the list matches. *)
Theorem C05_text_matches_any_pattern_exact : forall fold ic text ps fuel,
  fold_ok fold -> no_nul text ->
  (forall p, In p ps -> p <> [] /\ no_nul p /\ (glob_fuel text p <= fuel)%nat) ->
  exists b, text_matches_any_pattern fold fuel text (encode_list ps) ic = Ok b /\
            (b = true <-> exists p, In p ps /\ glob (eq_case fold ic) text p).
Proof. intros fold ic text ps fuel H. exact (text_matches_any_pattern_ok fold H ic text fuel ps). Qed.
Print Assumptions C05_text_matches_any_pattern_exact.
Example C05_text_matches_any_pattern_case :
  text_matches_any_pattern ascii_tolower 1000 [97;98] (encode_list [[98;42];[63;98]]) false = Ok true /\
  text_matches_any_pattern ascii_tolower 1000 [97;98] (encode_list [[98;42];[63;99]]) false = Ok false.
Proof. vm_compute. auto. Qed.
