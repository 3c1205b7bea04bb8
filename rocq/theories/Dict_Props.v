(** Properties C64 and C65: text files and dictionaries for fuzzing. *)
From Verif Require Import Base Dict_Model Dict_Spec Dict_Proofs Dict_Proofs2 Dict_Proofs3.
From Coq Require Import Permutation String Ascii.
Local Open Scope Z_scope.

(** * C64: lines of text files *)

(** Readers get each line that is not blank and not a comment, in order,
    without the white space around it, whichever way lines end; the last
    line may have no end, and then keeps what white space it ends with. *)
Theorem C64_lines : forall page ls last, 0 < page -> lines_ok ls -> tail_ok last ->
  let f := mkF (text ls last) page in (last <> [] \/ room f) ->
  lines f = Ok (filter keep (map (fun x => trim (fst x)) ls ++ [ltrim last])).
Proof. exact lines_run. Qed.
Print Assumptions C64_lines.

Definition str (s : string) : list Z :=
  map (fun c => Z.of_N (N_of_ascii c)) (list_ascii_of_string s).
Definition file1 : file :=
  mkF (str "# one" ++ [10] ++ str "  two words " ++ [13; 10; 13; 10; 10] ++ [9] ++ [10]
         ++ str "end ") 4096.
Example C64_case : lines file1 = Ok [str "two words"; str "end "].
Proof. vm_compute. reflexivity. Qed.
Example C64_case_hyps :
  f_bytes file1 =
    text [(str "# one", [10]); (str "  two words ", [13; 10; 13; 10; 10]); ([9], [10])]
         (str "end ") /\
  lines_ok [(str "# one", [10]); (str "  two words ", [13; 10; 13; 10; 10]); ([9], [10])] /\
  tail_ok (str "end ").
Proof.
  split; [reflexivity|]. split.
  - assert (C : forall c, forallb (fun b => negb (b =? 10) && negb (b =? 0)) c = true ->
      c <> [] -> (match c with b :: _ => negb (b =? 13) | [] => true end) = true ->
      (match rev c with b :: _ => negb (b =? 13) | [] => true end) = true -> content c).
    { intros c H1 H2 H3 H4. split; [auto|]. split; [|split].
      - apply Forall_forall. intros b Hb. rewrite forallb_forall in H1. specialize (H1 b Hb).
        unfold char_ok. lia.
      - intros b r ->. lia.
      - intros b r E. rewrite E in H4. lia. }
    constructor; [|constructor; [|constructor; [|constructor]]]; cbn [fst snd];
      (split; [apply C; [reflexivity|discriminate|reflexivity..]|]).
    + exists []. split; [constructor|auto].
    + exists [13; 10; 10]. split; [repeat (constructor; [lia|]); constructor|auto].
    + exists []. split; [constructor|auto].
  - change (str "end ") with [101; 110; 100; 32]. split.
    + repeat (constructor; [unfold char_ok; lia|]). constructor.
    + intros b r E. injection E as <- _. lia.
Qed.

(** An empty first line: the byte before the file is read. *)
Theorem C64_first_refuted : forall r page, 0 < page -> lines (mkF (10 :: r) page) = UB.
Proof. exact blank_first. Qed.
Print Assumptions C64_first_refuted.

(** A file that ends with the end of a line and with the page: the byte after
    the mapping is read. *)
Theorem C64_page_refuted : forall page ls, 0 < page -> ls <> [] -> lines_ok ls ->
  let f := mkF (text ls []) page in eof f mod page = 0 -> lines f = UB.
Proof. exact page_end. Qed.
Print Assumptions C64_page_refuted.
Example C64_page_case : lines (mkF (str "abc" ++ [10]) 4) = UB /\
  lines (mkF (str "abc" ++ [10]) 8) = Ok [str "abc"].
Proof. split; vm_compute; reflexivity. Qed.

(** White space after the last line is not removed if it has no end. *)
Theorem C64_last_refuted : exists c, trim c <> c /\
  lines (mkF c 4096) = Ok [c] /\ lines (mkF (c ++ [10]) 4096) = Ok [trim c].
Proof.
  exists (str "ab "). split; [discriminate|]. split; vm_compute; reflexivity.
Qed.
Print Assumptions C64_last_refuted.

(** * C65: dictionaries *)

(** A dictionary of any number of lines name="token", blank lines and
    comments gives its tokens in order, with escapes replaced, and nothing is
    written past a token's room. *)
Theorem C65_tokens : forall scan page es, scan_ok scan -> 0 < page -> Forall entry_ok es ->
  let f := mkF (text (map line_of es) []) page in room f ->
  parse_dict scan f = Ok (true, numbered (tokens es), List.length (tokens es), []).
Proof. intros scan page es SC. exact (dict_good scan SC page es). Qed.
Print Assumptions C65_tokens.

(** Also without an end of the last line. *)
Theorem C65_last : forall scan page es lead name ps, scan_ok scan -> 0 < page ->
  Forall entry_ok es -> Forall ws lead -> name_ok name -> Forall piece_ok ps ->
  len (enc ps) < 65535 ->
  parse_dict scan (mkF (text (map line_of es) (lead ++ name ++ 34 :: enc ps ++ [34])) page) =
  Ok (true, numbered (tokens es ++ [val ps]), S (List.length (tokens es)), []).
Proof. intros scan page es lead name ps SC. exact (dict_last scan SC page es lead name ps). Qed.
Print Assumptions C65_last.

(** A line with an escape that is not one is refused, and every token that was
    allocated is freed once. *)
Theorem C65_escape : forall scan page es lead name ps x more trail t rest, scan_ok scan ->
  0 < page -> Forall entry_ok es -> Forall ws lead -> name_ok name -> Forall piece_ok ps ->
  Forall char_ok (x :: more) -> x <> 120 -> x <> 34 -> x <> 92 -> Forall ws trail -> term t ->
  len (enc ps ++ 92 :: x :: more) < 65535 ->
  let c := lead ++ name ++ 34 :: (enc ps ++ 92 :: x :: more) ++ 34 :: trail in
  let f := mkF (text (map line_of es) (c ++ t ++ rest)) page in
  (rest <> [] \/ room f) -> (forall b r, rest = b :: r -> b <> 10 /\ b <> 13) ->
  (exists v fr, parse_dict scan f = Ok (false, v, S (List.length (tokens es)), fr)) /\
  exists l, freed scan f = Ok l /\ Permutation l (seq 0 (S (List.length (tokens es)))).
Proof.
  intros scan page es lead name ps x more trail t rest SC H1 H2 H3 H4 H5 H6 H7 H8 H9 H10 H11 H12
    c f H13 H14.
  pose proof (dict_bad_escape scan SC page es lead name ps x more trail t rest
                H1 H2 H3 H4 H5 H6 H7 H8 H9 H10 H11 H12 H13 H14) as Q.
  fold c in Q. fold f in Q. split.
  - eexists. eexists. exact Q.
  - unfold freed. rewrite Q. cbn [bind]. eexists. split; [reflexivity|].
    rewrite fst_numbered, seq_S. cbn [app plus]. apply Permutation_cons_append.
Qed.
Print Assumptions C65_escape.

(** A line that does not end with a quote is refused.  But then, if there
    were tokens before it, the last of them is freed twice. *)
Theorem C65_unterminated : forall scan page es c t rest x y, scan_ok scan -> 0 < page ->
  Forall entry_ok es -> content c -> term t ->
  let f := mkF (text (map line_of es) (c ++ t ++ rest)) page in
  (rest <> [] \/ room f) -> (forall b r, rest = b :: r -> b <> 10 /\ b <> 13) ->
  keep (trim c) = true -> (forall m, trim c <> m ++ [34]) ->
  c ++ t ++ rest = x ++ 34 :: y -> Forall (fun b => b <> 34) x ->
  exists v n fr, parse_dict scan f = Ok (false, v, n, fr).
Proof.
  intros scan page es c t rest x y SC H1 H2 H3 H4 f H5 H6 H7 H8 H9 H10.
  do 3 eexists. exact (dict_unterminated scan SC page es c t rest x y H1 H2 H3 H4 H5 H6 H7 H8 H9 H10).
Qed.
Print Assumptions C65_unterminated.
Theorem C65_free_refuted : forall scan page es c t rest x y, scan_ok scan -> 0 < page ->
  Forall entry_ok es -> content c -> term t ->
  let f := mkF (text (map line_of es) (c ++ t ++ rest)) page in
  (rest <> [] \/ room f) -> (forall b r, rest = b :: r -> b <> 10 /\ b <> 13) ->
  keep (trim c) = true -> (forall m, trim c <> m ++ [34]) ->
  c ++ t ++ rest = x ++ 34 :: y -> Forall (fun b => b <> 34) x -> tokens es <> [] ->
  exists l, freed scan f = Ok l /\ ~ NoDup l.
Proof.
  intros scan page es c t rest x y SC H1 H2 H3 H4 f H5 H6 H7 H8 H9 H10 H11.
  pose proof (dict_unterminated scan SC page es c t rest x y H1 H2 H3 H4 H5 H6 H7 H8 H9 H10) as Q.
  fold f in Q. unfold freed. cbv zeta in Q. rewrite Q. cbn [bind].
  destruct (List.length (tokens es)) as [|j] eqn:L.
  { destruct (tokens es); [congruence|discriminate]. }
  eexists. split; [reflexivity|]. rewrite fst_numbered, L. cbn [app].
  intros ND. inversion ND as [|? ? N _]; subst. apply N. apply (proj2 (in_seq (S j) 0 j)). lia.
Qed.
Print Assumptions C65_free_refuted.

(** A line with no quote, if there is none after it either: the search goes on
    past the mapping. *)
Theorem C65_quote_refuted : forall scan page es c t rest, scan_ok scan -> 0 < page ->
  Forall entry_ok es -> content c -> term t ->
  let f := mkF (text (map line_of es) (c ++ t ++ rest)) page in
  (rest <> [] \/ room f) -> (forall b r, rest = b :: r -> b <> 10 /\ b <> 13) ->
  keep (trim c) = true -> Forall (fun b => b <> 34) (c ++ t ++ rest) ->
  parse_dict scan f = UB.
Proof. intros scan page es c t rest SC. exact (dict_no_quote scan SC page es c t rest). Qed.
Print Assumptions C65_quote_refuted.

(** A line whose only quote is its last character: the token is allocated
    with a size of -1. *)
Theorem C65_lone_refuted : forall scan page es lead name trail t rest, scan_ok scan ->
  0 < page -> Forall entry_ok es -> Forall ws lead -> name_ok name -> Forall ws trail -> term t ->
  let f := mkF (text (map line_of es) ((lead ++ name ++ 34 :: trail) ++ t ++ rest)) page in
  (rest <> [] \/ room f) -> (forall b r, rest = b :: r -> b <> 10 /\ b <> 13) ->
  parse_dict scan f = UB.
Proof.
  intros scan page es lead name trail t rest SC.
  exact (dict_lone scan SC page es lead name trail t rest).
Qed.
Print Assumptions C65_lone_refuted.

(** cases *)
Definition scan2 (l : list Z) : option Z :=
  match l with
  | d1 :: d2 :: _ =>
      match hexval d1, hexval d2 with Some x, Some y => Some (16 * x + y) | _, _ => None end
  | _ => None
  end.
Example scan2_ok : scan_ok scan2.
Proof. intros d1 d2 x y r H1 H2. cbn. rewrite H1, H2. reflexivity. Qed.
Definition es1 : list entry :=
  [Skip (str "# tokens") [10];
   Tok (str " ") (str "kw1=") [Raw 97; Hex 48 65; Esc 34; Raw 34; Esc 92; Hex 102 102] (str " ")
       [13; 10; 10];
   Tok [] [] [] [] [10]].
Definition file2 : file := mkF (text (map line_of es1) []) 4096.
Example C65_case_text : f_bytes file2 =
  str "# tokens" ++ [10] ++ str " kw1=" ++ [34] ++ str "a\x0A\" ++ [34; 34] ++ str "\\\xff"
    ++ [34] ++ str " " ++ [13; 10; 10] ++ [34; 34; 10].
Proof. reflexivity. Qed.
Example C65_case : parse_dict scan2 file2 =
  Ok (true, [(0%nat, [97; 10; 34; 34; 92; 255]); (1%nat, [])], 2%nat, []).
Proof. vm_compute. reflexivity. Qed.
Example C65_case_escape : freed scan2 (mkF (f_bytes file2 ++ [34] ++ str "a\n" ++ [34; 10]) 4096) =
  Ok [2%nat; 0%nat; 1%nat].
Proof. vm_compute. reflexivity. Qed.
Example C65_case_free : freed scan2 (mkF (f_bytes file2 ++ [34] ++ str "abc" ++ [10]) 4096) =
  Ok [1%nat; 0%nat; 1%nat].
Proof. vm_compute. reflexivity. Qed.
Example C65_case_quote : parse_dict scan2 (mkF (str "abc" ++ [10]) 64) = UB.
Proof. vm_compute. reflexivity. Qed.
Example C65_case_lone : parse_dict scan2 (mkF (str "abc=" ++ [34; 10]) 64) = UB.
Proof. vm_compute. reflexivity. Qed.
