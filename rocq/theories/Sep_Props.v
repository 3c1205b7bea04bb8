(** C66: which errors are separated as merely potential ones. *)
From Coq Require Import String Ascii.
From Verif Require Import Base Glob_Model Glob_Spec Glob_Proofs Sep_Model Sep_Spec Sep_Proofs Sep_Proofs2.
Open Scope Z_scope.

(** The options [o] hold the lists [L], the list for uninitialized reads and
    the name of the tool's library. *)
Definition holds_lists (o : opts) (L : lists) (uninit : list (list Z)) : Prop :=
  set_to (l_block L) (o_block o) /\ set_to (l_block_default L) (o_block_default o) /\
  set_to (l_allow L) (o_allow o) /\ set_to (l_src L) (o_src o) /\ set_to uninit (o_uninit o) /\
  no_nul (o_tool o) /\ o_block_frames o = l_block_n L /\ o_allow_frames o = l_allow_n L /\
  o_src_frames o = l_src_n L.

Definition clean (ws : list where_) : Prop := forall w t, In w ws -> In t (texts w) -> no_nul t.

(** A list of patterns with commas between them, none of them empty, is split
    into just these: a text is found on it exactly if it matches one, and the
    list counts as given exactly if it has one. *)
Theorem C66_list : forall fold ic text ps x y rest, fold_ok fold -> no_nul text ->
  (forall p, In p ps -> entry p) ->
  exists buf, convert_commas_to_nulls (typed ps ++ 0 :: x :: y :: rest) = Ok buf /\
  nonempty buf = Ok (match ps with [] => false | _ => true end) /\
  exists n0, forall fuel, (n0 <= fuel)%nat ->
  exists b, text_matches_any_pattern fold fuel text buf ic = Ok b /\
    (b = true <-> on (eq_case fold ic) ps text).
Proof. exact list_any. Qed.
Print Assumptions C66_list.

(** Errors are separated exactly as documented. *)
Theorem C66_errors : forall fold o L uninit ws, fold_ok fold -> holds_lists o L uninit -> clean ws ->
  exists n0, forall fuel, (n0 <= fuel)%nat ->
  exists fs, symbolize_all fold fuel o (map mk ws) = Ok fs /\
  forall potential,
  exists b s, error_is_likely_false_positive fold fuel o potential fs = Ok b /\
    (s = 1%nat /\ ignored_top (eq_case fold (o_caseless o)) (o_tool o) ws \/
     s = 0%nat /\ ~ ignored_top (eq_case fold (o_caseless o)) (o_tool o) ws) /\
    (b = true <-> potential = true \/ separated (eq_case fold (o_caseless o)) L s ws).
Proof.
  intros fold o L uninit ws F (Hb & Hd & Ha & Hs & Hu & Ht & Nb & Na & Ns) C.
  exact (error_ok fold F o L uninit (set_holds _ _ Hb) (set_holds _ _ Hd) (set_holds _ _ Ha)
    (set_holds _ _ Hs) (set_holds _ _ Hu) Ht Nb Na Ns ws C).
Qed.
Print Assumptions C66_errors.

(** Leaks likewise, from the second frame if malloc is replaced. *)
Theorem C66_leaks : forall fold o L uninit ws, fold_ok fold -> holds_lists o L uninit -> clean ws ->
  exists n0, forall fuel, (n0 <= fuel)%nat ->
  exists fs b, symbolize_all fold fuel o (map mk ws) = Ok fs /\
    leak_is_likely_false_positive fold fuel o fs = Ok b /\
    (b = true <-> separated (eq_case fold (o_caseless o)) L (if o_replace_malloc o then 1 else 0) ws).
Proof.
  intros fold o L uninit ws F (Hb & Hd & Ha & Hs & Hu & Ht & Nb & Na & Ns) C.
  exact (leak_ok fold F o L uninit (set_holds _ _ Hb) (set_holds _ _ Hd) (set_holds _ _ Ha)
    (set_holds _ _ Hs) (set_holds _ _ Hu) Ht Nb Na Ns ws C).
Qed.
Print Assumptions C66_leaks.

(** Reads are not checked in exactly the modules whose name is on
    -check_uninit_blocklist. *)
Theorem C66_uninit : forall fold o L uninit path name, fold_ok fold -> holds_lists o L uninit ->
  no_nul name -> (forall p, path = Some p -> no_nul p) ->
  exists n0, forall fuel, (n0 <= fuel)%nat ->
  exists m, module_load_cb fold fuel o path name = Ok m /\
    (m_uninit m = true <-> on (eq_case fold (o_caseless o)) uninit name).
Proof.
  intros fold o L uninit path name F (Hb & Hd & Ha & Hs & Hu & Ht & Nb & Na & Ns).
  exact (uninit_ok fold F o L uninit (set_holds _ _ Hb) (set_holds _ _ Hd) (set_holds _ _ Ha)
    (set_holds _ _ Hu) Ht path name).
Qed.
Print Assumptions C66_uninit.

(** An empty pattern ends the list: what follows it has no effect. *)
Theorem C66_gap_refuted : forall fold ic text ps X x y rest, fold_ok fold -> no_nul text ->
  ps <> [] -> (forall p, In p ps -> entry p) -> ~ In 0 X ->
  exists buf, convert_commas_to_nulls (typed ps ++ 44 :: 44 :: X ++ 0 :: x :: y :: rest) = Ok buf /\
  exists n0, forall fuel, (n0 <= fuel)%nat ->
  exists b, text_matches_any_pattern fold fuel text buf ic = Ok b /\
    (b = true <-> on (eq_case fold ic) ps text).
Proof. exact gap_any. Qed.
Print Assumptions C66_gap_refuted.

(** A comma at the front switches the list off. *)
Theorem C66_front_refuted : forall X x y rest, ~ In 0 X ->
  exists buf, convert_commas_to_nulls (44 :: X ++ 0 :: x :: y :: rest) = Ok buf /\
    nonempty buf = Ok false.
Proof. exact lead_ok. Qed.
Print Assumptions C66_front_refuted.

(** A list that leaves less than two bytes of its buffer free behind its end
    loses its last character. *)
Theorem C66_full_refuted : forall s a rest, ~ In 0 (s ++ [a]) -> (List.length rest <= 1)%nat ->
  convert_commas_to_nulls ((s ++ [a]) ++ 0 :: rest) =
    Ok (map (fun c => if c =? 44 then 0 else c) s ++ 0 :: 0 :: rest).
Proof. exact convert_full. Qed.
Print Assumptions C66_full_refuted.

(** * Cases *)
Fixpoint z (s : string) : list Z :=
  match s with
  | EmptyString => []
  | String c r => Z.of_N (N_of_ascii c) :: z r
  end.

Definition set (s : string) : list Z :=
  match convert_commas_to_nulls (z s ++ [0; 7; 7; 7]) with Ok b => b | _ => [] end.

Definition opt (block allow src : string) (n : Z) : opts :=
  {| o_block := set block; o_block_default := set "/usr/*"; o_allow := set allow;
     o_src := set src; o_uninit := set "libu.so"; o_block_frames := n; o_allow_frames := n;
     o_src_frames := n; o_replace_malloc := true; o_tool := z "libdrmemorylib.so*";
     o_caseless := false |}.

Definition at_ (path name file : string) : where_ :=
  {| w_mod := Some (Some (z path), z name); w_file := z file |}.
Definition syscall_ : where_ := {| w_mod := None; w_file := [] |}.
Definition libc := at_ "/usr/lib/libc.so" "libc.so" "".
Definition app := at_ "/home/app" "app" "/home/src/app.c".
Definition sys := at_ "/sys/x.so" "x.so" "x.c".
Definition tool := at_ "/opt/libdrmemorylib.so" "libdrmemorylib.so" "replace.c".

Definition err (o : opts) (ws : list where_) : res bool :=
  let* fs := symbolize_all ascii_tolower 2000 o (map mk ws) in
  error_is_likely_false_positive ascii_tolower 2000 o false fs.
Definition leak (o : opts) (ws : list where_) : res bool :=
  let* fs := symbolize_all ascii_tolower 2000 o (map mk ws) in
  leak_is_likely_false_positive ascii_tolower 2000 o fs.

(** The hypotheses can be met. *)
Example C66_hypotheses_case :
  holds_lists (opt "/sys/*,/bin/*" "" "" 2)
    {| l_block := [z "/sys/*"; z "/bin/*"]; l_block_default := [z "/usr/*"]; l_allow := []; l_src := [];
       l_block_n := 2; l_allow_n := 2; l_src_n := 2 |} [z "libu.so"] /\
  clean [syscall_; libc; sys; app].
Proof.
  assert (E : forall p, match p with [] => false | _ => true end &&
      forallb (fun c => negb (c =? 0) && negb (c =? 44)) p = true -> entry p).
  { intros p H. apply andb_true_iff in H. destruct H as (H1 & H2). rewrite forallb_forall in H2.
    split; [|split]; [intros ->; discriminate| |]; intros Q; apply H2 in Q; discriminate. }
  assert (T : forall ps buf, forallb (fun p => match p with [] => false | _ => true end &&
      forallb (fun c => negb (c =? 0) && negb (c =? 44)) p) ps = true ->
      convert_commas_to_nulls (typed ps ++ [0; 7; 7; 7]) = Ok buf -> set_to ps buf).
  { intros ps buf H Q. split; [|exists 7, 7, [7]; auto].
    rewrite forallb_forall in H. intros p P. apply E, H, P. }
  split.
  - do 5 (split; [apply T; reflexivity|]). split; [|cbn; auto].
    unfold no_nul. cbn. intuition discriminate.
  - intros w t W Q. unfold no_nul. cbn in W.
    destruct W as [<-|[<-|[<-|[<-|[]]]]]; cbn in Q;
      repeat destruct Q as [<-|Q]; try contradiction; cbn; intuition discriminate.
Qed.

(** The blocklists together; the frame of a system call or of the tool does
    not count; each of the top two frames must be on a list. *)
Example C66_block_case :
  err (opt "/sys/*,/bin/*" "" "" 2) [syscall_; libc; sys; app] = Ok true /\
  err (opt "/sys/*,/bin/*" "" "" 2) [tool; libc; sys; app] = Ok true /\
  err (opt "/sys/*,/bin/*" "" "" 2) [libc; app; sys] = Ok false /\
  err (opt "/bin/*" "" "" 2) [libc; sys; app] = Ok false /\
  err (opt "/sys/*,/bin/*" "" "" 3) [libc; sys] = Ok false /\
  err (opt "/sys/*,/bin/*" "" "" 2) [syscall_; libc] = Ok false /\
  err (opt "/sys/*,/bin/*" "" "" 0) [libc; sys; app] = Ok false.
Proof. vm_compute. repeat split. Qed.

Example C66_allow_case :
  err (opt "" "/home/*" "" 2) [libc; libc; app] = Ok true /\
  err (opt "" "/home/*" "" 2) [libc; app; libc] = Ok false /\
  err (opt "/home/*" "/home/*" "" 2) [app; app] = Ok false /\
  err (opt "" "/home/*" "*.cc" 2) [libc; app; libc] = Ok true /\
  err (opt "" "" "/home/*.c" 2) [libc; app; libc] = Ok false /\
  err (opt "" "" "/home/*.c" 2) [libc; libc; app] = Ok true.
Proof. vm_compute. repeat split. Qed.

Example C66_leaks_case :
  leak (opt "/sys/*" "" "" 2) [app; libc; sys] = Ok true /\
  leak (opt "/sys/*" "" "" 2) [libc; sys; app] = Ok false.
Proof. vm_compute. repeat split. Qed.

Example C66_uninit_case :
  match module_load_cb ascii_tolower 2000 (opt "" "" "" 2) (Some (z "/x/libu.so")) (z "libu.so") with
  | Ok m => m_uninit m = true | _ => False end /\
  match module_load_cb ascii_tolower 2000 (opt "" "" "" 2) (Some (z "libu.so")) (z "libv.so") with
  | Ok m => m_uninit m = false | _ => False end.
Proof. vm_compute. repeat split. Qed.

(** "a,,b": b has no effect; ",b" neither; "*.so" in a buffer it fills. *)
Example C66_bad_lists_case :
  text_matches_any_pattern ascii_tolower 2000 (z "b") (set "a,,b") false = Ok false /\
  text_matches_any_pattern ascii_tolower 2000 (z "b") (set "a,b") false = Ok true /\
  nonempty (set ",b") = Ok false /\
  convert_commas_to_nulls (z "a,b*" ++ [0]) = Ok (z "a" ++ [0] ++ z "b" ++ [0; 0]).
Proof. vm_compute. repeat split. Qed.
