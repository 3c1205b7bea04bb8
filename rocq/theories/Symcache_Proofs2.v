(** What symcache_write_symfile writes, and what symcache_read_symfile makes
    of it. *)
From Coq Require Import String Ascii Permutation.
From Verif Require Import Base Symcache_Model Symcache_Spec Symcache_Proofs.
Open Scope Z_scope.
Open Scope list_scope.

(** ---- the text of the file ---- *)

Definition md5_text (l : bytes) : bytes :=
  concat (map (fun b => COMMA :: pad_left 2 48 (fmt 16 b)) l).
Definition sym_text (es : table) : bytes := concat (flat_map sym_lines es).
Definition body (mc : modcache) (es : table) : bytes :=
  COMMA :: fmt 10 (c_size mc) ++ COMMA :: fmt 10 (c_time mc) ++ md5_text (c_md5 mc) ++
  NL :: fmt 10 (if c_dbg mc then 1 else 0) ++ NL :: sym_text es.
Definition text_size (mc : modcache) (es : table) : Z :=
  Z.of_nat (List.length header_line + SIZE_DIGITS + List.length (body mc es)).
Definition text (mc : modcache) (es : table) : bytes :=
  header_line ++ pad_left SIZE_DIGITS 32 (fmt 10 (text_size mc es mod 2 ^ 32)) ++ body mc es.

Definition ok_mc (mc : modcache) : Prop :=
  0 <= c_size mc < 2 ^ 64 /\ 0 <= c_time mc < 2 ^ 32 /\
  List.length (c_md5 mc) = 16%nat /\ Forall (fun b => 0 <= b < 256) (c_md5 mc).

Lemma write_all_concat ps f b :
  Forall (fun p => len p < 4096) ps -> len b < 4096 ->
  exists f' b', write_all None (f, b) ps = Ok (f', b') /\ f' ++ b' = f ++ b ++ concat ps.
Proof.
  revert f b; induction ps as [|p ps IH]; intros f b F Hb; cbn [write_all concat].
  - exists f, b. rewrite app_nil_r. auto.
  - inversion F; subst. unfold buffered_write.
    destruct (Z.ltb_spec (len b + len p) BUFFER_SIZE); unfold BUFFER_SIZE in *; cbn [bind].
    + destruct (IH f (b ++ p)) as (f' & b' & E & C); auto.
      { unfold len in *. rewrite app_length. lia. }
      exists f', b'. split; [exact E|]. rewrite C, <- !app_assoc. reflexivity.
    + destruct (Z.leb_spec 4096 (len b)); [lia|].
      destruct (Z.ltb_spec (len p) 4096); [|lia]. cbn [bind disk_append].
      destruct (IH (f ++ b) p) as (f' & b' & E & C); auto.
      exists f', b'. split; [exact E|]. rewrite C, <- !app_assoc. reflexivity.
Qed.

Lemma fmt_any b n : (b = 10 \/ b = 16) -> 0 <= n < 2 ^ 64 ->
  exists D, fmt b n = D /\ D <> [] /\ Forall (isd b) D /\ val b 0 D = n /\
    (List.length D <= 20)%nat.
Proof.
  intros Hb H. destruct Hb as [-> | ->]; apply fmt_spec; try lia.
Qed.
Lemma fmt_len b n : (b = 10 \/ b = 16) -> 0 <= n < 2 ^ 64 -> (List.length (fmt b n) <= 20)%nat.
Proof. intros Hb Hn. destruct (fmt_any b n Hb Hn) as (D & -> & _ & _ & _ & L). auto. Qed.
Lemma fmt32 n : 0 <= n < 2 ^ 32 ->
  exists D, fmt 10 n = D /\ D <> [] /\ Forall (isd 10) D /\ val 10 0 D = n /\
    (List.length D <= 10)%nat.
Proof.
  intros H. apply fmt_spec; try lia.
Qed.
Lemma fmt_byte n : 0 <= n < 256 ->
  exists D, fmt 16 n = D /\ D <> [] /\ Forall (isd 16) D /\ val 16 0 D = n /\
    (List.length D <= 2)%nat.
Proof. intros H. apply fmt_spec; try lia. Qed.

Lemma pieces_short mc es : ok_mc mc -> wf_tb es -> Forall (fun p => len p < 4096) (pieces mc es).
Proof.
  intros (Hs & Ht & _ & Hm) [_ W]. unfold pieces.
  constructor; [unfold len; vm_compute; auto|].
  constructor; [unfold len; vm_compute; auto|].
  constructor.
  { unfold len. rewrite !app_length. pose proof (fmt_len 10 (c_size mc)).
    pose proof (fmt_len 10 (c_time mc)). cbn [List.length]. lia. }
  apply Forall_app. split.
  { apply Forall_forall. intros p Hp. apply in_map_iff in Hp as (b & <- & Hb).
    rewrite Forall_forall in Hm. specialize (Hm b Hb).
    unfold len, pad_left. cbn [List.length]. rewrite app_length, repeat_length.
    pose proof (fmt_len 16 b). lia. }
  constructor; [unfold len; cbn; lia|].
  constructor; [unfold len; destruct (c_dbg mc); vm_compute; auto|].
  apply Forall_forall. intros p Hp. apply in_flat_map in Hp as ([k o] & He & Hp).
  destruct (W k o He) as [Hk Ho]. unfold sym_lines in Hp. cbn [fst snd] in Hp.
  destruct Hp as [<-|Hp].
  - destruct Hk as (_ & L & _). unfold len. lia.
  - apply in_map_iff in Hp as (x & <- & Hx). unfold len. rewrite !app_length.
    pose proof (fmt_len 16 (x mod 2 ^ 32)). cbn [List.length lit].
    pose proof (Z.mod_pos_bound x (2 ^ 32)). lia.
Qed.

Lemma concat_pieces mc es :
  concat (pieces mc es) = header_line ++ pad_left SIZE_DIGITS 32 (fmt 10 0) ++ body mc es.
Proof.
  unfold pieces. cbn [concat]. rewrite concat_app. cbn [concat]. f_equal.
  unfold body, md5_text, sym_text. rewrite <- !app_assoc. reflexivity.
Qed.
Lemma pad_len_exact D : (List.length D <= 10)%nat -> List.length (pad_left SIZE_DIGITS 32 D) = 10%nat.
Proof. intros. unfold pad_left, SIZE_DIGITS. rewrite app_length, repeat_length. lia. Qed.

Lemma patch_text mc es :
  patch_size None (header_line ++ pad_left SIZE_DIGITS 32 (fmt 10 0) ++ body mc es) =
  Some (text mc es).
Proof.
  unfold patch_size, text. f_equal.
  assert (E : len (header_line ++ pad_left SIZE_DIGITS 32 (fmt 10 0) ++ body mc es) =
              text_size mc es).
  { unfold len, text_size. rewrite !app_length, (pad_len_exact (fmt 10 0)) by (vm_compute; lia).
    unfold SIZE_DIGITS. lia. }
  rewrite E.
  destruct (fmt32 (text_size mc es mod 2 ^ 32)) as (D & ED & _ & _ & _ & L).
  { apply Z.mod_pos_bound. lia. }
  rewrite ED. pose proof (pad_len_exact D L) as LP.
  rewrite (firstn_all2 (n := SIZE_DIGITS)) by (unfold SIZE_DIGITS in *; lia).
  rewrite firstn_app, Nat.sub_diag, firstn_all, firstn_O, app_nil_r. reflexivity.
Qed.

Lemma wf_perm tb es : Permutation tb es -> wf_tb tb -> wf_tb es.
Proof.
  intros P [N W]. split.
  - eapply Permutation_NoDup; [|exact N]. now apply Permutation_map.
  - intros k o I0. apply W. eapply Permutation_in; [|exact I0]. now apply Permutation_sym.
Qed.
Lemma lst_perm tb es s : Permutation tb es -> wf_tb tb -> lst es s = lst tb s.
Proof.
  intros P W. pose proof (wf_perm _ _ P W) as W'. unfold lst.
  destruct (sym_find tb s) as [o|] eqn:E.
  - apply sym_find_in in E. rewrite (sym_find_iff es s o); [auto|apply W'|].
    eapply Permutation_in; eauto.
  - destruct (sym_find es s) as [o|] eqn:E'; [|auto].
    apply sym_find_in in E'. apply sym_find_none in E. exfalso. apply E.
    change s with (fst (s, o)). apply in_map. eapply Permutation_in; [|exact E'].
    now apply Permutation_sym.
Qed.

(** the file written is the text of the entries *)
Lemma write_text ord mc :
  (forall t, Permutation t (ord t)) -> ok_mc mc -> wf_tb (c_table mc) ->
  write_symfile ord true None mc =
  Ok (if c_from_file mc && negb (c_appended mc) then None
      else match c_table mc with [] => None | _ => Some (text mc (ord (c_table mc))) end).
Proof.
  intros P Hm W. unfold write_symfile.
  destruct (c_from_file mc && negb (c_appended mc)); [reflexivity|].
  destruct (c_table mc) as [|e r] eqn:E; [reflexivity|]. cbn [negb].
  destruct (write_all_concat (pieces mc (ord (e :: r))) [] []) as (f' & b' & Ew & C).
  { apply pieces_short; auto. apply (wf_perm _ _ (P _) W). }
  { cbn. lia. }
  unfold wst in *. replace (write_all None ([], []) (pieces mc (ord (e :: r)))) with (Ok (f', b'))
    by (symmetry; exact Ew).
  cbn [bind fst snd disk_append]. rewrite C. cbn [app].
  now rewrite concat_pieces, patch_text.
Qed.

(** ---- reading lines ---- *)

Lemma ok_sym_sep s c : ok_sym s -> c = 44 \/ c = 10 -> Forall (fun x => x <> c /\ x <> 0) s.
Proof. intros (_ & _ & F) Hc. eapply Forall_impl; [|exact F]. cbn beta. intros x Hx. lia. Qed.

Lemma scan_offset o tail : ok_off o ->
  scan_after (lit ",0x") (lit ",0x" ++ fmt 16 o ++ NL :: tail) = Ok (Some o).
Proof.
  intros Ho. unfold scan_after. rewrite scan_lit_app. cbn [bind].
  destruct (fmt_any 16 o) as (D & -> & Nn & F & V & _); [auto|unfold ok_off in Ho; lia|].
  pose proof (scan_int_num 16 32 0 D NL tail) as E. cbn [repeat app] in E.
  rewrite E by (auto; cbv; congruence). cbn [bind]. rewrite V, Z.mod_small by exact Ho. reflexivity.
Qed.

Lemma read_step f pad pre symbol symbol' tb dbg o tail :
  pre = [] \/ ok_sym pre ->
  (pre = [] -> symbol' = symbol) -> (pre <> [] -> symbol' = pre) -> ok_sym symbol' ->
  ok_off o -> pad <= len tail ->
  read_lines (S f) pad (pre ++ lit ",0x" ++ fmt 16 o ++ NL :: tail) symbol tb dbg =
  match symbol_add tb symbol' o with
  | AAbort => Ok RAbort
  | ADone tb' _ =>
      read_lines f pad tail symbol' tb' dbg
  end.
Proof.
  intros Hp S1 S2 Hs Ho Hpad. cbn [read_lines].
  set (rest := lit ",0x" ++ fmt 16 o ++ NL :: tail).
  assert (Er : exists r, rest = COMMA :: r) by (eexists; reflexivity).
  destruct Er as [r Er].
  assert (Ll : pad < len (pre ++ rest)).
  { unfold rest, len in *. rewrite !app_length. cbn [List.length lit]. lia. }
  destruct (Z.leb_spec (len (pre ++ rest)) pad); [lia|].
  assert (Fp : forall c, c = 44 \/ c = 10 -> Forall (fun x => x <> c /\ x <> 0) pre).
  { intros c Hc. destruct Hp as [->|Hp]; [constructor|]. now apply ok_sym_sep. }
  assert (Ec : strchr (pre ++ rest) COMMA = Ok (Some rest)).
  { rewrite Er. apply strchr_hit. apply Fp. auto. }
  assert (En : strchr (pre ++ rest) NL = Ok (Some (NL :: tail))).
  { unfold rest. rewrite !app_assoc. apply strchr_hit.
    apply Forall_app. split; [apply Forall_app; split|].
    - apply Fp. auto.
    - cbn. repeat constructor; cbv; congruence.
    - destruct (fmt_any 16 o) as (D & -> & _ & F & _); [auto|unfold ok_off in Ho; lia|].
      apply (isd_sep 16); auto; unfold NL; lia. }
  rewrite Ec, En. cbn [bind].
  assert (El : len (pre ++ rest) - len rest = len pre).
  { unfold len. rewrite app_length. lia. }
  rewrite El.
  assert (Es : (if (0 <? len pre) && (len pre <? MAX_SYMLEN)
               then firstn (Z.to_nat (len pre)) (pre ++ rest) else symbol) =
               symbol').
  { destruct pre as [|x pre]; [now rewrite S1|]. rewrite S2 by congruence. destruct Hp as [Hp|(_ & L & _)]; [discriminate|].
    unfold MAX_SYMLEN, len. replace ((0 <? Z.of_nat (List.length (x :: pre))) &&
      (Z.of_nat (List.length (x :: pre)) <? 256)) with true by (cbn [List.length] in *; lia).
    rewrite Nat2Z.id, firstn_app, Nat.sub_diag, firstn_all, firstn_O, app_nil_r. reflexivity. }
  rewrite Es.
  assert (Lm : (len pre <? MAX_SYMLEN) = true).
  { unfold MAX_SYMLEN, len. destruct Hp as [->|(_ & L & _)]; [reflexivity|]. lia. }
  rewrite Lm. cbn [andb].
  assert (Ne : str_eqb symbol' [] = false).
  { destruct Hs as (Nn & _). destruct (str_eqb_spec symbol' []);
      congruence. }
  rewrite Ne. cbn [negb]. unfold rest. rewrite scan_offset by auto. cbn [bind]. reflexivity.
Qed.

(** an entry whose list continues is appended *)
Lemma iadd_next l0 o r : wf_list (l0 ++ o :: r) -> iadd l0 o = Some (l0 ++ [o]).
Proof.
  intros (_ & Nd & Z0 & Z1 & _). unfold iadd.
  assert (Ni : ~ In o l0).
  { apply NoDup_remove_2 in Nd. rewrite in_app_iff in Nd. tauto. }
  destruct l0 as [|x [|y l0]]; [reflexivity| |].
  - cbn in *. destruct (Z.eqb_spec x 0) as [->|]; [specialize (Z0 eq_refl); discriminate|].
    destruct (Z.eqb_spec o 0); [congruence|]. destruct (Z.eqb_spec x o); [tauto|]. reflexivity.
  - destruct (in_dec Z.eq_dec o (x :: y :: l0)); [tauto|reflexivity].
Qed.

Definition off_line (o : Z) : bytes := lit ",0x" ++ fmt 16 (o mod 2 ^ 32) ++ [NL].

Lemma read_rest f pad symbol dbg tail rest : forall tb l0,
  ok_sym symbol -> wf_tb tb -> lst tb symbol = l0 -> wf_list (l0 ++ rest) ->
  pad <= len tail ->
  exists tb', wf_tb tb' /\
    read_lines (List.length rest + f) pad (concat (map off_line rest) ++ tail) symbol tb dbg =
    read_lines f pad tail symbol tb' dbg /\
    forall s, lst tb' s = if str_eqb s symbol then l0 ++ rest else lst tb s.
Proof.
  induction rest as [|o r IH]; intros tb l0 Hs W El Wl Hp.
  - exists tb. split; [auto|]. split; [reflexivity|]. intros s. rewrite app_nil_r.
    destruct (str_eqb_spec s symbol) as [->|]; auto.
  - assert (Ho : ok_off o).
    { destruct Wl as (_ & _ & _ & _ & F). rewrite Forall_forall in F. apply F.
      rewrite in_app_iff. cbn. auto. }
    pose proof (symbol_add_spec tb symbol o W Hs Ho) as Sp. rewrite El in Sp.
    rewrite (iadd_next _ _ _ Wl) in Sp. destruct Sp as (tb1 & ch & Ea & W1 & _ & L1).
    destruct (IH tb1 (l0 ++ [o])) as (tb' & W' & Er & L'); auto.
    { rewrite L1, str_eqb_refl. reflexivity. }
    { rewrite <- app_assoc. exact Wl. }
    exists tb'. split; [auto|]. split.
    + cbn [map concat List.length Nat.add]. unfold off_line at 1. rewrite Z.mod_small by exact Ho.
      rewrite <- !app_assoc. cbn [app].
      pose proof (read_step (List.length r + f) pad [] symbol symbol tb dbg o
                    (concat (map off_line r) ++ tail)) as St.
      cbn [app] in St. rewrite St; auto; try congruence.
      * rewrite Ea. exact Er.
      * unfold len in *. rewrite app_length. lia.
    + intros s. rewrite L', L1. destruct (str_eqb_spec s symbol); [|auto].
      now rewrite <- app_assoc.
Qed.

Definition count (es : table) : nat := list_sum (map (fun e => List.length (ol_list (snd e))) es).

Lemma sym_text_cons k o o1 r es tail :
  ol_list o = o1 :: r -> ok_off o1 ->
  sym_text ((k, o) :: es) ++ tail =
  k ++ lit ",0x" ++ fmt 16 o1 ++ NL :: concat (map off_line r) ++ sym_text es ++ tail.
Proof.
  intros El Ho. unfold sym_text. cbn [flat_map]. rewrite concat_app.
  unfold sym_lines. cbn [fst snd]. rewrite El. cbn [map concat]. fold off_line.
  rewrite Z.mod_small by exact Ho. rewrite <- !app_assoc. reflexivity.
Qed.

Lemma lst_cons k o es s : lst ((k, o) :: es) s = if str_eqb k s then ol_list o else lst es s.
Proof. unfold lst. cbn [sym_find]. now destruct (str_eqb k s). Qed.

Lemma read_entries f pad dbg tail : forall es symbol tb,
  wf_tb es -> wf_tb tb -> (forall k, In k (map fst es) -> lst tb k = []) ->
  pad <= len tail ->
  exists tb' symbol', wf_tb tb' /\
    read_lines (count es + f) pad (sym_text es ++ tail) symbol tb dbg =
    read_lines f pad tail symbol' tb' dbg /\
    forall s, lst tb' s = match lst es s with [] => lst tb s | l => l end.
Proof.
  induction es as [|[k o] es IH]; intros symbol tb We W D Hp.
  - exists tb, symbol. auto.
  - destruct We as [N We]. cbn [map fst] in N. inversion N; subst.
    destruct (We k o (or_introl eq_refl)) as [Hk Wo]. pose proof Wo as (Wl & _).
    destruct (ol_list o) as [|o1 r] eqn:El; [destruct Wl; congruence|].
    assert (Ho : ok_off o1).
    { destruct Wl as (_ & _ & _ & _ & F). now inversion F. }
    pose proof (symbol_add_spec tb k o1 W Hk Ho) as Sp.
    rewrite (D k) in Sp by (cbn; auto). cbn [iadd] in Sp.
    destruct Sp as (tb1 & ch & Ea & W1 & _ & L1).
    destruct (read_rest (count es + f) pad k dbg (sym_text es ++ tail) r tb1 [o1])
      as (tb2 & W2 & Er & L2); auto.
    { rewrite L1, str_eqb_refl. reflexivity. }
    { unfold len in *. rewrite app_length. lia. }
    destruct (IH k tb2) as (tb' & symbol' & W' & Ef & L'); auto.
    { split; [auto|]. intros k' o' I0. apply We. now right. }
    { intros k' I0. rewrite L2, L1. destruct (str_eqb_spec k' k) as [->|]; [tauto|].
      apply D. now right. }
    exists tb', symbol'. split; [auto|]. split.
    + rewrite (sym_text_cons k o o1 r es tail El Ho).
      replace (count ((k, o) :: es) + f)%nat with (S (List.length r + (count es + f))).
      2:{ unfold count. cbn [map list_sum fold_right snd]. rewrite El. cbn [List.length].
          unfold list_sum. lia. }
      assert (Nk : k <> []) by apply Hk.
      rewrite (read_step (List.length r + (count es + f)) pad k symbol k tb dbg o1);
        auto; try congruence.
      * rewrite Ea, Er. exact Ef.
      * unfold len in *. rewrite !app_length. lia.
    + intros s. rewrite L', L2, L1, lst_cons.
      destruct (str_eqb_spec k s) as [->|Nk].
      * rewrite str_eqb_refl, El. replace (lst es s) with (@nil Z); [reflexivity|].
        unfold lst. destruct (sym_find es s) eqn:E; [|auto]. exfalso.
        apply sym_find_in in E. apply H1. change s with (fst (s, o0)). now apply in_map.
      * destruct (str_eqb_spec s k); [congruence|]. reflexivity.
Qed.
