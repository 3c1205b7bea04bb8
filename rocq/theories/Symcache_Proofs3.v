(** Reading a file that was written: it is taken if and only if it was written
    for the same version of the module, and then gives back what was written. *)
From Coq Require Import String Ascii Permutation.
From Verif Require Import Base Symcache_Model Symcache_Spec Symcache_Proofs Symcache_Proofs2.
Open Scope Z_scope.
Open Scope list_scope.

Lemma scan_num b w D c rest :
  (b = 10 \/ b = 16) -> D <> [] -> Forall (isd b) D ->
  dig_val b c = None -> c <> 120 -> c <> 88 ->
  scan_int b w (D ++ c :: rest) = Ok (Some (val b 0 D mod 2 ^ w), c :: rest).
Proof. exact (scan_int_num b w 0 D c rest). Qed.

Definition md5_piece (b : Z) : bytes := COMMA :: pad_left 2 48 (fmt 16 b).
Lemma md5_piece_digits b : 0 <= b < 256 ->
  exists D, md5_piece b = COMMA :: D /\ D <> [] /\ Forall (isd 16) D /\ val 16 0 D = b.
Proof.
  intros Hb. destruct (fmt_byte b Hb) as (D & E & Nn & F & V & _).
  exists (pad_left 2 48 D). unfold md5_piece. rewrite E. split; [reflexivity|].
  unfold pad_left. split; [intros E0; apply app_eq_nil in E0; tauto|].
  split.
  - apply Forall_app. split; [|auto]. apply Forall_forall. intros x Hx.
    apply repeat_spec in Hx. subst x. cbv. congruence.
  - rewrite val_zeros by auto. exact V.
Qed.
Lemma md5_piece_scan b c rest : 0 <= b < 256 -> c = COMMA \/ c = NL ->
  scan_after [COMMA] (md5_piece b ++ c :: rest) = Ok (Some b).
Proof.
  intros Hb Hc. destruct (md5_piece_digits b Hb) as (D & -> & Nn & F & V).
  unfold scan_after. cbn [app scan_lit]. rewrite Z.eqb_refl. cbn [bind].
  assert (Hn : dig_val 16 c = None /\ c <> 120 /\ c <> 88).
  { destruct Hc as [-> | ->]; repeat split; cbv; congruence. }
  destruct Hn as (Hn & Hn1 & Hn2). rewrite scan_num by auto.
  cbn [bind]. rewrite V, Z.mod_small by lia. reflexivity.
Qed.

Lemma read_md5_text l : forall acc r, l <> [] -> Forall (fun b => 0 <= b < 256) l ->
  exists p, Forall (fun x => x <> NL /\ x <> 0) p /\
    read_md5 (List.length l) (md5_text l ++ NL :: r) acc = Ok (Some (acc ++ l, p ++ NL :: r)).
Proof.
  induction l as [|b l IH]; intros acc r Nn F; [congruence|]. inversion F; subst.
  unfold md5_text. cbn [map concat List.length read_md5].
  fold (md5_piece b). fold (md5_text l). rewrite <- app_assoc.
  destruct (md5_piece_digits b H1) as (D & ED & _ & FD & _).
  assert (Fs : forall c, c = COMMA \/ c = NL -> Forall (fun x => x <> c /\ x <> 0) D).
  { intros c Hc. apply (isd_sep 16); auto; destruct Hc as [-> | ->]; unfold COMMA, NL; lia. }
  destruct l as [|b' l].
  - cbn [md5_text map concat app]. rewrite md5_piece_scan by auto. cbn [bind].
    destruct (Z.ltb_spec 255 b); [lia|]. cbn [List.length].
    exists (md5_piece b). split; [|reflexivity]. rewrite ED. constructor; [cbv; lia|]. auto.
  - assert (Em : exists t, md5_text (b' :: l) ++ NL :: r = COMMA :: t).
    { unfold md5_text. cbn [map concat]. fold (md5_piece b'). eexists. reflexivity. }
    destruct Em as [t Et]. rewrite Et, md5_piece_scan by auto. cbn [bind].
    destruct (Z.ltb_spec 255 b); [lia|]. cbn [List.length].
    rewrite ED. cbn [app tl]. rewrite strchr_hit by auto. cbn [bind]. rewrite <- Et.
    destruct (IH (acc ++ [b]) r) as (p & Fp & Ep); [congruence|auto|].
    exists p. split; [auto|]. cbn [List.length] in Ep. rewrite Ep, <- app_assoc. reflexivity.
Qed.

Lemma count_le es : (count es <= List.length (sym_text es))%nat.
Proof.
  induction es as [|[k o] es IH]; [cbn; lia|].
  unfold count, sym_text in *. cbn [map list_sum fold_right flat_map snd].
  rewrite concat_app, app_length. unfold sym_lines at 1. cbn [fst snd].
  assert (H : (List.length (ol_list o) <=
     List.length (concat (map (fun o0 => lit ",0x" ++ fmt 16 (o0 mod 2 ^ 32) ++ [NL]) (ol_list o))))%nat).
  { induction (ol_list o) as [|x l IH']; cbn [map concat List.length]; [lia|].
    rewrite !app_length. cbn [List.length]. lia. }
  cbn [concat]. rewrite app_length. unfold list_sum in IH. lia.
Qed.

(** the header of a file agrees with the module and with the file *)
Lemma consistency_text mc es mc' fsize k D r :
  ok_mc mc -> D <> [] -> Forall (isd 10) D -> val 10 0 D = text_size mc es mod 2 ^ 32 ->
  exists p, Forall (fun x => x <> NL /\ x <> 0) p /\
  read_consistency fsize mc'
    (repeat 32 k ++ D ++ COMMA :: fmt 10 (c_size mc) ++ COMMA :: fmt 10 (c_time mc) ++
     md5_text (c_md5 mc) ++ NL :: r) =
  Ok (if (c_size mc =? c_size mc') && (c_time mc =? c_time mc') && str_eqb (c_md5 mc) (c_md5 mc')
        && (text_size mc es mod 2 ^ 32 =? fsize mod 2 ^ 32)
      then Some (p ++ NL :: r) else None).
Proof.
  intros (Hs & Ht & Hl & Hm) Nn F V.
  destruct (fmt_any 10 (c_size mc)) as (Ds & Es & Ns & Fs & Vs & _); [auto|lia|].
  destruct (fmt_any 10 (c_time mc)) as (Dt & Et & Nt & Ft & Vt & _); [auto|lia|].
  rewrite Es, Et.
  destruct (read_md5_text (c_md5 mc) [] r) as (p & Fp & Ep);
    [destruct (c_md5 mc); [discriminate|congruence]|auto|].
  rewrite Hl in Ep. cbn [app] in Ep.
  assert (Em : exists t, md5_text (c_md5 mc) ++ NL :: r = COMMA :: t).
  { destruct (c_md5 mc) as [|b l]; [discriminate|]. unfold md5_text. cbn [map concat].
    eexists. reflexivity. }
  destruct Em as [t Emt]. rewrite Emt in *.
  assert (Cd : dig_val 10 COMMA = None) by reflexivity.
  assert (C1 : COMMA <> 120) by (cbv; congruence).
  assert (C2 : COMMA <> 88) by (cbv; congruence).
  exists p. split; [auto|]. unfold read_consistency, scan_header.
  rewrite scan_int_num by auto. cbn [bind scan_lit]. rewrite Z.eqb_refl. cbn [bind].
  rewrite scan_num by auto. cbn [bind]. rewrite Z.eqb_refl. cbn [bind].
  rewrite scan_num by auto. cbn [bind option_map].
  rewrite V, Vs, Vt, Zmod_mod, !(Z.mod_small (c_size mc)), !(Z.mod_small (c_time mc)) by auto.
  unfold past_comma.
  assert (Sp : forall D, Forall (isd 10) D -> Forall (fun x => x <> COMMA /\ x <> 0) D).
  { intros D0 F0. apply (isd_sep 10); auto; unfold COMMA; lia. }
  rewrite app_assoc, strchr_hit.
  2:{ apply Forall_app. split; [|auto]. apply Forall_forall. intros x Hx.
      apply repeat_spec in Hx. subst x. cbv. split; congruence. }
  cbn [bind tl]. rewrite strchr_hit by auto. cbn [bind tl]. rewrite strchr_hit by auto.
  cbn [bind]. rewrite Ep. cbn [bind].
  destruct (c_size mc =? c_size mc'); [|reflexivity].
  destruct (c_time mc =? c_time mc'); [|reflexivity].
  destruct (str_eqb (c_md5 mc) (c_md5 mc')); [|reflexivity]. cbn [negb orb andb].
  now destruct (text_size mc es mod 2 ^ 32 =? fsize mod 2 ^ 32).
Qed.

Lemma next_line_hit p r :
  Forall (fun x => x <> NL /\ x <> 0) p -> next_line (p ++ NL :: r) = Ok (Some r).
Proof. intros F. unfold next_line. rewrite strchr_hit by auto. reflexivity. Qed.

Definition same_version (mc mc' : modcache) : bool :=
  (c_size mc =? c_size mc') && (c_time mc =? c_time mc') && str_eqb (c_md5 mc) (c_md5 mc').

Definition HL0 : bytes := HEADER ++ [32; 49; 54].
Lemma header_line_eq : header_line = HL0 ++ [NL].
Proof. reflexivity. Qed.
Lemma HL0_sep : Forall (fun x => x <> NL /\ x <> 0) HL0.
Proof. unfold HL0. cbn. repeat constructor; cbv; congruence. Qed.

Lemma read_some f syms mc : f <> [] -> read_symfile (Some f) syms mc = read_mapped f syms mc.
Proof. destruct f; [congruence|reflexivity]. Qed.

Theorem read_text mc es mc' syms :
  ok_mc mc -> wf_tb es -> c_table mc' = [] -> c_dbg mc' = false ->
  if same_version mc mc' && (c_dbg mc || negb syms) then
    exists tb, read_symfile (Some (text mc es)) syms mc' = Ok (RDone true tb (c_dbg mc)) /\
      wf_tb tb /\ forall s, lst tb s = lst es s
  else read_symfile (Some (text mc es)) syms mc' = Ok (RDone false [] syms).
Proof.
  intros Hm We Ht Hd.
  destruct (fmt32 (text_size mc es mod 2 ^ 32)) as (D & ED & Nn & F & V & L).
  { apply Z.mod_pos_bound. lia. }
  set (k := (SIZE_DIGITS - List.length D)%nat).
  set (tail := repeat 0 (Z.to_nat (pad_len (text mc es)))).
  set (dd := fmt 10 (if c_dbg mc then 1 else 0)).
  set (r := dd ++ NL :: sym_text es ++ tail).
  set (line := repeat 32 k ++ D ++ COMMA :: fmt 10 (c_size mc) ++ COMMA :: fmt 10 (c_time mc) ++
     md5_text (c_md5 mc) ++ NL :: r).
  assert (Emap : mapped (text mc es) = HL0 ++ NL :: line).
  { unfold mapped. fold tail. unfold text. rewrite ED. unfold pad_left. fold k.
    rewrite header_line_eq. unfold body, line, r. fold dd.
    rewrite <- !app_assoc. cbn [app]. rewrite <- !app_assoc. cbn [app].
    rewrite <- !app_assoc. cbn [app]. rewrite <- !app_assoc. cbn [app]. reflexivity. }
  assert (Esz : len (text mc es) = text_size mc es).
  { unfold text. rewrite ED. unfold len. rewrite !app_length, pad_len_exact by auto.
    unfold text_size, SIZE_DIGITS. lia. }
  assert (Nt : text mc es <> []).
  { unfold text. rewrite header_line_eq. destruct HL0; discriminate. }
  assert (Hpad : 0 <= pad_len (text mc es)) by (apply Z.mod_pos_bound; lia).
  rewrite (read_some (text mc es) syms mc' Nt). unfold read_mapped.
  rewrite Emap. unfold HL0 at 1. rewrite <- app_assoc, starts_with_app. cbn [bind negb].
  replace (skipn (List.length HEADER + 1) (HL0 ++ NL :: line)) with ([49; 54] ++ NL :: line)
    by reflexivity.
  assert (Nd : dig_val 10 NL = None /\ NL <> 120 /\ NL <> 88).
  { repeat split; cbv; congruence. }
  destruct Nd as (Nd & Nd1 & Nd2).
  assert (Vd : Forall (isd 10) [49; 54]) by (repeat constructor; cbv; congruence).
  assert (Vn : [49; 54] <> @nil Z) by congruence.
  rewrite scan_num by auto.
  cbn [bind]. change (val 10 0 [49; 54] mod 2 ^ 32 =? VERSION) with true. cbn [negb].
  rewrite next_line_hit by apply HL0_sep. cbn [bind].
  destruct (consistency_text mc es mc' (len (text mc es)) k D r) as (p & Fp & Ec); auto.
  fold line in Ec. rewrite Ec. rewrite Esz, Z.eqb_refl, andb_true_r.
  cbn [bind]. fold (same_version mc mc'). unfold read_fail. rewrite Ht.
  destruct (same_version mc mc'); cbn [andb]; [|reflexivity].
  rewrite next_line_hit by auto. cbn [bind]. unfold r.
  assert (Dd : exists D', dd = D' /\ D' <> [] /\ Forall (isd 10) D' /\
            val 10 0 D' = if c_dbg mc then 1 else 0).
  { destruct (fmt_any 10 (if c_dbg mc then 1 else 0)) as (D' & E' & N' & F' & V' & _);
      [auto|destruct (c_dbg mc); lia|]. exists D'. auto. }
  destruct Dd as (D' & -> & N' & F' & V').
  rewrite scan_num by auto. cbn [bind]. rewrite V'.
  assert (Sd : Forall (fun x => x <> NL /\ x <> 0) D') by (apply (isd_sep 10); auto; unfold NL; lia).
  assert (Lt : len tail = pad_len (text mc es)).
  { unfold tail, len. rewrite repeat_length. lia. }
  assert (Fin : forall dbg, exists tb,
     read_lines (S (List.length (HL0 ++ NL :: line))) (pad_len (text mc es)) (sym_text es ++ tail)
       [] [] dbg = Ok (RDone true tb dbg) /\ wf_tb tb /\ forall s, lst tb s = lst es s).
  { intros dbg.
    assert (Cl : exists f, S (List.length (HL0 ++ NL :: line)) = (count es + S f)%nat).
    { exists (List.length (HL0 ++ NL :: line) - count es)%nat. pose proof (count_le es) as Hc.
      assert (List.length (sym_text es) <= List.length (HL0 ++ NL :: line))%nat.
      { unfold line, r. rewrite !app_length. cbn [List.length]. rewrite !app_length.
        cbn [List.length]. rewrite !app_length. cbn [List.length]. rewrite !app_length.
        cbn [List.length]. rewrite !app_length. cbn [List.length]. rewrite !app_length. lia. }
      lia. }
    destruct Cl as (f & ->).
    destruct (read_entries (S f) (pad_len (text mc es)) dbg tail es [] []) as (tb & sy & W & E & Lq);
      auto; try lia.
    { split; [constructor|]. intros ? ? []. }
    exists tb. rewrite E. cbn [read_lines].
    destruct (Z.leb_spec (len tail) (pad_len (text mc es))); [|lia].
    split; [reflexivity|]. split; [auto|]. intros s. rewrite Lq.
    destruct (lst es s); reflexivity. }
  destruct (c_dbg mc) eqn:Edbg; cbn [orb].
  - change (1 mod 2 ^ 32) with 1. cbn [Z.eqb andb]. rewrite next_line_hit by auto. cbn [bind].
    destruct (Fin true) as (tb & E & R). exists tb. split; [exact E|exact R].
  - change (0 mod 2 ^ 32) with 0. cbn [Z.eqb andb]. destruct syms; cbn [negb]; [reflexivity|].
    rewrite next_line_hit by auto. cbn [bind]. rewrite Hd.
    destruct (Fin false) as (tb & E & R). exists tb. split; [exact E|exact R].
Qed.

(** ---- a file of another length behind the same two lines ---- *)

Lemma cut_line P T h r a c :
  Forall (fun x => x <> NL /\ x <> 0) P -> h ++ r = P ++ NL :: T -> h = a ++ NL :: c ->
  exists d, h = P ++ NL :: d /\ d ++ r = T /\
    forall b e, c = b ++ NL :: e -> exists b' e', d = b' ++ NL :: e'.
Proof.
  revert h a. induction P as [|x P IH]; intros h a F E Eh; cbn [app] in E.
  - destruct h as [|y h]; [destruct a; discriminate|]. cbn in E. injection E as -> Ed.
    exists h. split; [reflexivity|]. split; [exact Ed|]. intros b e ->.
    destruct a as [|z a]; cbn in Eh; injection Eh as E1; [subst h; eauto|].
    subst h. exists (a ++ NL :: b), e. rewrite <- app_assoc. reflexivity.
  - inversion F as [|? ? [Nx _] F']; subst x0 l.
    destruct h as [|y h]; [destruct a; discriminate|]. cbn in E. injection E as -> E.
    destruct a as [|z a]; cbn in Eh; [congruence|]. injection Eh as <- Eh.
    destruct (IH h a F' E Eh) as (d & -> & Ed & Hd). exists d. auto.
Qed.

Lemma read_cut mc es mc' syms h r g b a c :
  ok_mc mc -> text mc es = h ++ r -> h = a ++ NL :: b ++ NL :: c ->
  c_table mc' = [] ->
  len (h ++ g) mod 2 ^ 32 <> len (h ++ r) mod 2 ^ 32 ->
  read_symfile (Some (h ++ g)) syms mc' = Ok (RDone false [] syms).
Proof.
  intros Hm Et Eh Ht Hl.
  destruct (fmt32 (text_size mc es mod 2 ^ 32)) as (D & ED & Nn & F & V & L).
  { apply Z.mod_pos_bound. lia. }
  set (k := (SIZE_DIGITS - List.length D)%nat).
  set (X := repeat 32 k ++ D ++ COMMA :: fmt 10 (c_size mc) ++ COMMA :: fmt 10 (c_time mc) ++
     md5_text (c_md5 mc)).
  assert (Esz : len (text mc es) = text_size mc es).
  { unfold text. rewrite ED. unfold len. rewrite !app_length, pad_len_exact by auto.
    unfold text_size, SIZE_DIGITS. lia. }
  assert (ET : exists T, text mc es = HL0 ++ NL :: X ++ NL :: T).
  { exists (fmt 10 (if c_dbg mc then 1 else 0) ++ NL :: sym_text es).
    unfold text. rewrite ED. unfold pad_left. fold k. rewrite header_line_eq. unfold body, X.
    repeat (progress (rewrite <- ?app_assoc; cbn [app])). reflexivity. }
  destruct ET as (T & ET).
  assert (FX : Forall (fun x => x <> NL /\ x <> 0) X).
  { destruct Hm as (Hs & Hti & Hl5 & Hm5).
    destruct (fmt_any 10 (c_size mc)) as (Ds & Es & Ns & Fs & Vs & _); [auto|lia|].
    destruct (fmt_any 10 (c_time mc)) as (Dt & Edt & Ndt & Ft & Vt & _); [auto|lia|].
    assert (Sp : forall D, Forall (isd 10) D -> Forall (fun x => x <> NL /\ x <> 0) D).
    { intros D0 F0. apply (isd_sep 10); auto; unfold NL; lia. }
    assert (Cn : COMMA <> NL /\ COMMA <> 0) by (cbv; split; congruence).
    unfold X. rewrite Es, Edt. apply Forall_app. split.
    { apply Forall_forall. intros x Hx. apply repeat_spec in Hx. subst x. cbv. split; congruence. }
    apply Forall_app. split; [auto|]. constructor; [exact Cn|].
    apply Forall_app. split; [auto|]. constructor; [exact Cn|].
    apply Forall_app. split; [auto|].
    clear - Hm5 Cn. unfold md5_text. induction (c_md5 mc) as [|b l IH]; [constructor|].
    inversion Hm5; subst. cbn [map concat]. apply Forall_app. split; [|auto].
    destruct (md5_piece_digits b H1) as (D & E & _ & FD & _). unfold md5_piece in E. rewrite E.
    constructor; [exact Cn|]. apply (isd_sep 16); auto; unfold NL; lia. }
  rewrite Et in ET.
  destruct (cut_line HL0 _ h r a _ HL0_sep ET Eh) as (d & Ehd & Ed & Hd).
  destruct (Hd b c eq_refl) as (b' & e' & Ed').
  destruct (cut_line X T d r b' e' FX Ed Ed') as (d2 & Ed2 & _ & _).
  set (r' := d2 ++ g ++ repeat 0 (Z.to_nat (pad_len (h ++ g)))).
  set (line := repeat 32 k ++ D ++ COMMA :: fmt 10 (c_size mc) ++ COMMA :: fmt 10 (c_time mc) ++
     md5_text (c_md5 mc) ++ NL :: r').
  assert (Emap : mapped (h ++ g) = HL0 ++ NL :: line).
  { unfold mapped. rewrite <- app_assoc. unfold line, r'.
    set (tail := g ++ repeat 0 (Z.to_nat (pad_len (h ++ g)))).
    rewrite Ehd, Ed2. unfold X.
    repeat (progress (rewrite <- ?app_assoc; cbn [app])). reflexivity. }
  assert (Nt : h ++ g <> []).
  { rewrite Ehd. destruct HL0; discriminate. }
  rewrite (read_some (h ++ g) syms mc' Nt). unfold read_mapped.
  rewrite Emap. unfold HL0 at 1. rewrite <- app_assoc, starts_with_app. cbn [bind negb].
  replace (skipn (List.length HEADER + 1) (HL0 ++ NL :: line)) with ([49; 54] ++ NL :: line)
    by reflexivity.
  assert (Nd : dig_val 10 NL = None /\ NL <> 120 /\ NL <> 88).
  { repeat split; cbv; congruence. }
  destruct Nd as (Nd & Nd1 & Nd2).
  assert (Vd : Forall (isd 10) [49; 54]) by (repeat constructor; cbv; congruence).
  assert (Vn : [49; 54] <> @nil Z) by congruence.
  rewrite scan_num by auto.
  cbn [bind]. change (val 10 0 [49; 54] mod 2 ^ 32 =? VERSION) with true. cbn [negb].
  rewrite next_line_hit by apply HL0_sep. cbn [bind].
  destruct (consistency_text mc es mc' (len (h ++ g)) k D r') as (p & Fp & Ec); auto.
  fold line in Ec. rewrite Ec. rewrite Et in Esz. rewrite <- Esz.
  destruct (Z.eqb_spec (len (h ++ r) mod 2 ^ 32) (len (h ++ g) mod 2 ^ 32)) as [E|_];
    [congruence|]. rewrite andb_false_r. cbn [bind]. unfold read_fail. rewrite Ht. reflexivity.
Qed.
