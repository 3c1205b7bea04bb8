(** Every step of error recording keeps the state in agreement with the history. *)
From Verif Require Import Base Report_Model Report_Spec Report_Proofs.
Open Scope Z_scope.

Ltac simp := cbn [errs error_id error_id_potential num_unique num_total num_bytes num_reported num_total_leaks matched supp_leaks
  leaks_ignored throttled throttled_leaks used spec_bytes printed
  w_errs w_ids w_unique w_total w_bytes w_reported w_total_leaks w_matched w_supp_leaks w_ignored w_throttled w_throttled_leaks w_used w_spec_bytes w_print
  e_type e_pcs e_id e_count e_supp e_pot a_items a_whole a_throttled a_leaks a_ignored a_throttled_leaks
  i_type i_pcs i_supp i_fp i_num i_bytes fst snd].

Section Snoc.
Context (P : list item) (x : item).
Notation P' := (P ++ [x]).
Lemma unique_snoc b t : unique P' b t = unique P b t + if negb (known P x) && ((i_type x =? t) && eqb (i_fp x) b && unsupp x) then 1 else 0.
Proof. apply cnt_kinds. Qed.
Lemma total_snoc b t : total P' b t = total P b t + if (i_type x =? t) && eqb (i_fp (origin P' x)) b && unsupp (origin P' x) then 1 else 0.
Proof. apply (cnt_origin P x (fun y f => (i_type y =? t) && eqb (i_fp f) b && unsupp f)). Qed.
Lemma bytes_snoc b t : bytes P' b t = bytes P b t + if (i_type x =? t) && eqb (i_fp (origin P' x)) b && unsupp (origin P' x) then i_bytes x else 0.
Proof. apply (sum_origin P x (fun y f => (i_type y =? t) && eqb (i_fp f) b && unsupp f)). Qed.
Lemma reported_snoc b : reported P' b = reported P b + if negb (known P x) && (eqb (i_fp x) b && unsupp x && negb (leaky x)) then 1 else 0.
Proof. apply cnt_kinds. Qed.
Lemma potential_snoc : potential_leaks P' = potential_leaks P + if negb (known P x) && (i_fp x && unsupp x && leaky x) then 1 else 0.
Proof. apply cnt_kinds. Qed.
Lemma supp_errors_snoc d : supp_errors P' d = supp_errors P d + if negb (leaky x) && by_default d (origin P' x) then 1 else 0.
Proof. apply (cnt_origin P x (fun y f => negb (leaky y) && by_default d f)). Qed.
Lemma supp_leaks_snoc d : supp_leaks_of P' d = supp_leaks_of P d + if leaky x && by_default d (origin P' x) then 1 else 0.
Proof. apply (cnt_origin P x (fun y f => leaky y && by_default d f)). Qed.
Lemma used_snoc i : used_of P' i = used_of P i + (if negb (leaky x) && by_spec i (origin P' x) then 1 else 0) + (if negb (known P x) && (leaky x && by_spec i x) then 1 else 0).
Proof. unfold used_of. rewrite (cnt_origin P x (fun y f => negb (leaky y) && by_spec i f)), cnt_kinds. lia. Qed.
Lemma spec_bytes_snoc i : spec_bytes_of P' i = spec_bytes_of P i + if leaky x && by_spec i (origin P' x) then i_bytes x else 0.
Proof. apply (sum_origin P x (fun y f => leaky y && by_spec i f)). Qed.
Lemma id_snoc b : cnt (fun f => numbered f && eqb (i_fp f) b) (kinds P') = cnt (fun f => numbered f && eqb (i_fp f) b) (kinds P) + if negb (known P x) && (numbered x && eqb (i_fp x) b) then 1 else 0.
Proof. apply cnt_kinds. Qed.
End Snoc.

(** what the histories of a run satisfy *)
Record Well (n : Z) (a : acc) : Prop := {
  w_len : Z.of_nat (length (a_items a)) <= n;
  w_lk : 0 <= a_leaks a <= n;
  w_num : forall f, In f (a_items a) -> leaky f = false -> i_num f = true }.
Lemma leaks_range o l : leak_type o l <> ERROR_MAX_VAL -> type_is_leak (leak_type o l) = true.
Proof. unfold leak_type. destruct (l_reachable l && _); [reflexivity|]. destruct (l_early l && _); [congruence|]. destruct (l_maybe l); reflexivity. Qed.
Lemma well_step o n a e : proper_event e -> Well n a -> Well (n + 1) (admit1 o a e).
Proof.
  intros Pe [A B C]. destruct e as [t p m fp w|l|]; cbn [admit1 proper_event] in *; [| |destruct Pe].
  - destruct (_ && _); [constructor; simp; auto; lia|]. destruct w; (constructor; simp; auto; try lia).
    + rewrite app_length. cbn [length]. lia.
    + intros f I Q. apply in_app_or in I. destruct I as [I|[<-|[]]]; [auto|reflexivity].
  - destruct (l_reachable l && _); [constructor; auto; lia|]. destruct (_ && _); [constructor; simp; auto; lia|].
    destruct (leak_type o l =? ERROR_MAX_VAL) eqn:M; constructor; simp; auto; try lia.
    + rewrite app_length. cbn [length]. lia.
    + intros f I Q. apply in_app_or in I. destruct I as [I|[<-|[]]]; [auto|]. apply Z.eqb_neq in M. unfold leaky in Q. cbn [leak_item i_type] in Q. rewrite leaks_range in Q by exact M. discriminate.
Qed.
Lemma kinds_len P : (length (kinds P) <= length P)%nat.
Proof. induction P as [|x P IH] using rev_ind; [cbn; lia|]. rewrite kinds_snoc, !app_length. destruct (known P x); cbn [length]; lia. Qed.
Lemma cnt_disj {A} (f g : A -> bool) l : (forall x, f x && g x = false) -> cnt f l + cnt g l <= Z.of_nat (length l).
Proof.
  intros H. unfold cnt. induction l as [|x l IH]; cbn [filter length]; [lia|]. specialize (H x). destruct (f x), (g x); try discriminate; cbn [length]; lia.
Qed.
Lemma reported_le P : 0 <= reported P false /\ 0 <= reported P true /\ reported P false + reported P true <= Z.of_nat (length P).
Proof.
  unfold reported. split; [apply cnt_nonneg|]. split; [apply cnt_nonneg|]. pose proof (kinds_len P).
  etransitivity; [apply cnt_disj|lia]. intros x. destruct (i_fp x), (unsupp x), (leaky x); reflexivity.
Qed.

Lemma update_upd s e : update s e = w_errs (upd e (errs s)) s.
Proof. reflexivity. Qed.
(** [record_error] *)
Lemma record_new s P x : errs s = map (entry P) (kinds P) -> known P x = false ->
  record_error s (i_type x) (i_pcs x) =
    (w_total (add2 (num_total s) false (i_type x) 1) (w_errs (map (entry P) (kinds P) ++ [E (i_type x) (i_pcs x) 0 1 None false]) s), E (i_type x) (i_pcs x) 0 1 None false).
Proof.
  intros G K. unfold record_error. rewrite (lookup_entries s P x G), K. rewrite !update_upd. simp. rewrite G.
  change (u32 (0 + 1)) with 1. rewrite upd_snoc by (unfold same; simp; rewrite !Z.eqb_refl; reflexivity).
  rewrite (upd_none P x) by auto. reflexivity.
Qed.
Lemma record_old s P x : errs s = map (entry P) (kinds P) -> known P x = true -> Z.of_nat (length P) + 1 < 2 ^ 32 ->
  let f := origin P x in
  record_error s (i_type x) (i_pcs x) =
    (match i_supp f with
     | None => w_total (add2 (num_total s) (i_fp f) (i_type x) 1) (w_errs (map (entry (P ++ [x])) (kinds (P ++ [x]))) s)
     | Some _ => w_errs (map (entry (P ++ [x])) (kinds (P ++ [x]))) s
     end, entry (P ++ [x]) f).
Proof.
  intros G K B f. unfold record_error. rewrite (lookup_entries s P x G), K. fold f.
  assert (Q : E (e_type (entry P f)) (e_pcs (entry P f)) (e_id (entry P f)) (u32 (e_count (entry P f) + 1)) (e_supp (entry P f)) (e_pot (entry P f)) = entry (P ++ [x]) f).
  { unfold f. rewrite entry_again by exact K. cbn zeta. rewrite u32_id; [reflexivity|]. cbn [entry e_count]. pose proof (cnt_le (eqk (origin P x)) P). pose proof (cnt_nonneg (eqk (origin P x)) P). lia. }
  rewrite Q. unfold update. rewrite G. fold (upd (entry (P ++ [x]) f) (map (entry P) (kinds P))). unfold f at 1. rewrite upd_again by exact K. fold f.
  change (e_supp (entry (P ++ [x]) f)) with (i_supp f). change (e_pot (entry (P ++ [x]) f)) with (unsupp f && i_fp f). unfold unsupp. destruct (i_supp f); reflexivity.
Qed.
Lemma occ_two P x : known P x = true -> (1 <? e_count (entry (P ++ [x]) (origin P x))) = true.
Proof.
  intros K. rewrite entry_again by exact K. simp. cbn [entry e_count]. destruct (origin_kind P x K) as (_ & Q). rewrite <- (occ_same P x _ Q). pose proof (occ_pos P x K). lia.
Qed.
Lemma upd_last P x e e' : known P x = false -> e_type e = i_type x -> e_pcs e = i_pcs x -> same (e_type e) (e_pcs e) e' = true ->
  upd e (map (entry P) (kinds P) ++ [e']) = map (entry P) (kinds P) ++ [e].
Proof. intros K A B Q. rewrite upd_snoc by exact Q. rewrite (upd_none P x); auto. Qed.

(** counters, point by point *)
Lemma bump2 f b i d c j X : f c j = u32 X -> add2 f b i d c j = u32 (X + if eqb c b && (i =? j) then d else 0).
Proof. intros H. unfold add2. rewrite H, (Z.eqb_sym j i). destruct (_ && _); [apply u32_add|f_equal; lia]. Qed.
Lemma bumpb f b d c X : f c = u32 X -> addb f b d c = u32 (X + if eqb c b then d else 0).
Proof. intros H. unfold addb. rewrite H. destruct (eqb c b); [apply u32_add|f_equal; lia]. Qed.
Lemma bump1 f i d j X : u32 (f j) = u32 X -> u32 (add1 f i d j) = u32 (X + if j =? i then d else 0).
Proof. intros H. unfold add1. destruct (j =? i); [|rewrite H; f_equal; lia]. rewrite u32_u32, <- (u32_add (f j)), H. apply u32_add. Qed.
Ltac chain := first [eassumption | match goal with H : forall b t, num_unique _ b t = _ |- num_unique _ _ _ = _ => apply H end
  | match goal with H : forall b t, num_total _ b t = _ |- num_total _ _ _ = _ => apply H end
  | match goal with H : forall b t, num_bytes _ b t = _ |- num_bytes _ _ _ = _ => apply H end
  | match goal with H : forall b, num_reported _ b = _ |- num_reported _ _ = _ => apply H end
  | match goal with H : forall b, matched _ b = _ |- matched _ _ = _ => apply H end
  | match goal with H : forall b, supp_leaks _ b = _ |- supp_leaks _ _ = _ => apply H end
  | match goal with H : forall i, u32 (used _ i) = _ |- u32 (used _ _) = _ => apply H end
  | match goal with H : forall i, u32 (spec_bytes _ i) = _ |- u32 (spec_bytes _ _) = _ => apply H end
  | eapply bump2; chain | eapply bumpb; chain | eapply bump1; chain ].
Ltac close := f_equal;
  repeat match goal with |- context [eqb ?b _] => is_var b; destruct b | |- context [eqb _ ?b] => is_var b; destruct b | |- context [if ?b then _ else _] => is_var b; destruct b end;
  repeat match goal with |- context [i_fp ?f] => destruct (i_fp f) end;
  repeat match goal with |- context [?u =? ?v] => destruct (u =? v) end;
  repeat match goal with |- context [unsupp ?f] => destruct (unsupp f) end;
  cbn [eqb andb orb negb]; lia.

Definition push (a : acc) (x : item) : acc := A (a_items a ++ [x]) (a_whole a) (a_throttled a) (a_leaks a) (a_ignored a) (a_throttled_leaks a).

Lemma whole_fold o s0 a w : forall s v, Agree o s0 s (A (a_items a) v (a_throttled a) (a_leaks a) (a_ignored a) (a_throttled_leaks a)) ->
  Agree o s0 (fold_left (fun s (m : Z * bool) => w_used (add1 (used s) (fst m) 1) (w_matched (addb (matched s) (snd m) 1) s)) w s)
        (A (a_items a) (v ++ w) (a_throttled a) (a_leaks a) (a_ignored a) (a_throttled_leaks a)).
Proof.
  induction w as [|m w IH]; intros s v G; [rewrite app_nil_r; exact G|]. cbn [fold_left].
  replace (v ++ m :: w) with ((v ++ [m]) ++ w) by (rewrite <- app_assoc; reflexivity). apply IH.
  destruct G as [? ? ? ? ? ? ? ? Gm ? ? ? ? Gu ? ?]. cbn [a_items a_whole a_throttled a_leaks a_ignored a_throttled_leaks] in *. constructor; simp; auto.
  - intros d. erewrite bumpb by apply Gm. rewrite cnt_app, cnt_one. f_equal. destruct d, (snd m); cbn [eqb]; lia.
  - intros i. erewrite bump1 by apply Gu. rewrite cnt_app, cnt_one. f_equal. lia.
Qed.

Section Step.
Context (o : opts) (s0 : st) (n : Z).
Lemma error_old s a x : Agree o s0 s a -> Well n a -> n + 1 < 2 ^ 32 -> leaky x = false -> known (a_items a) x = true -> i_bytes x = 0 ->
  let '(s1, e) := record_error s (i_type x) (i_pcs x) in
  let '(s, reporting) :=
      (if 1 <? e_count e then
         match e_supp e with
         | Some (i, d) => (w_matched (addb (matched s1) d 1) (w_used (add1 (used s1) i 1) s1), false)
         | None => (s1, true)
         end
       else (s1, false)) in
  Agree o s0 (if negb (show_duplicates o) then s else print s reporting e) (push a x) /\ (1 <? e_count e) = true.
Proof.
  intros G W B Lk K Bz. destruct G. destruct W as [W1 W2 W3]. set (P := a_items a) in *.
  rewrite (record_old s P x) by (auto; lia). rewrite (occ_two P x K). change (e_supp (entry (P ++ [x]) (origin P x))) with (i_supp (origin P x)).
  pose proof (origin_old P x x K) as Oo. destruct (origin_kind P x K) as (Ik & Qk). set (f := origin P x) in *.
  assert (Lf : leaky f = false). { apply eqk_iff in Qk. destruct Qk as (T & _). unfold leaky in *. rewrite T. exact Lk. }
  assert (Nf : i_num f = true). { apply W3; [apply kinds_in; exact Ik|exact Lf]. }
  assert (PR : prints (show_duplicates o) [] (P ++ [x]) = prints (show_duplicates o) [] P ++ (if unsupp f && show_duplicates o then [(i_fp f, number (kinds (P ++ [x])) f, i_type f, i_pcs f)] else [])).
  { rewrite prints_snoc. cbn [app]. f_equal. rewrite prints_cons. cbn [prints]. rewrite app_nil_r, Oo. fold f. change (existsb (eqk x) P) with (known P x). rewrite K, Lk. unfold numbered. rewrite Nf. cbn [negb orb]. rewrite !andb_true_r. reflexivity. }
  assert (EN : entry (P ++ [x]) f = E (i_type f) (i_pcs f) (if unsupp f then number (kinds (P ++ [x])) f else 0) (cnt (eqk f) (P ++ [x])) (i_supp f) (unsupp f && i_fp f)).
  { unfold entry, id_of, numbered. rewrite Nf, andb_true_r. reflexivity. }
  destruct (i_supp f) as [[i d]|] eqn:Sf; (split; [|reflexivity]); unfold print; destruct (show_duplicates o) eqn:Dup; cbn [negb]; rewrite ?EN; unfold unsupp in *; rewrite ?Sf in *; cbn [andb] in *.
  all: unfold push; constructor; simp; fold P; auto.
  all: intros; rewrite ?Dup, ?unique_snoc, ?total_snoc, ?bytes_snoc, ?reported_snoc, ?potential_snoc, ?supp_errors_snoc, ?supp_leaks_snoc, ?used_snoc, ?spec_bytes_snoc, ?id_snoc, ?PR;
    fold P; rewrite ?Oo, ?K, ?Lk, ?Bz; unfold unsupp, by_default, by_spec; rewrite ?Sf; cbn [negb andb]; rewrite ?andb_false_r, ?andb_true_r, ?Z.add_0_r.
  all: try solve [auto | chain | etransitivity; [chain|close] | rewrite ?app_nil_r, ?app_assoc; f_equal; auto].
Qed.

Lemma prints_first P x dup : known P x = false ->
  prints dup [] (P ++ [x]) = prints dup [] P ++ (if numbered x then [(i_fp x, cnt (fun g => numbered g && eqb (i_fp g) (i_fp x)) (kinds P) + 1, i_type x, i_pcs x)] else []).
Proof.
  intros K. rewrite prints_snoc. cbn [app]. f_equal. rewrite prints_cons. cbn [prints]. rewrite app_nil_r, (origin_new P x K). change (existsb (eqk x) P) with (known P x).
  rewrite K. cbn [negb orb]. rewrite andb_true_r, kinds_snoc, K, number_new by (rewrite known_kinds; exact K). reflexivity.
Qed.
Lemma errs_first P x e : known P x = false -> e = entry (P ++ [x]) x -> map (entry P) (kinds P) ++ [e] = map (entry (P ++ [x])) (kinds (P ++ [x])).
Proof. intros K ->. apply upd_first. exact K. Qed.
Lemma next_id P x : known P x = false -> Z.of_nat (length P) + 1 < 2 ^ 32 ->
  u32 (u32 (cnt (fun g => numbered g && eqb (i_fp g) (i_fp x)) (kinds P)) + 1) = cnt (fun g => numbered g && eqb (i_fp g) (i_fp x)) (kinds P) + 1.
Proof.
  intros K B. rewrite u32_add. apply u32_id. pose proof (cnt_le (fun g => numbered g && eqb (i_fp g) (i_fp x)) (kinds P)). pose proof (cnt_nonneg (fun g => numbered g && eqb (i_fp g) (i_fp x)) (kinds P)).
  pose proof (kinds_len P). lia.
Qed.
Ltac fields P x K := intros; rewrite ?unique_snoc, ?total_snoc, ?bytes_snoc, ?reported_snoc, ?potential_snoc, ?supp_errors_snoc, ?supp_leaks_snoc, ?used_snoc, ?spec_bytes_snoc, ?id_snoc;
  fold P; rewrite ?(origin_new P x K), ?K.

Lemma error_new s a t p m fp : Agree o s0 s a -> Well n a -> n + 1 < 2 ^ 32 -> 0 <= t < ERROR_LEAK -> known (a_items a) (error_item t p m fp) = false ->
  let '(s, e) := record_error s t p in
  let '(s, e, reporting) :=
    (let (s, r) := on_suppression_list s m in
         match r with
         | Some (i, d) =>
             let e := E (e_type e) (e_pcs e) (e_id e) (e_count e) r (e_pot e) in
             let s := update s e in
             let s := w_matched (addb (matched s) d 1) s in
             (w_total (add2 (num_total s) false t (-1)) s, e, false)
         | None =>
             if fp then
               let e := E (e_type e) (e_pcs e) (e_id e) (e_count e) (e_supp e) true in
               let (s, e) := acquire_error_number s e in
               let s := w_total (add2 (num_total s) false t (-1)) s in
               let s := w_total (add2 (num_total s) true t 1) s in
               (w_reported (addb (num_reported s) true 1) s, e, true)
             else
               let (s, e) := acquire_error_number s e in
               (w_reported (addb (num_reported s) false 1) s, e, true)
         end) in
  Agree o s0 (print s reporting e) (push a (error_item t p m fp)).
Proof.
  intros G W B T K. destruct G. destruct W as [W1 W2 W3]. set (P := a_items a) in *. set (x := error_item t p m fp) in *.
  pose proof (next_id P x K ltac:(lia)) as NX. cbn [x i_fp error_item] in NX.
  change t with (i_type x) at 1. change p with (i_pcs x). rewrite (record_new s P x) by auto.
  assert (Lk : leaky x = false) by (unfold leaky, type_is_leak; cbn [x error_item i_type]; unfold ERROR_LEAK in *; lia).
  pose proof (prints_first P x (show_duplicates o) K) as PR. pose proof (entry_first P x K) as EF.
  cbn [i_type i_pcs x error_item].
  destruct m as [[i d]|]; cbn [on_suppression_list]; [|destruct fp; unfold acquire_error_number; simp; rewrite ?g_id, ?g_idp, ?NX].
  all: rewrite !update_upd; simp; unfold print.
  all: rewrite (upd_last P x) by first [exact K | reflexivity | unfold same; simp; rewrite !Z.eqb_refl; reflexivity].
  all: unfold push; constructor; simp; fold P.
  all: fields P x K; rewrite ?Lk, ?PR.
  all: cbn [x error_item i_type i_pcs i_supp i_fp i_num i_bytes unsupp by_default by_spec numbered negb andb eqb]; rewrite ?andb_false_r, ?andb_true_r, ?Z.add_0_r.
  all: try solve [auto | chain | etransitivity; [chain|close] | rewrite ?app_nil_r, ?app_assoc; f_equal; auto].
  all: try solve [apply errs_first; [exact K|]; rewrite EF; reflexivity].
  all: rewrite u32_add in NX; auto.
Qed.

Lemma leak_old s a x : Agree o s0 s a -> Z.of_nat (length (a_items a)) <= n -> n + 1 < 2 ^ 32 -> leaky x = true -> known (a_items a) x = true ->
  let '(s, e) := record_error s (i_type x) (i_pcs x) in
  Agree o s0 (match e_supp e with
        | Some (i, d) => w_spec_bytes (add1 (spec_bytes s) i (i_bytes x)) (w_supp_leaks (addb (supp_leaks s) d 1) s)
        | None => w_bytes (add2 (num_bytes s) (e_pot e) (i_type x) (i_bytes x)) s
        end) (push a x) /\ (1 <? e_count e) = true.
Proof.
  intros G W B Lk K. destruct G. set (P := a_items a) in *.
  rewrite (record_old s P x) by (auto; lia). rewrite (occ_two P x K). change (e_supp (entry (P ++ [x]) (origin P x))) with (i_supp (origin P x)).
  change (e_pot (entry (P ++ [x]) (origin P x))) with (unsupp (origin P x) && i_fp (origin P x)).
  pose proof (origin_old P x x K) as Oo. destruct (origin_kind P x K) as (Ik & Qk). set (f := origin P x) in *.
  assert (PR : prints (show_duplicates o) [] (P ++ [x]) = prints (show_duplicates o) [] P).
  { rewrite prints_snoc. cbn [app]. rewrite prints_cons. cbn [prints]. rewrite !app_nil_r. change (existsb (eqk x) P) with (known P x). rewrite K, Lk. cbn [negb orb andb]. rewrite !andb_false_r, app_nil_r. reflexivity. }
  destruct (i_supp f) as [[i d]|] eqn:Sf; (split; [|reflexivity]); unfold unsupp in *; rewrite ?Sf in *; cbn [andb] in *.
  all: unfold push; constructor; simp; fold P; auto.
  all: intros; rewrite ?unique_snoc, ?total_snoc, ?bytes_snoc, ?reported_snoc, ?potential_snoc, ?supp_errors_snoc, ?supp_leaks_snoc, ?used_snoc, ?spec_bytes_snoc, ?id_snoc, ?PR;
    fold P; rewrite ?Oo, ?K, ?Lk; unfold unsupp, by_default, by_spec; rewrite ?Sf; cbn [negb andb]; rewrite ?andb_false_r, ?andb_true_r, ?Z.add_0_r.
  all: try solve [auto | chain | etransitivity; [chain|close] | rewrite ?app_nil_r, ?app_assoc; f_equal; auto].
Qed.

Lemma leak_new s a x : Agree o s0 s a -> Z.of_nat (length (a_items a)) <= n -> n + 1 < 2 ^ 32 -> leaky x = true -> known (a_items a) x = false ->
  let t := i_type x in
  let '(s, e) := record_error s t (i_pcs x) in
  let (s, r) := on_suppression_list s (i_supp x) in
  Agree o s0 (match r with
        | None =>
            let reporting := i_num x in
            let '(s, e, set) :=
              (if e_id e =? 0 then
                 let '(s, e, set) :=
                   (if i_fp x then
                      let e := E (e_type e) (e_pcs e) (e_id e) (e_count e) (e_supp e) true in
                      let s := update s e in
                      let (s, e) := if reporting then acquire_error_number s e else (s, e) in
                      let s := w_total_leaks (addb (num_total_leaks s) false (-1)) s in
                      let s := w_total_leaks (addb (num_total_leaks s) true 1) s in
                      let s := w_total (add2 (num_total s) false t (-1)) s in
                      (w_total (add2 (num_total s) true t 1) s, e, true)
                    else let (s, e) := if reporting then acquire_error_number s e else (s, e) in (s, e, e_pot e)) in
                 (if reporting then s else w_unique (add2 (num_unique s) (e_pot e) t 1) s, e, set)
               else (w_unique (add2 (num_unique s) true t 1) s, e, e_pot e)) in
            let s := w_bytes (add2 (num_bytes s) set t (i_bytes x)) s in
            print s reporting e
        | Some (i, d) =>
            let already := match e_supp e with Some _ => true | None => false end in
            let e := E (e_type e) (e_pcs e) (e_id e) (e_count e) r (e_pot e) in
            let s := update s e in
            let s := w_supp_leaks (addb (supp_leaks s) d 1) s in
            let s := w_spec_bytes (add1 (spec_bytes s) i (i_bytes x)) s in
            if already then s else w_total (add2 (num_total s) false t (-1)) s
        end) (push a x) /\ e_count e = 1.
Proof.
  intros G W B Lk K. destruct G as [g_errs g_id g_idp g_unique g_total g_bytes g_reported [g_lt g_lf] g_matched g_supp_leaks g_ignored g_throttled g_throttled_leaks g_used g_spec_bytes g_printed].
  set (P := a_items a) in *.
  pose proof (next_id P x K ltac:(lia)) as NX. cbn zeta. rewrite (record_new s P x) by auto.
  pose proof (prints_first P x (show_duplicates o) K) as PR. pose proof (entry_first P x K) as EF.
  destruct x as [t p m fp num bs]. cbn [i_type i_pcs i_supp i_fp i_num i_bytes] in *.
  destruct m as [[i d]|]; cbn [on_suppression_list]; (split; [|reflexivity]); [|simp; cbn [Z.eqb]; destruct fp, num; unfold acquire_error_number; simp; rewrite ?g_id, ?g_idp, ?NX].
  all: rewrite ?update_upd; simp; unfold print; rewrite ?g_id, ?g_idp, ?NX; simp.
  all: rewrite ?(upd_last P (I t p None false true bs)) by first [exact K | reflexivity | unfold same; simp; rewrite !Z.eqb_refl; reflexivity].
  all: unfold push; constructor; simp; fold P; try split.
  all: match type of K with known _ ?x = _ => fields P x K end; rewrite ?Lk, ?PR.
  all: cbn [i_type i_pcs i_supp i_fp i_num i_bytes unsupp by_default by_spec numbered negb andb eqb]; rewrite ?andb_false_r, ?andb_true_r, ?Z.add_0_r.
  all: try solve [auto | chain | etransitivity; [chain|close] | rewrite ?app_nil_r, ?app_assoc; f_equal; auto].
  all: try solve [apply errs_first; [exact K|]; rewrite EF; reflexivity].
  all: try solve [rewrite u32_add in NX; auto].
Qed.
End Step.
