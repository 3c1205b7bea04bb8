(** Facts about histories of error kinds. *)
From Verif Require Import Base Report_Model Report_Spec.
Open Scope Z_scope.

Lemma u32_add a d : u32 (u32 a + d) = u32 (a + d).
Proof. unfold u32. apply Zplus_mod_idemp_l. Qed.
Lemma u32_id a : 0 <= a < 2 ^ 32 -> u32 a = a. Proof. apply Z.mod_small. Qed.
Lemma u32_u32 a : u32 (u32 a) = u32 a. Proof. unfold u32. apply Zmod_mod. Qed.

Lemma eqk_refl x : eqk x x = true. Proof. unfold eqk. rewrite !Z.eqb_refl. reflexivity. Qed.
Lemma eqk_iff x y : eqk x y = true <-> i_type y = i_type x /\ i_pcs y = i_pcs x.
Proof. unfold eqk. rewrite andb_true_iff, !Z.eqb_eq. tauto. Qed.
Lemma eqk_same x y z : eqk x y = true -> eqk x z = eqk y z.
Proof. rewrite eqk_iff. intros (A & B). unfold eqk. rewrite A, B. reflexivity. Qed.
Lemma eqk_sym x y : eqk x y = eqk y x.
Proof. unfold eqk. rewrite (Z.eqb_sym (i_type y)), (Z.eqb_sym (i_pcs y)). reflexivity. Qed.
Definition known (P : list item) (x : item) : bool := existsb (eqk x) P.
Lemma known_in P x : In x P -> known P x = true.
Proof. intros I. apply existsb_exists. exists x. split; [exact I|apply eqk_refl]. Qed.
Lemma known_iff P x : known P x = true <-> exists y, In y P /\ eqk x y = true.
Proof. apply existsb_exists. Qed.
Lemma known_same P x y : eqk x y = true -> known P x = known P y.
Proof. intros E. unfold known. induction P as [|z P IH]; cbn; [reflexivity|]. rewrite (eqk_same x y z E), IH. reflexivity. Qed.
Lemma known_app P Q x : known (P ++ Q) x = known P x || known Q x.
Proof. apply existsb_app. Qed.
Lemma known_not P x y : known P x = false -> In y P -> eqk x y = false.
Proof. intros H I. destruct (eqk x y) eqn:Q; [|reflexivity]. rewrite <- H. symmetry. apply known_iff. eauto. Qed.

Lemma news_snoc x P : forall seen, news seen (P ++ [x]) = news seen P ++ (if known seen x || known P x then [] else [x]).
Proof.
  induction P as [|y P IH]; intros seen; cbn [app news].
  - unfold known. cbn [existsb]. rewrite orb_false_r. destruct (existsb (eqk x) seen); reflexivity.
  - rewrite !IH. unfold known at 1 4 6. change (existsb (eqk y) seen) with (known seen y). unfold known at 3. cbn [existsb].
    fold (known seen x) (known P x). destruct (known seen y) eqn:Q.
    + destruct (eqk x y) eqn:E; [|reflexivity]. rewrite (known_same seen x y E), Q. reflexivity.
    + cbn [app]. f_equal. f_equal. unfold known at 1. cbn [existsb]. fold (known seen x). destruct (eqk x y), (known seen x); reflexivity.
Qed.
Lemma kinds_snoc P x : kinds (P ++ [x]) = kinds P ++ (if known P x then [] else [x]).
Proof. unfold kinds. rewrite news_snoc. reflexivity. Qed.
Lemma find_app {A} (f : A -> bool) l m : find f (l ++ m) = match find f l with Some x => Some x | None => find f m end.
Proof. induction l as [|x l IH]; cbn; [reflexivity|]. destruct (f x); auto. Qed.
Lemma known_find P x : known P x = match find (eqk x) P with Some _ => true | None => false end.
Proof. unfold known. induction P as [|y P IH]; cbn; [reflexivity|]. destruct (eqk x y); auto. Qed.
Lemma find_kinds x P : find (eqk x) (kinds P) = find (eqk x) P.
Proof.
  induction P as [|y P IH] using rev_ind; [reflexivity|]. rewrite kinds_snoc, !find_app, IH. destruct (find (eqk x) P) as [f|] eqn:Q; [reflexivity|].
  destruct (known P y) eqn:K; [|reflexivity]. cbn [find]. destruct (eqk x y) eqn:E; [|reflexivity].
  rewrite <- (known_same P x y E), known_find, Q in K. discriminate.
Qed.
Lemma known_kinds P x : known (kinds P) x = known P x.
Proof. rewrite !known_find, find_kinds. reflexivity. Qed.
Lemma kinds_in P x : In x (kinds P) -> In x P.
Proof.
  induction P as [|y P IH] using rev_ind; [tauto|]. rewrite kinds_snoc. intros I. apply in_app_or in I. apply in_or_app.
  destruct I as [I|I]; [auto|]. destruct (known P y); [destruct I|auto].
Qed.
Lemma origin_old P x y : known P y = true -> origin (P ++ [x]) y = origin P y.
Proof. intros K. unfold origin. rewrite find_app. rewrite known_find in K. destruct (find (eqk y) P); [reflexivity|discriminate]. Qed.
Lemma origin_new P x : known P x = false -> origin (P ++ [x]) x = x.
Proof. intros K. unfold origin. rewrite find_app. rewrite known_find in K. destruct (find (eqk x) P); [discriminate|]. cbn. rewrite eqk_refl. reflexivity. Qed.
Lemma origin_find P x : known P x = true -> find (eqk x) P = Some (origin P x).
Proof. intros K. unfold origin. rewrite known_find in K. destruct (find (eqk x) P); [reflexivity|discriminate]. Qed.
Lemma origin_kind P x : known P x = true -> In (origin P x) (kinds P) /\ eqk x (origin P x) = true.
Proof. intros K. pose proof (origin_find P x K) as F. rewrite <- find_kinds in F. apply find_some in F. exact F. Qed.
(** kinds differ pairwise *)
Lemma kinds_uniq P x y : In x (kinds P) -> In y (kinds P) -> eqk x y = true -> x = y.
Proof.
  induction P as [|z P IH] using rev_ind; [cbn; tauto|]. rewrite kinds_snoc. intros I J E. apply in_app_or in I, J.
  destruct (known P z) eqn:K; [destruct I as [I|[]], J as [J|[]]; auto|].
  destruct I as [I|[<-|[]]], J as [J|[<-|[]]]; auto.
  - pose proof (known_not P z x K (kinds_in _ _ I)). rewrite eqk_sym in H. congruence.
  - pose proof (known_not P z y K (kinds_in _ _ J)). congruence.
Qed.
Lemma origin_self P x : In x (kinds P) -> origin P x = x.
Proof. intros I. destruct (origin_kind P x) as (J & E); [apply known_in, kinds_in; exact I|]. symmetry. eapply kinds_uniq; eauto. Qed.

Lemma cnt_app {A} (f : A -> bool) l m : cnt f (l ++ m) = cnt f l + cnt f m.
Proof. unfold cnt. rewrite filter_app, app_length. lia. Qed.
Lemma cnt_one {A} (f : A -> bool) x : cnt f [x] = if f x then 1 else 0.
Proof. unfold cnt. cbn. destruct (f x); reflexivity. Qed.
Lemma cnt_ext {A} (f g : A -> bool) l : (forall x, In x l -> f x = g x) -> cnt f l = cnt g l.
Proof. intros H. unfold cnt. rewrite (filter_ext_in f g l H). reflexivity. Qed.
Lemma cnt_nonneg {A} (f : A -> bool) l : 0 <= cnt f l. Proof. unfold cnt. lia. Qed.
Lemma cnt_le {A} (f : A -> bool) l : cnt f l <= Z.of_nat (length l).
Proof. unfold cnt. induction l as [|x l IH]; cbn [filter length]; [lia|]. destruct (f x); cbn [length]; lia. Qed.
Lemma sum_app {A} (g : A -> Z) f l m : sum g f (l ++ m) = sum g f l + sum g f m.
Proof. induction l as [|x l IH]; cbn [app sum fold_right]; [reflexivity|]. unfold sum in IH. rewrite IH. unfold sum. lia. Qed.
Lemma sum_ext {A} (g : A -> Z) (f h : A -> bool) l : (forall x, In x l -> f x = h x) -> sum g f l = sum g h l.
Proof. induction l as [|x l IH]; intros H; [reflexivity|]. cbn [sum fold_right]. rewrite (H x (or_introl eq_refl)). unfold sum in IH. rewrite IH; [reflexivity|]. intros; apply H; right; auto. Qed.

Section Snoc.
Context (P : list item) (x : item).
Notation P' := (P ++ [x]).
Lemma cnt_kinds (f : item -> bool) : cnt f (kinds P') = cnt f (kinds P) + if negb (known P x) && f x then 1 else 0.
Proof. rewrite kinds_snoc, cnt_app. destruct (known P x); [reflexivity|]. rewrite cnt_one. reflexivity. Qed.
Lemma cnt_origin (g : item -> item -> bool) : cnt (fun y => g y (origin P' y)) P' = cnt (fun y => g y (origin P y)) P + if g x (origin P' x) then 1 else 0.
Proof.
  rewrite cnt_app, cnt_one. f_equal. apply cnt_ext. intros y I. rewrite origin_old by (apply known_in; exact I). reflexivity.
Qed.
Lemma sum_origin (g : item -> item -> bool) : sum i_bytes (fun y => g y (origin P' y)) P' = sum i_bytes (fun y => g y (origin P y)) P + if g x (origin P' x) then i_bytes x else 0.
Proof.
  rewrite sum_app. f_equal; [|cbn; lia]. apply sum_ext. intros y I. rewrite origin_old by (apply known_in; exact I). reflexivity.
Qed.
End Snoc.

Lemma number_app N M f : known N f = true -> number (N ++ M) f = number N f.
Proof.
  induction N as [|g N IH]; [discriminate|]. unfold known. cbn [existsb app number]. destruct (eqk f g); [reflexivity|]. cbn [orb]. intros K. rewrite (IH K). reflexivity.
Qed.
Lemma number_new N f : known N f = false -> number (N ++ [f]) f = cnt (fun g => numbered g && eqb (i_fp g) (i_fp f)) N + 1.
Proof.
  induction N as [|g N IH]; unfold known; cbn [existsb app number].
  - rewrite eqk_refl. reflexivity.
  - destruct (eqk f g); [discriminate|]. cbn [orb]. intros K. rewrite (IH K). change (g :: N) with ([g] ++ N). rewrite cnt_app, cnt_one. lia.
Qed.
Lemma number_pos N f : known N f = true -> 1 <= number N f.
Proof.
  induction N as [|g N IH]; [discriminate|]. unfold known. cbn [existsb number]. destruct (eqk f g); [lia|]. cbn [orb]. intros K. specialize (IH K). destruct (numbered g && _); lia.
Qed.

(** entries of the table when one more item is recorded *)
Lemma entry_other P x f : In f (kinds P) -> eqk x f = false -> entry (P ++ [x]) f = entry P f.
Proof.
  intros I E. unfold entry. f_equal.
  - unfold id_of. destruct (numbered f); [|reflexivity]. rewrite kinds_snoc. apply number_app. apply known_in. exact I.
  - rewrite cnt_app, cnt_one. rewrite eqk_sym in E. rewrite E. lia.
Qed.
Lemma entry_again P x : known P x = true ->
  entry (P ++ [x]) (origin P x) = (let e := entry P (origin P x) in E (e_type e) (e_pcs e) (e_id e) (e_count e + 1) (e_supp e) (e_pot e)).
Proof.
  intros K. destruct (origin_kind P x K) as (I & Q). unfold entry. cbn [e_type e_pcs e_id e_count e_supp e_pot]. f_equal.
  - unfold id_of. destruct (numbered (origin P x)); [|reflexivity]. rewrite kinds_snoc. apply number_app. apply known_in. exact I.
  - rewrite cnt_app, cnt_one. rewrite eqk_sym in Q. rewrite Q. lia.
Qed.
Lemma entry_first P x : known P x = false ->
  entry (P ++ [x]) x = E (i_type x) (i_pcs x) (if numbered x then cnt (fun g => numbered g && eqb (i_fp g) (i_fp x)) (kinds P) + 1 else 0) 1 (i_supp x) (unsupp x && i_fp x).
Proof.
  intros K. unfold entry, id_of. f_equal.
  - destruct (numbered x); [|reflexivity]. rewrite kinds_snoc, K. apply number_new. rewrite known_kinds. exact K.
  - rewrite cnt_app, cnt_one, eqk_refl. assert (Z : cnt (eqk x) P = 0); [|lia]. unfold cnt. replace (filter (eqk x) P) with (@nil item); [reflexivity|].
    symmetry. clear - K. induction P as [|y P IH]; [reflexivity|]. unfold known in *. cbn [existsb filter] in *. destruct (eqk x y); [discriminate|]. auto.
Qed.
Lemma occ_pos P x : known P x = true -> 1 <= cnt (eqk x) P.
Proof.
  intros K. apply known_iff in K. destruct K as (y & I & Q). unfold cnt. assert (X : In y (filter (eqk x) P)) by (apply filter_In; auto). destruct (filter (eqk x) P); [destruct X|cbn [length]; lia].
Qed.
Lemma occ_same P x y : eqk x y = true -> cnt (eqk x) P = cnt (eqk y) P.
Proof. intros Q. apply cnt_ext. intros z _. apply eqk_same. exact Q. Qed.

(** the table *)
Lemma lookup_entries s P x : errs s = map (entry P) (kinds P) ->
  lookup s (i_type x) (i_pcs x) = if known P x then Some (entry P (origin P x)) else None.
Proof.
  intros E. unfold lookup. rewrite E. assert (G : forall N, find (same (i_type x) (i_pcs x)) (map (entry P) N) = option_map (entry P) (find (eqk x) N)).
  { induction N as [|g N IH]; [reflexivity|]. cbn [map find]. change (same (i_type x) (i_pcs x) (entry P g)) with (eqk x g). destruct (eqk x g); [reflexivity|exact IH]. }
  rewrite G, find_kinds. destruct (known P x) eqn:K; [rewrite (origin_find P x K); reflexivity|]. rewrite known_find in K. destruct (find (eqk x) P); [discriminate|reflexivity].
Qed.
Definition upd (e : stored) (l : list stored) : list stored := map (fun x => if same (e_type e) (e_pcs e) x then e else x) l.
Lemma upd_none P x e : known P x = false -> e_type e = i_type x -> e_pcs e = i_pcs x -> upd e (map (entry P) (kinds P)) = map (entry P) (kinds P).
Proof.
  intros K A B. unfold upd. rewrite map_map. apply map_ext_in. intros g I. rewrite A, B. change (same (i_type x) (i_pcs x) (entry P g)) with (eqk x g).
  rewrite (known_not P x g K (kinds_in _ _ I)). reflexivity.
Qed.
Lemma upd_snoc e l e' : same (e_type e) (e_pcs e) e' = true -> upd e (l ++ [e']) = upd e l ++ [e].
Proof. intros Q. unfold upd. rewrite map_app. cbn [map]. rewrite Q. reflexivity. Qed.
Lemma upd_again P x : known P x = true -> upd (entry (P ++ [x]) (origin P x)) (map (entry P) (kinds P)) = map (entry (P ++ [x])) (kinds (P ++ [x])).
Proof.
  intros K. rewrite kinds_snoc, K, app_nil_r. unfold upd. rewrite map_map. apply map_ext_in. intros g I. destruct (origin_kind P x K) as (J & Q).
  change (same (e_type (entry (P ++ [x]) (origin P x))) (e_pcs (entry (P ++ [x]) (origin P x))) (entry P g)) with (eqk (origin P x) g).
  destruct (eqk (origin P x) g) eqn:E; [f_equal; eapply kinds_uniq; eauto|]. symmetry. apply entry_other; auto. rewrite (eqk_same x (origin P x)); auto.
Qed.
Lemma upd_first P x : known P x = false -> map (entry P) (kinds P) ++ [entry (P ++ [x]) x] = map (entry (P ++ [x])) (kinds (P ++ [x])).
Proof.
  intros K. rewrite kinds_snoc, K, map_app. cbn [map]. f_equal. apply map_ext_in. intros g I. symmetry. apply entry_other; auto. apply (known_not P); auto. apply kinds_in. exact I.
Qed.
Lemma prints_cons dup pre y P : prints dup pre (y :: P) =
  (if numbered (origin (pre ++ [y]) y) && (negb (existsb (eqk y) pre) || (dup && negb (leaky y)))
   then [(i_fp (origin (pre ++ [y]) y), number (kinds (pre ++ [y])) (origin (pre ++ [y]) y), i_type (origin (pre ++ [y]) y), i_pcs (origin (pre ++ [y]) y))] else [])
  ++ prints dup (pre ++ [y]) P.
Proof. reflexivity. Qed.
Lemma prints_snoc dup x P : forall pre, prints dup pre (P ++ [x]) = prints dup pre P ++ prints dup (pre ++ P) [x].
Proof.
  induction P as [|y P IH]; intros pre; [rewrite app_nil_r; reflexivity|]. cbn [app]. rewrite (prints_cons dup pre y (P ++ [x])), (prints_cons dup pre y P), IH.
  rewrite app_assoc. replace (pre ++ y :: P) with ((pre ++ [y]) ++ P) by (rewrite <- app_assoc; reflexivity). reflexivity.
Qed.
