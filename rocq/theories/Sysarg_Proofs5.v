(** Proofs about the rows of the Linux table: which of them are sensible, and
    that the departures from the manual pages are real. *)
From Coq Require Import String.
From Verif Require Import Base Sysarg_Model Sysarg_Table Sysarg_Spec Sysarg_Proofs3.
Local Open Scope Z_scope.

Definition sole_b (t : list entry) (e : entry) : bool :=
  Nat.eqb (List.length (filter (fun x => param x =? param e) t)) 1.

Definition ok_pair (t : list entry) (e e' : entry) : bool :=
  negb (has fWRITE e' || (size e' =? SIZE_IN_FIELD)) || negb (param e =? param e') ||
  ((0 <=? param e) && negb (has fINLINED e) && negb (has fNONMEM e) &&
   (negb ((size e' =? SIZE_IN_FIELD) ||
          (has fCOMPLEX e' && (misc e' =? T_SOCKADDR) && has fWRITE e')) || sole_b t e') &&
   (negb (has fCOMPLEX e') || negb (size e' =? SIZE_IN_FIELD))).

Definition sensible_b (t : list entry) : bool :=
  forallb (fun e => forallb (ok_pair t e) t) t.

Lemma sole_b_ok t e : In e t -> sole_b t e = true -> sole t e.
Proof.
  unfold sole_b, sole. intros I L. apply Nat.eqb_eq in L.
  assert (X : In e (filter (fun x => param x =? param e) t))
    by (apply filter_In; split; auto; apply Z.eqb_refl).
  destruct (filter _ t) as [|y [|z l]]; try discriminate.
  destruct X as [->|[]]. reflexivity.
Qed.

Lemma sensible_b_ok t : sensible_b t = true -> sensible t.
Proof.
  intros H e e' I I' W P. unfold sensible_b in H.
  rewrite forallb_forall in H. specialize (H e I). rewrite forallb_forall in H.
  specialize (H e' I'). unfold ok_pair in H.
  assert (W1 : has fWRITE e' || (size e' =? SIZE_IN_FIELD) = true).
  { destruct W as [-> | ->]; [reflexivity|apply orb_true_r]. }
  rewrite W1, P, Z.eqb_refl in H. cbn [negb orb] in H.
  apply andb_prop in H as [H H5]. apply andb_prop in H as [H H4].
  apply andb_prop in H as [H H3]. apply andb_prop in H as [H1 H2].
  apply Z.leb_le in H1. rewrite P.
  repeat split; auto.
  - now destruct (has fINLINED e).
  - now destruct (has fNONMEM e).
  - intros X. apply sole_b_ok; auto.
    destruct X as [X|(X1 & X2 & X3)].
    + rewrite X in H4. exact H4.
    + rewrite X1, X2, X3 in H4. rewrite Z.eqb_refl, orb_true_r in H4. exact H4.
  - intros C S. rewrite C, S in H5. discriminate.
Qed.

Definition plain_b (t : list entry) : bool :=
  forallb (fun e => forallb (fun e' =>
    negb (has fWRITE e') || negb (param e =? param e') ||
    negb (has fCOMPLEX e || has fNEXTNULL e || has fPREVNULL e)) t) t.

Lemma plain_b_ok t : plain_b t = true -> plain_outputs t.
Proof.
  intros H e e' I I' W P. unfold plain_b in H.
  rewrite forallb_forall in H. specialize (H e I). rewrite forallb_forall in H.
  specialize (H e' I'). cbn beta in H. rewrite W, P, Z.eqb_refl in H. cbn [negb orb] in H.
  destruct (has fCOMPLEX e), (has fNEXTNULL e), (has fPREVNULL e); try discriminate. auto.
Qed.

Lemma all_sensible : forallb (fun r => sensible_b (snd r)) linux_table = true.
Proof. vm_compute. reflexivity. Qed.

Lemma lookup_in n l t : lookup n l = Some t -> In (n, t) l.
Proof.
  induction l as [|[m u] l IH]; cbn; [discriminate|].
  destruct (String.eqb_spec n m) as [->|N]; [intros E; injection E as ->; left; auto|right; auto].
Qed.

Lemma table_sensible n t : lookup n linux_table = Some t -> sensible t.
Proof.
  intros L. apply lookup_in in L. apply sensible_b_ok.
  pose proof all_sensible as A. rewrite forallb_forall in A. exact (A _ L).
Qed.

Lemma plain_rows n t :
  lookup n linux_table = Some t -> member n addressed = false -> plain_outputs t.
Proof.
  intros L N. apply lookup_in in L. apply plain_b_ok.
  assert (A : forallb (fun r => member (fst r) addressed || plain_b (snd r)) linux_table = true)
    by (vm_compute; reflexivity).
  rewrite forallb_forall in A. specialize (A _ L). cbn [fst snd] in A.
  rewrite N in A. exact A.
Qed.

(** ** The departures *)

(** One call that tells them all from their contracts. *)
Definition sample_args (p : Z) : Z :=
  if (0 <=? p) && (p <? 6) then 4096 * (p + 1) else 0.
Definition sample : world :=
  World sample_args (fun a => Some (if a mod 4096 =? 0 then 0 else 1)) 1.
Definition sample_state : cls := Cls (fun _ => 0) 0 0 false.

Definition same_before (a b : bool * Z * Z) : bool :=
  Bool.eqb (fst (fst a)) (fst (fst b)) && (snd (fst a) =? snd (fst b)) && (snd a =? snd b).
Definition same_after (a b : Z * Z) : bool := (fst a =? fst b) && (snd a =? snd b).

Fixpoint same {A} (f : A -> A -> bool) (l k : list A) : bool :=
  match l, k with
  | [], [] => true
  | x :: l', y :: k' => f x y && same f l' k'
  | _, _ => false
  end.

Lemma same_refl {A} (f : A -> A -> bool) l : (forall x, f x x = true) -> same f l l = true.
Proof. intros H. induction l; cbn; auto. now rewrite H, IHl. Qed.

Definition exposed (t : list entry) (c : list use) : bool :=
  match session sample sample t sample_state with
  | Ok (pre, post) =>
      negb (same same_before (map view_before pre) (needs sample (fun _ => 0) c)) ||
      negb (same same_after (map view_after post) (writes sample sample c))
  | _ => true
  end.

Definition earnest_b (u : use) : bool :=
  match u with
  | Value p n => negb (n =? 4) || (sample_args p <? 2 ^ 32)
  | Reads p l | Writes p l => length_of sample l <? 2 ^ 64 - 1
  | ReadsString p => false
  | WritesCounted p q n => (sample_args q * n <? 2 ^ 64 - 1) && (n <? 2 ^ 64)
  | WritesSized p q => true
  | Exchanges p n => true
  end.

Lemma earnest_sample c :
  forallb earnest_b c = true -> earnest sample sample (fun _ => 0) c.
Proof.
  intros H. split; [|split; [auto|split; [|split; [|split]]]].
  - intros p. cbn [args sample]. unfold sample_args.
    destruct (Z.leb_spec 0 p), (Z.ltb_spec p 6); cbn [andb]; lia.
  - intros a b. cbn. destruct (a mod 4096 =? 0); intros E; injection E as <-; lia.
  - intros a b. cbn. destruct (a mod 4096 =? 0); intros E; injection E as <-; lia.
  - cbn. lia.
  - apply Forall_forall. intros u I. rewrite forallb_forall in H. specialize (H u I).
    destruct u; cbn [earnest1 earnest_b] in *; auto; try discriminate.
    + intros ->. cbn [negb orb Z.eqb Pos.eqb] in H. apply Z.ltb_lt in H. exact H.
    + now apply Z.ltb_lt in H.
    + now apply Z.ltb_lt in H.
    + apply andb_prop in H as [H1 H2]. apply Z.ltb_lt in H1. apply Z.ltb_lt in H2.
      split; [exact H1|]. cbn [ret sample]. lia.
Qed.

Lemma exposed_ok t c : forallb earnest_b c = true -> exposed t c = true -> ~ follows t c.
Proof.
  intros E X F. destruct (F sample sample (fun _ => 0) sample_state (earnest_sample c E))
    as (pre & post & S & P & Q).
  unfold exposed in X. rewrite S, P, Q in X.
  rewrite !same_refl in X; [discriminate| |].
  - intros [a b]. unfold same_after. cbn. now rewrite !Z.eqb_refl.
  - intros [[a b] d]. unfold same_before. cbn. now rewrite eqb_reflx, !Z.eqb_refl.
Qed.

Definition departs (x : string * list use) : bool :=
  negb (member (fst x) departures) ||
  match lookup (fst x) linux_table with
  | Some t => forallb earnest_b (snd x) && exposed t (snd x)
  | None => false
  end.

Lemma departures_real n c :
  In (n, c) kernel_contracts -> member n departures = true ->
  exists t, lookup n linux_table = Some t /\ ~ follows t c.
Proof.
  intros I M.
  assert (A : forallb departs kernel_contracts = true) by (vm_compute; reflexivity).
  rewrite forallb_forall in A. specialize (A _ I). unfold departs in A.
  cbn [fst snd] in A. rewrite M in A. cbn [negb orb] in A.
  destruct (lookup n linux_table) as [t|]; [|discriminate].
  apply andb_prop in A as [A1 A2]. exists t. split; auto. now apply exposed_ok.
Qed.

Lemma departures_listed : forall n, member n departures = true ->
  exists c, In (n, c) kernel_contracts.
Proof.
  assert (A : forall l, forallb (fun n => existsb (fun x => String.eqb n (fst x)) kernel_contracts) l = true ->
            forall n, member n l = true -> exists c, In (n, c) kernel_contracts).
  { induction l as [|m l IH]; cbn [forallb member]; intros H n M; [discriminate|].
    apply andb_prop in H as [H1 H2].
    apply orb_prop in M as [M|M]; [|apply IH; auto]. apply String.eqb_eq in M.
    apply existsb_exists in H1 as ([x c] & I & E). cbn in E. apply String.eqb_eq in E. subst. eauto. }
  apply A. vm_compute. reflexivity.
Qed.
