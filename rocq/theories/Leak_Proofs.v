(** The leak scan word by word. *)
From Coq Require Import Relation_Operators.
From Verif Require Import Base Leak_Model Leak_Spec.
Open Scope Z_scope.

Section Proofs.
Context (e : env) (P : proper e).
Notation cs := (chunks e).

Lemma base_inj c d : In c cs -> In d cs -> base c = base d -> c = d.
Proof.
  intros I J E. apply (p_disj e P c d (base c)); auto; unfold holds; pose proof (p_len e P c I); pose proof (p_len e P d J); lia.
Qed.
Lemma find_chunk (f : chunk -> bool) c : In c cs -> f c = true -> (forall d, In d cs -> f d = true -> d = c) -> find f cs = Some c.
Proof.
  intros I F U. destruct (find f cs) as [d|] eqn:Q; [apply find_some in Q; destruct Q; f_equal; auto|]. exfalso. apply (find_none _ _ Q) in I. congruence.
Qed.
Lemma in_node_some c a : In c cs -> holds c a -> in_node e a = Some c.
Proof.
  intros I H. apply find_chunk; auto; [unfold holds in H; lia|]. intros d J Q. apply (p_disj e P d c a); auto. unfold holds. lia.
Qed.
Lemma in_node_inv c a : in_node e a = Some c -> In c cs /\ holds c a.
Proof. intros H. apply find_some in H. destruct H as (I & H). split; [exact I|]. unfold holds. lia. Qed.
Lemma malloc_end_some c : In c cs -> malloc_end e (base c) = Some (base c + len c).
Proof.
  intros I. unfold malloc_end. rewrite (find_chunk _ c); [reflexivity|auto|apply Z.eqb_refl|]. intros d J Q. apply base_inj; auto. lia.
Qed.
Lemma malloc_end_inv a x : malloc_end e a = Some x -> exists c, In c cs /\ a = base c /\ x = base c + len c.
Proof.
  unfold malloc_end. destruct (find _ cs) as [c|] eqn:Q; [|discriminate]. intros [= <-]. apply find_some in Q. destruct Q. exists c. repeat split; auto. lia.
Qed.

(** The block a word refers to. *)
Definition target (v a de : Z) : option (bool * chunk) :=
  match in_node e v with
  | None => None
  | Some c => if (base c <=? a) && (a <? base c + len c) then None
              else if (PAGE_SIZE <? a) && is_string e a de then None
              else if v =? base c then Some (true, c) else Some (legit e v (base c) (base c + len c), c)
  end.
Lemma target_inv v a de f c : target v a de = Some (f, c) -> In c cs /\ aims e v f c /\ ~ holds c a /\ (a <= PAGE_SIZE \/ is_string e a de = false).
Proof.
  unfold target. destruct (in_node e v) as [d|] eqn:N; [|discriminate]. apply in_node_inv in N. destruct N as (I & H).
  destruct (_ && _) eqn:S; [discriminate|]. destruct ((PAGE_SIZE <? a) && _) eqn:T; [discriminate|].
  assert (X : ~ holds d a) by (unfold holds; lia). assert (Y : a <= PAGE_SIZE \/ is_string e a de = false). { destruct (PAGE_SIZE <? a) eqn:L; [right; exact T|left; lia]. }
  destruct (v =? base d) eqn:B.
  - intros [= <- <-]. repeat split; auto. left. lia.
  - intros [= <- <-]. split; [auto|]. split; [|auto]. apply Z.eqb_neq in B. unfold aims. destruct (legit e v (base d) (base d + len d)); auto.
Qed.
Lemma aims_holds v f c : In c cs -> aims e v f c -> holds c v.
Proof. intros I. pose proof (p_len e P c I). unfold aims. destruct f; [intros [->|(A & _)]|intros (A & _)]; auto; unfold holds; lia. Qed.
Lemma target_some v a de f c : In c cs -> aims e v f c -> ~ holds c a -> (a <= PAGE_SIZE \/ is_string e a de = false) -> target v a de = Some (f, c).
Proof.
  intros I A H S. unfold target. rewrite (in_node_some c v I (aims_holds v f c I A)).
  destruct ((base c <=? a) && (a <? base c + len c)) eqn:Q; [exfalso; apply H; unfold holds; lia|].
  destruct ((PAGE_SIZE <? a) && is_string e a de) eqn:T; [destruct S as [S|S]; [lia|rewrite S, andb_false_r in T; discriminate]|].
  unfold aims in A. destruct f.
  - destruct A as [->|(_ & N & ->)]; [rewrite Z.eqb_refl; reflexivity|]. apply Z.eqb_neq in N. rewrite N. reflexivity.
  - destruct A as (_ & N & ->). apply Z.eqb_neq in N. rewrite N. reflexivity.
Qed.

Definition add_reach (s : state) (c : chunk) : state :=
  if reach s (base c) then s else St (set (reach s) (base c) true) (maybe s) (indirect s) (entries s) (reachq s ++ [(base c, base c + len c)]) (midq s).
Definition add_maybe (s : state) (c : chunk) : state :=
  if maybe s (base c) || reach s (base c) || indirect s (base c) then s
  else St (reach s) (set (maybe s) (base c) true) (indirect s) (entries s) (reachq s) (midq s ++ [(base c, base c + len c)]).
Lemma check_is primary s v a de : check_pointer e primary s v a de =
  match target v a de with
  | None => Ok s
  | Some (true, c) => if primary then Ok (add_reach s c) else mark_indirect e s a (base c) (base c + len c)
  | Some (false, c) => Ok (add_maybe s c)
  end.
Proof.
  unfold check_pointer, target. destruct (in_node e v) as [n|] eqn:N.
  2: { destruct (v =? 0); [reflexivity|]. destruct (v <? low e); reflexivity. }
  apply in_node_inv in N. destruct N as (I & H). pose proof (p_low e P n I) as (L1 & L2). unfold holds, PAGE_SIZE in *.
  replace (v =? 0) with false by lia. replace (v <? low e) with false by lia. cbn [andb].
  destruct ((base n <=? a) && (a <? base n + len n)) eqn:S.
  - destruct ((4096 <? a) && is_string e a de); [reflexivity|]. destruct (malloc_end e v) as [x|] eqn:M.
    + apply malloc_end_inv in M. destruct M as (c & J & -> & ->). assert (c = n); [|subst c]. { apply (p_disj e P c n (base c)); auto; unfold holds; pose proof (p_len e P c J); lia. }
      rewrite S. reflexivity.
    + reflexivity.
  - destruct ((4096 <? a) && is_string e a de); [reflexivity|]. destruct (malloc_end e v) as [x|] eqn:M.
    + apply malloc_end_inv in M. destruct M as (c & J & -> & ->). assert (c = n); [|subst c]. { apply (p_disj e P c n (base c)); auto; unfold holds; pose proof (p_len e P c J); lia. }
      rewrite S, Z.eqb_refl. cbn [negb andb]. destruct primary; cbn [negb andb bind].
      * unfold add_reach. destruct (reach s (base n)); reflexivity.
      * destruct (mark_indirect e s a (base n) (base n + len n)); reflexivity.
    + destruct (v =? base n) eqn:B. { apply Z.eqb_eq in B. subst v. rewrite malloc_end_some in M by auto. discriminate. }
      destruct (legit e v (base n) (base n + len n)).
      * destruct primary; cbn [negb andb bind].
        -- unfold add_reach. destruct (reach s (base n)); reflexivity.
        -- destruct (mark_indirect e s a (base n) (base n + len n)); reflexivity.
      * cbn [andb bind]. unfold add_maybe. destruct (maybe s (base n) || reach s (base n) || indirect s (base n)); reflexivity.
Qed.

(** What a list of words refers to. *)
Definition hit := (Z * (bool * chunk))%type.
Definition hits (ws : list (Z * Z)) : list hit :=
  flat_map (fun w => match rd e (fst w) with Some v => match target v (fst w) (snd w) with Some t => [(fst w, t)] | None => [] end | None => [] end) ws.
Definition reg_hits (rs : list (Z * Z)) : list hit := flat_map (fun w => match target (snd w) (fst w) 0 with Some t => [(fst w, t)] | None => [] end) rs.
Definition one (primary : bool) (s : state) (h : hit) : res state :=
  match h with
  | (_, (false, c)) => Ok (add_maybe s c)
  | (a, (true, c)) => if primary then Ok (add_reach s c) else mark_indirect e s a (base c) (base c + len c)
  end.
Fixpoint play (primary : bool) (s : state) (hs : list hit) : res state :=
  match hs with [] => Ok s | h :: hs => let* s := one primary s h in play primary s hs end.
Lemma play_app p hs ks : forall s, play p s (hs ++ ks) = let* s := play p s hs in play p s ks.
Proof. induction hs as [|h hs IH]; intros s; cbn; [reflexivity|]. destruct (one p s h); cbn; auto. Qed.
Lemma scan_is p ws : forall s, scan e p s ws = play p s (hits ws).
Proof.
  induction ws as [|[a de] ws IH]; intros s; cbn [scan hits flat_map fst snd]; [reflexivity|]. fold (hits ws). rewrite play_app. destruct (rd e a) as [v|]; cbn [play bind]; [|apply IH].
  rewrite check_is. destruct (target v a de) as [[[] c]|]; cbn [play one bind]; rewrite ?IH; auto. destruct p; cbn; rewrite ?IH; auto.
  destruct (mark_indirect e s a (base c) (base c + len c)); cbn; auto.
Qed.
Lemma scan_regs_is rs : forall s, scan_regs e s rs = play true s (reg_hits rs).
Proof.
  induction rs as [|[r v] rs IH]; intros s; cbn [scan_regs reg_hits flat_map fst snd]; [reflexivity|]. fold (reg_hits rs). rewrite play_app, check_is.
  destruct (target v r 0) as [[[] c]|]; cbn [play one bind]; auto.
Qed.
Lemma hits_iff ws f c : (exists a, In (a, (f, c)) (hits ws)) <-> (exists a de, In (a, de) ws /\ In c cs /\ refs e a de f c).
Proof.
  split.
  - intros (a & I). apply in_flat_map in I. destruct I as ((a', de) & I & H). cbn [fst snd] in H. destruct (rd e a') as [v|] eqn:R; [|destruct H]. destruct (target v a' de) as [t|] eqn:T; [|destruct H].
    destruct H as [[= -> ->]|[]]. apply target_inv in T. destruct T as (J & A & N & S). exists a, de. repeat split; auto. exists v. auto.
  - intros (a & de & I & J & (v & R & A) & N & S). exists a. apply in_flat_map. exists (a, de). split; [exact I|]. cbn [fst snd]. rewrite R, (target_some v a de f c) by auto. left. reflexivity.
Qed.
Lemma reg_hits_iff f c : (exists a, In (a, (f, c)) (reg_hits (regs e))) <-> (exists r v, In (r, v) (regs e) /\ In c cs /\ aims e v f c).
Proof.
  split.
  - intros (a & I). apply in_flat_map in I. destruct I as ((r, v) & I & H). cbn [fst snd] in H. destruct (target v r 0) as [t|] eqn:T; [|destruct H].
    destruct H as [[= -> ->]|[]]. apply target_inv in T. destruct T as (J & A & N & S). eauto 6.
  - intros (r & v & I & J & A). exists r. apply in_flat_map. exists (r, v). split; [exact I|]. cbn [fst snd]. pose proof (p_regs e P r v I). pose proof (p_low e P c J).
    rewrite (target_some v r 0 f c); [left; reflexivity|auto|auto|unfold holds; lia|left; lia].
Qed.
Lemma hit_chunk ws a f c : In (a, (f, c)) (hits ws) -> In c cs.
Proof. intros I. assert (X : exists a, In (a, (f, c)) (hits ws)) by eauto. apply hits_iff in X. destruct X as (? & ? & ? & ? & _). auto. Qed.
Lemma hit_word ws a t : In (a, t) (hits ws) -> exists de, In (a, de) ws.
Proof.
  intros I. apply in_flat_map in I. destruct I as ((a', de) & I & H). cbn [fst snd] in H. destruct (rd e a') as [v|]; [|destruct H]. destruct (target v a' de); [|destruct H]. destruct H as [[= -> _]|[]]. eauto.
Qed.
End Proofs.
