(** The reports of a leak check. *)
From Coq Require Import Relation_Operators.
From Verif Require Import Base Leak_Model Leak_Spec Leak_Proofs Leak_Proofs2 Leak_Proofs3 Leak_Proofs4.
Open Scope Z_scope.

Section Reports.
Context (e : env) (P : proper e) (s : state) (own : Z -> Z) (W : Final e s own).
Notation cs := (chunks e).
Definition rep (last : bool) (c : chunk) : found := F (base c) (len c) (fst (entry_of s (base c))) (reach s (base c)) (maybe s (base c)) (negb last) last.
Definition sel (last : bool) (c : chunk) : bool := negb (indirect s (base c)) && (negb last || reach s (base c)).
Lemma report_list last l : flat_map (report s last) l = map (rep last) (filter (sel last) l).
Proof. induction l as [|c l IH]; [reflexivity|]. cbn [flat_map filter]. unfold report at 1. change (negb (indirect s (base c)) && (negb last || reach s (base c))) with (sel last c). destruct (sel last c); cbn [app map]; rewrite IH; reflexivity. Qed.
Definition fs : list found := map (rep false) (filter (sel false) cs) ++ (if show_reachable e then map (rep true) (filter (sel true) cs) else []).
Lemma scan_fs : classify e = Ok s -> leak_scan e = Ok fs.
Proof. intros E. unfold leak_scan. rewrite E. cbn [bind]. unfold fs. rewrite !report_list. reflexivity. Qed.
Lemma in_fs f : In f fs <-> exists last c, In c cs /\ sel last c = true /\ f = rep last c /\ (last = true -> show_reachable e = true).
Proof.
  unfold fs. rewrite in_app_iff, in_map_iff. split.
  - intros [(c & <- & I)|I].
    + apply filter_In in I. exists false, c. repeat split; try tauto. discriminate.
    + destruct (show_reachable e) eqn:Q; [|destruct I]. apply in_map_iff in I. destruct I as (c & <- & I). apply filter_In in I. exists true, c. tauto.
  - intros ([] & c & I & S & -> & Q).
    + right. rewrite Q by reflexivity. apply in_map, filter_In. auto.
    + left. exists c. split; [reflexivity|]. apply filter_In. auto.
Qed.
Lemma sel_direct last c : In c cs -> sel last c = true -> own (base c) = base c.
Proof. intros I S. apply (f_root _ _ _ W c I). unfold sel in S. apply andb_true_iff in S. destruct S as (S & _). apply negb_true_iff in S. exact S. Qed.
Lemma rep_iff r c : In c cs -> (reported fs r c <-> own (base c) = base c /\ reach s (base c) = r).
Proof.
  intros I. split.
  - intros (f & K & E & R). apply in_fs in K. destruct K as (last & d & J & S & -> & _). cbn in E, R. assert (d = c) by (apply (base_inj e P); auto). subst d. split; [eapply sel_direct; eauto|exact R].
  - intros (O & R). apply (f_root _ _ _ W c I) in O. exists (rep false c). split; [|auto]. apply in_fs. exists false, c. split; [exact I|]. split; [unfold sel; rewrite O; reflexivity|]. split; [reflexivity|discriminate].
Qed.
Lemma un_unreach c : In c cs -> (reach s (base c) = false <-> ~ Reach e c).
Proof. intros I. rewrite <- (f_reached _ _ _ W c I). destruct (reach s (base c)); split; congruence. Qed.
Lemma reach_direct c : In c cs -> reach s (base c) = true -> own (base c) = base c.
Proof. intros I R. apply (f_root _ _ _ W c I). destruct (indirect s (base c)) eqn:Q; [|reflexivity]. rewrite (f_indir _ _ _ W c I Q) in R. discriminate. Qed.
Lemma own_chunk d : In d cs -> exists c, In c cs /\ own (base d) = base c /\ own (base c) = base c /\ reach s (base c) = reach s (base d) /\ path e c d.
Proof.
  intros I. destruct (f_own _ _ _ W d I) as (c & J & O & O2 & Pa). exists c. repeat split; auto. pose proof (own_un e P s own W d c I J O) as H. unfold un in H. destruct (reach s (base c)), (reach s (base d)); auto; discriminate.
Qed.
Lemma starts_nodup {B} (f : chunk -> B) g p l : NoDup (map base l) -> (forall c, g (f c) = base c) -> NoDup (map g (map f (filter p l))).
Proof.
  intros N G. rewrite map_map, (map_ext _ _ G). clear G. induction l as [|c l IH]; [constructor|]. cbn in *. inversion N as [|? ? N1 N2]; subst. destruct (p c); [|auto]. cbn. constructor; auto.
  intros I. apply N1. apply in_map_iff in I. destruct I as (d & E & I). apply filter_In in I. rewrite <- E. apply in_map. tauto.
Qed.
Lemma filter_all {A} (p : A -> bool) l : (forall x, In x l -> p x = true) -> filter p l = l.
Proof. induction l as [|x l IH]; intros H; [reflexivity|]. cbn. rewrite (H x (or_introl eq_refl)). f_equal. apply IH. intros y I. apply H. right. exact I. Qed.
Lemma filter_none {A} (p : A -> bool) l : (forall x, In x l -> p x = false) -> filter p l = [].
Proof. induction l as [|x l IH]; intros H; [reflexivity|]. cbn. rewrite (H x (or_introl eq_refl)). apply IH. intros y I. apply H. right. exact I. Qed.
Lemma filter_map {A B} (f : A -> B) p l : filter p (map f l) = map f (filter (fun x => p (f x)) l).
Proof. induction l as [|x l IH]; [reflexivity|]. cbn. destruct (p (f x)); cbn; rewrite IH; reflexivity. Qed.
Lemma filter_filter {A} (p q : A -> bool) l : filter p (filter q l) = filter (fun x => q x && p x) l.
Proof. induction l as [|x l IH]; [reflexivity|]. cbn. destruct (q x); cbn; [destruct (p x)|]; rewrite IH; reflexivity. Qed.
Lemma counted : filter f_count fs = map (rep false) (filter (sel false) cs).
Proof.
  unfold fs. rewrite filter_app, (filter_all f_count). 2: { intros x I. apply in_map_iff in I. destruct I as (c & <- & _). reflexivity. }
  rewrite (filter_none f_count), app_nil_r; [reflexivity|]. destruct (show_reachable e); [|intros x []]. intros x I. apply in_map_iff in I. destruct I as (c & <- & _). reflexivity.
Qed.
Lemma shown : filter f_show fs = if show_reachable e then map (rep true) (filter (sel true) cs) else [].
Proof.
  unfold fs. rewrite filter_app, (filter_none f_show). 2: { intros x I. apply in_map_iff in I. destruct I as (c & <- & _). reflexivity. }
  cbn [app]. destruct (show_reachable e); [|reflexivity]. apply filter_all. intros x I. apply in_map_iff in I. destruct I as (c & <- & _). reflexivity.
Qed.
Lemma filter_and {A} (p q : A -> bool) l : filter (fun x => p x && q x) l = filter q (filter p l).
Proof. symmetry. apply filter_filter. Qed.

Lemma fs_classified : classified e fs.
Proof.
  constructor.
  - intros f K. apply in_fs in K. destruct K as (last & c & I & _ & -> & _). exists c. auto.
  - intros c I. rewrite rep_iff by auto. rewrite <- (f_reached _ _ _ W c I). split; [|tauto]. intros R. split; [apply reach_direct; auto|exact R].
  - intros c I N. apply un_unreach in N; auto. destruct (own_chunk c I) as (b & J & O & O2 & R & Pa). rewrite N in R. exists b. split; [exact J|]. split; [apply un_unreach; auto|]. split; [apply rep_iff; auto|exact Pa].
  - intros c I K. apply rep_iff in K; auto. apply un_unreach; tauto.
  - intros f c K I E R M. apply in_fs in K. destruct K as (last & d & J & S & -> & _). cbn in *. assert (d = c) by (apply (base_inj e P); auto). subst d. apply (f_doubt _ _ _ W c I M).
  - intros f c K I E R M. apply in_fs in K. destruct K as (last & d & J & S & -> & _). cbn in *. assert (d = c) by (apply (base_inj e P); auto). subst d.
    assert (Q : indirect s (base c) = false) by (apply (f_root _ _ _ W c I); eapply sel_direct; eauto). split.
    + intros X. destruct (f_rootloose _ _ _ W c I X); congruence.
    + intros b Ib L. split.
      * intros X. apply (f_reached _ _ _ W b Ib) in X. destruct (f_loose _ _ _ W b c Ib I L) as [Y|[Y|Y]]; try congruence. intros (_ & Y). apply (f_indir _ _ _ W b Ib) in Y. congruence.
      * intros X. apply rep_iff in X; auto. destruct X as (X & _). apply (f_root _ _ _ W b Ib) in X. destruct (f_loose _ _ _ W b c Ib I L) as [Y|[Y|Y]]; try congruence. intros (_ & Y). congruence.
  - intros b c Ib Ic Rb Rc L. apply rep_iff in Rb; auto. apply rep_iff in Rc; auto. destruct Rb as (Ob & Rb), Rc as (Oc & Rc). pose proof Ob as Qb. pose proof Oc as Qc. apply (f_root _ _ _ W b Ib) in Qb. apply (f_root _ _ _ W c Ic) in Qc.
    destruct (f_firm _ _ _ W b c Ib Ic L Rb) as [Y|[Y|Y]]; try congruence. { intros (_ & Y). congruence. } apply (base_inj e P); auto. congruence.
  - rewrite counted. apply starts_nodup; [apply (p_nodup e P)|reflexivity].
  - intros f K. apply in_fs in K. destruct K as ([] & c & I & S & -> & Q); [|left; reflexivity]. right. cbn. split; [reflexivity|]. split; [|auto]. unfold sel in S. cbn in S. apply andb_true_iff in S. tauto.
  - rewrite shown, filter_and, counted. destruct (show_reachable e); [|reflexivity]. rewrite filter_map, filter_filter, !map_map. cbn [rep f_start f_reach]. f_equal. apply filter_ext. intros c. unfold sel. cbn. rewrite andb_true_r. reflexivity.
Qed.
Lemma map_total {A B} (f : A -> B) g l : total g (map f l) = total (fun x => g (f x)) l.
Proof. induction l as [|x l IH]; [reflexivity|]. cbn. unfold total in *. rewrite IH. reflexivity. Qed.
Lemma base_nodup l : NoDup (map base l) -> NoDup l.
Proof. apply NoDup_map_inv. Qed.
Lemma in_un c : In c (filter (un s) cs) <-> In c cs /\ ~ Reach e c.
Proof. rewrite filter_In. split; intros (I & H); split; auto; apply (un_iff e s own W c I); auto. Qed.
Lemma indirect_bytes c : In c cs -> own (base c) = base c -> fst (entry_of s (base c)) = total len (filter (fun d => (own (base d) =? base c) && negb (base d =? base c)) cs).
Proof. intros I O. rewrite (f_bytes _ _ _ W c I O). apply (group_split e P own c I O). Qed.
Lemma fs_attributed : attributed e fs.
Proof.
  constructor.
  - exists (filter (un s) cs). split; [apply NoDup_filter, base_nodup, (p_nodup e P)|]. split; [apply in_un|]. split.
    + rewrite filter_and, counted, filter_map, filter_filter, map_total, !total_filter. rewrite <- (sum_groups e P s own W). apply total_ext. intros c I.
      unfold sel, un. cbn [rep f_size f_indirect f_reach negb orb]. rewrite andb_true_r. destruct (indirect s (base c)) eqn:Q; cbn [negb andb].
      * destruct (own (base c) =? base c) eqn:O; [|rewrite andb_false_r; reflexivity]. apply Z.eqb_eq in O. apply (f_root _ _ _ W c I) in O. congruence.
      * apply (f_root _ _ _ W c I) in Q. rewrite Q, Z.eqb_refl, andb_true_r. destruct (reach s (base c)); cbn [negb]; [reflexivity|]. rewrite (f_bytes _ _ _ W c I Q). lia.
    + exists (fun d => own (base d)). split; [|split].
      * intros d I. apply in_un in I. destruct I as (I & N). apply un_unreach in N; auto. destruct (own_chunk d I) as (c & J & O & O2 & R & Pa). rewrite N in R. exists c. split; [apply in_un; split; auto; apply un_unreach; auto|]. split; [exact O|]. split; [apply rep_iff; auto|exact Pa].
      * intros c I. apply in_un in I. destruct I as (I & N). apply un_unreach in N; auto. rewrite rep_iff by auto. tauto.
      * intros f K R. apply in_fs in K. destruct K as (last & c & I & S & -> & _). cbn [rep f_indirect f_start f_reach] in *. rewrite (indirect_bytes c I (sel_direct last c I S)), filter_filter. f_equal. apply filter_ext_in. intros d J.
        destruct (own (base d) =? base c) eqn:O; [|cbn; rewrite andb_false_r; reflexivity]. apply Z.eqb_eq in O. pose proof (own_un e P s own W d c J I O) as X. rewrite <- X. unfold un. rewrite R. reflexivity.
  - intros f K R. apply in_fs in K. destruct K as (last & c & I & S & -> & _). cbn [rep f_indirect f_reach] in *. rewrite (indirect_bytes c I (sel_direct last c I S)), filter_none; [reflexivity|].
    intros d J. destruct (own (base d) =? base c) eqn:O; [|reflexivity]. apply Z.eqb_eq in O. pose proof (own_un e P s own W d c J I O) as X. unfold un in X. rewrite R in X. symmetry in X. apply negb_false_iff in X. pose proof (reach_direct d J X). cbn. apply negb_false_iff, Z.eqb_eq. congruence.
Qed.
End Reports.

Theorem leak_scan_ok e : proper e -> exists fs, leak_scan e = Ok fs /\ classified e fs /\ attributed e fs.
Proof.
  intros P. destruct (classify_final e P) as (s & own & E & W). exists (fs e s). split; [apply scan_fs; exact E|]. split; [apply fs_classified with own; auto|apply fs_attributed with own; auto].
Qed.
