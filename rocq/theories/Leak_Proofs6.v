(** The leak scan over the words of memory. *)
From Verif Require Import Base Leak_Model Leak_Spec LeakScan_Model LeakScan_Spec LeakScan_Proofs Leak_Proofs5.
Open Scope Z_scope.

Section Memory.
Context (m : machine) (t : truth) (top : Z) (cs : list chunk) (lo : Z) (mem : Z -> option Z) (lg : Z -> Z -> Z -> bool) (rs : list (Z * Z)) (show : bool).
Context (G : agrees m t).
Context (Len : forall c, In c cs -> 0 < len c) (Low : forall c, In c cs -> PAGE_SIZE < base c /\ lo <= base c)
  (ND : NoDup (map base cs)) (DJ : forall c d a, In c cs -> In d cs -> base c <= a < base c + len c -> base d <= a < base d + len d -> c = d)
  (RG : forall r v, In (r, v) rs -> 0 <= r <= PAGE_SIZE).
Let e := env_of m top cs lo mem lg rs show.
Lemma visited_in sk s f : 0 <= s -> forall a, (exists de, In (a, de) (ok_words (visited m sk s f))) <-> wanted m t sk s f a.
Proof.
  intros H a. destruct (visited_ok m t G sk s f H) as (ws & E & (_ & M) & _). rewrite E. cbn [ok_words]. rewrite <- M, in_map_iff.
  split; [intros (de & I); exists (a, de); auto|]. intros ((a', de) & <- & I). exists de. exact I.
Qed.
Lemma base_pos c : In c cs -> 0 <= base c.
Proof. intros I. destruct (Low c I) as (L & _). unfold PAGE_SIZE in L. lia. Qed.
Lemma e_proper : proper e.
Proof.
  constructor; auto.
  - intros c a de I W. cbn in W. pose proof (base_pos c I).
    assert (X : wanted m t false (base c) (base c + len c) a) by (apply visited_in; eauto).
    destruct X as (_ & L1 & L2 & _). unfold PTR in L2. split; lia.
Qed.
Lemma aims_points v c : In c cs -> (aims e v true c <-> points lg v c).
Proof.
  intros I. unfold aims, points, holds. cbn. pose proof (Len c I). split.
  - intros [->|(H1 & H2 & H3)]; [left; reflexivity|right]. split; [lia|exact H3].
  - intros [->|(H1 & H2)]; [left; reflexivity|right]. split; [lia|]. split; [lia|exact H2].
Qed.
Lemma refs_word a de c : In c cs -> (refs e a de true c <-> word_to mem lg a c).
Proof.
  intros I. unfold refs, word_to. cbn [rd is_string e env_of]. unfold holds. split.
  - intros ((v & R & A) & N & _). split; [|exact N]. exists v. split; [exact R|]. apply aims_points; auto.
  - intros ((v & R & A) & N). split; [|split; [exact N|right; reflexivity]]. exists v. split; [exact R|]. apply aims_points; auto.
Qed.
Lemma chain_in c : Chain m t top cs mem lg rs c -> In c cs.
Proof. intros H; destruct H; auto. Qed.
Lemma reach_chain c : Reach e c <-> Chain m t top cs mem lg rs c.
Proof.
  split.
  - induction 1 as [c I [(r & v & J & A)|(a & de & J & A)]|b c R IH I (a & de & J & A)].
    + eapply ch_reg; eauto. apply aims_points; auto.
    + apply ch_root with a; auto; [|apply refs_word in A; auto]. apply visited_in; [lia|]. exists de. exact J.
    + apply ch_block with a b; auto; [|apply refs_word in A; auto]. apply visited_in; [apply base_pos, chain_in; exact IH|]. exists de. exact J.
  - induction 1 as [r v c I J A|a c I W A|a b c R IH I W A].
    + apply reach_root; auto. left. exists r, v. split; [exact J|]. apply aims_points; auto.
    + apply visited_in in W; [|lia]. destruct W as (de & W). apply reach_root; auto. right. exists a, de. split; [exact W|]. apply refs_word; auto.
    + apply visited_in in W; [|apply base_pos, chain_in; exact R]. destruct W as (de & W). apply reach_link with b; auto. exists a, de. split; [exact W|]. apply refs_word; auto.
Qed.
Theorem memory_ok : exists fs, leak_scan e = Ok fs /\ classified e fs /\ attributed e fs /\
  forall c, In c cs -> (Chain m t top cs mem lg rs c <-> reported fs true c).
Proof.
  destruct (leak_scan_ok e e_proper) as (fs & E & C & A). exists fs. repeat (split; [assumption|]).
  intros c I. rewrite <- reach_chain. apply (c_reach e fs C c I).
Qed.
End Memory.
