(** The text test finds exactly the texts. *)
From Verif Require Import Base Leak_Model LeakScan_Model LeakScan_Spec.
Open Scope Z_scope.

Definition ok (b : Z) : Prop := 0 < b < 128.
Definition textc (n : nat) (l : list Z) : Prop := exists rs p q, l = p ++ q /\ padded rs p /\ Forall (long 10) rs /\
  ((n + length rs = 3)%nat \/ (n + length rs <= 2)%nat /\ exists r q', q = r ++ q' /\ run r /\ long 129 r).

Lemma split_eq x y a b s t : run x -> run y -> ~ ok a -> ~ ok b -> x ++ a :: s = y ++ b :: t -> x = y /\ a = b /\ s = t.
Proof.
  intros X. revert y. induction X as [|c x Hc X IH]; intros [|d y] Y A B E; cbn in E; inversion E; subst; auto.
  - inversion Y; subst. contradiction.
  - contradiction.
  - inversion Y; subst. destruct (IH y) as (-> & -> & ->); auto.
Qed.
Lemma run_within x y b s t : run x -> run y -> ~ ok b -> x ++ s = y ++ b :: t -> (length x <= length y)%nat.
Proof.
  intros X. revert y. induction X as [|c x Hc X IH]; intros [|d y] Y B E; cbn in E |- *; try lia; inversion E; subst.
  - contradiction.
  - inversion Y; subst. specialize (IH y). intuition lia.
Qed.
Lemma run_prefix (x y s : list Z) : x ++ s = y -> (length x <= length y)%nat.
Proof. intros <-. rewrite app_length. lia. Qed.
Lemma not_ok_0 : ~ ok 0. Proof. unfold ok. lia. Qed.

(** The first thing in a text that starts with a run closed by [b]. *)
Lemma textc_open n r b l : (n <= 2)%nat -> run r -> (length r <= 128)%nat -> ~ ok b -> textc n (r ++ b :: l) ->
  b = 0 /\ ((r = [] /\ textc n l) \/ (r <> [] /\ long 10 r /\ textc (S n) l)).
Proof.
  intros N R L B (rs & p & q & E & P & F & D).
  destruct P as [|rs p P|r1 rs p R1 NE P]; cbn in E.
  - exfalso. cbn in D. destruct D as [D|(_ & x & q' & -> & X & LX)]; [lia|].
    pose proof (run_within x r b q' l X R B (eq_sym E)). unfold long in LX. lia.
  - destruct r as [|c r]; cbn in E; inversion E; subst.
    + split; [reflexivity|]. left. split; [reflexivity|]. exists rs, p, q. auto.
    + inversion R; subst. lia.
  - rewrite <- app_assoc in E. cbn in E.
    destruct (split_eq r r1 b 0 l (p ++ q) R R1 B not_ok_0 E) as (-> & -> & ->).
    split; [reflexivity|]. right. inversion F; subst. split; [assumption|]. split; [assumption|].
    exists rs, p, q. cbn [length] in D. repeat split; auto.
    destruct D as [D|[D X]]; [left; lia|right; split; [lia|exact X]].
Qed.
Lemma textc_short n r : (n <= 2)%nat -> run r -> (length r <= 128)%nat -> ~ textc n r.
Proof.
  intros N R L (rs & p & q & E & P & F & D).
  destruct P as [|rs p P|r1 rs p R1 NE P]; cbn in E.
  - cbn in D. destruct D as [D|(_ & x & q' & -> & X & LX)]; [lia|].
    pose proof (run_prefix x r q' (eq_sym E)). unfold long in LX. lia.
  - subst r. inversion R; subst. lia.
  - subst r. unfold run in R. rewrite !Forall_app in R. destruct R as ((_ & R) & _). inversion R; subst. lia.
Qed.
Lemma textc_zero n l : textc n l -> textc n (0 :: l).
Proof. intros (rs & p & q & -> & P & F & D). exists rs, (0 :: p), q. repeat split; auto. constructor; exact P. Qed.
Lemma textc_run n r l : run r -> r <> [] -> long 10 r -> textc (S n) l -> textc n (r ++ 0 :: l).
Proof.
  intros R NE L (rs & p & q & -> & P & F & D). exists (r :: rs), (r ++ 0 :: p), q. cbn [length].
  repeat split.
  - rewrite <- app_assoc. reflexivity.
  - constructor; assumption.
  - constructor; assumption.
  - destruct D as [D|[D X]]; [left; lia|right; split; [lia|exact X]].
Qed.

Lemma part_ok l : Forall (fun b => 0 <= b < 256) l -> forall n r, (n <= 2)%nat -> run r -> (length r <= 128)%nat ->
  part_of_string l (Z.of_nat n) (Z.of_nat (length r)) = true <-> textc n (r ++ l).
Proof.
  induction 1 as [|b l Hb Hl IH]; intros n r N R L; cbn [part_of_string].
  - rewrite app_nil_r. unfold STRING_MIN_COUNT. split; [intros H; apply Z.leb_le in H; lia|].
    intros H. destruct (textc_short n r); assumption.
  - unfold STRING_MIN_COUNT, STRING_MIN_LEN, STRING_SINGLE_MAX_LEN, IS_ASCII.
    destruct (Z.eqb_spec b 0) as [->|NB].
    + destruct r as [|c r].
      * cbn [length app]. change (0 <? Z.of_nat 0) with false. cbn iota.
        specialize (IH n [] N R L). cbn [length app] in IH. change (Z.of_nat 0) with 0 in IH. rewrite IH.
        split; [apply textc_zero|]. intros T.
        destruct (textc_open n [] 0 l N R L not_ok_0 T) as (_ & [(_ & T')|(C & _)]); [exact T'|congruence].
      * set (r' := c :: r) in *.
        assert (NE : r' <> []) by discriminate.
        assert (PL : 0 < Z.of_nat (length r')) by (cbn; lia).
        rewrite (proj2 (Z.ltb_lt _ _) PL).
        destruct (Z.ltb_spec (Z.of_nat (length r')) 10) as [SH|SH].
        -- split; [discriminate|]. intros T.
           destruct (textc_open n r' 0 l N R L not_ok_0 T) as (_ & [(C & _)|(_ & LG & _)]); [congruence|]. unfold long in LG. lia.
        -- destruct (Z.leb_spec 3 (Z.of_nat n + 1)) as [T|T].
           ++ split; [|reflexivity]. intros _. apply textc_run; auto. exists [], [], l. repeat split; auto; [constructor|]. left. cbn. lia.
           ++ replace (Z.of_nat n + 1) with (Z.of_nat (S n)) by lia.
              specialize (IH (S n) []). cbn [length app] in IH. change (Z.of_nat 0) with 0 in IH.
              rewrite IH; [|lia|constructor|lia].
              split; [intros; apply textc_run; auto|]. intros X.
              destruct (textc_open n r' 0 l N R L not_ok_0 X) as (_ & [(C & _)|(_ & _ & X')]); [congruence|exact X'].
    + destruct (Z.ltb_spec b 128) as [A|A]; cbn [andb negb].
      * destruct (Z.leb_spec 128 (Z.of_nat (length r))) as [T|T].
        -- split; [|reflexivity]. intros _. exists [], [], (r ++ b :: l). repeat split; auto; [constructor|].
           right. split; [cbn; lia|]. exists (r ++ [b]), l. rewrite <- app_assoc. repeat split.
           ++ apply Forall_app. split; [exact R|]. repeat constructor; lia.
           ++ unfold long. rewrite app_length. cbn [length]. lia.
        -- specialize (IH n (r ++ [b]) N). rewrite app_length, <- app_assoc in IH. cbn [length app] in IH.
           replace (Z.of_nat (length r) + 1) with (Z.of_nat (length r + 1)) by lia. apply IH; [|lia].
           apply Forall_app. split; [exact R|]. repeat constructor; lia.
      * split; [discriminate|]. intros T.
        destruct (textc_open n r b l N R L) as (C & _); [unfold ok; lia|exact T|lia].
Qed.
Theorem part_of_string_ok l : Forall (fun b => 0 <= b < 256) l -> (part_of_string l 0 0 = true <-> text l).
Proof.
  intros H. rewrite (part_ok l H 0 []); [|lia|constructor|cbn; lia]. reflexivity.
Qed.
