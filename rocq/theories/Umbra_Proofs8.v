(** Start-up: the scan covers every region, and a successful start-up leaves
    all ranges separated. *)
From Verif Require Import Base Mem Umbra_Model Umbra_Spec Umbra_Proofs1 Umbra_Proofs2 Umbra_Proofs3
  Umbra_Proofs4.
Open Scope Z_scope.

(* ---- separation ---- *)

Lemma overlap_false b1 e1 b2 e2 : segment_overlap b1 e1 b2 e2 = false -> e1 <> 0 -> e2 <> 0 ->
  disjoint b1 e1 b2 e2.
Proof.
  unfold segment_overlap, disjoint. intros H H1 H2 x.
  replace ((e1 =? 0) || (e2 =? 0)) with false in H by lia. lia.
Qed.

Lemma overlap_sym b1 e1 b2 e2 : segment_overlap b1 e1 b2 e2 = segment_overlap b2 e2 b1 e1.
Proof. unfold segment_overlap. rewrite orb_comm. destruct ((e2 =? 0) || (e1 =? 0)); [reflexivity|]. lia. Qed.

Lemma no_conflict_sym i s j t : used s = true -> used t = true -> hasmap s = true -> hasmap t = true ->
  no_conflict i s j t = no_conflict j t i s.
Proof.
  intros H1 H2 H3 H4. unfold no_conflict. rewrite H1, H2, H3, H4. cbn [negb orb].
  rewrite (Nat.eqb_sym j i).
  rewrite (overlap_sym (ab t) (ae t) (ab s)), (overlap_sym (ab t) (ae t) (sb s)),
    (overlap_sym (ab t) (ae t) (rb s)), (overlap_sym (sb t) (se t) (ab s)),
    (overlap_sym (sb t) (se t) (sb s)), (overlap_sym (sb t) (se t) (rb s)),
    (overlap_sym (rb t) (re t) (ab s)), (overlap_sym (rb t) (re t) (sb s)).
  repeat match goal with |- context [segment_overlap ?a ?b ?c ?d] => destruct (segment_overlap a b c d) end;
  destruct (Nat.eqb i j); reflexivity.
Qed.

Lemma no_conflicts_at i s l : forall j k t, no_conflicts i s j l = true -> nth_error l k = Some t ->
  no_conflict i s (j + k) t = true.
Proof.
  induction l as [|u l IH]; intros j [|k] t H Hk; cbn in *; try discriminate.
  - injection Hk as ->. rewrite Nat.add_0_r. apply andb_prop in H. apply H.
  - apply andb_prop in H as [_ H]. rewrite Nat.add_succ_r. apply (IH (S j) k t H Hk).
Qed.

Definition done (m : umap) (k : nat) (ss : list seg) : Prop :=
  (forall i g, nth_error ss i = Some g -> (i < k)%nat -> used g = true ->
     exists g0, g = shadowed m g0 /\ ab g = ab g0 /\ ae g = ae g0) /\
  (forall i j g h, nth_error ss i = Some g -> nth_error ss j = Some h -> (i < k)%nat -> (j < k)%nat ->
     used g = true -> used h = true -> no_conflict i g j h = true).

Lemma nth_lt {A} (l : list A) i x : nth_error l i = Some x -> (i < length l)%nat.
Proof. intros H. apply nth_error_Some. congruence. Qed.

Lemma map_init_loop_ok m : forall n k ss ss', (k + n = length ss)%nat -> done m k ss ->
  map_init_loop n k m ss = Some ss' ->
  done m (length ss) ss' /\ length ss' = length ss /\
  (forall i g, nth_error ss i = Some g -> exists g', nth_error ss' i = Some g' /\
     ab g' = ab g /\ ae g' = ae g /\ used g' = used g /\ (used g = false -> (k <= i)%nat -> g' = g)).
Proof.
  induction n as [|n IH]; intros k ss ss' Hk D E.
  - cbn in E. injection E as <-. rewrite Nat.add_0_r in Hk. subst k.
    split; [exact D|]. split; [reflexivity|]. intros i g Hi. exists g. auto.
  - cbn [map_init_loop] in E.
    destruct (nth_error ss k) as [g|] eqn:Ek; [|apply nth_error_None in Ek; lia].
    rewrite (nth_of_error ss k g empty_seg Ek) in E.
    destruct (used g) eqn:Eu.
    + unfold add_shadow_segment in E. rewrite (nth_of_error ss k g empty_seg Ek) in E.
      set (s := shadowed m g) in *.
      destruct (no_conflicts k s 0 (set_nth k s ss)) eqn:En; [|discriminate].
      assert (NC : forall j t, nth_error (set_nth k s ss) j = Some t -> no_conflict k s j t = true).
      { intros j t Hj. apply (no_conflicts_at k s _ 0 j t En Hj). }
      assert (Es : nth_error (set_nth k s ss) k = Some s).
      { rewrite nth_set_nth, Nat.eqb_refl. rewrite Ek. reflexivity. }
      assert (Eo : forall j, j <> k -> nth_error (set_nth k s ss) j = nth_error ss j).
      { intros j Hj. rewrite nth_set_nth. destruct (Nat.eqb k j) eqn:Q; [apply Nat.eqb_eq in Q; lia|reflexivity]. }
      destruct D as [D1 D2].
      assert (HM : forall j h, (j < S k)%nat -> nth_error (set_nth k s ss) j = Some h -> used h = true -> hasmap h = true).
      { intros j h Hj Hn Hu. destruct (Nat.eq_dec j k) as [->|Hne].
        - assert (h = s) by congruence. subst h. reflexivity.
        - rewrite Eo in Hn by exact Hne. destruct (D1 j h Hn ltac:(lia) Hu) as (g0 & -> & _). reflexivity. }
      destruct (IH (S k) (set_nth k s ss) ss') as (F1 & F2 & F3).
      * rewrite set_nth_length. lia.
      * split.
        -- intros i h Hi Hlt Hu. destruct (Nat.eq_dec i k) as [->|Hne].
           ++ assert (h = s) by congruence. subst h. exists g. auto.
           ++ rewrite Eo in Hi by exact Hne. apply (D1 i h Hi); [lia|exact Hu].
        -- intros i j a b Hi Hj Hli Hlj Hua Hub.
           destruct (Nat.eq_dec i k) as [->|Hne].
           ++ assert (a = s) by congruence. subst a. apply NC. exact Hj.
           ++ destruct (Nat.eq_dec j k) as [->|Hne2].
              ** assert (b = s) by congruence. subst b. rewrite no_conflict_sym; auto.
                 { apply (HM i a Hli Hi Hua). }
              ** rewrite Eo in Hi, Hj by assumption. apply D2; auto; lia.
      * exact E.
      * rewrite set_nth_length in *. split; [exact F1|]. split; [exact F2|].
        intros i h Hi. destruct (Nat.eq_dec i k) as [->|Hne].
        -- assert (h = g) by congruence. subst h. destruct (F3 k s Es) as (g' & A & B & C & U & _).
           exists g'. split; [exact A|]. split; [exact B|]. split; [exact C|]. split; [exact U|]. congruence.
        -- destruct (F3 i h) as (g' & A & B & C & U & V); [rewrite Eo by exact Hne; exact Hi|].
           exists g'. repeat (split; [assumption|]). intros Q1 Q2. apply V; [exact Q1|lia].
    + destruct D as [D1 D2].
      destruct (IH (S k) ss ss') as (F1 & F2 & F3).
      * lia.
      * split.
        -- intros i h Hi Hlt Hu. apply (D1 i h Hi); [|exact Hu].
           destruct (Nat.eq_dec i k) as [->|]; [|lia]. congruence.
        -- intros i j a b Hi Hj Hli Hlj Hua Hub.
           destruct (Nat.eq_dec i k) as [->|]; [congruence|]. destruct (Nat.eq_dec j k) as [->|]; [congruence|].
           apply D2; auto; lia.
      * exact E.
      * split; [exact F1|]. split; [exact F2|].
        intros i h Hi. destruct (F3 i h Hi) as (g' & A & B & C & U & V). exists g'. repeat (split; [assumption|]).
        intros Q1 Q2. destruct (Nat.eq_dec i k) as [->|]; [|apply V; [exact Q1|lia]].
        destruct (le_lt_dec (S k) k); [lia|].
        (* slot k is left untouched by the later steps *)
        assert (K : forall n k' ss ss', (k < k')%nat -> map_init_loop n k' m ss = Some ss' ->
                    nth_error ss' k = nth_error ss k).
        { clear. induction n as [|n IH]; intros k' ss ss' Hk E; cbn [map_init_loop] in E; [congruence|].
          destruct (used (nth k' ss empty_seg)).
          - unfold add_shadow_segment in E. destruct (no_conflicts _ _ _ _); [|discriminate].
            rewrite (IH (S k') _ ss' ltac:(lia) E), nth_set_nth.
            destruct (Nat.eqb k' k) eqn:Q; [apply Nat.eqb_eq in Q; lia|reflexivity].
          - apply (IH (S k') ss ss' ltac:(lia) E). }
        pose proof (K n (S k) ss ss' ltac:(lia) E) as Q. congruence.
Qed.

Lemma map_init_done m ss ss' : map_arch_init m ss = Some ss' -> done m (length ss') ss'.
Proof.
  intros E. unfold map_arch_init in E.
  destruct (map_init_loop_ok m (length ss) 0 ss ss') as (F1 & F2 & _); auto.
  - split; intros; lia.
  - rewrite F2. exact F1.
Qed.

Lemma init_separated m ss ss' : map_arch_init m ss = Some ss' -> separated ss'.
Proof.
  intros E. destruct (map_init_done m ss ss' E) as [D1 D2].
  intros i j g h Hi Hj Hu Hv A1 A2 A3 A4 A5 A6.
  pose proof (nth_lt _ _ _ Hi) as Li. pose proof (nth_lt _ _ _ Hj) as Lj.
  pose proof (D2 i j g h Hi Hj Li Lj Hu Hv) as N. destruct (D1 j h Hj Lj Hv) as (h0 & Eh & _).
  unfold no_conflict in N. rewrite Hv in N. cbn [negb] in N.
  assert (hasmap h = true) as Hh by (rewrite Eh; reflexivity). rewrite Hh in N. cbn [negb orb] in N.
  apply andb_prop in N as [N0 N]. repeat (apply andb_prop in N as [N ?]).
  repeat match goal with H : negb _ = true |- _ => apply negb_true_iff in H end.
  assert (Ne : i <> j -> Nat.eqb i j = false) by (intros; apply Nat.eqb_neq; assumption).
  split; [intros Hne; rewrite (Ne Hne) in N0; cbn in N0; apply overlap_false; assumption|].
  split; [intros Hne; rewrite (Ne Hne) in *; cbn [negb andb] in *; apply overlap_false; assumption|].
  split; [apply overlap_false; assumption|]. split; apply overlap_false; assumption.
Qed.

(* ---- the scan covers every region ---- *)

Lemma seg_base_eq x : 0 <= x < 2 ^ 64 -> seg_base x = x - x mod 2 ^ 40.
Proof. intros H. exact (align_backward_eq x 40 H ltac:(lia)). Qed.

Lemma align_fwd x : 0 <= x <= 2 ^ 47 -> exists y, align_forward x SEG_SIZE = y /\
  x <= y <= 2 ^ 47 /\ y mod 2 ^ 40 = 0.
Proof.
  intros H. unfold align_forward. rewrite w64_small by (unfold SEG_SIZE; lia).
  change (Z.land (x + (SEG_SIZE - 1)) (W64 - 1 - (SEG_SIZE - 1))) with (align_backward (x + (2 ^ 40 - 1)) (2 ^ 40)).
  rewrite (align_backward_eq _ 40) by lia. eexists. split; [reflexivity|].
  pose proof (Z.mod_pos_bound (x + (2 ^ 40 - 1)) (2 ^ 40) ltac:(lia)).
  pose proof (Z.div_mod (x + (2 ^ 40 - 1)) (2 ^ 40) ltac:(lia)). split; [lia|].
  rewrite Zminus_mod, Z.mod_mod, Z.sub_diag by lia. reflexivity.
Qed.

(** What the scan keeps true of the slots. *)
Definition base_kind (g : seg) : Prop :=
  (ab g mod 2 ^ 40 = 0 /\ 0 <= ab g < 2 ^ 47) \/ ab g = 0x7FFFFF800000 \/ ab g = 0xFFFFFFFFFF400000.

Definition scan_inv (vs : bool) (ss : list seg) : Prop :=
  (forall i g, nth_error ss i = Some g -> base_kind g) /\
  (vs = true -> exists g0 g1, nth_error ss 0 = Some g0 /\ nth_error ss 1 = Some g1 /\
     (ae g0 = 0x7FFFFF400000 \/ ae g0 = 2 ^ 47) /\
     ab g1 = 0xFFFFFFFFFF400000 /\ ae g1 = 0xFFFFFFFFFF800000).

Lemma absorb_nth b e ss i : nth_error (absorb b e ss) i =
  match nth_error ss i with
  | Some t => Some (if used t && (ab t =? b) && (ae t =? e) then with_used (with_app t 0 0) false else t)
  | None => None
  end.
Proof. unfold absorb. rewrite nth_error_map. destruct (nth_error ss i); reflexivity. Qed.

Lemma absorb_length b e ss : length (absorb b e ss) = length ss.
Proof. apply map_length. Qed.

Lemma nth_set_same {A} i (x : A) l : (i < length l)%nat -> nth_error (set_nth i x l) i = Some x.
Proof.
  intros H. rewrite nth_set_nth, Nat.eqb_refl. destruct (nth_error l i) eqn:E; [reflexivity|].
  apply nth_error_None in E. lia.
Qed.
Lemma nth_set_other {A} i j (x : A) l : i <> j -> nth_error (set_nth i x l) j = nth_error l j.
Proof. intros H. rewrite nth_set_nth. destruct (Nat.eqb i j) eqn:Q; [apply Nat.eqb_eq in Q; lia|reflexivity]. Qed.

(** Growing slot [i] to [s'] keeps everything that was covered. *)
Definition grows (g s' : seg) : Prop := used s' = true /\ (ae g <> 0 -> ab s' <= ab g /\ ae g <= ae s').

Lemma grow_covered ss i g s' r : nth_error ss i = Some g -> grows g s' -> 0 <= fst r -> 0 < snd r ->
  covered ss r -> covered (set_nth i s' ss) r.
Proof.
  intros Hi (Gu & Gr) H0 H1 (j & h & Hj & Hu & A & B).
  destruct (Nat.eq_dec i j) as [->|Hne].
  - assert (h = g) by congruence. subst h. exists j, s'. split; [apply nth_set_same; eapply nth_lt; eauto|].
    split; [exact Gu|]. destruct Gr as [G1 G2]; [lia|]. lia.
  - exists j, h. rewrite nth_set_other by exact Hne. auto.
Qed.

Lemma inv_set vs ss i g s' : scan_inv vs ss -> nth_error ss i = Some g -> base_kind s' ->
  (vs = true -> i = 0%nat -> ae s' = ae g \/ ae s' = 2 ^ 47) ->
  (vs = true -> i = 1%nat -> ab s' = ab g /\ ae s' = ae g) ->
  scan_inv vs (set_nth i s' ss).
Proof.
  intros [I1 I2] Hi Hb H0 H1. split.
  - intros j h Hj. destruct (Nat.eq_dec i j) as [->|Hne].
    + rewrite nth_set_same in Hj by (eapply nth_lt; eauto). injection Hj as <-. exact Hb.
    + rewrite nth_set_other in Hj by exact Hne. eapply I1; eauto.
  - intros Hv. destruct (I2 Hv) as (g0 & g1 & A & B & C & D & E).
    destruct i as [|[|i]].
    + exists s', g1. rewrite nth_set_same by (eapply nth_lt; eauto).
      rewrite nth_set_other by lia. split; [reflexivity|]. split; [exact B|].
      assert (g0 = g) by congruence. subst g0. destruct (H0 Hv eq_refl) as [->| ->]; auto.
    + exists g0, s'. rewrite nth_set_other by lia. rewrite nth_set_same by (eapply nth_lt; eauto).
      assert (g1 = g) by congruence. subst g1. destruct (H1 Hv eq_refl) as [-> ->]. auto 6.
    + exists g0, g1. rewrite !nth_set_other by lia. auto 6.
Qed.

Lemma base_kind_used g u : base_kind g -> base_kind (with_used g u).
Proof. intros H. exact H. Qed.

Lemma add_low vs b n : 0 <= b -> 0 < n -> b + n <= 2 ^ 47 -> forall k i ss ss',
  (i + k = length ss)%nat -> scan_inv vs ss ->
  add_app_loop k i None b n ss = (ss', true) ->
  scan_inv vs ss' /\ covered ss' (b, n) /\ length ss' = length ss /\
  (forall r, 0 <= fst r -> 0 < snd r -> covered ss r -> covered ss' r).
Proof.
  intros Hb Hn Hbn. induction k as [|k IH]; intros i ss ss' Hk I E; [discriminate|].
  cbn [add_app_loop] in E.
  destruct (nth_error ss i) as [g|] eqn:Ei; [|apply nth_error_None in Ei; lia].
  rewrite (nth_of_error ss i g empty_seg Ei) in E.
  rewrite (w64_small (b + n)) in E by lia.
  rewrite (seg_base_eq b) in E by lia.
  destruct (align_fwd (b + n) ltac:(lia)) as (send & Es & Hs1 & Hs2). rewrite Es in E.
  pose proof (Z.mod_pos_bound b (2 ^ 40) ltac:(lia)) as Hmb.
  pose proof (Z.mod_le b (2 ^ 40) Hb ltac:(lia)) as Hml.
  assert (Hm0 : (b - b mod 2 ^ 40) mod 2 ^ 40 = 0).
  { rewrite Zminus_mod, Z.mod_mod, Z.sub_diag by lia. reflexivity. }
  set (base := b - b mod 2 ^ 40) in *. assert (Hba : 0 <= base <= b) by (unfold base; clear - Hmb Hml; lia).
  clearbody base. clear Es Hmb Hml.
  pose proof (nth_lt _ _ _ Ei) as Hlt. pose proof I as I'. destruct I as [I1 I2].
  pose proof (I1 i g Ei) as Bg.
  destruct (ae g =? 0) eqn:Eae; cbn [negb] in E.
  - (* empty slot *)
    cbn [add_shadow_opt] in E. rewrite (nth_of_error _ i _ empty_seg (nth_set_same i _ ss Hlt)) in E.
    injection E as <-. set (s' := with_used _ true).
    assert (set_nth i s' (set_nth i (with_app g base send) ss) = set_nth i s' ss) as ->.
    { clear. revert i. induction ss as [|h l IH]; intros [|i]; cbn; auto. rewrite IH. reflexivity. }
    split; [|split; [|split]].
    + apply (inv_set vs ss i g); auto.
      * left. cbn. split; [exact Hm0|lia].
      * intros Hv ->. destruct (I2 Hv) as (g0 & g1 & A & B & C & D & F). assert (g0 = g) by congruence. subst. lia.
      * intros Hv ->. destruct (I2 Hv) as (g0 & g1 & A & B & C & D & F). assert (g1 = g) by congruence. subst. lia.
    + exists i, s'. rewrite nth_set_same by exact Hlt. cbn. split; [reflexivity|]. split; [reflexivity|]. lia.
    + apply set_nth_length.
    + intros r R0 R1 C. apply (grow_covered ss i g); auto. split; [reflexivity|]. lia.
  - destruct ((ab g <=? b) && (b + n <=? ae g)) eqn:E1.
    + injection E as <-. split; [|split; [|split]].
      * apply (inv_set vs ss i g); auto.
      * exists i, (with_used g true). rewrite nth_set_same by exact Hlt. cbn. split; [reflexivity|]. split; [reflexivity|]. lia.
      * apply set_nth_length.
      * intros r R0 R1 C. apply (grow_covered ss i g); auto. split; [reflexivity|]. cbn. lia.
    + destruct ((ab g <? b + n) && (b + n <? ae g)) eqn:E2.
      * (* extend to the left *)
        cbn [add_shadow_opt] in E.
        assert (En : nth_error (absorb base (ab g) ss) i = Some g).
        { rewrite absorb_nth, Ei. f_equal.
          replace (used g && (ab g =? base) && (ae g =? ab g)) with false by lia. reflexivity. }
        rewrite (nth_of_error _ i g empty_seg En) in E.
        rewrite (nth_of_error _ i _ empty_seg (nth_set_same i _ _ (nth_lt _ _ _ En))) in E.
        injection E as <-. set (s' := with_used _ true).
        assert (forall l, set_nth i s' (set_nth i (with_app g base (ae g)) l) = set_nth i s' l) as ->.
        { intros l. clear. revert i. induction l as [|h l IH]; intros [|i]; cbn; auto. rewrite IH. reflexivity. }
        assert (IA : scan_inv vs (absorb base (ab g) ss)).
        { split.
          - intros j h Hj. rewrite absorb_nth in Hj. destruct (nth_error ss j) as [t|] eqn:Ej; [|discriminate].
            injection Hj as <-. destruct (used t && (ab t =? base) && (ae t =? ab g)); [|eapply I1; eauto].
            left. cbn. lia.
          - intros Hv. destruct (I2 Hv) as (g0 & g1 & A & B & C & D & F).
            exists g0, g1. rewrite !absorb_nth, A, B.
            assert (N0 : ae g0 <> ab g).
            { intros X. unfold base_kind in Bg. destruct Bg as [[Q1 Q2]|[Q|Q]]; lia. }
            assert (N1 : ae g1 <> ab g).
            { intros X. unfold base_kind in Bg. clear - Bg X F. lia. }
            replace (used g0 && (ab g0 =? base) && (ae g0 =? ab g)) with false by lia.
            replace (used g1 && (ab g1 =? base) && (ae g1 =? ab g)) with false by lia. auto 6. }
        split; [|split; [|split]].
        -- apply (inv_set vs _ i g); auto.
           ++ left. cbn. split; [exact Hm0|lia].
           ++ intros Hv ->. destruct (I2 Hv) as (g0 & g1 & A & B & C & D & F). assert (g1 = g) by congruence. subst. lia.
        -- exists i, s'. rewrite nth_set_same by (eapply nth_lt; eauto). cbn. split; [reflexivity|]. split; [reflexivity|]. lia.
        -- rewrite set_nth_length. apply absorb_length.
        -- intros r R0 R1 (j & h & Hj & Hu & A & B).
           destruct (Nat.eq_dec i j) as [->|Hne].
           { exists j, s'. rewrite nth_set_same by (eapply nth_lt; eauto). split; [reflexivity|]. split; [reflexivity|].
             assert (h = g) by congruence. subst h. cbn. lia. }
           destruct (used h && (ab h =? base) && (ae h =? ab g)) eqn:Q.
           { exists i, s'. rewrite nth_set_same by (eapply nth_lt; eauto). split; [reflexivity|]. split; [reflexivity|]. cbn. lia. }
           exists j, h. rewrite nth_set_other by exact Hne. rewrite absorb_nth, Hj, Q. auto.
      * destruct ((ab g <? b) && (b <? ae g)) eqn:E3.
        -- cbn [add_shadow_opt] in E. injection E as <-. set (s' := with_used _ true).
           split; [|split; [|split]].
           ++ apply (inv_set vs ss i g); auto.
              ** intros Hv ->. destruct (I2 Hv) as (g0 & g1 & A & B & C & D & F). assert (g0 = g) by congruence. subst g0.
                 right. cbn. assert (b + n > 0x7FFFFF400000) by (destruct C as [C|C]; rewrite C in *; lia).
                 clear - H Hs1 Hs2. lia.
              ** intros Hv ->. destruct (I2 Hv) as (g0 & g1 & A & B & C & D & F). assert (g1 = g) by congruence. subst. lia.
           ++ exists i, s'. rewrite nth_set_same by exact Hlt. cbn. split; [reflexivity|]. split; [reflexivity|]. lia.
           ++ apply set_nth_length.
           ++ intros r R0 R1 C. apply (grow_covered ss i g); auto. split; [reflexivity|]. cbn. lia.
        -- apply (IH (S i) ss ss'); [lia|exact I'|exact E].
Qed.

Lemma add_region vs r ss ss' : region_ok vs r -> scan_inv vs ss -> (2 <= length ss)%nat ->
  add_app_segment None (fst r) (snd r) ss = (ss', true) ->
  scan_inv vs ss' /\ covered ss' r /\ length ss' = length ss /\
  (forall r', 0 <= fst r' -> 0 < snd r' -> covered ss r' -> covered ss' r').
Proof.
  intros (R0 & R1 & [R2|(Hv & R2 & R3)]) I Hl E; unfold add_app_segment in E; destruct r as [b n]; cbn [fst snd] in *.
  - apply (add_low vs b n R0 R1 R2 (length ss) 0); auto.
  - pose proof I as I'. destruct I as [I1 I2]. destruct (I2 Hv) as (g0 & g1 & A & B & C & D & F).
    destruct ss as [|h0 [|h1 l]]; try (cbn in Hl; lia). cbn in A, B. injection A as ->. injection B as ->.
    cbn [length add_app_loop nth] in E. rewrite (w64_small (b + n)) in E by lia.
    assert (C' : 0 < ae g0 <= 2 ^ 47) by lia. clear C.
    replace (ae g0 =? 0) with false in E by lia. cbn [negb] in E.
    replace ((ab g0 <=? b) && (b + n <=? ae g0)) with false in E by lia.
    replace ((ab g0 <? b + n) && (b + n <? ae g0)) with false in E by lia.
    replace ((ab g0 <? b) && (b <? ae g0)) with false in E by lia.
    replace (ae g1 =? 0) with false in E by lia. cbn [negb] in E.
    replace ((ab g1 <=? b) && (b + n <=? ae g1)) with true in E by lia.
    injection E as <-.
    change (g0 :: with_used g1 true :: l) with (set_nth 1 (with_used g1 true) (g0 :: g1 :: l)).
    split; [|split; [|split]].
    + apply (inv_set vs _ 1 g1); auto. exact (I1 1%nat g1 eq_refl).
    + exists 1%nat, (with_used g1 true). split; [reflexivity|]. split; [reflexivity|]. cbn. lia.
    + reflexivity.
    + intros r' Q0 Q1 Q. apply (grow_covered _ 1 g1); auto. split; [reflexivity|]. cbn. lia.
Qed.

Lemma scan_covers vs : forall regions ss ss', Forall (region_ok vs) regions -> scan_inv vs ss ->
  (2 <= length ss)%nat -> scan regions ss = Some ss' ->
  (forall r, In r regions -> covered ss' r) /\
  (forall r, 0 <= fst r -> 0 < snd r -> covered ss r -> covered ss' r).
Proof.
  induction regions as [|[b n] l IH]; intros ss ss' F I Hl E; cbn [scan] in E.
  - injection E as <-. split; [intros r []|auto].
  - destruct (add_app_segment None b n ss) as [s1 ok] eqn:Ea. destruct ok; [|discriminate].
    inversion F as [|? ? F1 F2]; subst.
    destruct (add_region vs (b, n) ss s1 F1 I Hl Ea) as (I1 & C1 & L1 & P1).
    destruct (IH s1 ss' F2 I1 ltac:(lia) E) as (Q1 & Q2).
    split.
    + intros r [<-|Hr]; [|apply Q1; exact Hr]. destruct F1 as (X & Y & _). apply Q2; assumption.
    + intros r X Y C. apply Q2; auto.
Qed.

Lemma scan_inv_init vs : scan_inv vs (segs_initial vs).
Proof.
  split.
  - intros i g Hi. apply nth_error_In in Hi. unfold segs_initial in Hi. unfold base_kind.
    destruct vs; cbn [In] in Hi; repeat (destruct Hi as [<-|Hi]; [cbn; lia|]); destruct Hi.
  - intros ->. do 2 eexists. split; [reflexivity|]. split; [reflexivity|]. cbn. auto.
Qed.

Lemma init_covers vs regions m ss alt ss' : Forall (region_ok vs) regions ->
  arch_init vs regions = Some (ss, alt) -> map_arch_init m ss = Some ss' ->
  forall r, In r regions -> covered ss' r.
Proof.
  intros F E1 E2 r Hr. unfold arch_init in E1.
  destruct (scan regions (segs_initial vs)) as [s0|] eqn:Es; [|discriminate].
  destruct (pie_used PIE_DEF s0 && pie_used PIE_ALT s0); [discriminate|]. injection E1 as <- _.
  destruct (scan_covers vs regions (segs_initial vs) s0 F (scan_inv_init vs)) as (Q & _); [destruct vs; cbn; lia|exact Es|].
  destruct (Q r Hr) as (i & g & Hi & Hu & A & B).
  destruct (map_init_loop_ok m (length s0) 0 s0 ss') as (_ & _ & P); [lia|split; intros; lia|exact E2|].
  destruct (P i g Hi) as (g' & Hi' & X1 & X2 & X3 & _).
  exists i, g'. split; [exact Hi'|]. split; [congruence|]. lia.
Qed.

(* ---- a regular start-up layout satisfies the layout invariant ---- *)

Lemma apart_disjoint b1 e1 b2 e2 : apart b1 e1 b2 e2 = true -> disjoint b1 e1 b2 e2.
Proof. unfold apart, disjoint. intros. lia. Qed.

Lemma shadowed_ok m g0 : map_ok m -> seg_regular g0 = true -> seg_ok m (shadowed m g0).
Proof.
  intros Hm R. unfold seg_regular in R.
  repeat match goal with H : _ && _ = true |- _ => apply andb_prop in H as [H ?] end.
  apply Z.leb_le in R. repeat match goal with H : (_ <? _) = true |- _ => apply Z.ltb_lt in H
    | H : (_ =? _) = true |- _ => apply Z.eqb_eq in H end.
  rename H4 into Rg, H3 into Rt, H2 into Rb, H1 into Re, H0 into Ro.
  assert (Rs : ab g0 = 0 \/ ab g0 mod 2 ^ 44 <> 0).
  { apply orb_prop in H as [H|H]; [left; apply Z.eqb_eq; exact H|right].
    apply negb_true_iff in H. apply Z.eqb_neq. exact H. }
  clear H.
  destruct (disp_facts m Hm) as (Hd & _).
  assert (SE : xl8 m (ae g0) = xl8 m (ab g0) + (ae g0 - ab g0) * num (sc m) / den (sc m)).
  { rewrite (xl8_eq m (ab g0) Hm Rs). unfold first_shadow.
    assert (Q : 0 <= ab g0 mod 2 ^ 44 + disp m /\ (ab g0 mod 2 ^ 44 + disp m) mod den (sc m) = 0).
    { pose proof (mod44 (ab g0)). split; [clear - H Hd; lia|].
      apply mod_add_den; [apply mod_den_22, mod44_22; exact Rb|apply disp_den; exact Hm]. }
    destruct (Z.eq_dec (ae g0 mod 2 ^ 44) 0) as [E0|E0].
    - rewrite (xl8_end m (ae g0) Hm ltac:(clear - R Rg; lia) E0).
      rewrite <- scale_add by (try apply Q; clear - Rg; lia). do 2 f_equal.
      clear - Ro E0 Rg R.
      pose proof (Z.div_mod (ab g0) (2 ^ 44)). pose proof (Z.div_mod (ae g0 - 1) (2 ^ 44)).
      assert (E1 : (ae g0 - 1) mod 2 ^ 44 = 2 ^ 44 - 1) by lia. lia.
    - rewrite (xl8_eq m (ae g0) Hm (or_intror E0)).
      rewrite <- scale_add by (try apply Q; clear - Rg; lia). unfold first_shadow. do 2 f_equal.
      clear - Ro E0 Rg R.
      pose proof (Z.div_mod (ab g0) (2 ^ 44)). pose proof (Z.div_mod (ae g0) (2 ^ 44)).
      assert (E1 : (ae g0 - 1) / 2 ^ 44 = ae g0 / 2 ^ 44) by lia. lia. }
  assert (M22 : (ae g0 - ab g0) mod 2 ^ 22 = 0) by (rewrite Zminus_mod, Rb, Re; reflexivity).
  assert (LE : 0 < (ae g0 - ab g0) * num (sc m) / den (sc m) < 2 ^ 46).
  { clear - M22 Rg Ro R. assert (ae g0 - ab g0 <= 2 ^ 44).
    { pose proof (Z.div_mod (ab g0) (2 ^ 44)). pose proof (Z.div_mod (ae g0 - 1) (2 ^ 44)). lia. }
    destruct (sc m); cbn [num den]; lia. }
  constructor; cbn [shadowed ab ae used hasmap sb se rb re nbytes bits].
  - clear - R Rg Rt. lia.
  - exact Rb.
  - exact Re.
  - exact Ro.
  - exact Rs.
  - reflexivity.
  - apply (xl8_eq m (ab g0) Hm Rs).
  - exact SE.
  - reflexivity.
  - reflexivity.
  - rewrite SE. set (D := (ae g0 - ab g0) * num (sc m) / den (sc m)) in *.
    replace (xl8 m (ab g0) + D - xl8 m (ab g0)) with D by ring.
    rewrite w64_small by (clear - LE; lia). rewrite sh_bs_eq.
    assert (DD : exists q, D = ALLOC_UNIT * num (sc m) * 8 * q).
    { unfold D. apply Z.div_exact in M22; [|discriminate]. rewrite M22.
      generalize ((ae g0 - ab g0) / 2 ^ 22). intros q. clear. unfold ALLOC_UNIT.
      destruct (sc m); cbn [num den].
      - exists q. change (2 ^ 22) with (2 ^ 19 * 8). replace (2 ^ 19 * 8 * q * 1) with (2 ^ 19 * q * 8) by ring. rewrite Z.div_mul by lia. lia.
      - exists (2 * q). replace (2 ^ 22 * q * 1) with (2 ^ 20 * q * 4) by ring. rewrite Z.div_mul by lia. lia.
      - exists (4 * q). replace (2 ^ 22 * q * 1) with (2 ^ 21 * q * 2) by ring. rewrite Z.div_mul by lia. lia.
      - exists (8 * q). rewrite Z.div_1_r. lia.
      - exists (8 * q). rewrite Z.div_1_r. lia. }
    destruct DD as (q & ->). rewrite Z.div_div by (unfold ALLOC_UNIT; destruct (sc m); cbn; lia).
    rewrite (Z.mul_comm _ q), Z.div_mul by (unfold ALLOC_UNIT; destruct (sc m); cbn; lia). reflexivity.
Qed.

Lemma compactb_ok ss : compactb ss = true -> forall i j g h, nth_error ss i = Some g ->
  nth_error ss j = Some h -> (i < j)%nat -> used h = true -> ae g <> 0.
Proof.
  induction ss as [|s l IH]; intros C [|i] [|j] g h Hi Hj Hlt Hu; cbn in *; try lia; try discriminate.
  - injection Hi as ->. apply andb_prop in C as [C _]. apply orb_prop in C as [C|C]; [lia|].
    rewrite forallb_forall in C. specialize (C h (nth_error_In _ _ Hj)). rewrite Hu in C. discriminate.
  - apply andb_prop in C as [_ C]. eapply IH; eauto. lia.
Qed.

Lemma forallb_nth {A} f (l : list A) i x : forallb f l = true -> nth_error l i = Some x -> f x = true.
Proof. intros F H. rewrite forallb_forall in F. apply F. eapply nth_error_In; eauto. Qed.

Lemma init_layout m ss ss' : map_ok m -> map_arch_init m ss = Some ss' -> regular ss' = true ->
  layout_ok m ss'.
Proof.
  intros Hm E R. pose proof (init_separated m ss ss' E) as SEP.
  destruct (map_init_done m ss ss' E) as [D1 _].
  unfold regular in R. apply andb_prop in R as [R1 RC].
  assert (SO : forall i g, nth_error ss' i = Some g -> used g = true -> seg_ok m g).
  { intros i g Hi Hu. destruct (D1 i g Hi (nth_lt _ _ _ Hi) Hu) as (g0 & -> & A & B).
    apply shadowed_ok; [exact Hm|]. pose proof (forallb_nth _ _ _ _ R1 Hi) as Q. cbv beta in Q.
    rewrite Hu in Q. unfold seg_regular in *. rewrite A, B in Q. exact Q. }
  assert (NZ : forall i g, nth_error ss' i = Some g -> used g = true -> ae g <> 0 /\ se g <> 0 /\ re g <> 0).
  { intros i g Hi Hu. pose proof (SO i g Hi Hu) as S. destruct (so_range m g S) as (A & B & _).
    destruct (disp_facts m Hm) as (Hd & q & Hq).
    assert (X : forall pc, 0 < xl8 m pc).
    { intros pc. rewrite (xl8_gen m pc Hm). pose proof (mod44 pc).
      assert (1 <= disp m / 8) by (apply Z.div_le_lower_bound; lia).
      match goal with |- context [if ?b then _ else _] => destruct b end;
      destruct (sc m); cbn [num den]; lia. }
    split; [clear - A B; lia|]. split; [|pose proof (X (se g)) as Y; rewrite <- (so_re m g S) in Y; clear - Y; lia].
    rewrite (so_se m g S). pose proof (seg_shadow_in m g (ab g) (first_shadow m (ab g)) Hm S ltac:(clear - B; lia)) as Q.
    rewrite <- (so_se m g S). assert (sh : shadow_of m (ab g) (first_shadow m (ab g))).
    { unfold shadow_of. pose proof (num_pos (sc m)). clear - H. lia. }
    specialize (Q sh). assert (0 < sb g).
    { rewrite (so_sb m g S). pose proof (X (ab g)) as Y. rewrite (xl8_eq m (ab g) Hm (so_special m g S)) in Y. exact Y. }
    clear - Q H. lia. }
  assert (UN : forall i g, nth_error ss' i = Some g -> used g = false -> unused_regular ss' g = true).
  { intros i g Hi Hu. pose proof (forallb_nth _ _ _ _ R1 Hi) as Q. cbv beta in Q. rewrite Hu in Q. exact Q. }
  assert (UND : forall i j g h, nth_error ss' i = Some g -> nth_error ss' j = Some h -> used g = false ->
            used h = true -> disjoint (ab g) (ae g) (ab h) (ae h) /\ disjoint (ab g) (ae g) (sb h) (se h)).
  { intros i j g h Hi Hj Hu Hv. pose proof (UN i g Hi Hu) as Q. unfold unused_regular in Q.
    apply andb_prop in Q as [_ Q]. pose proof (forallb_nth _ _ _ _ Q Hj) as W. cbv beta in W. rewrite Hv in W.
    cbn [negb orb] in W. apply andb_prop in W as [W1 W2]. split; apply apart_disjoint; assumption. }
  constructor.
  - exact SO.
  - intros i j g h Hi Hj Hne Hv. destruct (used g) eqn:Hu.
    + destruct (NZ i g Hi Hu) as (? & ? & ?), (NZ j h Hj Hv) as (? & ? & ?).
      destruct (SEP i j g h Hi Hj Hu Hv) as (P1 & _); auto.
    + apply (UND i j g h); assumption.
  - intros i j g h Hi Hj Hne Hu Hv. destruct (NZ i g Hi Hu) as (? & ? & ?), (NZ j h Hj Hv) as (? & ? & ?).
    destruct (SEP i j g h Hi Hj Hu Hv) as (_ & P2 & _); auto.
  - intros i j g h Hi Hj Hv. destruct (used g) eqn:Hu.
    + destruct (NZ i g Hi Hu) as (? & ? & ?), (NZ j h Hj Hv) as (? & ? & ?).
      destruct (SEP i j g h Hi Hj Hu Hv) as (_ & _ & P3 & _); auto.
    + apply (UND i j g h); assumption.
  - intros i j g h Hi Hj Hu Hv x X Y. destruct (NZ i g Hi Hu) as (? & ? & ?), (NZ j h Hj Hv) as (? & ? & ?).
    destruct (SEP j i h g Hj Hi Hv Hu) as (_ & _ & _ & P4 & _); auto. exact (P4 x Y X).
  - intros i j g h Hi Hj Hv x X Y. destruct (used g) eqn:Hu.
    + destruct (NZ i g Hi Hu) as (? & ? & ?), (NZ j h Hj Hv) as (? & ? & ?).
      destruct (SEP j i h g Hj Hi Hv Hu) as (_ & _ & _ & _ & P5); auto. exact (P5 x Y X).
    + pose proof (UN i g Hi Hu) as Q. unfold unused_regular in Q.
      repeat (apply andb_prop in Q as [Q ?]). clear H. clear - X H0 H1. lia.
  - intros i g Hi Hu. pose proof (UN i g Hi Hu) as Q. unfold unused_regular in Q.
    repeat (apply andb_prop in Q as [Q ?]). clear H. apply negb_true_iff in Q.
    repeat split; try assumption; lia.
  - intros i j g h Hi Hj Hlt Hv. exact (compactb_ok ss' RC i j g h Hi Hj Hlt Hv).
Qed.

Lemma init_no_blocks m vs regions ss alt ss' : arch_init vs regions = Some (ss, alt) ->
  map_arch_init m ss = Some ss' -> forall i g, nth_error ss' i = Some g -> used g = true -> bits g = [].
Proof.
  intros _ E i g Hi Hu. destruct (map_init_done m ss ss' E) as [D1 _].
  destruct (D1 i g Hi (nth_lt _ _ _ Hi) Hu) as (g0 & -> & _). reflexivity.
Qed.
