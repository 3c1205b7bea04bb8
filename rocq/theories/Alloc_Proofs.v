(** Geometry of the tiling, and what a write of a header leaves alone. *)
From Coq Require Import Permutation.
From Verif Require Import Base Alloc_Model Alloc_Inv.
Open Scope Z_scope.

Record wfc (c : cfg) : Prop := {
  wf_rz : 0 <= redzone c <= 65536; wf_rz16 : redzone c mod 16 = 0;
  wf_df : 0 <= delay_frees c; wf_dm : 0 <= delay_frees_maxsz c }.

Lemma mod16_add a b : a mod 16 = 0 -> b mod 16 = 0 -> (a + b) mod 16 = 0.
Proof. intros A B. rewrite Z.add_mod, A, B by lia. reflexivity. Qed.
Lemma mod16_sub a b : a mod 16 = 0 -> b mod 16 = 0 -> (a - b) mod 16 = 0.
Proof. intros A B. rewrite Zminus_mod, A, B. reflexivity. Qed.
Lemma mod16_4096 a : a mod 4096 = 0 -> a mod 16 = 0.
Proof. intros A. apply Z.mod_divide in A; [|lia]. apply Z.mod_divide; [lia|]. destruct A as [k ->]. exists (k * 256). lia. Qed.

Section Geo.
Context (c : cfg) (W : wfc c).
Notation g := (inter c).

Lemma g_mod : g mod 16 = 0.
Proof.
  pose proof (wf_rz16 c W) as R. unfold inter, header_beyond_redzone, header_size.
  destruct (shared c); cbn [negb].
  - destruct (redzone c <? 32); rewrite ?Z.add_0_r.
    + replace (redzone c + (32 - redzone c)) with 32 by lia. reflexivity.
    + exact R.
  - apply mod16_add; [apply mod16_add; [exact R | reflexivity] | exact R].
Qed.
Lemma g_rng : 32 <= g <= 131200 /\ redzone c <= g /\ (shared c = false -> 2 * redzone c <= g).
Proof.
  pose proof (wf_rz c W) as R. unfold inter, header_beyond_redzone, header_size.
  destruct (shared c); cbn [negb]; [destruct (redzone c <? 32) eqn:E|]; lia.
Qed.
Lemma header_rng p : p - g <= header_at c p /\ header_at c p + 32 <= p /\
  header_at c p + 40 <= p + 8 /\ p - g <= header_at c p - 0.
Proof.
  pose proof (wf_rz c W) as R.
  unfold header_at, inter, redzone_beyond_header, header_beyond_redzone, header_size.
  destruct (shared c); cbn [negb]; [destruct (redzone c <? 32) eqn:E|]; try lia.
Qed.
Lemma header_big p : p - header_at c p <= g.
Proof. pose proof (header_rng p). lia. Qed.

(** *** lists of tiles *)
Lemma laid_app p l1 l2 q : laid c p (l1 ++ l2) q <-> exists m, laid c p l1 m /\ laid c m l2 q.
Proof.
  revert p; induction l1; intros p; cbn.
  - split; [intros H; exists p; auto | intros (m & -> & H); exact H].
  - rewrite IHl1. split.
    + intros (A & m & B & D). exists m; auto.
    + intros (m & (A & B) & D). eauto.
Qed.
Lemma laid_le p l q : laid c p l q -> Forall num l -> p <= q.
Proof.
  pose proof g_rng. revert p; induction l; cbn; intros p L N; [lia|].
  apply Forall_cons_iff in N as [[A _] N]. destruct L as [_ L]. apply IHl in L; auto. lia.
Qed.
Lemma laid_in p l q t : laid c p l q -> Forall num l -> In t l ->
  p <= tp t /\ tp t + tsz t + g <= q /\ 16 <= tsz t.
Proof.
  pose proof g_rng. revert p; induction l; cbn; intros p L N I; [tauto|].
  apply Forall_cons_iff in N as [[A B] N]. destruct L as [E L]. destruct I as [->|I].
  - apply laid_le in L; auto. lia.
  - eapply IHl in L; eauto. lia.
Qed.
Lemma laid_mod p l q t : laid c p l q -> Forall num l -> p mod 16 = 0 -> In t l -> tp t mod 16 = 0.
Proof.
  revert p; induction l; cbn; intros p L N Pm I; [tauto|].
  apply Forall_cons_iff in N as [[A B] N]. destruct L as [E L]. destruct I as [->|I].
  - congruence.
  - eapply IHl; [exact L | exact N | | exact I]. apply mod16_add; [apply mod16_add; [exact Pm | exact B] | exact g_mod].
Qed.
Lemma laid_end_mod p l q : laid c p l q -> Forall num l -> p mod 16 = 0 -> q mod 16 = 0.
Proof.
  revert p; induction l; cbn; intros p L N Pm; [congruence|].
  apply Forall_cons_iff in N as [[A B] N]. destruct L as [E L].
  eapply IHl; [exact L | exact N |]. apply mod16_add; [apply mod16_add; [exact Pm | exact B] | exact g_mod].
Qed.
Lemma laid_fun p l q q' : laid c p l q -> laid c p l q' -> q = q'.
Proof. revert p; induction l; cbn; intros p A B; [congruence|]. destruct A, B; eauto. Qed.
Lemma laid_mid p l1 t l2 q : laid c p (l1 ++ t :: l2) q <->
  laid c p l1 (tp t) /\ laid c (tp t + tsz t + g) l2 q.
Proof.
  rewrite laid_app. split.
  - intros (m & A & B & D). subst m. auto.
  - intros (A & B). exists (tp t). cbn. auto.
Qed.

Lemma lastpv_app v l1 l2 : lastpv v (l1 ++ l2) = lastpv (lastpv v l1) l2.
Proof. apply fold_left_app. Qed.
Lemma heads_app s v l1 l2 : heads s v (l1 ++ l2) <-> heads s v l1 /\ heads s (lastpv v l1) l2.
Proof.
  revert v; induction l1; intros v; cbn; [tauto|]. rewrite IHl1. unfold lastpv. tauto.
Qed.
Lemma heads_mid s v l1 t l2 : heads s v (l1 ++ t :: l2) <->
  heads s v l1 /\ hok s (lastpv v l1) t /\ heads s (pvof t) l2.
Proof. rewrite heads_app. cbn. tauto. Qed.

(** *** disjoint ranges *)
Lemma disj_sym r r' : disj r r' -> disj r' r.
Proof. unfold disj. tauto. Qed.
Lemma disj_all_perm l l' : Permutation l l' -> disj_all l -> disj_all l'.
Proof.
  induction 1; cbn; auto.
  - intros [A B]. split; auto. rewrite Forall_forall in *. intros y Y. apply A.
    eapply Permutation_in; [symmetry; exact H | exact Y].
  - intros [A [B D]]. apply Forall_cons_iff in A as [A1 A2]. repeat split; auto.
    constructor; auto using disj_sym.
Qed.
Lemma disj_all_mid l1 r l2 : disj_all (l1 ++ r :: l2) <-> Forall (disj r) (l1 ++ l2) /\ disj_all (l1 ++ l2).
Proof.
  split; intros H.
  - apply (disj_all_perm _ (r :: l1 ++ l2)) in H; [exact H|]. symmetry. apply Permutation_middle.
  - apply (disj_all_perm (r :: l1 ++ l2)); [apply Permutation_middle | exact H].
Qed.
Lemma disj_all_in l r r' : disj_all l -> In r l -> In r' l -> r = r' \/ disj r r'.
Proof.
  intros H I I'. apply in_split in I as (l1 & l2 & ->). apply disj_all_mid in H as [H _].
  rewrite Forall_forall in H. apply in_app_or in I' as [I'|[I'|I']]; [right|left|right]; auto; apply H, in_or_app; auto.
Qed.

(** *** the tiling of all arenas *)
Definition gok (x : arena * list tile) : Prop :=
  geom c (fst x) /\ laid c (a_start (fst x)) (snd x) (a_next (fst x)) /\ Forall num (snd x).
Record GEO (Ts : ats) (M : list mm) : Prop := {
  geo_ok : Forall gok Ts; geo_disj : disj_all (ranges Ts M) }.
Lemma CH_GEO s Ts M : CH c s Ts M -> GEO Ts M.
Proof.
  intros H. split; [|exact (ch_disj _ _ _ _ H)].
  eapply Forall_impl; [|exact (ch_ok _ _ _ _ H)]. intros x O. destruct O. split; auto.
Qed.

Lemma tiles_app X Y : tiles (X ++ Y) = tiles X ++ tiles Y.
Proof. unfold tiles. rewrite map_app, concat_app. reflexivity. Qed.
Lemma tiles_cons a l Y : tiles ((a, l) :: Y) = l ++ tiles Y.
Proof. reflexivity. Qed.
Definition others (X : ats) (l1 l2 : list tile) (Y : ats) : list tile := tiles X ++ (l1 ++ l2) ++ tiles Y.
Lemma tiles_mid X a l1 t l2 Y : tiles (X ++ (a, l1 ++ t :: l2) :: Y) = tiles X ++ (l1 ++ t :: l2) ++ tiles Y.
Proof. rewrite tiles_app, tiles_cons. reflexivity. Qed.
Lemma in_mid X a l1 t l2 Y u : In u (tiles (X ++ (a, l1 ++ t :: l2) :: Y)) <-> u = t \/ In u (others X l1 l2 Y).
Proof. rewrite tiles_mid. unfold others. repeat (rewrite in_app_iff; cbn). intuition congruence. Qed.
Lemma tiles_split Ts t : In t (tiles Ts) ->
  exists X a l1 l2 Y, Ts = X ++ (a, l1 ++ t :: l2) :: Y.
Proof.
  unfold tiles. intros I. apply in_concat in I as (l & I & J). apply in_map_iff in I as ([a l'] & E & I). cbn in E; subst l'.
  apply in_split in I as (X & Y & ->). apply in_split in J as (l1 & l2 & ->). eauto 10.
Qed.

Lemma gok_in x t : gok x -> In t (snd x) ->
  a_start (fst x) <= tp t /\ tp t + tsz t + g <= a_next (fst x) /\ 16 <= tsz t /\
  a_base (fst x) + 16 <= tp t - g /\ tp t + tsz t <= a_commit (fst x) /\ tp t mod 16 = 0 /\
  0 < tp t /\ tsz t < 2 ^ 32.
Proof.
  intros (Gm & L & N) I. pose proof (laid_in _ _ _ _ L N I) as (A & B & D).
  unfold geom in Gm. pose proof (laid_mod _ _ _ t L N ltac:(tauto) I). pose proof g_rng. lia.
Qed.

Lemma rng_in Ts M x : In x Ts -> In (rng_a x) (ranges Ts M).
Proof. intros I. unfold ranges. apply in_or_app. left. apply in_map. exact I. Qed.
Lemma rng_in_m Ts M m : In m M -> In (rng_m m) (ranges Ts M).
Proof. intros I. unfold ranges. apply in_or_app. right. apply in_map. exact I. Qed.

(** Any other tile lies a full gap away. *)
Lemma apart X a l1 t l2 Y M u : GEO (X ++ (a, l1 ++ t :: l2) :: Y) M -> In u (others X l1 l2 Y) ->
  tp u + tsz u + g <= tp t \/ tp t + tsz t + g <= tp u.
Proof.
  intros [Gk Dj] I. unfold others in I. rewrite !in_app_iff in I.
  rewrite Forall_app, Forall_cons_iff in Gk. destruct Gk as (Gx & Ga & Gy).
  pose proof Ga as (_ & L & N). cbn [fst snd] in L, N.
  assert (T := gok_in _ t Ga (in_elt t l1 l2)). cbn [fst] in T.
  assert (E : forall Z0, Forall gok Z0 -> In u (tiles Z0) -> exists x, In x Z0 /\ In u (snd x) /\ gok x).
  { intros Z0 FZ IZ. unfold tiles in IZ. apply in_concat in IZ as (l & IZ & J). apply in_map_iff in IZ as (x & <- & IZ).
    exists x. rewrite Forall_forall in FZ. auto. }
  unfold ranges in Dj. rewrite map_app in Dj. cbn [map] in Dj. rewrite <- app_assoc in Dj. cbn [app] in Dj.
  apply disj_all_mid in Dj as [Dj _]. rewrite Forall_forall in Dj.
  assert (Q : forall x, In x (X ++ Y) -> In u (snd x) -> gok x -> tp u + tsz u + g <= tp t \/ tp t + tsz t + g <= tp u).
  { intros x Ix Iu Gx'. pose proof (gok_in _ u Gx' Iu) as U.
    assert (D := Dj (rng_a x)). destruct D as [D|D].
    { rewrite in_app_iff in *. rewrite in_app_iff. destruct Ix; [left | right; left]; apply in_map; auto. }
    - unfold rng_a in D; cbn [fst snd] in D. lia.
    - unfold rng_a in D; cbn [fst snd] in D. lia. }
  destruct I as [I|[[I|I]|I]].
  - destruct (E _ Gx I) as (x & A & B & D). apply (Q x); auto. apply in_or_app; auto.
  - apply laid_mid in L as [L _]. rewrite Forall_app in N. left. pose proof (laid_in _ _ _ u L (proj1 N) I). lia.
  - apply laid_mid in L as [_ L]. rewrite Forall_app, Forall_cons_iff in N. right.
    pose proof (laid_in _ _ _ u L (proj2 (proj2 N)) I). lia.
  - destruct (E _ Gy I) as (x & A & B & D). apply (Q x); auto. apply in_or_app; auto.
Qed.
Lemma apart_ptr X a l1 t l2 Y M u : GEO (X ++ (a, l1 ++ t :: l2) :: Y) M -> In u (others X l1 l2 Y) -> tp u <> tp t.
Proof.
  intros G I. pose proof (apart _ _ _ _ _ _ _ _ G I) as A.
  assert (16 <= tsz t /\ 16 <= tsz u).
  { destruct G as [Gk _]. rewrite Forall_forall in Gk. split.
    - destruct (Gk (a, l1 ++ t :: l2)) as (_ & _ & N); [apply in_or_app; right; left; auto|]. cbn in N.
      rewrite Forall_app, Forall_cons_iff in N. apply N.
    - assert (J : In u (tiles (X ++ (a, l1 ++ t :: l2) :: Y))) by (apply in_mid; auto).
      unfold tiles in J. apply in_concat in J as (l & J & K). apply in_map_iff in J as (x & <- & J).
      destruct (Gk _ J) as (_ & _ & N). rewrite Forall_forall in N. apply (N _ K). }
  pose proof g_rng. lia.
Qed.
Lemma tile_unique Ts M t u : GEO Ts M -> In t (tiles Ts) -> In u (tiles Ts) -> tp u = tp t -> u = t.
Proof.
  intros G It Iu E. destruct (tiles_split _ _ It) as (X & a & l1 & l2 & Y & ->).
  apply in_mid in Iu as [Iu|Iu]; auto. exfalso. eapply apart_ptr; eauto.
Qed.
Lemma tile_facts Ts M t : GEO Ts M -> In t (tiles Ts) ->
  0 < tp t /\ tp t mod 16 = 0 /\ 16 <= tsz t < 2 ^ 32 /\ tsz t mod 16 = 0 /\ tp t - g > 0.
Proof.
  intros [Gk _] I. unfold tiles in I. apply in_concat in I as (l & I & K). apply in_map_iff in I as (x & <- & I).
  rewrite Forall_forall in Gk. specialize (Gk _ I). pose proof (gok_in _ _ Gk K) as A.
  destruct Gk as (Gm & _ & N). rewrite Forall_forall in N. destruct (N _ K). unfold geom in Gm. lia.
Qed.
(** A tile lies away from every mapping. *)
Lemma apart_mm Ts M t m : GEO Ts M -> In t (tiles Ts) -> In m M ->
  tp t + tsz t <= mb m \/ mb m + msz m <= tp t - g.
Proof.
  intros [Gk Dj] I Im. unfold tiles in I. apply in_concat in I as (l & I & K). apply in_map_iff in I as (x & <- & I).
  rewrite Forall_forall in Gk. pose proof (gok_in _ _ (Gk _ I) K) as A.
  apply in_split in I as (X & Y & ->).
  unfold ranges in Dj. rewrite map_app in Dj. cbn [map] in Dj. rewrite <- app_assoc in Dj. cbn [app] in Dj.
  apply disj_all_mid in Dj as [Dj _]. rewrite Forall_forall in Dj.
  destruct (Dj (rng_m m)) as [D|D].
  - rewrite !in_app_iff. right. right. apply in_map. exact Im.
  - unfold rng_a, rng_m in D; cbn [fst snd] in D. lia.
  - unfold rng_a, rng_m in D; cbn [fst snd] in D. lia.
Qed.

(** the arena found by the walk *)
Lemma arena_of_at (L1 : list arena) a L2 i p :
  (forall b, In b L1 -> p < a_start b \/ a_commit b <= p) -> a_start a <= p < a_commit a ->
  arena_of (L1 ++ a :: L2) i p = Some ((i + length L1)%nat, a).
Proof.
  revert i; induction L1 as [|b L1 IH]; intros i Hn Ha; cbn [app arena_of length].
  - replace (_ && _) with true by lia. f_equal. f_equal. lia.
  - destruct (Hn b) as [E|E]; [left; auto| |]; replace (_ && _) with false by lia;
    rewrite IH by (auto; intros; apply Hn; right; auto); f_equal; f_equal; lia.
Qed.
Lemma skipn_map_fst (n : nat) (l : ats) : skipn n (map fst l) = map fst (skipn n l).
Proof. apply skipn_map. Qed.
Lemma container_at s X a l1 t l2 Y M i :
  arenas s = map fst (X ++ (a, l1 ++ t :: l2) :: Y) -> GEO (X ++ (a, l1 ++ t :: l2) :: Y) M -> (i <= length X)%nat ->
  container s i (tp t) = Some (length X, a).
Proof.
  intros E G Hi. unfold container. rewrite E, map_app. cbn [map fst].
  rewrite skipn_app, map_length. replace (i - length X)%nat with O by lia. cbn [skipn].
  assert (Ga : gok (a, l1 ++ t :: l2)).
  { destruct G as [Gk _]. rewrite Forall_app, Forall_cons_iff in Gk. tauto. }
  assert (T := gok_in _ t Ga (in_elt t l1 l2)). cbn [fst] in T.
  rewrite arena_of_at.
  - rewrite skipn_length, map_length. f_equal. f_equal. lia.
  - intros b Hb. assert (In b (map fst X)).
    { rewrite <- (firstn_skipn i (map fst X)). apply in_or_app. auto. }
    apply in_map_iff in H as (x & <- & Ix).
    destruct G as [Gk Dj]. rewrite Forall_app in Gk. destruct Gk as [Gx _]. rewrite Forall_forall in Gx. specialize (Gx _ Ix).
    destruct Gx as (Gm & _).
    unfold ranges in Dj. rewrite map_app in Dj. cbn [map] in Dj. rewrite <- app_assoc in Dj. cbn [app] in Dj.
    apply disj_all_mid in Dj as [Dj _]. rewrite Forall_forall in Dj.
    destruct (Dj (rng_a x)) as [D|D].
    + apply in_or_app. left. apply in_map. exact Ix.
    + unfold rng_a in D; cbn [fst snd] in D. left. unfold geom in Gm. pose proof g_rng. lia.
    + unfold rng_a in D; cbn [fst snd] in D. right. pose proof g_rng. lia.
  - lia.
Qed.
End Geo.
