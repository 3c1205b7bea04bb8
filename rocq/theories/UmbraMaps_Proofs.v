(** Proofs about the registry of shadow maps. *)
From Coq Require Import ZArith List Bool Lia.
Import ListNotations.
From Verif Require Import UmbraMaps_Model UmbraMaps_Spec.
Open Scope Z_scope.
Local Arguments Z.modulo : simpl never.
Local Arguments Z.pow : simpl never.
Local Arguments Z.sub : simpl never.
Local Arguments Z.add : simpl never.

Definition has (st : state) (p k : Z) (i : nat) : Prop :=
  find (fun m => m_id m =? p) (heap st) = Some (Map p k i true).

Inductive shape (st : state) : list (Z * Z * nat) -> Prop :=
| sh0 : slots st = [None; None] -> shape st []
| shA p k : slots st = [Some p; None] -> has st p k 0 -> shape st [(p, k, 0%nat)]
| shB p k : slots st = [None; Some p] -> has st p k 1 -> shape st [(p, k, 1%nat)]
| shC p k q l : slots st = [Some p; Some q] -> has st p k 0 -> has st q l 1 -> p <> q ->
    shape st [(q, l, 1%nat); (p, k, 0%nat)].

Record rel (st : state) (s : ideal) : Prop := {
  r_count : count st = Z.of_nat (users s);
  r_ready : ready st = negb (Nat.eqb (users s) 0);
  r_lock : users s <> 0%nat -> lock st = Free;
  r_num : if shrunk s then 2 ^ 32 - 2 + Z.of_nat (length (maps s)) <= num st < 2 ^ 32
          else num st = 0;
  r_next : next st = fresh s;
  r_ids : forall m, In m (heap st) -> m_id m < next st;
  r_none : users s = 0%nat -> maps s = [] /\ shrunk s = false;
  r_some : shrunk s = true -> (length (maps s) <= 1)%nat;
  r_one : forall p k, maps s = [(p, k, 1%nat)] -> shrunk s = true;
  r_shape : shape st (maps s) }.

Lemma rel_boot : rel boot start.
Proof.
  constructor; cbn; try reflexivity; try easy.
  apply sh0. reflexivity.
Qed.

Lemma find_new p x h : m_id x <> p ->
  find (fun m => m_id m =? p) (x :: h) = find (fun m => m_id m =? p) h.
Proof. intros H. cbn. destruct (Z.eqb_spec (m_id x) p); easy. Qed.

Lemma find_filter p q h : p <> q ->
  find (fun m => m_id m =? q) (filter (fun m => negb (m_id m =? p)) h)
  = find (fun m => m_id m =? q) h.
Proof.
  intros H. induction h as [|x h IH]; cbn; [reflexivity|].
  destruct (Z.eqb_spec (m_id x) p) as [E|E]; cbn.
  - destruct (Z.eqb_spec (m_id x) q) as [E'|E']; [congruence|apply IH].
  - destruct (Z.eqb_spec (m_id x) q); [reflexivity|apply IH].
Qed.

Lemma has_id st p k i : has st p k i -> forall b, (forall m, In m (heap st) -> m_id m < b) -> p < b.
Proof. intros H b Hb. apply find_some in H. exact (Hb _ (proj1 H)). Qed.

(** A new map does not disturb the others. *)
Definition grown (st : state) (o : ops) (i : nat) (lk : bool) : state :=
  St (Map (next st) (o_scale o) i lk :: heap st) (slots st) (num st) (count st)
     (ready st) (lock st) (next st + 1).

Lemma has_grown st o i lk p k j : (forall m, In m (heap st) -> m_id m < next st) ->
  has st p k j -> has (grown st o i lk) p k j.
Proof.
  intros Hb H. pose proof (has_id _ _ _ _ H _ Hb) as L. unfold has in *. cbn [heap grown].
  rewrite find_new; [exact H|]. cbn. lia.
Qed.

Lemma shape_grown st o i lk ms : (forall m, In m (heap st) -> m_id m < next st) ->
  shape st ms -> shape (grown st o i lk) ms.
Proof.
  intros Hb H. destruct H; econstructor; eauto using has_grown.
Qed.

Lemma rel_grown st s o i lk : users s <> 0%nat -> rel st s ->
  rel (grown st o i lk) (Ideal (users s) (maps s) (shrunk s) (fresh s + 1)).
Proof.
  intros Hu [A B C D E F G H K I]. constructor; cbn; auto.
  - lia.
  - intros m [<-|Hm]; cbn; [lia|]. apply F in Hm. lia.
  - now apply shape_grown.
Qed.

(** Relocking changes nothing else. *)
Lemma relock st : lock st = Free -> with_lock (with_lock st Held) Free = st.
Proof. destruct st; cbn; intros ->; reflexivity. Qed.

Lemma map_create_cases arch st o idx :
  map_create arch st o idx =
  if negb (byte_default o) then (st, None, S_notimpl)
  else if o_cb o then (grown st o idx false, Some (next st), S_notimpl)
  else if known_scale o then (grown st o idx true, Some (next st), arch idx o)
  else (grown st o idx false, Some (next st), S_feature).
Proof.
  unfold map_create, byte_default, known_scale, grown.
  rewrite negb_andb.
  assert (E : (255 <? o_dflt o) = negb (o_dflt o <=? 255)).
  { destruct (Z.ltb_spec 255 (o_dflt o)), (Z.leb_spec (o_dflt o) 255); auto; lia. }
  rewrite E. reflexivity.
Qed.

Lemma free_slot_place st s : shape st (maps s) ->
  if (2 <=? length (maps s))%nat then free_slot (slots st) = 2%nat
  else free_slot (slots st) = place s.
Proof.
  destruct s as [u ms sh f]. cbn [maps]. unfold place, taken. cbn [maps].
  intros H. destruct H as [E|p k E _|p k E _|p k q l E _ _ _]; rewrite E; reflexivity.
Qed.

Lemma deref_new st o i lk : deref (grown st o i lk) (next st) = Ret (Map (next st) (o_scale o) i lk).
Proof. unfold deref. cbn. now rewrite Z.eqb_refl. Qed.

Lemma deref_has st p k i : has st p k i -> deref st p = Ret (Map p k i true).
Proof. unfold has, deref. now intros ->. Qed.

Lemma with_lock_grown st l o i lk : with_lock (grown st o i lk) l = grown (with_lock st l) o i lk.
Proof. reflexivity. Qed.

Lemma has_lock st l p k i : has (with_lock st l) p k i <-> has st p k i.
Proof. reflexivity. Qed.

Lemma shape_lock st l ms : shape st ms -> shape (with_lock st l) ms.
Proof. intros H. destruct H; econstructor; eauto. Qed.

(** Adding a map at the free place. *)
Lemma rel_add st s o : users s <> 0%nat -> rel st s -> shrunk s = false ->
  (2 <=? length (maps s))%nat = false ->
  rel (with_slots (grown st o (place s) true)
                  (set_slot (place s) (Some (next st)) (slots st)))
      (Ideal (users s) ((fresh s, o_scale o, place s) :: maps s) (shrunk s) (fresh s + 1)).
Proof.
  intros Hu R Hs Hl. destruct R as [A B C D E F G H K I].
  rewrite Hs in *.
  assert (Hn : has (grown st o (place s) true) (next st) (o_scale o) (place s)).
  { unfold has. cbn. now rewrite Z.eqb_refl. }
  assert (Hb : forall m, In m (heap (grown st o (place s) true)) -> m_id m < next st + 1).
  { intros m [<-|Hm]; cbn; [lia|]. apply F in Hm. lia. }
  destruct (maps s) as [|[[p k] i] [|]] eqn:M; cbn in Hl; [| |discriminate].
  - assert (P : place s = 0%nat) by (unfold place, taken; now rewrite M).
    rewrite P in *. constructor; cbn [users maps shrunk fresh count ready lock num next heap
      with_slots grown slots length]; auto; try congruence; try lia.
    inversion I as [E0|p0 k0 E0 _|p0 k0 E0 _|p0 k0 q l E0 _ _ _]. rewrite E0. cbn. rewrite <- E.
    apply shA; [reflexivity|exact Hn].
  - inversion I as [|p0 k0 E0 H0 X|p0 k0 E0 H0 X|]; subst.
    + assert (P : place s = 1%nat) by (unfold place, taken; now rewrite M).
      rewrite P in *. constructor; cbn [users maps shrunk fresh count ready lock num next heap
        with_slots grown slots length]; auto; try congruence; try lia.
      rewrite E0. cbn. rewrite <- E. pose proof (has_id _ _ _ _ H0 _ F).
      apply shC; [reflexivity| |exact Hn|lia].
      now apply (has_grown st o 1 true).
    + discriminate (K p k eq_refl).
Qed.

(** The compatibility loop does nothing before the first destroy. *)
Lemma compat_none st m l : num st = 0 -> compat_loop st m l 0 = Ret true.
Proof. intros H. destruct l; cbn; now rewrite H. Qed.

Lemma step_create arch st s null o : rel st s -> careful s (Create null o) = true ->
  exists st', step arch st (Create null o) = Ret (st', snd (ideal_step arch s (Create null o))) /\
    rel st' (fst (ideal_step arch s (Create null o))).
Proof.
  intros R Hc. pose proof R as [A B C D E F G H K I].
  cbn [step ideal_step]. unfold create_mapping. rewrite B.
  destruct (Nat.eqb_spec (users s) 0) as [U|U]; cbn [negb].
  { eexists. cbn. split; [reflexivity|]. exact R. }
  destruct null. { eexists. cbn. split; [reflexivity|]. exact R. }
  unfold umbra_lock. rewrite (C U). cbn [bind].
  unfold map_add. cbn [slots with_lock].
  pose proof (free_slot_place _ _ I) as P.
  destruct (2 <=? length (maps s))%nat eqn:L.
  { rewrite P. cbn. rewrite relock by auto. eexists. split; [reflexivity|exact R]. }
  rewrite P.
  assert (Lt : (MAX_NUM_MAPS <=? place s)%nat = false).
  { unfold place. now destruct (taken s 0). }
  rewrite Lt. rewrite map_create_cases.
  cbn [careful] in Hc. rewrite (proj2 (Nat.eqb_neq _ _) U), L in Hc. cbn [orb] in Hc.
  destruct (byte_default o); cbn [negb].
  2:{ cbn. rewrite relock by auto. eexists. split; [reflexivity|exact R]. }
  destruct (o_cb o).
  { cbn. eexists. split; [reflexivity|]. apply (rel_grown _ _ o (place s) false) in R; auto.
    unfold grown in R. cbn in *. rewrite <- (C U). exact R. }
  destruct (known_scale o); cbn [negb].
  2:{ cbn. eexists. split; [reflexivity|]. apply (rel_grown _ _ o (place s) false) in R; auto.
      unfold grown in R. cbn in *. rewrite <- (C U). exact R. }
  destruct (arch (place s) o) eqn:Ar;
    try (cbn; eexists; split; [reflexivity|]; apply (rel_grown _ _ o (place s) true) in R; auto;
         unfold grown in R; cbn in *; rewrite <- (C U); exact R).
  cbn [negb orb] in Hc. rewrite !orb_false_r in Hc. apply andb_true_iff in Hc as [S1 S2].
  rewrite S2. apply negb_true_iff in S1. rewrite S1 in D.
  cbn [next with_lock]. change (next st) with (next (with_lock st Held)).
  rewrite deref_new. cbn [bind].
  rewrite compat_none by exact D. cbn.
  pose proof (rel_add st s o U R S1 L) as RA.
  rewrite <- E in RA |- *. eexists. split; [reflexivity|]. unfold grown in *. cbn in *.
  rewrite (C U) in RA. exact RA.
Qed.

Lemma has_filter st p q k i n sl : p <> q -> has st q k i ->
  has (with_heap (with_num (with_slots st sl) n)
                 (filter (fun m => negb (m_id m =? p)) (heap st))) q k i.
Proof. intros N H. unfold has. cbn. rewrite find_filter; auto. Qed.


Lemma destroyed st p k i j sl : has st p k i -> slot_of p (slots st) = Some j ->
  lock st = Free -> sl = set_slot j None (slots st) ->
  step (fun _ _ => S_ok) st (Destroy (Some p)) =
  Ret (with_heap (with_num (with_slots st sl) ((num st - 1) mod 2 ^ 32))
                 (filter (fun m => negb (m_id m =? p)) (heap st)), (S_ok, None)).
Proof.
  intros Hp Hs Hl ->. cbn [step destroy_mapping]. rewrite (deref_has _ _ _ _ Hp). cbn [bind].
  unfold umbra_lock. rewrite Hl. cbn [bind]. unfold map_remove. cbn [slots with_lock].
  rewrite Hs. unfold map_destroy, deref. cbn [heap with_num with_slots with_lock].
  unfold has in Hp. rewrite Hp. cbn. destruct st; cbn in *. now rewrite Hl.
Qed.

Lemma step_destroy arch st s p : rel st s -> careful s (Destroy p) = true ->
  exists st', step arch st (Destroy p) = Ret (st', snd (ideal_step arch s (Destroy p))) /\
    rel st' (fst (ideal_step arch s (Destroy p))).
Proof.
  intros R Hc. destruct p as [p|]; [|exists st; split; [reflexivity|exact R]].
  pose proof R as [A B C D E F G H K I].
  assert (U : users s <> 0%nat).
  { intros U. apply G in U as [U _]. cbn in Hc. unfold known in Hc. rewrite U in Hc. discriminate. }
  change (step arch st (Destroy (Some p))) with (step (fun _ _ => S_ok) st (Destroy (Some p))).
  cbn in Hc. unfold known in Hc.
  assert (Hf : forall (h : list umap) m, In m (filter (fun m => negb (m_id m =? p)) h) -> In m h).
  { intros h m Hm. now apply filter_In in Hm. }
  assert (N : forall k, (length (maps s) = S k)%nat ->
     2 ^ 32 - 2 + Z.of_nat k <= (num st - 1) mod 2 ^ 32 < 2 ^ 32).
  { intros k Lk. rewrite Lk in D. destruct (shrunk s).
    - rewrite Z.mod_small by lia. lia.
    - rewrite D. change ((0 - 1) mod 2 ^ 32) with (2 ^ 32 - 1).
      assert (k <= 1)%nat by (inversion I as [Q Q'|? ? ? ? Q'|? ? ? ? Q'|? ? ? ? ? ? ? ? Q'];
        rewrite <- Q' in Lk; cbn in Lk; lia). lia. }
  inversion I as [E0 M|q k E0 H0 M|q k E0 H0 M|q k q' k' E0 H0 H1 Nq M];
    rewrite <- M in Hc; cbn in Hc; [discriminate| | |].
  - rewrite orb_false_r in Hc. apply Z.eqb_eq in Hc. subst q.
    rewrite (destroyed st p k 0 0 [None; None]) by
      (auto; rewrite E0; cbn; now rewrite ?Z.eqb_refl).
    eexists. split; [reflexivity|]. cbn [fst ideal_step]. rewrite <- M. cbn [filter fst].
    rewrite Z.eqb_refl. cbn [negb]. rewrite <- M in N. specialize (N 0%nat eq_refl).
    constructor; cbn; auto; try lia; try congruence. apply sh0. reflexivity.
  - rewrite orb_false_r in Hc. apply Z.eqb_eq in Hc. subst q.
    rewrite (destroyed st p k 1 1 [None; None]) by
      (auto; rewrite E0; cbn; now rewrite ?Z.eqb_refl).
    eexists. split; [reflexivity|]. cbn [fst ideal_step]. rewrite <- M. cbn [filter fst].
    rewrite Z.eqb_refl. cbn [negb]. rewrite <- M in N. specialize (N 0%nat eq_refl).
    constructor; cbn; auto; try lia; try congruence. apply sh0. reflexivity.
  - rewrite orb_false_r in Hc. rewrite <- M in N. specialize (N 1%nat eq_refl).
    cbn [fst ideal_step]. rewrite <- M. cbn [filter fst].
    destruct (Z.eqb_spec q' p) as [->|Q].
    + rewrite (destroyed st p k' 1 1 [Some q; None]).
      2: auto. 3: auto. 3: (rewrite E0; reflexivity).
      2:{ rewrite E0. cbn. destruct (Z.eqb_spec q p); [easy|]. now rewrite Z.eqb_refl. }
      eexists. split; [reflexivity|]. destruct (Z.eqb_spec q p); [easy|]. cbn [negb].
      constructor; cbn; auto; try lia; try congruence.
      apply (shA _ q k); [reflexivity|]. apply has_filter; auto; congruence.
    + cbn in Hc. apply Z.eqb_eq in Hc. subst q.
      rewrite (destroyed st p k 0 0 [None; Some q']).
      2: auto. 3: auto. 3: (rewrite E0; reflexivity).
      2:{ rewrite E0. cbn. now rewrite Z.eqb_refl. }
      eexists. split; [reflexivity|]. rewrite Z.eqb_refl. cbn [negb].
      constructor; cbn; auto; try lia; try congruence.
      apply (shB _ q' k'); [reflexivity|]. apply has_filter; auto; congruence.
Qed.

Lemma step_init arch st s v a d : rel st s -> careful s (Init v a d) = true ->
  exists st', step arch st (Init v a d) = Ret (st', snd (ideal_step arch s (Init v a d))) /\
    rel st' (fst (ideal_step arch s (Init v a d))).
Proof.
  intros R Hc. cbn in Hc. destruct v, a, d; try discriminate. cbn.
  pose proof R as [A B C D E F G H K I]. unfold init. cbn [count with_count].
  destruct (Z.ltb_spec 1 (count st + 1)) as [L|L]; cbn [negb]; eexists; (split; [reflexivity|]).
  - constructor; cbn; auto; try lia; try congruence.
    + rewrite B. destruct (Nat.eqb_spec (users s) 0); [lia|reflexivity].
    + intros _. apply C. lia.
    + inversion I; econstructor; eauto.
  - constructor; cbn; auto; try lia; try congruence.
    inversion I; econstructor; eauto.
Qed.

Lemma step_exit arch st s : rel st s -> careful s Exit = true ->
  exists st', step arch st Exit = Ret (st', snd (ideal_step arch s Exit)) /\
    rel st' (fst (ideal_step arch s Exit)).
Proof.
  intros R Hc. pose proof R as [A B C D E F G H K I]. cbn [careful] in Hc. cbn [step ideal_step].
  destruct (users s) as [|[|n]] eqn:U; [discriminate| |].
  - destruct (maps s) eqn:M; [|discriminate]. inversion I as [E0| | |].
    specialize (C ltac:(discriminate)). clear R I.
    destruct st as [h sl n c r lk nx]. cbn [slots lock count] in *. subst sl lk c.
    unfold exit. cbn [count with_count]. change (Z.of_nat 1 - 1) with 0.
    eexists. split; [reflexivity|].
    constructor; cbn; auto; try congruence. now apply sh0.
  - unfold exit. cbn [count with_count]. rewrite A.
    destruct (Z.ltb_spec 0 (Z.of_nat (S (S n)) - 1)); [|lia]. cbn.
    eexists. split; [reflexivity|]. constructor; cbn; auto; try congruence; try lia.
    inversion I; econstructor; eauto.
Qed.

Lemma step_ok arch st s c : rel st s -> careful s c = true ->
  exists st', step arch st c = Ret (st', snd (ideal_step arch s c)) /\
    rel st' (fst (ideal_step arch s c)).
Proof.
  destruct c; [apply step_init|apply step_exit|apply step_create|apply step_destroy].
Qed.

Lemma run_ok arch l : forall st s, rel st s -> always arch careful s l = true ->
  exists st', run arch st l = Ret (st', snd (ideal_run arch s l)) /\
    rel st' (fst (ideal_run arch s l)).
Proof.
  induction l as [|c l IH]; intros st s R H; cbn [run ideal_run].
  { eexists. split; [reflexivity|exact R]. }
  cbn [always] in H. apply andb_true_iff in H as [H1 H2].
  destruct (step_ok arch st s c R H1) as (st1 & E1 & R1). rewrite E1. cbn [bind fst snd].
  destruct (ideal_step arch s c) as [s1 a]. cbn [fst snd] in *.
  destruct (IH _ _ R1 H2) as (st2 & E2 & R2). rewrite E2. cbn [bind fst snd].
  destruct (ideal_run arch s1 l) as [s2 r]. cbn in *. eauto.
Qed.

(** What [rel] says about the maps that the code has. *)
Lemma has_in st p k i : has st p k i -> nth i (slots st) None = Some p ->
  exists m, In m (heap st) /\ described m = (p, k, i) /\ m_lock m = true /\
    nth (m_index m) (slots st) None = Some (m_id m).
Proof. intros H N. apply find_some in H as [H _]. eexists. split; [exact H|]. auto. Qed.

Lemma rel_maps st s x : rel st s -> In x (maps s) ->
  exists m, In m (heap st) /\ described m = x /\ m_lock m = true /\
    nth (m_index m) (slots st) None = Some (m_id m).
Proof.
  intros R Hx. destruct (r_shape _ _ R) as [E0|q k E0 H0|q k E0 H0|q k q' k' E0 H0 H1 Nq];
    cbn in Hx.
  - easy.
  - destruct Hx as [<-|[]]. apply has_in; auto. now rewrite E0.
  - destruct Hx as [<-|[]]. apply has_in; auto. now rewrite E0.
  - destruct Hx as [<-|[<-|[]]]; apply has_in; auto; now rewrite E0.
Qed.

(** Nothing is leaked as long as no create fails late. *)
Definition exact_heap (st : state) (s : ideal) : Prop := map described (heap st) = maps s.

Lemma step_exact arch st s c st' a : rel st s -> careful s c = true -> clean arch s c = true ->
  exact_heap st s -> step arch st c = Ret (st', a) ->
  exact_heap st' (fst (ideal_step arch s c)).
Proof.
  intros R Hc Hk X. destruct c as [v a' d| |null o|[p|]].
  - cbn in Hc. destruct v, a', d; try discriminate. cbn. unfold init.
    destruct (_ <? _); intros [= <- _]; exact X.
  - pose proof R as [A B C D E F G H K I]. cbn [careful] in Hc. cbn [step ideal_step].
    destruct (users s) as [|[|n]] eqn:U; [discriminate| |].
    + destruct (maps s) eqn:M; [|discriminate]. inversion I as [E0| | |].
      specialize (C ltac:(discriminate)). clear R I.
      destruct st as [h sl n c r lk nx]. cbn [slots lock count] in *. subst sl lk c.
      unfold exit. cbn [count with_count]. change (Z.of_nat 1 - 1) with 0.
      cbn. intros [= <- _]. unfold exact_heap in *. cbn in *. now rewrite X.
    + unfold exit. cbn [count with_count]. rewrite A.
      destruct (Z.ltb_spec 0 (Z.of_nat (S (S n)) - 1)); [|lia]. cbn. intros [= <- _]. exact X.
  - pose proof R as [A B C D E F G H K I]. cbn [step ideal_step]. unfold create_mapping. rewrite B.
    destruct (Nat.eqb_spec (users s) 0) as [U|U]; cbn [negb]. { intros [= <- _]. exact X. }
    destruct null. { intros [= <- _]. exact X. }
    unfold umbra_lock. rewrite (C U). cbn [bind].
    unfold map_add. cbn [slots with_lock].
    pose proof (free_slot_place _ _ I) as P.
    destruct (2 <=? length (maps s))%nat eqn:L.
    { rewrite P. cbn. intros [= <- _]. exact X. }
    rewrite P.
    assert (Lt : (MAX_NUM_MAPS <=? place s)%nat = false).
    { unfold place. now destruct (taken s 0). }
    rewrite Lt. rewrite map_create_cases.
    cbn [clean careful] in Hk, Hc.
    rewrite (proj2 (Nat.eqb_neq _ _) U), L in Hk, Hc. cbn [orb] in Hk, Hc.
    destruct (byte_default o); cbn [negb].
    2:{ cbn. intros [= <- _]. exact X. }
    cbn [negb orb] in Hk. apply andb_true_iff in Hk as [Hk1 Ar].
    apply andb_true_iff in Hk1 as [Cb Ks]. apply negb_true_iff in Cb. rewrite Cb, Ks in *.
    destruct (arch (place s) o); try discriminate.
    cbn [negb orb] in Hc. rewrite !orb_false_r in Hc. apply andb_true_iff in Hc as [S1 S2].
    rewrite S2. apply negb_true_iff in S1. rewrite S1 in D.
    cbn [next with_lock]. change (next st) with (next (with_lock st Held)).
    rewrite deref_new. cbn [bind].
    rewrite compat_none by exact D. cbn. intros [= <- _].
    unfold exact_heap in *. cbn. rewrite X, E. reflexivity.
  - destruct (step_destroy arch st s (Some p) R Hc) as (st2 & E2 & _).
    intros E3. pose proof R as [A B C D E F G H K I].
    assert (U : users s <> 0%nat).
    { intros U. apply G in U as [U _]. cbn in Hc. unfold known in Hc. rewrite U in Hc. discriminate. }
    cbn in Hc. apply existsb_exists in Hc as (x & Hx & Hp). apply Z.eqb_eq in Hp.
    destruct (rel_maps _ _ _ R Hx) as (m & _ & Dm & _ & _). subst p.
    assert (exists k i j, has st (fst (fst x)) k i /\ slot_of (fst (fst x)) (slots st) = Some j)
      as (k & i & j & Hh & Hs).
    { inversion I as [E0 M|q k E0 H0 M|q k E0 H0 M|q k q' k' E0 H0 H1 Nq M]; rewrite <- M in Hx;
        cbn in Hx; rewrite E0; [easy| | |].
      - destruct Hx as [<-|[]]. do 3 eexists. split; [exact H0|]. cbn. rewrite Z.eqb_refl. reflexivity.
      - destruct Hx as [<-|[]]. do 3 eexists. split; [exact H0|]. cbn. rewrite Z.eqb_refl. reflexivity.
      - destruct Hx as [<-|[<-|[]]].
        + exists k', 1%nat, 1%nat. split; [exact H1|]. cbn. destruct (Z.eqb_spec q q'); [easy|].
          rewrite Z.eqb_refl. reflexivity.
        + do 3 eexists. split; [exact H0|]. cbn. rewrite Z.eqb_refl. reflexivity. }
    change (step arch st (Destroy (Some (fst (fst x)))))
      with (step (fun _ _ => S_ok) st (Destroy (Some (fst (fst x))))) in E3.
    erewrite destroyed in E3; eauto. injection E3 as <- _.
    unfold exact_heap in *. cbn. rewrite <- X. clear. induction (heap st) as [|m h IH]; cbn.
    { reflexivity. }
    destruct (m_id m =? fst (fst x)); cbn; [exact IH|]. now rewrite IH.
  - cbn. intros [= <- _]. exact X.
Qed.

Lemma run_exact arch l : forall st s, rel st s -> exact_heap st s ->
  always arch careful s l = true -> always arch (clean arch) s l = true ->
  exists st', run arch st l = Ret (st', snd (ideal_run arch s l)) /\
    exact_heap st' (fst (ideal_run arch s l)).
Proof.
  induction l as [|c l IH]; intros st s R X H Hk; cbn [run ideal_run].
  { eexists. split; [reflexivity|exact X]. }
  cbn [always] in H, Hk. apply andb_true_iff in H as [H1 H2]. apply andb_true_iff in Hk as [K1 K2].
  destruct (step_ok arch st s c R H1) as (st1 & E1 & R1).
  pose proof (step_exact arch st s c _ _ R H1 K1 X E1) as X1.
  rewrite E1. cbn [bind fst snd].
  destruct (ideal_step arch s c) as [s1 a]. cbn [fst snd] in *.
  destruct (IH _ _ R1 X1 H2 K2) as (st2 & E2 & R2). rewrite E2. cbn [bind fst snd].
  destruct (ideal_run arch s1 l) as [s2 r]. cbn in *. eauto.
Qed.

(** What happens outside the careful use. *)

Lemma start_create arch st s o : rel st s -> users s <> 0%nat ->
  (length (maps s) < 2)%nat -> byte_default o = true -> o_cb o = false ->
  known_scale o = true -> arch (place s) o = S_ok ->
  create_mapping arch st false o =
  (let st1 := grown (with_lock st Held) o (place s) true in
   let! r := let! ok := compat_loop st1 (Map (next st) (o_scale o) (place s) true) (slots st) 0 in
             if ok : bool
             then Ret (with_slots st1 (set_slot (place s) (Some (next st)) (slots st)),
                       Some (next st), S_ok)
             else let! st := map_destroy st1 (next st) in Ret (st, Some (next st1 - 1), S_feature) in
   let '(st, p, e) := r in
   let! st := umbra_unlock st in Ret (st, p, e)).
Proof.
  intros R U Lm Bd Cb Ks Ar. pose proof R as [A B C D E F G H K I].
  unfold create_mapping. rewrite B, (proj2 (Nat.eqb_neq _ _) U). cbn [negb].
  unfold umbra_lock. rewrite (C U). cbn [bind]. unfold map_add. cbn [slots with_lock].
  pose proof (free_slot_place _ _ I) as P.
  destruct (Nat.leb_spec 2 (length (maps s))); [lia|]. rewrite P.
  assert (Lt : (MAX_NUM_MAPS <=? place s)%nat = false).
  { unfold place. now destruct (taken s 0). }
  rewrite Lt, map_create_cases, Bd, Cb, Ks, Ar. cbn [negb next with_lock].
  change (next st) with (next (with_lock st Held)).
  rewrite deref_new. cbn [bind slots grown with_lock next].
  replace (next st + 1 - 1) with (next st) by lia. reflexivity.
Qed.

Lemma create_after_destroy arch st s o : rel st s -> users s <> 0%nat -> shrunk s = true ->
  byte_default o = true -> o_cb o = false -> known_scale o = true ->
  arch (place s) o = S_ok -> same_scale s (o_scale o) = true ->
  step arch st (Create false o) = Bad.
Proof.
  intros R U Sh Bd Cb Ks Ar Sc. pose proof R as [A B C D E F G H K I].
  specialize (H Sh). rewrite Sh in D. cbn [step].
  rewrite (start_create arch st s o) by (auto; lia). cbn zeta.
  assert (Q : compat_loop (grown (with_lock st Held) o (place s) true)
                (Map (next st) (o_scale o) (place s) true) (slots st) 0 = Bad).
  2:{ rewrite Q. reflexivity. }
  unfold same_scale in Sc.
  inversion I as [E0 M|q k E0 H0 M|q k E0 H0 M|q k q' k' E0 H0 H1 Nq M]; rewrite <- M in *.
  - rewrite E0. cbn [compat_loop num grown with_lock].
    rewrite !(proj2 (Z.leb_gt _ _)) by (cbn in D; lia). reflexivity.
  - rewrite E0. cbn in Sc. rewrite andb_true_r in Sc. apply Z.eqb_eq in Sc.
    apply (has_grown (with_lock st Held) o (place s) true) in H0; [|exact F].
    cbn [compat_loop num grown with_lock].
    rewrite (deref_has _ _ _ _ H0). cbn [bind]. unfold compatible. cbn [m_scale].
    rewrite Sc, Z.eqb_refl.
    rewrite !(proj2 (Z.leb_gt _ _)) by (cbn in D; lia). reflexivity.
  - rewrite E0. cbn in Sc. rewrite andb_true_r in Sc. apply Z.eqb_eq in Sc.
    apply (has_grown (with_lock st Held) o (place s) true) in H0; [|exact F].
    cbn [compat_loop num grown with_lock].
    rewrite (deref_has _ _ _ _ H0). cbn [bind]. unfold compatible. cbn [m_scale].
    rewrite Sc, Z.eqb_refl.
    rewrite !(proj2 (Z.leb_gt _ _)) by (cbn in D; lia). reflexivity.
  - cbn in H. lia.
Qed.

Lemma create_other_scale arch st s o : rel st s -> users s <> 0%nat -> shrunk s = false ->
  (length (maps s) < 2)%nat -> byte_default o = true -> o_cb o = false ->
  known_scale o = true -> arch (place s) o = S_ok ->
  exists st', step arch st (Create false o) = Ret (st', (S_ok, Some (fresh s))).
Proof.
  intros R U Sh Lm Bd Cb Ks Ar. pose proof R as [A B C D E F G H K I].
  rewrite Sh in D. cbn [step]. rewrite (start_create arch st s o) by auto. cbn zeta.
  rewrite compat_none by exact D. cbn. rewrite E. eauto.
Qed.

Lemma exit_with_map arch st s : rel st s -> users s = 1%nat -> maps s <> [] ->
  step arch st Exit = Hang.
Proof.
  intros R U Hm. pose proof R as [A B C D E F G H K I]. rewrite U in *.
  specialize (C ltac:(discriminate)).
  inversion I as [E0 M|q k E0 H0 M|q k E0 H0 M|q k q' k' E0 H0 H1 Nq M]; [congruence| | |];
    destruct st as [h sl n c r lk nx]; cbn [slots lock count] in *; subst sl lk c;
    unfold has in *; cbn [heap] in *;
    cbn [step]; unfold exit; cbn [count with_count]; change (Z.of_nat 1 - 1) with 0;
    cbn [Z.ltb Z.compare umbra_lock lock with_count with_lock bind exit_loop MAX_NUM_MAPS nth slots
         destroy_mapping heap with_slots set_slot];
    unfold deref; cbn [heap with_lock with_count with_slots];
    rewrite ?H0; reflexivity.
Qed.
