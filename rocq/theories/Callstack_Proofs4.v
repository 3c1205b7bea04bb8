(** The table of shared stacks. *)
From Coq Require Import Permutation.
From Verif Require Import Base Redblack_Model Redblack_Spec Redblack_Facts Callstack_Model Callstack_Spec Callstack_Proofs1 Callstack_Proofs2 Callstack_Proofs3.
Open Scope Z_scope.

Lemma get_del l x y : get (del l x) y = if Nat.eqb y x then None else get l y.
Proof.
  induction l as [|[z v] l IH]; cbn [del filter get fst]; [destruct (Nat.eqb y x); auto|]. fold (del l x). destruct (Nat.eqb_spec z x).
  - subst z. cbn [negb]. rewrite IH. destruct (Nat.eqb_spec y x); auto. destruct (Nat.eqb_spec x y); congruence.
  - cbn [negb get]. destruct (Nat.eqb_spec z y); [|apply IH]. subst z. destruct (Nat.eqb_spec y x); congruence.
Qed.
Lemma get_put l x v y : get ((x, v) :: del l x) y = if Nat.eqb y x then Some v else get l y.
Proof. cbn [get]. rewrite get_del. rewrite (Nat.eqb_sym x y). destruct (Nat.eqb_spec y x); auto. Qed.

Definition cnt (x : nat) (held : list nat) : nat := count_occ Nat.eq_dec held x.
Record TI (nm : names) (tb : table) (held : list nat) (ob : nat -> list shown) : Prop := {
  t_obj : forall x p n, get (objs tb) x = Some (p, n) -> In x held /\ n = 1 + Z.of_nat (cnt x held) /\ Rep nm p (ob x) /\ Forall fits (ob x);
  t_held : forall x, In x held -> get (objs tb) x <> None;
  t_inj : forall x y, In x held -> In y held -> ob x = ob y -> x = y;
  t_ent : forall x, In x (entries tb) <-> In x held;
  t_next : forall x, In x held -> (x < next tb)%nat;
  t_small : Z.of_nat (length held) <= 2 ^ 32 - 3 }.

Lemma TI_ext a b tb held ob : ext a b -> TI a tb held ob -> TI b tb held ob.
Proof.
  intros X [H1 H2 H3 H4 H5 H6]. constructor; auto. intros x p n G. destruct (H1 x p n G) as (A1&A2&A3&A4). split; auto. split; auto. split; auto.
  eapply Rep_ext; eauto.
Qed.
Lemma lookup_tab bucket nm tb p os (ob : nat -> list shown) : uniq nm -> Rep nm p os -> Forall fits os -> forall l,
  (forall x, In x l -> exists q n, get (objs tb) x = Some (q, n) /\ Rep nm q (ob x) /\ Forall fits (ob x)) ->
  exists r, lookup bucket nm tb p l = Ok r /\ match r with Some y => In y l /\ ob y = os | None => forall y, In y l -> ob y <> os end.
Proof.
  intros U R F. induction l as [|x l IH]; intros H; cbn [lookup].
  - exists None. split; auto.
  - destruct (H x (or_introl eq_refl)) as (q&n&G&RQ&FQ). rewrite G. cbn [of_option bind]. rewrite (hash_ok _ _ _ R), (hash_ok _ _ _ RQ). cbn [bind].
    destruct (IH (fun y I => H y (or_intror I))) as (r&E1&P1).
    destruct (Z.eqb_spec (bucket (ohash os)) (bucket (ohash (ob x)))) as [B|B].
    + destruct (cmp_ok nm q p (ob x) os U RQ R) as (b&E2&P2). { right. auto. }
      rewrite E2. cbn [bind]. destruct b.
      * exists (Some x). split; auto. split; [left; auto|]. apply P2. auto.
      * exists r. split; auto. destruct r as [y|]; [destruct P1; split; auto; right; auto|]. intros y [<-|I]; auto. intros Q. apply P2 in Q. discriminate.
    + exists r. split; auto. destruct r as [y|]; [destruct P1; split; auto; right; auto|]. intros y [<-|I]; auto. intros Q. rewrite Q in B. congruence.
Qed.

Lemma cnt_app x l y : cnt x (l ++ [y]) = (cnt x l + if Nat.eqb x y then 1 else 0)%nat.
Proof. unfold cnt. rewrite count_occ_app. f_equal. cbn. destruct (Nat.eq_dec y x), (Nat.eqb_spec x y); congruence. Qed.
Lemma cnt_le x l : (cnt x l <= length l)%nat.
Proof. apply count_occ_bound. Qed.

Lemma add_ok bucket nm tb held ob p os : uniq nm -> TI nm tb held ob -> Rep nm p os -> Forall fits os -> Z.of_nat (length held) < 2 ^ 32 - 3 ->
  exists tb' x ob', add_to_table bucket nm tb p = Ok (tb', x) /\ TI nm tb' (held ++ [x]) ob' /\ ob' x = os /\ (forall y, In y held -> ob' y = ob y).
Proof.
  intros U T R F B. unfold add_to_table. set (x := next tb).
  assert (NX : forall y, In y held -> y <> x). { intros y I. pose proof (t_next _ _ _ _ T y I). unfold x. lia. }
  cbn [objs entries next].
  destruct (lookup_tab bucket nm (TB ((x, (p, 1)) :: objs tb) (entries tb) (S x)) p os ob U R F (entries tb)) as (r&E1&P1).
  { intros y I. apply (t_ent _ _ _ _ T) in I. pose proof (t_held _ _ _ _ T y I) as G. destruct (get (objs tb) y) as [[q n]|] eqn:Q; [|congruence].
    destruct (t_obj _ _ _ _ T y q n Q) as (A1&A2&A3&A4). exists q, n. split; auto. cbn [objs get]. destruct (Nat.eqb_spec x y); auto. exfalso. apply (NX y); auto. }
  rewrite E1. cbn [bind].
  assert (XN : get (objs tb) x = None).
  { destruct (get (objs tb) x) as [[q n]|] eqn:Q; auto. destruct (t_obj _ _ _ _ T x q n Q) as (A1&_). exfalso. eapply NX; eauto. }
  destruct r as [y|].
  - destruct P1 as (I&OY). apply (t_ent _ _ _ _ T) in I. unfold pcs_free. cbn [objs get entries next]. rewrite Nat.eqb_refl. cbn [of_option bind].
    change ((1 - 1) mod 2 ^ 32) with 0. change (0 =? 0) with true. cbv iota. unfold pcs_add_ref. cbn [objs entries next].
    assert (GD : forall z, get (del ((x, (p, 1)) :: objs tb) x) z = get (objs tb) z).
    { intros z. rewrite get_del. destruct (Nat.eqb_spec z x); [subst z; auto|]. cbn [get]. destruct (Nat.eqb_spec x z); congruence. }
    rewrite GD. pose proof (t_held _ _ _ _ T y I) as G. destruct (get (objs tb) y) as [[q n]|] eqn:Q; [|congruence]. cbn [of_option bind].
    destruct (t_obj _ _ _ _ T y q n Q) as (A1&A2&A3&A4). do 2 eexists. exists ob. split; [reflexivity|]. split; [|auto].
    pose proof (cnt_le y held).
    constructor; cbn [objs entries next].
    + intros z q' n' Gz. rewrite get_put, GD in Gz. destruct (Nat.eqb_spec z y).
      * subst z. injection Gz as <- <-. split; [apply in_or_app; auto|]. split; [|auto]. rewrite cnt_app, Nat.eqb_refl. rewrite Z.mod_small by lia. lia.
      * destruct (t_obj _ _ _ _ T z q' n' Gz) as (B1&B2&B3). split; [apply in_or_app; auto|]. split; [|auto]. rewrite cnt_app. destruct (Nat.eqb_spec z y); [congruence|lia].
    + intros z Iz. rewrite get_put, GD. destruct (Nat.eqb_spec z y); [discriminate|]. apply (t_held _ _ _ _ T). apply in_app_or in Iz. destruct Iz as [|[|[]]]; auto. congruence.
    + intros a b Ia Ib. apply in_app_or in Ia, Ib. apply (t_inj _ _ _ _ T); [destruct Ia as [|[<-|[]]]|destruct Ib as [|[<-|[]]]]; auto.
    + intros z. rewrite (t_ent _ _ _ _ T). rewrite in_app_iff. cbn. intuition congruence.
    + intros z Iz. apply in_app_or in Iz. assert (z < next tb)%nat; [|unfold x; lia]. apply (t_next _ _ _ _ T). destruct Iz as [|[<-|[]]]; auto.
    + rewrite app_length. cbn. lia.
  - unfold pcs_add_ref. cbn [objs entries next get]. rewrite Nat.eqb_refl. cbn [of_option bind].
    do 2 eexists. exists (fun z => if Nat.eqb z x then os else ob z). split; [reflexivity|]. rewrite Nat.eqb_refl. split; [|split; [auto|]].
    2:{ intros y I. destruct (Nat.eqb_spec y x); auto. exfalso. eapply NX; eauto. }
    assert (GD : forall z, z <> x -> get ((x, (p, 1)) :: objs tb) z = get (objs tb) z). { intros z Nz. cbn [get]. destruct (Nat.eqb_spec x z); congruence. }
    change ((1 + 1) mod 2 ^ 32) with 2.
    constructor; cbn [objs entries next].
    + intros z q' n' Gz. rewrite get_put in Gz. destruct (Nat.eqb_spec z x).
      * subst z. injection Gz as <- <-. split; [apply in_or_app; right; left; auto|]. split; [|auto]. rewrite cnt_app, Nat.eqb_refl.
        assert (cnt x held = 0)%nat; [|lia]. apply count_occ_not_In. intros I. eapply NX; eauto.
      * rewrite GD in Gz by auto. destruct (t_obj _ _ _ _ T z q' n' Gz) as (B1&B2&B3). split; [apply in_or_app; auto|]. split; [|auto]. rewrite cnt_app. destruct (Nat.eqb_spec z x); [congruence|lia].
    + intros z Iz. rewrite get_put. destruct (Nat.eqb_spec z x); [discriminate|]. rewrite GD by auto. apply (t_held _ _ _ _ T). apply in_app_or in Iz. destruct Iz as [|[|[]]]; auto. congruence.
    + assert (NO : forall y, In y held -> ob y <> os). { intros y I. apply P1. apply (t_ent _ _ _ _ T). auto. }
      intros a b Ia Ib. apply in_app_or in Ia, Ib. destruct (Nat.eqb_spec a x), (Nat.eqb_spec b x); subst; auto.
      * intros Q. exfalso. destruct Ib as [Ib|[|[]]]; [|congruence]. eapply NO; eauto.
      * intros Q. exfalso. destruct Ia as [Ia|[|[]]]; [|congruence]. eapply NO; eauto.
      * apply (t_inj _ _ _ _ T); [destruct Ia as [|[|[]]]|destruct Ib as [|[|[]]]]; auto; congruence.
    + intros z. rewrite !in_app_iff, (t_ent _ _ _ _ T). tauto.
    + intros z Iz. apply in_app_or in Iz. destruct Iz as [Iz|[<-|[]]]; [|lia]. pose proof (t_next _ _ _ _ T z Iz). unfold x. lia.
    + rewrite app_length. cbn. lia.
Qed.

Lemma drop_perm {A} : forall (l : list A) k x, nth_error l k = Some x -> Permutation l (x :: drop_nth k l).
Proof.
  induction l as [|a l IH]; intros [|k] x H; cbn in *; try discriminate.
  - injection H as ->. apply Permutation_refl.
  - eapply Permutation_trans; [apply perm_skip, IH; eauto|apply perm_swap].
Qed.
Lemma drop_map {A B} (f : A -> B) : forall l k, drop_nth k (map f l) = map f (drop_nth k l).
Proof. induction l as [|a l IH]; intros [|k]; cbn; auto. f_equal. auto. Qed.
Lemma cnt_perm x a b : Permutation a b -> cnt x a = cnt x b.
Proof. intros P. unfold cnt. apply (Permutation_count_occ Nat.eq_dec); auto. Qed.

Lemma free_ok bucket nm tb held ob k x : uniq nm -> TI nm tb held ob -> nth_error held k = Some x ->
  exists tb', shared_callstack_free bucket nm tb x = Ok tb' /\ TI nm tb' (drop_nth k held) ob.
Proof.
  intros U T N. pose proof (drop_perm held k x N) as PM. set (held' := drop_nth k held) in *.
  assert (CX : cnt x held = S (cnt x held')). { rewrite (cnt_perm x _ _ PM). unfold cnt. cbn. destruct (Nat.eq_dec x x); congruence. }
  assert (CY : forall y, y <> x -> cnt y held = cnt y held'). { intros y Q. rewrite (cnt_perm y _ _ PM). unfold cnt. cbn. destruct (Nat.eq_dec x y); congruence. }
  assert (LN : length held = S (length held')). { apply Permutation_length in PM. auto. }
  assert (IN : forall y, In y held' -> In y held). { intros y I. eapply Permutation_in; [apply Permutation_sym, PM|right; auto]. }
  assert (IX : In x held). { eapply nth_error_In; eauto. }
  assert (IY : forall y, y <> x -> In y held -> In y held'). { intros y Q I. eapply (Permutation_in y PM) in I. destruct I; [congruence|auto]. }
  pose proof (t_held _ _ _ _ T x IX) as G. unfold shared_callstack_free, pcs_free. destruct (get (objs tb) x) as [[p n]|] eqn:Q; [|congruence]. cbn [of_option bind].
  destruct (t_obj _ _ _ _ T x p n Q) as (_&A2&A3&A4). pose proof (cnt_le x held). pose proof (t_small _ _ _ _ T).
  assert (EN : (n - 1) mod 2 ^ 32 = 1 + Z.of_nat (cnt x held')). { rewrite Z.mod_small; lia. }
  rewrite EN. destruct (Z.eqb_spec (1 + Z.of_nat (cnt x held')) 0); [lia|]. destruct (Z.eqb_spec (1 + Z.of_nat (cnt x held')) 1) as [C1|C1].
  - (* last reference *)
    cbn [objs entries next]. rewrite get_put, Nat.eqb_refl. cbn [of_option bind]. unfold table_remove. cbn [entries].
    destruct (lookup_tab bucket nm (TB ((x, (p, 1 + Z.of_nat (cnt x held'))) :: del (objs tb) x) (entries tb) (next tb)) p (ob x) ob U A3 A4 (entries tb)) as (r&E1&P1).
    { intros y I. apply (t_ent _ _ _ _ T) in I. cbn [objs]. rewrite get_put. destruct (Nat.eqb_spec y x).
      - subst y. eauto.
      - pose proof (t_held _ _ _ _ T y I) as Gy. destruct (get (objs tb) y) as [[q m]|] eqn:Qy; [|congruence]. destruct (t_obj _ _ _ _ T y q m Qy) as (_&_&B3&B4). eauto. }
    rewrite E1. cbn [bind]. destruct r as [y|]; [|exfalso; eapply P1; [apply (t_ent _ _ _ _ T), IX|auto]].
    destruct P1 as (Iy&Oy). apply (t_ent _ _ _ _ T) in Iy. assert (y = x) by (apply (t_inj _ _ _ _ T); auto). subst y.
    unfold destroy. cbn [objs entries next]. rewrite get_put, Nat.eqb_refl. cbn [of_option bind]. rewrite C1. change (Z.to_nat 1) with 1%nat. cbn [destroy_loop].
    unfold pcs_free. cbn [objs entries next]. rewrite get_put, Nat.eqb_refl. cbn [of_option bind].
    change ((1 - 1) mod 2 ^ 32) with 0. change (0 =? 0) with true. cbv iota. eexists. split; [reflexivity|].
    assert (NI : ~ In x held'). { apply (count_occ_not_In Nat.eq_dec). fold (cnt x held'). lia. }
    assert (GD : forall z, get (del ((x, (p, 1)) :: del (objs tb) x) x) z = if Nat.eqb z x then None else get (objs tb) z).
    { intros z. rewrite get_del, get_put. destruct (Nat.eqb_spec z x); auto. }
    constructor; cbn [objs entries next].
    + intros z q' n' Gz. rewrite GD in Gz. destruct (Nat.eqb_spec z x); [discriminate|]. destruct (t_obj _ _ _ _ T z q' n' Gz) as (B1&B2&B3). split; [apply IY; auto|].
      rewrite <- CY by auto. auto.
    + intros z Iz. rewrite GD. destruct (Nat.eqb_spec z x); [subst z; contradiction|]. apply (t_held _ _ _ _ T); auto.
    + intros a b Ia Ib. apply (t_inj _ _ _ _ T); auto.
    + intros z. rewrite filter_In, (t_ent _ _ _ _ T). destruct (Nat.eqb_spec z x).
      * subst z. cbn. split; [intros [_ Q2]; discriminate|intros; contradiction].
      * cbn. split; [intros [Q2 _]; auto|auto].
    + intros z Iz. apply (t_next _ _ _ _ T); auto.
    + lia.
  - eexists. split; [reflexivity|]. constructor; cbn [objs entries next].
    + intros z q' n' Gz. rewrite get_put in Gz. destruct (Nat.eqb_spec z x).
      * subst z. injection Gz as <- <-. split; [|auto]. apply (count_occ_In Nat.eq_dec). fold (cnt x held'). lia.
      * destruct (t_obj _ _ _ _ T z q' n' Gz) as (B1&B2&B3). split; [apply IY; auto|]. rewrite <- CY by auto. auto.
    + intros z Iz. rewrite get_put. destruct (Nat.eqb_spec z x); [discriminate|]. apply (t_held _ _ _ _ T); auto.
    + intros a b Ia Ib. apply (t_inj _ _ _ _ T); auto.
    + intros z. rewrite (t_ent _ _ _ _ T). split; [|auto]. intros Iz. destruct (Nat.eq_dec z x); [|auto]. subst z. apply (count_occ_In Nat.eq_dec). fold (cnt x held'). lia.
    + intros z Iz. apply (t_next _ _ _ _ T); auto.
    + lia.
Qed.

(** ---- histories ---- *)
Lemma inv_uniq done st l : INV done st l -> uniq (nms st).
Proof. intros V. unfold uniq. apply (n_uniq _ _ (v_ni _ _ _ V)). Qed.
Lemma map_eq_in {A B} (f g : A -> B) l : (forall x, In x l -> f x = g x) -> map f l = map g l.
Proof. intros H. apply map_ext_in. auto. Qed.

Lemma cop_step dbg bucket done hs st l tb held ob o : INV done st l -> no_growth done -> TI (nms st) tb held ob -> hs = map ob held -> cop_ok (done, hs) o ->
  exists st' l' tb' held' ob', do_cop dbg bucket (st, tb, held) o = Ok (st', tb', held') /\ INV (fst (hold (done, hs) o)) st' l' /\ no_growth (fst (hold (done, hs) o)) /\
    TI (nms st') tb' held' ob' /\ snd (hold (done, hs) o) = map ob' held'.
Proof.
  intros V NG T -> C. destruct o as [ev|top walk junk|k]; cbn [do_cop hold fst snd] in *.
  - destruct C as (A&NG'). destruct (step_inv dbg done st l ev V A) as (st'&l'&E&V'&X). rewrite E. cbn [bind].
    exists st', l', tb, held, ob. split; auto. split; auto. split; auto. split; auto. eapply TI_ext; eauto.
  - destruct C as (F&B). destruct (record_ok done l st top walk junk V NG) as (st'&p&E&V'&X&R&_). rewrite E. cbn [bind].
    rewrite <- X in T, R. cbn [fst snd] in B, F. rewrite map_length in B. destruct (add_ok bucket (nms st') tb held ob p _ (inv_uniq _ _ _ V') T R F B) as (tb'&x&ob'&E2&T'&O1&O2).
    rewrite E2. cbn [bind]. exists st', l, tb', (held ++ [x]), ob'. split; auto. split; auto. split; auto. split; auto. rewrite map_app. cbn. rewrite O1. f_equal.
    apply map_eq_in. intros y I. symmetry. auto.
  - cbn in C. rewrite map_length in C. destruct (nth_error held k) as [x|] eqn:N; [|apply nth_error_None in N; lia]. cbn [of_option bind].
    destruct (free_ok bucket (nms st) tb held ob k x (inv_uniq _ _ _ V) T N) as (tb'&E&T'). rewrite E. cbn [bind].
    exists st, l, tb', (drop_nth k held), ob. split; auto. split; auto. split; auto. split; auto. apply drop_map.
Qed.
Lemma cops_run dbg bucket : forall os s st l tb held ob, INV (fst s) st l -> no_growth (fst s) -> TI (nms st) tb held ob -> snd s = map ob held -> cops_ok s os ->
  exists st' l' tb' held' ob', do_cops dbg bucket (st, tb, held) os = Ok (st', tb', held') /\ INV (fst (fold_left hold os s)) st' l' /\
    TI (nms st') tb' held' ob' /\ snd (fold_left hold os s) = map ob' held'.
Proof.
  induction os as [|o os IH]; intros [done hs] st l tb held ob V NG T H C; cbn [do_cops fold_left].
  - exists st, l, tb, held, ob. auto.
  - destruct C as (C1&C2). cbn [fst snd] in *. destruct (cop_step dbg bucket done hs st l tb held ob o V NG T H C1) as (st1&l1&tb1&held1&ob1&E1&V1&NG1&T1&H1).
    rewrite E1. cbn [bind]. eapply IH; eauto.
Qed.
Lemma count_map (ob : nat -> list shown) x : forall held, (forall y, In y held -> ob y = ob x -> y = x) -> sharers (ob x) (map ob held) = cnt x held.
Proof.
  unfold sharers, cnt. induction held as [|y held IH]; intros H; cbn; auto. rewrite IH by (intros; apply H; [right|]; auto).
  destruct (list_eq_dec eq_shown (ob y) (ob x)) as [E|E], (Nat.eq_dec y x) as [E'|E']; auto; exfalso.
  - apply E', H; auto. left. auto.
  - congruence.
Qed.
Lemma no_growth_nil : no_growth [].
Proof. intros a m b H. destruct a; discriminate. Qed.
Lemma table_all dbg bucket os : cops_ok ([], []) os -> exists st tb held, do_cops dbg bucket (init_mods, init_table, []) os = Ok (st, tb, held) /\
  let hs := snd (holding os) in length held = length hs /\
  (forall i h, nth_error hs i = Some h -> exists x p, nth_error held i = Some x /\ get (objs tb) x = Some (p, 1 + Z.of_nat (sharers h hs)) /\ to_symbolized (nms st) p = Ok h) /\
  (forall i j x y, nth_error held i = Some x -> nth_error held j = Some y -> (x = y <-> nth_error hs i = nth_error hs j)) /\
  (forall x p n, get (objs tb) x = Some (p, n) -> In x held).
Proof.
  intros C. destruct (cops_run dbg bucket os ([], []) init_mods [] init_table [] (fun _ => []) init_inv no_growth_nil) as (st&l&tb&held&ob&E&V&T&H); auto.
  { constructor; cbn; try (intros; tauto); try lia; try (intros; discriminate). }
  exists st, tb, held. split; auto. unfold holding. cbn zeta. rewrite H. split; [rewrite map_length; auto|]. split; [|split].
  - intros i h N. rewrite nth_error_map in N. destruct (nth_error held i) as [x|] eqn:NX; [|discriminate]. cbn in N. injection N as <-.
    pose proof (nth_error_In _ _ NX) as I. pose proof (t_held _ _ _ _ T x I) as G. destruct (get (objs tb) x) as [[p n]|] eqn:Q; [|congruence].
    destruct (t_obj _ _ _ _ T x p n Q) as (A1&A2&A3&A4). exists x, p. split; auto. rewrite count_map; [|intros; apply (t_inj _ _ _ _ T); auto]. split; [congruence|].
    apply symb_ok; auto.
  - intros i j x y Ni Nj. rewrite !nth_error_map, Ni, Nj. cbn. split; [congruence|]. intros Q. injection Q as Q.
    apply (t_inj _ _ _ _ T); auto; eapply nth_error_In; eauto.
  - intros x p n G. apply (t_obj _ _ _ _ T x p n G).
Qed.

(** two stacks recorded in one history *)
Lemma two_stacks dbg a t1 w1 j1 b t2 w2 j2 c : allowed_all [] (a ++ b ++ c) -> no_growth (a ++ b) ->
  exists s0 s1 p s2 s3 q s4, do_events dbg init_mods a = Ok s0 /\ record s0 t1 w1 j1 = Ok (s1, p) /\ do_events dbg s1 b = Ok s2 /\
    record s2 t2 w2 j2 = Ok (s3, q) /\ do_events dbg s3 c = Ok s4 /\ uniq (nms s4) /\
    Rep (nms s4) p (seen (loaded a) t1 w1) /\ Rep (nms s4) q (seen (loaded (a ++ b)) t2 w2).
Proof.
  intros A NG.
  assert (SP : forall x y ms, allowed_all ms (x ++ y) -> allowed_all ms x /\ allowed_all (fold_left after x ms) y).
  { clear. induction x as [|e x IH]; intros y ms H; cbn in *; [auto|]. destruct H as (H1&H2). destruct (IH _ _ H2). auto. }
  destruct (SP _ _ _ A) as (A1&A'). destruct (SP _ _ _ A') as (A2&A3). rewrite <- fold_left_app in A3.
  destruct (start_inv dbg a A1) as (s0&l0&E0&V0). destruct (record_ok a l0 s0 t1 w1 j1 V0 (ng_prefix _ _ NG)) as (s1&p&E1&V1&X1&R1&_).
  destruct (run_inv dbg b a s1 l0 V1 A2) as (s2&l2&E2&V2&X2). destruct (record_ok (a ++ b) l2 s2 t2 w2 j2 V2 NG) as (s3&q&E3&V3&X3&R3&_).
  destruct (run_inv dbg c (a ++ b) s3 l2 V3 A3) as (s4&l4&E4&V4&X4). exists s0, s1, p, s2, s3, q, s4. repeat (split; [assumption|]).
  split; [eapply inv_uniq; eauto|]. rewrite X3 in X4. split; [|eapply Rep_ext; eauto]. eapply Rep_ext; [exact X4|]. eapply Rep_ext; [exact X2|]. rewrite X1. auto.
Qed.
Lemma decode_later dbg a t w j c : allowed_all [] (a ++ c) -> no_growth a ->
  exists s0 s1 p s2, do_events dbg init_mods a = Ok s0 /\ record s0 t w j = Ok (s1, p) /\ do_events dbg s1 c = Ok s2 /\
    (255 <= array_end (nms s0) \/ Forall fits (seen (loaded a) t w) -> to_symbolized (nms s2) p = Ok (seen (loaded a) t w)).
Proof.
  intros A NG.
  assert (SP : forall x y ms, allowed_all ms (x ++ y) -> allowed_all ms x /\ allowed_all (fold_left after x ms) y).
  { clear. induction x as [|e x IH]; intros y ms H; cbn in *; [auto|]. destruct H as (H1&H2). destruct (IH _ _ H2). auto. }
  destruct (SP _ _ _ A) as (A1&A2). destruct (start_inv dbg a A1) as (s0&l0&E0&V0). destruct (record_ok a l0 s0 t w j V0 NG) as (s1&p&E1&V1&X1&R1&F1).
  destruct (run_inv dbg c a s1 l0 V1 A2) as (s2&l2&E2&V2&X2). exists s0, s1, p, s2. repeat (split; [assumption|]). intros H.
  apply symb_ok; [eapply Rep_ext; [exact X2|]; rewrite X1; auto|]. rewrite F1. destruct H; [left; lia|auto].
Qed.
