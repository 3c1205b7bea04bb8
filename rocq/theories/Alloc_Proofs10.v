(** A chunk below the mapping size. *)
From Coq Require Import Permutation.
From Verif Require Import Base Alloc_Model Alloc_Inv Alloc_Proofs Alloc_Proofs2 Alloc_Proofs3 Alloc_Proofs4 Alloc_Proofs5 Alloc_Proofs6 Alloc_Proofs7 Alloc_Proofs8 Alloc_Proofs9.
Open Scope Z_scope.

(** Running out of memory with a second arena and delayed chunks is left out (refuted in
    Alloc_Props). *)
Definition oom_ok (o : os) (s : state) : Prop :=
  length (arenas s) = 1%nat \/ o_map o ARENA_INITIAL_SIZE <> None \/ dfront s = 0.

Lemma align_le x a : 0 < a -> x <= ALIGN_FORWARD x a < x + a /\ (ALIGN_FORWARD x a) mod a = 0.
Proof.
  intros A. unfold ALIGN_FORWARD. pose proof (Z_div_mod_eq_full (x + (a - 1)) a) as E. pose proof (Z.mod_pos_bound (x + (a - 1)) a A).
  split; [nia|]. apply Z_mod_mult.
Qed.

Section Small.
Context (c : cfg) (W : wfc c).
Notation g := (inter c).
Notation INV := (INV c).

Lemma drain_ok o aligned fuel : 16 <= aligned -> aligned mod 16 = 0 -> forall s Ts M D F, INV s Ts M D F -> settled Ts -> (length D < fuel)%nat ->
  exists s' p k, drain c fuel o s 0 aligned = Ok (s', p) /\
    ((p = 0 /\ exists Ts' F', INV s' Ts' M (skipn k D) F' /\ settled Ts' /\ lives Ts' = lives Ts /\ quiet Ts M s s' /\ (length Ts' <= length Ts)%nat) \/
     exists X a l1 z d l2 Y F', p <> 0 /\ INV s' (X ++ (a, l1 ++ Tile p z (KLive d 0 false) :: l2) :: Y) M (skipn k D) F' /\
       settled (X ++ (a, l1 ++ Tile p z (KLive d 0 false) :: l2) :: Y) /\ aligned <= z /\ fresh_live X l1 l2 Y Ts /\ quiet Ts M s s' /\
       (length (X ++ (a, l1 ++ Tile p z (KLive d 0 false) :: l2) :: Y) <= length Ts)%nat).
Proof.
  intros Ha Hm. induction fuel as [|f IH]; intros s Ts M D F I Se Hf; [lia|]. cbn [drain].
  destruct (aligned <=? dbytes s) eqn:Ed.
  2: { exists s, 0, O. split; [reflexivity|]. left. split; auto. exists Ts, F. auto 6 using quiet_refl. }
  pose proof (shift_ok c W o s Ts M D F I Se) as Sh. destruct D as [|[p0 z0] D'].
  - rewrite Sh. cbn [bind]. exists s, 0, O. split; [reflexivity|]. left. split; auto. exists Ts, F. auto 6 using quiet_refl.
  - destruct Sh as (s1 & Ts1 & F1 & E1 & I1 & S1 & L1 & Q1 & Le1). rewrite E1. cbn [bind].
    destruct (find_ok c W o s1 Ts1 M D' F1 aligned I1 S1 Ha Hm) as (s2 & p & E2 & [[-> ->]|R]); rewrite E2; cbn [bind].
    + change (0 =? 0) with true. cbv iota.
      destruct (IH s1 Ts1 M D' F1 I1 S1 ltac:(cbn in Hf; lia)) as (s3 & p & k & E3 & R). rewrite E3. exists s3, p, (S k). split; [reflexivity|]. cbn [skipn].
      destruct R as [(-> & Ts' & F' & A1 & A2 & A3 & A4 & A5)|(X & a & l1 & z & d & l2 & Y & F' & A1 & A2 & A3 & A4 & A5 & A6 & A7)]; [left | right].
      * split; auto. exists Ts', F'. split; [exact A1|]. split; [exact A2|]. split; [congruence|]. split; [|lia]. eapply quiet_lives; [exact Q1 | symmetry; exact L1 | exact A4].
      * exists X, a, l1, z, d, l2, Y, F'. split; [exact A1|]. split; [exact A2|]. split; [exact A3|]. split; [exact A4|]. split; [unfold fresh_live in *; congruence|]. split; [|lia].
        eapply quiet_lives; [exact Q1 | symmetry; exact L1 | exact A6].
    + destruct R as (X & a & l1 & z & d & l2 & Y & F' & A1 & A2 & A3 & A4 & A5 & A6 & A7). replace (p =? 0) with false by lia.
      exists s2, p, 1%nat. split; [reflexivity|]. right. cbn [skipn].
      exists X, a, l1, z, d, l2, Y, F'. split; [exact A1|]. split; [exact A2|]. split; [exact A3|]. split; [exact A4|]. split; [unfold fresh_live in *; congruence|]. split; [|lia].
      eapply quiet_lives; [exact Q1 | symmetry; exact L1 | exact A6].
Qed.

Lemma room_some (Ts : ats) add : forall i j, arena_with_room (map fst Ts) i add = Some j ->
  exists X a l Y, Ts = X ++ (a, l) :: Y /\ j = (i + length X)%nat /\ a_next a + add <= a_commit a.
Proof.
  induction Ts as [|[a l] Ts IH]; intros i j; cbn [map fst arena_with_room]; [discriminate|].
  destruct (a_next a + add <=? a_commit a) eqn:E.
  - intros [= <-]. exists [], a, l, Ts. split; auto. cbn. lia.
  - intros R. destruct (IH _ _ R) as (X & b & lb & Y & -> & -> & Q). exists ((a, l) :: X), b, lb, Y. split; auto. cbn. lia.
Qed.

(** the arena carved from *)
Definition room (a : arena) (aligned : Z) : Prop := a_next a + aligned <= a_commit a /\ (384 + g <= 4096 -> a_next a + aligned + g <= a_commit a).
Lemma create_room s o Ts M D F aligned : INV s Ts M D F -> settled Ts -> os_ok o s -> aligned < 131072 ->
  exists s' r, arena_create c o s = (s', r) /\
    match r with
    | None => s' = s /\ o_map o ARENA_INITIAL_SIZE = None
    | Some i => exists a, i = length Ts /\ INV s' (Ts ++ [(a, [])]) M D F /\ room a aligned /\ quiet Ts M s s'
    end.
Proof.
  intros I Se Ok_ Ha. destruct (o_map o ARENA_INITIAL_SIZE) as [b|] eqn:E.
  - destruct (create_ok c W s o Ts M D F b I E Ok_) as (s' & a & E1 & Ea & I1 & Q). exists s', (Some (length Ts)). split; [exact E1|].
    exists a. split; auto. split; auto. split; auto. subst a. unfold room, arena_init. cbn [a_next a_commit]. unfold ARENA_INITIAL_SIZE, CHUNK_ALIGNMENT.
    change (ALIGN_FORWARD 72 16) with 80. pose proof (g_rng c W). lia.
  - exists s, None. unfold arena_create. rewrite E. auto.
Qed.
Lemma extend_room o s X a l M D F aligned : INV s (X ++ [(a, l)]) M D F -> settled (X ++ [(a, l)]) -> os_ok o s -> 16 <= aligned < 131072 ->
  exists s' r, arena_extend c o s (length X) (aligned + g) = Ok (s', r) /\
    match r with
    | None => s' = s /\ o_map o ARENA_INITIAL_SIZE = None
    | Some i => exists X' a' l', i = length X' /\ INV s' (X' ++ [(a', l')]) M D F /\ tiles (X' ++ [(a', l')]) = tiles (X ++ [(a, l)]) /\ room a' aligned /\ quiet (X ++ [(a, l)]) M s s'
    end.
Proof.
  intros I Se Ok_ Ha. pose proof I as (H & L & K). pose proof (g_rng c W) as Gr.
  pose proof (ch_geom c _ _ _ _ _ _ H) as Gm. unfold geom in Gm.
  destruct (create_room s o (X ++ [(a, l)]) M D F aligned I Se Ok_ ltac:(lia)) as (s0 & r0 & C1 & C2).
  assert (Cr : exists s' r, Ok (arena_create c o s) = Ok (s', r) /\
    match r with
    | None => s' = s /\ o_map o ARENA_INITIAL_SIZE = None
    | Some i => exists X' a' l', i = length X' /\ INV s' (X' ++ [(a', l')]) M D F /\ tiles (X' ++ [(a', l')]) = tiles (X ++ [(a, l)]) /\ room a' aligned /\ quiet (X ++ [(a, l)]) M s s'
    end).
  { rewrite C1. exists s0, r0. split; [reflexivity|]. destruct r0 as [i|]; [|exact C2]. destruct C2 as (a0 & -> & C3 & C4 & C5).
    exists (X ++ [(a, l)]), a0, []. split; auto. split; auto. split; [|auto]. rewrite (tiles_app _ [(a0, [])]). cbn. rewrite app_nil_r. reflexivity. }
  unfold arena_extend. rewrite (nth_error_mid s X a l [] (ch_arenas _ _ _ _ H)). cbn [of_option bind].
  pose proof (align_le (aligned + g) 4096 ltac:(lia)) as Al. fold PAGE_SIZE in Al. set (add := ALIGN_FORWARD (aligned + g) PAGE_SIZE) in *.
  assert (Ua : u32 add = add) by (apply Z.mod_small; unfold PAGE_SIZE in Al; lia). rewrite Ua.
  destruct Ok_ as (_ & O2 & O3).
  destruct (a_commit a =? cur_brk s) eqn:Eb.
  - assert (EX : X = []).
    { destruct X as [|[b lb] X]; auto. exfalso. destruct (ch_main _ _ _ _ H) as (b' & l' & Z0 & E & B). cbn in E. injection E as <- <- _.
      pose proof (disj_other ((b, lb) :: X) a l [] M (b, lb) (ch_disj _ _ _ _ H) ltac:(cbn; auto)) as Dj. cbn [fst] in Dj.
      pose proof (range_pos c W _ _ _ (rng_a (b, lb)) H ltac:(apply rng_in; cbn; auto)) as R. cbn in R.
      pose proof (range_pos c W _ _ _ (rng_a (a, l)) H ltac:(apply rng_in; apply in_elt)) as R2. cbn in R2. lia. }
    subst X. destruct (o_brk o (cur_brk s + add)) eqn:Ob.
    + replace (cur_brk s + (aligned + g) <=? cur_brk s + add) with true by lia.
      destruct (O3 (cur_brk s + add) a Ob) as [O4 O5]; [rewrite (ch_arenas _ _ _ _ H); reflexivity|].
      eexists _, (Some O). split; [reflexivity|]. exists [], (Arena (a_base a) (a_start a) (a_next a) (cur_brk s + add) (a_pfsz a)), l.
      split; [reflexivity|]. apply Z.eqb_eq in Eb. split; [|split; [reflexivity|split; [|apply quiet_mem; reflexivity]]].
      * eapply (grow_ok c W s _ [] a l [] M D F (cur_brk s + add)); try reflexivity; auto; try lia.
        -- rewrite Z.add_mod by lia. rewrite <- Eb. destruct Al as [_ Al]. change PAGE_SIZE with 4096 in Al. rewrite Al. destruct Gm as (_ & _ & _ & _ & _ & _ & -> & _). reflexivity.
        -- repeat split.
        -- apply (upd_arena_mid (with_brk s (cur_brk s + add)) [] a [] (fun a0 => Arena (a_base a0) (a_start a0) (a_next a0) (cur_brk s + add) (a_pfsz a0))).
           cbn. rewrite (ch_arenas _ _ _ _ H). reflexivity.
        -- congruence.
      * unfold room. cbn [a_next a_commit]. lia.
    + replace (cur_brk s + (aligned + g) <=? cur_brk s) with false by lia. exact Cr.
  - assert (EX : X <> []).
    { intros ->. destruct (ch_main _ _ _ _ H) as (b' & l' & Z0 & E & B). cbn in E. injection E as <- <- _. apply Z.eqb_neq in Eb. auto. }
    destruct (o_grow o (a_base a) (a_commit a - a_base a + add)) eqn:Og; [|exact Cr].
    destruct (O2 _ _ Og) as [O4 O5].
    eexists _, (Some (length X)). split; [reflexivity|]. exists X, (Arena (a_base a) (a_start a) (a_next a) (a_base a + (a_commit a - a_base a + add)) (a_pfsz a)), l.
    split; [reflexivity|]. split; [|split; [rewrite !tiles_app; reflexivity|split; [|apply quiet_mem; reflexivity]]].
    + eapply (grow_ok c W s _ X a l [] M D F); try reflexivity; auto; try lia.
      * replace (a_base a + (a_commit a - a_base a + add)) with (a_commit a + add) by lia. rewrite Z.add_mod by lia. destruct Al as [_ Al]. change PAGE_SIZE with 4096 in Al. rewrite Al. destruct Gm as (_ & _ & _ & _ & _ & _ & -> & _). reflexivity.
      * repeat split.
      * apply (upd_arena_mid s X a [] (fun a0 => Arena (a_base a0) (a_start a0) (a_next a0) (a_base a0 + (a_commit a - a_base a + add)) (a_pfsz a0))).
        rewrite (ch_arenas _ _ _ _ H), map_app. reflexivity.
      * intros ->. contradiction.
    + unfold room. cbn [a_next a_commit]. lia.
Qed.

Lemma small_ok o s Ts M D F aligned : INV s Ts M D F -> settled Ts -> os_ok o s -> oom_ok o s -> 16 <= aligned < 131072 -> aligned mod 16 = 0 ->
  exists s' p i k, small_chunk c o s aligned = Ok (s', p, i) /\ (k <> 0%nat -> o_map o ARENA_INITIAL_SIZE = None) /\
    ((p = 0 /\ o_map o ARENA_INITIAL_SIZE = None /\ exists Ts' F', INV s' Ts' M (skipn k D) F' /\ settled Ts' /\ lives Ts' = lives Ts /\ quiet Ts M s s') \/
     exists X a l1 z d l2 Y F', p <> 0 /\ INV s' (X ++ (a, l1 ++ Tile p z (KLive d 0 false) :: l2) :: Y) M (skipn k D) F' /\
       settled (X ++ (a, l1 ++ Tile p z (KLive d 0 false) :: l2) :: Y) /\ aligned <= z /\ fresh_live X l1 l2 Y Ts /\ quiet Ts M s s' /\ (i <= length X)%nat).
Proof.
  intros I Se Ok_ Om [Ha Ha'] Hm. pose proof I as (H & L & K). pose proof (g_rng c W) as Gr. unfold small_chunk.
  destruct (find_ok c W o s Ts M D F aligned I Se Ha Hm) as (s1 & p & E1 & [[-> ->]|R]); rewrite E1; cbn [bind].
  2: { destruct R as (X & a & l1 & z & d & l2 & Y & F' & A1 & A2 & A3 & A4 & A5 & A6 & A7). replace (p =? 0) with false by lia. cbn [negb].
       exists s1, p, O, O. split; [reflexivity|]. split; [congruence|]. right. exists X, a, l1, z, d, l2, Y, F'. cbn [skipn]. repeat (split; [assumption|]). lia. }
  change (negb (0 =? 0)) with false. cbv iota.
  assert (Ua : u32 (aligned + g) = aligned + g) by (apply Z.mod_small; lia). rewrite Ua.
  replace (arena_with_room (arenas s) 0 (aligned + g)) with (arena_with_room (map fst Ts) 0 (aligned + g)) by (rewrite (ch_arenas _ _ _ _ H); reflexivity).
  (* carving *)
  assert (Cv : forall s1 X a l Y, INV s1 (X ++ (a, l) :: Y) M D F -> tiles (X ++ (a, l) :: Y) = tiles Ts -> room a aligned -> quiet Ts M s s1 ->
    exists s' p i k, (let* (s, p) := carve c s1 (length X) aligned (aligned + g) in Ok (s, p, length X)) = Ok (s', p, i) /\ (k <> 0%nat -> o_map o ARENA_INITIAL_SIZE = None) /\
    ((p = 0 /\ o_map o ARENA_INITIAL_SIZE = None /\ exists Ts' F', INV s' Ts' M (skipn k D) F' /\ settled Ts' /\ lives Ts' = lives Ts /\ quiet Ts M s s') \/
     exists X a l1 z d l2 Y F', p <> 0 /\ INV s' (X ++ (a, l1 ++ Tile p z (KLive d 0 false) :: l2) :: Y) M (skipn k D) F' /\
       settled (X ++ (a, l1 ++ Tile p z (KLive d 0 false) :: l2) :: Y) /\ aligned <= z /\ fresh_live X l1 l2 Y Ts /\ quiet Ts M s s' /\ (i <= length X)%nat)).
  { intros s2 X a l Y I2 Et [R1 R2] Q2. assert (S2 : settled (X ++ (a, l) :: Y)) by (unfold settled in *; rewrite Et; exact Se).
    destruct (carve_ok c W s2 X a l Y M D F aligned I2 S2 Ha Hm ltac:(lia) R1 R2) as (s3 & C1 & C2 & C3). rewrite C1. cbn [bind].
    pose proof (ch_geom c _ _ _ _ _ _ (proj1 I2)) as Gm. unfold geom in Gm.
    exists s3, (a_next a), (length X), O. split; [reflexivity|]. split; [congruence|]. right.
    exists X, (carved c a aligned), l, aligned, None, [], Y, F. split; [lia|]. cbn [skipn]. split; [exact C2|]. split; [|split; [lia|split; [|split; [|lia]]]].
    - intros t It. apply in_mid in It as [->|It]; [split; discriminate|]. apply S2. unfold others in It. rewrite tiles_app, tiles_cons. rewrite app_nil_r in It. exact It.
    - unfold fresh_live, others, lives. rewrite <- Et, tiles_app, tiles_cons, app_nil_r. reflexivity.
    - eapply quiet_lives; [exact Q2 | | exact C3]. unfold lives. rewrite Et. reflexivity. }
  destruct (arena_with_room (map fst Ts) 0 (aligned + g)) as [i|] eqn:Er.
  - destruct (room_some _ _ _ _ Er) as (X & a & l & Y & -> & -> & Rm). cbn [bind Nat.add].
    apply (Cv s X a l Y); auto; [unfold room; lia | apply quiet_refl].
  - assert (ET : exists X a l, Ts = X ++ [(a, l)]).
    { destruct (ch_main _ _ _ _ H) as (b & lb & Z0 & E & _). destruct (@exists_last _ Ts) as (X & [a l] & ->); [rewrite E; discriminate | eauto]. }
    destruct ET as (X & a & l & ET). 
    assert (Lp : Nat.pred (length (arenas s)) = length X) by (rewrite (ch_arenas _ _ _ _ H), ET, map_length, app_length; cbn; lia).
    rewrite Lp. subst Ts. destruct (extend_room o s X a l M D F aligned I Se Ok_ ltac:(lia)) as (s2 & r & E2 & R). rewrite E2. cbn [bind].
    destruct r as [i|].
    + destruct R as (X' & a' & l' & -> & I2 & Et & Rm & Q2). apply (Cv s2 X' a' l' []); auto.
    + destruct R as [-> Rn].
      assert (Lx : length X = 0%nat \/ D = []).
      { destruct Om as [Q|[Q|Q]]; [left; rewrite Q in Lp; cbn in Lp; lia | contradiction | right].
        rewrite (ls_dfront _ _ _ L) in Q. destruct D as [|[p z] D]; auto. exfalso. cbn in Q. subst p.
        assert (It : In (Tile 0 z KDelay) (tiles (X ++ [(a, l)]))) by (apply (lk_delay _ _ _ K); left; auto).
        pose proof (tile_facts c W _ _ _ (CH_GEO _ _ _ _ H) It) as Ft. cbn in Ft. lia. }
      destruct Lx as [Lx|ED].
      * rewrite Lx. rewrite (ls_dn _ _ _ L), Nat2Z.id.
        destruct (drain_ok o aligned (S (S (length D))) Ha Hm s _ M D F I Se ltac:(lia)) as (s3 & p & k & E3 & R). rewrite E3. cbn [bind].
        exists s3, p, O, k. split; [reflexivity|]. split; [auto|].
        destruct R as [(-> & Ts' & F' & A1 & A2 & A3 & A4 & A5)|(X1 & a1 & l1 & z & d & l2 & Y & F' & A1 & A2 & A3 & A4 & A5 & A6 & A7)]; [left | right].
        -- split; auto. split; auto. exists Ts', F'. auto.
        -- exists X1, a1, l1, z, d, l2, Y, F'. repeat (split; [assumption|]). lia.
      * assert (Db : dbytes s = 0) by (rewrite (ls_db _ _ _ L), ED; reflexivity).
        cbn [drain]. rewrite Db. replace (aligned <=? 0) with false by lia. cbn [bind].
        exists s, 0, (length X), O. split; [reflexivity|]. split; [congruence|]. left. split; auto. split; auto. exists (X ++ [(a, l)]), F. cbn [skipn]. auto using quiet_refl.
Qed.
End Small.
