(** Releasing a loose chunk, and popping the delay list. *)
From Coq Require Import Permutation.
From Verif Require Import Base Alloc_Model Alloc_Inv Alloc_Proofs Alloc_Proofs2 Alloc_Proofs3 Alloc_Proofs4 Alloc_Proofs5.
Open Scope Z_scope.

Section Release.
Context (c : cfg) (W : wfc c).
Notation g := (inter c).
Notation INV := (INV c).

Lemma quiet_step Ts Ts' M s s' s'' : quiet Ts M s s' -> solid Ts = solid Ts' -> quiet Ts' M s' s'' -> quiet Ts M s s''.
Proof. intros A E B. eapply quiet_trans; [|exact A|exact B]. intros x. apply LB_solid; auto. Qed.
Lemma solid_at X a l1 t l2 Y : solid (X ++ (a, l1 ++ t :: l2) :: Y) =
  filter solidk (tiles X) ++ (filter solidk l1 ++ (if solidk t then [t] else []) ++ filter solidk l2) ++ filter solidk (tiles Y).
Proof. unfold solid. rewrite tiles_mid, !filter_app. cbn [filter]. destruct (solidk t); reflexivity. Qed.
Lemma solid_others X a l1 t l2 Y : solidk t = false -> solid (X ++ (a, l1 ++ t :: l2) :: Y) = filter solidk (others X l1 l2 Y).
Proof. intros E. rewrite solid_at, E. unfold others. rewrite !filter_app. reflexivity. Qed.
Lemma solid_swap X a a' l1 l1' t t' l2 l2' Y : solidk t = false -> solidk t' = false ->
  filter solidk l1 = filter solidk l1' -> filter solidk l2 = filter solidk l2' ->
  solid (X ++ (a, l1 ++ t :: l2) :: Y) = solid (X ++ (a', l1' ++ t' :: l2') :: Y).
Proof. intros E1 E2 E3 E4. rewrite !solid_at, E1, E2, E3, E4. reflexivity. Qed.

Lemma laid_last X a l1 u t l2 Y M : GEO c (X ++ (a, (l1 ++ [u]) ++ t :: l2) :: Y) M -> tp t = tp u + tsz u + g.
Proof.
  intros G. destruct (arena_in_GEO _ _ _ _ _ _ G) as (_ & La & _). cbn [fst snd] in La.
  rewrite <- app_assoc in La. cbn [app] in La. apply laid_mid in La as [_ [La _]]. exact La.
Qed.

Lemma co_prev s X a l1 p z l2 Y M D F h :
  INV s (X ++ (a, l1 ++ Tile p z KLoose :: l2) :: Y) M D F -> NL l1 -> hd s p = Some h ->
  exists s' q zq l1' F',
    (if h_pfree h then
      let* psz := get_prev_size_field h in
      let prev := p - g - psz in
      let* s := remove_from_free_list c s prev None in
      let* hp := geth s prev in
      Ok (seth c s prev (set_alloc hp (u32 (h_alloc hp + (h_alloc h + g)))), prev)
    else Ok (s, p)) = Ok (s', q) /\
    INV s' (X ++ (a, l1' ++ Tile q zq KLoose :: l2) :: Y) M D F' /\
    lastpv PN l1' = PN /\ NL l1' /\ filter solidk l1' = filter solidk l1 /\
    quiet (X ++ (a, l1 ++ Tile p z KLoose :: l2) :: Y) M s s' /\ (q = p -> s' = s /\ l1' = l1 /\ zq = z /\ F' = F).
Proof.
  intros I N Hh. pose proof I as (H & L & K). pose proof (CH_GEO _ _ _ _ H) as G.
  destruct (ch_hok _ _ _ _ _ _ _ _ _ H) as ((h0 & Hh0 & Hal & Hmm & Hk & Hpv) & Hl1 & H2 & Hf). cbn [tp tsz tk pvof] in *.
  assert (h0 = h) as -> by congruence. clear Hh0.
  destruct (lastpv_cases l1 N) as [E|(l1' & pp & zp & E & E')].
  - rewrite E in Hpv. cbn in Hpv. rewrite Hpv. exists s, p, z, l1, F. do 6 (split; [solve [auto using quiet_refl]|]). auto.
  - rewrite E' in Hpv. cbn in Hpv. destruct Hpv as (_ & Hp & Hs). rewrite Hp. subst l1.
    assert (Ip : In (Tile pp zp KFree) (tiles (X ++ (a, (l1' ++ [Tile pp zp KFree]) ++ Tile p z KLoose :: l2) :: Y))).
    { rewrite <- app_assoc. apply in_mid. auto. }
    pose proof (tile_facts c W _ _ _ G Ip) as Fp. cbn [tp tsz] in Fp.
    rewrite (get_prev_size h zp Hs) by tauto. cbn [bind].
    pose proof (laid_last _ _ _ _ _ _ _ _ G) as El. cbn [tp tsz] in El.
    replace (p - g - zp) with pp by lia.
    assert (I' : INV s (X ++ (a, l1' ++ Tile pp zp KFree :: Tile p z KLoose :: l2) :: Y) M D F).
    { rewrite <- app_assoc in I. exact I. }
    destruct (remove_free c W s X a l1' pp zp _ Y M D F None I' (or_introl eq_refl)) as (s1 & F1 & R1 & R2 & R3 & R4 & R5).
    rewrite R1. cbn [bind].
    pose proof R2 as (H1 & _ & _). destruct (ch_hok _ _ _ _ _ _ _ _ _ H1) as ((hp & Hhp & Hap & _) & _). cbn [tp tsz tk] in *.
    unfold geth. rewrite Hhp. cbn [of_option bind].
    destruct (merge c W s1 X a l1' pp zp p z l2 Y M D F1 hp R2 Hhp) as (U & Mi & Mq).
    rewrite Hap, Hal, U.
    exists (seth c s1 pp (set_alloc hp (zp + (z + g)))), pp, (zp + (z + g)), l1', F1. split; [reflexivity|].
    split; [exact Mi|]. apply NL_app in N as [N _].
    split; [|split; [exact N|split; [|split]]].
    + rewrite <- app_assoc in H. cbn [app] in H. destruct (ch_hok _ _ _ _ _ _ _ _ _ H) as ((h1 & _ & _ & _ & _ & Hv) & _).
      destruct (lastpv_cases l1' N) as [E|(l0 & p0 & z0 & _ & E)]; auto. rewrite E in Hv. cbn in Hv. tauto.
    + rewrite filter_app. cbn. rewrite app_nil_r. reflexivity.
    + replace ((l1' ++ [Tile pp zp KFree]) ++ Tile p z KLoose :: l2) with (l1' ++ Tile pp zp KFree :: Tile p z KLoose :: l2) by (rewrite <- app_assoc; reflexivity).
      eapply quiet_step; [exact R3| |exact Mq]. apply solid_swap; reflexivity.
    + intros Eq. pose proof (g_rng c W). lia.
Qed.

(** alloc_replace.c [coalesce_adjacent_frees] *)
Lemma coalesce_ok o s X a l1 p z l2 Y M D F i :
  INV s (X ++ (a, l1 ++ Tile p z KLoose :: l2) :: Y) M D F -> NL (others X l1 l2 Y) -> (i <= length X)%nat ->
  (forall n l', l2 = n :: l' -> tk n <> KHeld) ->
  exists s' r F', coalesce c o s i p = Ok (s', r) /\
    quiet (X ++ (a, l1 ++ Tile p z KLoose :: l2) :: Y) M s s' /\
    match r with
    | None => exists Ts', INV s' Ts' M D F' /\ noloose Ts' /\ (length Ts' <= length (X ++ (a, l1 ++ Tile p z KLoose :: l2) :: Y))%nat /\
                solid Ts' = solid (X ++ (a, l1 ++ Tile p z KLoose :: l2) :: Y)
    | Some q => exists a' l1' zq l2', INV s' (X ++ (a', l1' ++ Tile q zq KLoose :: l2') :: Y) M D F' /\
                NL (others X l1' l2' Y) /\ lastpv PN l1' = PN /\ (forall n l', l2' = n :: l' -> tk n <> KFree) /\
                solid (X ++ (a', l1' ++ Tile q zq KLoose :: l2') :: Y) = solid (X ++ (a, l1 ++ Tile p z KLoose :: l2) :: Y)
    end.
Proof.
  intros I N Hi Hn. unfold others in N. rewrite !NL_app in N. destruct N as (NX & (N1 & N2) & NY).
  pose proof I as (H & L & K).
  destruct (ch_hok _ _ _ _ _ _ _ _ _ H) as ((h & Hh & _) & _). cbn [tp] in Hh.
  destruct (co_prev _ _ _ _ _ _ _ _ _ _ _ h I N1 Hh) as (s1 & q & zq & l1' & F1 & E1 & I1 & P1 & N1' & Sl1 & Q1 & Same).
  unfold coalesce. unfold geth at 1. rewrite Hh. cbn [of_option bind] in E1 |- *. rewrite E1. cbn [bind].
  pose proof I1 as (H1 & L1 & K1).
  pose proof (next_at c W _ _ _ _ _ _ _ _ _ H1 Hi) as Nx. cbn [tp] in Nx. rewrite Nx. cbn [bind].
  set (Ts := X ++ (a, l1 ++ Tile p z KLoose :: l2) :: Y) in *.
  (* the second merge *)
  assert (S2 : exists s2 a2 zq2 l2' F2,
    (let* mergeable := match (match l2 with [] => Ends (length X) | n :: _ => Next (tp n) end) with
                    | Next n => let* hn := geth s1 n in
                                Ok (if h_freed hn && negb (h_delay hn) then Some n else None)
                    | _ => Ok None
                    end in
     match mergeable with
     | Some n =>
        let* s := remove_from_free_list c s1 n None in
        let* hn := geth s n in
        let* ht := geth s q in
        let s := seth c s q (set_alloc ht (u32 (h_alloc ht + (h_alloc hn + g)))) in
        set_prev_size_field c s i q
     | None => if negb (q =? p) then set_prev_size_field c s1 i q else Ok s1
     end) = Ok s2 /\
     INV s2 (X ++ (a2, l1' ++ Tile q zq2 KLoose :: l2') :: Y) M D F2 /\ NL l2' /\
     (forall n l', l2' = n :: l' -> tk n <> KFree) /\ filter solidk l2' = filter solidk l2 /\
     quiet (X ++ (a, l1' ++ Tile q zq KLoose :: l2) :: Y) M s1 s2).
  { assert (Plain : forall (Hx : forall n l', l2 = n :: l' -> tk n <> KFree), exists s2 a2 zq2 l2' F2,
      (if negb (q =? p) then set_prev_size_field c s1 i q else Ok s1) = Ok s2 /\
     INV s2 (X ++ (a2, l1' ++ Tile q zq2 KLoose :: l2') :: Y) M D F2 /\ NL l2' /\
     (forall n l', l2' = n :: l' -> tk n <> KFree) /\ filter solidk l2' = filter solidk l2 /\
     quiet (X ++ (a, l1' ++ Tile q zq KLoose :: l2) :: Y) M s1 s2).
    { intros Hx. destruct (q =? p); cbn [negb].
      - exists s1, a, zq, l2, F1. do 5 (split; [solve [auto using quiet_refl]|]). apply quiet_refl.
      - destruct (set_prev c W s1 X a l1' q zq l2 Y M D F1 i I1 Hi Hx) as (s2 & a2 & A1 & A2 & A3 & A4 & A5 & A6).
        exists s2, a2, zq, l2, F1. do 5 (split; [solve [auto]|]). auto. }
    destruct l2 as [|n l2].
    - cbn [bind]. apply Plain. intros; discriminate.
    - apply NL_cons in N2 as [Nn N2].
      assert (ET : X ++ (a, (l1' ++ [Tile q zq KLoose]) ++ n :: l2) :: Y = X ++ (a, l1' ++ Tile q zq KLoose :: n :: l2) :: Y) by (rewrite <- app_assoc; reflexivity).
      pose proof H1 as H1'. rewrite <- ET in H1'.
      destruct (ch_hok _ _ _ _ _ _ _ _ _ H1') as ((hn & Hhn & Han & _ & Hkn & Hvn) & _ & Hn2 & _).
      unfold geth at 1. rewrite Hhn. cbn [of_option bind].
      destruct n as [np nz nk]. cbn [tp tsz tk] in *.
      assert (HH : nk <> KHeld) by (apply (Hn _ _ eq_refl)).
      assert (Ck : h_freed hn && negb (h_delay hn) = match nk with KFree => true | _ => false end).
      { unfold kind_ok in Hkn. destruct nk; try contradiction; destruct Hkn as (B1 & B2 & B3); rewrite B1, B2; reflexivity. }
      rewrite Ck. destruct nk; try contradiction; cbn [bind]; try (apply Plain; intros n0 l' E; injection E as <- <-; discriminate).
      (* free *)
      pose proof I1 as I1'. rewrite <- ET in I1'.
      destruct (remove_free c W s1 X a (l1' ++ [Tile q zq KLoose]) np nz l2 Y M D F1 None I1' (or_introl eq_refl)) as (s2 & F2 & R1 & R2 & R3 & R4 & R5).
      rewrite R1. cbn [bind].
      assert (ET2 : X ++ (a, (l1' ++ [Tile q zq KLoose]) ++ Tile np nz KLoose :: l2) :: Y = X ++ (a, l1' ++ Tile q zq KLoose :: Tile np nz KLoose :: l2) :: Y) by (rewrite <- app_assoc; reflexivity).
      rewrite ET2 in R2. rewrite ET in R3.
      unfold geth. rewrite R5, Hhn. cbn [of_option bind].
      destruct (ch_hok _ _ _ _ _ _ _ _ _ (proj1 R2)) as ((hq & Hhq & Haq & _) & _). cbn [tp tsz] in *.
      rewrite Hhq. cbn [of_option bind].
      destruct (merge c W s2 X a l1' q zq np nz l2 Y M D F2 hq R2 Hhq) as (U & Mi & Mq).
      rewrite Haq, Han, U.
      assert (Hx : forall n l', l2 = n :: l' -> tk n <> KFree).
      { intros n l' ->. cbn [heads pvof tk tsz] in Hn2. destruct Hn2 as ((h3 & _ & _ & _ & _ & A) & _). cbn in A. tauto. }
      destruct (set_prev c W _ X a l1' q (zq + (nz + g)) l2 Y M D F2 i Mi Hi Hx) as (s3 & a3 & A1 & A2 & A3 & A4 & A5 & A6).
      exists s3, a3, (zq + (nz + g)), l2, F2. split; [exact A1|]. split; [exact A3|]. split; [exact N2|]. split; [exact Hx|].
      split; [reflexivity|].
      eapply quiet_step; [exact R3 | | eapply quiet_step; [exact Mq | | exact A6]].
      + rewrite !solid_at. reflexivity.
      + rewrite !solid_at. reflexivity. }
  destruct S2 as (s2 & a2 & zq2 & l2' & F2 & E2 & I2 & N2' & Hx & Sl2 & Q2).
  match type of E2 with bind ?m _ = _ => destruct m as [mg| |]; cbn [bind] in E2 |- *; try discriminate end.
  rewrite E2. cbn [bind].
  destruct (give_back c W o s2 X a2 l1' q zq2 l2' Y M D F2 i I2 Hi P1) as (s3 & kept & G1 & G2). rewrite G1. cbn [bind].
  assert (Ss : solid (X ++ (a2, l1' ++ Tile q zq2 KLoose :: l2') :: Y) = solid Ts) by (apply solid_swap; auto).
  assert (Q3 : quiet Ts M s s2).
  { eapply quiet_step; [exact Q1 | | exact Q2]. symmetry. apply solid_swap; auto. }
  exists s3, (if kept then Some q else None), F2. split; [reflexivity|]. destruct kept.
  - subst s3. split; [exact Q3|]. exists a2, l1', zq2, l2'. split; [exact I2|]. split; [|auto].
    unfold others. rewrite !NL_app. tauto.
  - destruct G2 as (Ts' & A1 & A2 & A3 & A4 & A5). split.
    + eapply quiet_trans1; [exact Q3|]. apply quiet_mem; auto.
    + exists Ts'. split; [exact A1|]. split; [|split].
      * unfold noloose. rewrite A2. change (NL (others X l1' l2' Y)). unfold others. rewrite !NL_app. tauto.
      * etransitivity; [exact A3|]. unfold Ts. rewrite !app_length. cbn. lia.
      * rewrite <- Ss. rewrite solid_others by reflexivity. unfold solid. rewrite A2. reflexivity.
Qed.

(** ... to the free list *)
Lemma release o s X a l1 p z l2 Y M D F i :
  INV s (X ++ (a, l1 ++ Tile p z KLoose :: l2) :: Y) M D F -> NL (others X l1 l2 Y) -> (i <= length X)%nat ->
  (forall n l', l2 = n :: l' -> tk n <> KHeld) ->
  exists s' r Ts' F',
    coalesce c o s i p = Ok r /\
    match r with (s1, None) => s' = s1
            | (s1, Some q) => exists s2, set_prev_size_field c s1 i q = Ok s2 /\ add_to_free_list c s2 q = Ok s' end /\
    INV s' Ts' M D F' /\ noloose Ts' /\ (length Ts' <= length (X ++ (a, l1 ++ Tile p z KLoose :: l2) :: Y))%nat /\
    solid Ts' = solid (X ++ (a, l1 ++ Tile p z KLoose :: l2) :: Y) /\
    quiet (X ++ (a, l1 ++ Tile p z KLoose :: l2) :: Y) M s s'.
Proof.
  intros I N Hi Hn. destruct (coalesce_ok o _ _ _ _ _ _ _ _ _ _ _ i I N Hi Hn) as (s1 & r & F1 & E1 & Q1 & R).
  destruct r as [q|].
  - destruct R as (a' & l1' & zq & l2' & I1 & N1 & P1 & Hx & S1).
    destruct (set_prev c W s1 X a' l1' q zq l2' Y M D F1 i I1 Hi Hx) as (s2 & a2 & A1 & A2 & A3 & A4 & A5 & A6).
    destruct (add_free c W s2 X a2 l1' q zq l2' Y M D F1 A3 P1 A4 A5) as (s3 & F3 & B1 & B2 & B3 & B4).
    exists s3, (s1, Some q), (X ++ (a2, l1' ++ Tile q zq KFree :: l2') :: Y), F3.
    split; [exact E1|]. split; [eauto|]. split; [exact B2|].
    split; [|split; [|split]].
    + intros t It. apply in_mid in It as [->|It]; [discriminate|]. apply N1; auto.
    + rewrite !app_length. cbn. lia.
    + rewrite <- S1. apply solid_swap; reflexivity.
    + eapply quiet_step; [exact Q1|symmetry; exact S1|]. eapply quiet_step; [exact A6| |exact B3]. apply solid_swap; reflexivity.
  - destruct R as (Ts' & A1 & A2 & A3 & A4). exists s1, (s1, None), Ts', F1. do 6 (split; [solve [auto]|]). auto.
Qed.
End Release.
