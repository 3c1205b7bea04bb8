(** The delay list. *)
From Coq Require Import Permutation.
From Verif Require Import Base Alloc_Model Alloc_Inv Alloc_Proofs Alloc_Proofs2 Alloc_Proofs3 Alloc_Proofs4 Alloc_Proofs5 Alloc_Proofs6.
Open Scope Z_scope.

Definition settled (Ts : ats) : Prop := forall t, In t (tiles Ts) -> tk t <> KLoose /\ tk t <> KHeld.
Definition lives (Ts : ats) : list tile := filter live (tiles Ts).
Lemma lives_solid Ts : lives Ts = filter live (solid Ts).
Proof.
  unfold lives, solid. induction (tiles Ts) as [|t l IH]; [reflexivity|]. cbn [filter].
  unfold live, solidk. destruct (tk t) eqn:E; cbn [filter]; unfold live; rewrite ?E; cbn; fold live; rewrite ?IH; reflexivity.
Qed.
Lemma lives_eq Ts Ts' : solid Ts = solid Ts' -> lives Ts = lives Ts'.
Proof. intros E. rewrite !lives_solid, E. reflexivity. Qed.
Lemma lives_at X a l1 t l2 Y : lives (X ++ (a, l1 ++ t :: l2) :: Y) =
  filter live (tiles X) ++ (filter live l1 ++ (if live t then [t] else []) ++ filter live l2) ++ filter live (tiles Y).
Proof. unfold lives. rewrite tiles_mid, !filter_app. cbn [filter]. destruct (live t); reflexivity. Qed.
Lemma LB_lives Ts Ts' M x : lives Ts = lives Ts' -> LB Ts M x -> LB Ts' M x.
Proof.
  intros E [(t & I & L & B)|B]; [left | right; exact B].
  assert (J : In t (lives Ts)) by (apply filter_In; auto).
  rewrite E in J. apply filter_In in J as [J _]. eauto.
Qed.
Lemma quiet_lives Ts Ts' M s s' s'' : quiet Ts M s s' -> lives Ts = lives Ts' -> quiet Ts' M s' s'' -> quiet Ts M s s''.
Proof. intros A E B. eapply quiet_trans; [|exact A|exact B]. intros x. apply LB_lives; auto. Qed.
Lemma settled_NL Ts : settled Ts -> NL (tiles Ts).
Proof. intros H t I. apply (H t I). Qed.
Lemma settled_solid Ts Ts' : noloose Ts' -> (forall t, In t (solid Ts) -> tk t <> KHeld) -> solid Ts' = solid Ts -> settled Ts'.
Proof.
  intros N S E t I. split; [apply N; auto|]. intros K. apply (S t); auto. rewrite <- E. apply filter_In. split; auto. unfold solidk. rewrite K. reflexivity.
Qed.
Lemma settled_others X a l1 t l2 Y : settled (X ++ (a, l1 ++ t :: l2) :: Y) -> NL (others X l1 l2 Y) /\ (forall u, In u (others X l1 l2 Y) -> tk u <> KHeld).
Proof. intros H. split; intros u I; apply (H u); apply in_mid; auto. Qed.

Section Delay.
Context (c : cfg) (W : wfc c).
Notation g := (inter c).
Notation INV := (INV c).

Lemma CH_with_delay s Ts M f l n b : CH c s Ts M -> CH c (with_delay s f l n b) Ts M.
Proof.
  intros [A1 A2 A3 A4 A5 A6 A7]. split; auto.
  - eapply Forall_impl; [|exact A2]. intros x [B1 B2 B3 B4 B5]. split; auto. eapply heads_frame; [|exact B4]. reflexivity.
  - eapply Forall_impl; [|exact A6]. intros x [B1 B2 B3 B4 B5 B6 B7 B8]. split; auto.
Qed.
Lemma CH_setnext s s' Ts M t v : CH c s Ts M -> In t (tiles Ts) -> setnext c s (tp t) v = Ok s' -> CH c s' Ts M.
Proof.
  intros H I E. destruct (ch_tile _ _ _ _ _ H I) as (w & h & A & _).
  destruct (setnext_ok c s (tp t) h v A) as (s1 & E1 & E2 & E3 & E4). assert (s1 = s') as -> by congruence.
  eapply CH_pres; eauto; try (rewrite E4; reflexivity).
  - intros u w' Iu Hk. destruct (Z.eq_dec (tp u) (tp t)) as [Eq|N]; [|unfold hok; rewrite E3; auto].
    unfold hok in *. rewrite Eq in *. rewrite E2. destruct Hk as (h0 & K1 & K2 & K3 & K4 & K5). assert (h0 = h) as -> by congruence.
    exists (set_nxt h v). repeat split; auto.
  - intros p. destruct (Z.eq_dec p (tp t)) as [->|N]; [right; eauto | left; auto].
Qed.

(** alloc_replace.c [shift_from_delay_list_to_free_list] *)
Lemma shift_ok o s Ts M D F : INV s Ts M D F -> settled Ts ->
  match D with
  | [] => shift_from_delay_list c o s 0 = Ok (s, false)
  | _ :: D' => exists s' Ts' F', shift_from_delay_list c o s 0 = Ok (s', true) /\ INV s' Ts' M D' F' /\ settled Ts' /\
                 lives Ts' = lives Ts /\ quiet Ts M s s' /\ (length Ts' <= length Ts)%nat
  end.
Proof.
  intros (H & L & K) S. pose proof (CH_GEO _ _ _ _ H) as G. unfold shift_from_delay_list.
  destruct D as [|[p z] D'].
  - rewrite (ls_dfront _ _ _ L). reflexivity.
  - assert (It : In (Tile p z KDelay) (tiles Ts)) by (apply (lk_delay _ _ _ K); left; reflexivity).
    pose proof (tile_facts c W _ _ _ G It) as Ft. cbn [tp tsz] in Ft.
    rewrite (ls_dfront _ _ _ L). cbn [map fst List.hd]. replace (p =? 0) with false by lia.
    destruct (tiles_split _ _ It) as (X & a & l1 & l2 & Y & ->). clear It.
    set (Ts := X ++ (a, l1 ++ Tile p z KDelay :: l2) :: Y) in *.
    destruct (ch_hok _ _ _ _ _ _ _ _ _ H) as ((h & Hh & Hal & Hmm & Hk & Hpv) & Hl1 & H2 & Hf). cbn [tp tsz tk pvof] in *.
    unfold geth. rewrite Hh. cbn [of_option bind].
    set (s1 := with_delay (seth c s p (set_delay h false)) (h_nxt h) (if p =? dlast s then 0 else dlast s) (dchunks s - 1) (dbytes s - h_alloc h)).
    set (Ts1 := X ++ (a, l1 ++ Tile p z KLoose :: l2) :: Y).
    destruct (settled_others _ _ _ _ _ _ S) as [SL SH].
    assert (Npv : lastpv PN l1 <> PL).
    { unfold others in SL. rewrite !NL_app in SL. destruct SL as (_ & (SL & _) & _).
      destruct (lastpv_cases l1 SL) as [E|(? & ? & ? & _ & E)]; rewrite E; discriminate. }
    assert (I1 : INV s1 Ts1 M D' F).
    { split; [|split].
      - apply CH_with_delay. apply (CH_seth c W s X a l1 (Tile p z KDelay) l2 Y M _ KLoose); auto.
        + exists (set_delay h false). cbn [tp tsz tk]. repeat split; auto; try apply Hk.
          destruct (lastpv PN l1); cbn in *; try tauto. split; [discriminate | tauto].
        + eapply heads_PL; eauto.
        + eapply fin_PL; eauto.
      - pose proof (ls_sll _ _ _ L) as Sl. cbn [map fst sseg] in Sl. destruct Sl as ((h0 & E0 & En) & Sl).
        assert (h0 = h) as -> by congruence.
        pose proof (lk_dnodup _ _ _ K) as Nd. cbn [map fst] in Nd. apply NoDup_cons_iff in Nd as [Nd1 Nd2].
        assert (Np : forall b, ~ In p (F b)).
        { intros b. apply (lk_off_free c W _ _ _ _ b (Tile p z KDelay) G K); [apply in_mid; auto | discriminate]. }
        split; unfold s1; cbn [front last dfront dlast dchunks dbytes with_delay seth scribble with_mem with_hd].
        + apply (ls_front _ _ _ L).
        + apply (ls_last _ _ _ L).
        + intros b. eapply dseg_pres; [|apply (ls_dll _ _ _ L b)]. intros q hq Iq E. exists hq.
          rewrite <- E. split; auto. apply (hd_seth_ne c s p _ q). intros ->. eapply Np; eauto.
        + exact En.
        + eapply sseg_pres; [|exact Sl]. intros q hq Iq E. exists hq. rewrite <- E. split; auto. apply (hd_seth_ne c s p _ q). intros ->. auto.
        + rewrite (ls_dlast _ _ _ L). cbn [map fst]. rewrite last_cons'.
          destruct (nonempty_last (map fst D')) as [E|(L' & u & E)]; rewrite E; [cbn; rewrite Z.eqb_refl; reflexivity|].
          rewrite !last_app1. replace (p =? u) with false; [reflexivity|]. symmetry. apply Z.eqb_neq. intros ->. apply Nd1. rewrite E. apply in_or_app; cbn; auto.
        + rewrite (ls_dn _ _ _ L). cbn [length]. lia.
        + rewrite (ls_db _ _ _ L), Hal. cbn [sum fold_right snd]. unfold sum. lia.
      - unfold Ts1. change (l1 ++ Tile p z KLoose :: l2) with (l1 ++ [Tile p z KLoose] ++ l2).
        pose proof (lk_dnodup _ _ _ K) as Nd. cbn [map fst] in Nd. apply NoDup_cons_iff in Nd as [Nd1 Nd2].
        eapply (LK_seg c W X a a l1 [Tile p z KDelay]); try exact G; try exact K; auto; try apply (lk_nodup _ _ _ K).
        + intros b q. split; [intros Iq; right; split; auto; intros [<-|[]]; revert Iq|intros [(z0 & [E|[]] & _)|[Iq _]]; [discriminate|auto]].
          apply (lk_off_free c W _ _ _ _ b (Tile p z KDelay) G K); [apply in_mid; auto | discriminate].
        + intros q z0. split.
          * intros Iq. right. split; [right; auto|]. intros [<-|[]]. apply Nd1. apply (in_map fst) in Iq. exact Iq.
          * intros [[E|[]]|[[E|Iq] N]]; [discriminate | injection E as <- <-; exfalso; apply N; left; auto | auto]. }
    assert (Hn : forall n l', l2 = n :: l' -> tk n <> KHeld).
    { intros n l' ->. apply SH. unfold others. rewrite !in_app_iff. cbn. auto. }
    destruct (release c W o s1 X a l1 p z l2 Y M D' F 0 I1 SL (Nat.le_0_l _) Hn) as (s' & r & Ts' & F' & R1 & R2 & R3 & R4 & R5 & R6 & R7).
    exists s', Ts', F'. match goal with |- context [coalesce c o ?x 0 p] => change x with s1 end. rewrite R1. cbn [bind]. split; [|split; [exact R3|split; [|split; [|split]]]].
    + destruct r as [s2 [q|]]; [|subst s2; reflexivity]. destruct R2 as (s3 & E1 & E2). rewrite E1. cbn [bind]. rewrite E2. reflexivity.
    + apply (settled_solid Ts1); auto. intros t Ht. apply filter_In in Ht as [Ht _]. apply in_mid in Ht as [->|Ht]; [discriminate | auto].
    + rewrite (lives_eq _ _ R6). unfold Ts. rewrite !lives_at. reflexivity.
    + eapply (quiet_lives Ts Ts1 M s s1); [| |exact R7].
      * destruct (quiet_seth c W s Ts M (Tile p z KDelay) (set_delay h false) H) as [Q1 Q2]; [apply in_mid; auto|]. split; auto.
      * unfold Ts, Ts1. rewrite !lives_at. reflexivity.
    + etransitivity; [exact R5|]. unfold Ts. rewrite !app_length. cbn. lia.
Qed.

Definition full (D : list (Z * Z)) : bool := (delay_frees c <=? Z.of_nat (length D)) || (delay_frees_maxsz c <=? sum D).
(** what is left of a delay list *)
Fixpoint trim (D : list (Z * Z)) : list (Z * Z) :=
  if full D then match D with [] => [] | _ :: D' => trim D' end else D.
Lemma shift_while_ok o fuel : forall s Ts M D F, INV s Ts M D F -> settled Ts -> (length D < fuel)%nat ->
  exists s' Ts' F', shift_while_full c fuel o s 0 = Ok s' /\ INV s' Ts' M (trim D) F' /\ settled Ts' /\
    lives Ts' = lives Ts /\ quiet Ts M s s' /\ (length Ts' <= length Ts)%nat.
Proof.
  induction fuel as [|fuel IH]; intros s Ts M D F I S Hf; [lia|]. cbn [shift_while_full].
  assert (E : delayed_list_full c s = full D).
  { destruct I as (_ & L & _). unfold delayed_list_full, full. rewrite (ls_dn _ _ _ L), (ls_db _ _ _ L). reflexivity. }
  rewrite E. pose proof (shift_ok o s Ts M D F I S) as Sh.
  destruct D as [|d D']; cbn [trim]; destruct (full _).
  - rewrite Sh. cbn [bind]. exists s, Ts, F. repeat (split; [solve [auto using quiet_refl] |]). auto.
  - exists s, Ts, F. repeat (split; [solve [auto using quiet_refl] |]). auto.
  - destruct Sh as (s1 & Ts1 & F1 & E1 & I1 & S1 & L1 & Q1 & Le1). rewrite E1. cbn [bind].
    destruct (IH s1 Ts1 M D' F1 I1 S1) as (s2 & Ts2 & F2 & E2 & I2 & S2 & L2 & Q2 & Le2); [cbn in Hf; lia|].
    exists s2, Ts2, F2. split; [exact E2|]. split; [exact I2|]. split; [exact S2|]. split; [congruence|]. split; [|lia].
    eapply quiet_lives; [exact Q1|symmetry; exact L1|exact Q2].
  - exists s, Ts, F. repeat (split; [solve [auto using quiet_refl] |]). auto.
Qed.

(** alloc_replace.c [add_to_delay_list] *)
Lemma delay_ok o s X a l1 p z l2 Y M D F :
  INV s (X ++ (a, l1 ++ Tile p z KHeld :: l2) :: Y) M D F -> NL (others X l1 l2 Y) -> (forall u, In u (others X l1 l2 Y) -> tk u <> KHeld) ->
  exists s' Ts' F', add_to_delay_list c o s 0 p = Ok s' /\ INV s' Ts' M (trim (D ++ [(p, z)])) F' /\ settled Ts' /\
    lives Ts' = lives (X ++ (a, l1 ++ Tile p z KHeld :: l2) :: Y) /\ quiet (X ++ (a, l1 ++ Tile p z KHeld :: l2) :: Y) M s s' /\
    (length Ts' <= length (X ++ (a, l1 ++ Tile p z KHeld :: l2) :: Y))%nat.
Proof.
  intros (H & L & K) SL SH. set (Ts := X ++ (a, l1 ++ Tile p z KHeld :: l2) :: Y) in *.
  pose proof (CH_GEO _ _ _ _ H) as G.
  assert (It : In (Tile p z KHeld) (tiles Ts)) by (apply in_mid; auto).
  pose proof (tile_facts c W _ _ _ G It) as Ft. cbn [tp tsz] in Ft.
  destruct (ch_hok _ _ _ _ _ _ _ _ _ H) as ((h & Hh & Hal & Hmm & Hk & Hpv) & Hl1 & H2 & Hf). cbn [tp tsz tk pvof] in *.
  unfold add_to_delay_list.
  destruct (setnext_ok c s p h 0 Hh) as (s1 & E1 & E2 & E3 & E4). rewrite E1. cbn [bind].
  unfold geth. rewrite E2. cbn [of_option bind].
  assert (H1 : CH c s1 Ts M) by (apply (CH_setnext s s1 Ts M (Tile p z KHeld) 0); auto).
  assert (Np : forall b, ~ In p (F b)) by (intros b; apply (lk_off_free c W _ _ _ _ b (Tile p z KHeld) G K It); discriminate).
  assert (Npd : ~ In p (map fst D)) by (apply (lk_off_delay c W _ _ _ _ (Tile p z KHeld) G K It); discriminate).
  set (h1 := set_delay (set_nxt h 0) true). set (s2 := seth c s1 p h1).
  set (Ts' := X ++ (a, l1 ++ Tile p z KDelay :: l2) :: Y).
  assert (H2' : CH c s2 Ts' M).
  { apply (CH_seth_same c W s1 X a l1 (Tile p z KHeld) l2 Y M h1 KDelay); auto.
    exists h1. cbn [tp tsz tk]. unfold h1. cbn. split; [reflexivity|]. split; [auto|]. split; [auto|]. split; [destruct Hk as (A & B & D0); auto|].
    destruct (lastpv PN l1); cbn in *; auto. * split; [discriminate | tauto]. * intros; discriminate. }
  assert (Q2 : quiet Ts M s s2).
  { eapply quiet_trans1; [eapply (quiet_setnext c W s Ts M (Tile p z KHeld)); eauto|]. apply (quiet_seth c W s1 Ts M (Tile p z KHeld)); auto. }
  assert (LS2 : LS s2 D F).
  { apply LS_seth; [eapply LS_pres; [exact L | rewrite E4; repeat split |]|].
    - intros q hq Iq E. exists hq. rewrite <- E. assert (q <> p) by (intros ->; destruct Iq as [[b Iq]|Iq]; [eapply Np; eauto | auto]). auto.
    - intros h0 E. assert (h0 = set_nxt h 0) as -> by congruence. split; [reflexivity|]. left. exact Np. }
  assert (K' : LK Ts' (D ++ [(p, z)]) F).
  { unfold Ts'. change (l1 ++ Tile p z KDelay :: l2) with (l1 ++ [Tile p z KDelay] ++ l2).
    eapply (LK_seg c W X a a l1 [Tile p z KHeld]); try exact G; try exact K; try apply (lk_nodup _ _ _ K).
    - intros b q. split; [intros Iq; right; split; auto; intros [<-|[]]; eapply Np; eauto|intros [(z0 & [E|[]] & _)|[Iq _]]; [discriminate|auto]].
    - intros q z0. rewrite in_app_iff. split.
      + intros [Iq|[E|[]]]; [right; split; auto; intros [<-|[]]; apply Npd; apply (in_map fst) in Iq; exact Iq | left; left; congruence].
      + intros [[E|[]]|[Iq _]]; [right; left; congruence | auto].
    - rewrite map_app. cbn [map fst]. apply (Permutation_NoDup (Permutation_cons_append (map fst D) p)). constructor; auto. apply (lk_dnodup _ _ _ K). }
  assert (Hp2 : hd s2 p = Some h1) by apply hd_seth_eq.
  assert (S3 : exists s3, (if dlast s2 =? 0 then Ok (with_delay s2 p (dlast s2) (dchunks s2) (dbytes s2)) else setnext c s2 (dlast s2) p) = Ok s3 /\
     CH c s3 Ts' M /\ quiet Ts' M s2 s3 /\ dfront s3 = List.hd 0 (map fst (D ++ [(p, z)])) /\ sseg s3 (map fst (D ++ [(p, z)])) 0 /\
     front s3 = front s2 /\ last s3 = last s2 /\ dchunks s3 = dchunks s2 /\ dbytes s3 = dbytes s2 /\ (forall q, ~ In q (map fst D) -> hd s3 q = hd s2 q)).
  { rewrite (ls_dlast _ _ _ LS2). destruct (nonempty_last (map fst D)) as [E|(L' & u & E)].
    - assert (D = []) as -> by (destruct D; [reflexivity | discriminate]).
      cbn [map List.last app]. change (0 =? 0) with true. eexists. split; [reflexivity|].
      split; [apply CH_with_delay; auto|]. split; [apply quiet_mem; reflexivity|].
      split; [reflexivity|]. split; [cbn [sseg List.hd map fst]; split; auto; exists h1; auto|]. repeat split.
    - rewrite E, last_app1.
      assert (Iu : In u (map fst D)) by (rewrite E; apply in_or_app; cbn; auto).
      apply in_map_iff in Iu as ([u' zu] & Eu & Iu). cbn in Eu; subst u'. apply (lk_delay _ _ _ K) in Iu.
      pose proof (tile_facts c W _ _ _ G Iu) as Fu. cbn [tp tsz] in Fu. replace (u =? 0) with false by lia.
      assert (Iu' : In (Tile u zu KDelay) (tiles Ts')).
      { apply in_mid. right. apply in_mid in Iu as [Iu|Iu]; [discriminate | exact Iu]. }
      destruct (ch_tile _ _ _ _ _ H2' Iu') as (w & hu & Hu & _). cbn [tp] in Hu.
      destruct (setnext_ok c s2 u hu p Hu) as (s3 & G1 & G2 & G3 & G4). exists s3. split; [exact G1|].
      pose proof (lk_dnodup _ _ _ K) as Nd. rewrite E in Nd. apply NoDup_remove_2 in Nd. rewrite app_nil_r in Nd.
      assert (u <> p) by (intros ->; apply Npd; rewrite E; apply in_or_app; cbn; auto).
      split; [apply (CH_setnext s2 s3 Ts' M (Tile u zu KDelay) p); auto|].
      split; [eapply (quiet_setnext c W s2 Ts' M (Tile u zu KDelay)); eauto|].
      split; [assert (Gd : dfront s3 = dfront s2) by (rewrite G4; reflexivity); rewrite Gd, (ls_dfront _ _ _ LS2); destruct D; [destruct L'; discriminate | reflexivity]|].
      split; [|split; [rewrite G4; reflexivity|split; [rewrite G4; reflexivity|split; [rewrite G4; reflexivity|split; [rewrite G4; reflexivity|]]]]].
      + rewrite map_app. cbn [map fst]. pose proof (ls_sll _ _ _ LS2) as Sl. rewrite E in *. rewrite sseg_app in Sl. destruct Sl as [Sl1 Sl2].
        rewrite <- app_assoc. cbn [app]. rewrite sseg_app. cbn [List.hd] in *. split.
        * eapply sseg_pres; [|exact Sl1]. intros q hq Iq Eq. exists hq. split; auto. rewrite G3; auto. intros ->; auto.
        * cbn [sseg List.hd]. split; [eexists; split; [exact G2 | reflexivity]|]. split; auto. exists h1. split; [rewrite G3; auto | reflexivity].
      + intros q Nq. apply G3. intros ->. apply Nq. apply in_or_app; cbn; auto. }
  destruct S3 as (s3 & E5 & H3 & Q3 & A1 & A2 & A3 & A4 & A5 & A6 & A7).
  assert (EE : (let* s0 := (if dlast s2 =? 0 then Ok (with_delay s2 p (dlast s2) (dchunks s2) (dbytes s2)) else setnext c s2 (dlast s2) p) in
     shift_while_full c (S (S (Z.to_nat (dchunks s0 + 1)))) o (with_delay s0 (dfront s0) p (dchunks s0 + 1) (dbytes s0 + h_alloc (set_nxt h 0))) 0) =
     shift_while_full c (S (S (Z.to_nat (dchunks s3 + 1)))) o (with_delay s3 (dfront s3) p (dchunks s3 + 1) (dbytes s3 + h_alloc (set_nxt h 0))) 0)
     by (rewrite E5; reflexivity).
  set (s4 := with_delay s3 (dfront s3) p (dchunks s3 + 1) (dbytes s3 + h_alloc (set_nxt h 0))) in *.
  assert (I4 : INV s4 Ts' M (D ++ [(p, z)]) F).
  { split; [apply CH_with_delay; auto|]. split; [|exact K']. split; unfold s4; cbn [front last dfront dlast dchunks dbytes with_delay].
    - intros b. rewrite A3. apply (ls_front _ _ _ LS2).
    - intros b. rewrite A4. apply (ls_last _ _ _ LS2).
    - intros b. eapply dseg_pres; [|apply (ls_dll _ _ _ LS2 b)]. intros q hq Iq E. exists hq. rewrite <- E. split; auto. apply A7.
      apply (lk_free _ _ _ K) in Iq as (z0 & Iq & _). apply (lk_off_delay c W _ _ _ _ (Tile q z0 KFree) G K Iq). discriminate.
    - exact A1.
    - eapply sseg_pres; [|exact A2]. intros q hq _ E. exists hq. auto.
    - rewrite map_app. cbn [map fst]. rewrite last_app1. reflexivity.
    - rewrite A5, (ls_dn _ _ _ LS2), app_length. cbn [length]. lia.
    - rewrite A6, (ls_db _ _ _ LS2). cbn [h_alloc set_nxt]. rewrite Hal. unfold sum. rewrite fold_right_app. cbn [fold_right snd].
      clear. induction D as [|d D IH]; cbn [fold_right]; lia. }
  assert (S4 : settled Ts').
  { intros t Ht. apply in_mid in Ht as [->|Ht]; [split; discriminate|]. auto. }
  destruct (shift_while_ok o (S (S (Z.to_nat (dchunks s3 + 1)))) s4 Ts' M (D ++ [(p, z)]) F I4 S4) as (s5 & Ts5 & F5 & B1 & B2 & B3 & B4 & B5 & B6).
  { rewrite A5, (ls_dn _ _ _ LS2), app_length. cbn [length]. lia. }
  exists s5, Ts5, F5. split; [etransitivity; [exact EE | exact B1]|].
  split; [exact B2|]. split; [exact B3|].
  assert (LL : lives Ts' = lives Ts) by (unfold Ts, Ts'; rewrite !lives_at; reflexivity).
  split; [congruence|]. split.
  - eapply quiet_lives; [exact Q2|symmetry; exact LL|]. eapply quiet_trans1; [exact Q3|]. eapply quiet_trans1; [|exact B5]. apply quiet_mem; reflexivity.
  - etransitivity; [exact B6|]. unfold Ts, Ts'. rewrite !app_length. cbn. lia.
Qed.
End Delay.
