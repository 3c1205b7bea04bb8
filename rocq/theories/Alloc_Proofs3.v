(** The list operations. *)
From Coq Require Import Permutation.
From Verif Require Import Base Alloc_Model Alloc_Inv Alloc_Proofs Alloc_Proofs2.
Open Scope Z_scope.

Definition live (t : tile) : bool := match tk t with KLive _ _ _ => true | _ => false end.
(** the bytes of live chunks *)
Definition LB (Ts : ats) (M : list mm) (x : Z) : Prop :=
  (exists t, In t (tiles Ts) /\ live t = true /\ tp t <= x < tp t + tsz t) \/
  (exists m, In m M /\ mp m <= x < mp m + mal m).
Definition quiet (Ts : ats) (M : list mm) (s s' : state) : Prop := keep (LB Ts M) s s' /\ large s' = large s.

Section Lists.
Context (c : cfg) (W : wfc c).
Notation g := (inter c).
Definition INV (s : state) (Ts : ats) (M : list mm) (D : list (Z * Z)) (F : nat -> list Z) : Prop :=
  CH c s Ts M /\ LS s D F /\ LK Ts D F.

Lemma quiet_refl Ts M s : quiet Ts M s s.
Proof. split; [apply keep_refl | reflexivity]. Qed.
Lemma quiet_mem Ts M s s' : mem s' = mem s -> large s' = large s -> quiet Ts M s s'.
Proof. intros A B. split; auto. apply keep_mem; auto. Qed.
Lemma quiet_trans Ts M Ts' M' s s' s'' : (forall x, LB Ts M x -> LB Ts' M' x) ->
  quiet Ts M s s' -> quiet Ts' M' s' s'' -> quiet Ts M s s''.
Proof. intros I [A B] [A' B']. split; [|congruence]. intros x J. rewrite A', A; auto. Qed.
Lemma quiet_trans1 Ts M s s' s'' : quiet Ts M s s' -> quiet Ts M s' s'' -> quiet Ts M s s''.
Proof. apply quiet_trans. auto. Qed.
Lemma hbr_pos : 0 <= header_beyond_redzone c.
Proof.
  pose proof (wf_rz c W). unfold header_beyond_redzone, header_size.
  destruct (shared c); cbn [negb]; [destruct (redzone c <? 32) eqn:?|]; lia.
Qed.
Lemma LB_clear s Ts M t x : CH c s Ts M -> In t (tiles Ts) -> LB Ts M x ->
  ~ (tp t - g <= x < tp t) /\ (live t = false -> ~ (tp t - g <= x < tp t + tsz t)).
Proof.
  intros H I L. pose proof (CH_GEO _ _ _ _ H) as G. pose proof (g_rng c W).
  pose proof (tile_facts c W _ _ _ G I) as Ft.
  destruct L as [(u & Iu & Lu & B)|(m & Im & B)].
  - destruct (tiles_split _ _ I) as (X & a & l1 & l2 & Y & ->). apply in_mid in Iu as [->|Iu].
    + split; [lia | congruence].
    + pose proof (apart c W _ _ _ _ _ _ _ _ G Iu). split; [|intros _]; lia.
  - pose proof (apart_mm c W _ _ _ _ G I Im). pose proof (ch_mm _ _ _ _ H) as O. rewrite Forall_forall in O.
    specialize (O m Im). pose proof (m_lo _ _ _ O). pose proof (m_hi _ _ _ O). pose proof (wf_rz c W). pose proof hbr_pos. lia.
Qed.
Lemma quiet_seth s Ts M t h : CH c s Ts M -> In t (tiles Ts) -> quiet Ts M s (seth c s (tp t) h).
Proof.
  intros H I. split; [|reflexivity]. apply keep_seth; [exact W|]. intros x L. apply (LB_clear s Ts M t x H I L).
Qed.
Lemma quiet_setnext s Ts M t v s' : CH c s Ts M -> In t (tiles Ts) -> live t = false -> setnext c s (tp t) v = Ok s' -> quiet Ts M s s'.
Proof.
  intros H I Lv E. pose proof (tile_facts c W _ _ _ (CH_GEO _ _ _ _ H) I) as Ft. split.
  - eapply keep_setnext; [exact W | exact E |]. intros x L K. apply (LB_clear s Ts M t x H I L); auto. lia.
  - unfold setnext, geth in E. destruct (hd s (tp t)); cbn in E; [injection E as <- | discriminate]. reflexivity.
Qed.

(** *** which tile is on which list, when a stretch is replaced *)
Lemma LK_seg X a a' l1 seg seg' l2 Y M D D' F F' :
  GEO c (X ++ (a, l1 ++ seg ++ l2) :: Y) M -> LK (X ++ (a, l1 ++ seg ++ l2) :: Y) D F ->
  (forall b p, In p (F' b) <-> (exists z, In (Tile p z KFree) seg' /\ bkt z = b) \/ (In p (F b) /\ ~ In p (map tp seg))) ->
  (forall b, NoDup (F' b)) ->
  (forall p z, In (p, z) D' <-> In (Tile p z KDelay) seg' \/ (In (p, z) D /\ ~ In p (map tp seg))) ->
  NoDup (map fst D') ->
  LK (X ++ (a', l1 ++ seg' ++ l2) :: Y) D' F'.
Proof.
  intros G [A1 A2 A3 A4] HF NF HD ND.
  assert (Sep : forall u, In u (others X l1 l2 Y) -> ~ In (tp u) (map tp seg)).
  { intros u I J. apply in_map_iff in J as (t & E & J). exact (ptr_seg_other c W _ _ _ _ _ _ _ _ _ G J I (eq_sym E)). }
  split; auto.
  - intros b p. rewrite HF. split.
    + intros [(z & I & B)|[I J]].
      * exists z. split; auto. apply in_seg. auto.
      * apply A1 in I as (z & I & B). exists z. split; auto. apply in_seg in I as [I|I].
        { exfalso. apply J. apply in_map_iff. exists (Tile p z KFree). auto. }
        apply in_seg. auto.
    + intros (z & I & B). apply in_seg in I as [I|I]; [left; eauto|]. right. split.
      * apply A1. exists z. split; auto. apply in_seg. auto.
      * apply (Sep _ I).
  - intros p z. rewrite HD. split.
    + intros [I|[I J]].
      * apply in_seg. auto.
      * apply A3 in I. apply in_seg in I as [I|I].
        { exfalso. apply J. apply in_map_iff. exists (Tile p z KDelay). auto. }
        apply in_seg. auto.
    + intros I. apply in_seg in I as [I|I]; [left; auto|]. right. split.
      * apply A3. apply in_seg. auto.
      * apply (Sep _ I).
Qed.
Definition listed (k : kind) : bool := match k with KFree | KDelay => true | _ => false end.
Lemma lk_off_free Ts M D F b t : GEO c Ts M -> LK Ts D F -> In t (tiles Ts) -> tk t <> KFree -> ~ In (tp t) (F b).
Proof.
  intros G K I N J. apply (lk_free _ _ _ K) in J as (z & J & _).
  pose proof (tile_unique c W _ _ _ _ G I J eq_refl) as E. apply N. rewrite <- E. reflexivity.
Qed.
Lemma lk_off_delay Ts M D F t : GEO c Ts M -> LK Ts D F -> In t (tiles Ts) -> tk t <> KDelay -> ~ In (tp t) (map fst D).
Proof.
  intros G K I N J. apply in_map_iff in J as ([p z] & E & J). cbn in E. apply (lk_delay _ _ _ K) in J.
  pose proof (tile_unique c W _ _ _ _ G I J E) as E'. apply N. rewrite <- E'. reflexivity.
Qed.
Lemma LK_seg_same X a a' l1 seg seg' l2 Y M D F :
  GEO c (X ++ (a, l1 ++ seg ++ l2) :: Y) M -> LK (X ++ (a, l1 ++ seg ++ l2) :: Y) D F ->
  (forall t, In t seg -> listed (tk t) = false) -> (forall t, In t seg' -> listed (tk t) = false) ->
  LK (X ++ (a', l1 ++ seg' ++ l2) :: Y) D F.
Proof.
  intros G K HS HS'. eapply LK_seg; try exact G; try exact K.
  - intros b p. split.
    + intros I. right. split; auto. intros J. apply in_map_iff in J as (t & <- & J). revert I. eapply lk_off_free; try exact G; eauto.
      * apply in_seg; auto. * intros E. specialize (HS t J). rewrite E in HS. discriminate.
    + intros [(z & I & _)|[I _]]; auto. apply HS' in I. discriminate.
  - apply (lk_nodup _ _ _ K).
  - intros p z. split.
    + intros I. right. split; auto. intros J. apply in_map_iff in J as (t & <- & J).
      apply (in_map fst) in I. revert I. cbn [fst]. eapply lk_off_delay; try exact G; eauto.
      * apply in_seg; auto. * intros E. specialize (HS t J). rewrite E in HS. discriminate.
    + intros [I|[I _]]; auto. apply HS' in I. discriminate.
  - apply (lk_dnodup _ _ _ K).
Qed.

(** *** linking *)
Definition core (h h' : hdr) : Prop :=
  h_alloc h' = h_alloc h /\ h_freed h' = h_freed h /\ h_mmap h' = h_mmap h /\ h_pfree h' = h_pfree h /\
  h_delay h' = h_delay h /\ h_skip h' = h_skip h.
Lemma core_refl h : core h h.
Proof. repeat split. Qed.
Lemma hok_core h h' w t : tk t = KFree -> core h h' -> hok1 (Some h) w t -> hok1 (Some h') w t.
Proof.
  intros E (A & B & D & F & G & I) (h0 & J & K & L & N & O). injection J as <-. exists h'. split; auto.
  rewrite E in *. cbn in *. repeat split; try congruence; try tauto.
  - destruct N as (N1 & N2 & N3). congruence.
  - destruct N as (N1 & N2 & N3). congruence.
  - destruct N as (N1 & N2 & N3). congruence.
  - destruct w; cbn in *; [congruence | tauto |]. intros _. rewrite F. auto.
Qed.
(** only headers of chunks on the free lists, and there only the list pointers *)
Definition touch (s s' : state) (F : nat -> list Z) : Prop :=
  forall q, hd s' q = hd s q \/ exists b h h', In q (F b) /\ hd s q = Some h /\ hd s' q = Some h' /\ core h h' /\ h_type h' = h_type h.
Lemma CH_touch s s' Ts M D F : CH c s Ts M -> LK Ts D F -> touch s s' F ->
  arenas s' = arenas s -> cur_brk s' = cur_brk s -> regions s' = regions s -> mhead s' = mhead s -> CH c s' Ts M.
Proof.
  intros H K T Ea Eb Er Em. eapply CH_pres; eauto.
  - intros t w I Hk. unfold hok in *. destruct (T (tp t)) as [E|(b & h & h' & J & A & B & Hc & _)]; [rewrite E; auto|].
    rewrite B. rewrite A in Hk. apply (hok_core h); auto.
    apply (lk_free _ _ _ K) in J as (z & J & _).
    rewrite <- (tile_unique c W _ _ _ _ (CH_GEO _ _ _ _ H) I J eq_refl). reflexivity.
  - intros p. destruct (T p) as [E|(b & h & h' & J & _)]; auto. right.
    apply (lk_free _ _ _ K) in J as (z & J & _). exists (Tile p z KFree). auto.
Qed.

Lemma CH_relabel s X a l1 t l2 Y M k' : CH c s (X ++ (a, l1 ++ t :: l2) :: Y) M ->
  let t' := Tile (tp t) (tsz t) k' in
  hok s (lastpv PN l1) t' -> heads s (pvof t') l2 -> fin a (lastpv (pvof t') l2) ->
  CH c s (X ++ (a, l1 ++ t' :: l2) :: Y) M.
Proof.
  intros H t' Hk H2 Hf. change (l1 ++ t' :: l2) with (l1 ++ [t'] ++ l2).
  apply (CH_seg c W s s X a a l1 [t] [t'] l2 Y M); try reflexivity.
  - exact H.
  - rewrite (ch_arenas _ _ _ _ H), map_app. reflexivity.
  - repeat split; reflexivity.
  - intros p q. cbn. auto.
  - constructor; [|constructor]. pose proof (ch_ok _ _ _ _ H) as O. rewrite Forall_app, Forall_cons_iff in O.
    destruct O as (_ & O & _). destruct O as [_ _ N _ _]. cbn [snd] in N. change (l1 ++ t :: l2) with (l1 ++ [t] ++ l2) in N. rewrite !Forall_app in N.
    destruct N as (_ & N & _). apply Forall_cons_iff in N as [N _]. exact N.
  - cbn [heads]. split; auto.
  - cbn. exact H2.
  - cbn. exact Hf.
  - intros u d ty sk [<-|[]] E. left. reflexivity.
Qed.
Lemma CH_loosen s X a l1 t l2 Y M : CH c s (X ++ (a, l1 ++ t :: l2) :: Y) M -> tk t = KFree \/ tk t = KHeld ->
  CH c s (X ++ (a, l1 ++ Tile (tp t) (tsz t) KLoose :: l2) :: Y) M.
Proof.
  intros H E. destruct (ch_hok _ _ _ _ _ _ _ _ _ H) as (A & _ & B & D). apply CH_relabel; auto.
  - destruct A as (h & A1 & A2 & A3 & A4 & A5). exists h. cbn [tk tsz tp]. repeat split; auto.
    + destruct E as [E|E]; rewrite E in A4; apply A4.
    + destruct E as [E|E]; rewrite E in A4; apply A4.
    + destruct E as [E|E]; rewrite E in A4; apply A4.
    + destruct (lastpv PN l1); cbn in *; try tauto. * destruct E as [E|E]; rewrite E in A5; intuition congruence. * intros; congruence.
  - eapply heads_PL; eauto.
  - eapply fin_PL; eauto.
Qed.

Lemma setnext_ok s p h v : hd s p = Some h ->
  exists s', setnext c s p v = Ok s' /\ hd s' p = Some (set_nxt h v) /\ (forall q, q <> p -> hd s' q = hd s q) /\
  s' = with_mem (with_hd s (hd s')) (mem s').
Proof.
  intros E. unfold setnext, geth. rewrite E. cbn [of_option bind]. eexists. split; [reflexivity|]. cbn. unfold upd. split; [|split].
  - rewrite Z.eqb_refl. reflexivity.
  - intros q N. apply Z.eqb_neq in N. rewrite N. reflexivity.
  - reflexivity.
Qed.
Lemma last_app1 (l : list Z) u d : List.last (l ++ [u]) d = u.
Proof. apply last_last. Qed.
Lemma nonempty_last (l : list Z) : l = [] \/ exists l' u, l = l' ++ [u].
Proof. destruct l as [|x l]; auto. right. destruct (@exists_last _ (x :: l)) as (l' & u & E); [discriminate|]. eauto. Qed.

Lemma dseg_setlast s s' pv L u nx h v : dseg s pv (L ++ [u]) nx -> ~ In u L -> hd s u = Some h ->
  hd s' u = Some (set_nxt h v) -> (forall q, In q L -> hd s' q = hd s q) -> dseg s' pv (L ++ [u]) v.
Proof.
  intros H N E E' Fr. rewrite dseg_app in *. destruct H as [A B]. split.
  - cbn [List.hd]. eapply dseg_pres; [|exact A]. intros p h0 I J. exists h0. rewrite Fr; auto.
  - cbn [dseg] in *. destruct B as [(h0 & B1 & B2 & B3) _]. split; auto. exists (set_nxt h v).
    assert (h0 = h) by congruence. subst h0. auto.
Qed.
Lemma dseg_setfirst s s' pv n L nx h v : dseg s pv (n :: L) nx -> ~ In n L -> hd s n = Some h ->
  hd s' n = Some (set_prv h v) -> (forall q, In q L -> hd s' q = hd s q) -> dseg s' v (n :: L) nx.
Proof.
  intros H N E E' Fr. cbn [dseg] in *. destruct H as [(h0 & B1 & B2 & B3) A]. split.
  - exists (set_prv h v). assert (h0 = h) by congruence. subst h0. auto.
  - eapply dseg_pres; [|exact A]. intros p h1 I J. exists h1. rewrite Fr; auto.
Qed.
Lemma bkt_ok z : 16 <= z -> bucket_down z (if bucket_size 6 <? z then 16%nat else 6%nat) = Ok (bkt z) /\
  bucket_size (bkt z) <= z /\ (bkt z <= 16)%nat.
Proof.
  intros H. unfold bkt.
  assert (Q : forall b, exists b', bucket_down z b = Ok b' /\ bucket_size b' <= z /\ (b' <= b)%nat).
  { induction b as [|b IH]; cbn [bucket_down].
    - replace (z <? bucket_size 0) with false. 2:{ symmetry. apply Z.ltb_ge. exact H. } exists O. repeat split; auto.
    - destruct (z <? bucket_size (S b)) eqn:E.
      + destruct IH as (b' & A & B & D). exists b'. repeat split; auto.
      + exists (S b). repeat split; auto. apply Z.ltb_ge in E. exact E. }
  destruct (Q (if bucket_size 6 <? z then 16%nat else 6%nat)) as (b' & A & B & D). rewrite A. repeat split; auto.
  destruct (bucket_size 6 <? z); lia.
Qed.

(** alloc_replace.c [remove_from_free_list] *)
Lemma remove_free s X a l1 t z l2 Y M D F bo :
  INV s (X ++ (a, l1 ++ Tile t z KFree :: l2) :: Y) M D F -> bo = None \/ bo = Some (bkt z) ->
  exists s' F', remove_from_free_list c s t bo = Ok s' /\
    INV s' (X ++ (a, l1 ++ Tile t z KLoose :: l2) :: Y) M D F' /\
    quiet (X ++ (a, l1 ++ Tile t z KFree :: l2) :: Y) M s s' /\ arenas s' = arenas s /\ hd s' t = hd s t.
Proof.
  intros (H & L & K) Hb. set (Ts := X ++ (a, l1 ++ Tile t z KFree :: l2) :: Y) in *.
  pose proof (CH_GEO _ _ _ _ H) as G.
  assert (It : In (Tile t z KFree) (tiles Ts)) by (apply in_mid; auto).
  pose proof (tile_facts c W _ _ _ G It) as Ft. cbn [tp tsz] in Ft.
  assert (If : In t (F (bkt z))) by (apply (lk_free _ _ _ K); eauto).
  apply in_split in If as (L1 & L2 & Eb).
  pose proof (ls_dll _ _ _ L (bkt z)) as Dl. rewrite Eb, dseg_app in Dl. destruct Dl as (Dl1 & Dl2). cbn [List.hd] in Dl1.
  cbn [dseg] in Dl2. destruct Dl2 as ((h & Hh & Hp & Hn) & Dl2).
  pose proof (lk_nodup _ _ _ K (bkt z)) as Nd. rewrite Eb in Nd.
  assert (NZ : forall b q, In q (F b) -> 0 < q).
  { intros b q I. apply (lk_free _ _ _ K) in I as (z0 & I & _). pose proof (tile_facts c W _ _ _ G I) as Fq. cbn in Fq. lia. }
  assert (NZ1 : forall q, In q (L1 ++ t :: L2) -> 0 < q) by (intros q; rewrite <- Eb; apply NZ).
  assert (HF : forall q, In q (L1 ++ t :: L2) -> exists zq, In (Tile q zq KFree) (tiles Ts)).
  { intros q I. rewrite <- Eb in I. apply (lk_free _ _ _ K) in I as (z0 & I & _). eauto. }
  assert (Hal : h_alloc h = z).
  { destruct (ch_tile _ _ _ _ _ H It) as (w & h0 & A & B & _). cbn in A, B. congruence. }
  pose proof (bkt_ok z ltac:(lia)) as (Bk & _ & _).
  set (F' := updn F (bkt z) (L1 ++ L2)).
  assert (KK : LK (X ++ (a, l1 ++ Tile t z KLoose :: l2) :: Y) D F').
  { change (l1 ++ Tile t z KLoose :: l2) with (l1 ++ [Tile t z KLoose] ++ l2).
    eapply (LK_seg X a a l1 [Tile t z KFree]); try exact G; try exact K.
    - intros b p. unfold F', updn. destruct (b =? bkt z)%nat eqn:E.
      + apply Nat.eqb_eq in E; subst b. rewrite Eb. split.
        * intros I. right. split. { rewrite in_app_iff in *; cbn; tauto. }
          intros [<-|[]]. cbn in I. apply NoDup_remove_2 in Nd. auto.
        * intros [(z0 & [E|[]] & _)|[I N]]; [discriminate|]. rewrite in_app_iff in *. cbn in *. intuition.
      + split.
        * intros I. right. split; auto. intros [<-|[]]. cbn in I. apply (lk_free _ _ _ K) in I as (z0 & I & B).
          pose proof (tile_unique c W _ _ _ _ G It I eq_refl) as E'. injection E' as <-. apply Nat.eqb_neq in E. congruence.
        * intros [(z0 & [E'|[]] & _)|[I N]]; [discriminate|]. auto.
    - intros b. unfold F', updn. destruct (b =? bkt z)%nat; [|apply (lk_nodup _ _ _ K)]. eapply NoDup_remove_1; eauto.
    - intros p z0. split.
      + intros I. right. split; auto. intros [<-|[]]. cbn [tp] in I. apply (in_map fst) in I. revert I. cbn [fst].
        apply (lk_off_delay _ _ _ _ (Tile t z KFree) G K It). discriminate.
      + intros [[E|[]]|[I _]]; [discriminate | auto].
    - apply (lk_dnodup _ _ _ K). }
  (* first write *)
  assert (S1 : exists s1, (if List.last L1 0 =? 0 then Ok (with_front s (updn (front s) (bkt z) (List.hd 0 L2))) else setnext c s (List.last L1 0) (List.hd 0 L2)) = Ok s1 /\
     dseg s1 0 L1 (List.hd 0 L2) /\ (forall b, front s1 b = List.hd 0 (F' b)) /\ touch s s1 F /\ (forall q, ~ In q L1 -> hd s1 q = hd s q) /\
     last s1 = last s /\ quiet Ts M s s1 /\
     arenas s1 = arenas s /\ cur_brk s1 = cur_brk s /\ regions s1 = regions s /\ mhead s1 = mhead s /\
     dfront s1 = dfront s /\ dlast s1 = dlast s /\ dchunks s1 = dchunks s /\ dbytes s1 = dbytes s).
  { destruct (nonempty_last L1) as [->|(L1' & u & ->)].
    - cbn [List.last]. change (0 =? 0) with true. cbn [negb]. eexists. split; [reflexivity|]. split; [exact I|]. split; [|split; [|split; [|split; [|split]]]].
      + intros b. cbn. unfold F', updn. destruct (b =? bkt z)%nat; [reflexivity|]. apply (ls_front _ _ _ L).
      + intros q. left. reflexivity.
      + reflexivity.
      + reflexivity.
      + apply quiet_mem; reflexivity.
      + repeat split; reflexivity.
    - rewrite last_app1. assert (Iu : In u ((L1' ++ [u]) ++ t :: L2)) by (rewrite !in_app_iff; cbn; auto).
      assert (u <> 0) by (specialize (NZ1 u Iu); lia). replace (u =? 0) with false by lia.
      destruct (dseg_in _ _ _ _ u Dl1) as (hu & Hu & _); [rewrite in_app_iff; cbn; auto|].
      destruct (setnext_ok s u hu (List.hd 0 L2) Hu) as (s1 & E1 & E2 & E3 & E4). exists s1. split; [exact E1|].
      rewrite <- app_assoc in Nd. cbn in Nd. pose proof (NoDup_remove_2 _ _ _ Nd) as Nu. rewrite in_app_iff in Nu. cbn in Nu.
      split; [apply (dseg_setlast s s1 0 L1' u t hu); auto; intros q Iq; apply E3; intros ->; tauto|].
      split; [|split; [|split; [|split; [|split]]]].
      + intros b. rewrite E4. cbn. rewrite (ls_front _ _ _ L). unfold F', updn. destruct (b =? bkt z)%nat eqn:E; [|reflexivity].
        apply Nat.eqb_eq in E; subst b. rewrite Eb. destruct L1'; reflexivity.
      + intros q. destruct (Z.eq_dec q u) as [->|N]; [right|left; auto].
        exists (bkt z), hu, (set_nxt hu (List.hd 0 L2)). rewrite Eb. repeat split; auto.
      + intros q Nq. apply E3. intros ->. apply Nq. rewrite in_app_iff; cbn; auto.
      + rewrite E4; reflexivity.
      + destruct (HF u Iu) as (zu & Iu'). eapply (quiet_setnext s Ts M (Tile u zu KFree)); eauto.
      + rewrite E4. repeat split; reflexivity. }
  destruct S1 as (s1 & E1 & D1 & Fr1 & T1 & U1 & La1 & Q1 & A1 & A2 & A3 & A4 & A5 & A6 & A7 & A8).
  assert (D2 : dseg s1 t L2 0).
  { eapply dseg_pres; [|exact Dl2]. intros p h0 Ip J. exists h0. rewrite U1; auto. intros Ip'.
    apply NoDup_remove_1 in Nd. clear - Nd Ip Ip'. induction L1; cbn in *; [tauto|]. apply NoDup_cons_iff in Nd as [N Nd].
    destruct Ip' as [->|Ip']; auto. apply N. apply in_or_app; auto. }
  assert (H1 : CH c s1 Ts M) by (eapply CH_touch; eauto).
  (* second write *)
  assert (S2 : exists s', (if List.hd 0 L2 =? 0 then Ok (with_last s1 (updn (last s1) (bkt z) (List.last L1 0)))
                           else let* hn := geth s1 (List.hd 0 L2) in Ok (seth c s1 (List.hd 0 L2) (set_prv hn (List.last L1 0)))) = Ok s' /\
     dseg s' (List.last L1 0) L2 0 /\ (forall b, last s' b = List.last (F' b) 0) /\ touch s1 s' F /\ (forall q, ~ In q L2 -> hd s' q = hd s1 q) /\
     front s' = front s1 /\ quiet Ts M s1 s' /\
     arenas s' = arenas s1 /\ cur_brk s' = cur_brk s1 /\ regions s' = regions s1 /\ mhead s' = mhead s1 /\
     dfront s' = dfront s1 /\ dlast s' = dlast s1 /\ dchunks s' = dchunks s1 /\ dbytes s' = dbytes s1).
  { destruct L2 as [|n L2].
    - cbn [List.hd]. change (0 =? 0) with true. eexists. split; [reflexivity|]. split; [exact I|]. split; [|split; [|split; [|split; [|split]]]].
      + intros b. cbn. unfold F', updn. destruct (b =? bkt z)%nat; [rewrite app_nil_r; reflexivity|]. rewrite La1. apply (ls_last _ _ _ L).
      + intros q. left. reflexivity.
      + reflexivity.
      + reflexivity.
      + apply quiet_mem; reflexivity.
      + repeat split; reflexivity.
    - cbn [List.hd]. assert (In_ : In n (L1 ++ t :: n :: L2)) by (rewrite !in_app_iff; cbn; auto).
      assert (n <> 0) by (specialize (NZ1 n In_); lia). replace (n =? 0) with false by lia.
      destruct (dseg_in _ _ _ _ n D2) as (hn & Hn' & _); [cbn; auto|].
      unfold geth. rewrite Hn'. cbn [of_option bind]. eexists. split; [reflexivity|].
      assert (Nn : ~ In n L2 /\ ~ In n L1).
      { apply NoDup_remove_1 in Nd. split.
        - apply NoDup_remove_2 in Nd. rewrite in_app_iff in Nd. tauto.
        - apply NoDup_remove_2 in Nd. rewrite in_app_iff in Nd. tauto. }
      split; [apply (dseg_setfirst s1 _ t n L2 0 hn); [exact D2 | tauto | exact Hn' | apply hd_seth_eq | intros q Iq; apply hd_seth_ne; intros ->; tauto]|].
      split; [|split; [|split; [|split; [|split]]]].
      + intros b. cbn [last seth scribble with_mem with_hd]. rewrite La1, (ls_last _ _ _ L). unfold F', updn. destruct (b =? bkt z)%nat eqn:E; [|reflexivity].
        apply Nat.eqb_eq in E; subst b. rewrite Eb. change (t :: n :: L2) with ([t] ++ n :: L2). rewrite app_assoc.
        clear. generalize (L1 ++ [t]). intros L0. destruct (nonempty_last (n :: L2)) as [E|(L' & u & ->)]; [discriminate|].
        rewrite !app_assoc, !last_app1. reflexivity.
      + intros q. destruct (Z.eq_dec q n) as [->|N]; [right|left; rewrite hd_seth_ne; auto].
        exists (bkt z), hn, (set_prv hn (List.last L1 0)). rewrite Eb. repeat split; auto. apply hd_seth_eq.
      + intros q Nq. apply hd_seth_ne. intros ->. apply Nq. cbn; auto.
      + reflexivity.
      + destruct (HF n In_) as (zn & In'). apply (quiet_seth s1 Ts M (Tile n zn KFree)); auto.
      + repeat split; reflexivity. }
  destruct S2 as (s' & E2 & D3 & La2 & T2 & U2 & Fr2 & Q2 & B1 & B2 & B3 & B4 & B5 & B6 & B7 & B8).
  exists s', F'. split.
  { unfold remove_from_free_list, geth. rewrite Hh. cbn [of_option bind]. rewrite Hp. cbn [of_option bind].
    assert (Kb : forall (X0 : Type) (f : nat -> res X0), 
       (List.last L1 0 =? 0) || (h_nxt h =? 0) = true ->
       (let* k := match bo with Some k => Ok k | None => if (List.last L1 0 =? 0) || (h_nxt h =? 0) then bucket_index h else Ok O end in f k) = f (bkt z)).
    { intros X0 f Hc. destruct Hb as [ -> | -> ]; [|reflexivity]. rewrite Hc. unfold bucket_index. rewrite Hal, Bk. reflexivity. }
    destruct ((List.last L1 0 =? 0) || (h_nxt h =? 0)) eqn:Ec.
    - rewrite Kb by reflexivity. rewrite Hn, E1. cbn [of_option bind]. exact E2.
    - apply orb_false_elim in Ec as [Ec1 Ec2]. rewrite Hn in Ec2. rewrite Ec1 in E1. rewrite Ec2 in E2. rewrite Ec1, Hn, Ec2.
      assert (Q : forall k : nat, (let* s0 := setnext c s (List.last L1 0) (List.hd 0 L2) in
           let* hn := of_option (hd s0 (List.hd 0 L2)) in Ok (seth c s0 (List.hd 0 L2) (set_prv hn (List.last L1 0)))) = Ok s').
      { intros _. rewrite E1. exact E2. }
      destruct bo as [k|]; cbn [orb]; apply (Q O). }
  assert (H2 : CH c s' Ts M) by (eapply CH_touch; eauto; congruence).
  split; [|split; [|split]].
  - split; [|split; [|exact KK]].
    + apply (CH_loosen s' X a l1 (Tile t z KFree)); auto.
    + split.
      * intros b. rewrite Fr2. apply Fr1.
      * exact La2.
      * intros b. unfold F', updn. destruct (b =? bkt z)%nat eqn:E.
        -- apply dseg_app. split; auto. eapply dseg_pres; [|exact D1]. intros p h0 Ip J. exists h0. rewrite U2; auto.
           intros Ip'. apply NoDup_remove_1 in Nd. clear - Nd Ip Ip'. induction L1; cbn in *; [tauto|]. apply NoDup_cons_iff in Nd as [N Nd].
           destruct Ip as [->|Ip]; auto. apply N. apply in_or_app; auto.
        -- eapply dseg_pres; [|apply (ls_dll _ _ _ L b)]. intros p h0 Ip J. exists h0.
           assert (~ In p (L1 ++ t :: L2)).
           { rewrite <- Eb. intros Ip'. apply (lk_free _ _ _ K) in Ip as (z1 & Ip & Z1). apply (lk_free _ _ _ K) in Ip' as (z2 & Ip' & Z2).
             pose proof (tile_unique c W _ _ _ _ G Ip Ip' eq_refl) as E'. injection E' as ->. apply Nat.eqb_neq in E. congruence. }
           rewrite in_app_iff in H0. cbn in H0. rewrite U2, U1; tauto.
      * rewrite B5, A5. apply (ls_dfront _ _ _ L).
      * eapply sseg_pres; [|apply (ls_sll _ _ _ L)]. intros p h0 Ip J. exists h0.
        assert (~ In p (L1 ++ t :: L2)).
        { intros Ip'. destruct (HF _ Ip') as (zq & Iq). apply in_map_iff in Ip as ([q z0] & E & Ip). cbn in E; subst q.
          apply (lk_delay _ _ _ K) in Ip. pose proof (tile_unique c W _ _ _ _ G Ip Iq eq_refl) as E'. discriminate. }
        rewrite in_app_iff in H0. cbn in H0. rewrite U2, U1; tauto.
      * rewrite B6, A6. apply (ls_dlast _ _ _ L).
      * rewrite B7, A7. apply (ls_dn _ _ _ L).
      * rewrite B8, A8. apply (ls_db _ _ _ L).
  - eapply quiet_trans1; eauto.
  - congruence.
  - assert (~ In t (L1 ++ L2)) by (eapply NoDup_remove_2; eauto). rewrite in_app_iff in H0. rewrite U2, U1; tauto.
Qed.

Lemma LB_same X a a' l1 t t' l2 Y M x : live t = live t' -> tp t = tp t' -> tsz t = tsz t' ->
  LB (X ++ (a, l1 ++ t :: l2) :: Y) M x -> LB (X ++ (a', l1 ++ t' :: l2) :: Y) M x.
Proof.
  intros E1 E2 E3 [(u & Iu & A)|A]; [left | right; exact A].
  apply in_mid in Iu as [->|Iu].
  - exists t'. rewrite <- E1, <- E2, <- E3. split; auto. apply in_mid; auto.
  - exists u. split; auto. apply in_mid; auto.
Qed.
Lemma quiet_sub Ts M Ts' M' s s' : (forall x, LB Ts M x -> LB Ts' M' x) -> quiet Ts' M' s s' -> quiet Ts M s s'.
Proof. intros I [A B]. split; auto. intros x J. auto. Qed.

(** alloc_replace.c [add_to_free_list] *)
Lemma add_free s X a l1 p z l2 Y M D F :
  INV s (X ++ (a, l1 ++ Tile p z KLoose :: l2) :: Y) M D F -> lastpv PN l1 = PN ->
  heads s (PF z) l2 -> fin a (lastpv (PF z) l2) ->
  exists s' F', add_to_free_list c s p = Ok s' /\
    INV s' (X ++ (a, l1 ++ Tile p z KFree :: l2) :: Y) M D F' /\
    quiet (X ++ (a, l1 ++ Tile p z KLoose :: l2) :: Y) M s s' /\ arenas s' = arenas s.
Proof.
  intros (H & L & K) Pv H2 Hf. set (Ts := X ++ (a, l1 ++ Tile p z KLoose :: l2) :: Y) in *.
  set (Ts' := X ++ (a, l1 ++ Tile p z KFree :: l2) :: Y).
  pose proof (CH_GEO _ _ _ _ H) as G.
  assert (It : In (Tile p z KLoose) (tiles Ts)) by (apply in_mid; auto).
  pose proof (tile_facts c W _ _ _ G It) as Ft. cbn [tp tsz] in Ft.
  pose proof (bkt_ok z ltac:(lia)) as (Bk & _ & _).
  assert (H' : CH c s Ts' M).
  { apply (CH_relabel s X a l1 (Tile p z KLoose) l2 Y M KFree); auto. cbn [tp tsz tk].
    destruct (ch_hok _ _ _ _ _ _ _ _ _ H) as (A & _). rewrite Pv in A |- *. destruct A as (h & A1 & A2 & A3 & A4 & A5).
    exists h. cbn in *. tauto. }
  destruct (ch_hok _ _ _ _ _ _ _ _ _ H) as ((h & Hh & Hal & Hmm & Hk & Hpv) & _). cbn [tp tsz tk] in *.
  pose proof (CH_GEO _ _ _ _ H') as G'.
  assert (It' : In (Tile p z KFree) (tiles Ts')) by (apply in_mid; auto).
  set (b := bkt z) in *. set (F' := updn F b (F b ++ [p])).
  assert (Np : forall b, ~ In p (F b)) by (intros b0; apply (lk_off_free _ _ _ _ b0 (Tile p z KLoose) G K It); discriminate).
  assert (Npd : ~ In p (map fst D)) by (apply (lk_off_delay _ _ _ _ (Tile p z KLoose) G K It); discriminate).
  assert (K' : LK Ts' D F').
  { unfold Ts'. change (l1 ++ Tile p z KFree :: l2) with (l1 ++ [Tile p z KFree] ++ l2).
    eapply (LK_seg X a a l1 [Tile p z KLoose]); try exact G; try exact K.
    - intros b0 q. unfold F', updn. destruct (b0 =? b)%nat eqn:E.
      + apply Nat.eqb_eq in E; subst b0. split.
        * intros I. apply in_app_or in I as [I|[<-|[]]]; [right; split; auto; intros [<-|[]]; eapply Np; eauto|].
          left. exists z. split; [left|]; reflexivity.
        * intros [(z0 & [E|[]] & _)|[I N]]; [injection E as <- <-; apply in_or_app; right; left; auto | apply in_or_app; auto].
      + split.
        * intros I. right. split; auto. intros [<-|[]]. eapply Np; eauto.
        * intros [(z0 & [E'|[]] & B)|[I N]]; [|auto]. injection E' as <- <-. exfalso. apply Nat.eqb_neq in E. apply E. symmetry. exact B.
    - intros b0. unfold F', updn. destruct (b0 =? b)%nat; [|apply (lk_nodup _ _ _ K)].
      apply (Permutation_NoDup (Permutation_cons_append (F b) p)). constructor; [apply Np | apply (lk_nodup _ _ _ K)].
    - intros q z0. split.
      + intros I. right. split; auto. intros [<-|[]]. apply (in_map fst) in I. auto.
      + intros [[E|[]]|[I _]]; [discriminate | auto].
    - apply (lk_dnodup _ _ _ K). }
  assert (FU : forall b0 q, In q (F b0) -> b0 <> b -> ~ In q (F b)).
  { intros b0 q I N J. apply (lk_free _ _ _ K) in I as (z1 & I & Z1). apply (lk_free _ _ _ K) in J as (z2 & J & Z2).
    pose proof (tile_unique c W _ _ _ _ G I J eq_refl) as E'. injection E' as ->. congruence. }
  assert (FD : forall b0 q, In q (F b0) -> ~ In q (map fst D)).
  { intros b0 q I J. apply (lk_free _ _ _ K) in I as (z1 & I & Z1).
    revert J. apply (lk_off_delay _ _ _ _ (Tile q z1 KFree) G K I). discriminate. }
  unfold add_to_free_list, geth. rewrite Hh. cbn [of_option bind]. unfold bucket_index. rewrite Hal, Bk. cbn [bind].
  destruct (setnext_ok s p h 0 Hh) as (s1 & E1 & E2 & E3 & E4). rewrite E1. cbn [bind]. rewrite E2. cbn [of_option bind].
  assert (Q1 : quiet Ts M s s1) by (eapply (quiet_setnext s Ts M (Tile p z KLoose)); eauto).
  assert (T1 : touch s s1 F').
  { intros q. destruct (Z.eq_dec q p) as [->|N]; [right|left; auto]. exists b, h, (set_nxt h 0). unfold F', updn. rewrite Nat.eqb_refl.
    repeat split; auto. apply in_or_app; cbn; auto. }
  assert (H1 : CH c s1 Ts' M) by (apply (CH_touch s s1 Ts' M D F'); auto; rewrite E4; reflexivity).
  assert (LLs : last s1 b = List.last (F b) 0) by (rewrite E4; cbn; apply (ls_last _ _ _ L)).
  assert (Sub : forall x, LB Ts M x -> LB Ts' M x) by (intros x; apply LB_same; reflexivity).
  rewrite LLs.
  destruct (nonempty_last (F b)) as [En|(L' & u & En)].
  - rewrite En. cbn [List.last]. change (0 =? 0) with true. cbn [bind]. eexists _, F'. split; [reflexivity|].
    match goal with |- INV ?x _ _ _ _ /\ _ => set (s' := x) end.
    assert (Hp : forall q, hd s' q = if q =? p then Some (set_prv (set_nxt h 0) 0) else hd s1 q) by reflexivity.
    split; [|split].
    + split; [|split; auto].
      * apply (CH_touch s1 s' Ts' M D F'); auto. intros q. rewrite Hp. destruct (q =? p) eqn:E; [right|left; auto].
        apply Z.eqb_eq in E; subst q. eexists b, _, _. split; [|split; [exact E2|split; [reflexivity|repeat split]]].
        unfold F', updn. rewrite Nat.eqb_refl. apply in_or_app; cbn; auto.
      * split.
        -- intros b0. unfold s'. cbn. rewrite E4. cbn. unfold updn, F', updn. destruct (b0 =? b)%nat; [rewrite En; reflexivity | apply (ls_front _ _ _ L)].
        -- intros b0. unfold s'. cbn. rewrite E4. cbn. unfold updn, F', updn. destruct (b0 =? b)%nat; [rewrite En; reflexivity | apply (ls_last _ _ _ L)].
        -- intros b0. unfold F', updn. destruct (b0 =? b)%nat eqn:Eb.
           ++ rewrite En. cbn [app dseg List.hd]. split; auto. rewrite Hp, Z.eqb_refl. eexists. split; [reflexivity|]. split; reflexivity.
           ++ eapply dseg_pres; [|apply (ls_dll _ _ _ L b0)]. intros q hq Iq J. exists hq. rewrite Hp.
              assert (q <> p) by (intros ->; eapply Np; eauto). replace (q =? p) with false by lia. rewrite E3; auto.
        -- unfold s'; cbn. rewrite E4. apply (ls_dfront _ _ _ L).
        -- eapply sseg_pres; [|apply (ls_sll _ _ _ L)]. intros q hq Iq J. exists hq. rewrite Hp.
           assert (q <> p) by (intros ->; auto). replace (q =? p) with false by lia. rewrite E3; auto.
        -- unfold s'; cbn. rewrite E4. apply (ls_dlast _ _ _ L).
        -- unfold s'; cbn. rewrite E4. apply (ls_dn _ _ _ L).
        -- unfold s'; cbn. rewrite E4. apply (ls_db _ _ _ L).
    + eapply quiet_trans1; [exact Q1|]. eapply quiet_sub; [exact Sub|].
      eapply quiet_trans1; [apply (quiet_seth s1 Ts' M (Tile p z KFree)); auto|]. apply quiet_mem; reflexivity.
    + unfold s'; cbn. rewrite E4. reflexivity.
  - rewrite En, last_app1.
    assert (Iu : In u (F b)) by (rewrite En; apply in_or_app; cbn; auto).
    destruct (proj1 (lk_free _ _ _ K b u) Iu) as (zu & Iu' & Zu).
    pose proof (tile_facts c W _ _ _ G Iu') as Fu. cbn in Fu. replace (u =? 0) with false by lia.
    assert (Nup : u <> p) by (intros ->; eapply Np; eauto).
    destruct (dseg_in _ _ _ _ u (ls_dll _ _ _ L b) Iu) as (hu & Hu & _).
    set (s2 := seth c s1 p (set_prv (set_nxt h 0) u)).
    assert (H2u : hd s2 u = Some hu) by (unfold s2; rewrite hd_seth_ne, E3; auto).
    destruct (setnext_ok s2 u hu p H2u) as (s3 & G1 & G2 & G3 & G4). rewrite G1. cbn [bind].
    eexists _, F'. split; [reflexivity|].
    match goal with |- INV ?x _ _ _ _ /\ _ => set (s' := x) end.
    assert (Hp : hd s' p = Some (set_prv (set_nxt h 0) u)) by (unfold s'; cbn; rewrite G3 by auto; apply hd_seth_eq).
    assert (Hu' : hd s' u = Some (set_nxt hu p)) by exact G2.
    assert (Ho : forall q, q <> p -> q <> u -> hd s' q = hd s q).
    { intros q N1 N2. unfold s'; cbn. rewrite G3 by auto. unfold s2. rewrite hd_seth_ne by auto. auto. }
    assert (Iu2 : In (Tile u zu KFree) (tiles Ts')).
    { apply in_mid. right. apply in_mid in Iu' as [E|Iu']; [discriminate | exact Iu']. }
    assert (IFp : In p (F' b)) by (unfold F', updn; rewrite Nat.eqb_refl; apply in_or_app; cbn; auto).
    assert (IFu : In u (F' b)) by (unfold F', updn; rewrite Nat.eqb_refl; apply in_or_app; cbn; auto).
    assert (Hs2 : CH c s2 Ts' M).
    { apply (CH_touch s1 s2 Ts' M D F'); auto. intros q. destruct (Z.eq_dec q p) as [->|N]; [right | left; unfold s2; rewrite hd_seth_ne; auto].
      eexists b, _, _. split; [exact IFp|]. split; [exact E2|]. unfold s2. rewrite hd_seth_eq. split; [reflexivity|]. repeat split. }
    split; [|split].
    + split; [|split; auto].
      * apply (CH_touch s2 s' Ts' M D F'); auto; try (unfold s'; cbn; rewrite G4; reflexivity).
        intros q. change (hd s' q) with (hd s3 q). destruct (Z.eq_dec q u) as [->|N]; [right | left; auto].
        eexists b, _, _. split; [exact IFu|]. split; [exact H2u|]. split; [exact G2|]. repeat split.
      * assert (Sl : same_lists s1 s3) by (rewrite G4; repeat split).
        destruct Sl as (S1 & S2 & S3 & S4 & S5 & S6). rewrite E4 in S1, S2, S3, S4, S5, S6. cbn in S1, S2, S3, S4, S5, S6.
        split.
        -- intros b0. unfold s'. cbn. rewrite S1, (ls_front _ _ _ L). unfold F', updn. destruct (b0 =? b)%nat eqn:Eb; [|reflexivity].
           apply Nat.eqb_eq in Eb; subst b0. rewrite En. destruct L'; reflexivity.
        -- intros b0. unfold s'. cbn. rewrite S2. unfold updn, F', updn. destruct (b0 =? b)%nat; [rewrite last_app1; reflexivity | apply (ls_last _ _ _ L)].
        -- intros b0. unfold F', updn. destruct (b0 =? b)%nat eqn:Eb.
           ++ apply dseg_app. split.
              ** cbn [List.hd]. pose proof (ls_dll _ _ _ L b) as Dl. rewrite En in Dl |- *. eapply dseg_setlast; [exact Dl | | exact Hu | exact Hu' |].
                 --- pose proof (lk_nodup _ _ _ K b) as Nd. rewrite En in Nd. apply NoDup_remove_2 in Nd. rewrite app_nil_r in Nd. exact Nd.
                 --- intros q Iq. apply Ho; [intros ->; apply (Np b); rewrite En; apply in_or_app; auto|].
                     intros ->. pose proof (lk_nodup _ _ _ K b) as Nd. rewrite En in Nd. apply NoDup_remove_2 in Nd. rewrite app_nil_r in Nd. auto.
              ** rewrite En, last_app1. cbn [dseg List.hd]. split; auto. exists (set_prv (set_nxt h 0) u). split; [exact Hp|]. split; reflexivity.
           ++ apply Nat.eqb_neq in Eb. eapply dseg_pres; [|apply (ls_dll _ _ _ L b0)]. intros q hq Iq J. exists hq.
              rewrite Ho; auto; [intros ->; eapply Np; eauto | intros ->; eapply FU; eauto].
        -- unfold s'; cbn. rewrite S3. apply (ls_dfront _ _ _ L).
        -- eapply sseg_pres; [|apply (ls_sll _ _ _ L)]. intros q hq Iq J. exists hq.
           rewrite Ho; auto; [intros ->; auto | intros ->; eapply FD; eauto].
        -- unfold s'; cbn. rewrite S4. apply (ls_dlast _ _ _ L).
        -- unfold s'; cbn. rewrite S5. apply (ls_dn _ _ _ L).
        -- unfold s'; cbn. rewrite S6. apply (ls_db _ _ _ L).
    + eapply quiet_trans1; [exact Q1|]. eapply quiet_sub; [exact Sub|].
      eapply quiet_trans1; [apply (quiet_seth s1 Ts' M (Tile p z KFree)); auto|]. fold s2.
      eapply quiet_trans1; [eapply (quiet_setnext s2 Ts' M (Tile u zu KFree)); eauto|]. apply quiet_mem; reflexivity.
    + unfold s'; cbn. rewrite G4. cbn. rewrite E4. reflexivity.
Unshelve. exact h.
Qed.
End Lists.
