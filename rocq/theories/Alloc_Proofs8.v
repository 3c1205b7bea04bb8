(** Taking a chunk from the free lists. *)
From Coq Require Import Permutation.
From Verif Require Import Base Alloc_Model Alloc_Inv Alloc_Proofs Alloc_Proofs2 Alloc_Proofs3 Alloc_Proofs4 Alloc_Proofs5 Alloc_Proofs6 Alloc_Proofs7.
Open Scope Z_scope.

Section Find.
Context (c : cfg) (W : wfc c).
Notation g := (inter c).
Notation INV := (INV c).

(** *** the search ends *)
Lemma laid_len p l q : laid c p l q -> Forall num l -> Z.of_nat (length l) <= q - p.
Proof.
  pose proof (g_rng c W). revert p; induction l; cbn [laid length]; intros p L N; [lia|].
  apply Forall_cons_iff in N as [[A _] N]. destruct L as [_ L]. apply IHl in L; auto. lia.
Qed.
Lemma tiles_len s Ts M : CH c s Ts M -> (length (tiles Ts) <= Z.to_nat (heap_bytes s))%nat.
Proof.
  intros H. unfold heap_bytes. rewrite (ch_arenas _ _ _ _ H). pose proof (ch_ok _ _ _ _ H) as O. clear H.
  assert (Q : Z.of_nat (length (tiles Ts)) <= fold_right (fun a n => Z.max 0 (a_next a - a_start a) + n) 0 (map fst Ts)).
  { induction Ts as [|[a l] Ts IH]; [cbn; lia|]. apply Forall_cons_iff in O as [[_ La Nm _ _] O]. cbn [fst snd] in *.
    rewrite tiles_cons, app_length. cbn [map fold_right fst]. pose proof (laid_len _ _ _ La Nm). specialize (IH O). lia. }
  lia.
Qed.
Lemma free_len s Ts M D F b : INV s Ts M D F -> (length (F b) <= Z.to_nat (heap_bytes s))%nat.
Proof.
  intros (H & L & K). etransitivity; [|eapply tiles_len; eauto]. rewrite <- (map_length tp).
  apply NoDup_incl_length; [apply (lk_nodup _ _ _ K)|]. intros p I. apply (lk_free _ _ _ K) in I as (z & I & _).
  apply in_map_iff. eexists. split; [|exact I]. reflexivity.
Qed.
Lemma search_gen s Ts M aligned : CH c s Ts M -> forall l b pv fuel, dseg s pv l 0 -> (length l < fuel)%nat ->
  (forall p, In p l -> exists z, In (Tile p z KFree) (tiles Ts) /\ bkt z = b) ->
  exists p, search_from fuel s (List.hd 0 l) aligned = Ok p /\
    (p = 0 \/ exists z, In (Tile p z KFree) (tiles Ts) /\ bkt z = b /\ aligned <= z).
Proof.
  intros H l b. pose proof (CH_GEO _ _ _ _ H) as G. induction l as [|p l IH]; intros pv fuel Dl Le Hin; (destruct fuel; [cbn in Le; lia|]); cbn [search_from List.hd].
  - exists 0. auto.
  - destruct (Hin p) as (z & It & Bz); [left; auto|]. pose proof (tile_facts c W _ _ _ G It) as Ft. cbn [tp tsz] in Ft.
    replace (p =? 0) with false by lia. cbn [dseg] in Dl. destruct Dl as ((h & Hh & _ & Hn) & Dl).
    unfold geth. rewrite Hh. cbn [of_option bind].
    destruct (ch_tile _ _ _ _ _ H It) as (w & h0 & E0 & Al & _). cbn [tp tsz] in *. assert (h0 = h) as -> by congruence.
    rewrite Al. destruct (z <? aligned) eqn:E.
    + rewrite Hn. eapply IH; eauto; [cbn in Le; lia|]. intros q J. apply Hin. right; auto.
    + exists p. split; auto. right. exists z. repeat split; auto. lia.
Qed.
Lemma search_ok s Ts M D F b aligned : INV s Ts M D F ->
  exists p, search_from (S (Z.to_nat (heap_bytes s))) s (front s b) aligned = Ok p /\
    (p = 0 \/ exists z, In (Tile p z KFree) (tiles Ts) /\ bkt z = b /\ aligned <= z).
Proof.
  intros I. pose proof (free_len _ _ _ _ _ b I) as Le. destruct I as (H & L & K). rewrite (ls_front _ _ _ L).
  eapply search_gen; eauto; [apply (ls_dll _ _ _ L b) | lia |]. intros p J. apply (lk_free _ _ _ K); auto.
Qed.

(** *** buckets *)
Lemma bucket_mono a b : (a <= b <= 16)%nat -> bucket_size a <= bucket_size b.
Proof.
  intros [A B]. unfold bucket_size.
  assert (Q : forallb (fun i => forallb (fun j => negb (i <=? j)%nat || (nth i free_list_sizes 0 <=? nth j free_list_sizes 0)) (seq 0 17)) (seq 0 17) = true) by reflexivity.
  rewrite forallb_forall in Q. specialize (Q a). rewrite forallb_forall in Q. assert (In a (seq 0 17)) by (apply in_seq; lia).
  assert (In b (seq 0 17)) by (apply in_seq; lia). specialize (Q H b H0). apply Nat.leb_le in A. rewrite A in Q. cbn [negb orb] in Q. lia.
Qed.
Lemma bucket_up_ok sz k : forall b, (b + k = 16)%nat -> (b <= bucket_up sz k b <= 16)%nat /\ ((bucket_up sz k b < 16)%nat -> sz <= bucket_size (bucket_up sz k b)).
Proof.
  induction k as [|k IH]; intros b E; cbn [bucket_up].
  - split; lia.
  - destruct (bucket_size b <? sz) eqn:Q.
    + destruct (IH (S b)) as [A B]; [lia|]. split; [lia | auto].
    + split; [lia|]. intros _. apply Z.ltb_ge in Q. exact Q.
Qed.
Lemma bucket_nonempty_ok s k : forall b, (b + k = 16)%nat -> (b <= bucket_nonempty s k b <= 16)%nat.
Proof.
  induction k as [|k IH]; intros b E; cbn [bucket_nonempty]; [lia|].
  destruct (front s b =? 0); [|lia]. specialize (IH (S b)). lia.
Qed.

(** taking the first of a bucket is [remove_from_free_list] *)
Lemma take_front s Ts M D F b p : INV s Ts M D F -> In p (F b) -> front s b = p ->
  (let* h := geth s p in
   let s := with_front s (updn (front s) b (h_nxt h)) in
   if p =? last s b then Ok (with_last s (updn (last s) b (h_nxt h)), p)
   else let* hn := geth s (h_nxt h) in Ok (seth c s (h_nxt h) (set_prv hn 0), p)) =
  (let* s := remove_from_free_list c s p (Some b) in Ok (s, p)).
Proof.
  intros (H & L & K) I E. rewrite (ls_front _ _ _ L) in E. pose proof (ls_dll _ _ _ L b) as Dl. pose proof (lk_nodup _ _ _ K b) as Nd.
  destruct (F b) as [|p0 l] eqn:EF; [destruct I|]. cbn in E. subst p0. cbn [dseg] in Dl. destruct Dl as ((h & Hh & Hp & Hn) & Dl).
  unfold remove_from_free_list, geth at 1 3. rewrite Hh. cbn [of_option bind]. rewrite Hp. cbn [of_option bind].
  change (0 =? 0) with true. cbn [bind].
  cbn [last with_front]. rewrite (ls_last _ _ _ L), EF, last_cons'.
  assert (NZ : forall q, In q (p :: l) -> q <> 0).
  { intros q J. rewrite <- EF in J. apply (lk_free _ _ _ K) in J as (z & J & _). pose proof (tile_facts c W _ _ _ (CH_GEO _ _ _ _ H) J) as Ft. cbn in Ft. lia. }
  apply NoDup_cons_iff in Nd as [Nd1 Nd2].
  destruct l as [|n l].
  - cbn [List.last List.hd] in *. rewrite Z.eqb_refl, Hn. reflexivity.
  - assert (List.last (n :: l) p <> p).
    { intros E. apply Nd1. rewrite <- E. destruct (@exists_last _ (n :: l)) as (l' & u & ->); [discriminate|]. rewrite last_last. apply in_or_app; cbn; auto. }
    replace (p =? List.last (n :: l) p) with false by lia. cbn [List.hd] in Hn. rewrite Hn.
    replace (n =? 0) with false by (symmetry; apply Z.eqb_neq; apply NZ; cbn; auto).
    unfold geth. cbn [hd with_front]. destruct (hd s n); reflexivity.
Qed.

(** *** the split *)
Lemma inside_no_tile Ts M t u q : GEO c Ts M -> In t (tiles Ts) -> In u (tiles Ts) -> tp t < q < tp t + tsz t + g -> tp u <> q.
Proof.
  intros G It Iu Hq E. destruct (tiles_split _ _ It) as (X & a & l1 & l2 & Y & ->). pose proof (g_rng c W).
  apply in_mid in Iu as [->|Iu]; [lia|]. pose proof (apart c W _ _ _ _ _ _ _ _ G Iu). pose proof (tile_facts c W _ _ _ G It).
  assert (Iu' : In u (tiles (X ++ (a, l1 ++ t :: l2) :: Y))) by (apply in_mid; auto).
  pose proof (tile_facts c W _ _ _ G Iu'). lia.
Qed.
Lemma off_lists Ts M D F t q : GEO c Ts M -> LK Ts D F -> In t (tiles Ts) -> tp t < q < tp t + tsz t + g ->
  (forall b, ~ In q (F b)) /\ ~ In q (map fst D).
Proof.
  intros G K It Hq. split.
  - intros b I. apply (lk_free _ _ _ K) in I as (z & I & _). exact (inside_no_tile _ _ _ _ _ G It I Hq eq_refl).
  - intros I. apply in_map_iff in I as ([q0 z] & E & I). cbn in E; subst q0. apply (lk_delay _ _ _ K) in I.
    exact (inside_no_tile _ _ _ _ _ G It I Hq eq_refl).
Qed.
Lemma quiet_inside s Ts M t q h : CH c s Ts M -> In t (tiles Ts) -> live t = false -> tp t + g <= q <= tp t + tsz t -> quiet Ts M s (seth c s q h).
Proof.
  intros H I Lv Hq. split; [|reflexivity]. apply keep_seth; [exact W|]. intros x L Hx.
  destruct (LB_clear c W s Ts M t x H I L) as [A B]. pose proof (g_rng c W). specialize (B Lv). lia.
Qed.
Lemma quiet_again Ts M s s1 q h : quiet Ts M s s1 -> quiet Ts M s (seth c s q h) -> quiet Ts M s (seth c s1 q h).
Proof.
  intros [A1 A2] [B1 B2]. split; [|exact A2]. intros x Lx. specialize (A1 x Lx). specialize (B1 x Lx).
  unfold seth, scribble in *. cbn [mem with_mem with_hd] in *. destruct (_ && _); [exact B1 | exact A1].
Qed.
Lemma seth_arenas s p h : arenas (seth c s p h) = arenas s.
Proof. reflexivity. Qed.

(** alloc_replace.c [split_piece_for_free_list], the rest of a chunk *)
Lemma split_rest o s X a l1 p z l2 Y M D F aligned :
  INV s (X ++ (a, l1 ++ Tile p z KLoose :: l2) :: Y) M D F -> NL (others X l1 l2 Y) -> (forall u, In u (others X l1 l2 Y) -> tk u <> KHeld) ->
  lastpv PN l1 = PN -> 16 <= aligned -> aligned mod 16 = 0 -> aligned + 16 + g < z ->
  exists s' Ts' F', split_piece c o s 0 p (p + aligned + g) (z - (aligned + g)) aligned = Ok s' /\
    INV s' Ts' M D F' /\ noloose Ts' /\
    solid Ts' = solid (X ++ (a, l1 ++ Tile p aligned KHeld :: l2) :: Y) /\
    quiet (X ++ (a, l1 ++ Tile p z KLoose :: l2) :: Y) M s s' /\
    (length Ts' <= length (X ++ (a, l1 ++ Tile p z KLoose :: l2) :: Y))%nat.
Proof.
  intros (H & L & K) SL SH Pv Ha Hm Hz. set (Ts := X ++ (a, l1 ++ Tile p z KLoose :: l2) :: Y) in *.
  pose proof (CH_GEO _ _ _ _ H) as G. pose proof (g_rng c W) as Gr.
  assert (It : In (Tile p z KLoose) (tiles Ts)) by (apply in_mid; auto).
  pose proof (tile_facts c W _ _ _ G It) as Ft. cbn [tp tsz] in Ft.
  destruct (ch_hok _ _ _ _ _ _ _ _ _ H) as ((h & Hh & Hal & Hmm & Hk & Hpv) & Hl1 & H2 & Hf). cbn [tp tsz tk pvof] in *.
  rewrite Pv in Hpv. cbn in Hpv. destruct Hk as (Hk1 & Hk2 & Hk3).
  unfold split_piece, geth. rewrite Hh. cbn [of_option bind].
  set (fp := p + aligned + g). set (fz := z - (aligned + g)).
  assert (Uz : u32 fz = fz) by (apply Z.mod_small; unfold fz; lia).
  assert (Ua : u32 aligned = aligned) by (apply Z.mod_small; lia).
  rewrite Uz, Ua. set (s1 := seth c s p (set_alloc h aligned)).
  set (fh := match hd s1 fp with Some x => x | None => blank_hdr c fp end).
  set (nh := Hdr fz true (h_mmap h) (h_pfree h) (h_delay h) (h_skip h) (h_type h) (h_diff (set_diff fh 0)) (h_shr (set_diff fh 0)) (h_prv (set_diff fh 0)) (h_nxt (set_diff fh 0)) (h_far (set_diff fh 0))).
  set (s2 := seth c s1 fp nh).
  set (T1 := Tile p aligned KHeld). set (T2 := Tile fp fz KLoose).
  set (Ts2 := X ++ (a, (l1 ++ [T1]) ++ T2 :: l2) :: Y).
  assert (ET : Ts2 = X ++ (a, l1 ++ [T1; T2] ++ l2) :: Y) by (unfold Ts2; rewrite <- app_assoc; reflexivity).
  assert (Off : (forall b, ~ In fp (F b)) /\ ~ In fp (map fst D)).
  { eapply (off_lists Ts M D F (Tile p z KLoose)); eauto. cbn [tp tsz]. unfold fp. lia. }
  assert (I2 : INV s2 Ts2 M D F).
  { split; [|split].
    - rewrite ET. apply (CH_seg c W s s2 X a a l1 [Tile p z KLoose] [T1; T2] l2 Y M); try reflexivity.
      + exact H.
      + unfold s2, s1. rewrite !seth_arenas, (ch_arenas _ _ _ _ H). unfold Ts. rewrite map_app. reflexivity.
      + repeat split.
      + intros p0 q0. cbn [laid tp tsz T1 T2]. intros (-> & <-). unfold fp, fz. repeat split; lia.
      + repeat constructor; cbn [tsz T1 T2]; auto; unfold fz; try lia. apply mod16_sub; [tauto|]. apply mod16_add; auto. apply (g_mod c W).
      + intros p0 N. cbn [map tp T1 T2 In] in N. unfold s2, s1. rewrite !hd_seth_ne; auto.
      + rewrite Pv. cbn [heads pvof tk T1]. split; [|split; [|exact I]].
        * unfold hok. cbn [tp T1]. unfold s2, s1. rewrite hd_seth_ne by (unfold fp; lia). rewrite hd_seth_eq.
          exists (set_alloc h aligned). cbn. repeat split; auto.
        * unfold hok. cbn [tp T2]. unfold s2. rewrite hd_seth_eq. exists nh. cbn. repeat split; auto.
      + exact H2.
      + exact Hf.
      + intros t d ty sk [<-|[]]; discriminate.
    - unfold s2. apply LS_seth.
      + unfold s1. apply LS_seth; auto. intros h0 E. assert (h0 = h) as -> by congruence. split; [reflexivity | right; reflexivity].
      + intros h0 E. split; [|left; apply Off]. unfold nh, fh. rewrite E. reflexivity.
    - rewrite ET. eapply (LK_seg_same c W X a a l1 [Tile p z KLoose]); try exact G; try exact K; [intros t [<-|[]]; reflexivity|].
      intros t [<-|[<-|[]]]; reflexivity. }
  assert (Q2 : quiet Ts M s s2).
  { apply quiet_again; [apply (quiet_seth c W s Ts M (Tile p z KLoose)); auto|].
    apply (quiet_inside s Ts M (Tile p z KLoose) fp nh H It eq_refl). cbn [tp tsz]; unfold fp; lia. }
  assert (SL2 : NL (others X (l1 ++ [T1]) l2 Y)).
  { unfold others in *. rewrite !NL_app in *. split; [tauto|]. split; [|tauto]. split; [|tauto]. split; [tauto|]. apply NL_cons. split; [discriminate | intros t []]. }
  assert (Hn : forall n l', l2 = n :: l' -> tk n <> KHeld).
  { intros n l' ->. apply SH. unfold others. rewrite !in_app_iff. cbn. auto. }
  destruct (release c W o s2 X a (l1 ++ [T1]) fp fz l2 Y M D F 0 I2 SL2 (Nat.le_0_l _) Hn) as (s' & r & Ts' & F' & R1 & R2 & R3 & R4 & R5 & R6 & R7).
  exists s', Ts', F'. match goal with |- context [coalesce c o ?x 0 fp] => change x with s2 end. rewrite R1. cbn [bind].
  split; [|split; [exact R3|split; [exact R4|split; [|split]]]].
  - destruct r as [s3 [q|]]; [|subst s3; reflexivity]. destruct R2 as (s4 & E1 & E2). rewrite E1. cbn [bind]. exact E2.
  - rewrite R6. rewrite !solid_at, filter_app. cbn. rewrite <- !app_assoc. reflexivity.
  - eapply (quiet_lives Ts Ts2); [exact Q2 | | exact R7]. unfold Ts, Ts2. rewrite !lives_at, filter_app. cbn. rewrite app_nil_r. reflexivity.
  - etransitivity; [exact R5|]. unfold Ts. rewrite !app_length. cbn. lia.
Qed.

(** the flags of the chunk that is handed out *)
Definition activate (s : state) (i : nat) (p : Z) : res state :=
  let* h := geth s p in
  let s := seth c s p (set_type (set_freed h false) 0) in
  let* nx := next_chunk_forward c s i p in
  match nx with
  | Next n => let* hn := geth s n in Ok (seth c s n (set_pfree hn false))
  | Ends j => Ok (upd_arena s j (fun a => set_a_pfsz a 0))
  | Nowhere => Ok s
  end.
Lemma next_gen s X a l1 t l2 Y M i h : arenas s = map fst (X ++ (a, l1 ++ t :: l2) :: Y) -> GEO c (X ++ (a, l1 ++ t :: l2) :: Y) M ->
  (i <= length X)%nat -> hd s (tp t) = Some h -> h_alloc h = tsz t ->
  next_chunk_forward c s i (tp t) = Ok (match l2 with [] => Ends (length X) | n :: _ => Next (tp n) end).
Proof.
  intros Ea G Hi A B. unfold next_chunk_forward, geth. rewrite A. cbn [of_option bind].
  rewrite (container_at c W s X a l1 t l2 Y M i Ea G Hi).
  destruct (arena_in_GEO _ _ _ _ _ _ G) as (_ & L & N). cbn [fst snd] in L, N. apply laid_mid in L as [_ L].
  rewrite Forall_app, Forall_cons_iff in N. destruct N as (_ & _ & N). rewrite B.
  destruct l2 as [|n l2].
  - cbn in L. rewrite <- L, Z.ltb_irrefl. reflexivity.
  - destruct L as [E L]. apply Forall_cons_iff in N as [[N1 N2] N]. apply (laid_le c W) in L; auto. pose proof (g_rng c W).
    rewrite E. replace (_ <? _) with true by lia. reflexivity.
Qed.
Lemma activate_ok s X a l1 p z l2 Y M D F i :
  INV s (X ++ (a, l1 ++ Tile p z KLoose :: l2) :: Y) M D F -> NL (others X l1 l2 Y) -> (i <= length X)%nat ->
  exists s' a' d, activate s i p = Ok s' /\
    INV s' (X ++ (a', l1 ++ Tile p z (KLive d 0 false) :: l2) :: Y) M D F /\
    quiet (X ++ (a, l1 ++ Tile p z KLoose :: l2) :: Y) M s s'.
Proof.
  intros (H & L & K) SL Hi. set (Ts := X ++ (a, l1 ++ Tile p z KLoose :: l2) :: Y) in *.
  pose proof (CH_GEO _ _ _ _ H) as G. pose proof (g_rng c W) as Gr.
  assert (It : In (Tile p z KLoose) (tiles Ts)) by (apply in_mid; auto).
  destruct (ch_hok _ _ _ _ _ _ _ _ _ H) as ((h & Hh & Hal & Hmm & Hk & Hpv) & Hl1 & H2 & Hf). cbn [tp tsz tk pvof] in *.
  destruct Hk as (Hk1 & Hk2 & Hk3).
  assert (Npv : lastpv PN l1 <> PL).
  { unfold others in SL. rewrite !NL_app in SL. destruct SL as (_ & (SL & _) & _).
    destruct (lastpv_cases l1 SL) as [E|(? & ? & ? & _ & E)]; rewrite E; discriminate. }
  unfold activate. unfold geth at 1. rewrite Hh. cbn [of_option bind].
  set (h1 := set_type (set_freed h false) 0). set (s1 := seth c s p h1).
  set (T' := Tile p z (KLive (h_diff h) 0 false)).
  assert (Hok1 : hok1 (Some h1) (lastpv PN l1) T').
  { exists h1. cbn [tk tsz T']. split; [reflexivity|]. split; [exact Hal|]. split; [exact Hmm|]. split; [cbn; auto 10|].
    destruct (lastpv PN l1); cbn in *; auto. * split; [discriminate | tauto]. * contradiction. }
  assert (Nx : next_chunk_forward c s1 i p = Ok (match l2 with [] => Ends (length X) | n :: _ => Next (tp n) end)).
  { apply (next_gen s1 X a l1 (Tile p z KLoose) l2 Y M i h1); auto; [exact (ch_arenas _ _ _ _ H) | apply hd_seth_eq]. }
  rewrite Nx. cbn [bind].
  assert (Q1 : quiet Ts M s s1) by (apply (quiet_seth c W s Ts M (Tile p z KLoose)); auto).
  assert (L1 : LS s1 D F).
  { apply LS_seth; auto. intros h0 E. assert (h0 = h) as -> by congruence. split; [reflexivity | right; reflexivity]. }
  assert (KK : forall a', LK (X ++ (a', l1 ++ [T'] ++ l2) :: Y) D F).
  { intros a'. eapply (LK_seg_same c W X a a' l1 [Tile p z KLoose]); try exact G; try exact K; intros t [<-|[]]; reflexivity. }
  destruct l2 as [|n l2].
  - set (s2 := upd_arena s1 (length X) (fun a => set_a_pfsz a 0)). exists s2, (set_a_pfsz a 0), (h_diff h). split; [reflexivity|].
    split; [|eapply quiet_trans1; [exact Q1 | apply quiet_mem; reflexivity]].
    fold T'. split; [|split; [apply LS_upd_arena; auto | apply (KK (set_a_pfsz a 0))]].
    change (l1 ++ [T']) with (l1 ++ [T'] ++ []).
    apply (CH_seg c W s s2 X a (set_a_pfsz a 0) l1 [Tile p z KLoose] [T'] [] Y M); try reflexivity.
    + exact H.
    + unfold s2. apply (upd_arena_mid s1 X a Y (fun a => set_a_pfsz a 0)). unfold s1. rewrite seth_arenas, (ch_arenas _ _ _ _ H). unfold Ts. rewrite map_app. reflexivity.
    + repeat split.
    + intros p0 q0. cbn. auto.
    + constructor; [|constructor]. apply (tile_num c _ _ _ _ _ _ _ _ H).
    + intros p0 N. change (hd s2 p0) with (hd s1 p0). apply hd_seth_ne. intros ->. apply N. left; reflexivity.
    + cbn [heads]. split; [|exact I]. unfold hok. cbn [tp T']. change (hd s2 p) with (hd s1 p). unfold s1. rewrite hd_seth_eq. exact Hok1.
    + intros t d ty sk [<-|[]] E. left; reflexivity.
  - assert (ET : Ts = X ++ (a, (l1 ++ [Tile p z KLoose]) ++ n :: l2) :: Y) by (unfold Ts; rewrite <- app_assoc; reflexivity).
    pose proof H as H'. rewrite ET in H'. destruct (ch_hok _ _ _ _ _ _ _ _ _ H') as ((hn & Hhn & An & Mn & Kn & Pn) & _ & H3 & Hf3).
    assert (In_ : In n (tiles Ts)) by (rewrite ET; apply in_mid; auto).
    assert (Nnp : tp n <> p).
    { intros E. pose proof (tile_unique c W _ _ _ _ G It In_ E) as E'. subst n.
      unfold others in SL. rewrite !NL_app in SL. destruct SL as (_ & (_ & SL) & _). apply NL_cons in SL as [SL _]. apply SL; reflexivity. }
    unfold geth. unfold s1 at 1. rewrite hd_seth_ne by auto. rewrite Hhn. cbn [of_option bind].
    set (s2 := seth c s1 (tp n) (set_pfree hn false)). exists s2, a, (h_diff h). split; [reflexivity|].
    split.
    + fold T'. split; [|split; [|apply (KK a)]].
      * change (l1 ++ T' :: n :: l2) with (l1 ++ [T'; n] ++ l2).
        apply (CH_seg c W s s2 X a a l1 [Tile p z KLoose; n] [T'; n] l2 Y M); try reflexivity.
        -- exact H.
        -- unfold s2, s1. rewrite !seth_arenas, (ch_arenas _ _ _ _ H). unfold Ts. rewrite map_app. reflexivity.
        -- repeat split.
        -- intros p0 q0. cbn. auto.
        -- constructor; [apply (tile_num c _ _ _ _ _ _ _ _ H) | constructor; [apply (tile_num c _ _ _ _ _ _ _ _ H') | constructor]].
        -- intros p0 N. cbn [map tp T' In] in N. unfold s2, s1. rewrite !hd_seth_ne; auto.
        -- cbn [heads pvof T' tk]. split; [|split; [|exact I]].
           ++ unfold hok. cbn [tp T']. unfold s2, s1. rewrite hd_seth_ne by auto. rewrite hd_seth_eq. exact Hok1.
           ++ unfold hok. unfold s2. rewrite hd_seth_eq. exists (set_pfree hn false). cbn. repeat split; auto.
        -- exact H3.
        -- exact Hf3.
        -- intros t d ty sk [<-|[<-|[]]] E; [left; reflexivity | right; left; reflexivity].
      * unfold s2. apply LS_seth; auto. intros h0 E. unfold s1 in E. rewrite hd_seth_ne in E by auto. assert (h0 = hn) as -> by congruence. split; [reflexivity | right; reflexivity].
    + apply quiet_again; [exact Q1 | apply (quiet_seth c W s Ts M n (set_pfree hn false) H In_)].
Qed.

(** alloc_replace.c [find_free_list_entry] *)
Definition fresh_live (X : ats) (l1 l2 : list tile) (Y : ats) (Ts : ats) : Prop := filter live (others X l1 l2 Y) = lives Ts.
Lemma find_ok o s Ts M D F aligned : INV s Ts M D F -> settled Ts -> 16 <= aligned -> aligned mod 16 = 0 ->
  exists s' p, find_free_list_entry c o s 0 aligned = Ok (s', p) /\
    ((p = 0 /\ s' = s) \/
     exists X a l1 z d l2 Y F', p <> 0 /\ INV s' (X ++ (a, l1 ++ Tile p z (KLive d 0 false) :: l2) :: Y) M D F' /\
       settled (X ++ (a, l1 ++ Tile p z (KLive d 0 false) :: l2) :: Y) /\ aligned <= z /\ fresh_live X l1 l2 Y Ts /\ quiet Ts M s s' /\
       (length (X ++ (a, l1 ++ Tile p z (KLive d 0 false) :: l2) :: Y) <= length Ts)%nat).
Proof.
  intros I S Ha Hm. pose proof I as (H & L & K). pose proof (CH_GEO _ _ _ _ H) as G.
  unfold find_free_list_entry. set (b0 := bucket_up aligned 16 0). set (b := bucket_nonempty s (16 - b0) b0).
  destruct (bucket_up_ok aligned 16 0 eq_refl) as [B1 B2]. fold b0 in B1, B2.
  pose proof (bucket_nonempty_ok s (16 - b0) b0 ltac:(lia)) as B3. fold b in B3.
  (* the chunk taken *)
  assert (T : exists s1 p, (if front s b =? 0 then Ok (s, 0)
    else if (b =? 16)%nat then search_free_list_bucket c s aligned b
    else
      let p := front s b in
      let* h := geth s p in
      let s := with_front s (updn (front s) b (h_nxt h)) in
      if p =? last s b then Ok (with_last s (updn (last s) b (h_nxt h)), p)
      else let* hn := geth s (h_nxt h) in
           Ok (seth c s (h_nxt h) (set_prv hn 0), p)) = Ok (s1, p) /\
      ((p = 0 /\ s1 = s) \/ exists X a l1 z l2 Y F1, p <> 0 /\ Ts = X ++ (a, l1 ++ Tile p z KFree :: l2) :: Y /\ aligned <= z /\
         INV s1 (X ++ (a, l1 ++ Tile p z KLoose :: l2) :: Y) M D F1 /\ quiet Ts M s s1)).
  { assert (Rm : forall p z, In (Tile p z KFree) (tiles Ts) -> bkt z = b -> aligned <= z ->
      exists s1, remove_from_free_list c s p (Some b) = Ok s1 /\ exists X a l1 z l2 Y F1, p <> 0 /\ Ts = X ++ (a, l1 ++ Tile p z KFree :: l2) :: Y /\ aligned <= z /\
         INV s1 (X ++ (a, l1 ++ Tile p z KLoose :: l2) :: Y) M D F1 /\ quiet Ts M s s1).
    { intros p z It Bz Hz. pose proof (tile_facts c W _ _ _ G It) as Ft. cbn [tp tsz] in Ft.
      destruct (tiles_split _ _ It) as (X & a & l1 & l2 & Y & ET). rewrite ET in I.
      destruct (remove_free c W s X a l1 p z l2 Y M D F (Some b) I) as (s1 & F1 & R1 & R2 & R3 & _); [right; congruence|].
      exists s1. split; [exact R1|]. exists X, a, l1, z, l2, Y, F1. rewrite ET at 2. split; [lia|]. auto. }
    destruct (front s b =? 0) eqn:E0; [exists s, 0; auto|].
    destruct (b =? 16)%nat eqn:E16.
    - unfold search_free_list_bucket. destruct (search_ok s Ts M D F b aligned I) as (p & Sp & Q). rewrite Sp. cbn [bind].
      destruct (p =? 0) eqn:Ep; [exists s, 0; auto|]. destruct Q as [->|(z & It & Bz & Hz)]; [discriminate|].
      destruct (Rm p z It Bz Hz) as (s1 & R1 & R2). rewrite R1. cbn [bind]. exists s1, p. auto.
    - assert (Ip : In (front s b) (F b)).
      { rewrite (ls_front _ _ _ L) in *. destruct (F b); [discriminate | left; reflexivity]. }
      pose proof (take_front s Ts M D F b (front s b) I Ip eq_refl) as TF. cbv zeta in TF |- *. rewrite TF. clear TF.
      apply (lk_free _ _ _ K) in Ip as (z & It & Bz). pose proof (tile_facts c W _ _ _ G It) as Ft. cbn [tp tsz] in Ft.
      destruct (bkt_ok z ltac:(lia)) as (_ & Bb & _). rewrite Bz in Bb. apply Nat.eqb_neq in E16.
      pose proof (bucket_mono b0 b ltac:(lia)).
      destruct (Rm (front s b) z It Bz ltac:(lia)) as (s1 & R1 & R2). rewrite R1. cbn [bind]. exists s1, (front s b). auto. }
  destruct T as (s1 & p & E1 & T). cbv zeta in E1 |- *. rewrite E1. cbn [bind].
  destruct T as [[-> ->]|(X & a & l1 & z & l2 & Y & F1 & Np & ET & Hz & I1 & Q1)].
  { exists s, 0. split; [reflexivity | left; auto]. }
  replace (p =? 0) with false by lia.
  pose proof I1 as (H1 & _ & _). destruct (ch_hok _ _ _ _ _ _ _ _ _ H1) as ((h & Hh & Hal & _) & _). cbn [tp tsz] in Hh, Hal.
  unfold geth at 1. rewrite Hh. cbn [of_option bind]. rewrite Hal.
  rewrite ET in S. destruct (settled_others _ _ _ _ _ _ S) as [SL SH].
  assert (Pv : lastpv PN l1 = PN).
  { rewrite ET in H. destruct (ch_hok _ _ _ _ _ _ _ _ _ H) as ((h1 & _ & _ & _ & _ & Hv) & _). cbn [tk] in Hv.
    unfold others in SL. rewrite !NL_app in SL. destruct SL as (_ & (SL & _) & _).
    destruct (lastpv_cases l1 SL) as [E|(l0 & p0 & z0 & _ & E)]; auto. rewrite E in Hv. cbn in Hv. tauto. }
  (* the split *)
  assert (Sp : exists s2 X2 a2 l12 z2 l22 Y2 F2,
     (if aligned + CHUNK_MIN_SIZE + g <? z then split_piece c o s1 0 p (p + aligned + g) (z - (aligned + g)) aligned else Ok s1) = Ok s2 /\
     INV s2 (X2 ++ (a2, l12 ++ Tile p z2 KLoose :: l22) :: Y2) M D F2 /\ NL (others X2 l12 l22 Y2) /\ (forall u, In u (others X2 l12 l22 Y2) -> tk u <> KHeld) /\
     aligned <= z2 /\ filter live (others X2 l12 l22 Y2) = lives Ts /\ quiet Ts M s s2 /\ (length (X2 ++ (a2, l12 ++ Tile p z2 KLoose :: l22) :: Y2) <= length Ts)%nat).
  { assert (LE : filter live (others X l1 l2 Y) = lives Ts).
    { rewrite ET, lives_at. unfold others. rewrite !filter_app. reflexivity. }
    destruct (aligned + CHUNK_MIN_SIZE + g <? z) eqn:Ec.
    - unfold CHUNK_MIN_SIZE in Ec. destruct (split_rest o s1 X a l1 p z l2 Y M D F1 aligned I1 SL SH Pv Ha Hm ltac:(lia)) as (s2 & Ts2 & F2 & R1 & R2 & R3 & R4 & R5 & R6).
      assert (Ih : In (Tile p aligned KHeld) (tiles Ts2)).
      { assert (J : In (Tile p aligned KHeld) (solid Ts2)) by (rewrite R4; apply filter_In; split; [apply in_mid; auto | reflexivity]).
        apply filter_In in J. tauto. }
      destruct (tiles_split _ _ Ih) as (X2 & a2 & l12 & l22 & Y2 & ET2). subst Ts2.
      exists s2, X2, a2, l12, aligned, l22, Y2, F2. split; [exact R1|].
      destruct R2 as (C1 & C2 & C3).
      split; [split; [apply (CH_loosen c W s2 X2 a2 l12 (Tile p aligned KHeld) l22 Y2 M C1); auto|split; [exact C2|]]|].
      { eapply (LK_seg_same c W X2 a2 a2 l12 [Tile p aligned KHeld] [Tile p aligned KLoose]); [exact (CH_GEO _ _ _ _ C1) | exact C3 | intros t [<-|[]]; reflexivity | intros t [<-|[]]; reflexivity]. }
      split; [intros t It; apply R3; apply in_mid; auto|].
      assert (OS : filter solidk (others X2 l12 l22 Y2) = filter solidk (others X l1 l2 Y)).
      { assert (Q : forall l1 l2 (t : tile) m1 m2, l1 ++ t :: l2 = m1 ++ t :: m2 -> ~ In t (l1 ++ l2) -> l1 = m1 /\ l2 = m2).
        { clear. induction l1 as [|x l1 IH]; intros l2 t m1 m2 E N.
          - destruct m1 as [|y m1]; cbn in E; injection E; intros; subst; auto. exfalso. apply N. apply in_elt.
          - destruct m1 as [|y m1]; cbn in E; injection E; intros E2 E3; subst; [exfalso; apply N; left; auto|].
            destruct (IH _ _ _ _ E2) as [-> ->]; [intros J; apply N; right; auto | auto]. }
        rewrite !solid_at in R4. change (solidk (Tile p aligned KHeld)) with true in R4. cbv iota in R4.
        assert (R4' : (filter solidk (tiles X2) ++ filter solidk l12) ++ Tile p aligned KHeld :: (filter solidk l22 ++ filter solidk (tiles Y2)) =
                      (filter solidk (tiles X) ++ filter solidk l1) ++ Tile p aligned KHeld :: (filter solidk l2 ++ filter solidk (tiles Y))).
        { repeat rewrite <- app_assoc in R4. cbn [app] in R4. repeat rewrite <- app_assoc. repeat rewrite <- app_assoc in R4. cbn [app] in R4. exact R4. }
        apply Q in R4' as [Q1' Q2'].
        - unfold others. rewrite !filter_app. rewrite <- !app_assoc. rewrite app_assoc, Q1', Q2', <- !app_assoc. reflexivity.
        - rewrite <- !app_assoc. intros J.
          assert (J' : In (Tile p aligned KHeld) (others X2 l12 l22 Y2)).
          { unfold others. rewrite !in_app_iff in *. rewrite !filter_In in J. tauto. }
          exact (apart_ptr c W _ _ _ _ _ _ _ _ (CH_GEO _ _ _ _ C1) J' eq_refl). }
      split; [intros u Iu Ku; assert (J : In u (filter solidk (others X2 l12 l22 Y2))) by (apply filter_In; split; auto; unfold solidk; rewrite Ku; reflexivity);
              rewrite OS in J; apply filter_In in J as [J _]; apply (SH u J Ku)|].
      split; [lia|]. split.
      + rewrite <- LE. clear - OS.
        assert (Q : forall l, filter live l = filter live (filter solidk l)).
        { intros l. induction l as [|t l IH]; [reflexivity|]. cbn [filter]. unfold live, solidk. destruct (tk t) eqn:E; cbn [filter]; unfold live; rewrite ?E; cbn; fold live; rewrite ?IH; reflexivity. }
        rewrite Q, OS, <- Q. reflexivity.
      + split.
        * eapply quiet_lives; [exact Q1| |exact R5]. rewrite ET, !lives_at. reflexivity.
        * rewrite ET. etransitivity; [|etransitivity; [exact R6|]]; rewrite !app_length; cbn; lia.
    - exists s1, X, a, l1, z, l2, Y, F1. split; [reflexivity|]. split; [exact I1|]. split; [exact SL|]. split; [exact SH|]. split; [exact Hz|]. split; [exact LE|]. split; [exact Q1|].
      rewrite ET, !app_length. cbn. lia. }
  destruct Sp as (s2 & X2 & a2 & l12 & z2 & l22 & Y2 & F2 & E2 & I2 & SL2 & SH2 & Hz2 & LE2 & Q2 & Le2). rewrite E2. cbn [bind].
  destruct (activate_ok s2 X2 a2 l12 p z2 l22 Y2 M D F2 0 I2 SL2 (Nat.le_0_l _)) as (s3 & a3 & d & A1 & A2 & A3).
  exists s3, p. split.
  - unfold activate in A1. destruct (geth s2 p) as [h2| |]; cbn [bind] in A1 |- *; try discriminate.
    destruct (next_chunk_forward c _ 0 p) as [nx| |]; cbn [bind] in A1 |- *; try discriminate. rewrite A1. reflexivity.
  - right. exists X2, a3, l12, z2, d, l22, Y2, F2. split; [exact Np|]. split; [exact A2|]. split; [|split; [exact Hz2|split; [exact LE2|split]]].
    + intros t It. apply in_mid in It as [->|It]; [split; discriminate|]. split; [apply SL2 | apply SH2]; auto.
    + eapply quiet_lives; [exact Q2| |exact A3]. rewrite <- LE2, lives_at. unfold others. rewrite !filter_app. reflexivity.
    + rewrite !app_length in *. cbn [length] in *. lia.
Qed.
End Find.
