(** Histories of calls. *)
From Coq Require Import Permutation.
From Verif Require Import Base Alloc_Model Alloc_Spec Alloc_Inv Alloc_Proofs Alloc_Proofs2 Alloc_Proofs3 Alloc_Proofs4 Alloc_Proofs5 Alloc_Proofs7 Alloc_Proofs9 Alloc_Proofs11 Alloc_Proofs16 Alloc_Proofs17 Alloc_Proofs18.
Open Scope Z_scope.

Section Reach.
Context (c : cfg) (Cf : config_ok c).
Lemma cfg_wf : wfc c.
Proof. destruct Cf as (A & B & D & E). split; auto. Qed.
Let W := cfg_wf.

(** what each call does *)
Definition effect (o : os) (s : state) (v : list block) (k : call) (s' : state) (a : answer) (r : list report) : Prop :=
  match k with
  | Malloc n al zero ty => exists p, a = Ptr p /\ r = [] /\ same_queue o s s' /\ (p = 0 -> refuse o n al) /\
      (p <> 0 -> ~ In p (map ptr v) /\ (al <> 0 -> p mod al = 0) /\ ~ (2 ^ 32 <= n \/ (al <> 0 /\ IS_POWER_OF_2 al = false)) /\ (zero = true -> forall x, p <= x < p + n -> mem s' x = 0))
  | Free p ty => a = Done /\ match lookup v p with Some b => r = mismatch b ty /\ queue_free c s s' p | None => s' = s /\ r = bad_report c v p ty end
  | Size p => s' = s /\ match lookup v p with Some b => a = Bytes (Some (len b)) /\ r = []
        | None => match pre_us c p with Some (n, _) => a = Bytes (Some n) /\ r = [] | None => a = Bytes None /\ r = [Invalid p] end end
  | Realloc p n => exists q, a = Ptr q /\
      if p =? 0 then r = [] /\ same_queue o s s' /\ (q = 0 -> refuse o n 0) /\ (q <> 0 -> ~ In q (map ptr v))
      else match lookup v p with
        | Some b =>
            if n =? 0 then q = 0 /\ r = mismatch b TYPE_MALLOC /\ queue_free c s s' p
            else r = [] /\ (q = 0 -> refuse o n 0 /\ same_queue o s s' /\ kept v v s s') /\ (q <> 0 -> copied s s' p q (Z.min n (len b))) /\
              (q = p -> quarantine s' = quarantine s) /\
              (q <> 0 -> q <> p -> ~ In q (map ptr v) /\ exists k, (k <> 0%nat -> o_map o ARENA_INITIAL_SIZE = None) /\
                if mapped s p then quarantine s' = skipn k (quarantine s) else newest c (skipn k (quarantine s) ++ [(p, capacity s p)]) (quarantine s'))
        | None =>
            if n =? 0 then q = 0 /\ s' = s /\ r = bad_report c v p TYPE_MALLOC
            else match pre_us c p with
              | Some _ => r = [] /\ same_queue o s s' /\ (q = 0 -> refuse o n 0)
              | None => q = 0 /\ s' = s /\ r = [Invalid p]
              end
        end
  end.
Lemma keepv_kept v' v s s' : keepv v' s s' -> incl v' v -> forall w, (forall b, In b w -> In b v' \/ ~ In (ptr b) (map ptr v)) -> NoDup (map ptr v) -> kept v w s s'.
Proof.
  intros K Sub w Hw Nd b b' x Ib Ib' E Hx. destruct (Hw b' Ib') as [J|J].
  - assert (b = b') as <-.
    { pose proof (lookup_in v b Nd Ib) as L1. pose proof (lookup_in v b' Nd (Sub _ J)) as L2. congruence. }
    apply (K b x J). lia.
  - exfalso. apply J. rewrite <- E. apply in_map. exact Ib.
Qed.
Lemma inv_nodup s v : Inv c s v -> NoDup (map ptr v).
Proof. intros (Ts & M & D & F & Wf & P & _). eapply view_nodup; eauto. Qed.

Lemma step_ok o s v k : Inv c s v -> kernel_ok o s -> memory_ok o s -> call_ok k ->
  exists s' a r, step c o s k = Ok (s', a, r) /\
    ((forall q, a = Ptr q -> pre_us c q = None) -> Inv c s' (view_step c v k a) /\ effect o s v k s' a r /\ kept v (view_step c v k a) s s').
Proof.
  intros I Ko Mo Co. pose proof (inv_nodup _ _ I) as Nd.
  assert (Kg : forall s' p n ty, keepv v s s' -> (p <> 0 -> ~ In p (map ptr v)) -> kept v (give v p n ty) s s').
  { intros s' p n ty K N. apply (keepv_kept v v s s' K (incl_refl _)); [|exact Nd]. intros b Ib. unfold give in Ib. destruct (p =? 0) eqn:E; [left; exact Ib|]. destruct Ib as [<-|Ib]; [right; apply N; lia | left; exact Ib]. }
  assert (Kw : forall s' p, keepv (without v p) s s' -> kept v (without v p) s s').
  { intros s' p K. apply (keepv_kept (without v p) v s s' K); [intros b J; apply in_without in J; tauto | auto | exact Nd]. }
  assert (Kr : kept v v s s) by (intros b b' x _ _ _ _; reflexivity).
  destruct k as [n al zero ty|p ty|p n|p]; cbn [call_ok] in Co.
  - destruct Co as (C1 & C2 & C3). destruct (malloc_step c W o s v n al zero ty I Ko Mo C1 C2 C3) as (s' & p & E & I' & Sq & K & Z1 & Z2).
    cbn [step]. rewrite E. cbn [bind]. exists s', (Ptr p), []. split; [reflexivity|]. intros _. cbn [view_step]. split; [exact I'|]. split; [exists p; auto|]. apply Kg; auto. apply Z2.
  - destruct (lookup v p) as [b|] eqn:Lk.
    + destruct (free_step c W o s v p b ty I Lk) as (s' & E & I' & K & Q). cbn [step]. rewrite E. cbn [bind]. exists s', Done, (mismatch b ty). split; [reflexivity|]. intros _. cbn [view_step effect]. rewrite Lk. auto 10.
    + pose proof (bad_free_step c W o s v p ty I Lk) as E. cbn [step]. rewrite E. cbn [bind]. eexists s, Done, _. split; [reflexivity|]. intros _. cbn [view_step effect]. rewrite Lk.
      rewrite without_not by (apply lookup_none; exact Lk). auto 10.
  - destruct Co as (C1 & C2). cbn [step]. destruct (p =? 0) eqn:Ep.
    + assert (p = 0) by lia. subst p. destruct (malloc_step c W o s v n 0 false TYPE_MALLOC I Ko Mo C1 ltac:(lia) C2) as (s' & q & E & I' & Sq & K & Z1 & Z2).
      unfold realloc_common. change (0 =? 0) with true. cbv iota. rewrite E. cbn [bind]. exists s', (Ptr q), []. split; [reflexivity|]. intros _. cbn [view_step effect]. change (0 =? 0) with true. cbv iota.
      split; [exact I'|]. split; [exists q; split; [reflexivity|]; split; [reflexivity|]; split; [exact Sq|]; split; [exact Z1|]; intros Nq; apply Z2; exact Nq|]. apply Kg; auto. apply Z2.
    + destruct (n =? 0) eqn:En.
      * assert (n = 0) by lia. subst n. unfold realloc_common. rewrite Ep. change (0 =? 0) with true. cbv iota. destruct (lookup v p) as [b|] eqn:Lk.
        -- destruct (free_step c W o s v p b TYPE_MALLOC I Lk) as (s' & E & I' & K & Q). rewrite E. cbn [bind]. exists s', (Ptr 0), (mismatch b TYPE_MALLOC). split; [reflexivity|]. intros _. cbn [view_step effect]. rewrite Ep, Lk. change (0 =? 0) with true. cbv iota.
           split; [exact I'|]. split; [|auto]. exists 0. auto.
        -- pose proof (bad_free_step c W o s v p TYPE_MALLOC I Lk) as E. rewrite E. cbn [bind]. eexists s, (Ptr 0), _. split; [reflexivity|]. intros _. cbn [view_step effect]. rewrite Ep, Lk. change (0 =? 0) with true. cbv iota.
           rewrite without_not by (apply lookup_none; exact Lk). split; [exact I|]. split; [|auto]. exists 0. auto.
      * assert (Np : p <> 0) by lia. assert (Hn : 0 < n) by lia. destruct (lookup v p) as [b|] eqn:Lk.
        -- destruct (realloc_step c W o s v p n b I Ko Mo Hn C2 Np Lk) as (s' & q & E & R). rewrite E. cbn [bind]. exists s', (Ptr q), []. split; [reflexivity|]. intros _. cbn [view_step effect]. rewrite Ep, En, Lk.
           destruct R as [(-> & Rf & I' & K & Sq)|(Nq & I' & K & Cp & Q1 & Q2)].
           ++ change (0 =? 0) with true. cbv iota.
              assert (Kv : kept v v s s') by (apply (keepv_kept v v s s' K (incl_refl _)); auto).
              split; [exact I'|]. split; [|exact Kv]. exists 0. split; [reflexivity|]. split; [reflexivity|]. split; [auto|]. split; [congruence|]. split; [intros E0; congruence | intros E0; congruence].
           ++ rewrite (proj2 (Z.eqb_neq _ _) Nq). split; [exact I'|]. split.
              ** exists q. split; [reflexivity|]. split; [reflexivity|]. split; [congruence|]. split; [auto|]. split; auto.
              ** intros b1 b2 x I1 I2 E12 Hx. destruct I2 as [<-|I2].
                 --- unfold ptr, len in E12, Hx. cbn [fst snd] in E12, Hx. destruct (Z.eq_dec q p) as [->|Nqp].
                     +++ assert (b1 = b) as ->. { pose proof (lookup_in v b1 Nd I1) as L1. unfold ptr in L1. rewrite E12 in L1. congruence. }
                         specialize (Cp (x - p)). unfold len in Cp. replace (p + (x - p)) with x in Cp by lia. apply Cp. lia.
                     +++ exfalso. destruct (Q2 Nqp) as [Q3 _]. apply Q3. apply in_map_iff. exists b1. auto.
                 --- apply (Kw s' p K b1 b2 x I1 I2 E12 Hx).
        -- destruct (pre_us c p) as [x|] eqn:Px.
           ++ destruct (realloc_pre_step c W o s v p n x I Ko Mo Hn C2 Np Lk Px) as (s' & q & r & E & R). rewrite E. cbn [bind]. exists s', (Ptr q), r. split; [reflexivity|]. intros G.
              assert (Nq : q <> p) by (intros ->; specialize (G p eq_refl); congruence). destruct (R Nq) as (Hr0 & I' & K & Sq & Z1). cbn [view_step effect]. rewrite Ep, En, Lk, Px.
              split; [exact I'|]. split; [exists q; auto|]. apply Kg; auto. intros N0 J.
              pose proof (inv_nodup _ _ I') as Nd'. unfold give in Nd'. rewrite (proj2 (Z.eqb_neq _ _) N0) in Nd'. cbn [map] in Nd'. apply NoDup_cons_iff in Nd' as [Nd' _]. apply Nd'. exact J.
           ++ rewrite (realloc_bad_step c W o s v p n I ltac:(lia) Np Lk Px). cbn [bind]. exists s, (Ptr 0), [Invalid p]. split; [reflexivity|]. intros _. cbn [view_step effect]. rewrite Ep, En, Lk, Px.
              split; [exact I|]. split; [|auto]. exists 0. auto.
  - cbn [step]. rewrite (size_step c W s v p I). destruct (lookup v p) as [b|] eqn:Lk; [|destruct (pre_us c p) as [[n x]|] eqn:Px]; cbn [bind];
      eexists _, _, _; (split; [reflexivity|]); intros _; cbn [view_step effect]; rewrite Lk; rewrite ?Px; auto 10.
Qed.

Lemma reach_inv s v : reach c s v -> Inv c s v.
Proof.
  induction 1 as [brk m B1 B2|s v o k s' a r R IH Ko Mo Co E G|s v b x y R IH Ib Hx].
  - exists [(arena_init c brk PAGE_SIZE 376, [])], [], [], (fun _ => []). split; [apply init_ok; auto; apply cfg_wf|]. split; [reflexivity | left; reflexivity].
  - destruct (step_ok o s v k IH Ko Mo Co) as (s1 & a1 & r1 & E1 & Q). rewrite E in E1. injection E1 as <- <- <-. apply Q. exact G.
  - apply store_step; auto.
Qed.
Lemma call_effect o s v k s' a r : reach c s v -> kernel_ok o s -> memory_ok o s -> call_ok k -> step c o s k = Ok (s', a, r) -> (forall q, a = Ptr q -> pre_us c q = None) ->
  effect o s v k s' a r /\ kept v (view_step c v k a) s s'.
Proof.
  intros R Ko Mo Co E G. destruct (step_ok o s v k (reach_inv _ _ R) Ko Mo Co) as (s1 & a1 & r1 & E1 & Q). rewrite E in E1. injection E1 as <- <- <-. apply Q. exact G.
Qed.

(** *** the blocks of a state *)
Lemma blocks_ok s v : reach c s v -> NoDup (map ptr v) /\ forall b, In b v -> 0 < ptr b /\ ptr b mod 16 = 0 /\ 0 <= len b /\ len b <= capacity s (ptr b) /\
  exists r, In r (regions s) /\ r_lo r + redzone c <= ptr b /\ ptr b + len b <= r_hi r /\
    (r_mmap r = true \/ 384 + inter c <= 4096 -> ptr b + capacity s (ptr b) + redzone c <= r_hi r).
Proof.
  intros R. pose proof (reach_inv _ _ R) as I. split; [eapply inv_nodup; eauto|]. destruct I as (Ts & M & D & F & Wf & P & Wn). intros b Ib.
  destruct (in_view _ _ _ _ P Ib) as (t & It & <-). pose proof (wf_rb _ _ _ _ _ _ Wf) as Ob. rewrite Forall_forall in Ob. pose proof (okb_len t (Ob t It)) as Hl.
  pose proof (proj1 (wf_inv _ _ _ _ _ _ Wf)) as H. destruct (rb_facts c W _ _ _ _ H It) as (A1 & A2 & A3 & r & Ir & A4 & A5 & A6). rewrite !ptr_blk.
  destruct (mapped_ok c W s Ts M t H It) as [_ ->]. split; [exact A1|]. split; [exact A2|]. split; [lia|]. split; [lia|]. exists r. split; [exact Ir|]. split; [lia|]. split; [lia|]. exact A6.
Qed.
Lemma apart_ok s v b b' : reach c s v -> In b v -> In b' v -> ptr b <> ptr b' ->
  (ptr b + capacity s (ptr b) + redzone c <= ptr b' \/ ptr b' + capacity s (ptr b') + redzone c <= ptr b) /\
  (shared c = false -> 384 + inter c <= 4096 -> ptr b + capacity s (ptr b) + 2 * redzone c <= ptr b' \/ ptr b' + capacity s (ptr b') + 2 * redzone c <= ptr b).
Proof.
  intros R Ib Ib' N. pose proof (reach_inv _ _ R) as (Ts & M & D & F & Wf & P & Wn). pose proof (proj1 (wf_inv _ _ _ _ _ _ Wf)) as H.
  destruct (in_view _ _ _ _ P Ib) as (t & It & <-). destruct (in_view _ _ _ _ P Ib') as (u & Iu & <-). rewrite !ptr_blk in *.
  destruct (mapped_ok c W s Ts M t H It) as [_ ->]. destruct (mapped_ok c W s Ts M u H Iu) as [_ ->].
  destruct (rb_apart c W s Ts M t u H It Iu N) as [A B]. split; [lia|]. intros S1 S2. specialize (B S1 S2). lia.
Qed.
Lemma quarantine_apart s v b q z : reach c s v -> In b v -> In (q, z) (quarantine s) ->
  16 <= z /\ (ptr b + capacity s (ptr b) <= q \/ q + z <= ptr b).
Proof.
  intros R Ib Iq. pose proof (reach_inv _ _ R) as (Ts & M & D & F & Wf & P & Wn). pose proof (wf_inv _ _ _ _ _ _ Wf) as I. pose proof I as (H & L & K). pose proof (CH_GEO _ _ _ _ H) as G.
  rewrite (quarantine_ok c _ _ _ _ _ I) in Iq. apply (lk_delay _ _ _ K) in Iq. destruct (in_view _ _ _ _ P Ib) as (t & It & <-). rewrite ptr_blk. destruct (mapped_ok c W s Ts M t H It) as [_ ->].
  pose proof (tile_facts c W _ _ _ G Iq) as Fq. cbn [tp tsz] in Fq. pose proof (g_rng c W) as Gr. split; [lia|]. unfold rb in It. apply in_app_or in It as [It|It].
  - apply filter_In in It as [It Lt]. assert (N : tp t <> q).
    { intros E. pose proof (tiles_nodup c W _ _ G) as Nd. apply in_split in It as (l1 & l2 & E2). rewrite E2 in Nd, Iq. rewrite map_app in Nd. cbn [map] in Nd. apply NoDup_remove_2 in Nd. rewrite <- map_app in Nd.
      rewrite in_app_iff in Iq. destruct Iq as [Iq|[Iq|Iq]].
      - apply Nd. rewrite E. apply (in_map tp _ (Tile q z KDelay)). apply in_or_app. auto.
      - rewrite Iq in Lt. discriminate.
      - apply Nd. rewrite E. apply (in_map tp _ (Tile q z KDelay)). apply in_or_app. auto. }
    pose proof (apart_tiles c W _ _ _ _ G It Iq N) as A. cbn [tp tsz] in A. lia.
  - apply in_map_iff in It as (m & <- & Im). pose proof (apart_mm c W _ _ _ _ G Iq Im) as A. cbn [tp tsz mtile] in *. pose proof (ch_mm _ _ _ _ H) as O. rewrite Forall_forall in O. destruct (O m Im) as [_ _ O3 O4 _ _ O7 _]. pose proof (hbr_pos c W). pose proof (wf_rz c W). lia.
Qed.
Lemma quarantine_within s v : reach c s v -> within c (quarantine s).
Proof. intros R. destruct (reach_inv _ _ R) as (Ts & M & D & F & Wf & P & Wn). rewrite (quarantine_ok c _ _ _ _ _ (wf_inv _ _ _ _ _ _ Wf)). exact Wn. Qed.
End Reach.
