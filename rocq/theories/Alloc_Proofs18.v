(** One call of the application, seen against the client's list of blocks. *)
From Coq Require Import Permutation.
From Verif Require Import Base Alloc_Model Alloc_Spec Alloc_Inv Alloc_Proofs Alloc_Proofs2 Alloc_Proofs3 Alloc_Proofs4 Alloc_Proofs5 Alloc_Proofs6 Alloc_Proofs7 Alloc_Proofs8 Alloc_Proofs9 Alloc_Proofs10 Alloc_Proofs11 Alloc_Proofs12 Alloc_Proofs13 Alloc_Proofs14 Alloc_Proofs15 Alloc_Proofs16 Alloc_Proofs17.
Open Scope Z_scope.

(** *** the client's list *)
Lemma lookup_some v p b : lookup v p = Some b -> In b v /\ ptr b = p.
Proof. intros E. apply find_some in E as [A B]. split; auto. apply Z.eqb_eq. exact B. Qed.
Lemma lookup_none v p : lookup v p = None -> ~ In p (map ptr v).
Proof. intros E I. apply in_map_iff in I as (b & <- & I). apply (find_none _ _ E) in I. rewrite Z.eqb_refl in I. discriminate. Qed.
Lemma lookup_in v b : NoDup (map ptr v) -> In b v -> lookup v (ptr b) = Some b.
Proof.
  unfold lookup. induction v as [|x v IH]; intros N I; [destruct I|]. cbn [map find] in *. apply NoDup_cons_iff in N as [N1 N2]. destruct I as [->|I].
  - rewrite Z.eqb_refl. reflexivity.
  - rewrite (proj2 (Z.eqb_neq _ _)); auto. intros E. apply N1. rewrite E. apply in_map. exact I.
Qed.
Lemma without_not v p : ~ In p (map ptr v) -> without v p = v.
Proof.
  intros N. apply filter_all. intros b I. rewrite (proj2 (Z.eqb_neq _ _)); [reflexivity|]. intros E. apply N. rewrite <- E. apply in_map. exact I.
Qed.
Lemma without_perm v b L : Permutation v (b :: L) -> NoDup (map ptr v) -> Permutation (without v (ptr b)) L.
Proof.
  intros P N. eapply perm_trans; [apply Permutation_filter'; exact P|]. cbn [filter]. rewrite Z.eqb_refl. cbn [negb].
  fold (without L (ptr b)). apply (Permutation_NoDup (Permutation_map ptr P)) in N. cbn [map] in N. apply NoDup_cons_iff in N as [N _]. rewrite without_not by exact N. reflexivity.
Qed.
Lemma in_without v p b : In b (without v p) <-> In b v /\ ptr b <> p.
Proof. unfold without. rewrite filter_In. rewrite negb_true_iff, Z.eqb_neq. reflexivity. Qed.
Lemma perm_ex {A} (x : A) l : In x l -> exists l', Permutation l (x :: l').
Proof. intros I. apply in_split in I as (l1 & l2 & ->). exists (l1 ++ l2). symmetry. apply Permutation_middle. Qed.

Section Hist.
Context (c : cfg) (W : wfc c).
Notation g := (inter c).
Notation WF := (WF c).
Notation key := (fun t => fst (blk t)).

Definition Inv (s : state) (v : list block) : Prop :=
  exists Ts M D F, WF s Ts M D F /\ Permutation (map blk (rb Ts M)) v /\ within c D.
Definition keepv (v : list block) (s s' : state) : Prop := forall b x, In b v -> ptr b <= x < ptr b + len b -> mem s' x = mem s x.

Lemma ptr_blk t : ptr (blk t) = tp t.
Proof. apply key_tp. Qed.
Lemma map_ptr L : map ptr (map blk L) = map tp L.
Proof. rewrite map_map. apply map_ext. apply ptr_blk. Qed.
Lemma view_nodup s Ts M D F v : WF s Ts M D F -> Permutation (map blk (rb Ts M)) v -> NoDup (map ptr v).
Proof.
  intros Wf P. eapply Permutation_NoDup; [apply Permutation_map; exact P|]. rewrite map_ptr. apply (rb_ptr c W s Ts M). apply (wf_inv _ _ _ _ _ _ Wf).
Qed.
Lemma in_view Ts M v b : Permutation (map blk (rb Ts M)) v -> In b v -> exists t, In t (rb Ts M) /\ blk t = b.
Proof. intros P I. apply (Permutation_in _ (Permutation_sym P)) in I. apply in_map_iff in I as (t & E & I). eauto. Qed.
Lemma not_view Ts M v p : Permutation (map blk (rb Ts M)) v -> ~ In p (map ptr v) -> ~ In p (map tp (rb Ts M)).
Proof. intros P N I. apply N. rewrite <- map_ptr in I. eapply Permutation_in; [apply Permutation_map; exact P | exact I]. Qed.
Lemma okb_len t : okb t -> 0 <= len (blk t) <= tsz t.
Proof. intros O. destruct (okb_blk t O) as (d & ty & Ek & Hd & Eb). rewrite Eb. unfold len. cbn. lia. Qed.
Lemma keep_view L v s s' : Forall okb L -> keep (bytes L) s s' -> (forall b, In b v -> exists t, In t L /\ blk t = b) -> keepv v s s'.
Proof.
  intros O K Sub b x I Hx. destruct (Sub b I) as (t & It & <-). apply K. exists t. split; [exact It|]. rewrite Forall_forall in O. pose proof (okb_len t (O t It)). rewrite ptr_blk in Hx. lia.
Qed.
Lemma blk_new p z n ty : blk (Tile p z (KLive (Some (z - n)) ty false)) = (p, n, ty).
Proof. unfold blk. cbn [tk tp tsz]. do 2 f_equal. lia. Qed.

Lemma queue_mem n : forall s m p, queue_from n (with_mem s m) p = queue_from n s p.
Proof. induction n as [|n IH]; intros s m p; [reflexivity|]. cbn [queue_from]. change (hd (with_mem s m) p) with (hd s p). destruct (hd s p); [rewrite IH|]; reflexivity. Qed.
(** quarantine after a call that frees nothing *)
Lemma malloc_step o s v n al zero ty : Inv s v -> kernel_ok o s -> memory_ok o s -> 0 <= n -> 0 <= al -> in_range n al ->
  exists s' p, alloc_common c o s n al zero ty = Ok (s', p) /\ Inv s' (give v p n ty) /\ same_queue o s s' /\ keepv v s s' /\
    (p = 0 -> refuse o n al) /\
    (p <> 0 -> ~ In p (map ptr v) /\ (al <> 0 -> p mod al = 0) /\ ~ (2 ^ 32 <= n \/ (al <> 0 /\ IS_POWER_OF_2 al = false)) /\ (zero = true -> forall x, p <= x < p + n -> mem s' x = 0)).
Proof.
  intros (Ts & M & D & F & Wf & P & Wn) Ko Mo Hn Ha Hr.
  destruct (alloc_ok c W o s Ts M D F n al zero ty Wf Ko Mo Hn Ha Hr) as (s' & p & Ts' & M' & F' & k & E & Wf' & Hk & _ & R).
  exists s', p. split; [exact E|].
  assert (Sq : same_queue o s s').
  { exists k. rewrite (quarantine_ok c _ _ _ _ _ (wf_inv _ _ _ _ _ _ Wf)), (quarantine_ok c _ _ _ _ _ (wf_inv _ _ _ _ _ _ Wf')). auto. }
  assert (Wk : within c (skipn k D)) by (apply within_skip; auto; intros q y; apply (queue_sizes c W _ _ _ _ _ _ _ (wf_inv _ _ _ _ _ _ Wf))).
  assert (Kv : keep (bytes (rb Ts M)) s s' -> keepv v s s').
  { intros K. eapply (keep_view (rb Ts M)); [exact (wf_rb _ _ _ _ _ _ Wf) | exact K | intros b I; eapply in_view; eauto]. }
  destruct R as [(-> & Rf & P' & K)|(Np & z & P' & Hz & K & Al & Gd & Ze)].
  - unfold give. change (0 =? 0) with true. cbv iota. split; [|split; [exact Sq|split; [auto|split; [intros _; exact Rf | congruence]]]].
    exists Ts', M', (skipn k D), F'. split; [exact Wf'|]. split; [|exact Wk]. etransitivity; [apply Permutation_map; exact P' | exact P].
  - unfold give. replace (p =? 0) with false by lia.
    assert (Pv : Permutation (map blk (rb Ts' M')) ((p, n, ty) :: v)).
    { etransitivity; [apply Permutation_map; exact P'|]. cbn [map]. rewrite blk_new. constructor. exact P. }
    split; [exists Ts', M', (skipn k D), F'; auto|]. split; [exact Sq|]. split; [auto|]. split; [congruence|]. intros _. split; [|auto].
    pose proof (view_nodup _ _ _ _ _ _ Wf' Pv) as N. cbn [map] in N. apply NoDup_cons_iff in N as [N _]. exact N.
Qed.

Local Notation queue_free := (queue_free c).
Lemma mapped_ok s Ts M t : CH c s Ts M -> In t (rb Ts M) -> (mapped s (tp t) = true <-> In t (map mtile M)) /\ capacity s (tp t) = tsz t.
Proof.
  intros H It. destruct (rb_head c _ _ _ _ H It) as (h & d & ty & sk & Ek & Hh & Hal & _). unfold mapped, capacity. rewrite Hh. split; [|exact Hal].
  unfold rb in It. apply in_app_or in It as [It|It].
  - apply filter_In in It as [It Lt]. destruct (ch_tile _ _ _ _ _ H It) as (w & h0 & E & _ & Mm0 & _). assert (h0 = h) as -> by congruence. rewrite Mm0. split; [discriminate|].
    intros J. exfalso. apply in_map_iff in J as (m & E' & Im). pose proof (CH_GEO _ _ _ _ H) as G. pose proof (apart_mm c W _ _ _ _ G It Im) as A. pose proof (tile_facts c W _ _ _ G It) as Ft.
    pose proof (ch_mm _ _ _ _ H) as O. rewrite Forall_forall in O. destruct (O m Im) as [_ _ O3 O4 _ _ O7 _]. pose proof (hbr_pos c W). pose proof (wf_rz c W). pose proof (g_rng c W). rewrite <- E' in A, Ft. cbn [mtile tp tsz] in A, Ft. lia.
  - split; [intros _; exact It|]. intros _. apply in_map_iff in It as (m & <- & Im). pose proof (ch_mm _ _ _ _ H) as O. rewrite Forall_forall in O. destruct (O m Im) as [(h0 & Q1 & _ & Q2 & _) _ _ _ _ _ _ _].
    cbn [mtile tp] in Hh. congruence.
Qed.
Lemma queue_after_free s s' Ts M D Ts' M' D' F F' t : WF s Ts M D F -> WF s' Ts' M' D' F' -> In t (rb Ts M) -> queue_after c D D' t M -> within c D ->
  queue_free s s' (tp t) /\ within c D'.
Proof.
  intros Wf Wf' It Q Wn. unfold queue_free. rewrite (quarantine_ok c _ _ _ _ _ (wf_inv _ _ _ _ _ _ Wf)), (quarantine_ok c _ _ _ _ _ (wf_inv _ _ _ _ _ _ Wf')).
  destruct (mapped_ok s Ts M t (proj1 (wf_inv _ _ _ _ _ _ Wf)) It) as [A B]. rewrite B. destruct Q as [[-> N]|[-> Y]].
  - destruct (mapped s (tp t)) eqn:E; [exfalso; apply N, A; reflexivity|]. pose proof (trim_newest c (D ++ [(tp t, tsz t)])) as T. split; [exact T|]. destruct T as (k & _ & T & _). exact T.
  - apply A in Y. rewrite Y. auto.
Qed.
Lemma free_step o s v p b ty : Inv s v -> lookup v p = Some b ->
  exists s', free_common c o s p ty false = Ok (s', mismatch b ty) /\ Inv s' (without v p) /\ keepv (without v p) s s' /\ queue_free s s' p.
Proof.
  intros (Ts & M & D & F & Wf & P & Wn) Lk. apply lookup_some in Lk as [Ib Eb]. destruct (in_view _ _ _ _ P Ib) as (t & It & Et).
  assert (Ep : tp t = p) by (rewrite <- ptr_blk, Et; exact Eb). subst p. rewrite <- Ep.
  destruct (free_ok c W o s Ts M D F t ty false Wf It) as (s' & Ts' & M' & D' & F' & E & Wf' & Pm & K & Q).
  exists s'. split; [|].
  - rewrite E. unfold mism, mismatch, kindb. rewrite Et. cbn [negb andb]. replace (ptr b) with (tp t) by (rewrite <- Et, ptr_blk; reflexivity). reflexivity.
  - assert (Pv : Permutation (map blk (rb Ts' M')) (without v (tp t))).
    { symmetry. rewrite <- ptr_blk. apply without_perm; [|exact (view_nodup _ _ _ _ _ _ Wf P)]. etransitivity; [symmetry; exact P|]. apply (Permutation_map blk) in Pm. exact Pm. }
    destruct (queue_after_free _ _ _ _ _ _ _ _ _ _ t Wf Wf' It Q Wn) as [Q1 Q2].
    split; [exists Ts', M', D', F'; auto|]. split; [|exact Q1]. eapply (keep_view (rb Ts' M')); [exact (wf_rb _ _ _ _ _ _ Wf') | exact K | intros b' I; eapply in_view; eauto].
Qed.
Local Notation bad_report := (bad_report c).
Lemma live_view s v q : Inv s v -> is_live_alloc s q = match lookup v q with Some _ => true | None => false end /\
  forall b ty, lookup v q = Some b -> check_type_match s q ty false = Ok (mismatch b ty).
Proof.
  intros (Ts & M & D & F & Wf & P & Wn). pose proof Wf as [I Se Rb Lg]. pose proof I as (H & _ & _). pose proof (live_ok c W s Ts M q H) as L. split.
  - destruct (lookup v q) as [b|] eqn:E.
    + apply lookup_some in E as [Ib Eb]. destruct (in_view _ _ _ _ P Ib) as (t & It & Et). apply L. rewrite <- Eb, <- Et, ptr_blk. apply in_map. exact It.
    + apply lookup_none in E. destruct (is_live_alloc s q); [|reflexivity]. exfalso. apply (not_view _ _ _ _ P E). apply L. reflexivity.
  - intros b ty E. apply lookup_some in E as [Ib Eb]. destruct (in_view _ _ _ _ P Ib) as (t & It & Et). rewrite Forall_forall in Rb. destruct (Rb t It) as (d & ta & Ek & _).
    subst b. rewrite <- Eb, ptr_blk. rewrite (mism_ok c _ _ _ _ _ _ _ ty false H It Ek). unfold mism, mismatch, kindb. cbn [negb andb]. rewrite ptr_blk. reflexivity.
Qed.
Lemma bad_free_step o s v p ty : Inv s v -> lookup v p = None -> free_common c o s p ty false = Ok (s, bad_report v p ty).
Proof.
  intros I Lk. unfold free_common, bad_report. destruct (live_view s v p I) as [-> _]. rewrite Lk. cbn [negb].
  destruct (pre_us c p) as [x|]; [reflexivity|]. destruct (live_view s v (p - 8) I) as [L1 T1]. destruct (live_view s v (p + 8) I) as [L2 T2]. rewrite L1, L2.
  assert (Z0 : p = 0 -> lookup v (p - 8) = None /\ lookup v (p + 8) = None).
  { intros ->. assert (Q : forall b, In b v -> 0 < ptr b /\ ptr b mod 16 = 0).
    { destruct I as (Ts & M & D & F & Wf & P & Wn). intros b Ib. destruct (in_view _ _ _ _ P Ib) as (t & It & <-). rewrite ptr_blk. destruct (rb_facts c W _ _ _ _ (proj1 (wf_inv _ _ _ _ _ _ Wf)) It) as (A & B & _). auto. }
    assert (N : forall q, ~ (0 < q /\ q mod 16 = 0) -> lookup v q = None).
    { intros q Nq. destruct (lookup v q) as [b|] eqn:E; [|reflexivity]. apply lookup_some in E as [Ib <-]. exfalso. apply Nq. apply Q. exact Ib. }
    split; apply N; [lia|]. intros [_ E]. discriminate. }
  destruct (p =? 0) eqn:E0; [destruct (Z0 ltac:(lia)) as [-> ->]; reflexivity|].
  destruct (lookup v (p - 8)) as [b|]; [rewrite (T1 b ty eq_refl); reflexivity|]. destruct (lookup v (p + 8)) as [b|]; [rewrite (T2 b ty eq_refl); reflexivity | reflexivity].
Qed.
Lemma size_step s v p : Inv s v -> size_common c s p = Ok (match lookup v p with Some b => (Some (len b), []) | None =>
   match pre_us c p with Some (n, _) => (Some n, []) | None => (None, [Invalid p]) end end).
Proof.
  intros (Ts & M & D & F & Wf & P & Wn). destruct (size_ok c W s Ts M D F p Wf) as [A B]. destruct (lookup v p) as [b|] eqn:E.
  - apply lookup_some in E as [Ib Eb]. destruct (in_view _ _ _ _ P Ib) as (t & It & Et). rewrite (A t It) by (rewrite <- ptr_blk, Et; exact Eb). rewrite Et. reflexivity.
  - apply B. apply (not_view _ _ _ _ P). apply lookup_none. exact E.
Qed.
Lemma iter_step s v : Inv s v -> exists l, alloc_iterate c s = Ok l /\ Permutation l (map fst v).
Proof.
  intros (Ts & M & D & F & Wf & P & Wn). destruct (iterate_ok c W s Ts M D F Wf) as (l & E & Q). exists l. split; [exact E|]. etransitivity; [exact Q|].
  apply (Permutation_map fst) in P. rewrite map_map in P. exact P.
Qed.
Lemma large_step s v : Inv s v -> Permutation (large s) (map fst (filter (fun b => LARGE_MALLOC_MIN_SIZE <=? len b) v)).
Proof.
  intros (Ts & M & D & F & Wf & P & Wn). etransitivity; [exact (wf_large _ _ _ _ _ _ Wf)|].
  etransitivity; [|apply Permutation_map, Permutation_filter'; exact P]. clear. induction (rb Ts M) as [|t L IH]; [reflexivity|]. cbn [map filter]. unfold big at 1, len at 1.
  destruct (_ <=? _); [cbn [map]; constructor; exact IH | exact IH].
Qed.

(** realloc of a live block *)
Lemma realloc_step o s v p n b : Inv s v -> kernel_ok o s -> memory_ok o s -> 0 < n -> in_range n 0 -> p <> 0 -> lookup v p = Some b ->
  exists s' q, realloc_common c o s p n TYPE_MALLOC = Ok (s', q, []) /\
    ((q = 0 /\ refuse o n 0 /\ Inv s' v /\ keepv v s s' /\ same_queue o s s') \/
     (q <> 0 /\ Inv s' ((q, n, if q =? p then kindb b else TYPE_MALLOC) :: without v p) /\ keepv (without v p) s s' /\ copied s s' p q (Z.min n (len b)) /\
      (q = p -> quarantine s' = quarantine s) /\
      (q <> p -> ~ In q (map ptr v) /\ exists k, (k <> 0%nat -> o_map o ARENA_INITIAL_SIZE = None) /\
        if mapped s p then quarantine s' = skipn k (quarantine s) else newest c (skipn k (quarantine s) ++ [(p, capacity s p)]) (quarantine s')))).
Proof.
  intros (Ts & M & D & F & Wf & P & Wn) Ko Mo Hn Hr Np Lk. apply lookup_some in Lk as [Ib Eb]. destruct (in_view _ _ _ _ P Ib) as (t & It & Et).
  assert (Ep : tp t = p) by (rewrite <- ptr_blk, Et; exact Eb). subst p. rewrite <- Ep in *.
  pose proof (view_nodup _ _ _ _ _ _ Wf P) as Nd. pose proof (wf_rb _ _ _ _ _ _ Wf) as Ob. pose proof Ob as Ob'. rewrite Forall_forall in Ob'. pose proof (okb_len t (Ob' t It)) as Hl. rewrite Et in Hl.
  assert (Wo : forall rest, Permutation (rb Ts M) (t :: rest) -> Permutation (without v (tp t)) (map blk rest)).
  { intros rest Pr. rewrite <- ptr_blk. apply without_perm; [|exact Nd]. etransitivity; [symmetry; exact P|]. apply (Permutation_map blk) in Pr. exact Pr. }
  destruct (Z_le_gt_dec n (tsz t)) as [Le|Gt].
  - destruct (stay_ok c W o s Ts M D F t n TYPE_MALLOC Wf It ltac:(lia)) as (s' & Ts' & M' & rest & E & Wf' & Pr & P' & K). exists s', (tp t). split; [exact E|]. right.
    destruct (rb_facts c W _ _ _ _ (proj1 (wf_inv _ _ _ _ _ _ Wf)) It) as (Hp & _). split; [lia|]. rewrite Z.eqb_refl. split; [|split; [|split; [|split]]].
    + exists Ts', M', D, F. split; [exact Wf'|]. split; [|exact Wn]. etransitivity; [apply Permutation_map; exact P'|]. cbn [map]. rewrite blk_new, Et. unfold kindb. constructor. symmetry. apply Wo. exact Pr.
    + eapply (keep_view (rb Ts M)); [exact Ob | exact K | intros b' I; apply in_without in I as [I _]; eapply in_view; eauto].
    + intros i Hi. apply K. exists t. split; [exact It | lia].
    + intros _. rewrite (quarantine_ok c _ _ _ _ _ (wf_inv _ _ _ _ _ _ Wf)), (quarantine_ok c _ _ _ _ _ (wf_inv _ _ _ _ _ _ Wf')). reflexivity.
    + congruence.
  - destruct (move_ok c W o s Ts M D F t n TYPE_MALLOC Wf Ko Mo Hr It ltac:(lia)) as (s' & q & Ts' & M' & D' & F' & k & E & Wf' & Hk & R). exists s', q. split; [exact E|].
    assert (EQ : quarantine s = D) by (apply (quarantine_ok c _ _ _ _ _ (wf_inv _ _ _ _ _ _ Wf))). assert (EQ' : quarantine s' = D') by (apply (quarantine_ok c _ _ _ _ _ (wf_inv _ _ _ _ _ _ Wf'))).
    assert (Wk : within c (skipn k D)) by (apply within_skip; auto; intros q0 y; apply (queue_sizes c W _ _ _ _ _ _ _ (wf_inv _ _ _ _ _ _ Wf))).
    destruct R as [(-> & Rf & P' & K & ED)|(Nq & Nqp & (z & rest & Pr & P' & Hz & K & Cp) & Q)].
    + left. split; [reflexivity|]. split; [exact Rf|]. split; [|split].
      * exists Ts', M', D', F'. split; [exact Wf'|]. split; [etransitivity; [apply Permutation_map; exact P' | exact P]|]. rewrite ED. exact Wk.
      * eapply (keep_view (rb Ts M)); [exact Ob | exact K | intros b' I; eapply in_view; eauto].
      * exists k. rewrite EQ, EQ'. auto.
    + right. split; [exact Nq|]. rewrite (proj2 (Z.eqb_neq _ _) Nqp).
      destruct (mapped_ok s Ts M t (proj1 (wf_inv _ _ _ _ _ _ Wf)) It) as [A B].
      assert (Pv : Permutation (map blk (rb Ts' M')) ((q, n, TYPE_MALLOC) :: without v (tp t))).
      { etransitivity; [apply Permutation_map; exact P'|]. cbn [map]. rewrite blk_new. constructor. symmetry. apply Wo. exact Pr. }
      split; [|split; [|split; [|split]]].
      * exists Ts', M', D', F'. split; [exact Wf'|]. split; [exact Pv|].
        destruct Q as [[-> _]|[-> _]]; [|exact Wk]. destruct (trim_newest c (skipn k D ++ [(tp t, tsz t)])) as (j & _ & T & _). exact T.
      * eapply (keep_view rest); [|exact K|].
        -- apply Forall_forall. intros u Iu. apply Ob'. eapply Permutation_in; [symmetry; exact Pr | right; exact Iu].
        -- intros b' I. apply (Permutation_in _ (Wo rest Pr)) in I. apply in_map_iff in I as (u & Eu & Iu). eauto.
      * intros i Hi. apply Cp. rewrite Et. exact Hi.
      * congruence.
      * intros _. split.
        -- intros J. pose proof (view_nodup _ _ _ _ _ _ Wf' Pv) as N. cbn [map] in N. apply NoDup_cons_iff in N as [N _]. apply N. apply in_map_iff in J as (b' & E' & I'). apply in_map_iff. exists b'. split; [exact E'|].
           apply in_without. split; [exact I'|]. rewrite E'. exact Nqp.
        -- exists k. split; [exact Hk|]. rewrite EQ, EQ', B. destruct Q as [[-> N]|[-> Y]].
           ++ destruct (mapped s (tp t)) eqn:Em; [exfalso; apply N, A; reflexivity | apply trim_newest].
           ++ apply A in Y. rewrite Y. reflexivity.
Qed.
(** realloc of a block that was there before *)
Lemma realloc_pre_step o s v p n x : Inv s v -> kernel_ok o s -> memory_ok o s -> 0 < n -> in_range n 0 -> p <> 0 -> lookup v p = None -> pre_us c p = Some x ->
  exists s' q r, realloc_common c o s p n TYPE_MALLOC = Ok (s', q, r) /\
    (q <> p -> r = [] /\ Inv s' (give v q n TYPE_MALLOC) /\ keepv v s s' /\ same_queue o s s' /\ (q = 0 -> refuse o n 0)).
Proof.
  intros I Ko Mo Hn Hr Np Lk Px. pose proof I as (Ts & M & D & F & Wf & P & Wn). pose proof (lookup_none _ _ Lk) as Nv. pose proof (not_view _ _ _ _ P Nv) as Nr.
  destruct (malloc_step o s v n 0 false TYPE_MALLOC I Ko Mo ltac:(lia) ltac:(lia) Hr) as (s1 & q & E1 & I1 & Sq & Kv & Z1 & Z2).
  unfold realloc_common. replace (p =? 0) with false by lia. replace (n =? 0) with false by lia.
  destruct (is_live_alloc s p) eqn:El; [exfalso; apply Nr; apply (live_ok c W s Ts M p (proj1 (wf_inv _ _ _ _ _ _ Wf))); exact El|].
  rewrite Px. destruct x as [old cap]. rewrite E1. cbn [bind]. destruct (q =? 0) eqn:Eq.
  { assert (q = 0) by lia. subst q. exists s1, 0, []. split; [reflexivity|]. intros _. auto 10. }
  set (s2 := memcpy s1 q p (Z.min n old)).
  assert (I2 : Inv s2 (give v q n TYPE_MALLOC)).
  { destruct I1 as (Ts1 & M1 & D1 & F1 & [Q1 Q2 Q3 Q4] & P1 & W1). exists Ts1, M1, D1, F1. split; [split; auto; apply INV_with_mem; exact Q1|]. auto. }
  unfold give in *. rewrite Eq in *.
  destruct (Z.eq_dec q p) as [->|Nq].
  - destruct I2 as (Ts2 & M2 & D2 & F2 & Wf2 & P2 & W2).
    destruct (in_view _ _ _ (p, n, TYPE_MALLOC) P2 (or_introl eq_refl)) as (t & It & Et). assert (Ep : tp t = p) by (rewrite <- ptr_blk, Et; reflexivity).
    destruct (free_ok c W o s2 Ts2 M2 D2 F2 t TYPE_MALLOC true Wf2 It) as (s3 & Ts3 & M3 & D3 & F3 & E3 & _). rewrite Ep in E3. rewrite E3. cbn [bind]. eexists _, p, _. split; [reflexivity|]. congruence.
  - assert (Ef : free_common c o s2 p TYPE_MALLOC true = Ok (s2, [])).
    { destruct I2 as (Ts2 & M2 & D2 & F2 & Wf2 & P2 & W2). destruct (free_bad c W o s2 Ts2 M2 D2 F2 p TYPE_MALLOC true Wf2) as (r & E3 & R).
      - apply (not_view _ _ _ _ P2). cbn [map]. intros [J|J]; [apply Nq; exact J | apply Nv; exact J].
      - rewrite E3. destruct R as [[_ ->]|[R _]]; [reflexivity | congruence]. }
    rewrite Ef. cbn [bind]. exists s2, q, []. split; [reflexivity|]. intros _. split; [reflexivity|]. split; [rewrite Eq; exact I2|]. split; [|split; [|lia]].
    2: { destruct Sq as (k & Sq & Hk). exists k. split; [|exact Hk]. rewrite <- Sq. apply queue_mem. }
    intros b y Ib Hy. rewrite <- (Kv b y Ib Hy). unfold s2, memcpy. cbn [mem with_mem].
    destruct I1 as (Ts1 & M1 & D1 & F1 & Wf1 & P1 & W1). destruct (in_view _ _ _ (q, n, TYPE_MALLOC) P1 (or_introl eq_refl)) as (t & It & Et). destruct (in_view _ _ _ b P1 (or_intror Ib)) as (u & Iu & Eu).
    pose proof (wf_rb _ _ _ _ _ _ Wf1) as Ob. rewrite Forall_forall in Ob. pose proof (okb_len t (Ob t It)) as L1. pose proof (okb_len u (Ob u Iu)) as L2.
    assert (Ntu : tp t <> tp u). { rewrite <- !ptr_blk, Et, Eu. change (ptr (q, n, TYPE_MALLOC)) with q. intros ->. destruct (Z2 ltac:(lia)) as [Z3 _]. apply Z3. apply in_map. exact Ib. }
    destruct (rb_apart c W _ _ _ t u (proj1 (wf_inv _ _ _ _ _ _ Wf1)) It Iu Ntu) as [A _]. rewrite <- !ptr_blk, Et, Eu in A. rewrite Et in L1. rewrite Eu in L2. change (ptr (q, n, TYPE_MALLOC)) with q in A. change (len (q, n, TYPE_MALLOC)) with n in L1.
    pose proof (wf_rz c W). replace (_ && _) with false; [reflexivity|]. symmetry. lia.
Qed.
Lemma realloc_bad_step o s v p n : Inv s v -> n <> 0 -> p <> 0 -> lookup v p = None -> pre_us c p = None -> realloc_common c o s p n TYPE_MALLOC = Ok (s, 0, [Invalid p]).
Proof.
  intros (Ts & M & D & F & Wf & P & Wn) Hn Np Lk Px. pose proof (not_view _ _ _ _ P (lookup_none _ _ Lk)) as Nr. unfold realloc_common. replace (p =? 0) with false by lia. replace (n =? 0) with false by lia.
  destruct (is_live_alloc s p) eqn:El; [exfalso; apply Nr; apply (live_ok c W s Ts M p (proj1 (wf_inv _ _ _ _ _ _ Wf))); exact El|]. rewrite Px. reflexivity.
Qed.
Lemma store_step s v x y : Inv s v -> Inv (with_mem s (upd (mem s) x y)) v.
Proof.
  intros (Ts & M & D & F & [Q1 Q2 Q3 Q4] & P & Wn). exists Ts, M, D, F. split; [split; auto; apply INV_with_mem; exact Q1|]. auto.
Qed.
End Hist.
