(** Iterating the heap, the first state, and the quarantine as a list. *)
From Coq Require Import Permutation.
From Verif Require Import Base Alloc_Model Alloc_Spec Alloc_Inv Alloc_Proofs Alloc_Proofs2 Alloc_Proofs3 Alloc_Proofs4 Alloc_Proofs5 Alloc_Proofs6 Alloc_Proofs7 Alloc_Proofs8 Alloc_Proofs9 Alloc_Proofs10 Alloc_Proofs11 Alloc_Proofs12 Alloc_Proofs13 Alloc_Proofs14 Alloc_Proofs15 Alloc_Proofs16.
Open Scope Z_scope.

Section Iter.
Context (c : cfg) (W : wfc c).
Notation g := (inter c).
Notation INV := (INV c).
Notation WF := (WF c).
Notation key := (fun t => fst (blk t)).

(** *** iteration *)
Lemma tile_iter s Ts M t : CH c s Ts M -> Forall okb (rb Ts M) -> In t (tiles Ts) ->
  exists h, hd s (tp t) = Some h /\ h_alloc h = tsz t /\
    (if live t then h_freed h || h_skip h = false /\ chunk_request_size h = Ok (snd (key t)) else h_freed h || h_skip h = true).
Proof.
  intros H Rb It. destruct (ch_tile _ _ _ _ _ H It) as (w & h & E & Al & _ & Kk & _). exists h. split; auto. split; auto.
  destruct (live t) eqn:Lt.
  - assert (Ir : In t (rb Ts M)) by (apply in_or_app; left; apply filter_In; auto). rewrite Forall_forall in Rb. destruct (okb_blk t (Rb t Ir)) as (d & ty & Ek & Hd & Eb).
    rewrite Ek in Kk. cbn in Kk. destruct Kk as (A1 & A2 & A3 & A4 & A5). rewrite A1, A5. split; [reflexivity|]. unfold chunk_request_size. rewrite A3. cbn [of_option bind].
    rewrite Eb. cbn [fst snd]. rewrite Al. f_equal. apply Z.mod_small. destruct (rb_facts c W _ _ _ _ H Ir) as (_ & _ & Hz & _). lia.
  - unfold live in Lt. destruct (tk t); try discriminate; cbn in Kk; destruct Kk as (-> & _); reflexivity.
Qed.
Lemma iter_arena_ok s Ts M fin : CH c s Ts M -> Forall okb (rb Ts M) -> forall l fuel cur, laid c cur l fin -> Forall num l -> (forall t, In t l -> In t (tiles Ts)) ->
  (length l < fuel)%nat -> iter_arena c fuel s cur fin = Ok (map key (filter live l)).
Proof.
  intros H Rb. pose proof (g_rng c W) as Gr. induction l as [|t l IH]; intros fuel cur La Nm Sub Fu; (destruct fuel as [|fuel]; [cbn in Fu; lia|]); cbn [laid] in La; cbn [iter_arena].
  - subst cur. rewrite Z.ltb_irrefl. reflexivity.
  - destruct La as [Et La]. apply Forall_cons_iff in Nm as [[N1 N2] Nm]. pose proof (laid_le c W _ _ _ La Nm) as Le.
    replace (cur <? fin) with true by lia. destruct (tile_iter s Ts M t H Rb (Sub t (or_introl eq_refl))) as (h & Hh & Hal & Hl).
    unfold geth. rewrite <- Et, Hh. cbn [of_option bind]. rewrite Hal, Et.
    rewrite (IH fuel (cur + tsz t + g) La Nm (fun u Iu => Sub u (or_intror Iu)) ltac:(cbn in Fu; lia)). cbn [bind filter].
    destruct (live t); [destruct Hl as [-> Hc]; rewrite Hc; cbn [bind map] | rewrite Hl; reflexivity].
    do 2 f_equal. rewrite <- Et. pose proof (key_tp t) as Q. destruct (fst (blk t)) as [x y]. cbn in *. congruence.
Qed.
Definition iterf (s : state) (r : region) : list (Z * Z) := match iter_region c s r with Ok x => x | _ => [] end.
Lemma iterate_all s l : (forall r, In r l -> exists x, iter_region c s r = Ok x) -> iterate c s l = Ok (flat_map (iterf s) l).
Proof.
  induction l as [|r l IH]; intros A; [reflexivity|]. cbn [iterate flat_map]. destruct (A r (or_introl eq_refl)) as (x & E). unfold iterf at 1. rewrite E. cbn [bind].
  rewrite (IH (fun r' I => A r' (or_intror I))). reflexivity.
Qed.
Lemma find_arena (Ts : ats) x : In x Ts -> NoDup (map (fun y => a_base (fst y)) Ts) -> find (fun a => a_base a =? a_base (fst x)) (map fst Ts) = Some (fst x).
Proof.
  induction Ts as [|y Ts IH]; intros I N; [destruct I|]. cbn [map find] in *. apply NoDup_cons_iff in N as [N1 N2]. destruct I as [->|I].
  - rewrite Z.eqb_refl. reflexivity.
  - rewrite (proj2 (Z.eqb_neq _ _)); [auto|]. intros E. apply N1. rewrite E. apply (in_map (fun y => a_base (fst y))). exact I.
Qed.
Lemma base_nodup s Ts M : CH c s Ts M -> NoDup (map (fun y => a_base (fst y)) Ts).
Proof.
  intros H. apply NoDup_split. intros X x Y -> u I. destruct x as [a l]. destruct (base_unique c W _ _ _ _ _ _ H) as [U _]. apply U. exact I.
Qed.
Lemma region_arena s Ts M x : CH c s Ts M -> Forall okb (rb Ts M) -> In x Ts ->
  iter_region c s (Region (a_base (fst x)) (a_commit (fst x)) false) = Ok (map key (filter live (snd x))).
Proof.
  intros H Rb Ix. unfold iter_region. cbn [r_mmap r_lo]. rewrite (ch_arenas _ _ _ _ H), (find_arena Ts x Ix (base_nodup _ _ _ H)).
  pose proof (ch_ok _ _ _ _ H) as O. rewrite Forall_forall in O. destruct (O x Ix) as [O1 O2 O3 O4 O5].
  apply (iter_arena_ok s Ts M); auto.
  - intros t It. eapply in_ats_tiles; eauto.
  - pose proof (laid_len c W _ _ _ O2 O3) as Le. lia.
Qed.
Lemma region_map s Ts M m : CH c s Ts M -> Forall okb (rb Ts M) -> In m M -> iter_region c s (Region (mb m) (mb m + msz m) true) = Ok [key (mtile m)].
Proof.
  intros H Rb Im. unfold iter_region. cbn [r_mmap r_lo]. pose proof (ch_mm _ _ _ _ H) as O. rewrite Forall_forall in O. destruct (O m Im) as [(h & Q1 & Q2 & Q3 & Q4 & Q5 & Q6 & Q7 & Q8) O2 O3 O4 O5 O6 O7 O8].
  rewrite O2. cbn [of_option bind]. unfold geth. rewrite Q1. cbn [of_option bind]. rewrite Forall_forall in Rb. destruct (Rb (mtile m)) as (d & ty & Ek & _); [apply in_or_app; right; apply in_map; exact Im|].
  cbn in Ek. injection Ek as _ _ Ek. rewrite Q2, Q7, Ek. cbn [orb]. unfold chunk_request_size. rewrite Q5. cbn [of_option bind]. unfold blk. cbn [mtile tk tp tsz fst]. rewrite Q4. do 3 f_equal. apply Z.mod_small. lia.
Qed.
Lemma iterate_ok s Ts M D F : WF s Ts M D F -> exists l, alloc_iterate c s = Ok l /\ Permutation l (map key (rb Ts M)).
Proof.
  intros [I Se Rb Lg]. pose proof (proj1 I) as H. exists (flat_map (iterf s) (regions s)). split.
  - apply iterate_all. intros r Ir. apply (Permutation_in _ (ch_regs _ _ _ _ H)) in Ir. apply regs_in in Ir. destruct Ir as [(x & Ix & ->)|(m & Im & ->)].
    + eexists. apply (region_arena s Ts M x); auto.
    + eexists. apply (region_map s Ts M m); auto.
  - etransitivity; [apply Permutation_flat_map; exact (ch_regs _ _ _ _ H)|]. unfold regs, rb, lives. rewrite flat_map_app, map_app.
    assert (E1 : forall X, incl X Ts -> flat_map (iterf s) (map (fun x => Region (a_base (fst x)) (a_commit (fst x)) false) X) = map key (filter live (tiles X))).
    { induction X as [|x X IH]; intros Sub; [reflexivity|]. cbn [map flat_map]. rewrite IH by (intros y Iy; apply Sub; right; exact Iy).
      unfold iterf at 1. rewrite (region_arena s Ts M x H Rb (Sub x (or_introl eq_refl))). unfold tiles. cbn [map concat]. rewrite filter_app, map_app. reflexivity. }
    assert (E2 : forall N, incl N M -> flat_map (iterf s) (map (fun m => Region (mb m) (mb m + msz m) true) N) = map key (map mtile N)).
    { induction N as [|m N IH]; intros Sub; [reflexivity|]. cbn [map flat_map]. rewrite IH by (intros y Iy; apply Sub; right; exact Iy).
      unfold iterf at 1. rewrite (region_map s Ts M m H Rb (Sub m (or_introl eq_refl))). reflexivity. }
    rewrite E1, E2 by apply incl_refl. reflexivity.
Qed.

(** *** the quarantine *)
Lemma queue_ok s D : forall nx, sseg s (map fst D) nx -> (forall p z, In (p, z) D -> exists h, hd s p = Some h /\ h_alloc h = z) ->
  queue_from (length D) s (List.hd nx (map fst D)) = D.
Proof.
  induction D as [|[p z] D IH]; intros nx Sg A; [reflexivity|]. cbn [map sseg fst List.hd length queue_from] in *. destruct Sg as ((h & Hh & Hn) & Sg). rewrite Hh.
  destruct (A p z (or_introl eq_refl)) as (h' & Hh' & Hz). assert (h' = h) as -> by congruence. rewrite Hz, Hn. f_equal. apply IH; auto. intros q y I. apply A. right. exact I.
Qed.
Lemma quarantine_ok s Ts M D F : INV s Ts M D F -> quarantine s = D.
Proof.
  intros (H & L & K). unfold quarantine. rewrite (ls_dn _ _ _ L), Nat2Z.id, (ls_dfront _ _ _ L). apply queue_ok; [exact (ls_sll _ _ _ L)|].
  intros p z I. apply (lk_delay _ _ _ K) in I. destruct (ch_tile _ _ _ _ _ H I) as (w & h & E & Al & _). eauto.
Qed.
Lemma sum_total D : sum D = total D.
Proof. unfold sum, total. induction D as [|x D IH]; cbn; [reflexivity|]. rewrite IH. reflexivity. Qed.
Lemma full_within D : full c D = false <-> Z.of_nat (length D) < delay_frees c /\ total D < delay_frees_maxsz c.
Proof. unfold full. rewrite <- sum_total. lia. Qed.
Lemma trim_newest D : newest c D (trim c D).
Proof.
  induction D as [|x D IH].
  - exists O. cbn. split; [destruct (full c []); reflexivity|]. split; [left; destruct (full c []); reflexivity | lia].
  - cbn [trim]. destruct (full c (x :: D)) eqn:E.
    + destruct IH as (k & E1 & E2 & E3). exists (S k). split; [exact E1|]. split; [exact E2|]. intros [|j] Hj; [|apply E3; lia].
      cbn [skipn]. intros [Q|Q]; [discriminate|]. apply full_within in Q. congruence.
    + exists O. split; [reflexivity|]. split; [right; apply full_within; exact E | lia].
Qed.
Lemma within_skip D k : (forall p z, In (p, z) D -> 0 <= z) -> within c D -> within c (skipn k D).
Proof.
  intros A. revert D A. induction k as [|k IH]; intros D A Wn; [exact Wn|]. destruct D as [|[p z] D]; [left; reflexivity|]. cbn [skipn]. apply IH; [intros q y I; apply (A q y); right; exact I|].
  destruct Wn as [Q|[Q1 Q2]]; [discriminate|]. right. cbn [length total map fold_right snd] in *. unfold total in *. cbn in Q2. specialize (A p z (or_introl eq_refl)). lia.
Qed.
Lemma queue_sizes s Ts M D F p z : INV s Ts M D F -> In (p, z) D -> 0 <= z.
Proof.
  intros (H & L & K) I. apply (lk_delay _ _ _ K) in I. pose proof (tile_facts c W _ _ _ (CH_GEO _ _ _ _ H) I) as Ft. cbn [tsz] in Ft. lia.
Qed.

(** *** the first state *)
Lemma init_ok brk m : 0 < brk -> brk mod 4096 = 0 -> WF (init c brk m) [(arena_init c brk PAGE_SIZE 376, [])] [] [] (fun _ => []).
Proof.
  intros Hb Hm. pose proof (g_rng c W) as Gr. pose proof (g_mod c W) as Gm.
  split.
  - split; [|split].
    + split.
      * reflexivity.
      * constructor; [|constructor]. cbn [fst snd]. split.
        -- unfold geom, arena_init. cbn [a_base a_start a_next a_commit]. change (ALIGN_FORWARD 376 CHUNK_ALIGNMENT) with 384. unfold PAGE_SIZE. pose proof (mod16_4096 _ Hm) as H16.
           assert (M1 : (brk + 384 + g) mod 16 = 0) by (apply mod16_add; [apply mod16_add; [exact H16 | reflexivity] | exact Gm]).
           assert (M2 : (brk + 4096) mod 4096 = 0) by (rewrite Z.add_mod, Hm by lia; reflexivity).
           split; [exact Hb|]. split; [exact Hm|]. split; [lia|]. split; [exact M1|]. split; [lia|]. split; [lia|]. split; [exact M2|]. split; lia.
        -- reflexivity.
        -- constructor.
        -- exact Logic.I.
        -- reflexivity.
      * exists (arena_init c brk PAGE_SIZE 376), [], []. split; reflexivity.
      * cbn. auto.
      * reflexivity.
      * constructor.
      * intros p h E. discriminate.
    + split; try reflexivity; cbn; auto.
    + split; cbn; try (intros; constructor).
      * tauto.
      * intros (z & [] & _).
      * tauto.
      * tauto.
  - intros t [].
  - constructor.
  - reflexivity.
Qed.
End Iter.
