(** [replace_alloc_common]: the statement about it. *)
From Coq Require Import Permutation.
From Verif Require Import Base Alloc_Model Alloc_Inv Alloc_Proofs Alloc_Proofs2 Alloc_Proofs3 Alloc_Proofs4 Alloc_Proofs5 Alloc_Proofs6 Alloc_Proofs7 Alloc_Proofs8 Alloc_Proofs9 Alloc_Proofs10 Alloc_Proofs11 Alloc_Proofs12.
Open Scope Z_scope.

(** Requests the 32-bit size arithmetic of the code is good for. *)
Definition moderate (req al : Z) : Prop :=
  2 ^ 32 <= req \/ (al <> 0 /\ IS_POWER_OF_2 al = false) \/ req + al + 2 ^ 19 <= 2 ^ 32.
Definition refused (o : os) (req al : Z) : Prop :=
  2 ^ 32 <= req \/ (al <> 0 /\ IS_POWER_OF_2 al = false) \/ exists n, o_map o n = None.

Section Alloc.
Context (c : cfg) (W : wfc c).
Notation g := (inter c).
Notation INV := (INV c).
Notation WF := (WF c).

Lemma rb_head s Ts M t : CH c s Ts M -> In t (rb Ts M) -> exists h d ty sk, tk t = KLive d ty sk /\ hd s (tp t) = Some h /\ h_alloc h = tsz t /\
  h_freed h = false /\ h_diff h = d /\ h_type h = ty /\ h_skip h = sk.
Proof.
  intros H It. unfold rb in It. apply in_app_or in It as [It|It].
  - apply filter_In in It as [It Lt]. destruct (ch_tile _ _ _ _ _ H It) as (w & h & E & Al & _ & Kk & _). unfold live in Lt. destruct (tk t) as [d ty sk| | | |] eqn:Ek; try discriminate.
    exists h, d, ty, sk. cbn in Kk. tauto.
  - apply in_map_iff in It as (m & <- & Im). pose proof (ch_mm _ _ _ _ H) as O. rewrite Forall_forall in O. destruct (O m Im) as [(h & O1) _ _ _ _ _ _ _].
    exists h, (Some (md m)), (mty m), (msk m). cbn. tauto.
Qed.
Lemma rb_mid X a l1 t l2 Y M : live t = true -> Permutation (rb (X ++ (a, l1 ++ t :: l2) :: Y) M) (t :: filter live (others X l1 l2 Y) ++ map mtile M).
Proof.
  intros Lt. unfold rb. rewrite lives_at, Lt. unfold others. rewrite !filter_app. cbn [app]. repeat rewrite <- app_assoc. cbn [app]. repeat rewrite <- app_assoc.
  symmetry. rewrite app_assoc. etransitivity; [apply (Permutation_middle (filter live (tiles X) ++ filter live l1))|]. repeat rewrite <- app_assoc. reflexivity.
Qed.
Lemma rb_dead X a l1 t l2 Y M : live t = false -> rb (X ++ (a, l1 ++ t :: l2) :: Y) M = filter live (others X l1 l2 Y) ++ map mtile M.
Proof. intros Lt. unfold rb. rewrite lives_at, Lt. unfold others. rewrite !filter_app. cbn [app]. reflexivity. Qed.

(** rewriting the header of a live chunk *)
Lemma relive s X a l1 p z d ty sk l2 Y M D F h h' : INV s (X ++ (a, l1 ++ Tile p z (KLive d ty sk) :: l2) :: Y) M D F -> hd s p = Some h ->
  h_alloc h' = h_alloc h -> h_mmap h' = h_mmap h -> h_freed h' = false -> h_delay h' = h_delay h -> h_pfree h' = h_pfree h -> h_shr h' = h_shr h -> h_far h' = h_far h -> h_nxt h' = h_nxt h ->
  INV (seth c s p h') (X ++ (a, l1 ++ Tile p z (KLive (h_diff h') (h_type h') (h_skip h')) :: l2) :: Y) M D F /\
  quiet (X ++ (a, l1 ++ Tile p z (KLive d ty sk) :: l2) :: Y) M s (seth c s p h').
Proof.
  intros (H & L & K) Hh A1 A2 A3 A4 A5 A6 A7 A8. pose proof (CH_GEO _ _ _ _ H) as G.
  assert (It : In (Tile p z (KLive d ty sk)) (tiles (X ++ (a, l1 ++ Tile p z (KLive d ty sk) :: l2) :: Y))) by (apply in_mid; auto).
  destruct (ch_hok _ _ _ _ _ _ _ _ _ H) as ((h0 & Hh0 & Hal & Hmm & (K1 & K2 & K3 & K4 & K5) & Hpv) & _). cbn [tp tsz tk] in *. assert (h0 = h) as -> by congruence.
  split; [split; [|split]|].
  - apply (CH_seth_same c W s X a l1 (Tile p z (KLive d ty sk)) l2 Y M h' (KLive (h_diff h') (h_type h') (h_skip h')) H); [|reflexivity].
    exists h'. cbn [tp tsz tk]. split; [reflexivity|]. split; [congruence|]. split; [congruence|]. split; [cbn; rewrite A4; auto 10|].
    destruct (lastpv PN l1); cbn in *; try congruence. destruct Hpv as (_ & P2 & P3). split; [discriminate|]. split; [congruence|]. unfold size_field in *. rewrite A6, A7. exact P3.
  - apply LS_seth; auto. intros h0 E. assert (h0 = h) as -> by congruence. split; auto. left. intros b. apply (lk_off_free c W _ _ _ _ b _ G K It). discriminate.
  - eapply (LK_seg_same c W X a a l1 [Tile p z (KLive d ty sk)] [Tile p z (KLive (h_diff h') (h_type h') (h_skip h'))]); try exact G; try exact K; intros t [<-|[]]; reflexivity.
  - apply (quiet_seth c W _ _ _ (Tile p z (KLive d ty sk)) h' H It).
Qed.
Lemma remap s Ts M1 m M2 D F h h' : INV s Ts (M1 ++ m :: M2) D F -> hd s (mp m) = Some h ->
  h_alloc h' = h_alloc h -> h_mmap h' = h_mmap h -> h_freed h' = false -> h_shr h' = h_shr h ->
  forall d, h_diff h' = Some d -> 0 <= d <= mal m ->
  INV (seth c s (mp m) h') Ts (M1 ++ Mm (mb m) (msz m) (mp m) (mal m) d (h_type h') (h_skip h') :: M2) D F /\
  quiet Ts (M1 ++ m :: M2) s (seth c s (mp m) h').
Proof.
  intros (H & L & K) Hh A1 A2 A3 A4 d A5 A6. pose proof (CH_GEO _ _ _ _ H) as G.
  pose proof (ch_mm _ _ _ _ H) as O. rewrite Forall_forall in O. pose proof (hbr_pos c W) as Hb. pose proof (wf_rz c W) as Rz. pose proof (g_rng c W) as Gr.
  destruct (O m (in_elt _ _ _)) as [O1 O2 O3 O4 O5 O6 O7 O8]. destruct O1 as (h0 & Oa & Ob & Oc & Od & Oe & Of & Og & Oh). assert (h0 = h) as -> by congruence.
  pose proof (header_mm c W (mp m)) as [Hm1 Hm2].
  assert (Off : forall t, In t (tiles Ts) -> tp t <> mp m).
  { intros t It. pose proof (apart_mm c W _ _ _ _ G It (in_elt _ _ _)) as A. pose proof (tile_facts c W _ _ _ G It). lia. }
  assert (Offm : forall m', In m' (M1 ++ M2) -> mp m' <> mp m /\ (mp m' + mal m' <= mb m \/ mb m + msz m <= mp m')).
  { intros m' I. assert (J : In m' (M1 ++ m :: M2)) by (rewrite in_app_iff in *; cbn; tauto). destruct (O m' J) as [_ _ P3 P4 _ _ P7 _].
    assert (m <> m'). { intros <-. pose proof (M_nodup c W _ _ _ H) as N. apply NoDup_remove_2 in N. auto. }
    pose proof (rngm_apart c _ _ _ _ G (in_elt _ _ _) J H0). lia. }
  set (m' := Mm (mb m) (msz m) (mp m) (mal m) d (h_type h') (h_skip h')).
  split; [split; [|split]|].
  - split.
    + exact (ch_arenas _ _ _ _ H).
    + pose proof (ch_ok _ _ _ _ H) as Q. rewrite Forall_forall in *. intros x Ix. destruct (Q x Ix) as [Q1 Q2 Q3 Q4 Q5]. split; auto. eapply heads_frame; [|exact Q4].
      intros t It. apply hd_seth_ne. apply Off. eapply in_ats_tiles; eauto.
    + exact (ch_main _ _ _ _ H).
    + pose proof (ch_disj _ _ _ _ H) as Dj. unfold ranges in *. rewrite map_app in *. exact Dj.
    + etransitivity; [exact (ch_regs _ _ _ _ H)|]. unfold regs. rewrite !map_app. reflexivity.
    + rewrite Forall_app, Forall_cons_iff. assert (Fr : forall m0, In m0 (M1 ++ M2) -> mm_ok c (seth c s (mp m) h') m0).
      { intros m0 I. destruct (O m0 ltac:(rewrite in_app_iff in *; cbn; tauto)) as [P1 P2 P3 P4 P5 P6 P7 P8]. split; auto. rewrite hd_seth_ne by (apply Offm; auto). exact P1. }
      split; [apply Forall_forall; intros; apply Fr, in_or_app; auto|]. split; [|apply Forall_forall; intros; apply Fr, in_or_app; auto].
      split; cbn [mb msz mp mal md mty msk m']; auto. exists h'. rewrite hd_seth_eq. repeat split; auto; congruence.
    + intros p h0 E Fr. rewrite hd_seth in E. destruct (p =? mp m) eqn:Q.
      * right. exists m'. split; [apply in_elt | cbn; lia].
      * destruct (ch_stale _ _ _ _ H p h0 E Fr) as [S1|(m0 & Im & E0)]; [left; exact S1|]. right.
        rewrite in_app_iff in Im. destruct Im as [Im|[->|Im]]; [exists m0 | lia | exists m0]; (split; [rewrite in_app_iff; cbn; auto | auto]).
  - eapply LS_pres; [exact L | repeat split |]. intros q h0 I Hq. exists h0. split; [|auto]. rewrite hd_seth_ne; auto.
    destruct I as [[b I]|I].
    + apply (lk_free _ _ _ K) in I as (z & I & _). exact (Off _ I).
    + apply in_map_iff in I as ([q0 z] & E0 & I). cbn in E0; subst q0. apply (lk_delay _ _ _ K) in I. exact (Off _ I).
  - exact K.
  - split; [|reflexivity]. intros x Lx. unfold seth, scribble. cbn [mem with_mem with_hd].
    assert (Z1 : (header_at c (mp m) <=? x) && (x <? header_at c (mp m) + 32) = false); [|rewrite Z1; reflexivity].
    apply LB_rb in Lx as (u & Iu & Bu). unfold rb in Iu. apply in_app_or in Iu as [Iu|Iu].
    + apply filter_In in Iu as [Iu _]. pose proof (apart_mm c W _ _ _ _ G Iu (in_elt _ _ _)) as A. pose proof (tile_facts c W _ _ _ G Iu). lia.
    + apply in_map_iff in Iu as (m0 & <- & Im). cbn [mtile tp tsz] in Bu. rewrite in_app_iff in Im. destruct Im as [Im|[<-|Im]]; [|lia|].
      * destruct (Offm m0 ltac:(apply in_or_app; auto)) as [_ A]. lia.
      * destruct (Offm m0 ltac:(apply in_or_app; auto)) as [_ A]. lia.
Qed.

End Alloc.
