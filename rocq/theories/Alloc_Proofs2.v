(** Frames: replacing a stretch of tiles, and writes that leave the lists alone. *)
From Coq Require Import Permutation.
From Verif Require Import Base Alloc_Model Alloc_Inv Alloc_Proofs.
Open Scope Z_scope.

Section Frames.
Context (c : cfg) (W : wfc c).
Notation g := (inter c).

Lemma hd_seth s p h q : hd (seth c s p h) q = if q =? p then Some h else hd s q.
Proof. reflexivity. Qed.
Lemma hd_seth_eq s p h : hd (seth c s p h) p = Some h.
Proof. rewrite hd_seth, Z.eqb_refl. reflexivity. Qed.
Lemma hd_seth_ne s p h q : q <> p -> hd (seth c s p h) q = hd s q.
Proof. intros N. rewrite hd_seth. apply Z.eqb_neq in N. rewrite N. reflexivity. Qed.

Lemma heads_pres s s' v l : (forall t w, In t l -> hok s w t -> hok s' w t) -> heads s v l -> heads s' v l.
Proof.
  revert v; induction l; cbn; intros v E H; auto. destruct H as [A B]. split; [apply E; auto|]. apply IHl; auto.
Qed.
Lemma heads_frame s s' v l : (forall t, In t l -> hd s' (tp t) = hd s (tp t)) -> heads s v l -> heads s' v l.
Proof. intros E. apply heads_pres. intros t w I. unfold hok. rewrite E by auto. auto. Qed.
Lemma heads_in s v l t : heads s v l -> In t l -> exists w, hok s w t.
Proof.
  revert v; induction l; cbn; intros v H I; [tauto|]. destruct H as [A B], I as [->|I]; eauto.
Qed.
Lemma prev_ok_PL h k v : prev_ok h k v -> prev_ok h k PL.
Proof. destruct v; cbn; try tauto. Qed.
Lemma heads_PL s v l : heads s v l -> heads s PL l.
Proof.
  destruct l as [|t l]; cbn; auto. intros [(h & A & B & D & E & F) G]. split; auto.
  exists h. eauto 10 using prev_ok_PL.
Qed.
Lemma fin_PL a v l : fin a (lastpv v l) -> fin a (lastpv PL l).
Proof. destruct l; cbn; auto. Qed.
Lemma lastpv_cons v t l : lastpv v (t :: l) = lastpv (pvof t) l.
Proof. reflexivity. Qed.
Lemma lastpv_mid v l1 t l2 : lastpv v (l1 ++ t :: l2) = lastpv (pvof t) l2.
Proof. rewrite lastpv_app. reflexivity. Qed.

Lemma ch_hok s X a l1 t l2 Y M : CH c s (X ++ (a, l1 ++ t :: l2) :: Y) M ->
  hok s (lastpv PN l1) t /\ heads s PN l1 /\ heads s (pvof t) l2 /\ fin a (lastpv (pvof t) l2).
Proof.
  intros H. pose proof (ch_ok _ _ _ _ H) as O. rewrite Forall_app, Forall_cons_iff in O. destruct O as (_ & O & _).
  destruct O as [_ _ _ Hh Hf]. cbn [fst snd] in *. apply heads_mid in Hh. rewrite lastpv_mid in Hf. tauto.
Qed.
Lemma ch_tile s Ts M t : CH c s Ts M -> In t (tiles Ts) -> exists w, hok s w t.
Proof.
  intros H I. destruct (tiles_split _ _ I) as (X & a & l1 & l2 & Y & ->). destruct (ch_hok _ _ _ _ _ _ _ _ H). eauto.
Qed.

Definition same_place (a a' : arena) : Prop :=
  a_base a' = a_base a /\ a_start a' = a_start a /\ a_next a' = a_next a /\ a_commit a' = a_commit a.
Lemma geom_place a a' : same_place a a' -> geom c a -> geom c a'.
Proof. intros (A & B & D & E). unfold geom. rewrite A, B, D, E. auto. Qed.

Lemma regs_place X a l Y M a' l' : same_place a a' -> regs (X ++ (a', l') :: Y) M = regs (X ++ (a, l) :: Y) M.
Proof. intros (A & B & D & E). unfold regs. rewrite !map_app. cbn. rewrite A, E. reflexivity. Qed.
Lemma ranges_place X a l Y M a' l' : same_place a a' -> ranges (X ++ (a', l') :: Y) M = ranges (X ++ (a, l) :: Y) M.
Proof. intros (A & B & D & E). unfold ranges. rewrite !map_app. cbn. unfold rng_a. cbn. rewrite A, E. reflexivity. Qed.

Lemma GEO_seg X a l1 seg l2 Y M a' seg' : GEO c (X ++ (a, l1 ++ seg ++ l2) :: Y) M ->
  same_place a a' -> (forall p q, laid c p seg q -> laid c p seg' q) -> Forall num seg' ->
  GEO c (X ++ (a', l1 ++ seg' ++ l2) :: Y) M.
Proof.
  intros [Gk Dj] Pl L N. split.
  - rewrite Forall_app, Forall_cons_iff in *. destruct Gk as (A & (B1 & B2 & B3) & D). split; [exact A|]. split; [|exact D].
    cbn [fst snd] in *. split; [apply (geom_place a); auto|].
    destruct Pl as (P1 & P2 & P3 & P4). cbn [fst snd]. rewrite P2, P3. rewrite !Forall_app in *. split; [|tauto].
    rewrite !(laid_app c) in *. destruct B2 as (m & B2 & B4). exists m. split; auto.
    rewrite (laid_app c) in *. destruct B4 as (m' & B4 & B5). exists m'. auto.
  - rewrite (ranges_place X a (l1 ++ seg ++ l2)); auto.
Qed.

Lemma ptr_seg_other X a l1 seg l2 Y M u t : GEO c (X ++ (a, l1 ++ seg ++ l2) :: Y) M ->
  In t seg -> In u (others X l1 l2 Y) -> tp u <> tp t.
Proof.
  intros G I J. apply in_split in I as (s1 & s2 & ->).
  replace (l1 ++ (s1 ++ t :: s2) ++ l2) with ((l1 ++ s1) ++ t :: (s2 ++ l2)) in G by (rewrite <- !app_assoc; reflexivity).
  eapply apart_ptr; eauto. unfold others in *. rewrite !in_app_iff in *. tauto.
Qed.
Lemma in_seg X a l1 seg l2 Y u : In u (tiles (X ++ (a, l1 ++ seg ++ l2) :: Y)) <-> In u seg \/ In u (others X l1 l2 Y).
Proof. rewrite tiles_app, tiles_cons. unfold others. rewrite !in_app_iff. tauto. Qed.

(** A stretch [seg] of tiles replaced by [seg'], headers changing only there. *)
Lemma CH_seg s s' X a a' l1 seg seg' l2 Y M :
  CH c s (X ++ (a, l1 ++ seg ++ l2) :: Y) M ->
  arenas s' = map fst X ++ a' :: map fst Y -> cur_brk s' = cur_brk s -> regions s' = regions s -> mhead s' = mhead s ->
  same_place a a' -> (forall p q, laid c p seg q -> laid c p seg' q) -> Forall num seg' ->
  (forall p, ~ In p (map tp seg') -> hd s' p = hd s p) ->
  heads s' (lastpv PN l1) seg' -> heads s (lastpv (lastpv PN l1) seg') l2 ->
  fin a' (lastpv (lastpv PN l1) (seg' ++ l2)) ->
  (forall t d ty sk, In t seg -> tk t = KLive d ty sk -> In (tp t) (map tp seg')) ->
  CH c s' (X ++ (a', l1 ++ seg' ++ l2) :: Y) M.
Proof.
  intros H Ea Eb Er Em Pl Ls Ns Hd Hs H2 Hf Hl.
  pose proof (CH_GEO _ _ _ _ H) as G. pose proof (GEO_seg _ _ _ _ _ _ _ _ _ G Pl Ls Ns) as G'.
  assert (Hoth : forall u, In u (others X l1 l2 Y) -> hd s' (tp u) = hd s (tp u)).
  { intros u I. apply Hd. intros J. apply in_map_iff in J as (t & E & J). exact (ptr_seg_other _ _ _ _ _ _ _ _ _ G' J I (eq_sym E)). }
  assert (Hmm : forall m, In m M -> mm_ok c s m -> mm_ok c s' m).
  { intros m I O. destruct O as [O1 O2 O3 O4 O5 O6 O7 O8]. split; auto; try (rewrite Em; exact O2).
    rewrite Hd; [exact O1|]. intros J. apply in_map_iff in J as (t & E & J).
    assert (It : In t (tiles (X ++ (a', l1 ++ seg' ++ l2) :: Y))) by (apply in_seg; auto).
    pose proof (apart_mm c W _ _ _ _ G' It I). pose proof (tile_facts c W _ _ _ G' It). pose proof (wf_rz c W).
    assert (0 <= header_beyond_redzone c).
    { unfold header_beyond_redzone, header_size. destruct (shared c); cbn [negb]; [destruct (redzone c <? 32) eqn:?|]; lia. }
    pose proof (g_rng c W).
 lia. }
  split.
  - rewrite Ea, map_app. reflexivity.
  - pose proof (ch_ok _ _ _ _ H) as O. rewrite Forall_app, Forall_cons_iff in *. destruct O as (OX & OA & OY).
    assert (Fr : forall Z0, (forall x, In x Z0 -> forall t, In t (snd x) -> In t (others X l1 l2 Y)) ->
       Forall (fun x => arena_ok c s (fst x) (snd x)) Z0 -> Forall (fun x => arena_ok c s' (fst x) (snd x)) Z0).
    { intros Z0 HZ FZ. rewrite Forall_forall in *. intros x Ix. destruct (FZ x Ix) as [F1 F2 F3 F4 F5]. split; auto.
      eapply heads_frame; [|exact F4]. intros t It. apply Hoth. eapply HZ; eauto. }
    split; [|split].
    + apply Fr; auto. intros x Ix t It. unfold others. apply in_or_app. left. unfold tiles. apply in_concat. exists (snd x). split; auto. apply in_map; auto.
    + destruct OA as [O1 O2 O3 O4 O5]. cbn [fst snd] in *.
      destruct G' as [G' _]. rewrite Forall_app, Forall_cons_iff in G'. destruct G' as (_ & (Q1 & Q2 & Q3) & _).
      split; auto.
      * rewrite !heads_app in *. destruct O4 as (A1 & A2 & A3). split; [|split; auto].
        -- eapply heads_frame; [|exact A1]. intros t It. apply Hoth. unfold others. rewrite !in_app_iff. auto.
        -- eapply heads_frame; [|exact H2]. intros t It. apply Hoth. unfold others. rewrite !in_app_iff. auto.
      * rewrite lastpv_app. exact Hf.
    + apply Fr; auto. intros x Ix t It. unfold others. apply in_or_app. right. apply in_or_app. right. unfold tiles. apply in_concat. exists (snd x). split; auto. apply in_map; auto.
  - destruct (ch_main _ _ _ _ H) as (b & l & Z0 & E & B). rewrite Eb. destruct X as [|x X].
    + cbn [app] in *. injection E as Q1 Q2 Q3. eexists _, _, _. split; [reflexivity|]. destruct Pl as (_ & _ & _ & P4). congruence.
    + cbn [app] in *. injection E as -> _. eexists _, _, _. split; [reflexivity|]. exact B.
  - exact (geo_disj _ _ _ G').
  - rewrite Er. rewrite (regs_place X a (l1 ++ seg ++ l2)); auto. exact (ch_regs _ _ _ _ H).
  - pose proof (ch_mm _ _ _ _ H) as O. rewrite Forall_forall in *. auto.
  - intros p h E Fd. destruct (in_dec Z.eq_dec p (map tp seg')) as [I|I].
    + apply in_map_iff in I as (t & <- & I). left. destruct (heads_in _ _ _ _ Hs I) as (w & h0 & A1 & A2 & A3 & A4 & A5).
      assert (h0 = h) as -> by congruence. unfold kind_ok in A4. destruct (tk t) eqn:Ek; try (destruct A4; congruence).
      exists (tsz t), d, ty, sk. apply in_seg. left. rewrite <- Ek. destruct t; exact I.
    + rewrite Hd in E by auto. destruct (ch_stale _ _ _ _ H p h E Fd) as [(z & d & ty & sk & J)|J]; [|right; exact J].
      left. apply in_seg in J as [J|J]; [exfalso; apply I; eapply (Hl _ d ty sk J); reflexivity|].
      exists z, d, ty, sk. apply in_seg. auto.
Qed.

(** One tile's header rewritten. *)
Lemma CH_seth s X a l1 t l2 Y M h' k' :
  CH c s (X ++ (a, l1 ++ t :: l2) :: Y) M ->
  let t' := Tile (tp t) (tsz t) k' in
  hok1 (Some h') (lastpv PN l1) t' -> heads s (pvof t') l2 -> fin a (lastpv (pvof t') l2) ->
  CH c (seth c s (tp t) h') (X ++ (a, l1 ++ t' :: l2) :: Y) M.
Proof.
  intros H t' Hk H2 Hf. change (l1 ++ t' :: l2) with (l1 ++ [t'] ++ l2).
  apply (CH_seg s _ X a a l1 [t] [t'] l2 Y M); try reflexivity.
  - exact H.
  - cbn. rewrite (ch_arenas _ _ _ _ H), map_app. reflexivity.
  - repeat split; reflexivity.
  - intros p q. cbn. auto.
  - constructor; [|constructor]. pose proof (ch_ok _ _ _ _ H) as O. rewrite Forall_app, Forall_cons_iff in O.
    destruct O as (_ & O & _). destruct O as [_ _ N _ _]. cbn [snd] in N. change (l1 ++ t :: l2) with (l1 ++ [t] ++ l2) in N. rewrite !Forall_app in N.
    destruct N as (_ & N & _). apply Forall_cons_iff in N as [N _]. exact N.
  - intros p Np. apply hd_seth_ne. intros ->. apply Np. left. reflexivity.
  - cbn [heads]. split; auto. unfold hok. cbn [tp]. unfold t'. cbn [tp]. rewrite hd_seth_eq. exact Hk.
  - cbn. exact H2.
  - cbn. exact Hf.
  - intros u d ty sk [<-|[]] E. left. reflexivity.
Qed.
(** the same with what follows unchanged *)
Lemma CH_seth_same s X a l1 t l2 Y M h' k' :
  CH c s (X ++ (a, l1 ++ t :: l2) :: Y) M ->
  hok1 (Some h') (lastpv PN l1) (Tile (tp t) (tsz t) k') -> pvof (Tile (tp t) (tsz t) k') = pvof t ->
  CH c (seth c s (tp t) h') (X ++ (a, l1 ++ Tile (tp t) (tsz t) k' :: l2) :: Y) M.
Proof.
  intros H Hk E. destruct (ch_hok _ _ _ _ _ _ _ _ H) as (_ & _ & A & B).
  apply CH_seth; auto; rewrite E; auto.
Qed.
(** Only the headers of free tiles changed, and only in their list pointers. *)
Lemma CH_pres s s' Ts M : CH c s Ts M ->
  arenas s' = arenas s -> cur_brk s' = cur_brk s -> regions s' = regions s -> mhead s' = mhead s ->
  (forall t w, In t (tiles Ts) -> hok s w t -> hok s' w t) ->
  (forall p, hd s' p = hd s p \/ exists t, In t (tiles Ts) /\ tp t = p) ->
  CH c s' Ts M.
Proof.
  intros H Ea Eb Er Em Hp Hd. pose proof (CH_GEO _ _ _ _ H) as G. split.
  - rewrite Ea. apply (ch_arenas _ _ _ _ H).
  - pose proof (ch_ok _ _ _ _ H) as O. rewrite Forall_forall in *. intros x Ix. destruct (O x Ix) as [F1 F2 F3 F4 F5]. split; auto.
    eapply heads_pres; [|exact F4]. intros t w It. apply Hp. unfold tiles. apply in_concat. exists (snd x). split; auto. apply in_map; auto.
  - rewrite Eb. apply (ch_main _ _ _ _ H).
  - apply (ch_disj _ _ _ _ H).
  - rewrite Er. apply (ch_regs _ _ _ _ H).
  - pose proof (ch_mm _ _ _ _ H) as O. rewrite Forall_forall in *. intros m Im. destruct (O m Im) as [O1 O2 O3 O4 O5 O6 O7 O8]. split; auto; try (rewrite Em; exact O2).
    destruct (Hd (mp m)) as [E|(t & It & E)]; [rewrite E; exact O1|]. exfalso.
    pose proof (apart_mm c W _ _ _ _ G It Im). pose proof (tile_facts c W _ _ _ G It). pose proof (wf_rz c W).
    assert (0 <= header_beyond_redzone c).
    { unfold header_beyond_redzone, header_size. destruct (shared c); cbn [negb]; [destruct (redzone c <? 32) eqn:?|]; lia. }
    pose proof (g_rng c W). lia.
  - intros p h E Fd. destruct (Hd p) as [E'|(t & It & <-)].
    + rewrite E' in E. apply (ch_stale _ _ _ _ H p h E Fd).
    + left. destruct (ch_tile _ _ _ _ H It) as (w & Hw). apply Hp in Hw; auto.
      destruct Hw as (h0 & A1 & A2 & A3 & A4 & A5). assert (h0 = h) as -> by congruence.
      unfold kind_ok in A4. destruct (tk t) eqn:Ek; try (destruct A4; congruence).
      exists (tsz t), d, ty, sk. rewrite <- Ek. destruct t; exact It.
Qed.

(** *** lists *)
Lemma last_cons' (p : Z) l d : List.last (p :: l) d = List.last l p.
Proof.
  revert p d; induction l as [|q l IH]; intros p d; [reflexivity|].
  change (List.last (p :: q :: l) d) with (List.last (q :: l) d). rewrite !IH. reflexivity.
Qed.
Lemma dseg_app s pv l1 l2 nx : dseg s pv (l1 ++ l2) nx <-> dseg s pv l1 (List.hd nx l2) /\ dseg s (List.last l1 pv) l2 nx.
Proof.
  revert pv; induction l1 as [|p l1 IH]; intros pv; cbn [app dseg]; [cbn; tauto|].
  rewrite IH. replace (List.last (p :: l1) pv) with (List.last l1 p).
  2:{ symmetry. apply last_cons'. }
  replace (List.hd nx (l1 ++ l2)) with (List.hd (List.hd nx l2) l1) by (destruct l1; reflexivity). tauto.
Qed.
Lemma sseg_app s l1 l2 nx : sseg s (l1 ++ l2) nx <-> sseg s l1 (List.hd nx l2) /\ sseg s l2 nx.
Proof.
  induction l1 as [|p l1 IH]; cbn [app sseg]; [tauto|].
  rewrite IH. replace (List.hd nx (l1 ++ l2)) with (List.hd (List.hd nx l2) l1) by (destruct l1; reflexivity). tauto.
Qed.
Lemma dseg_pres s s' pv l nx :
  (forall p h, In p l -> hd s p = Some h -> exists h', hd s' p = Some h' /\ h_nxt h' = h_nxt h /\ h_prv h' = h_prv h) ->
  dseg s pv l nx -> dseg s' pv l nx.
Proof.
  revert pv; induction l; cbn; intros pv E H; auto. destruct H as [(h & A & B & D) H].
  destruct (E a h) as (h' & A' & B' & D'); auto. split; [exists h'; repeat split; congruence|]. apply IHl; eauto.
Qed.
Lemma sseg_pres s s' l nx :
  (forall p h, In p l -> hd s p = Some h -> exists h', hd s' p = Some h' /\ h_nxt h' = h_nxt h) ->
  sseg s l nx -> sseg s' l nx.
Proof.
  induction l; cbn; intros E H; auto. destruct H as [(h & A & B) H].
  destruct (E a h) as (h' & A' & B'); auto. split; [exists h'; split; congruence|]. apply IHl; eauto.
Qed.
Lemma dseg_in s pv l nx p : dseg s pv l nx -> In p l -> exists h, hd s p = Some h /\ h_prv h <> None.
Proof.
  revert pv; induction l; cbn; intros pv H I; [tauto|]. destruct H as [(h & A & B & D) H], I as [->|I]; eauto.
  exists h. split; auto. congruence.
Qed.

Definition same_lists (s s' : state) : Prop :=
  front s' = front s /\ last s' = last s /\ dfront s' = dfront s /\ dlast s' = dlast s /\
  dchunks s' = dchunks s /\ dbytes s' = dbytes s.
Lemma LS_pres s s' D F : LS s D F -> same_lists s s' ->
  (forall p h, (exists b, In p (F b)) \/ In p (map fst D) -> hd s p = Some h ->
     exists h', hd s' p = Some h' /\ h_nxt h' = h_nxt h /\ ((exists b, In p (F b)) -> h_prv h' = h_prv h)) ->
  LS s' D F.
Proof.
  intros [A1 A2 A3 A4 A5 A6 A7 A8] (B1 & B2 & B3 & B4 & B5 & B6) E. split; try congruence.
  - intros b. eapply dseg_pres; [|apply A3]. intros p h I J. destruct (E p h) as (h' & K1 & K2 & K3); eauto 10.
  - eapply sseg_pres; [|apply A5]. intros p h I J. destruct (E p h) as (h' & K1 & K2 & K3); eauto 10.
Qed.
Lemma LS_seth s D F p h' : LS s D F ->
  (forall h, hd s p = Some h -> h_nxt h' = h_nxt h /\ ((forall b, ~ In p (F b)) \/ h_prv h' = h_prv h)) ->
  LS (seth c s p h') D F.
Proof.
  intros L E. eapply LS_pres; [exact L | repeat split; reflexivity|]. intros q h I J. rewrite hd_seth.
  destruct (q =? p) eqn:Q.
  - apply Z.eqb_eq in Q; subst q. destruct (E h J) as [A B]. exists h'. repeat split; auto. intros [b Ib]. destruct B as [B|B]; auto. exfalso; eapply B; eauto.
  - exists h. auto.
Qed.
Lemma LS_same s s' D F : LS s D F -> same_lists s s' -> hd s' = hd s -> LS s' D F.
Proof. intros L S E. eapply LS_pres; eauto. intros p h _ J. rewrite E. eauto. Qed.

(** *** memory *)
Lemma keep_refl P s : keep P s s.
Proof. intros x _. reflexivity. Qed.
Lemma keep_trans P s s' s'' : keep P s s' -> keep P s' s'' -> keep P s s''.
Proof. intros A B x I. rewrite B, A; auto. Qed.
Lemma keep_mem P s s' : mem s' = mem s -> keep P s s'.
Proof. intros E x _. rewrite E. reflexivity. Qed.
Lemma keep_scribble (P : Z -> Prop) s lo hi : (forall x, P x -> ~ (lo <= x < hi)) -> keep P s (scribble c s lo hi).
Proof.
  intros H x I. unfold scribble. cbn. specialize (H x I). destruct (_ && _) eqn:E; auto. exfalso. apply H. lia.
Qed.
Lemma keep_seth (P : Z -> Prop) s p h : (forall x, P x -> ~ (p - g <= x < p)) -> keep P s (seth c s p h).
Proof.
  intros H x I. unfold seth. rewrite (keep_scribble P _ _ _) ; auto. intros y J K. apply (H y J). pose proof (header_rng c W p). lia.
Qed.
Lemma keep_setnext (P : Z -> Prop) s p v s' : setnext c s p v = Ok s' -> (forall x, P x -> ~ (p - g <= x < p + 16)) -> keep P s s'.
Proof.
  unfold setnext, geth. destruct (hd s p); cbn; [|discriminate]. intros E H. injection E as <-. intros x I.
  rewrite (keep_scribble P _ _ _); auto. intros y J K. apply (H y J). pose proof (header_rng c W p). lia.
Qed.

(** *** the tiles of a kind *)
Lemma solid_mid X a l1 seg l2 Y : solid (X ++ (a, l1 ++ seg ++ l2) :: Y) =
  filter solidk (tiles X) ++ (filter solidk l1 ++ filter solidk seg ++ filter solidk l2) ++ filter solidk (tiles Y).
Proof. unfold solid. rewrite tiles_app, tiles_cons, !filter_app. reflexivity. Qed.
End Frames.
