(** Whatever modules share a name or a path: what is found was recorded for the
    same version. *)
From Coq Require Import Permutation.
From Verif Require Import Base Symcache_Model Symcache_Spec Symcache_Proofs Symcache_Proofs2
  Symcache_Proofs3 Symcache_Proofs4.
Open Scope Z_scope.

Lemma live_snoc h o p : live_ident (h ++ [o]) p = live_after p (live_ident h p) o.
Proof. unfold live_ident. rewrite fold_left_app. reflexivity. Qed.
Lemma recorded_snoc h o id sym x : recorded h id sym x -> recorded (h ++ [o]) id sym x.
Proof.
  intros (l1 & m & l2 & -> & E). exists l1, m, (l2 ++ [o]). split; [|exact E].
  rewrite <- app_assoc. reflexivity.
Qed.

Section Sound.
Variable ord : table -> table.
Hypothesis Hord : forall t, Permutation t (ord t).

Definition from (h : list op) (id : Z * Z * bytes) (tb : table) : Prop :=
  forall sym x, In x (lst tb sym) -> recorded h id sym x.
Definition file_from (h : list op) (f : bytes) : Prop :=
  exists mc es, f = text mc es /\ ok_mc mc /\ wf_tb es /\ from h (mcid mc) es.
Definition mc_from (h : list op) (p : bytes) (mc : modcache) : Prop :=
  ok_mc mc /\ wf_tb (c_table mc) /\ live_ident h p = Some (mcid mc) /\ from h (mcid mc) (c_table mc).
Definition sinv (h : list op) (s : state) : Prop :=
  NoDup (map fst (s_mods s)) /\
  (forall p n mc, In (p, (n, mc)) (s_mods s) -> mc_from h p mc) /\
  (forall p, assoc (s_mods s) p = None -> live_ident h p = None) /\
  (forall n f, assoc (s_files s) n = Some f -> file_from h f).

Lemma from_snoc h o id tb : from h id tb -> from (h ++ [o]) id tb.
Proof. intros H sym x I0. apply recorded_snoc. auto. Qed.
Lemma file_snoc h o f : file_from h f -> file_from (h ++ [o]) f.
Proof. intros (mc & es & A & B & C & D). exists mc, es. auto using from_snoc. Qed.

Lemma out_from h p mc :
  mc_from h p mc -> write_symfile ord true None mc = Ok (out ord mc) /\
  forall f, out ord mc = Some f -> file_from h f.
Proof.
  intros (Om & W & _ & Fr). split; [now apply write_text|].
  unfold out. intros f E. destruct (c_from_file mc && negb (c_appended mc)); [discriminate|].
  destruct (c_table mc) eqn:Et; [discriminate|]. rewrite <- Et in *. injection E as <-.
  exists mc, (ord (c_table mc)). split; [reflexivity|]. split; [exact Om|].
  split; [apply (wf_perm (c_table mc)); auto|].
  intros sym x. rewrite (lst_perm (c_table mc)) by auto. apply Fr.
Qed.

Lemma exit_from h l : forall files,
  (forall p n mc, In (p, (n, mc)) l -> mc_from h p mc) ->
  (forall n f, assoc files n = Some f -> file_from h f) ->
  exists files', exit_all ord l files = Ok files' /\
    forall n f, assoc files' n = Some f -> file_from h f.
Proof.
  induction l as [|[p [n mc]] l IH]; intros files Hm Hf; cbn [exit_all]; [eauto|].
  destruct (out_from h p mc (Hm p n mc (or_introl eq_refl))) as [Ew Ho].
  rewrite Ew. cbn [bind]. apply IH.
  - intros p' n' mc' I0. apply (Hm p' n'). now right.
  - intros n' f. destruct (out ord mc) as [g|]; [|apply Hf]. rewrite assoc_update.
    destruct (str_eqb n' n); [|apply Hf]. intros [= <-]. auto.
Qed.

Lemma sstep h s o :
  sinv h s -> ok_op o -> (forall m, op_image o = Some m -> ok_image m) ->
  exists x, step ord s o = Ok x /\
    match x with Aborted => True | Running s' => sinv (h ++ [o]) s' end.
Proof.
  intros (N & Hm & Hn & Hf) Oo Om.
  assert (Hf' : forall n f, assoc (s_files s) n = Some f -> file_from (h ++ [o]) f).
  { intros n f E. apply file_snoc. eauto. }
  destruct o as [m|m|m|m sym offs| |]; cbn [op_image] in Om; cbn [step].
  - specialize (Om m eq_refl). unfold module_load.
    destruct (m_big m) eqn:Eb; cbn [negb].
    2:{ eexists. split; [reflexivity|]. cbn iota. split; [exact N|]. split; [|split; [|exact Hf']].
        - intros p n mc I0. destruct (Hm p n mc I0) as (A & B & C & D).
          split; [exact A|]. split; [exact B|]. split; [|now apply from_snoc].
          rewrite live_snoc. cbn. rewrite Eb. exact C.
        - intros p E. rewrite live_snoc. cbn. rewrite Eb. cbn. auto. }
    destruct (assoc (s_mods s) (m_path m)) as [[n0 mc0]|] eqn:Ea.
    { eexists. split; [reflexivity|]. cbn iota. split; [exact N|]. split; [|split; [|exact Hf']].
      - intros p n mc I0. destruct (Hm p n mc I0) as (A & B & C & D).
        split; [exact A|]. split; [exact B|]. split; [|now apply from_snoc].
        rewrite live_snoc. cbn. rewrite Eb, C. cbn. now destruct (str_eqb (m_path m) p).
      - intros p E. rewrite live_snoc. cbn. rewrite Eb. cbn.
        destruct (str_eqb_spec (m_path m) p) as [<-|]; [congruence|auto]. }
    set (mc0 := mkMC false false [] (m_size m) (m_time m) (m_md5 m) false).
    assert (Fin : forall ok tb dbg, wf_tb tb -> from h (ident m) tb ->
       sinv (h ++ [Load m]) (mkSt (update (s_mods s) (m_path m)
              (m_name m, mkMC ok false tb (m_size m) (m_time m) (m_md5 m) dbg)) (s_files s))).
    { intros ok tb dbg W Fr. split; [now apply update_keys|]. split; [|split; [|exact Hf']].
      - intros p n mc I0. cbn [s_mods] in I0. unfold update in I0. destruct I0 as [I0|I0].
        + injection I0 as <- <- <-. split; [exact Om|]. split; [exact W|].
          split; [|apply from_snoc; exact Fr].
          rewrite live_snoc. cbn. rewrite Eb, str_eqb_refl, (Hn _ Ea). reflexivity.
        + unfold remove in I0. apply filter_In in I0 as [I0 Nk]. cbn in Nk.
          destruct (Hm p n mc I0) as (A & B & C & D).
          split; [exact A|]. split; [exact B|]. split; [|now apply from_snoc].
          rewrite live_snoc. cbn. rewrite Eb, C. cbn. now destruct (str_eqb (m_path m) p).
      - intros p E. cbn [s_mods] in E. rewrite assoc_update in E. rewrite live_snoc. cbn.
        rewrite Eb. cbn. destruct (str_eqb_spec p (m_path m)) as [Ep|Np]; [discriminate|].
        destruct (str_eqb_spec (m_path m) p); [congruence|]. auto. }
    assert (Em : forall ok dbg, sinv (h ++ [Load m]) (mkSt (update (s_mods s) (m_path m)
              (m_name m, mkMC ok false [] (m_size m) (m_time m) (m_md5 m) dbg)) (s_files s))).
    { intros ok dbg. apply Fin; [split; [constructor|intros ? ? []]|intros ? ? []]. }
    destruct (assoc (s_files s) (m_name m)) as [f|] eqn:Ef.
    + destruct (Hf _ _ Ef) as (mc & es & -> & Okm & We & Fe).
      pose proof (read_text mc es mc0 (m_syms m) Okm We eq_refl eq_refl) as R.
      destruct (same_version_spec mc mc0) as [Ev|Nv]; cbn [andb] in R.
      2:{ rewrite R. cbn [bind]. eexists. split; [reflexivity|]. apply Em. }
      destruct (c_dbg mc || negb (m_syms m)); cbn [andb] in R.
      2:{ rewrite R. cbn [bind]. eexists. split; [reflexivity|]. apply Em. }
      destruct R as (tb & Er & W & L). rewrite Er. cbn [bind]. eexists. split; [reflexivity|].
      apply Fin; [exact W|]. intros sy x I0. rewrite L in I0. apply Fe in I0.
      rewrite Ev in I0. exact I0.
    + cbn [read_symfile bind read_fail]. eexists. split; [reflexivity|]. apply Em.
  - unfold module_save. destruct (assoc (s_mods s) (m_path m)) as [[n mc]|] eqn:Ea.
    + pose proof (assoc_in _ _ _ Ea) as Ia. destruct (out_from h _ mc (Hm _ _ _ Ia)) as [Ew Ho].
      rewrite Ew. cbn [bind]. eexists. split; [reflexivity|]. cbn iota. split; [exact N|].
      split; [|split].
      * intros p n' mc' I0. destruct (Hm p n' mc' I0) as (A & B & C & D).
        split; [exact A|]. split; [exact B|]. split; [|now apply from_snoc].
        rewrite live_snoc. exact C.
      * intros p E. rewrite live_snoc. cbn. auto.
      * intros n' f. cbn [s_files]. destruct (out ord mc) as [g|]; [|apply Hf'].
        rewrite assoc_update. destruct (str_eqb n' (m_name m)); [|apply Hf'].
        intros [= <-]. apply file_snoc. auto.
    + cbn [bind]. eexists. split; [reflexivity|]. cbn iota. split; [exact N|].
      split; [|split; [|exact Hf']].
      * intros p n' mc' I0. destruct (Hm p n' mc' I0) as (A & B & C & D).
        split; [exact A|]. split; [exact B|]. split; [|now apply from_snoc].
        rewrite live_snoc. exact C.
      * intros p E. rewrite live_snoc. cbn. auto.
  - unfold module_save. destruct (assoc (s_mods s) (m_path m)) as [[n mc]|] eqn:Ea.
    + pose proof (assoc_in _ _ _ Ea) as Ia. destruct (out_from h _ mc (Hm _ _ _ Ia)) as [Ew Ho].
      rewrite Ew. cbn [bind]. eexists. split; [reflexivity|]. cbn iota.
      split; [now apply remove_keys|]. split; [|split].
      * intros p n' mc' I0. cbn [s_mods] in I0. unfold remove in I0.
        apply filter_In in I0 as [I0 Nk]. cbn in Nk.
        destruct (Hm p n' mc' I0) as (A & B & C & D).
        split; [exact A|]. split; [exact B|]. split; [|now apply from_snoc].
        rewrite live_snoc. cbn. destruct (str_eqb_spec (m_path m) p) as [<-|]; [|exact C].
        rewrite str_eqb_refl in Nk. discriminate.
      * intros p E. cbn [s_mods] in E. rewrite assoc_remove in E. rewrite live_snoc. cbn.
        destruct (str_eqb_spec (m_path m) p); [auto|].
        destruct (str_eqb_spec p (m_path m)); [congruence|auto].
      * intros n' f. cbn [s_files]. destruct (out ord mc) as [g|]; [|apply Hf'].
        rewrite assoc_update. destruct (str_eqb n' (m_name m)); [|apply Hf'].
        intros [= <-]. apply file_snoc. auto.
    + cbn [bind]. eexists. split; [reflexivity|]. cbn iota. split; [exact N|].
      split; [|split; [|exact Hf']].
      * intros p n' mc' I0. destruct (Hm p n' mc' I0) as (A & B & C & D).
        split; [exact A|]. split; [exact B|]. split; [|now apply from_snoc].
        rewrite live_snoc. cbn. destruct (str_eqb_spec (m_path m) p) as [<-|]; [|exact C].
        apply (assoc_nodup _ _ _ N) in I0. congruence.
      * intros p E. rewrite live_snoc. cbn. destruct (str_eqb (m_path m) p); auto.
  - destruct Oo as [Hs Ho]. unfold cache_add.
    assert (Keep : forall p n mc, In (p, (n, mc)) (s_mods s) ->
              mc_from (h ++ [Add m sym offs]) p mc).
    { intros p n mc I0. destruct (Hm p n mc I0) as (A & B & C & D).
      split; [exact A|]. split; [exact B|]. split; [|now apply from_snoc].
      rewrite live_snoc. exact C. }
    destruct (assoc (s_mods s) (m_path m)) as [[n mc]|] eqn:Ea.
    2:{ eexists. split; [reflexivity|]. cbn iota. split; [exact N|]. split; [exact Keep|].
        split; [|exact Hf']. intros p E. rewrite live_snoc. cbn. auto. }
    pose proof (assoc_in _ _ _ Ea) as Ia. destruct (Hm _ _ _ Ia) as (A & B & C & D).
    pose proof (symbol_add_spec _ _ _ B Hs Ho) as Sp.
    destruct (iadd (lst (c_table mc) sym) offs) as [l|] eqn:Ei.
    2:{ rewrite Sp. eexists. split; [reflexivity|]. exact I. }
    destruct Sp as (tb' & ch & -> & W' & Ch & L'). eexists. split; [reflexivity|]. cbn iota.
    split; [now apply update_keys|]. split; [|split; [|exact Hf']].
    + intros p n' mc' I0. cbn [s_mods] in I0. unfold update in I0. destruct I0 as [I0|I0].
      * injection I0 as <- <- <-. split; [exact A|]. split; [exact W'|].
        split; [rewrite live_snoc; exact C|].
        intros sy x Ix. cbn [c_table] in Ix. rewrite L' in Ix.
        destruct (str_eqb_spec sy sym) as [->|]; [|apply recorded_snoc, D, Ix].
        destruct (iadd_in _ _ _ _ Ei Ix) as [->|Ix']; [|apply recorded_snoc, D, Ix'].
        exists h, m, []. split; [reflexivity|exact C].
      * unfold remove in I0. apply filter_In in I0 as [I0 _]. eauto.
    + intros p E. cbn [s_mods] in E. rewrite assoc_update in E. rewrite live_snoc. cbn.
      destruct (str_eqb p (m_path m)); [discriminate|auto].
  - unfold cache_exit.
    destruct (exit_from h (s_mods s) (s_files s)) as (files' & E & Hx); auto.
    rewrite E. cbn [bind]. eexists. split; [reflexivity|]. cbn iota. split; [constructor|].
    split; [intros ? ? ? []|]. split.
    + intros p _. rewrite live_snoc. reflexivity.
    + intros n f Ef. apply file_snoc. eauto.
  - eexists. split; [reflexivity|]. cbn iota. split; [constructor|].
    split; [intros ? ? ? []|]. split; [|exact Hf'].
    intros p _. rewrite live_snoc. reflexivity.
Qed.

Lemma srun l : forall h s, sinv h s ->
  Forall (fun o => ok_op o /\ forall m, op_image o = Some m -> ok_image m) l ->
  exists x, run ord s l = Ok x /\
    match x with Aborted => True | Running s' => sinv (h ++ l) s' end.
Proof.
  induction l as [|o l IH]; intros h s Iv F; cbn [run].
  - eexists. split; [reflexivity|]. cbn iota. now rewrite app_nil_r.
  - inversion F as [|? ? [Ho Hi] F']; subst.
    destruct (sstep h s o Iv Ho Hi) as (x & E & Hx). rewrite E. cbn [bind].
    destruct x as [|s']; [eexists; split; [reflexivity|exact I]|].
    destruct (IH (h ++ [o]) s' Hx F') as (y & Ey & Hy). exists y. split; [exact Ey|].
    destruct y; [exact I|]. now rewrite <- app_assoc in Hy.
Qed.

Theorem sound l :
  Forall (fun o => ok_op o /\ forall m, op_image o = Some m -> ok_image m) l ->
  exists x, run ord (mkSt [] []) l = Ok x /\
    forall s, x = Running s -> forall m sym, exists r, cache_lookup s m sym = Ok r /\
      forall offs, r = Some offs -> exists id, live_ident l (m_path m) = Some id /\
        NoDup offs /\ forall o, In o offs -> recorded l id sym o.
Proof.
  intros F.
  assert (I0 : sinv [] (mkSt [] [])).
  { split; [constructor|]. split; [intros ? ? ? []|]. split; [reflexivity|discriminate]. }
  destruct (srun l [] _ I0 F) as (x & E & Hx). exists x. split; [exact E|].
  intros s -> m sym. cbn [app] in Hx. destruct Hx as (_ & Hm & _ & _). unfold cache_lookup.
  destruct (assoc (s_mods s) (m_path m)) as [[n mc]|] eqn:Ea; [|eexists; split; [reflexivity|discriminate]].
  apply assoc_in in Ea. destruct (Hm _ _ _ Ea) as (_ & W & C & D).
  pose proof (lst_find _ sym W) as Fd. specialize (D sym). unfold lst in D.
  destruct (sym_find (c_table mc) sym) as [o|] eqn:Ef; [|eexists; split; [reflexivity|discriminate]].
  destruct Fd as [_ En]. rewrite En, Z.ltb_irrefl. eexists. split; [reflexivity|].
  intros offs [= <-]. exists (mcid mc). split; [exact C|]. split; [|exact D].
  apply sym_find_in in Ef. destruct (proj2 W _ _ Ef) as [_ ((_ & Nd & _) & _)]. exact Nd.
Qed.

Theorem cut l s n h r g a b c :
  Forall (fun o => ok_op o /\ forall m, op_image o = Some m -> ok_image m) l ->
  run ord (mkSt [] []) l = Ok (Running s) -> assoc (s_files s) n = Some (h ++ r) ->
  h = a ++ NL :: b ++ NL :: c -> len (h ++ g) mod 2 ^ 32 <> len (h ++ r) mod 2 ^ 32 ->
  forall m, m_name m = n -> exists s', module_load (mkSt [] [(n, h ++ g)]) m = Ok (Running s') /\
    forall m' sym, cache_lookup s' m' sym = Ok None.
Proof.
  intros F E En Eh Hl m Em.
  assert (I0 : sinv [] (mkSt [] [])).
  { split; [constructor|]. split; [intros ? ? ? []|]. split; [reflexivity|discriminate]. }
  destruct (srun l [] _ I0 F) as (x & E' & Hx). rewrite E in E'. injection E' as <-.
  cbn [app] in Hx. destruct Hx as (_ & _ & _ & Hf).
  destruct (Hf _ _ En) as (mc & es & Et & Okm & _ & _).
  unfold module_load. cbn [s_mods s_files assoc]. rewrite Em.
  assert (Rf : str_eqb n n = true) by (destruct (str_eqb_spec n n); congruence).
  rewrite Rf. destruct (m_big m); cbn [negb].
  2:{ eexists. split; [reflexivity|]. reflexivity. }
  rewrite (read_cut mc es _ _ h r g b a c) by auto. cbn [bind].
  eexists. split; [reflexivity|]. intros m' sym. unfold cache_lookup. cbn [s_mods].
  rewrite assoc_update. destruct (str_eqb (m_path m') (m_path m)); reflexivity.
Qed.
End Sound.
