(** Copying. *)
From Verif Require Import Base Umbra32_Model Umbra32_Spec Umbra32_Proofs Umbra32_Proofs2 Umbra32_Proofs3
  Umbra32_Proofs4 Umbra32_Proofs5.
Open Scope Z_scope.

Section Copy.
Variable m : umap.
Hypothesis Hm : map_ok m.
Notation SL := (SLOTS (sc m)).
Notation slot := (slot (sc m)).

Lemma updated_ext_in s V V' x y F G :
  (forall i, 0 <= i < Umbra32_Spec.slot s y - Umbra32_Spec.slot s x -> F i = G i) ->
  updated s V V' x y F -> updated s V V' x y G.
Proof.
  intros E U k. destruct (U k) as [U1 U2]. split; [|exact U2]. intros W. rewrite (U1 W). apply E.
  unfold within in W. lia.
Qed.

Lemma copy_dest_range s d n y z : range_ok (sc m) s n -> range_ok (sc m) d n -> (d - s) mod 65536 <> 1 ->
  piece s n y z -> range_ok (sc m) (d + (y - s)) (z - y) /\
  slot (d + (y - s)) = slot d + (slot y - slot s) /\ slot (d + (z - s)) = slot d + (slot z - slot s).
Proof.
  intros Rs Rd NE PC. pose proof (piece_range m s n y z Rs PC) as R1.
  destruct (piece_den m s n y z Rs PC) as [PD1 PD2].
  pose proof (ro_wx _ _ _ Rs) as Ws. pose proof (ro_wx _ _ _ Rd) as Wd.
  pose proof (ro_top _ _ _ Rd) as Td. pose proof (ro_x _ _ _ Rd) as Xd.
  assert (S1 : slot (d + (y - s)) = slot d + (slot y - slot s)).
  { rewrite slot_whole_add by (assumption || (apply den_sub; assumption)).
    rewrite (slot_whole _ s y) by assumption. reflexivity. }
  assert (S2 : slot (d + (z - s)) = slot d + (slot z - slot s)).
  { rewrite slot_whole_add by (assumption || (apply den_sub; assumption)).
    rewrite (slot_whole _ s z) by assumption. reflexivity. }
  split; [|split; assumption].
  pose proof PC as [P1 P2 P3 P4 P5 P6]. constructor.
  - slia.
  - slia.
  - slia.
  - exact (ro_size _ _ _ R1).
  - apply den_add; [exact Wd|apply den_sub; assumption].
  - exact (ro_wn _ _ _ R1).
  - replace (d + (y - s) + (z - y) - 1) with (d + (z - s) - 1) by ring.
    destruct P6 as [E|E].
    + rewrite E. replace (d + (s + n - s) - 1) with (d + n - 1) by ring. exact (ro_last _ _ _ Rd).
    + rewrite E. intros X. apply NE.
      replace (d + (y / 65536 * 65536 + 65536 - s) - 1) with (d - s - 1 + (y / 65536 + 1) * 65536) in X by ring.
      rewrite Z.mod_add in X by (clear; lia).
      replace (d - s) with (d - s - 1 + 1) by ring. rewrite Z.add_mod, X by (clear; lia). reflexivity.
Qed.

(** Where a block may be read from. *)
Lemma src_here st A V y z T D : inv m st A V -> 0 <= y < 2 ^ 32 -> A (y / 65536) ->
  geo m st y z (slot (y mod 65536)) T -> (D <= slot y \/ slot y + T <= D) ->
  src m (At (app_to_shadow m st y)) (fun k => V (slot y + k)) T D st A V 0.
Proof.
  intros I Hy Ay [G1 G2 G3 G4 G5 G6] HD.
  destruct (xl_off m Hm st A V y I Hy) as (Hi & _ & E).
  destruct (kind_of m Hm st A V I _ Hi) as [[|w|] K]; cbn [src].
  - destruct K as (N & _). contradiction.
  - destruct K as (_ & S & _). left. exists (get_block m st (y / 65536)), w, (slot (y mod 65536)).
    do 4 (split; [assumption|]). intros k X. rewrite <- G4.
    replace (y / 65536 * SL + slot (y mod 65536) + k) with (y / 65536 * SL + (slot (y mod 65536) + k)) by ring.
    apply (special_values m st A V _ w I Hi S).
    remember (slot (y mod 65536)) as o. unfold off. slia.
  - right. exists (y / 65536), (slot (y mod 65536)). do 5 (split; [assumption|]).
    rewrite G4. split; [exact HD|]. reflexivity.
Qed.

Lemma copy_ok st A V s d n : inv m st A V -> range_ok (sc m) s n -> range_ok (sc m) d n -> s <> d ->
  ~ (s < d < s + n) -> (d - s) mod 65536 <> 1 ->
  holds m (copy m st s d n) (fun r => let '(st', e, q) := r in
    exists es ed p V', reach A s n es /\ reach A d n ed /\ p = Z.min (es - s) (ed - d) /\
      ok_iff e (p = n) /\ inv m st' A V' /\
      updated (sc m) V V' d (d + p) (fun i => V (slot s + i)) /\
      (e = S_ok -> q = slot (s + n) - slot s)).
Proof.
  intros I Rs Rd NEQ NOV NE1. pose proof Rs as [H0 Hn Ht Hs W1 W2 HL].
  pose proof (ro_x _ _ _ Rd) as Hd. pose proof (ro_top _ _ _ Rd) as Htd.
  unfold copy. rewrite !no_ovf by slia. cbn [orb].
  assert (E0 : w32 (n - 1) = n - 1) by (apply w32_small; slia). rewrite E0.
  assert (E1 : w32 (s + (n - 1)) = s + n - 1) by (rewrite w32_small by slia; ring). rewrite E1.
  assert (OV : (s <? d) && (d <=? s + n - 1) = false).
  { apply andb_false_iff. destruct (Z.ltb_spec s d); [right; apply Z.leb_gt|left; reflexivity]. slia. }
  rewrite OV. cbn [obind].
  set (F := fun i => V (slot s + i)).
  set (P := fun (y : Z) (a : ustate * Z * Z) => s <= y /\ ok_all A s y /\ ok_all A d (d + (y - s)) /\
     snd (fst a) = w32 (d + (y - s)) /\ snd a = slot y - slot s /\
     exists V', inv m (fst (fst a)) A V' /\ updated (sc m) V V' d (d + (y - s)) F).
  set (Q := fun (y : Z) (a : ustate * Z * Z) (e : status) => e = S_param /\ exists p V', 0 <= p < n /\
     ok_all A s (s + p) /\ ok_all A d (d + p) /\ (~ A ((s + p) / 65536) \/ ~ A ((d + p) / 65536)) /\
     inv m (fst (fst a)) A V' /\ updated (sc m) V V' d (d + p) F).
  eapply holds_bind.
  - apply (app_range_ok m s n H0 Hn Ht HL _ P Q).
    + intros y z ((s1, dd), tot) PC (Hy & OS & OD & ED & ET & V1 & I1 & U1). cbn [fst snd] in *.
      assert (Pyz : y < z <= s + n) by (destruct PC; slia).
      assert (Hy2 : 0 <= y < 2 ^ 32) by slia.
      destruct (piece_block s n y z H0 Ht PC) as [Hi HB].
      destruct (default_test m Hm s1 A V1 y I1 Hy2) as [[-> NA]|[-> Ay]].
      * cbn [holds fst snd]. unfold Q. split; [reflexivity|]. exists (y - s), V1. cbn [fst].
        replace (s + (y - s)) with y by ring. split; [slia|]. auto 10.
      * destruct (copy_dest_range s d n y z Rs Rd NE1 PC) as (RD & SD1 & SD2).
        assert (ED' : dd = d + (y - s)) by (rewrite ED; apply w32_small; slia).
        clear ED. rewrite ED'. clear ED' dd. set (dd := d + (y - s)) in *.
        pose proof (piece_geo m s1 s n y z Rs PC) as G. rewrite (g_size _ _ _ _ _ _ G).
        assert (Edz : d + (z - s) = dd + (z - y)) by (unfold dd; ring). rewrite Edz in SD2.
        pose proof (slot_mono (sc m) s y Hy) as M1. pose proof (slot_mono (sc m) y z ltac:(slia)) as M2.
        pose proof (slot_mono (sc m) z (s + n) ltac:(slia)) as M3.
        pose proof (slot_mono (sc m) d dd ltac:(unfold dd; slia)) as M4.
        assert (SEP : slot dd <= slot y \/ slot z <= slot d).
        { destruct (Z.lt_ge_cases d s); [left|right]; apply slot_mono; unfold dd; slia. }
        assert (HS : src m (At (app_to_shadow m s1 y)) (fun k => V1 (slot y + k)) (slot z - slot y)
                         (slot dd) s1 A V1 0).
        { apply (src_here s1 A V1 y z); [assumption..|]. clear -SEP M4. lia. }
        eapply holds_bind.
        { refine (write_ok m Hm s1 A V1 dd (z - y) _ _ _ I1 RD _ HS).
          rewrite SD2, SD1. ring. }
        intros ((s2, e), q) (t & V2 & RE & OK & I2 & U2 & _ & QT).
        assert (F1 : forall i, 0 <= i < slot z - slot y -> V1 (slot y + i) = V (slot y + i)).
        { intros i X. apply (proj2 (U1 (slot y + i))). unfold within. fold dd. clear -SEP X M4. lia. }
        assert (Ft : dd <= t <= dd + (z - y)) by (destruct RE as (RE & _); exact RE).
        assert (UU : updated (sc m) V V2 d t F).
        { apply (updated_then (sc m) V V1 V2 d dd t F); [unfold dd; slia|slia|exact U1|].
          eapply updated_ext_in; [|exact U2]. intros i X. cbv beta. unfold F.
          pose proof (slot_mono (sc m) t (dd + (z - y)) ltac:(slia)) as M5.
          rewrite F1 by (clear -X M5 SD1 SD2; lia). f_equal. rewrite SD1. ring. }
        assert (OD2 : ok_all A d t).
        { intros w W. destruct (Z.lt_ge_cases w dd); [apply OD; unfold dd in *; slia|].
          destruct RE as (_ & RE & _). apply RE. slia. }
        destruct OK as [[-> ->]|[-> NT]].
        { cbn [holds fst snd]. unfold P. cbn [fst snd]. rewrite Edz. split; [slia|].
          split; [apply (ok_all_grow A s n y z); assumption|]. split; [exact OD2|]. split; [reflexivity|].
          split.
          - rewrite (QT eq_refl), ET. rewrite w32_small; [ring|].
            rewrite slot_whole_add in M3 by assumption.
            assert (BN : slot n <= n * num (sc m)).
            { destruct (numden (sc m)) as [N1 N2]. unfold Umbra32_Spec.slot. apply Z.div_le_upper_bound; [exact N2|].
              clear -Hn N1 N2. nia. }
            clear -M1 M2 M3 BN Hs. lia.
          - exists V2. split; [exact I2|exact UU]. }
        { cbn [holds fst snd]. unfold Q. split; [reflexivity|]. exists (t - d), V2. cbn [fst].
          replace (d + (t - d)) with t by ring. destruct RE as (_ & _ & RE).
          split; [unfold dd in *; slia|]. split.
          - intros w W. apply (ok_all_grow A s n y z H0 Ht PC OS Ay). unfold dd in *. slia.
          - split; [exact OD2|]. split; [right; apply RE; slia|]. auto. }
    + unfold P. cbn [fst snd]. split; [slia|]. split; [intros t T; slia|]. split; [intros t T; slia|].
      replace (d + (s - s)) with d by ring. split; [symmetry; apply w32_small; slia|]. split; [ring|].
      exists V. split; [exact I|apply updated_nil].
  - intros (((s1, dd), tot), [e|]) H; cbn [fst snd] in H; cbn [holds].
    + destruct H as (y & Hy & -> & p & V' & Hp & OS & OD & NA & I' & U'). cbn [fst] in *.
      destruct (reach_exists m Hm st A V s n I H0 ltac:(slia) Ht) as (es & RS).
      destruct (reach_exists m Hm st A V d n I Hd ltac:(slia) Htd) as (ed & RD).
      exists es, ed, p, V'. split; [exact RS|]. split; [exact RD|].
      assert (L1 : s + p <= es).
      { destruct RS as (R1 & R2 & R3). destruct (Z.lt_ge_cases es (s + p)) as [L|]; [exfalso|slia].
        apply R3; [slia|]. apply OS. slia. }
      assert (L2 : d + p <= ed).
      { destruct RD as (R1 & R2 & R3). destruct (Z.lt_ge_cases ed (d + p)) as [L|]; [exfalso|slia].
        apply R3; [slia|]. apply OD. slia. }
      split.
      { destruct NA as [NA|NA].
        - assert (es <= s + p); [|slia]. destruct RS as (R1 & R2 & R3).
          destruct (Z.lt_ge_cases (s + p) es) as [L|]; [exfalso; apply NA; apply R2; slia|slia].
        - assert (ed <= d + p); [|slia]. destruct RD as (R1 & R2 & R3).
          destruct (Z.lt_ge_cases (d + p) ed) as [L|]; [exfalso; apply NA; apply R2; slia|slia]. }
      split; [right; split; [reflexivity|slia]|]. split; [exact I'|]. split; [exact U'|discriminate].
    + destruct H as (_ & OS & OD & _ & ET & V' & I' & U'). cbn [fst snd] in *.
      replace (d + (s + n - s)) with (d + n) in * by ring.
      exists (s + n), (d + n), n, V'. split; [split; [slia|split; [exact OS|slia]]|].
      split; [split; [slia|split; [exact OD|slia]]|]. split; [slia|]. split; [left; auto|].
      split; [exact I'|]. split; [exact U'|]. intros _. exact ET.
Qed.
End Copy.
