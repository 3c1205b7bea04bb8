(** The translation on a started map. *)
From Verif Require Import Base Mem Umbra_Model Umbra_Spec Umbra_Proofs1 Umbra_Proofs2 Umbra_Proofs3
  Umbra_Proofs4 Umbra_Proofs5 Umbra_Proofs7 Umbra_Proofs8 Umbra_Proofs9.
From Coq Require Import Lia.
Open Scope Z_scope.

Lemma translation m st x : map_ok m -> started m st -> in_app (segs st) x ->
  xl8 m x = first_shadow m x /\ xl8_inline m x = first_shadow m x /\
  xl8_back m (xl8 m x) = x mod 2 ^ 44 - x mod den (sc m) /\
  (forall a, shadow_of m x a -> in_shadow (segs st) a /\ ~ in_app (segs st) a) /\
  (forall y a, in_app (segs st) y -> shadow_of m x a -> shadow_of m y a -> x / den (sc m) = y / den (sc m)).
Proof.
  intros Hm S Hx. pose proof (started_ok m st Hm S) as O. pose proof (state_layout m st O) as L.
  destruct (in_app_at m _ x L Hx) as (i & g & Hi & Hu & Hr & S1).
  destruct (so_range m g S1) as (R0 & R1 & R2).
  assert (E1 : xl8 m x = first_shadow m x) by (apply xl8_eq; [exact Hm|eapply seg_special; eauto]).
  pose proof (mod44 x) as M44. destruct (disp_facts m Hm) as (Hd & q & Hq).
  assert (XD : (x mod 2 ^ 44) mod den (sc m) = x mod den (sc m)).
  { clear. destruct (sc m); cbn [den]; [| | |rewrite !Z.mod_1_r; reflexivity..].
    - change (2 ^ 44) with (8 * 2 ^ 41). rewrite Z.rem_mul_r by lia. rewrite Z.mul_comm, Z_mod_plus_full, Z.mod_mod by lia. reflexivity.
    - change (2 ^ 44) with (4 * 2 ^ 42). rewrite Z.rem_mul_r by lia. rewrite Z.mul_comm, Z_mod_plus_full, Z.mod_mod by lia. reflexivity.
    - change (2 ^ 44) with (2 * 2 ^ 43). rewrite Z.rem_mul_r by lia. rewrite Z.mul_comm, Z_mod_plus_full, Z.mod_mod by lia. reflexivity. }
  split; [exact E1|]. split; [|split; [|split]].
  - unfold xl8_inline, first_shadow. rewrite land_mask. revert M44 Hd. generalize (x mod 2 ^ 44) (disp m). intros p d M44 Hd.
    unfold w64, W64. rewrite (Z.mod_small (p + d)) by (clear - M44 Hd; lia).
    destruct (sc m); cbn [shift num den]; rewrite ?Z.shiftr_div_pow2, ?Z.shiftl_mul_pow2, ?Z.mul_1_r, ?Z.div_1_r by (clear; lia);
      try reflexivity.
    rewrite Z.mod_small by (clear - M44 Hd; lia). reflexivity.
  - rewrite E1. rewrite <- XD. unfold first_shadow, xl8_back. clear E1 XD. revert M44 Hd Hq.
    generalize (x mod 2 ^ 44) (disp m). intros p d M44 Hd Hq. unfold w64, W64.
    clear - M44 Hd Hq. destruct (sc m); cbn [num den]; rewrite ?Z.shiftr_div_pow2, ?Z.shiftl_mul_pow2, ?Z.mul_1_r, ?Z.div_1_r, ?Z.mod_1_r by lia.
    + change (2 ^ 3) with 8. rewrite (Z.mod_small ((p + d) / 8 * 8)) by lia. rewrite Z.mod_small by lia. lia.
    + change (2 ^ 2) with 4. rewrite (Z.mod_small ((p + d) / 4 * 4)) by lia. rewrite Z.mod_small by lia. lia.
    + change (2 ^ 1) with 2. rewrite (Z.mod_small ((p + d) / 2 * 2)) by lia. rewrite Z.mod_small by lia. lia.
    + rewrite Z.mod_small by lia. lia.
    + change (2 ^ 1) with 2. rewrite Z.div_mul by lia. rewrite Z.mod_small by lia. lia.
  - intros a Ha. pose proof (seg_shadow_in m g x a Hm S1 Hr Ha) as A. split.
    + exists i, g. auto.
    + intros (j & h & Hj & Hv & Hq'). exact (lo_app_sh m _ L j i h g Hj Hi Hu a Hq' A).
  - intros y a Hy Hs1 Hs2. eapply gran_inj; eauto.
Qed.

(** Two maps of the same scale never share a shadow byte. *)
Lemma maps_apart m m' x y a : map_ok m -> map_ok m' -> sc m = sc m' -> pie_alt m = pie_alt m' -> idx m <> idx m' ->
  shadow_of m x a -> shadow_of m' y a -> False.
Proof.
  intros Hm Hm' Es Ep Ei H1 H2. unfold shadow_of, first_shadow, disp in *. rewrite <- Es, <- Ep in H2.
  pose proof (mod44 x) as Mx. pose proof (mod44 y) as My.
  revert Mx My H1 H2. generalize (x mod 2 ^ 44) (y mod 2 ^ 44). intros p q Mx My.
  destruct (mo_idx m Hm) as [E|E]; destruct (mo_idx m' Hm') as [E'|E']; rewrite E, E' in *; try congruence;
    destruct (sc m), (pie_alt m);
    cbn [num den Z.ltb Z.compare];
    match goal with |- context [map_disp ?s ?b] => let v := eval vm_compute in (map_disp s b) in change (map_disp s b) with v end;
    repeat match goal with |- context [to_app ?s ?b] => let v := eval vm_compute in (to_app s b) in change (to_app s b) with v end;
    intros; lia.
Qed.
