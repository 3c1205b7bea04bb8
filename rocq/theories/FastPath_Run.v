(** From runs on the named machine to statements about the generated code. *)
From Verif Require Import Base ShadowTables_Model FastPath_Model FastPath_Spec FastPath_Abs.
Open Scope Z_scope.

Lemma gpr_refl g : gpr_eqb g g = true. Proof. destruct g; reflexivity. Qed.
Lemma gpr_true a b : gpr_eqb a b = true -> a = b. Proof. destruct a, b; (reflexivity || discriminate). Qed.
Lemma gpr_sym a b : gpr_eqb a b = gpr_eqb b a. Proof. destruct a, b; reflexivity. Qed.
Lemma gpr_neq a b : a <> b -> gpr_eqb a b = false.
Proof. destruct (gpr_eqb a b) eqn:E; [|reflexivity]. apply gpr_true in E. congruence. Qed.

(** [arun] with the branches outermost. *)
Fixpoint brun (u : aworld) (skip : option label) (p : list ins) (a : amach) : ares :=
  match p with
  | nil => match skip with None => ADone a | Some _ => AStuck end
  | i :: q =>
      match skip with
      | Some l =>
          match i with
          | Lab l' => brun u (if label_eqb l l' then None else skip) q a
          | _ => brun u skip q a
          end
      | None =>
          match i with
          | Jslow E => match az a with Some z => if z then AToSlow else brun u None q a | None => AStuck end
          | Jslow NE => match az a with Some z => if z then brun u None q a else AToSlow | None => AStuck end
          | Jcc E l =>
              match az a with Some z => if z then brun u (Some l) q a else brun u None q a | None => AStuck end
          | Jcc NE l =>
              match az a with Some z => if z then brun u None q a else brun u (Some l) q a | None => AStuck end
          | _ => match aexec u i a with AGo a' => brun u None q a' | _ => AStuck end
          end
      end
  end.

Lemma brun_ok u p : forall skip a, brun u skip p a = AStuck \/ brun u skip p a = arun u skip p a.
Proof.
  induction p as [|i p IH]; intros skip a; [right; reflexivity|]. destruct skip as [l|]; [destruct i; apply IH|].
  destruct i as [ | | | | | | | | | | | | | | | | | | |[]|[] l| ]; cbn [brun arun];
    try (destruct (aexec u _ a); (apply IH || (left; reflexivity)));
    cbn [aexec]; destruct (az a) as [[]|]; cbn [holds negb]; try apply IH; right; reflexivity.
Qed.

(** Two addresses by their low bytes. *)
Definition uw (x y : byte) (app : Z -> bool) : aworld :=
  {| u_lo := fun k => match k with Prim => x | Second => y end; u_app := app |}.
Definition start0 (s : gpr -> byte) (f p q : byte) : amach :=
  {| a1 := P None None false; a2 := P None None false; a3 := P None None false; az := None;
     aslot := s; afl := f; aprim := p; asec := q; adirty := false |}.
Definition low2 (x : byte) : Z :=
  match x with B a b _ _ _ _ _ _ => (if a then 1 else 0) + (if b then 2 else 0) end.
Definition aview (x y : byte) (a : amach) (q : byte) : view :=
  {| v_slot := aslot a; v_fl := afl a; v_mem := aprim a; v_at := low2 x; v_mem2 := q; v_at2 := low2 y |}.

Definition good (i : option (list ins * bool * list ins)) (mem : bool) (Fine : view -> Prop)
    (Post : (Z -> bool) -> view -> view -> Prop) : Prop :=
  match i with
  | None => False
  | Some (front, b, back) => b = mem /\ forall x y app s f p q,
      match brun (uw x y app) None (front ++ back) (start0 s f p q) with
      | ADone a => forall q', Post app (aview x y (start0 s f p q) q) (aview x y a q')
      | AToSlow => ~ Fine (aview x y (start0 s f p q) q)
      | AStuck => False
      end
  end.

(** ** Putting the checks of the addressing registers in *)

Lemma addressing_run w l q : forall m,
  run w None (addressing l ++ q) m =
  (if forallb (fun g => eqb8 (m_slot m g) zero8) l
   then run w None q (match l with [] => m | _ => set_zf m (Some true) end)
   else ToSlow).
Proof.
  induction l as [|g l IH]; intros m; [reflexivity|].
  cbn [addressing flat_map List.app run exec forallb]. cbn [set_zf m_zf get8 holds].
  destruct (eqb8 (m_slot m g) zero8) eqn:E; cbn [negb andb]; [|reflexivity].
  change (flat_map _ l) with (addressing l). rewrite IH. cbn [set_zf m_slot].
  destruct (forallb _ l); [|reflexivity]. destruct l; reflexivity.
Qed.

Definition front_of (b1 b2 b3 : bool) : list ins :=
  (if b1 then [Lea R1 Prim] else []) ++ (if b2 then [Lea R3 Second] else []) ++
  (if b3 then [Cmp8 Flags (I zero8); Jslow NE] else []).

Lemma parts_front whole reuse i front mem back : parts whole reuse i = Some (front, mem, back) ->
  exists b1 b2 b3, front = front_of b1 b2 b3.
Proof.
  unfold parts, obind. destruct (operands i) as [[[[[d l] ld] st] m2m]|]; [|discriminate].
  set (x := set_shadow _). destruct (post_regs i x) as [x1 fl].
  destruct (second_mem _) as [c x2]. destruct (if ld || st then _ else _) as [cl mo].
  destruct (check_sources _ _ _ _ _) as [[[cc x3] ms]|]; [|discriminate].
  destruct (check_addressable _ _) as [[ca s0]|]; [|discriminate].
  destruct (combine_write _ _ _) as [cw|]; [|discriminate].
  intros [= <- _ _]. exists (ld || st), m2m, (fl && i_rfl i). unfold front_of. rewrite app_assoc. reflexivity.
Qed.

Lemma low2_ok z : low2 (of_Z z) = z mod 4.
Proof.
  unfold low2, of_Z.
  assert (T : forall n, 0 <= n -> (if Z.testbit z n then 1 else 0) = z / 2 ^ n mod 2).
  { intros n Hn. rewrite <- Z.testbit_spec' by assumption. destruct (Z.testbit z n); reflexivity. }
  replace (if Z.testbit z 1 then 2 else 0) with (2 * (if Z.testbit z 1 then 1 else 0)) by (destruct (Z.testbit z 1); reflexivity).
  rewrite !T by lia. change (2 ^ 0) with 1. change (2 ^ 1) with 2. rewrite Z.div_1_r.
  change 4 with (2 * 2). rewrite Z.rem_mul_r by lia. reflexivity.
Qed.

Lemma fast_of_good whole reuse i Fine Post :
  good (parts whole reuse i) (uses_mem i) Fine Post -> fast whole reuse i Fine Post.
Proof.
  unfold good, fast, gen. destruct (parts whole reuse i) as [[[front mem] back]|] eqn:Ep; [|contradiction].
  intros [Em HG]. cbn [obind]. eexists. split; [reflexivity|]. intros w m Hea.
  destruct (parts_front _ _ _ _ _ _ Ep) as (b1 & b2 & b3 & Ef).
  pose (u := uw (of_Z (w_ea w Prim)) (of_Z (w_ea w Second)) (fun v => w_app w =? v)).
  pose (a0 := start0 (m_slot m) (m_fl m) (m_mem m (shadow_at w (w_ea w Prim))) (m_mem m (shadow_at w (w_ea w Second)))).
  specialize (HG (of_Z (w_ea w Prim)) (of_Z (w_ea w Second)) (fun v => w_app w =? v)
    (m_slot m) (m_fl m) (m_mem m (shadow_at w (w_ea w Prim))) (m_mem m (shadow_at w (w_ea w Second)))).
  fold u in HG. fold a0 in HG.
  assert (Hlo : forall k, u_lo u k = of_Z (w_ea w k)) by (intros []; reflexivity).
  assert (Happ : forall v, u_app u v = (w_app w =? v)) by reflexivity.
  assert (C0 : conc w (m_mem m) a0 m).
  { constructor; cbn; auto.
    - intros []; apply is_any.
    - intros x. unfold at_k. destruct (Z.eqb_spec x (shadow_at w (w_ea w Prim))) as [->|]; reflexivity. }
  assert (V0 : aview (of_Z (w_ea w Prim)) (of_Z (w_ea w Second)) a0 (m_mem m (shadow_at w (w_ea w Second))) = view_of w m).
  { unfold aview, view_of. rewrite !low2_ok. reflexivity. }
  rewrite V0 in HG.
  assert (HG' : match arun u None (front ++ back) a0 with
      | ADone a => forall q', Post (fun v => w_app w =? v) (view_of w m) (aview (of_Z (w_ea w Prim)) (of_Z (w_ea w Second)) a q')
      | AToSlow => ~ Fine (view_of w m)
      | AStuck => False
      end).
  { destruct (brun_ok u (front ++ back) None a0) as [E|E]; rewrite E in HG; [contradiction|exact HG]. }
  clear HG. subst front.
  (* the front, then the checks *)
  assert (S : exists a1, aslot a1 = aslot a0 /\ (az a1 = None \/ az a1 = Some true) /\
     ((arun u None (front_of b1 b2 b3 ++ back) a0 = arun u None back a1 /\
       exists m1, conc w (m_mem m) a1 m1 /\ m_slot m1 = m_slot m /\ m_mem m1 = m_mem m /\
         forall q, run w None (front_of b1 b2 b3 ++ q) m = run w None q m1) \/
      (arun u None (front_of b1 b2 b3 ++ back) a0 = AToSlow /\
       forall q, run w None (front_of b1 b2 b3 ++ q) m = ToSlow))).
  { pose (a1 := let a := (if b1 then aset a0 R1 (Ea Prim) else a0) in
                let a := (if b2 then aset a R3 (Ea Second) else a) in a).
    pose (m1 := let a := (if b1 then set32 m R1 (of32 (w_ea w Prim)) else m) in
                let a := (if b2 then set32 a R3 (of32 (w_ea w Second)) else a) in a).
    assert (C1 : conc w (m_mem m) a1 m1).
    { subst a1 m1. cbv zeta. destruct b1, b2; cbv iota; repeat (apply conc_set; [|reflexivity]); exact C0. }
    assert (E1 : aslot a1 = aslot a0 /\ az a1 = None) by (subst a1; cbv zeta; destruct b1, b2; split; reflexivity).
    assert (E2 : m_slot m1 = m_slot m /\ m_fl m1 = m_fl m /\ m_mem m1 = m_mem m)
      by (subst m1; cbv zeta; destruct m; destruct b1, b2; repeat split; reflexivity).
    assert (A : forall q, arun u None (front_of b1 b2 false ++ q) a0 = arun u None q a1)
      by (subst a1; intros q; destruct b1, b2; reflexivity).
    assert (R : forall q, run w None (front_of b1 b2 false ++ q) m = run w None q m1)
      by (subst m1; intros q; destruct b1, b2; reflexivity).
    destruct E1 as [E1 E1']. destruct E2 as (E2 & E3 & E4).
    destruct b3.
    - assert (F : front_of b1 b2 true = front_of b1 b2 false ++ [Cmp8 Flags (I zero8); Jslow NE])
        by (destruct b1, b2; reflexivity).
      exists (asetz a1 (Some true)). split; [exact E1|]. split; [right; reflexivity|].
      rewrite F. rewrite <- app_assoc, A. cbn [List.app arun aexec aget8 asetz az].
      destruct (eqb8 (m_fl m) zero8) eqn:Ez.
      + left. assert (Ea : afl a1 = m_fl m) by (rewrite <- E3; symmetry; apply (c_fl _ _ _ _ C1)).
        rewrite Ea, Ez. cbn [holds negb]. split; [reflexivity|].
        exists (set_zf m1 (Some true)). split; [apply conc_z; [exact C1|right; reflexivity]|].
        split; [exact E2|]. split; [exact E4|]. intros q. rewrite <- app_assoc, R. cbn [List.app run exec get8 set_zf m_zf].
        rewrite E3, Ez. reflexivity.
      + right. assert (Ea : afl a1 = m_fl m) by (rewrite <- E3; symmetry; apply (c_fl _ _ _ _ C1)).
        rewrite Ea, Ez. split; [reflexivity|]. intros q. rewrite <- app_assoc, R. cbn [List.app run exec get8 set_zf m_zf].
        rewrite E3, Ez. reflexivity.
    - exists a1. split; [exact E1|]. split; [left; exact E1'|]. left. split; [apply A|].
      exists m1. auto. }
  destruct S as (a1 & Es & Ez & [(EA & m1 & C1 & E1 & E2 & ER)|(EA & ER)]).
  2:{ rewrite ER, EA in *. intros (F & _). auto. }
  rewrite EA in HG'. rewrite ER.
  set (addr := if mem then addressing (i_base i) else []).
  assert (K : run w None (addr ++ back) m1 = ToSlow /\ ~ bases_defined i (view_of w m) \/
              exists m2, run w None (addr ++ back) m1 = run w None back m2 /\ conc w (m_mem m) a1 m2 /\
                bases_defined i (view_of w m)).
  { subst addr. destruct mem.
    - rewrite addressing_run, E1. destruct (forallb _ _) eqn:Eb.
      + right. eexists. split; [reflexivity|]. split.
        * destruct (i_base i); [exact C1|]. pose proof C1 as [Cr Cz Cs Cf Cm C2 C3].
          constructor; cbn; auto. 
        * intros _ g Hg. rewrite forallb_forall in Eb. apply eqb8_eq, Eb, Hg.
      + left. split; [reflexivity|]. intros HB.
        assert (X : forallb (fun g => eqb8 (m_slot m g) zero8) (i_base i) = true); [|congruence].
        apply forallb_forall. intros g Hg. specialize (HB (eq_sym Em) g Hg). cbn in HB. rewrite HB. reflexivity.
    - right. exists m1. split; [reflexivity|]. split; [exact C1|]. intros HX. congruence. }
  destruct K as [[K1 K2]|(m2 & K1 & C2 & K2)]; rewrite K1; [tauto|].
  pose proof (arun_ok w u (m_mem m) Hlo Happ Hea back None a1 m2 C2) as Q.
  destruct (arun u None back a1) as [a'| |]; [| |contradiction].
  - destruct Q as (m' & Er & C'). rewrite Er. split; [exact K2|]. split.
    + specialize (HG' (m_mem m' (shadow_at w (w_ea w Second)))).
      replace (view_of w m') with (aview (of_Z (w_ea w Prim)) (of_Z (w_ea w Second)) a' (m_mem m' (shadow_at w (w_ea w Second)))); [exact HG'|].
      unfold aview, view_of. rewrite !low2_ok, (c_slot _ _ _ _ C'), (c_fl _ _ _ _ C').
      rewrite (c_mem _ _ _ _ C' (shadow_at w (w_ea w Prim))). unfold at_k. rewrite Z.eqb_refl. reflexivity.
    + intros x Hx. rewrite (c_mem _ _ _ _ C'). unfold at_k. destruct (Z.eqb_spec x (shadow_at w (w_ea w Prim))); [contradiction|reflexivity].
  - cbn in Q. rewrite Q. tauto.
Qed.
