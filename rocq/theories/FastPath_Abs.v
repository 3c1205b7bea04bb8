(** A machine for the generated code in which addresses are names and only the
    two shadow dwords of the memory operands exist; what it computes, the machine
    of FastPath_Model computes. *)
From Verif Require Import Base ShadowTables_Model FastPath_Model FastPath_Spec.
Open Scope Z_scope.

(** A register: perhaps known bytes and whether the upper half is zero; or an
    address, its 64K region, its dword number, its shadow address. *)
Inductive av :=
  | P (lo hi : option byte) (top0 : bool) | Ea (k : which) | Rgn (k : which)
  | Dw (k : which) | Sh (k : which).

Record amach := {
  a1 : av; a2 : av; a3 : av; az : option bool;
  aslot : gpr -> byte; afl : byte; aprim : byte; asec : byte; adirty : bool }.

Record aworld := { u_lo : which -> byte; u_app : Z -> bool }.

Definition aget (a : amach) (r : scr) : av :=
  match r with R1 => a1 a | R2 => a2 a | R3 => a3 a end.
Definition aset (a : amach) (r : scr) (v : av) : amach :=
  {| a1 := match r with R1 => v | _ => a1 a end;
     a2 := match r with R2 => v | _ => a2 a end;
     a3 := match r with R3 => v | _ => a3 a end;
     az := az a; aslot := aslot a; afl := afl a; aprim := aprim a; asec := asec a;
     adirty := adirty a |}.
Definition asetz (a : amach) (z : option bool) : amach :=
  {| a1 := a1 a; a2 := a2 a; a3 := a3 a;
     az := z; aslot := aslot a; afl := afl a; aprim := aprim a; asec := asec a;
     adirty := adirty a |}.

Definition alo (u : aworld) (v : av) : option byte :=
  match v with P lo _ _ => lo | Ea k => Some (u_lo u k) | _ => None end.
Definition ahi (v : av) : option byte := match v with P _ hi _ => hi | _ => None end.
Definition atop (v : av) : bool := match v with P _ _ t => t | _ => false end.

Definition aget8 (u : aworld) (a : amach) (o : o8) : option byte :=
  match o with
  | L r => alo u (aget a r)
  | H r => ahi (aget a r)
  | M r => match aget a r with
           | Sh Prim => Some (aprim a)
           | Sh Second => if adirty a then None else Some (asec a)
           | _ => None
           end
  | Slot g => Some (aslot a g)
  | Flags => Some (afl a)
  | I b => Some b
  end.

Definition aset8 (u : aworld) (a : amach) (o : o8) (v : option byte) : option amach :=
  match o, v with
  | L r, _ => Some (aset a r (P v (ahi (aget a r)) (atop (aget a r))))
  | H r, _ => Some (aset a r (P (alo u (aget a r)) v (atop (aget a r))))
  | M r, Some b =>
      match aget a r with
      | Sh Prim => Some {| a1 := a1 a; a2 := a2 a; a3 := a3 a; az := az a; aslot := aslot a;
                           afl := afl a; aprim := b; asec := asec a; adirty := true |}
      | _ => None
      end
  | Slot g, Some b =>
      Some {| a1 := a1 a; a2 := a2 a; a3 := a3 a; az := az a; aslot := upd gpr_eqb g b (aslot a);
              afl := afl a; aprim := aprim a; asec := asec a; adirty := adirty a |}
  | Flags, Some b =>
      Some {| a1 := a1 a; a2 := a2 a; a3 := a3 a; az := az a; aslot := aslot a;
              afl := b; aprim := aprim a; asec := asec a; adirty := adirty a |}
  | _, _ => None
  end.

Definition is0 (x : byte) : bool :=
  match x with B false false false false false false false false => true | _ => false end.

Inductive aout := AGo (a : amach) | ATaken (l : label) (a : amach) | ASlow | ABad.

Definition ago8 (u : aworld) (a : amach) (z : option bool) (d : o8) (v : option byte) : aout :=
  match aset8 u a d v with Some a' => AGo (asetz a' z) | None => ABad end.

Definition lift2 (k : byte -> byte -> byte) (x y : option byte) : option byte :=
  match x, y with Some a, Some b => Some (k a b) | _, _ => None end.

Definition amask (o : option byte) (c : byte) : option byte :=
  match o with
  | Some x => Some (and8 x c)
  | None => if is0 c then Some zero8 else None
  end.

Definition adec (x : byte) : byte :=
  match x with
  | B a b c d e f g h =>
      let n0 := negb a in
      let n1 := if a then b else negb b in
      let z1 := negb a && negb b in
      let z2 := z1 && negb c in let z3 := z2 && negb d in let z4 := z3 && negb e in
      let z5 := z4 && negb f in let z6 := z5 && negb g in
      let fl (z x : bool) := if z then negb x else x in
      B n0 n1 (fl z1 c) (fl z2 d) (fl z3 e) (fl z4 f) (fl z5 g) (fl z6 h)
  end.

Definition is_D (a b : bool) : bool := if a then false else if b then false else true.
Definition is_plain (a b : bool) : bool := if a then b else negb b.
Definition both (a b : bool) : bool := if a then b else false.

(** Row [n] of a table at [x]. *)
Definition atab (t : table) (n : Z) (x : byte) : option bool :=
  match x with
  | B a b c d e f g h =>
      match t, n with
      | DwordAddr, 0 => Some (both (is_plain a b) (both (is_plain c d) (both (is_plain e f) (is_plain g h))))
      | ByteDef, 0 => Some (is_D a b) | ByteDef, 1 => Some (is_D c d)
      | ByteDef, 2 => Some (is_D e f) | ByteDef, 3 => Some (is_D g h)
      | ByteAddr, 0 => Some (is_plain a b) | ByteAddr, 1 => Some (is_plain c d)
      | ByteAddr, 2 => Some (is_plain e f) | ByteAddr, 3 => Some (is_plain g h)
      | WordDef, 0 => Some (both (is_D a b) (is_D c d)) | WordDef, 1 => Some false
      | WordDef, 2 => Some (both (is_D e f) (is_D g h)) | WordDef, 3 => Some false
      | WordAddr, 0 => Some (both (is_plain a b) (is_plain c d)) | WordAddr, 1 => Some false
      | WordAddr, 2 => Some (both (is_plain e f) (is_plain g h)) | WordAddr, 3 => Some false
      | _, _ => None
      end
  end.

Definition asx (t : table) (x : byte) : option byte :=
  match t, x with
  | Sx1, B a b false false false false false false => Some (B a b a b a b a b)
  | Sx2, B a b c d false false false false => Some (B a b c d c d c d)
  | _, _ => None
  end.

Definition arow (disp : Z) (idx : option av) : option Z :=
  match idx with
  | None => if disp mod 256 =? 0 then Some (disp / 256) else None
  | Some (P (Some l) (Some h) true) =>
      if (disp =? 0) && is0 l then Some (to_Z h) else None
  | _ => None
  end.

Definition aexec (u : aworld) (i : ins) (a : amach) : aout :=
  match i with
  | Lea d k => AGo (aset a d (Ea k))
  | TestImm r b =>
      AGo (asetz a (match alo u (aget a r) with
                    | Some x => Some (is0 (and8 x b)) | None => None end))
  | Movzx16 d s => AGo (aset a d (P (alo u (aget a s)) (ahi (aget a s)) true))
  | Mov32 d s => AGo (aset a d (aget a s))
  | Shr32 r n =>
      AGo (asetz (aset a r (match aget a r with
                            | Ea k => if n =? 16 then Rgn k else if n =? 2 then Dw k else P None None false
                            | _ => P None None false end)) None)
  | Shl32 r n =>
      AGo (asetz (aset a r (match aget a r with
                            | P (Some lo) (Some hi) true =>
                                if (n =? 8) && is0 hi then P (Some zero8) (Some lo) true
                                else P None None false
                            | _ => P None None false end)) None)
  | And32 r lo hi =>
      AGo (asetz (aset a r (P (amask (alo u (aget a r)) lo) (amask (ahi (aget a r)) hi) true)) None)
  | AddTable d i =>
      AGo (asetz (aset a d (match aget a d, aget a i with
                            | Dw Prim, Rgn Prim => Sh Prim
                            | Dw Second, Rgn Second => Sh Second
                            | _, _ => P None None false end)) None)
  | Movzx8 d s => AGo (aset a d (P (aget8 u a s) (Some zero8) true))
  | Mov8 d s => ago8 u a (az a) d (aget8 u a s)
  | And8 d s => ago8 u a None d (lift2 and8 (aget8 u a d) (aget8 u a s))
  | Or8 d s => ago8 u a None d (lift2 or8 (aget8 u a d) (aget8 u a s))
  | Dec8 d => ago8 u a None d (match aget8 u a d with Some x => Some (adec x) | None => None end)
  | Shift8 k d n =>
      ago8 u a None d
        (match aget8 u a d, n with
         | Some x, N c => Some (times c (shift_fun k) x)
         | Some x, CL =>
             match alo u (a3 a) with
             | Some c => Some (times (Z.to_nat (to_Z (and8 c (of_Z 31)))) (shift_fun k) x)
             | None => None
             end
         | None, _ => None
         end)
  | Cmp8 x y =>
      AGo (asetz a (match aget8 u a x, aget8 u a y with
                    | Some x, Some y => Some (eqb8 x y) | _, _ => None end))
  | CmpTab t disp base idx =>
      match aget a base, arow disp (match idx with Some r => Some (aget a r) | None => None end) with
      | P (Some x) (Some h) true, Some n =>
          if is0 h
          then match atab t n x with Some z => AGo (asetz a (Some z)) | None => ABad end
          else ABad
      | _, _ => ABad
      end
  | LdTab d t base =>
      match aget a base with
      | P (Some x) (Some h) true =>
          if is0 h
          then match asx t x with Some y => ago8 u a (az a) d (Some y) | None => ABad end
          else ABad
      | _ => ABad
      end
  | CmpApp v => AGo (asetz a (Some (u_app u v)))
  | Xchg32 x y => AGo (aset (aset a x (aget a y)) y (aget a x))
  | Jslow c =>
      match az a with Some z => if holds c z then ASlow else AGo a | None => ABad end
  | Jcc c l =>
      match az a with Some z => if holds c z then ATaken l a else AGo a | None => ABad end
  | Lab _ => AGo a
  end.

Inductive ares := ADone (a : amach) | AToSlow | AStuck.

Fixpoint arun (u : aworld) (skip : option label) (p : list ins) (a : amach) : ares :=
  match p with
  | nil => match skip with None => ADone a | Some _ => AStuck end
  | i :: q =>
      match skip with
      | Some l =>
          match i with
          | Lab l' => arun u (if label_eqb l l' then None else skip) q a
          | _ => arun u skip q a
          end
      | None =>
          match aexec u i a with
          | AGo a' => arun u None q a'
          | ATaken l a' => arun u (Some l) q a'
          | ASlow => AToSlow
          | ABad => AStuck
          end
      end
  end.

(** ** Facts about bytes *)

Lemma to_of z : to_Z (of_Z z) = z mod 256.
Proof.
  assert (T : forall y n, 0 <= n -> Z.b2z (Z.testbit y n) = y / 2 ^ n mod 2).
  { intros. apply Z.testbit_spec'. assumption. }
  unfold to_Z, of_Z. rewrite !T by lia.
  change (2 ^ 0) with 1. change (2 ^ 1) with 2. change (2 ^ 2) with 4. change (2 ^ 3) with 8.
  change (2 ^ 4) with 16. change (2 ^ 5) with 32. change (2 ^ 6) with 64. change (2 ^ 7) with 128.
  pose proof (Z.div_mod z 256 ltac:(lia)) as E. pose proof (Z.mod_pos_bound z 256 ltac:(lia)) as Hb.
  rewrite E at 1 2 3 4 5 6 7 8. generalize dependent (z mod 256). generalize (z / 256). clear.
  intros q r _ Hb.
  rewrite Z.div_1_r.
  assert (G : forall k, 0 < k -> forall j, 256 = k * j -> (256 * q + r) / k = j * q + r / k).
  { intros k Hk j Hj. rewrite Hj. replace (k * j * q + r) with (r + (j * q) * k) by ring.
    rewrite Z.div_add by lia. ring. }
  rewrite (G 2 ltac:(lia) 128), (G 4 ltac:(lia) 64), (G 8 ltac:(lia) 32), (G 16 ltac:(lia) 16),
    (G 32 ltac:(lia) 8), (G 64 ltac:(lia) 4), (G 128 ltac:(lia) 2) by reflexivity. clear G.
  assert (K : forall j x, (2 * j * q + x) mod 2 = x mod 2).
  { intros. replace (2 * j * q + x) with (x + (j * q) * 2) by ring. apply Z_mod_plus_full. }
  rewrite (K 128), (K 64), (K 32), (K 16), (K 8), (K 4), (K 2).
  replace (2 * q + r / 128) with (2 * 1 * q + r / 128) by ring. rewrite (K 1).
  clear -Hb.
  pose (f := fun n : nat => let r := Z.of_nat n in
     r mod 2 + 2 * (r / 2 mod 2) + 4 * (r / 4 mod 2) + 8 * (r / 8 mod 2) + 16 * (r / 16 mod 2)
     + 32 * (r / 32 mod 2) + 64 * (r / 64 mod 2) + 128 * (r / 128 mod 2) =? r).
  assert (A : forallb f (seq 0 256) = true) by (vm_compute; reflexivity).
  rewrite forallb_forall in A. specialize (A (Z.to_nat r)). unfold f in A.
  rewrite Z2Nat.id in A by lia. apply Z.eqb_eq, A, in_seq. lia.
Qed.

Lemma to_range x : 0 <= to_Z x < 256.
Proof. destruct x as [[] [] [] [] [] [] [] []]; vm_compute; intuition congruence. Qed.

Lemma eqb8_eq x y : eqb8 x y = true -> x = y.
Proof.
  destruct x, y. cbn. rewrite !andb_true_iff. intuition.
  repeat match goal with H : Bool.eqb _ _ = true |- _ => apply Bool.eqb_prop in H; subst end.
  reflexivity.
Qed.
Lemma eqb8_refl x : eqb8 x x = true.
Proof. destruct x as [[] [] [] [] [] [] [] []]; reflexivity. Qed.

Lemma to32_of32 z : to32 (of32 z) = z mod 2 ^ 32.
Proof.
  unfold to32, of32, rl, rh, rt. rewrite !to_of. change (2 ^ 32) with 4294967296.
  Z.div_mod_to_equations. lia.
Qed.

Lemma adec_ok x : of_Z ((to_Z x - 1) mod 256) = adec x.
Proof. destruct x as [[] [] [] [] [] [] [] []]; reflexivity. Qed.

Lemma and8_zero x : and8 x zero8 = zero8.
Proof. destruct x; reflexivity. Qed.

Definition hit (r : res Z) (b : bool) : bool := match r with Ok v => Bool.eqb (v =? 1) b | _ => false end.
Lemma hit_ok r b : hit r b = true -> exists v, r = Ok v /\ (v =? 1) = b.
Proof. destruct r as [v| |]; cbn; try discriminate. intros H. exists v. split; [reflexivity|]. apply Bool.eqb_prop, H. Qed.

Definition all2 (k : bool -> bool) : bool := k true && k false.
Lemma all2_ok k : all2 k = true -> forall b, k b = true.
Proof. intros HH b. apply andb_true_iff in HH. destruct b; tauto. Qed.
Definition sweep8 (p : byte -> bool) : bool :=
  all2 (fun a => all2 (fun b => all2 (fun c => all2 (fun d =>
  all2 (fun e => all2 (fun g => all2 (fun h => all2 (fun i => p (B a b c d e g h i))))))))).
Lemma sweep8_ok p : sweep8 p = true -> forall x, p x = true.
Proof.
  unfold sweep8. intros HH [a b c d e g h i].
  exact (all2_ok _ (all2_ok _ (all2_ok _ (all2_ok _ (all2_ok _ (all2_ok _ (all2_ok _
    (all2_ok _ HH a) b) c) d) e) g) h) i).
Qed.

Lemma atab_all : sweep8 (fun x =>
  forallb (fun t => forallb (fun n =>
    match atab t n x with
    | Some b => hit (lookup (the_table t) (256 * n + to_Z x)) b
    | None => true
    end) [0; 1; 2; 3]) [DwordAddr; ByteDef; WordDef; ByteAddr; WordAddr; Sx1; Sx2]) = true.
Proof. vm_compute. reflexivity. Qed.

Lemma atab_row t n x b : atab t n x = Some b -> n = 0 \/ n = 1 \/ n = 2 \/ n = 3.
Proof.
  destruct x. cbn.
  destruct n as [|[[]|[]|]|]; auto; destruct t; discriminate.
Qed.

Lemma atab_ok t n x b : atab t n x = Some b ->
  exists v, lookup (the_table t) (256 * n + to_Z x) = Ok v /\ (v =? 1) = b.
Proof.
  intros E. apply hit_ok. pose proof (sweep8_ok _ atab_all x) as HH. cbv beta in HH.
  rewrite forallb_forall in HH. specialize (HH t). cbv beta in HH.
  assert (It : In t [DwordAddr; ByteDef; WordDef; ByteAddr; WordAddr; Sx1; Sx2]) by (destruct t; cbn; tauto).
  specialize (HH It). rewrite forallb_forall in HH. specialize (HH n). cbv beta in HH.
  rewrite E in HH. apply HH. destruct (atab_row _ _ _ _ E) as [->|[->|[->| ->]]]; cbn; tauto.
Qed.

Lemma asx_all : sweep8 (fun x =>
  forallb (fun t => match asx t x with
    | Some y => match lookup (the_table t) (to_Z x) with Ok v => eqb8 (of_Z v) y | _ => false end
    | None => true
    end) [Sx1; Sx2]) = true.
Proof. vm_compute. reflexivity. Qed.

Lemma asx_ok t x y : asx t x = Some y -> exists v, lookup (the_table t) (to_Z x) = Ok v /\ of_Z v = y.
Proof.
  intros E. pose proof (sweep8_ok _ asx_all x) as HH. cbv beta in HH.
  rewrite forallb_forall in HH. specialize (HH t). cbv beta in HH. rewrite E in HH.
  assert (It : In t [Sx1; Sx2]) by (destruct t; cbn in *; try discriminate; tauto).
  specialize (HH It). destruct (lookup _ _) as [v| |]; try discriminate.
  exists v. split; [reflexivity|]. apply eqb8_eq, HH.
Qed.

(** ** Simulation *)

Lemma is0_eqb x : is0 x = eqb8 x zero8.
Proof. destruct x as [[] [] [] [] [] [] [] []]; reflexivity. Qed.
Lemma is0_eq x : is0 x = true -> x = zero8.
Proof. rewrite is0_eqb. apply eqb8_eq. Qed.

Section Sim.
Variables (w : world) (u : aworld) (mem0 : Z -> byte).
Hypothesis Hlo : forall k, u_lo u k = of_Z (w_ea w k).
Hypothesis Happ : forall v, u_app u v = (w_app w =? v).
Hypothesis Hea : forall k, 0 <= w_ea w k < 2 ^ 32.

Definition known (o : option byte) (b : byte) : Prop := match o with Some x => b = x | None => True end.

Definition is_av (v : av) (r : r32) : Prop :=
  match v with
  | P lo hi t => known lo (rl r) /\ known hi (rh r) /\ (t = true -> rt r = 0)
  | Ea k => r = of32 (w_ea w k)
  | Rgn k => r = of32 (w_ea w k / 65536)
  | Dw k => r = of32 (w_ea w k / 4)
  | Sh k => r = of32 (w_ea w k / 4 + w_tab w (w_ea w k / 65536))
  end.

Definition at_k (k : which) : Z := shadow_at w (w_ea w k).

Record conc (a : amach) (m : mach) : Prop := {
  c_reg : forall r, is_av (aget a r) (get32 m r);
  c_z : az a = None \/ az a = m_zf m;
  c_slot : m_slot m = aslot a;
  c_fl : m_fl m = afl a;
  c_mem : forall x, m_mem m x = if x =? at_k Prim then aprim a else mem0 x;
  c_sec : asec a = mem0 (at_k Second);
  c_clean : adirty a = false -> aprim a = mem0 (at_k Prim) }.

Lemma is_any r : is_av (P None None false) r.
Proof. cbn. intuition discriminate. Qed.

Lemma alo_ok v r : is_av v r -> known (alo u v) (rl r).
Proof. destruct v; cbn; try tauto. intros ->. rewrite Hlo. reflexivity. Qed.
Lemma ahi_ok v r : is_av v r -> known (ahi v) (rh r).
Proof. destruct v; cbn; tauto. Qed.
Lemma atop_ok v r : is_av v r -> atop v = true -> rt r = 0.
Proof. destruct v; cbn; try discriminate. tauto. Qed.

Lemma sh_addr k r : is_av (Sh k) r -> to32 r = at_k k.
Proof. cbn. intros ->. rewrite to32_of32. reflexivity. Qed.

Lemma aget8_ok a m o : conc a m -> known (aget8 u a o) (get8 m o).
Proof.
  intros C. destruct o as [r|r|r|g| |b]; cbn.
  - apply alo_ok, (c_reg _ _ C).
  - apply ahi_ok, (c_reg _ _ C).
  - pose proof (c_reg _ _ C r) as R. destruct (aget a r) as [| | | |[]] eqn:E; try exact Logic.I.
    + rewrite (sh_addr _ _ R). cbn. rewrite (c_mem _ _ C), Z.eqb_refl. reflexivity.
    + rewrite (sh_addr _ _ R). destruct (adirty a) eqn:Ed; [exact Logic.I|]. cbn.
      rewrite (c_mem _ _ C). destruct (Z.eqb_spec (at_k Second) (at_k Prim)) as [e|e].
      * rewrite (c_clean _ _ C Ed), <- e. symmetry. apply (c_sec _ _ C).
      * symmetry. apply (c_sec _ _ C).
  - rewrite (c_slot _ _ C). reflexivity.
  - apply (c_fl _ _ C).
  - reflexivity.
Qed.

Lemma get_set32 m r v q : get32 (set32 m r v) q = match r, q with
  | R1, R1 | R2, R2 | R3, R3 => v | _, _ => get32 m q end.
Proof. destruct m, r, q; reflexivity. Qed.
Lemma aget_set a r v q : aget (aset a r v) q = match r, q with
  | R1, R1 | R2, R2 | R3, R3 => v | _, _ => aget a q end.
Proof. destruct a, r, q; reflexivity. Qed.
Lemma set32_rest m r v : m_zf (set32 m r v) = m_zf m /\ m_slot (set32 m r v) = m_slot m /\
  m_fl (set32 m r v) = m_fl m /\ m_mem (set32 m r v) = m_mem m.
Proof. destruct m; cbn; auto. Qed.

Lemma conc_set a m r x v : conc a m -> is_av x v -> conc (aset a r x) (set32 m r v).
Proof.
  intros [Cr Cz Cs Cf Cm C2 C3] Hv. destruct (set32_rest m r v) as (E1 & E2 & E3 & E4).
  constructor; rewrite ?E1, ?E2, ?E3, ?E4; cbn; auto.
  intros q. rewrite aget_set, get_set32. specialize (Cr q). destruct r, q; auto.
Qed.
Lemma conc_z a m z z' : conc a m -> z = None \/ z = z' -> conc (asetz a z) (set_zf m z').
Proof. intros [Cr Cz Cs Cf Cm C2 C3] Hz. constructor; cbn; auto. Qed.
Lemma aset8_ok a m o v b a' : conc a m -> known v b -> aset8 u a o v = Some a' ->
  exists m', set8 m o b = Ok m' /\ conc a' m' /\ m_zf m' = m_zf m /\ az a' = az a.
Proof.
  intros C K E. pose proof C as [Cr Cz Cs Cf Cm C2 C3].
  destruct o as [r|r|r|g| |]; cbn in E.
  - injection E as <-. eexists. split; [reflexivity|]. split; [|split; [apply set32_rest|reflexivity]].
    apply conc_set; [assumption|]. cbn. split; [assumption|]. split; [apply ahi_ok, Cr|apply atop_ok, Cr].
  - injection E as <-. eexists. split; [reflexivity|]. split; [|split; [apply set32_rest|reflexivity]].
    apply conc_set; [assumption|]. cbn. split; [apply alo_ok, Cr|]. split; [assumption|apply atop_ok, Cr].
  - destruct v as [x|]; [|discriminate]. cbn in K. subst b.
    destruct (aget a r) as [| | | |[]] eqn:Er; try discriminate. injection E as <-.
    pose proof (Cr r) as R. rewrite Er in R.
    eexists. split; [reflexivity|]. split; [|split; reflexivity].
    constructor; cbn; auto; try discriminate.
    + intros y. unfold upd. rewrite (sh_addr _ _ R), Cm. destruct (y =? at_k Prim); reflexivity.
  - destruct v as [x|]; [|discriminate]. cbn in K. subst b. injection E as <-.
    eexists. split; [reflexivity|]. split; [|split; reflexivity].
    constructor; cbn; auto.
    + rewrite Cs. reflexivity.
  - destruct v as [x|]; [|discriminate]. cbn in K. subst b. injection E as <-.
    eexists. split; [reflexivity|]. split; [|split; reflexivity].
    constructor; cbn; auto.
  - destruct v; discriminate.
Qed.

Definition agrees (r : aout) (o : outcome) : Prop :=
  match r with
  | AGo a => exists m, o = Go m /\ conc a m
  | ATaken l a => exists m, o = Taken l m /\ conc a m
  | ASlow => o = Slow
  | ABad => True
  end.

Lemma ago8_ok a m z z' d v b : conc a m -> z = None \/ z = z' -> known v b ->
  agrees (ago8 u a z d v) (go8 m z' d b).
Proof.
  intros C Z K. unfold ago8. destruct (aset8 u a d v) as [a'|] eqn:E; [|exact Logic.I].
  destruct (aset8_ok _ _ _ _ _ _ C K E) as (m' & S1 & C1 & _). unfold go8. rewrite S1.
  eexists. split; [reflexivity|]. apply conc_z; assumption.
Qed.

Lemma lift2_ok k x y a b : known x a -> known y b -> known (lift2 k x y) (k a b).
Proof. destruct x, y; cbn; try tauto. congruence. Qed.
Lemma amask_ok o c b : known o b -> known (amask o c) (and8 b c).
Proof.
  destruct o as [x|]; cbn; [congruence|]. intros _. destruct (is0 c) eqn:E; [|exact Logic.I].
  apply is0_eq in E. subst. apply and8_zero.
Qed.

Lemma known_of_zero x h r : is_av (P (Some x) (Some h) true) r -> is0 h = true -> to32 r = to_Z x.
Proof.
  cbn. intros (E1 & E2 & T) E. apply is0_eq in E. unfold to32. rewrite E1, E2, T, E by reflexivity.
  change (to_Z zero8) with 0. lia.
Qed.

Lemma arow_ok disp idx n m a : conc a m ->
  arow disp (match idx with Some r => Some (aget a r) | None => None end) = Some n ->
  disp + match idx with Some r => to32 (get32 m r) | None => 0 end = 256 * n.
Proof.
  intros C. destruct idx as [r|]; unfold arow.
  - pose proof (c_reg _ _ C r) as R. destruct (aget a r) as [[l|] [h|] []| | | |]; try discriminate.
    destruct ((disp =? 0) && is0 l) eqn:E; [|discriminate]. intros [= <-].
    apply andb_true_iff in E. destruct E as [E1 E2]. apply Z.eqb_eq in E1. apply is0_eq in E2. subst.
    cbn in R. destruct R as (E1 & E2 & T). unfold to32. rewrite E1, E2, T by reflexivity. change (to_Z zero8) with 0. lia.
  - destruct (Z.eqb_spec (disp mod 256) 0) as [E|]; [|discriminate]. intros [= <-].
    pose proof (Z.div_mod disp 256 ltac:(lia)). lia.
Qed.

Lemma aexec_ok i a m : conc a m -> agrees (aexec u i a) (exec w i m).
Proof.
  intros C. pose proof (c_reg _ _ C) as Cr.
  destruct i as [d k|r b|d s|d s|r n|r n|r lo hi|d i|d s|d s|d s|d s|d|k d n|x y|t disp base idx|d t base|v|x y|c|c l|l]; cbn [aexec exec].
  - eexists. split; [reflexivity|]. apply conc_set; [assumption|reflexivity].
  - eexists. split; [reflexivity|]. apply conc_z; [assumption|].
    pose proof (alo_ok _ _ (Cr r)) as K. destruct (alo u (aget a r)); [right|left; reflexivity].
    cbn in K. rewrite K, is0_eqb. reflexivity.
  - eexists. split; [reflexivity|]. apply conc_set; [assumption|]. cbn.
    split; [apply alo_ok, Cr|]. split; [apply ahi_ok, Cr|reflexivity].
  - eexists. split; [reflexivity|]. apply conc_set; [assumption|]. apply Cr.
  - eexists. split; [reflexivity|]. apply conc_z; [|left; reflexivity]. apply conc_set; [assumption|].
    specialize (Cr r). destruct (aget a r) as [|k|k|k|k]; try apply is_any.
    assert (E : to32 (get32 m r) = w_ea w k).
    { cbn in Cr. rewrite Cr, to32_of32. apply Z.mod_small, Hea. }
    rewrite E. destruct (Z.eqb_spec n 16) as [->|]; [reflexivity|].
    destruct (Z.eqb_spec n 2) as [->|]; [reflexivity|]. apply is_any.
  - eexists. split; [reflexivity|]. apply conc_z; [|left; reflexivity]. apply conc_set; [assumption|].
    specialize (Cr r). destruct (aget a r) as [[lo|] [hi|] []| | | |]; try apply is_any.
    destruct ((n =? 8) && is0 hi) eqn:E; [|apply is_any].
    apply andb_true_iff in E. destruct E as [E1 E2]. apply Z.eqb_eq in E1. subst.
    rewrite (known_of_zero _ _ _ Cr E2). change (2 ^ 8) with 256.
    assert (O : forall x, of_Z (to_Z x) = x) by (intros [[] [] [] [] [] [] [] []]; reflexivity).
    cbn. rewrite Z.div_mul by lia. rewrite O. split; [|split; [reflexivity|]].
    + clear -lo. destruct lo as [[] [] [] [] [] [] [] []]; reflexivity.
    + intros _. change 65536 with (256 * 256). rewrite <- Z.div_div, Z.div_mul by lia.
      pose proof (to_range lo). rewrite (Z.div_small (to_Z lo)) by lia. reflexivity.
  - eexists. split; [reflexivity|]. apply conc_z; [|left; reflexivity]. apply conc_set; [assumption|]. cbn.
    split; [apply amask_ok, alo_ok, Cr|]. split; [apply amask_ok, ahi_ok, Cr|reflexivity].
  - eexists. split; [reflexivity|]. apply conc_z; [|left; reflexivity]. apply conc_set; [assumption|].
    pose proof (Cr d) as Rd. pose proof (Cr i) as Ri.
    assert (G : forall k, aget a d = Dw k -> aget a i = Rgn k ->
      is_av (Sh k) (of32 (to32 (get32 m d) + w_tab w (to32 (get32 m i))))).
    { intros k E1 E2. rewrite E1 in Rd. rewrite E2 in Ri. cbn in *. rewrite Rd, Ri, !to32_of32.
      specialize (Hea k). rewrite !Z.mod_small; [reflexivity| |];
        (split; [apply Z.div_pos; lia|apply Z.div_lt_upper_bound; lia]). }
    destruct (aget a d) as [| | |[]|] eqn:E1; try apply is_any;
      destruct (aget a i) as [| |[]| |] eqn:E2; try apply is_any; apply G; reflexivity.
  - eexists. split; [reflexivity|]. apply conc_set; [assumption|]. cbn.
    split; [apply aget8_ok, C|]. split; reflexivity.
  - apply ago8_ok; [assumption|apply (c_z _ _ C)|apply aget8_ok, C].
  - apply ago8_ok; [assumption|left; reflexivity|apply lift2_ok; apply aget8_ok, C].
  - apply ago8_ok; [assumption|left; reflexivity|apply lift2_ok; apply aget8_ok, C].
  - apply ago8_ok; [assumption|left; reflexivity|]. pose proof (aget8_ok _ _ d C) as K.
    destruct (aget8 u a d); [|exact Logic.I]. cbn in *. rewrite K. apply adec_ok.
  - apply ago8_ok; [assumption|left; reflexivity|]. pose proof (aget8_ok _ _ d C) as K.
    destruct (aget8 u a d); [|exact Logic.I]. cbn in K. rewrite K. destruct n as [c|]; [reflexivity|].
    pose proof (alo_ok _ _ (Cr R3)) as K3. change (aget a R3) with (a3 a) in K3.
    destruct (alo u (a3 a)); [|exact Logic.I]. cbn in *. rewrite K3. reflexivity.
  - eexists. split; [reflexivity|]. apply conc_z; [assumption|].
    pose proof (aget8_ok _ _ x C) as Kx. pose proof (aget8_ok _ _ y C) as Ky.
    destruct (aget8 u a x); [|left; reflexivity]. destruct (aget8 u a y); [|left; reflexivity].
    cbn in *. rewrite Kx, Ky. right. reflexivity.
  - pose proof (Cr base) as R. destruct (aget a base) as [[x|] [h|] []| | | |]; try exact Logic.I.
    destruct (arow _ _) as [n|] eqn:En; [|exact Logic.I].
    destruct (is0 h) eqn:Eh; [|exact Logic.I].
    destruct (atab t n x) as [z|] eqn:Et; [|exact Logic.I].
    apply (arow_ok _ _ _ m) in En; [|assumption]. rewrite (known_of_zero _ _ _ R Eh).
    destruct (atab_ok _ _ _ _ Et) as (v & Ev & Ez).
    replace (disp + to_Z x + match idx with Some r => to32 (get32 m r) | None => 0 end)
      with (256 * n + to_Z x) by lia.
    rewrite Ev. eexists. split; [reflexivity|]. apply conc_z; [assumption|]. right. congruence.
  - pose proof (Cr base) as R. destruct (aget a base) as [[x|] [h|] []| | | |]; try exact Logic.I.
    destruct (is0 h) eqn:Eh; [|exact Logic.I].
    destruct (asx t x) as [y|] eqn:Et; [|exact Logic.I].
    rewrite (known_of_zero _ _ _ R Eh). destruct (asx_ok _ _ _ Et) as (v & Ev & Ey). rewrite Ev.
    apply ago8_ok; [assumption|apply (c_z _ _ C)|]. cbn. exact Ey.
  - eexists. split; [reflexivity|]. apply conc_z; [assumption|]. right. rewrite Happ. reflexivity.
  - eexists. split; [reflexivity|]. apply conc_set; [apply conc_set; [assumption|apply Cr]|apply Cr].
  - destruct (c_z _ _ C) as [Z|Z]; rewrite Z; [exact Logic.I|].
    destruct (m_zf m) as [z|]; [|exact Logic.I]. destruct (holds c z); [reflexivity|]. exists m. auto.
  - destruct (c_z _ _ C) as [Z|Z]; rewrite Z; [exact Logic.I|].
    destruct (m_zf m) as [z|]; [|exact Logic.I]. destruct (holds c z); exists m; auto.
  - exists m. auto.
Qed.

Definition ends (r : ares) (o : FastPath_Model.result) : Prop :=
  match r with
  | ADone a => exists m, o = Done m /\ conc a m
  | AToSlow => o = ToSlow
  | AStuck => True
  end.

Lemma arun_ok p : forall skip a m, conc a m -> ends (arun u skip p a) (run w skip p m).
Proof.
  induction p as [|i p IH]; intros skip a m C; cbn [arun run].
  - destruct skip; [exact Logic.I|]. exists m. auto.
  - destruct skip as [l|].
    + destruct i; auto.
    + pose proof (aexec_ok i a m C) as A. destruct (aexec u i a) as [a'|l a'| |]; cbn in A.
      * destruct A as (m' & -> & C'). apply IH, C'.
      * destruct A as (m' & -> & C'). apply IH, C'.
      * rewrite A. reflexivity.
      * exact Logic.I.
Qed.

End Sim.
