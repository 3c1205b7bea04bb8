(** The invariant of the allocator's state, used by the proofs only: every arena is
    tiled by chunks, each header agrees with its tile, and the free and delay lists
    hold exactly the tiles of their kind. *)
From Coq Require Import Permutation.
From Verif Require Import Base Alloc_Model.
Open Scope Z_scope.

(** [KHeld]: taken off a free list, flags not yet cleared; [KLoose]: on no list, what
    follows it may be out of date. *)
Inductive kind := KLive (d : option Z) (ty : Z) (sk : bool) | KDelay | KFree | KLoose | KHeld.
Record tile := Tile { tp : Z; tsz : Z; tk : kind }.
(** what precedes a tile *)
Inductive pv := PN | PF (z : Z) | PL.
Definition pvof (t : tile) : pv := match tk t with KFree => PF (tsz t) | KLoose => PL | _ => PN end.
Definition lastpv (v : pv) (l : list tile) : pv := fold_left (fun _ t => pvof t) l v.
Record mm := Mm { mb : Z; msz : Z; mp : Z; mal : Z; md : Z; mty : Z; msk : bool }.
Definition ats := list (arena * list tile).
Definition tiles (Ts : ats) : list tile := concat (map snd Ts).
Definition solidk (t : tile) : bool := match tk t with KFree | KLoose => false | _ => true end.
Definition solid (Ts : ats) : list tile := filter solidk (tiles Ts).
Definition noloose (Ts : ats) : Prop := forall t, In t (tiles Ts) -> tk t <> KLoose.

Definition size_field (h : hdr) (z : Z) : Prop :=
  (h_shr h = Some (z / 16) /\ z / 16 <= USHRT_MAX) \/ (h_shr h = Some 0 /\ h_far h = z).

Definition kind_ok (h : hdr) (k : kind) : Prop :=
  match k with
  | KLive d ty sk => h_freed h = false /\ h_delay h = false /\ h_diff h = d /\ h_type h = ty /\ h_skip h = sk
  | KDelay => h_freed h = true /\ h_delay h = true /\ h_skip h = false
  | _ => h_freed h = true /\ h_delay h = false /\ h_skip h = false
  end.
Definition prev_ok (h : hdr) (k : kind) (v : pv) : Prop :=
  match v with
  | PN => h_pfree h = false
  | PF z => k <> KFree /\ h_pfree h = true /\ size_field h z
  | PL => k = KFree -> h_pfree h = false
  end.
Definition hok1 (oh : option hdr) (v : pv) (t : tile) : Prop :=
  exists h, oh = Some h /\ h_alloc h = tsz t /\ h_mmap h = false /\
            kind_ok h (tk t) /\ prev_ok h (tk t) v.
Definition hok (s : state) (v : pv) (t : tile) : Prop := hok1 (hd s (tp t)) v t.
Fixpoint heads (s : state) (v : pv) (l : list tile) : Prop :=
  match l with [] => True | t :: l' => hok s v t /\ heads s (pvof t) l' end.

Definition disj (r r' : Z * Z) : Prop := snd r <= fst r' \/ snd r' <= fst r.
Fixpoint disj_all (l : list (Z * Z)) : Prop :=
  match l with [] => True | r :: l' => Forall (disj r) l' /\ disj_all l' end.
Definition rng_a (x : arena * list tile) : Z * Z := (a_base (fst x), a_commit (fst x)).
Definition rng_m (m : mm) : Z * Z := (mb m, mb m + msz m).
Definition ranges (Ts : ats) (M : list mm) : list (Z * Z) := map rng_a Ts ++ map rng_m M.
Definition regs (Ts : ats) (M : list mm) : list region :=
  map (fun x => Region (a_base (fst x)) (a_commit (fst x)) false) Ts ++
  map (fun m => Region (mb m) (mb m + msz m) true) M.

Section Inv.
Context (c : cfg).
Notation g := (inter c).

Fixpoint laid (p : Z) (l : list tile) (q : Z) : Prop :=
  match l with [] => p = q | t :: l' => tp t = p /\ laid (p + tsz t + g) l' q end.
Definition num (t : tile) : Prop := 16 <= tsz t /\ tsz t mod 16 = 0.
Definition fin (a : arena) (v : pv) : Prop :=
  match v with PN => a_pfsz a = 0 | PF z => a_pfsz a = z | PL => True end.
Definition geom (a : arena) : Prop :=
  0 < a_base a /\ a_base a mod 4096 = 0 /\ a_base a + 16 + g <= a_start a /\ a_start a mod 16 = 0 /\
  a_start a <= a_next a /\ a_next a - g <= a_commit a /\
  a_commit a mod 4096 = 0 /\ a_commit a - a_base a < 2 ^ 32 /\
  (384 + g <= 4096 -> a_next a <= a_commit a).
Record arena_ok (s : state) (a : arena) (l : list tile) : Prop := {
  ok_geom : geom a;
  ok_laid : laid (a_start a) l (a_next a);
  ok_num : Forall num l;
  ok_heads : heads s PN l;
  ok_fin : fin a (lastpv PN l) }.

Record mm_ok (s : state) (m : mm) : Prop := {
  m_head : exists h, hd s (mp m) = Some h /\ h_freed h = false /\ h_mmap h = true /\ h_alloc h = mal m /\
           h_diff h = Some (md m) /\ h_type h = mty m /\ h_skip h = msk m /\
           h_shr h = Some (header_at c (mp m) - mb m);
  m_mhead : mhead s (mb m) = Some (mp m, msz m);
  m_lo : mb m + 16 + redzone c + header_beyond_redzone c <= mp m;
  m_hi : mp m + mal m + redzone c <= mb m + msz m;
  m_al : mp m mod 16 = 0;
  m_base : 0 < mb m;
  m_diff : 0 <= md m <= mal m;
  m_sz : mal m < 2 ^ 32 }.

(** chunks and headers *)
Record CH (s : state) (Ts : ats) (M : list mm) : Prop := {
  ch_arenas : arenas s = map fst Ts;
  ch_ok : Forall (fun x => arena_ok s (fst x) (snd x)) Ts;
  ch_main : exists a l Y, Ts = (a, l) :: Y /\ a_commit a = cur_brk s;
  ch_disj : disj_all (ranges Ts M);
  ch_regs : Permutation (regions s) (regs Ts M);
  ch_mm : Forall (mm_ok s) M;
  ch_stale : forall p h, hd s p = Some h -> h_freed h = false ->
     (exists z d ty sk, In (Tile p z (KLive d ty sk)) (tiles Ts)) \/ (exists m, In m M /\ mp m = p) }.

(** lists *)
Fixpoint dseg (s : state) (prev : Z) (l : list Z) (nx : Z) : Prop :=
  match l with
  | [] => True
  | p :: l' => (exists h, hd s p = Some h /\ h_prv h = Some prev /\ h_nxt h = List.hd nx l') /\ dseg s p l' nx
  end.
Fixpoint sseg (s : state) (l : list Z) (nx : Z) : Prop :=
  match l with
  | [] => True
  | p :: l' => (exists h, hd s p = Some h /\ h_nxt h = List.hd nx l') /\ sseg s l' nx
  end.
Definition sum (D : list (Z * Z)) : Z := fold_right (fun x n => snd x + n) 0 D.
Record LS (s : state) (D : list (Z * Z)) (F : nat -> list Z) : Prop := {
  ls_front : forall b, front s b = List.hd 0 (F b);
  ls_last : forall b, last s b = List.last (F b) 0;
  ls_dll : forall b, dseg s 0 (F b) 0;
  ls_dfront : dfront s = List.hd 0 (map fst D);
  ls_sll : sseg s (map fst D) 0;
  ls_dlast : dlast s = List.last (map fst D) 0;
  ls_dn : dchunks s = Z.of_nat (length D);
  ls_db : dbytes s = sum D }.

Definition bkt (z : Z) : nat :=
  match bucket_down z (if bucket_size 6 <? z then 16%nat else 6%nat) with Ok b => b | _ => O end.
(** which tiles are on which list *)
Record LK (Ts : ats) (D : list (Z * Z)) (F : nat -> list Z) : Prop := {
  lk_free : forall b p, In p (F b) <-> exists z, In (Tile p z KFree) (tiles Ts) /\ bkt z = b;
  lk_nodup : forall b, NoDup (F b);
  lk_delay : forall p z, In (p, z) D <-> In (Tile p z KDelay) (tiles Ts);
  lk_dnodup : NoDup (map fst D) }.

(** bytes that must not change: none between tiles, none in a tile that is not live *)
Definition clear (P : Z -> Prop) (Ts : ats) : Prop :=
  forall t x, In t (tiles Ts) -> P x ->
    ~ (tp t - g <= x < tp t) /\
    (match tk t with KLive _ _ _ => True | _ => ~ (tp t <= x < tp t + tsz t) end).
Definition keep (P : Z -> Prop) (s s' : state) : Prop := forall x, P x -> mem s' x = mem s x.
End Inv.
