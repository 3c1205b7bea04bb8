(** Specification vocabulary for Dr. Memory's shadow of application memory: one
    of four states per application byte. *)
From Verif Require Import Base Mem Umbra_Model Umbra_Spec Shadow_Model.
Open Scope Z_scope.

(** Dr. Memory's map: one shadow byte for four application bytes, unaddressable
    until set (shadow.c:268-330). *)
Record shadow_map (m : umap) : Prop := {
  sh_map : map_ok m;
  sh_sc : sc m = Down4;
  sh_dflt : dflt m = 0x55 }.

(** The [k]-th of the four two-bit fields of a shadow byte. *)
Definition two (b k : Z) : Z := b / 4 ^ k mod 4.

(** Application byte [x] has state [v]. *)
Definition byte_state (m : umap) (st : ustate) (x v : Z) : Prop :=
  exists b, shows m st (first_shadow m x) b /\ v = two b (x mod 4).

(** The range is application memory, and no block of it starts at the end of a
    reserved range (C22: such a block is reported as not shadowed). *)
Definition usable (m : umap) (ss : list seg) (x n : Z) : Prop :=
  app_range ss x n /\
  forall y, x <= y < x + n -> ~ at_edge ss (first_shadow m (y - y mod 2 ^ 18)).

(** All application bytes have the states [D]. *)
Definition states (m : umap) (st : ustate) (D : Z -> Z) : Prop :=
  forall y, in_app (segs st) y -> forall v, byte_state m st y v <-> v = D y.

(** Every 16-aligned chunk of the range that starts with a defined byte is
    defined throughout (within the range). *)
Definition chunky (D : Z -> Z) (x n : Z) : Prop :=
  forall y z, x <= y < x + n -> y mod 16 = 0 -> D y = 0 -> y <= z < y + 16 -> z < x + n -> D z = 0.

(** What [shadow_copy_range] needs beyond usable ranges: a size that fits its
    32-bit index and, when both ranges have the same alignment, no forward
    overlap and an unaligned start that reaches the end of its granule. *)
Definition copyable (old new size : Z) : Prop :=
  size < 2 ^ 32 /\ (old mod 4 <> new mod 4 \/
    ((new <= old \/ old + size <= new) /\ (old mod 4 = 0 \/ 4 - old mod 4 <= size))).

(** The answer of [shadow_check_range] on [x, lim) when the bytes have the states
    [D]: never a false alarm; exact unless it has to skip over 16-byte chunks
    that start with a defined byte, and then exact if those are uniform. *)
Definition checked (D : Z -> Z) (x lim expect : Z) (want : bool) (r : check) : Prop :=
  match c_bad r with
  | None => c_res r = true /\ c_end r = None /\
      ((expect = 0 -> chunky D x (lim - x)) -> forall y, x <= y < lim -> D y = expect)
  | Some (s, b) =>
      c_res r = false /\ x <= s < lim /\ D s = b /\ b <> expect /\
      ((expect = 0 -> chunky D x (lim - x)) -> forall y, x <= y < s -> D y = expect) /\
      (want = false -> c_end r = None) /\
      (want = true -> exists e, c_end r = Some e /\ s < e <= lim + 15 /\ (e < lim -> D e <> b) /\
         (b <> 0 -> e <= lim) /\
         ((b = 0 -> chunky D x (lim - x)) -> forall y, s <= y < Z.min e lim -> D y = b))
  end.

(** * Histories of calls *)
Inductive sop :=
| SSet (x n v : Z)                      (* shadow_set_range *)
| SNonMatching (x n v w : Z)            (* shadow_set_non_matching_range *)
| SCopy (s d n : Z)                     (* shadow_copy_range *)
| SPut (x v : Z)                        (* shadow_set_byte, fresh cache *)
| SGet (x : Z)                          (* shadow_get_byte, fresh cache *)
| SCheck (x n expect : Z) (want : bool) (* shadow_check_range *)
| SBack (x n expect : Z)                (* shadow_check_range_backward *)
| SNext (x n expect : Z).               (* shadow_next_dword *)
Inductive sout :=
| ODone | OState (v : Z) | OCheck (c : check) | OBack (r : option Z) | ONext (r : option Z).

Definition do_sop (m : umap) (st : ustate) (op : sop) : res (ustate * sout) :=
  match op with
  | SSet x n v => let* st := set_range m st x (x + n) v in Ok (st, ODone)
  | SNonMatching x n v w => let* st := set_non_matching m st x n v w in Ok (st, ODone)
  | SCopy s d n => let* st := copy_range m st s d n in Ok (st, ODone)
  | SPut x v => let* r := set_byte m st info0 x v in Ok (fst r, ODone)
  | SGet x => let* r := get_byte m st info0 x in Ok (st, OState (fst r))
  | SCheck x n v want => let* r := check_range m st x n v want in Ok (st, OCheck r)
  | SBack x n v => let* r := check_backward m st x n v in Ok (st, OBack r)
  | SNext x n v => let* r := next_dword m st x (x + n) v in Ok (fst r, ONext (snd r))
  end.
Fixpoint do_sops (m : umap) (st : ustate) (ops : list sop) : res (ustate * list sout) :=
  match ops with
  | [] => Ok (st, [])
  | op :: ops' =>
    let* r := do_sop m st op in
    let* q := do_sops m (fst r) ops' in
    Ok (fst q, snd r :: snd q)
  end.

Definition sop_ok (m : umap) (ss : list seg) (op : sop) : Prop :=
  match op with
  | SSet x n v | SNonMatching x n v _ => usable m ss x n /\ 0 <= v <= 3
  | SCopy s d n => usable m ss s n /\ usable m ss d n /\ copyable s d n
  | SPut x v => usable m ss x 1 /\ 0 <= v <= 3
  | SGet x => usable m ss x 1
  | SCheck x n _ _ => usable m ss x n
  | SBack x n _ => usable m ss (x - n + 1) n /\ n <= x
  | SNext x n v => usable m ss x n /\ x mod 4 = 0 /\ n mod 4 = 0 /\ 0 <= v <= 3
  end.

(** What a call must do to the states [D] ... *)
Definition seffect (D : Z -> Z) (op : sop) : Z -> Z :=
  let within x n y := (x <=? y) && (y <? x + n) in
  match op with
  | SSet x n v => fun y => if within x n y then v else D y
  | SNonMatching x n v w => fun y => if within x n y && negb (D y =? w) then v else D y
  | SCopy s d n => fun y => if within d n y then D (y - d + s) else D y
  | SPut x v => fun y => if y =? x then v else D y
  | _ => D
  end.

(** ... and what it must answer. *)
Definition sanswer (D : Z -> Z) (op : sop) (o : sout) : Prop :=
  let all y v := forall z, y <= z < y + 4 -> D z = v in
  match op with
  | SGet x => o = OState (D x)
  | SCheck x n v want => exists r, o = OCheck r /\ checked D x (x + n) v want r
  | SBack x n v => exists r, o = OBack r /\
      match r with
      | Some a => x - n < a <= x /\ D a <> v /\ forall y, a < y <= x -> D y = v
      | None => forall y, x - n < y <= x -> D y = v
      end
  | SNext x n v => exists r, o = ONext r /\
      match r with
      | Some y => x <= y < x + n /\ y mod 4 = 0 /\ all y v /\
          forall y', x <= y' < y -> y' mod 4 = 0 -> ~ all y' v
      | None => forall y', x <= y' < x + n -> y' mod 4 = 0 -> ~ all y' v
      end
  | _ => o = ODone
  end.
Fixpoint sanswers (D : Z -> Z) (ops : list sop) (outs : list sout) : Prop :=
  match ops, outs with
  | [], [] => True
  | op :: ops', o :: outs' => sanswer D op o /\ sanswers (seffect D op) ops' outs'
  | _, _ => False
  end.
