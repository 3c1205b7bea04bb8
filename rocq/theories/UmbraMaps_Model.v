(** The registry of shadow maps and the start and end of Umbra: umbra/umbra.c
    100-235 and 295-406.

    Simplifications.  [global_alloc] does not fail (it aborts the process).
    What [umbra_map_arch_init] answers is an oracle, as are the three ways in
    which [umbra_init] can fail.  Registered events are left out.  [int] is
    unbounded (fewer than 2^31 calls).  Assertions are the ones of a release
    build: nothing. *)
From Coq Require Import ZArith List Bool Lia.
Import ListNotations.
Open Scope Z_scope.

(** [Bad]: an access outside [umbra_maps], to freed memory, or to a lock that
    does not exist.  [Hang]: waiting for a mutex that this thread holds. *)
Inductive out (A : Type) := Ret (a : A) | Bad | Hang.
Arguments Ret {A}. Arguments Bad {A}. Arguments Hang {A}.
Definition bind {A B} (x : out A) (f : A -> out B) : out B :=
  match x with Ret a => f a | Bad => Bad | Hang => Hang end.
Notation "'let!' x := a 'in' b" := (bind a (fun x => b))
  (at level 200, x name, a at level 100, b at level 200).

(** framework/drmf.h: the codes used here. *)
Inductive status :=
  S_ok | S_error | S_call | S_param | S_feature | S_notimpl | S_unknown.

(** umbra.h:196-277 [umbra_map_options_t]: the enum value of the scale, the
    default value and its size, and whether any of the four callbacks is set. *)
Record ops := Ops { o_scale : Z; o_dflt : Z; o_dsize : Z; o_cb : bool }.

(** umbra_private.h:51-79 [struct _umbra_map_t]; [m_lock]: its lock exists. *)
Record umap := Map { m_id : Z; m_scale : Z; m_index : nat; m_lock : bool }.

Inductive mutex := NoMutex | Free | Held | Destroyed.

(** umbra.c:41-45 and the heap; [next] numbers allocations. *)
Record state := St {
  heap : list umap;
  slots : list (option Z);      (* umbra_maps *)
  num : Z;                      (* num_umbra_maps *)
  count : Z;                    (* umbra_init_count *)
  ready : bool;                 (* umbra_initialized *)
  lock : mutex;                 (* umbra_global_lock *)
  next : Z }.

(** umbra_private.h:37. *)
Definition MAX_NUM_MAPS : nat := 2.
Definition boot : state := St [] (repeat None MAX_NUM_MAPS) 0 0 false NoMutex 1.

Definition with_heap (st : state) (h : list umap) : state :=
  St h (slots st) (num st) (count st) (ready st) (lock st) (next st).
Definition with_slots (st : state) (l : list (option Z)) : state :=
  St (heap st) l (num st) (count st) (ready st) (lock st) (next st).
Definition with_num (st : state) (n : Z) : state :=
  St (heap st) (slots st) n (count st) (ready st) (lock st) (next st).
Definition with_count (st : state) (n : Z) : state :=
  St (heap st) (slots st) (num st) n (ready st) (lock st) (next st).
Definition with_ready (st : state) (b : bool) : state :=
  St (heap st) (slots st) (num st) (count st) b (lock st) (next st).
Definition with_lock (st : state) (l : mutex) : state :=
  St (heap st) (slots st) (num st) (count st) (ready st) l (next st).

(** umbra.c:71-81. *)
Definition umbra_lock (st : state) : out state :=
  match lock st with
  | Free => Ret (with_lock st Held)
  | Held => Hang
  | NoMutex | Destroyed => Bad
  end.
Definition umbra_unlock (st : state) : out state :=
  match lock st with Held => Ret (with_lock st Free) | _ => Bad end.

(** Reading a map through a pointer. *)
Definition deref (st : state) (p : Z) : out umap :=
  match find (fun m => m_id m =? p) (heap st) with Some m => Ret m | None => Bad end.

(** umbra.c:99-107 [umbra_map_destroy] of a map that is not NULL. *)
Definition map_destroy (st : state) (p : Z) : out state :=
  let! m := deref st p in
  if m_lock m then Ret (with_heap st (filter (fun m => negb (m_id m =? p)) (heap st)))
  else Bad.

(** umbra.c:119-172 [umbra_map_create]: the new map ([None]: [*map_out] is
    NULL) and the result. *)
Definition map_create (arch : nat -> ops -> status) (st : state) (o : ops) (idx : nat)
  : state * option Z * status :=
  if negb (o_dsize o =? 1) || (255 <? o_dflt o) then (st, None, S_notimpl)
  else
    let p := next st in
    let mk lk := St (Map p (o_scale o) idx lk :: heap st) (slots st) (num st) (count st)
                    (ready st) (lock st) (next st + 1) in
    if o_cb o then (mk false, Some p, S_notimpl)
    else if (0 <=? o_scale o) && (o_scale o <=? 4) then (mk true, Some p, arch idx o)
    else (mk false, Some p, S_feature).

(** umbra.c:183-188: the first free slot. *)
Fixpoint free_slot (l : list (option Z)) : nat :=
  match l with
  | [] => 0
  | None :: _ => 0
  | Some _ :: l' => S (free_slot l')
  end.

(** umbra.c:109-117 [umbra_map_compatible]. *)
Definition compatible (a b : umap) : bool := m_scale a =? m_scale b.

(** umbra.c:196-202: [l] is what is left of [umbra_maps] at index [i]. *)
Fixpoint compat_loop (st : state) (m : umap) (l : list (option Z)) (i : Z) : out bool :=
  if num st <=? i then Ret true
  else match l with
       | [] => Bad
       | None :: l' => compat_loop st m l' (i + 1)
       | Some q :: l' =>
         let! m' := deref st q in
         if compatible m m' then compat_loop st m l' (i + 1) else Ret false
       end.

Fixpoint set_slot (i : nat) (x : option Z) (l : list (option Z)) : list (option Z) :=
  match l, i with
  | [], _ => []
  | _ :: l', O => x :: l'
  | y :: l', S i' => y :: set_slot i' x l'
  end.

(** umbra.c:174-210 [umbra_map_add]. *)
Definition map_add (arch : nat -> ops -> status) (st : state) (o : ops)
  : out (state * option Z * status) :=
  let idx := free_slot (slots st) in
  if (MAX_NUM_MAPS <=? idx)%nat then Ret (st, None, S_feature)
  else
    match map_create arch st o idx with
    | (st, Some p, S_ok) =>
      let! m := deref st p in
      let! ok := compat_loop st m (slots st) 0 in
      if ok : bool then Ret (with_slots st (set_slot idx (Some p) (slots st)), Some p, S_ok)
      else let! st := map_destroy st p in Ret (st, Some p, S_feature)
    | r => Ret r
    end.

(** umbra.c:216-222: the slot of [p]. *)
Fixpoint slot_of (p : Z) (l : list (option Z)) : option nat :=
  match l with
  | [] => None
  | Some q :: l' => if q =? p then Some O else option_map S (slot_of p l')
  | None :: l' => option_map S (slot_of p l')
  end.

(** umbra.c:212-229 [umbra_map_remove]; [num_umbra_maps] is unsigned. *)
Definition map_remove (st : state) (p : Z) : out state :=
  match slot_of p (slots st) with
  | None => Ret st
  | Some i =>
    map_destroy (with_num (with_slots st (set_slot i None (slots st)))
                          ((num st - 1) mod 2 ^ 32)) p
  end.

(** umbra.c:295-333 [umbra_init]: [v], [a], [d] = the version check,
    [umbra_arch_init] and [drmgr_init] succeed. *)
Definition init (v a d : bool) (st : state) : state * status :=
  let st := with_count st (count st + 1) in
  if 1 <? count st then (st, S_ok)
  else if negb v then (st, S_error)
  else
    let st := with_lock st Free in
    if negb a then (st, S_error)
    else if negb d then (st, S_error)
    else (with_ready st true, S_ok).

(** umbra.c:391-406 [umbra_destroy_mapping]; [None] = NULL. *)
Definition destroy_mapping (st : state) (p : option Z) : out (state * status) :=
  match p with
  | None => Ret (st, S_param)
  | Some p =>
    let! _ := deref st p in
    let! st := umbra_lock st in
    let! st := map_remove st p in
    let! st := umbra_unlock st in
    Ret (st, S_ok)
  end.

(** umbra.c:347-353: destroy what the client left behind. *)
Fixpoint exit_loop (n i : nat) (st : state) : out state :=
  match n with
  | O => Ret st
  | S n' =>
    let! st := match nth i (slots st) None with
               | Some p => let! r := destroy_mapping st (Some p) in Ret (fst r)
               | None => Ret st
               end in
    exit_loop n' (S i) (with_slots st (set_slot i None (slots st)))
  end.

(** umbra.c:335-372 [umbra_exit]. *)
Definition exit (st : state) : out (state * status) :=
  let st := with_count st (count st - 1) in
  if 0 <? count st then Ret (st, S_ok)
  else if count st <? 0 then Ret (st, S_error)
  else
    let! st := umbra_lock st in
    let! st := exit_loop MAX_NUM_MAPS 0 st in
    let st := with_num st 0 in
    let! st := umbra_unlock st in
    Ret (with_ready (with_lock st Destroyed) false, S_ok).

(** umbra.c:374-389 [umbra_create_mapping]; [null] = [map_out] is NULL. *)
Definition create_mapping (arch : nat -> ops -> status) (st : state) (null : bool) (o : ops)
  : out (state * option Z * status) :=
  if negb (ready st) then Ret (st, None, S_call)
  else if null then Ret (st, None, S_param)
  else
    let! st := umbra_lock st in
    let! r := map_add arch st o in
    let '(st, p, e) := r in
    let! st := umbra_unlock st in
    Ret (st, p, e).

(** What a client can do; the answer is the status and, from create, the map
    if the call succeeded. *)
Inductive call :=
| Init (v a d : bool) | Exit | Create (null : bool) (o : ops) | Destroy (p : option Z).
Definition answer : Type := status * option Z.

Definition step (arch : nat -> ops -> status) (st : state) (c : call) : out (state * answer) :=
  match c with
  | Init v a d => let '(st, e) := init v a d st in Ret (st, (e, None))
  | Exit => let! r := exit st in Ret (fst r, (snd r, None))
  | Create null o =>
    let! r := create_mapping arch st null o in
    let '(st, p, e) := r in
    Ret (st, (e, match e with S_ok => p | _ => None end))
  | Destroy p => let! r := destroy_mapping st p in Ret (fst r, (snd r, None))
  end.

Fixpoint run (arch : nat -> ops -> status) (st : state) (l : list call)
  : out (state * list answer) :=
  match l with
  | [] => Ret (st, [])
  | c :: l' =>
    let! r := step arch st c in
    let! r' := run arch (fst r) l' in
    Ret (fst r', snd r :: snd r')
  end.
