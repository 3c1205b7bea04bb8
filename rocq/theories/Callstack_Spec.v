(** Specification of modules and call stacks: the set of loaded regions and
    what an observer of the running program sees. *)
From Verif Require Import Base Callstack_Model.
Open Scope Z_scope.

(** (start, end, path): the loaded regions *)
Definition region := (Z * Z * Z)%type.
Definition r_start (r : region) : Z := fst (fst r).
Definition r_end (r : region) : Z := snd (fst r).
Definition r_path (r : region) : Z := snd r.
Definition covers (pc : Z) (r : region) : bool := (r_start r <=? pc) && (pc <? r_end r).
(** the region containing an address *)
Definition where_is (ms : list region) (pc : Z) : option region := List.find (covers pc) ms.

(** the regions of a module: its maximal runs of adjacent segments *)
Fixpoint runs (b e : Z) (l : list (Z * Z)) : list (Z * Z) :=
  match l with
  | [] => [(b, e)]
  | (s, t) :: l' => if s =? e then runs b t l' else (b, e) :: runs s t l'
  end.
Definition module_regions (m : module_data) : list region :=
  map (fun x => (fst x, snd x, m_path m))
      (match m_segs m with [] => [(m_start m, m_stop m)] | (s, e) :: l => runs s e l end).
(** segments are listed in ascending order inside the module's bounds *)
Fixpoint sorted_segs (lo hi : Z) (l : list (Z * Z)) : Prop :=
  match l with
  | [] => lo <= hi
  | (s, e) :: l' => lo <= s < e /\ sorted_segs e hi l'
  end.
Definition module_ok (m : module_data) : Prop :=
  0 < m_start m < m_stop m /\ m_stop m < 2 ^ 64 /\ sorted_segs (m_start m) (m_stop m) (m_segs m).

(** what happens in a run: modules come and go, addresses are looked up *)
Inductive event :=
| Load (m : module_data)
| Unload (m : module_data)
| Lookup (pc : Z)
| InModule (pc : Z).

Definition after (ms : list region) (ev : event) : list region :=
  match ev with
  | Load m => ms ++ module_regions m
  | Unload m => filter (fun r => negb (existsb (fun r' => r_start r' =? r_start r) (module_regions m))) ms
  | _ => ms
  end.
Definition apart (r r' : region) : Prop := r_end r <= r_start r' \/ r_end r' <= r_start r.
(** a module is loaded where nothing is loaded; an unloaded module was loaded *)
Definition allowed (ms : list region) (ev : event) : Prop :=
  match ev with
  | Load m => module_ok m /\ forall r r', In r ms -> In r' (module_regions m) -> apart r r'
  | Unload m => module_ok m /\ forall r, In r (module_regions m) -> In r ms
  | Lookup pc | InModule pc => 0 <= pc
  end.
Fixpoint allowed_all (ms : list region) (evs : list event) : Prop :=
  match evs with
  | [] => True
  | ev :: evs' => allowed ms ev /\ allowed_all (after ms ev) evs'
  end.
Definition loaded (evs : list event) : list region := fold_left after evs [].

(** running the code *)
Definition do_event (dbg : bool) (st : mods) (ev : event) : res mods :=
  match ev with
  | Load m => callstack_module_load dbg st m
  | Unload m => callstack_module_unload st m
  | Lookup pc => let* (st, _) := module_lookup st pc in Ok st
  | InModule pc => let* (st, _) := is_in_module st pc in Ok st
  end.
Fixpoint do_events (dbg : bool) (st : mods) (evs : list event) : res mods :=
  match evs with
  | [] => Ok st
  | ev :: evs' => let* st := do_event dbg st ev in do_events dbg st evs'
  end.

(** regions made of whole pages *)
Definition paged (ev : event) : Prop :=
  match ev with
  | Load m => forall r, In r (module_regions m) -> r_start r mod 4096 = 0 /\ r_end r mod 4096 = 0
  | _ => True
  end.
(** every module keeps (or shrinks) the size it had when its path was first
    loaded *)
Fixpoint first_span (p : Z) (evs : list event) : option Z :=
  match evs with
  | [] => None
  | Load m :: evs' => if m_path m =? p then Some (m_stop m - m_start m) else first_span p evs'
  | _ :: evs' => first_span p evs'
  end.
Definition no_growth (evs : list event) : Prop :=
  forall a m b, evs = a ++ Load m :: b ->
    match first_span (m_path m) a with Some s => m_stop m - m_start m <= s | None => True end.

(** ---- what a call stack is ---- *)
Definition see_pc (ms : list region) (pc : Z) : shown :=
  ShPc pc (match where_is ms pc with Some r => Some (r_path r, pc - r_start r) | None => None end).
Definition see_top (ms : list region) (top : option app_loc) : list shown :=
  match top with
  | None => []
  | Some (AtPc pc) => [see_pc ms pc]
  | Some (AtSyscall s) => [ShSys s]
  end.
(** frames outside any module are dropped where the walk asks for it *)
Definition see_walk (ms : list region) (walk : list (Z * bool)) : list shown :=
  flat_map (fun x => match where_is ms (fst x) with None => if snd x : bool then [] else [see_pc ms (fst x)] | Some _ => [see_pc ms (fst x)] end) walk.
Definition seen (ms : list region) (top : option app_loc) (walk : list (Z * bool)) : list shown :=
  see_top ms top ++ see_walk ms walk.

(** module offsets that the 24-bit encoding cannot express: positive multiples
    of 0xffffff; offsets from 129*0xffffff on overflow an int when decoded *)
Definition fits (s : shown) : Prop :=
  match s with
  | ShPc _ (Some (_, o)) => (o = 0 \/ o mod 16777215 <> 0) /\ o < 129 * 16777215
  | _ => True
  end.

Definition is_sys (o : shown) : bool := match o with ShSys _ => true | _ => false end.
Definition headsys (os : list shown) : bool := match os with o :: _ => is_sys o | [] => false end.
Definition is_full (p : pcs) : bool := match frames p with Full _ => true | _ => false end.
(** which pairs of stacks compare exactly: the same form and no system call, or
    offsets that the packed form can express *)
Definition cmpable (p q : pcs) (o1 o2 : list shown) : Prop :=
  (headsys o1 = false /\ headsys o2 = false /\ is_full p = is_full q) \/
  ((is_full p = true \/ Forall fits o1) /\ (is_full q = true \/ Forall fits o2)).

(** ---- clients sharing stored stacks ---- *)
Inductive cop :=
| Happen (ev : event)
| Take (top : option app_loc) (walk : list (Z * bool)) (junk : Z)   (* record and share a stack *)
| Drop (k : nat).                                                  (* release the k-th reference held *)
Fixpoint drop_nth {A} (k : nat) (l : list A) : list A :=
  match l, k with
  | [], _ => []
  | _ :: l', O => l'
  | x :: l', S k => x :: drop_nth k l'
  end.
(** the stacks the held references stand for *)
Definition hold (s : list event * list (list shown)) (o : cop) : list event * list (list shown) :=
  let (evs, hs) := s in
  match o with
  | Happen ev => (evs ++ [ev], hs)
  | Take top walk _ => (evs, hs ++ [seen (loaded evs) top walk])
  | Drop k => (evs, drop_nth k hs)
  end.
Definition holding (os : list cop) := fold_left hold os ([], []).
Definition cop_ok (s : list event * list (list shown)) (o : cop) : Prop :=
  match o with
  | Happen ev => allowed (loaded (fst s)) ev /\ no_growth (fst s ++ [ev])
  | Take top walk _ => Forall fits (seen (loaded (fst s)) top walk) /\ Z.of_nat (length (snd s)) < 2 ^ 32 - 3
  | Drop k => (k < length (snd s))%nat
  end.
Fixpoint cops_ok (s : list event * list (list shown)) (os : list cop) : Prop :=
  match os with
  | [] => True
  | o :: os' => cop_ok s o /\ cops_ok (hold s o) os'
  end.
(** the code: module state, table, references held *)
Definition do_cop (dbg : bool) (bucket : Z -> Z) (s : mods * table * list nat) (o : cop) : res (mods * table * list nat) :=
  let '(st, tb, held) := s in
  match o with
  | Happen ev => let* st := do_event dbg st ev in Ok (st, tb, held)
  | Take top walk junk => let* (st, p) := record st top walk junk in
                          let* (tb, x) := add_to_table bucket (nms st) tb p in Ok (st, tb, held ++ [x])
  | Drop k => let* x := of_option (nth_error held k) in
              let* tb := shared_callstack_free bucket (nms st) tb x in Ok (st, tb, drop_nth k held)
  end.
Fixpoint do_cops dbg bucket s (os : list cop) : res (mods * table * list nat) :=
  match os with
  | [] => Ok s
  | o :: os' => let* s := do_cop dbg bucket s o in do_cops dbg bucket s os'
  end.
Definition eq_shown (a b : shown) : {a = b} + {a <> b}.
Proof. repeat decide equality. Defined.
Definition sharers (h : list shown) (hs : list (list shown)) : nat := count_occ (list_eq_dec eq_shown) hs h.
