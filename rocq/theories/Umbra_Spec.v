(** Specification vocabulary for the shadow-memory framework: what a client of
    Umbra may rely on, stated over addresses and shadow bytes. *)
From Verif Require Import Base Mem Umbra_Model.
Open Scope Z_scope.

(** [num]/[den]: shadow bytes per application byte of each scale (umbra.h:92). *)
Definition num (s : scale) : Z := match s with Up2 => 2 | _ => 1 end.
Definition den (s : scale) : Z :=
  match s with Down8 => 8 | Down4 => 4 | Down2 => 2 | _ => 1 end.

Definition disjoint (b1 e1 b2 e2 : Z) : Prop :=
  forall x, b1 <= x < e1 -> b2 <= x < e2 -> False.

(** A segment in use: 4MB-aligned, inside one run of sixteen 2^40 segments, not starting at a
    non-zero multiple of 2^44, with its shadow range computed from the scale. *)
Record seg_ok (m : umap) (g : seg) : Prop := {
  so_range : 0 <= ab g /\ ab g < ae g /\ ae g < 2 ^ 64;
  so_base : ab g mod 2 ^ 22 = 0;
  so_end : ae g mod 2 ^ 22 = 0;
  so_one : ab g / 2 ^ 44 = (ae g - 1) / 2 ^ 44;
  so_special : ab g = 0 \/ ab g mod 2 ^ 44 <> 0;
  so_map : hasmap g = true;
  so_sb : sb g = (ab g mod 2 ^ 44 + disp m) * num (sc m) / den (sc m);
  so_se : se g = sb g + (ae g - ab g) * num (sc m) / den (sc m);
  so_rb : rb g = xl8 m (sb g);
  so_re : re g = xl8 m (se g);
  so_nb : nbytes g * (sh_bs m * 8) = se g - sb g }.

(** A usable map: index, default value, and a system that grants every
    fixed-address block. *)
Record map_ok (m : umap) : Prop := {
  mo_idx : idx m = 0 \/ idx m = 1;
  mo_dflt : 0 <= dflt m < 255;
  mo_touch : on_touch m = true;
  mo_alloc : forall a, alloc m a = true }.

(** The layout invariant: all segments in use are well formed, application,
    shadow and reserved ranges do not meet, and no slot that precedes a segment
    in use is empty. *)
Record layout_ok (m : umap) (ss : list seg) : Prop := {
  lo_seg : forall i g, nth_error ss i = Some g -> used g = true -> seg_ok m g;
  lo_app : forall i j g h, nth_error ss i = Some g -> nth_error ss j = Some h -> i <> j ->
             used h = true -> disjoint (ab g) (ae g) (ab h) (ae h);
  lo_sh : forall i j g h, nth_error ss i = Some g -> nth_error ss j = Some h -> i <> j ->
             used g = true -> used h = true -> disjoint (sb g) (se g) (sb h) (se h);
  lo_app_sh : forall i j g h, nth_error ss i = Some g -> nth_error ss j = Some h ->
             used h = true -> disjoint (ab g) (ae g) (sb h) (se h);
  lo_res_app : forall i j g h, nth_error ss i = Some g -> nth_error ss j = Some h ->
             used g = true -> used h = true -> disjoint (rb g) (re g) (ab h) (ae h);
  lo_res_sh : forall i j g h, nth_error ss i = Some g -> nth_error ss j = Some h ->
             used h = true -> disjoint (rb g) (re g) (sb h) (se h);
  lo_unused : forall i g, nth_error ss i = Some g -> used g = false ->
             hasmap g = false /\ sb g = 0 /\ se g = 0 /\ rb g = 0 /\ re g = 0;
  lo_compact : forall i j g h, nth_error ss i = Some g -> nth_error ss j = Some h ->
             (i < j)%nat -> used h = true -> ae g <> 0 }.

(** Application memory known to the map, and the shadow bytes of the map. *)
Definition in_app (ss : list seg) (x : Z) : Prop :=
  exists i g, nth_error ss i = Some g /\ used g = true /\ ab g <= x < ae g.
Definition in_shadow (ss : list seg) (a : Z) : Prop :=
  exists i g, nth_error ss i = Some g /\ used g = true /\ sb g <= a < se g.

(** The block holding shadow byte [a] has been created. *)
Definition live (m : umap) (st : ustate) (a : Z) : Prop :=
  exists i g, nth_error (segs st) i = Some g /\ used g = true /\ sb g <= a < se g /\
    let k := (a - sb g) / (ALLOC_UNIT * num (sc m)) in In (k / 8, k mod 8) (bits g).

Definition state_ok (m : umap) (st : ustate) : Prop :=
  layout_ok m (segs st) /\
  (forall a, live m st a -> exists v, sm st a = Some v /\ 0 <= v < 256).

(** Shadow byte [a] shows [v]: its stored value once its block exists, the
    default before. *)
Definition shows (m : umap) (st : ustate) (a v : Z) : Prop :=
  (live m st a /\ sm st a = Some v) \/ (~ live m st a /\ v = dflt m).

(** The shadow bytes of the application range [x, x+n) (both multiples of the
    granule). *)
Definition first_shadow (m : umap) (x : Z) : Z :=
  (x mod 2 ^ 44 + disp m) * num (sc m) / den (sc m).

(** [a] is one of the shadow bytes of application address [x]. *)
Definition shadow_of (m : umap) (x a : Z) : Prop :=
  first_shadow m x <= a < first_shadow m x + num (sc m).

(** The [i]-th shadow byte of an application range that starts at [x]. *)
Definition sbyte (m : umap) (x i : Z) : Z :=
  first_shadow m (x + i * den (sc m) / num (sc m)) + i mod num (sc m).

(** Number of shadow bytes of [n] application bytes. *)
Definition nshadow (m : umap) (n : Z) : Z := n * num (sc m) / den (sc m).

(** Everything but block creation is unchanged. *)
Definition same_layout (ss ss' : list seg) : Prop :=
  length ss = length ss' /\
  forall i g g', nth_error ss i = Some g -> nth_error ss' i = Some g' ->
    with_bits g [] = with_bits g' [].

(** The whole application range [x, x+n) is known to the map. *)
Definition app_range (ss : list seg) (x n : Z) : Prop :=
  0 <= x /\ 0 < n /\ forall y, x <= y < x + n -> in_app ss y.

(** Shadow address [a] is the (exclusive) end of some reserved range. *)
Definition at_edge (ss : list seg) (a : Z) : Prop :=
  exists i h, nth_error ss i = Some h /\ re h = a.

(** Whole granules. *)
Definition whole (m : umap) (x n : Z) : Prop := x mod den (sc m) = 0 /\ n mod den (sc m) = 0.

(** [st'] shows the same as [st] except that the shadow bytes of [x, x+n) show
    the value that [f] assigns to them. *)
Definition shown_update (m : umap) (st st' : ustate) (x n : Z) (f : Z -> Z -> Z -> Prop) : Prop :=
  same_layout (segs st) (segs st') /\
  (forall y a v, x <= y < x + n -> shadow_of m y a -> (shows m st' a v <-> f y a v)) /\
  (forall a v, ~ (exists y, x <= y < x + n /\ shadow_of m y a) ->
     (shows m st' a v <-> shows m st a v)).


(** What a successful start-up must guarantee of the segments in use: no two of
    the application, shadow and reserved (shadow-of-shadow) ranges meet. *)
Definition separated (ss : list seg) : Prop :=
  forall i j g h, nth_error ss i = Some g -> nth_error ss j = Some h ->
    used g = true -> used h = true -> ae g <> 0 -> ae h <> 0 -> re g <> 0 -> re h <> 0 ->
    se g <> 0 -> se h <> 0 ->
    (i <> j -> disjoint (ab g) (ae g) (ab h) (ae h)) /\
    (i <> j -> disjoint (sb g) (se g) (sb h) (se h)) /\
    disjoint (ab g) (ae g) (sb h) (se h) /\
    disjoint (ab g) (ae g) (rb h) (re h) /\
    disjoint (sb g) (se g) (rb h) (re h).

(** Region [(b, n)] is application memory of the map. *)
Definition covered (ss : list seg) (r : Z * Z) : Prop :=
  exists i g, nth_error ss i = Some g /\ used g = true /\ ab g <= fst r /\ fst r + snd r <= ae g.

(** The regions a Linux process has: user space, and the vsyscall page. *)
Definition region_ok (vsyscall : bool) (r : Z * Z) : Prop :=
  0 <= fst r /\ 0 < snd r /\
  (fst r + snd r <= 2 ^ 47 \/
   (vsyscall = true /\ 0xFFFFFFFFFF400000 <= fst r /\ fst r + snd r <= 0xFFFFFFFFFF800000)).

(** The layouts on which the translation is affine (checked by computation on
    the actual layouts): what start-up does not itself check. *)
Definition seg_regular (g : seg) : bool :=
  (0 <=? ab g) && (ab g <? ae g) && (ae g <? 2 ^ 64) &&
  (ab g mod 2 ^ 22 =? 0) && (ae g mod 2 ^ 22 =? 0) &&
  (ab g / 2 ^ 44 =? (ae g - 1) / 2 ^ 44) &&
  ((ab g =? 0) || negb (ab g mod 2 ^ 44 =? 0)).
Definition apart (b1 e1 b2 e2 : Z) : bool := (e1 <=? b2) || (e2 <=? b1).
Definition unused_regular (ss : list seg) (g : seg) : bool :=
  negb (hasmap g) && (sb g =? 0) && (se g =? 0) && (rb g =? 0) && (re g =? 0) &&
  forallb (fun h => negb (used h) || (apart (ab g) (ae g) (ab h) (ae h) &&
                                      apart (ab g) (ae g) (sb h) (se h))) ss.
Fixpoint compactb (ss : list seg) : bool :=
  match ss with
  | [] => true
  | g :: l => (negb (ae g =? 0) || forallb (fun h => negb (used h)) l) && compactb l
  end.
Definition regular (ss : list seg) : bool :=
  forallb (fun g => if used g then seg_regular g else unused_regular ss g) ss &&
  compactb ss.

(** * Histories of client calls *)

(** The client calls on one map; [n] is always a number of application bytes. *)
Inductive uop :=
| OSet (x n v : Z)         (* umbra_shadow_set_range *)
| OCreate (x n v : Z)      (* umbra_create_shadow_memory *)
| ODelete (x n : Z)        (* umbra_delete_shadow_memory *)
| OWrite (x n : Z) (l : list Z)  (* umbra_write_shadow_memory *)
| ORead (x n : Z)          (* umbra_read_shadow_memory, buffer of the exact size *)
| OCopy (s d n : Z)        (* umbra_shadow_copy_range *)
| OFind (x n v : Z).       (* umbra_value_in_shadow_memory, one-byte value *)
Inductive uout := UDone | UBytes (l : list Z) | UFound (r : option Z).

Definition do_op (m : umap) (st : ustate) (op : uop) : res (ustate * status * uout) :=
  match op with
  | OSet x n v => let* r := umbra_set_range m st x n v in Ok (fst (fst r), snd (fst r), UDone)
  | OCreate x n v => let* r := umbra_create m st x n v in Ok (fst r, snd r, UDone)
  | ODelete x n => let* r := umbra_delete m st x n in Ok (fst r, snd r, UDone)
  | OWrite x n l => let* r := umbra_write m st x n (Z.of_nat (length l)) l in
                    Ok (fst (fst r), snd (fst r), UDone)
  | ORead x n => let* r := umbra_read m st x n (nshadow m n) in
                 Ok (fst (fst r), snd (fst r), UBytes (snd r))
  | OCopy s d n => let* r := umbra_copy_range m st s d n in Ok (fst (fst r), snd (fst r), UDone)
  | OFind x n v => let* r := umbra_value_in m st x n v 1 in
                   Ok (fst (fst r), snd (fst r), UFound (snd r))
  end.
Fixpoint do_ops (m : umap) (st : ustate) (ops : list uop) : res (ustate * list (status * uout)) :=
  match ops with
  | [] => Ok (st, [])
  | op :: ops' =>
    let* r := do_op m st op in
    let '(st1, s, o) := r in
    let* q := do_ops m st1 ops' in
    Ok (fst q, (s, o) :: snd q)
  end.

(** A legal range: application memory, whole granules, and not ending on the
    first byte of a block (possible only when a granule is one byte). *)
Definition range_ok (m : umap) (ss : list seg) (x n : Z) : Prop :=
  app_range ss x n /\ whole m x n /\ (x + n - 1) mod app_bs m <> 0.
Definition op_ok (m : umap) (ss : list seg) (op : uop) : Prop :=
  match op with
  | OSet x n v => range_ok m ss x n /\ 0 <= v <= 255
  | OCreate x n v =>
      (exists i g, nth_error ss i = Some g /\ used g = true /\ ab g <= x /\ 0 < n /\ x + n <= ae g) /\
      x mod app_bs m = 0 /\ n mod app_bs m = 0 /\ 0 <= v < 255
  | ODelete x n => range_ok m ss x n
  | OWrite x n l => range_ok m ss x n /\ Z.of_nat (length l) = nshadow m n /\
                    forall v, In v l -> 0 <= v < 256
  | ORead x n => range_ok m ss x n
  | OCopy s d n => range_ok m ss s n /\ range_ok m ss d n /\ 1 < den (sc m) /\ n < 2 ^ 62 /\
                   s <> d /\ ~ (s < d <= s + n - 1)
  | OFind x n v => range_ok m ss x n /\ 0 <= v <= 255
  end.

(** The shadow bytes of a range. *)
Definition in_range (m : umap) (x n a : Z) : Prop := exists y, x <= y < x + n /\ shadow_of m y a.

(** What each call must do to the shadow values [V] (a map from shadow address
    to the value it shows)... *)
Definition effect (m : umap) (V : Z -> Z) (op : uop) (V' : Z -> Z) : Prop :=
  let fill x n v := (forall a, in_range m x n a -> V' a = v) /\
                    (forall a, ~ in_range m x n a -> V' a = V a) in
  match op with
  | OSet x n v | OCreate x n v => fill x n v
  | ODelete x n => fill x n (dflt m)
  | OWrite x n l =>
      (forall i, 0 <= i < nshadow m n -> nth_error l (Z.to_nat i) = Some (V' (sbyte m x i))) /\
      (forall a, ~ in_range m x n a -> V' a = V a)
  | OCopy s d n =>
      (forall i, 0 <= i < nshadow m n -> V' (sbyte m d i) = V (sbyte m s i)) /\
      (forall a, ~ in_range m d n a -> V' a = V a)
  | ORead _ _ | OFind _ _ _ => forall a, V' a = V a
  end.

(** ... and what it must answer. *)
Definition answer (m : umap) (V : Z -> Z) (op : uop) (o : uout) : Prop :=
  match op with
  | ORead x n => exists l, o = UBytes l /\ Z.of_nat (length l) = nshadow m n /\
      forall i, 0 <= i < nshadow m n -> nth_error l (Z.to_nat i) = Some (V (sbyte m x i))
  | OFind x n v => exists r, o = UFound r /\
      match r with
      | Some y => exists i, 0 <= i < nshadow m n /\ y = x + i * den (sc m) / num (sc m) /\
          V (sbyte m x i) = v /\ forall j, 0 <= j < i -> V (sbyte m x j) <> v
      | None => forall j, 0 <= j < nshadow m n -> V (sbyte m x j) <> v
      end
  | _ => o = UDone
  end.

(** The application blocks a call may create shadow for; all but a search
    (which stops at the first match) create all of them. *)
Definition touches (m : umap) (op : uop) (b : Z) : Prop :=
  let r x n := exists y, x <= y < x + n /\ b = y / app_bs m in
  match op with
  | OSet x n _ | OCreate x n _ | ODelete x n | OWrite x n _ | ORead x n | OFind x n _ => r x n
  | OCopy s d n => r s n \/ r d n
  end.
Definition stops_early (op : uop) : bool := match op with OFind _ _ _ => true | _ => false end.

(** [V]: values shown; [B]: application blocks with shadow. *)
Inductive history (m : umap) : (Z -> Z) -> (Z -> Prop) -> list uop -> list (status * uout) ->
                               (Z -> Z) -> (Z -> Prop) -> Prop :=
| h_nil (V : Z -> Z) (B : Z -> Prop) : history m V B [] [] V B
| h_cons (V : Z -> Z) (B : Z -> Prop) op o (V1 : Z -> Z) (B1 : Z -> Prop) ops outs
         (V2 : Z -> Z) (B2 : Z -> Prop) :
    answer m V op o -> effect m V op V1 ->
    (forall b, B b -> B1 b) -> (forall b, B1 b -> B b \/ touches m op b) ->
    (stops_early op = false -> forall b, touches m op b -> B1 b) ->
    history m V1 B1 ops outs V2 B2 ->
    history m V B (op :: ops) ((S_ok, o) :: outs) V2 B2.

(** A freshly started map: no shadow block exists. *)
Definition started (m : umap) (st : ustate) : Prop :=
  exists ss, map_arch_init m ss = Some (segs st) /\ regular (segs st) = true.
