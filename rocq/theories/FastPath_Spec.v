(** What the fast path is meant to do, said byte by byte and without reference
    to the generated code.

    The shadow state of one application byte is a pair of bits.  A register has
    four of them, the flags have one shadow byte of their own, and memory has
    one shadow byte for each aligned group of four bytes (a dword). *)
From Verif Require Import Base FastPath_Model.
Open Scope Z_scope.

Definition st : Type := (bool * bool)%type.
Definition D : st := (false, false).         (* defined *)
Definition Una : st := (true, false).        (* unaddressable *)
Definition Bits : st := (false, true).       (* bit-level *)
Definition U : st := (true, true).           (* undefined *)

(** The state of the [i]-th byte of a dword. *)
Definition lane (x : byte) (i : Z) : st :=
  match x with
  | B a b c d e f g h =>
      if i =? 0 then (a, b) else if i =? 1 then (c, d) else if i =? 2 then (e, f) else (g, h)
  end.

(** Undefined if one of the two is. *)
Definition join (a b : st) : st := (fst a || fst b, snd a || snd b).

(** Neither unaddressable nor bit-level. *)
Definition plain (s : st) : Prop := s = D \/ s = U.

(** What an instruction can see: the shadows of the registers and of the flags,
    the shadow of the dword each memory operand starts in, and where in it. *)
Record view := {
  v_slot : gpr -> byte; v_fl : byte;
  v_mem : byte; v_at : Z;        (* the memory operand *)
  v_mem2 : byte; v_at2 : Z }.    (* the source of movs *)

(** Where the shadow of an application address is. *)
Definition shadow_at (w : world) (ea : Z) : Z := (ea / 4 + w_tab w (ea / 65536)) mod 2 ^ 32.

Definition view_of (w : world) (m : mach) : view :=
  {| v_slot := m_slot m; v_fl := m_fl m;
     v_mem := m_mem m (shadow_at w (w_ea w Prim)); v_at := w_ea w Prim mod 4;
     v_mem2 := m_mem m (shadow_at w (w_ea w Second)); v_at2 := w_ea w Second mod 4 |}.

(** The dword an operand lies in, its first byte there, and its bytes. *)
Definition home (v : view) (o : aop) : byte :=
  match o with
  | AReg g _ _ => v_slot v g
  | AMem _ => v_mem v
  | AMem2 _ => v_mem2 v
  | AImm _ => zero8
  end.
Definition start (v : view) (o : aop) : Z :=
  match o with
  | AReg _ S1 true => 1
  | AReg _ _ _ => 0
  | AMem _ => v_at v
  | AMem2 _ => v_at2 v
  | AImm _ => 0
  end.
Definition state (v : view) (o : aop) (k : Z) : st := lane (home v o) (start v o + k).

(** Every byte of an operand of [n] bytes. *)
Definition every (n : Z) (p : Z -> Prop) : Prop := forall k, 0 <= k < n -> p k.
Definition defined (v : view) (n : Z) (o : aop) : Prop := every n (fun k => state v o k = D).

(** A memory operand of [n] bytes that the program may use: aligned, and none of
    its bytes unaddressable. *)
Definition usable (v : view) (n : Z) (o : aop) : Prop :=
  match o with
  | AMem _ | AMem2 _ => start v o mod n = 0 /\ every n (fun k => plain (state v o k))
  | _ => True
  end.

(** Nothing changes but the [n] bytes of [d] and, if [fl], the flags. *)
Definition same_fl (fl : bool) (v v' : view) : Prop := fl = true \/ v_fl v' = v_fl v.
Definition only_bytes (fl : bool) (v v' : view) (n : Z) (d : aop) : Prop :=
  same_fl fl v v' /\
  match d with
  | AReg g _ _ =>
      (forall x, x <> g -> v_slot v' x = v_slot v x) /\
      v_mem v' = v_mem v /\
      (forall i, 0 <= i < 4 -> ~ (start v d <= i < start v d + n) ->
         lane (v_slot v' g) i = lane (v_slot v g) i)
  | AMem _ =>
      (forall x, v_slot v' x = v_slot v x) /\
      (forall i, 0 <= i < 4 -> ~ (start v d <= i < start v d + n) ->
         lane (v_mem v') i = lane (v_mem v) i)
  | _ => False
  end.

(** Nothing changes but the dword [d] lies in and, if [fl], the flags. *)
Definition only_dword (fl : bool) (v v' : view) (d : aop) : Prop :=
  same_fl fl v v' /\
  match d with
  | AReg g _ _ => (forall x, x <> g -> v_slot v' x = v_slot v x) /\ v_mem v' = v_mem v
  | AMem _ => forall x, v_slot v' x = v_slot v x
  | _ => False
  end.

(** Nothing changes but the flags, if [fl]. *)
Definition only_flags (fl : bool) (v v' : view) : Prop :=
  same_fl fl v v' /\ (forall x, v_slot v' x = v_slot v x) /\ v_mem v' = v_mem v.

(** The flags come out defined exactly when all [n] bytes [f] of the result do. *)
Definition flags_follow (fl : bool) (v' : view) (n : Z) (f : Z -> st) : Prop :=
  fl = true -> (v_fl v' = zero8 <-> every n (fun k => f k = D)).

(** The bytes of [d] become [f], the flags follow, all else stays. *)
Definition result (fl : bool) (v v' : view) (n : Z) (d : aop) (f : Z -> st) : Prop :=
  every n (fun k => lane (home v' d) (start v d + k) = f k) /\
  only_bytes fl v v' n d /\
  flags_follow fl v' n f.

(** ** Families of instructions *)

(** Operands by name: a register, the memory operand, a constant. *)
Inductive arg := Rg (g : gpr) (hi : bool) | Me | Im (v : Z).
Definition aop_of (s : size) (a : arg) : aop :=
  match a with
  | Rg g hi => AReg g s (match s with S1 => hi | _ => false end)
  | Me => AMem s
  | Im v => AImm v
  end.
Definition same (s : size) (a b : arg) : bool :=
  match a, b with
  | Rg g h, Rg g' h' => gpr_eqb g g' && match s with S1 => Bool.eqb h h' | _ => true end
  | Me, Me => true
  | _, _ => false
  end.
(** Something that can be written; operands of which at most one is in memory. *)
Definition writable (d : arg) : Prop := match d with Im _ => False | _ => True end.
Definition one_mem (d o : arg) : Prop := match d, o with Me, Me => False | _, _ => True end.

(** mov and other copies; also inc, dec, neg, not, with [o] = [d]. *)
Definition i_mov (s : size) (d o : arg) (fl : bool) (base : list gpr) : inst :=
  {| i_opc := Oother; i_dst := Some (aop_of s d); i_srcs := [aop_of s o];
     i_wfl := fl; i_rfl := false; i_chk := false; i_base := base |}.

(** add, sub, adc and so on ([Oother]), xor, sbb. *)
Definition i_alu (op : opc) (s : size) (d o : arg) (rfl : bool) (base : list gpr) : inst :=
  {| i_opc := op; i_dst := Some (aop_of s d); i_srcs := [aop_of s o; aop_of s d];
     i_wfl := true; i_rfl := rfl; i_chk := false; i_base := base |}.

(** and, or. *)
Definition i_logic (op : opc) (s : size) (d o : arg) (base : list gpr) : inst :=
  {| i_opc := op; i_dst := Some (aop_of s d); i_srcs := [aop_of s o; aop_of s d];
     i_wfl := true; i_rfl := false; i_chk := false; i_base := base |}.

(** cmp, test and other instructions that only set the flags.  [chk] is the
    option check_uninit_cmps. *)
Definition i_cmp (op : opc) (s : size) (a b : arg) (chk : bool) (base : list gpr) : inst :=
  {| i_opc := op; i_dst := None; i_srcs := [aop_of s a; aop_of s b];
     i_wfl := true; i_rfl := false; i_chk := chk; i_base := base |}.

(** shl, shr, sar, rol, ror, ... by a constant. *)
Definition i_shift (op : opc) (s : size) (d : arg) (n : Z) (base : list gpr) : inst :=
  {| i_opc := op; i_dst := Some (aop_of s d); i_srcs := [AImm n; aop_of s d];
     i_wfl := true; i_rfl := false; i_chk := false; i_base := base |}.

(** movzx, movsx of [ss] to [ds] bytes. *)
Definition i_ext (op : opc) (ds ss : size) (g : gpr) (o : arg) (base : list gpr) : inst :=
  {| i_opc := op; i_dst := Some (AReg g ds false); i_srcs := [aop_of ss o];
     i_wfl := false; i_rfl := false; i_chk := false; i_base := base |}.

(** movs. *)
Definition i_movs (s : size) (base : list gpr) : inst :=
  {| i_opc := Omovs; i_dst := Some (AMem s); i_srcs := [AMem2 s];
     i_wfl := false; i_rfl := false; i_chk := false; i_base := base |}.

(** xchg, xadd; cmpxchg also has %al, %ax or %eax as a source. *)
Definition i_xchg (s : size) (a b : arg) (wfl : bool) (base : list gpr) : inst :=
  {| i_opc := Oxchg; i_dst := Some (aop_of s a); i_srcs := [aop_of s a; aop_of s b];
     i_wfl := wfl; i_rfl := false; i_chk := false; i_base := base |}.
Definition i_cmpxchg (s : size) (a b : arg) (base : list gpr) : inst :=
  {| i_opc := Ocmpxchg; i_dst := Some (aop_of s a);
     i_srcs := [aop_of s b; aop_of s a; aop_of s (Rg EAX false)];
     i_wfl := true; i_rfl := false; i_chk := false; i_base := base |}.

(** setcc and lahf: one byte made from the flags. *)
Definition i_setf (d : arg) (base : list gpr) : inst :=
  {| i_opc := Oother; i_dst := Some (aop_of S1 d); i_srcs := [];
     i_wfl := false; i_rfl := true; i_chk := false; i_base := base |}.

(** ** What each family must do *)

(** [covers a b]: wherever [a] is not defined, neither is [b]. *)
Definition covers (a b : st) : Prop := (fst a = true -> fst b = true) /\ (snd a = true -> snd b = true).

(** As [result], with undefined bytes allowed in excess. *)
Definition result_over (fl : bool) (v v' : view) (n : Z) (d : aop) (f : Z -> st) : Prop :=
  every n (fun k => covers (f k) (lane (home v' d) (start v d + k))) /\
  only_bytes fl v v' n d /\
  (fl = true -> v_fl v' = zero8 -> every n (fun k => f k = D)).

(** The whole dword that [d] lies in becomes defined, and so do the flags. *)
Definition dword_defined (fl : bool) (v v' : view) (d : aop) : Prop :=
  home v' d = zero8 /\ only_dword fl v v' d /\ (fl = true -> v_fl v' = zero8).

(** A store of %ah, %bh, %ch or %dh to the first byte of a dword. *)
Definition high_to_first (s : size) (d o : arg) (v : view) : bool :=
  match s, d, o with S1, Me, Rg _ true => v_at v =? 0 | _, _, _ => false end.

Definition ready (s : size) (d o : arg) (v : view) : Prop :=
  usable v (bytes s) (aop_of s d) /\ usable v (bytes s) (aop_of s o).

(** Copies: the destination gets the states of the source. *)
Definition post_mov (s : size) (d o : arg) (fl : bool) (_ : Z -> bool) (v v' : view) : Prop :=
  ready s d o v /\
  (high_to_first s d o v = false ->
   result fl v v' (bytes s) (aop_of s d) (fun k => state v (aop_of s o) k)).

(** Arithmetic: each byte is undefined if that byte of a source is; the flags
    count as a source of four bytes, and have to be defined otherwise. *)
Definition alu_state (op : opc) (s : size) (d o : arg) (rfl : bool) (v : view) (k : Z) : st :=
  let own := match op with
             | Oxor | Osbb => if same s d o then D else join (state v (aop_of s o) k) (state v (aop_of s d) k)
             | _ => join (state v (aop_of s o) k) (state v (aop_of s d) k)
             end in
  match s with S4 => if rfl then join own (lane (v_fl v) k) else own | _ => own end.
(** The opcodes meant; sbb reads the flags, xor does not. *)
Definition alu_op (op : opc) (rfl : bool) : Prop :=
  match op with Oother => True | Oxor => rfl = false | Osbb => rfl = true | _ => False end.
Definition flags_ready (s : size) (rfl : bool) (v : view) : Prop :=
  match s with S4 => True | _ => rfl = true -> v_fl v = zero8 end.
Definition fine_alu (s : size) (d o : arg) (rfl : bool) (v : view) : Prop :=
  ready s d o v /\ flags_ready s rfl v.
Definition post_alu (op : opc) (s : size) (d o : arg) (rfl : bool) (_ : Z -> bool) (v v' : view) : Prop :=
  ready s d o v /\ flags_ready s rfl v /\
  (high_to_first s d o v = false ->
   result true v v' (bytes s) (aop_of s d) (alu_state op s d o rfl v)).

(** Whole dwords of defined bytes, aligned. *)
Definition clean (s : size) (v : view) (a : arg) : Prop :=
  start v (aop_of s a) mod (match a with Me => bytes s | _ => 1 end) = 0 /\ home v (aop_of s a) = zero8.

(** The source that is looked at first: memory before registers, registers
    before constants. *)
Definition leading (a b : arg) : arg := match a, b with _, Me => b | Im _, _ => b | _, _ => a end.
Definition trailing (a b : arg) : arg := match a, b with _, Me => a | Im _, _ => a | _, _ => b end.

(** The operands of and, or, test: both defined; or, for four bytes, the leading
    one defined and with the value that alone decides the result. *)
Definition decided (op : opc) (s : size) (a b : arg) (app : Z -> bool) (v : view) : Prop :=
  defined v (bytes s) (aop_of s (leading a b)) /\
  (defined v (bytes s) (aop_of s (trailing a b)) \/
   s = S4 /\ app (match op with Oor => -1 | _ => 0 end) = true).

Definition fine_check (s : size) (a b : arg) (v : view) : Prop := clean s v a /\ clean s v b.

Definition post_test (s : size) (a b : arg) (app : Z -> bool) (v v' : view) : Prop :=
  ready s a b v /\ (b = Im 0 \/ decided Otest s a b app v) /\
  only_flags true v v' /\ v_fl v' = zero8.

Definition post_cmp (s : size) (a b : arg) (chk : bool) (_ : Z -> bool) (v v' : view) : Prop :=
  ready s a b v /\
  (chk = true -> defined v (bytes s) (aop_of s a) /\ defined v (bytes s) (aop_of s b)) /\
  only_flags true v v' /\
  flags_follow true v' (bytes s) (fun k => join (state v (aop_of s a) k) (state v (aop_of s b) k)).

(** After a checked instruction its destination is defined.  For one and two
    bytes, so is the rest of the dword. *)
Definition settled (s : size) (fl : bool) (d : arg) (v v' : view) : Prop :=
  match s with
  | S4 => result fl v v' 4 (aop_of s d) (fun _ => D)
  | _ => dword_defined fl v v' (aop_of s d)
  end.

Definition decides (op : opc) (o : arg) : bool :=
  match op, o with Oand, Im 0 => true | Oor, Im (-1) => true | _, _ => false end.
Definition post_logic (op : opc) (s : size) (d o : arg) (app : Z -> bool) (v v' : view) : Prop :=
  ready s d o v /\ (decides op o = true \/ decided op s o d app v) /\ settled s true d v v'.

(** The opcodes meant.  Shifts, but not rotations, of one or two bytes of memory
    are left to the slow path. *)
Definition shifted (op : opc) (s : size) (d : arg) : Prop :=
  match op, s, d with
  | Orot, _, _ => True
  | Oshl, S4, _ | Oshr, S4, _ | Osar, S4, _ => True
  | Oshl, _, Rg _ _ | Oshr, _, Rg _ _ | Osar, _, Rg _ _ => True
  | _, _, _ => False
  end.
Definition post_shift_checked (s : size) (d : arg) (_ : Z -> bool) (v v' : view) : Prop :=
  usable v (bytes s) (aop_of s d) /\ defined v (bytes s) (aop_of s d) /\ settled s true d v v'.

(** What shl, shr and sar by [m] whole bytes do to [n] bytes [f]. *)
Definition moved (op : opc) (n m : Z) (f : Z -> st) (k : Z) : st :=
  match op with
  | Oshl => if k <? m then D else f (k - m)
  | Oshr => if k + m <? n then f (k + m) else D
  | _ => if k + m <? n then f (k + m) else f (n - 1)
  end.
Definition post_shift_bytes (op : opc) (s : size) (d : arg) (m : Z) (_ : Z -> bool) (v v' : view) : Prop :=
  usable v (bytes s) (aop_of s d) /\
  result_over true v v' (bytes s) (aop_of s d)
    (moved op (bytes s) m (fun k => state v (aop_of s d) k)) /\
  (s = S4 -> op <> Osar ->
   result true v v' 4 (aop_of s d) (moved op 4 m (fun k => state v (aop_of s d) k))).

(** Extensions to four bytes, and from one to two. *)
Definition post_ext (op : opc) (ss : size) (g : gpr) (o : arg) (_ : Z -> bool) (v v' : view) : Prop :=
  usable v (bytes ss) (aop_of ss o) /\
  result false v v' 4 (AReg g S4 false)
    (fun k => if k <? bytes ss then state v (aop_of ss o) k
              else match op with Omovsx => state v (aop_of ss o) (bytes ss - 1) | _ => D end).
Definition post_ext2 (g : gpr) (o : arg) (_ : Z -> bool) (v v' : view) : Prop :=
  usable v 1 (aop_of S1 o) /\ defined v 1 (aop_of S1 o) /\ dword_defined false v v' (AReg g S2 false).

Definition fine_movs (s : size) (v : view) : Prop :=
  usable v (bytes s) (AMem s) /\ usable v (bytes s) (AMem2 s) /\
  match s with S4 => True | _ => v_mem2 v = zero8 end.
Definition post_movs (s : size) (_ : Z -> bool) (v v' : view) : Prop :=
  usable v (bytes s) (AMem s) /\ usable v (bytes s) (AMem2 s) /\
  match s with
  | S4 => result false v v' 4 (AMem s) (fun k => state v (AMem2 s) k)
  | _ => defined v (bytes s) (AMem2 s) /\ dword_defined false v v' (AMem s)
  end.

Definition post_xchg (s : size) (l : list arg) (wfl : bool) (_ : Z -> bool) (v v' : view) : Prop :=
  (forall a, In a l -> usable v (bytes s) (aop_of s a) /\ defined v (bytes s) (aop_of s a)) /\
  only_flags wfl v v' /\ (wfl = true -> v_fl v' = zero8).

Definition post_setf (d : arg) (_ : Z -> bool) (v v' : view) : Prop :=
  usable v 1 (aop_of S1 d) /\ v_fl v = zero8 /\ result false v v' 1 (aop_of S1 d) (fun _ => D).

(** ** What it means for the fast path to be right about an instruction *)

Definition uses_mem (i : inst) : bool :=
  existsb is_mem (i_srcs i) || match i_dst i with Some a => is_mem a | None => false end.
Definition bases_defined (i : inst) (v : view) : Prop :=
  uses_mem i = true -> forall g, In g (i_base i) -> v_slot v g = zero8.

(** There is code for [i].  It never goes wrong.  If it completes, then the
    addressing registers were defined, [post] relates what was before to what is
    after, and no shadow of other memory changed.  It does not leave for the slow
    path when [fine] holds and the addressing registers are defined.  [post] also
    gets to ask whether the program's value of the first source is some number. *)
Definition fast (whole reuse : bool) (i : inst) (fine : view -> Prop)
    (post : (Z -> bool) -> view -> view -> Prop) : Prop :=
  exists code, gen whole reuse i = Some code /\
  forall w m, (forall k, 0 <= w_ea w k < 2 ^ 32) ->
    match run w None code m with
    | Done m' =>
        bases_defined i (view_of w m) /\
        post (fun v => w_app w =? v) (view_of w m) (view_of w m') /\
        (forall x, x <> shadow_at w (w_ea w Prim) -> m_mem m' x = m_mem m x)
    | ToSlow => ~ (fine (view_of w m) /\ bases_defined i (view_of w m))
    | Stuck => False
    end.

(** The instructions meant. *)
Inductive family : inst -> Prop :=
  | F_mov s d o fl base : writable d -> family (i_mov s d o fl base)
  | F_alu op s d o rfl base : alu_op op rfl -> writable d -> one_mem d o -> family (i_alu op s d o rfl base)
  | F_cmp s a b chk base : writable a -> one_mem a b -> family (i_cmp Oother s a b chk base)
  | F_test s a b base : writable a -> one_mem a b -> family (i_cmp Otest s a b true base)
  | F_logic op s d o base : op = Oand \/ op = Oor -> writable d -> one_mem d o -> family (i_logic op s d o base)
  | F_shift op s d n base : writable d -> shifted op s d -> by_bytes n = false -> family (i_shift op s d n base)
  | F_shift_bytes op s d m base : op <> Orot -> writable d -> shifted op s d -> 0 <= m < 4 ->
      family (i_shift op s d (8 * m) base)
  | F_ext op ss g o base : op = Omovzx \/ op = Omovsx -> ss <> S4 -> writable o -> family (i_ext op S4 ss g o base)
  | F_ext2 op g o base : op = Omovzx \/ op = Omovsx -> writable o -> family (i_ext op S2 S1 g o base)
  | F_movs s base : family (i_movs s base)
  | F_xchg s a b wfl base : writable a -> writable b -> one_mem a b -> family (i_xchg s a b wfl base)
  | F_cmpxchg s a g hi base : writable a -> family (i_cmpxchg s a (Rg g hi) base)
  | F_setf d base : writable d -> family (i_setf d base).

(** The operands of an instruction. *)
Definition all_of (i : inst) : list aop :=
  match i_dst i with Some a => a :: i_srcs i | None => i_srcs i end.

(** There is code for [i], it never goes wrong, and when it completes, then
    every access of [i] was to memory that is aligned and addressable, through
    registers that are defined, and no other memory's shadow changed. *)
Definition guarded (whole reuse : bool) (i : inst) : Prop :=
  exists code, gen whole reuse i = Some code /\
  forall w m, (forall k, 0 <= w_ea w k < 2 ^ 32) ->
    match run w None code m with
    | Done m' =>
        (forall o, In o (all_of i) -> usable (view_of w m) (asize o) o) /\
        bases_defined i (view_of w m) /\
        (forall x, x <> shadow_at w (w_ea w Prim) -> m_mem m' x = m_mem m x)
    | ToSlow => True
    | Stuck => False
    end.

(** For concrete runs: what [f] says of the views before and after. *)
Definition seen {A} (whole reuse : bool) (i : inst) (w : world) (m : mach) (f : view -> view -> A) : option A :=
  match gen whole reuse i with
  | Some code =>
      match run w None code m with Done m' => Some (f (view_of w m) (view_of w m')) | _ => None end
  | None => None
  end.
