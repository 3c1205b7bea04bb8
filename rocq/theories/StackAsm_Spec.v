(** What the generated code must do: the states of application bytes as kept in
    the shadow blocks, and the arguments of the slow path. *)
From Verif Require Import Base MemRef_Model Stack_Model StackAsm_Model.
Open Scope Z_scope.

(** Every 64K of the address space has a shadow block of 16K at [base].  Blocks
    are writable as a whole or not at all, and a writable one is nobody else's.
    The table holds the difference between a block and a quarter of the
    address. *)
Record tables (h : hw) (base : Z -> Z) (wr : Z -> bool) : Prop := {
  tb_base : forall i, 0 <= i < 65536 -> w32 (h_table h i + i * BLOCK) = base i;
  tb_range : forall i, 16 <= base i <= 2 ^ 32 - BLOCK - 16;
  tb_wr : forall i x, base i <= x < base i + BLOCK -> h_writable h x = wr i;
  tb_alone : forall i j, i <> j -> wr i = true ->
    base i + BLOCK <= base j \/ base j + BLOCK <= base i
}.

(** The shadow byte of an application address, and the state kept there: two
    bits per byte, or one byte for four. *)
Definition phys (base : Z -> Z) (a : Z) : Z := base (a / 65536) + a mod 65536 / 4.
Definition view (map4 : bool) (base : Z -> Z) (mm : Z -> Z) (x : Z) : Z :=
  if map4 then mm (phys base x) else mm (phys base x) / 4 ^ (x mod 4) mod 4.

(** The argument given to the fast path when the slow path would get [val]. *)
Definition fast_val (ty : etype) (sp val : Z) : Z :=
  match ty with
  | NEGATIVE => w32 (- val)
  | AND_MASK => Z.land sp val
  | _ => val
  end.

(** The stack pointer the routine starts from, and the movement. *)
Definition start_sp (ty : etype) (sp : Z) : Z :=
  match ty with RET_IMMED => sp + 4 | _ => sp end.
Definition movement (ty : etype) (sp val : Z) : Z :=
  match ty with
  | ABSOLUTE | POSTPOP => s32 (val - sp)
  | AND_MASK => s32 (Z.land sp val - sp)
  | NEGATIVE => s32 (- val)
  | _ => s32 val
  end.

Definition word32 (x : Z) : Prop := 0 <= x < 2 ^ 32.

(** The cases covered: words, no wrapping round the address space, a threshold
    that is the one in force, and for [and] one below 64K. *)
Record plain (ty : etype) (sp val thr : Z) (t : tune) : Prop := {
  pl_ty : ty <> INVALID;
  pl_val : word32 val;
  pl_sp : word32 sp;
  pl_start : word32 (start_sp ty sp);
  pl_new : word32 (start_sp ty sp + movement ty sp val);
  pl_thr : 0 <= thr < 2 ^ 31;
  pl_and : ty = AND_MASK -> thr < 65536;
  pl_tune : t_thr t = thr
}.

(** The same states of all application bytes. *)
Definition agree (f g : Z -> Z) : Prop := forall x, word32 x -> f x = g x.

(** For the zeroing loop: the stack pointer aimed at, the kinds that may be a
    swap of stacks. *)
Definition goal_sp (ty : etype) (sp val : Z) : Z :=
  match ty with
  | ABSOLUTE | POSTPOP => val
  | AND_MASK => Z.land sp val
  | NEGATIVE => (sp - val) mod 2 ^ 32
  | _ => (sp + val) mod 2 ^ 32
  end.
Definition leaps (ty : etype) : Prop := ty = ABSOLUTE \/ ty = POSTPOP \/ ty = AND_MASK.
