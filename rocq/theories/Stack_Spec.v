(** What a change of the stack pointer must do to shadow memory, stated from
    the instruction set's point of view, without the code's helpers. *)
From Verif Require Import Base MemRef_Model Stack_Model.
Open Scope Z_scope.

(** The stack pointer after an instruction, as the processor defines it. *)
Definition new_sp (a : arch) (sp : Z) (i : sinstr) : Z :=
  match i with
  | MovSp v | CmovSp true v | PopSp v => v
  | CmovSp false _ => sp
  | Leave bp => bp + a_ptr a
  | Ret => sp + a_ptr a
  | RetImm n => sp + a_ptr a + n
  | IncSp => sp + 1
  | DecSp => sp - 1
  | AddSp v => wrap a (sp + v)
  | SubSp v => wrap a (sp - v)
  | AndSp v => Z.land sp v
  | Enter n levels => sp - a_ptr a * (1 + levels) - n
  | Push sz => sp - sz
  | Pop sz => sp + sz
  | Other _ new => new
  end.

(** The state new stack memory gets. *)
Definition new_state (act : action) : Z :=
  match act with ACT_DEFINED => DEFINED | _ => UNDEFINED end.

(** The state of byte [x] once the stack pointer has moved from [old] to [new]:
    released stack is inaccessible, new stack has the state for new stack, and
    so has the area below the stack pointer that the ABI lets a function use. *)
Definition moved (a : arch) (act : action) (old new : Z) (sh : Z -> Z) (x : Z) : Z :=
  if old =? new then sh x
  else if (new - a_rz a <=? x) && (x <? new) then new_state act
  else if (old - a_rz a <=? x) && (x <? new - a_rz a) then UNADDRESSABLE
  else if (new <=? x) && (x <? old - a_rz a) then new_state act
  else sh x.

(** Pushes and pops. *)
Definition pushed (a : arch) (sp sz : Z) (sh : Z -> Z) (x : Z) : Z :=
  if (sp - sz <=? x) && (x <? sp) then DEFINED
  else if (sp - sz - a_rz a <=? x) && (x <? sp - a_rz a) then UNDEFINED
  else sh x.
Definition released (a : arch) (sp sz : Z) (sh : Z -> Z) (x : Z) : Z :=
  if (sp <=? x) && (x <? sp + sz) then (if 0 <? a_rz a then UNDEFINED else UNADDRESSABLE)
  else if (sp - a_rz a <=? x) && (x <? sp + sz - a_rz a) then UNADDRESSABLE
  else sh x.

(** The states after an instruction: [leave] is a move to the frame pointer and
    a pop, [ret n] a pop and a move, [enter] without a frame a push. *)
Definition after (a : arch) (act : action) (i : sinstr) (sp : Z) (sh : Z -> Z) : Z -> Z :=
  match i with
  | Push sz => pushed a sp sz sh
  | Enter _ n => pushed a sp (a_ptr a * (1 + n)) sh
  | Pop sz => released a sp sz sh
  | Ret => released a sp (a_ptr a) sh
  | RetImm n => moved a act (sp + a_ptr a) (sp + a_ptr a + n) (released a sp (a_ptr a) sh)
  | Leave bp => released a bp (a_ptr a) (moved a act sp bp sh)
  | _ => moved a act sp (new_sp a sp i) sh
  end.

(** Of the bytes of one stack, exactly those at and above the stack pointer,
    and those just below it that the ABI reserves, are accessible. *)
Definition stack_ok (a : arch) (lim base sp : Z) (sh : Z -> Z) : Prop :=
  lim + a_rz a <= sp <= base /\
  forall x, lim <= x < base -> (sh x = UNADDRESSABLE <-> x < sp - a_rz a).

(** Instructions whose operands are words, and that the code handles in full:
    not [enter] with a frame, not an unlisted opcode, and [ret] with an operand
    only where a word has four bytes. *)
Definition word (a : arch) (v : Z) : Prop := 0 <= v < 2 ^ a_bits a.
Definition handled (a : arch) (i : sinstr) : Prop :=
  match i with
  | MovSp v | CmovSp _ v | PopSp v | AddSp v | SubSp v | AndSp v => word a v
  | Leave bp => word a bp
  | RetImm n => 0 <= n < 65536 /\ a_ptr a = 4
  | Push sz | Pop sz => 0 <= sz /\ (a_rz a = 0 \/ sz <= a_rz a)
  | Enter n levels => n = 0 /\ 0 <= levels /\
                      (a_rz a = 0 \/ a_ptr a * (1 + levels) <= a_rz a)
  | Ret | IncSp | DecSp => True
  | Other _ _ => False
  end.

(** A sequence of instructions on one stack. *)
Fixpoint run_stack (a : arch) (e : env) (k : known) (act : action) (l : list sinstr)
         (sp : Z) (t : tune) (w : world) : res (Z * tune * world) :=
  match l with
  | [] => Ok (sp, t, w)
  | i :: q =>
      let* (w1, t1) := instr_step a e k act i sp t w in
      run_stack a e k act q (new_sp a sp i) t1 w1
  end.

(** The stack pointer stays inside the stack after every instruction, and the
    frame that [leave] discards is at or above the stack pointer. *)
Fixpoint stays (a : arch) (lim base : Z) (l : list sinstr) (sp : Z) : Prop :=
  match l with
  | [] => True
  | i :: q =>
      handled a i /\ lim + a_rz a <= new_sp a sp i <= base /\
      match i with Leave bp => sp <= bp | _ => True end /\
      stays a lim base q (new_sp a sp i)
  end.
