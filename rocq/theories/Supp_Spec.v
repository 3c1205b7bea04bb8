(** What suppressions mean, after /repo/drmemory/docs/reports.dox:71-110 and
    :58-69: independent of the matching loop and of the record encoding. *)
From Coq Require Import String.
From Verif Require Import Base Glob_Model Glob_Spec Supp_Model.
Open Scope string_scope.
Open Scope list_scope.
Open Scope Z_scope.

(** the frame forms of the documentation *)
Inductive pat :=
| AnyFrame                        (* *        *)
| NotModule (text : list Z)       (* system call X, <not in a module> *)
| ModFunc (m f : list Z)          (* m!f      *)
| ModOffs (m o : list Z)          (* <m+o>    *)
| Ellipsis                        (* ...      *)
| ModEllipsis (m : list Z).       (* m!...    *)

Definition same (t p : list Z) : Prop := glob (eq_case ascii_tolower false) t p.
Definition same_nocase (t p : list Z) : Prop := glob (eq_case ascii_tolower true) t p.

Definition in_module (m : list Z) (f : frame) : Prop := f_ismod f = true /\ same (f_modname f) m.

(** a single-frame pattern describes a frame *)
Definition describes (p : pat) (f : frame) : Prop :=
  match p with
  | AnyFrame => True
  | NotModule t => f_ismod f = false /\ same (f_func f) t
  | ModFunc m fn => in_module m f /\ same (f_func f) fn
  | ModOffs m o => in_module m f /\ same_nocase (f_modoffs f) o
  | Ellipsis | ModEllipsis _ => False
  end.
Definition single (p : pat) : Prop := match p with Ellipsis | ModEllipsis _ => False | _ => True end.

(** the top of the stack can be split up among the pattern frames: each single
    frame takes one, "..." any number, "m!..." one or more frames of m *)
Inductive aligned : list pat -> list frame -> Prop :=
| al_done st : aligned [] st
| al_single p ps f st : describes p f -> aligned ps st -> aligned (p :: ps) (f :: st)
| al_ellipsis ps fs st : aligned ps st -> aligned (Ellipsis :: ps) (fs ++ st)
| al_mod m ps f fs st : in_module m f -> Forall (in_module m) fs -> aligned ps st ->
    aligned (ModEllipsis m :: ps) (f :: fs ++ st).

(** the pattern's first frame accepts the stack's top frame *)
Definition accepts (p : pat) (f : frame) : Prop :=
  match p with Ellipsis => True | ModEllipsis m => in_module m f | _ => describes p f end.

(** Dr. Memory's own replace_* frame on top (with -replace_malloc) is skipped
    if it does not match; without -replace_malloc a leading pattern frame for
    it is skipped instead (report.c:1080-1104, i#1189). *)
Definition tool_frame (f : frame) : Prop := same (f_func f) (chars "replace_*") /\ same (f_modname f) (chars "libdrmemorylib.so*").
Definition tool_pattern (p : pat) : Prop :=
  match p with ModFunc m f => same f (chars "replace_*") /\ same m (chars "libdrmemorylib.so*") | _ => False end.
Inductive described (rm : bool) : list pat -> list frame -> Prop :=
| d_direct ps st : aligned ps st -> described rm ps st
| d_skip_top p ps f st : rm = true -> tool_frame f -> ~ accepts p f -> aligned (p :: ps) st -> described rm (p :: ps) (f :: st)
| d_skip_pat p ps f st : rm = false -> tool_pattern p -> ~ accepts p f -> described rm ps (f :: st) -> described rm (p :: ps) (f :: st).

(** C strings, and the stack invariant that frames outside any module have an
    empty module name (callstack.c:2655-2656) *)
Definition wf_frame (f : frame) : Prop :=
  no_nul (f_modname f) /\ no_nul (f_modoffs f) /\ no_nul (f_func f) /\ (f_ismod f = false -> f_modname f = []).
Definition wf_pat (p : pat) : Prop :=
  match p with
  | NotModule t => no_nul t /\ ~ same t (chars "replace_*")
  | ModFunc m f => no_nul m /\ no_nul f
  | ModOffs m o => no_nul m /\ no_nul o
  | ModEllipsis m => no_nul m /\ ~ same [] m
  | _ => True
  end.

(** how the parser stores each form (proved of the parser in C28_parse_exact) *)
Definition enc (p : pat) : sframe :=
  match p with
  | AnyFrame => SF false true false None None None
  | NotModule t => SF false false false None None (Some t)
  | ModFunc m f => SF false false true (Some m) None (Some f)
  | ModOffs m o => SF false false true (Some m) (Some o) None
  | Ellipsis => SF true false false None None None
  | ModEllipsis m => SF true false true (Some m) None None
  end.
(** the documented text of each form *)
Definition text (p : pat) : list Z :=
  match p with
  | AnyFrame => chars "*"
  | NotModule t => t
  | ModFunc m f => m ++ chars "!" ++ f
  | ModOffs m o => chars "<" ++ m ++ chars "+" ++ o ++ chars ">"
  | Ellipsis => chars "..."
  | ModEllipsis m => m ++ chars "!..."
  end.
Definition prefix_of (p s : list Z) : Prop := exists r, s = p ++ r.
(** the text can be read back: the separators do not occur in the parts, and
    the line is not one of the special lines *)
Definition readable (p : pat) : Prop :=
  match p with
  | NotModule t => t = chars "<not in a module>" \/
      (exists a b, t = a ++ chars "system call " ++ b) /\ ~ In BANG t /\ ~ In EQS t /\ ~ In LT t
  | ModFunc m f => ~ In BANG m /\ ~ prefix_of (chars "<") m /\ ~ prefix_of (chars "...") f
  | ModOffs m o => ~ In BANG m /\ ~ In PLUS m /\ ~ In GT m /\ ~ In BANG o /\ ~ In GT o /\
      (exists c r, o = chars "0x" ++ c :: r)
  | ModEllipsis m => ~ In BANG m /\ ~ prefix_of (chars "<") m
  | _ => True
  end /\
  ~ prefix_of (chars "name=") (text p) /\ ~ prefix_of (chars "instruction=") (text p).

(** suppressions for which the loop is exact: "..." anywhere but followed by one
    frame before the next ellipsis or the end, "m!..." only as the first
    ellipsis and followed by a frame that describes no frame of m *)
Inductive one_after : list pat -> Prop :=
| oa_last p : single p -> one_after [p]
| oa_more p ps : single p -> one_after ps -> one_after (p :: Ellipsis :: ps).
Inductive simple : list pat -> Prop :=
| si_nil : simple []
| si_single p ps : single p -> simple ps -> simple (p :: ps)
| si_ell ps : one_after ps -> simple (Ellipsis :: ps)
| si_mod m p ps : (forall f, in_module m f -> ~ describes p f) -> one_after (p :: ps) ->
    simple (ModEllipsis m :: p :: ps).
(** no module ellipsis, not ending in an ellipsis *)
Fixpoint only_plain (ps : list pat) : Prop :=
  match ps with
  | [] => True
  | Ellipsis :: ps' => ps' <> [] /\ only_plain ps'
  | ModEllipsis _ :: _ => False
  | _ :: ps' => only_plain ps'
  end.

(** ---- generated suppressions ---- *)
(** the pattern frame that names exactly this frame *)
Definition pat_of (symbolic : bool) (f : frame) : pat :=
  if f_ismod f then
    if symbolic then ModFunc (f_modname f) (if list_eqb (f_func f) (chars "?") then chars "*" else f_func f)
    else ModOffs (f_modname f) (f_modoffs f)
  else NotModule (f_func f).
(** the frame's text is an ordinary frame line *)
Definition printable (symbolic : bool) (f : frame) : Prop :=
  readable (pat_of symbolic f) /\ wf_pat (pat_of symbolic f) /\
  get_suppress_type (text (pat_of symbolic f)) = None /\
  text (pat_of symbolic f) <> [] /\ rd (text (pat_of symbolic f)) <> HASH /\ rd (text (pat_of symbolic f)) <> LBRACE.
(** an error: type, call stack, printed number *)
Definition err := (nat * list frame * list Z)%type.
Definition err_ok (syms offs : bool) (e : err) : Prop :=
  let '(ty, st, id) := e in (ty < 7)%nat /\ st <> [] /\ Forall wf_frame st /\
  (syms = true -> Forall (printable true) st) /\ (offs = true -> Forall (printable false) st).
Definition lines_of (syms offs : bool) (e : err) : list (list Z) :=
  let '(ty, st, id) := e in report_error_suppression syms offs ty st id.


(** a stored suppression holds C strings and frames of the documented forms *)
Definition spec_ok (sp : spec) : Prop :=
  (exists ps, sp_frames sp = map enc ps /\ Forall wf_pat ps) /\ match sp_instr sp with None => True | Some p => no_nul p end.
