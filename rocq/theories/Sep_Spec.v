(** What the documentation of -lib_blocklist, -lib_allowlist and
    -src_allowlist says (optionsx.h:266-286). *)
From Verif Require Import Base Glob_Spec.
Open Scope Z_scope.

(** What the user types: the patterns with commas between them. *)
Fixpoint typed (ps : list (list Z)) : list Z :=
  match ps with
  | [] => []
  | [p] => p
  | p :: r => p ++ 44 :: typed r
  end.

(** A pattern that can be in a list. *)
Definition entry (p : list Z) : Prop := p <> [] /\ ~ In 0 p /\ ~ In 44 p.

(** A frame: the module with its path and name, and the source file. *)
Record where_ := { w_mod : option (option (list Z) * list Z); w_file : list Z }.

Record lists := {
  l_block : list (list Z); l_block_default : list (list Z);
  l_allow : list (list Z); l_src : list (list Z);
  l_block_n : Z; l_allow_n : Z; l_src_n : Z }.

Section Doc.
Variable eqc : Z -> Z -> Prop.
Variable L : lists.

Definition on (ps : list (list Z)) (text : list Z) : Prop :=
  exists p, In p ps /\ glob eqc text p.

Definition path_on (ps : list (list Z)) (w : where_) : Prop :=
  exists path name, w_mod w = Some (Some path, name) /\ on ps path.

(** The top [n] frames from the one matching starts at. *)
Definition top (n : Z) (start : nat) (ws : list where_) : list where_ :=
  firstn (Z.to_nat n) (skipn start ws).

Definition allow_used : Prop := l_allow_n L > 0 /\ l_allow L <> [].
Definition src_used : Prop := l_src_n L > 0 /\ l_src L <> [].
Definition block_used : Prop := l_block_n L > 0.

Definition none_allowed start ws : Prop :=
  forall w, In w (top (l_allow_n L) start ws) -> ~ path_on (l_allow L) w.
Definition none_src start ws : Prop :=
  forall w, In w (top (l_src_n L) start ws) -> ~ on (l_src L) (w_file w).
Definition all_blocked start ws : Prop :=
  Z.of_nat (List.length (top (l_block_n L) start ws)) = l_block_n L /\
  forall w, In w (top (l_block_n L) start ws) ->
    path_on (l_block L ++ l_block_default L) w.

(** An allowlist overrides the blocklist; -lib_allowlist is checked first,
    then -src_allowlist. *)
Definition separated start ws : Prop :=
  (allow_used /\ none_allowed start ws) \/
  (src_used /\ none_src start ws) \/
  (~ allow_used /\ ~ src_used /\ block_used /\ all_blocked start ws).

(** The top frame is ignored if it is a system call, or a routine of the
    tool's library. *)
Definition ignored_top (tool : list Z) (ws : list where_) : Prop :=
  match ws with
  | [] => True
  | w :: _ => match w_mod w with
              | None => True
              | Some (path, name) => path <> None /\ glob eqc name tool
              end
  end.
End Doc.
