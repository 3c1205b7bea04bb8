(** How clients drive the modelled index (the calling patterns of heap.c,
    alloc_drmem.c and callstack.c), and the observations the theorems are
    stated with. *)
From Verif Require Import Base Redblack_Model Redblack_Spec.
Open Scope Z_scope.

(** copy out the fields of a returned node (NULL = None) *)
Definition view (t : tree) (h : option nat) : res (option entry) :=
  match h with
  | None => Ok None
  | Some x => let* e := rb_node_fields t x in Ok (Some e)
  end.

Definition del_if (t : tree) (h : option nat) : res tree :=
  match h with None => Ok t | Some x => rb_delete t x end.

Definition run_op (dbg : bool) (t : tree) (o : op) : res tree :=
  match o with
  | Insert (b, s, c) => let* (t, _) := rb_insert dbg t b s c in Ok t
  | RemoveStart b => let* h := rb_find t b in del_if t h
  | RemoveAt a => let* h := rb_in_node t a in del_if t h
  | SetClient b c => let* h := rb_find t b in
                     match h with None => Ok t | Some x => rb_node_set_client t x c end
  | Clear => rb_clear t
  end.
Fixpoint run_from (dbg : bool) (t : tree) (os : list op) : res tree :=
  match os with
  | [] => Ok t
  | o :: os' => let* t := run_op dbg t o in run_from dbg t os'
  end.
Definition run (dbg : bool) (os : list op) : res tree := run_from dbg rb_tree_create os.

(** everything rb_iterate reports, in order *)
Definition contents (t : tree) : res (list entry) := rb_iterate (fun l e => (l ++ [e], true)) t [].

(** ---- the colouring rules, on the raw pointers ---- *)
(** paths downwards from node x to the sentinel: number of black nodes, number of nodes *)
Inductive path (t : tree) : nat -> nat -> nat -> Prop :=
| path_nil : path t NIL 0 0
| path_left x n k m : x <> NIL -> rd t x = Ok n -> path t (lft n) k m ->
    path t x (if red n then k else S k) (S m)
| path_right x n k m : x <> NIL -> rd t x = Ok n -> path t (rgt n) k m ->
    path t x (if red n then k else S k) (S m).
(** nodes reachable from the root *)
Inductive inside_tree (t : tree) : nat -> Prop :=
| it_root : root t <> NIL -> inside_tree t (root t)
| it_left x n : inside_tree t x -> rd t x = Ok n -> lft n <> NIL -> inside_tree t (lft n)
| it_right x n : inside_tree t x -> rd t x = Ok n -> rgt n <> NIL -> inside_tree t (rgt n).
Definition is_red (t : tree) (x : nat) : bool := match rd t x with Ok n => red n | _ => false end.
