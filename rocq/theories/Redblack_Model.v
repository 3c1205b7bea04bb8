(** Model of common/redblack.c: the pointer-level red-black interval tree.

    Node addresses are natural numbers handed out by the modelled allocator and
    [NIL] (redblack.c:68, the sentinel embedded in the tree) is 0.  The heap
    maps an address to its node, or to [None] before allocation and after
    [global_free]; every access through a freed address is [UB].
    Loops carry fuel [S (fresh t)] (number of nodes ever allocated); theorems
    show that it is never exhausted.

    Not modelled: the ASSERTs (debug only), the DEBUG_UNIT_TEST printing and
    checking helpers (redblack.c:669-794), and allocation failure. *)
From Verif Require Import Base.
Open Scope Z_scope.

(** 64-bit pointer arithmetic: base + size *)
Definition add64 (a b : Z) : Z := (a + b) mod 2 ^ 64.

(** redblack.c:34-49 *)
Record node := Nd { par : nat; rgt : nat; lft : nat; red : bool;
                    base : Z; size : Z; mx : Z; client : Z }.
(** redblack.c:54-66; [freed] records the calls of free_payload_func *)
Record tree := RB { root : nat; heap : nat -> option node; fresh : nat; freed : list Z }.

(** redblack.c:68 *)
Definition NIL : nat := 0%nat.

Definition upd_node (h : nat -> option node) (x : nat) (n : node) : nat -> option node :=
  fun y => if Nat.eqb y x then Some n else h y.
Definition rd (t : tree) (x : nat) : res node := of_option (heap t x).
Definition wr (t : tree) (x : nat) (f : node -> node) : res tree :=
  let* n := rd t x in
  Ok (RB (root t) (upd_node (heap t) x (f n)) (fresh t) (freed t)).
Definition set_root (t : tree) (x : nat) : tree := RB x (heap t) (fresh t) (freed t).

Definition w_par (v : nat) (n : node) := Nd v (rgt n) (lft n) (red n) (base n) (size n) (mx n) (client n).
Definition w_rgt (v : nat) (n : node) := Nd (par n) v (lft n) (red n) (base n) (size n) (mx n) (client n).
Definition w_lft (v : nat) (n : node) := Nd (par n) (rgt n) v (red n) (base n) (size n) (mx n) (client n).
Definition w_red (v : bool) (n : node) := Nd (par n) (rgt n) (lft n) v (base n) (size n) (mx n) (client n).
Definition w_mx (v : Z) (n : node) := Nd (par n) (rgt n) (lft n) (red n) (base n) (size n) v (client n).
Definition w_client (v : Z) (n : node) := Nd (par n) (rgt n) (lft n) (red n) (base n) (size n) (mx n) v.
Definition w_data (b s m c : Z) (n : node) := Nd (par n) (rgt n) (lft n) (red n) b s m c.

(** redblack.c:70-74 *)
Definition ptrmax (v1 v2 : Z) : Z := if v2 <=? v1 then v1 else v2.

(** redblack.c:78-90 *)
Definition rb_node_fields (t : tree) (x : nat) : res (Z * Z * Z) :=
  let* n := rd t x in Ok (base n, size n, client n).
(** redblack.c:92-98 *)
Definition rb_node_set_client (t : tree) (x : nat) (c : Z) : res tree := wr t x (w_client c).

(** redblack.c:100-119: global_alloc returns a new address *)
Definition rb_new_node (t : tree) (b s c : Z) : tree * nat :=
  let x := fresh t in
  (RB (root t) (upd_node (heap t) x (Nd NIL NIL NIL true b s 0 c)) (S x) (freed t), x).

(** redblack.c:122-129 *)
Definition rb_free_node (t : tree) (x : nat) (free_payload : bool) : res tree :=
  let* n := rd t x in
  Ok (RB (root t) (fun y => if Nat.eqb y x then None else heap t y) (fresh t)
         (if free_payload then freed t ++ [client n] else freed t)).

(** redblack.c:132-140 *)
Fixpoint rb_clear_helper (fuel : nat) (t : tree) (x : nat) : res tree :=
  match fuel with
  | O => Fuel
  | S f => if Nat.eqb x NIL then Ok t else
           let* n := rd t x in
           let* t1 := rb_clear_helper f t (lft n) in
           let* n1 := rd t1 x in
           let* t2 := rb_clear_helper f t1 (rgt n1) in
           rb_free_node t2 x true
  end.
(** redblack.c:142-148 *)
Definition rb_clear (t : tree) : res tree :=
  let* t1 := rb_clear_helper (S (fresh t)) t (root t) in
  Ok (set_root t1 NIL).

(** redblack.c:154-173 *)
Fixpoint find_loop (fuel : nat) (t : tree) (b : Z) (x : nat) : res (option nat) :=
  match fuel with
  | O => Fuel
  | S f => if Nat.eqb x NIL then Ok None else
           let* n := rd t x in
           if b =? base n then Ok (Some x)
           else if b <? base n then find_loop f t b (lft n)
           else find_loop f t b (rgt n)
  end.
Definition rb_find (t : tree) (b : Z) : res (option nat) :=
  find_loop (S (fresh t)) t b (root t).

(** redblack.c:176-199 *)
Fixpoint get_next_helper (fuel : nat) (t : tree) (c : Z) (x : nat) : res nat :=
  match fuel with
  | O => Fuel
  | S f => if Nat.eqb x NIL then Ok NIL else
           let* n := rd t x in
           if client n =? c then Ok x else
           let* a := get_next_helper f t c (lft n) in
           if negb (Nat.eqb a NIL) then Ok a else
           let* b := get_next_helper f t c (rgt n) in
           if negb (Nat.eqb b NIL) then Ok b else Ok NIL
  end.
(** redblack.c:201-211 *)
Definition rb_find_client_node (t : tree) (c : Z) : res (option nat) :=
  let* x := get_next_helper (S (fresh t)) t c (root t) in
  Ok (if Nat.eqb x NIL then None else Some x).

(** redblack.c:214-242 *)
Definition rb_right_rotate (t : tree) (y : nat) : res tree :=
  let* ny := rd t y in
  let x := lft ny in
  let* nx := rd t x in
  let* t := wr t y (w_lft (rgt nx)) in
  let* t := (if negb (Nat.eqb (rgt nx) NIL) then wr t (rgt nx) (w_par y) else Ok t) in
  let* t := wr t x (w_par (par ny)) in
  let* t := (if Nat.eqb (par ny) NIL then Ok (set_root t x)
             else let* np := rd t (par ny) in
                  if Nat.eqb y (lft np) then wr t (par ny) (w_lft x)
                  else wr t (par ny) (w_rgt x)) in
  let* t := wr t x (w_rgt y) in
  let* t := wr t y (w_par x) in
  let* ny := rd t y in
  let* nl := rd t (lft ny) in
  let* nr := rd t (rgt ny) in
  let* t := wr t y (w_mx (ptrmax (mx nl) (mx nr))) in
  let* nx := rd t x in
  let* nl := rd t (lft nx) in
  let* ny := rd t y in
  wr t x (w_mx (ptrmax (mx nl) (mx ny))).

(** redblack.c:245-273 *)
Definition rb_left_rotate (t : tree) (x : nat) : res tree :=
  let* nx := rd t x in
  let y := rgt nx in
  let* ny := rd t y in
  let* t := wr t x (w_rgt (lft ny)) in
  let* t := (if negb (Nat.eqb (lft ny) NIL) then wr t (lft ny) (w_par x) else Ok t) in
  let* t := wr t y (w_par (par nx)) in
  let* t := (if Nat.eqb (par nx) NIL then Ok (set_root t y)
             else let* np := rd t (par nx) in
                  if Nat.eqb x (lft np) then wr t (par nx) (w_lft y)
                  else wr t (par nx) (w_rgt y)) in
  let* t := wr t y (w_lft x) in
  let* t := wr t x (w_par y) in
  let* nx := rd t x in
  let* nl := rd t (lft nx) in
  let* nr := rd t (rgt nx) in
  let* t := wr t x (w_mx (ptrmax (mx nl) (mx nr))) in
  let* ny := rd t y in
  let* nx := rd t x in
  let* nr := rd t (rgt ny) in
  wr t y (w_mx (ptrmax (mx nx) (mx nr))).

(** redblack.c:276-336 *)
Fixpoint rb_delete_fixup (fuel : nat) (t : tree) (x : nat) : res tree :=
  match fuel with
  | O => Fuel
  | S f =>
    let* nx := rd t x in
    if negb (Nat.eqb x (root t)) && negb (red nx) then
      let p := par nx in
      let* np := rd t p in
      if Nat.eqb x (lft np) then
        let w := rgt np in
        let* nw := rd t w in
        let* (t, w) :=
          (if red nw then
             let* t := wr t w (w_red false) in
             let* t := wr t p (w_red true) in
             let* t := rb_left_rotate t p in
             let* nx := rd t x in
             let* np := rd t (par nx) in
             Ok (t, rgt np)
           else Ok (t, w)) in
        let* nw := rd t w in
        let* nl := rd t (lft nw) in
        let* nr := rd t (rgt nw) in
        if negb (red nl) && negb (red nr) then
          let* t := wr t w (w_red true) in
          let* nx := rd t x in
          rb_delete_fixup f t (par nx)
        else
          let* (t, w) :=
            (if negb (red nr) then
               let* t := wr t (lft nw) (w_red false) in
               let* t := wr t w (w_red true) in
               let* t := rb_right_rotate t w in
               let* nx := rd t x in
               let* np := rd t (par nx) in
               Ok (t, rgt np)
             else Ok (t, w)) in
          let* nx := rd t x in
          let* np := rd t (par nx) in
          let* t := wr t w (w_red (red np)) in
          let* t := wr t (par nx) (w_red false) in
          let* nw := rd t w in
          let* t := wr t (rgt nw) (w_red false) in
          let* t := rb_left_rotate t (par nx) in
          rb_delete_fixup f t (root t)
      else
        let w := lft np in
        let* nw := rd t w in
        let* (t, w) :=
          (if red nw then
             let* t := wr t w (w_red false) in
             let* t := wr t p (w_red true) in
             let* t := rb_right_rotate t p in
             let* nx := rd t x in
             let* np := rd t (par nx) in
             Ok (t, lft np)
           else Ok (t, w)) in
        let* nw := rd t w in
        let* nr := rd t (rgt nw) in
        let* nl := rd t (lft nw) in
        if negb (red nr) && negb (red nl) then
          let* t := wr t w (w_red true) in
          let* nx := rd t x in
          rb_delete_fixup f t (par nx)
        else
          let* (t, w) :=
            (if negb (red nl) then
               let* t := wr t (rgt nw) (w_red false) in
               let* t := wr t w (w_red true) in
               let* t := rb_left_rotate t w in
               let* nx := rd t x in
               let* np := rd t (par nx) in
               Ok (t, lft np)
             else Ok (t, w)) in
          let* nx := rd t x in
          let* np := rd t (par nx) in
          let* t := wr t w (w_red (red np)) in
          let* t := wr t (par nx) (w_red false) in
          let* nw := rd t w in
          let* t := wr t (lft nw) (w_red false) in
          let* t := rb_right_rotate t (par nx) in
          rb_delete_fixup f t (root t)
    else wr t x (w_red false)
  end.

(** redblack.c:340-360; the second loop of rb_successor is not reached from
    rb_delete (z has a right child) but is modelled as well *)
Fixpoint leftmost (fuel : nat) (t : tree) (x : nat) : res nat :=
  match fuel with
  | O => Fuel
  | S f => let* n := rd t x in
           if Nat.eqb (lft n) NIL then Ok x else leftmost f t (lft n)
  end.
Fixpoint succ_up (fuel : nat) (t : tree) (x y : nat) : res nat :=
  match fuel with
  | O => Fuel
  | S f => if Nat.eqb y NIL then Ok y else
           let* ny := rd t y in
           if Nat.eqb x (rgt ny) then succ_up f t y (par ny) else Ok y
  end.
Definition rb_successor (t : tree) (x : nat) : res nat :=
  let* n := rd t x in
  if negb (Nat.eqb (rgt n) NIL) then leftmost (S (fresh t)) t (rgt n)
  else succ_up (S (fresh t)) t x (par n).

(** redblack.c:364-407 *)
Definition rb_delete (t : tree) (z : nat) : res tree :=
  let* nz := rd t z in
  let* y := (if Nat.eqb (lft nz) NIL || Nat.eqb (rgt nz) NIL then Ok z
             else rb_successor t z) in
  let* ny := rd t y in
  let x := if negb (Nat.eqb (lft ny) NIL) then lft ny else rgt ny in
  let* t := wr t x (w_par (par ny)) in
  let* t := (if Nat.eqb (par ny) NIL then Ok (set_root t x)
             else let* np := rd t (par ny) in
                  if Nat.eqb y (lft np) then wr t (par ny) (w_lft x)
                  else wr t (par ny) (w_rgt x)) in
  let* t := (if negb (Nat.eqb y z) then
               let* nz := rd t z in
               let* ny := rd t y in
               let* t := wr t z (w_data (base ny) (size ny) (mx ny) (client ny)) in
               wr t y (w_client (client nz))
             else Ok t) in
  let* ny := rd t y in
  let* t := (if negb (red ny) then rb_delete_fixup (S (fresh t)) t x else Ok t) in
  rb_free_node t y true.

(** redblack.c:412-449.  [dbg] selects the DEBUG build's overlap test.
    The pointer-to-pointer p_iter is (parent, side): *p_iter is the root when
    the parent is NIL. *)
Fixpoint bt_insert_loop (dbg : bool) (fuel : nat) (t : tree) (nb ns : Z)
    (iter : nat) (left_side : bool) (cur : nat) : res (option nat * nat * bool) :=
  match fuel with
  | O => Fuel
  | S f => if Nat.eqb cur NIL then Ok (None, iter, left_side) else
           let* n := rd t cur in
           let ib := base n in
           let hit := if dbg then
               ((nb <=? ib) && (ib <? add64 nb ns)) ||
               ((ib <=? nb) && (nb <? add64 ib (size n)))
             else nb =? ib in
           if hit then Ok (Some cur, iter, left_side)
           else if nb <? ib then bt_insert_loop dbg f t nb ns cur true (lft n)
           else bt_insert_loop dbg f t nb ns cur false (rgt n)
  end.
Definition bt_insert (dbg : bool) (t : tree) (x : nat) : res (tree * option nat) :=
  let* n := rd t x in
  let* (hit, iter, ls) := bt_insert_loop dbg (S (fresh t)) t (base n) (size n) NIL true (root t) in
  match hit with
  | Some e => Ok (t, Some e)
  | None =>
    let* t := (if Nat.eqb iter NIL then Ok (set_root t x)
               else if ls then wr t iter (w_lft x) else wr t iter (w_rgt x)) in
    let* t := wr t x (w_par iter) in
    Ok (t, None)
  end.

(** redblack.c:462-501: the re-colouring loop *)
Fixpoint insert_fix (fuel : nat) (t : tree) (x : nat) : res tree :=
  match fuel with
  | O => Fuel
  | S f =>
    let* nx := rd t x in
    let* np := rd t (par nx) in
    if negb (Nat.eqb x (root t)) && red np then
      let p := par nx in
      let g := par np in
      let* ng := rd t g in
      if Nat.eqb p (lft ng) then
        let y := rgt ng in
        let* ny := rd t y in
        if negb (Nat.eqb y NIL) && red ny then
          let* t := wr t p (w_red false) in
          let* t := wr t y (w_red false) in
          let* t := wr t g (w_red true) in
          insert_fix f t g
        else
          let* (t, x) := (if Nat.eqb x (rgt np) then
                            let* t := rb_left_rotate t p in Ok (t, p)
                          else Ok (t, x)) in
          let* nx := rd t x in
          let* t := wr t (par nx) (w_red false) in
          let* np := rd t (par nx) in
          let* t := wr t (par np) (w_red true) in
          let* t := rb_right_rotate t (par np) in
          insert_fix f t x
      else
        let y := lft ng in
        let* ny := rd t y in
        if negb (Nat.eqb y NIL) && red ny then
          let* t := wr t p (w_red false) in
          let* t := wr t y (w_red false) in
          let* t := wr t g (w_red true) in
          insert_fix f t g
        else
          let* (t, x) := (if Nat.eqb x (lft np) then
                            let* t := rb_right_rotate t p in Ok (t, p)
                          else Ok (t, x)) in
          let* nx := rd t x in
          let* t := wr t (par nx) (w_red false) in
          let* np := rd t (par nx) in
          let* t := wr t (par np) (w_red true) in
          let* t := rb_left_rotate t (par np) in
          insert_fix f t x
    else wr t (root t) (w_red false)
  end.

(** redblack.c:453-505 *)
Definition rb_insert_helper (dbg : bool) (t : tree) (x : nat) : res (tree * option nat) :=
  let* (t, e) := bt_insert dbg t x in
  match e with
  | Some e => Ok (t, Some e)
  | None => let* t := insert_fix (S (fresh t)) t x in Ok (t, None)
  end.

(** redblack.c:510-518 *)
Definition rb_insert (dbg : bool) (t : tree) (b s c : Z) : res (tree * option nat) :=
  let (t, x) := rb_new_node t b s c in
  let* (t, e) := rb_insert_helper dbg t x in
  match e with
  | Some e => let* t := rb_free_node t x false in Ok (t, Some e)
  | None => Ok (t, None)
  end.

(** redblack.c:521-544 *)
Fixpoint in_node_loop (fuel : nat) (t : tree) (a : Z) (x : nat) : res (option nat) :=
  match fuel with
  | O => Fuel
  | S f => if Nat.eqb x NIL then Ok None else
           let* n := rd t x in
           if (base n <=? a) && (a <? add64 (base n) (size n)) then Ok (Some x)
           else if a <? base n then in_node_loop f t a (lft n)
           else in_node_loop f t a (rgt n)
  end.
Definition rb_in_node (t : tree) (a : Z) : res (option nat) :=
  in_node_loop (S (fresh t)) t a (root t).

(** redblack.c:548-571 *)
Fixpoint overlaps_loop (fuel : nat) (t : tree) (s e : Z) (x : nat) : res (option nat) :=
  match fuel with
  | O => Fuel
  | S f => if Nat.eqb x NIL then Ok None else
           let* n := rd t x in
           if (s <? add64 (base n) (size n)) && (base n <? e) then Ok (Some x)
           else if e <=? base n then overlaps_loop f t s e (lft n)
           else overlaps_loop f t s e (rgt n)
  end.
Definition rb_overlaps_node (t : tree) (s e : Z) : res (option nat) :=
  overlaps_loop (S (fresh t)) t s e (root t).

(** redblack.c:574-594 *)
Fixpoint next_higher_loop (fuel : nat) (t : tree) (a : Z) (x : nat) : res (option nat) :=
  match fuel with
  | O => Fuel
  | S f => if Nat.eqb x NIL then Ok None else
           let* n := rd t x in
           let* nl := rd t (lft n) in
           if (mx nl <=? a) && (a <? add64 (base n) (size n)) then Ok (Some x) else
           let* nr := rd t (rgt n) in
           if mx nr <=? a then Ok None
           else if a <? base n then next_higher_loop f t a (lft n)
           else next_higher_loop f t a (rgt n)
  end.
Definition rb_next_higher_node (t : tree) (a : Z) : res (option nat) :=
  next_higher_loop (S (fresh t)) t a (root t).

(** redblack.c:597-614 *)
Fixpoint next_lower_loop (fuel : nat) (t : tree) (a : Z) (x : nat) : res (option nat) :=
  match fuel with
  | O => Fuel
  | S f => if Nat.eqb x NIL then Ok None else
           let* n := rd t x in
           let* nr := rd t (rgt n) in
           if (base n <=? a) && (Nat.eqb (rgt n) NIL || (a <? base nr)) then Ok (Some x)
           else if a <? base n then next_lower_loop f t a (lft n)
           else next_lower_loop f t a (rgt n)
  end.
Definition rb_next_lower_node (t : tree) (a : Z) : res (option nat) :=
  next_lower_loop (S (fresh t)) t a (root t).

(** redblack.c:617-626, 629-638: return NIL, not NULL, for an empty tree *)
Fixpoint rightmost (fuel : nat) (t : tree) (x : nat) : res nat :=
  match fuel with
  | O => Fuel
  | S f => let* n := rd t x in
           if Nat.eqb (rgt n) NIL then Ok x else rightmost f t (rgt n)
  end.
Definition rb_max_node (t : tree) : res nat :=
  if Nat.eqb (root t) NIL then Ok NIL else rightmost (S (fresh t)) t (root t).
Definition rb_min_node (t : tree) : res nat :=
  if Nat.eqb (root t) NIL then Ok NIL else leftmost (S (fresh t)) t (root t).

(** redblack.c:641-659 *)
Definition NIL_node : node := Nd NIL NIL NIL false 0 0 0 0.
Definition rb_tree_create : tree :=
  RB NIL (fun x => if Nat.eqb x NIL then Some NIL_node else None) 1 [].

(** redblack.c:669-695.  The callback gets the node's fields, may stop the walk
    by answering false and threads its own state; callbacks that modify the
    tree are not modelled. *)
Section Iterate.
Context {S0 : Type} (cb : S0 -> Z * Z * Z -> S0 * bool).
Fixpoint iterate_helper (fuel : nat) (t : tree) (s : S0) (x : nat) : res (S0 * bool) :=
  match fuel with
  | O => Fuel
  | S f =>
    let* n := rd t x in
    let* (s, go) := (if negb (Nat.eqb (lft n) NIL) then iterate_helper f t s (lft n) else Ok (s, true)) in
    if negb go then Ok (s, false) else
    let (s, go) := cb s (base n, size n, client n) in
    if negb go then Ok (s, false) else
    if negb (Nat.eqb (rgt n) NIL) then iterate_helper f t s (rgt n) else Ok (s, true)
  end.
Definition rb_iterate (t : tree) (s : S0) : res S0 :=
  if negb (Nat.eqb (root t) NIL) then
    let* (s, _) := iterate_helper (S (fresh t)) t s (root t) in Ok s
  else Ok s.
End Iterate.
