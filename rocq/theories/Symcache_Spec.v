(** What the symbol cache is for, without its tables and without its file
    format: for every symbol of a module a list of offsets, kept from one run
    to the next. *)
From Verif Require Import Base Symcache_Model.
Open Scope Z_scope.

(** Another offset for a symbol.  No offset yet is []; the offset 0 alone says
    that the symbol is known not to exist, and is replaced; recording that for
    a symbol with exactly one offset is a fatal error; what is there already is
    not recorded twice. *)
Definition iadd (l : list Z) (o : Z) : option (list Z) :=
  match l with
  | [] => Some [o]
  | [x] => if x =? 0 then Some [o]
           else if o =? 0 then None
           else if x =? o then Some l else Some (l ++ [o])
  | _ => if in_dec Z.eq_dec o l then Some l else Some (l ++ [o])
  end.

(** the offsets of the symbols of one module *)
Definition omap := bytes -> list Z.
Definition oempty : omap := fun _ => [].
Definition oset (t : omap) (sym : bytes) (l : list Z) : omap :=
  fun s => if str_eqb s sym then l else t s.

(** Per path: what the run under way knows ([None]: not loaded), and what a
    later run will know. *)
Record ideal := mkI {
  i_live : bytes -> option omap;
  i_saved : bytes -> omap
}.
Definition i_init : ideal := mkI (fun _ => None) (fun _ => oempty).
Definition upd {A} (f : bytes -> A) (k : bytes) (v : A) : bytes -> A :=
  fun x => if str_eqb x k then v else f x.

(** [None]: the process stops with an error *)
Definition istep (s : ideal) (o : op) : option ideal :=
  match o with
  | Load m =>
      if m_big m then
        match i_live s (m_path m) with
        | Some _ => Some s
        | None => Some (mkI (upd (i_live s) (m_path m) (Some (i_saved s (m_path m))))
                            (i_saved s))
        end
      else Some s
  | Save m =>
      match i_live s (m_path m) with
      | Some t => Some (mkI (i_live s) (upd (i_saved s) (m_path m) t))
      | None => Some s
      end
  | Unload m =>
      match i_live s (m_path m) with
      | Some t => Some (mkI (upd (i_live s) (m_path m) None) (upd (i_saved s) (m_path m) t))
      | None => Some s
      end
  | Add m sym offs =>
      match i_live s (m_path m) with
      | Some t =>
          match iadd (t sym) offs with
          | Some l => Some (mkI (upd (i_live s) (m_path m) (Some (oset t sym l))) (i_saved s))
          | None => None
          end
      | None => Some s
      end
  | Exit => Some (mkI (fun _ => None)
                      (fun p => match i_live s p with Some t => t | None => i_saved s p end))
  | Crash => Some (mkI (fun _ => None) (i_saved s))
  end.
Fixpoint irun (s : ideal) (l : list op) : option ideal :=
  match l with
  | [] => Some s
  | o :: r => match istep s o with Some s' => irun s' r | None => None end
  end.
Definition ilookup (s : ideal) (m : image) (sym : bytes) : option (list Z) :=
  match i_live s (m_path m) with
  | None => None
  | Some t => match t sym with [] => None | l => Some l end
  end.

(** ---- what the file format can hold ---- *)

(** a symbol name: not empty, shorter than 256, without NUL, newline, comma *)
Definition ok_sym (s : bytes) : Prop :=
  s <> [] /\ (List.length s < 256)%nat /\
  Forall (fun c => 0 < c < 256 /\ c <> 10 /\ c <> 44) s.
Definition ok_off (o : Z) : Prop := 0 <= o < 2 ^ 32.
Definition ok_image (m : image) : Prop :=
  0 <= m_size m < 2 ^ 64 /\ 0 <= m_time m < 2 ^ 32 /\
  List.length (m_md5 m) = 16%nat /\ Forall (fun b => 0 <= b < 256) (m_md5 m).
(** the module an operation is about *)
Definition op_image (o : op) : option image :=
  match o with
  | Load m | Save m | Unload m | Add m _ _ => Some m
  | Exit | Crash => None
  end.
Definition ok_op (o : op) : Prop :=
  match o with Add _ sym offs => ok_sym sym /\ ok_off offs | _ => True end.
(** the operations are about modules of [U], none of which shares its path or
    its preferred name with another *)
Definition ok_images (U : list image) : Prop :=
  Forall ok_image U /\ NoDup (map m_path U) /\ NoDup (map m_name U).
Definition ok_ops (U : list image) (l : list op) : Prop :=
  Forall (fun o => ok_op o /\ forall m, op_image o = Some m -> In m U) l.

(** ---- versions of modules ---- *)

(** what tells one version of a module from another *)
Definition ident (m : image) : Z * Z * bytes := (m_size m, m_time m, m_md5 m).
(** the version for which the cache of [path] was loaded, at the end of a
    sequence of operations *)
Definition live_after (path : bytes) (cur : option (Z * Z * bytes)) (o : op)
  : option (Z * Z * bytes) :=
  match o with
  | Load m => if m_big m && str_eqb (m_path m) path
              then match cur with None => Some (ident m) | _ => cur end else cur
  | Unload m => if str_eqb (m_path m) path then None else cur
  | Exit | Crash => None
  | _ => cur
  end.
Definition live_ident (l : list op) (path : bytes) : option (Z * Z * bytes) :=
  fold_left (live_after path) l None.

(** [o] was recorded for [sym] while the cache of a module of version [id] was
    the one in use *)
Definition recorded (l : list op) (id : Z * Z * bytes) (sym : bytes) (o : Z) : Prop :=
  exists l1 m l2, l = l1 ++ Add m sym o :: l2 /\ live_ident l1 (m_path m) = Some id.
