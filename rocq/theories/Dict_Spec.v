(** Specification of text files and dictionaries (C64, C65). *)
From Verif Require Import Base Dict_Model.
Local Open Scope Z_scope.

(** * Lines *)

Definition ws (b : Z) : Prop := b = 32 \/ b = 9.
Definition is_ws (b : Z) : bool := (b =? 32) || (b =? 9).
(** white space removed at the start, and at both ends *)
Fixpoint ltrim (l : list Z) : list Z :=
  match l with [] => [] | b :: r => if is_ws b then ltrim r else l end.
Definition rtrim (l : list Z) : list Z := rev (ltrim (rev l)).
Definition trim (l : list Z) : list Z := ltrim (rtrim l).

(** a character of a line; how a line may begin *)
Definition char_ok (b : Z) : Prop := b <> 10 /\ b <> 0.
Definition begins_ok (l : list Z) : Prop := forall b r, l = b :: r -> b <> 13.
(** what may be between two ends of lines *)
Definition content (c : list Z) : Prop :=
  c <> [] /\ Forall char_ok c /\ begins_ok c /\ begins_ok (rev c).
(** LF or CR LF, and empty lines after it *)
Definition term (t : list Z) : Prop :=
  exists e, Forall (fun b => b = 13 \/ b = 10) e /\ (t = 10 :: e \/ t = 13 :: 10 :: e).
Definition tail_ok (l : list Z) : Prop := Forall char_ok l /\ begins_ok l.

(** the text of lines with their ends, and of a last one without *)
Definition text (ls : list (list Z * list Z)) (last : list Z) : list Z :=
  flat_map (fun x => fst x ++ snd x) ls ++ last.
Definition lines_ok (ls : list (list Z * list Z)) : Prop :=
  Forall (fun x => content (fst x) /\ term (snd x)) ls.

(** neither blank nor a comment *)
Definition keep (l : list Z) : bool :=
  match l with [] => false | b :: _ => negb (b =? 35) end.

(** there is a byte after the text *)
Definition room (f : file) : Prop := 0 < f_page f /\ eof f mod f_page f <> 0.

(** * Dictionaries *)

(** a character of a token as it is written: itself, with a backslash, or in
    hexadecimal *)
Inductive piece := Raw (b : Z) | Esc (b : Z) | Hex (d1 d2 : Z).
Definition hexval (d : Z) : option Z :=
  if (48 <=? d) && (d <=? 57) then Some (d - 48)
  else if (97 <=? d) && (d <=? 102) then Some (d - 87)
  else if (65 <=? d) && (d <=? 70) then Some (d - 55)
  else None.
Definition enc1 (p : piece) : list Z :=
  match p with Raw b => [b] | Esc b => [92; b] | Hex d1 d2 => [92; 120; d1; d2] end.
Definition val1 (p : piece) : Z :=
  match p with
  | Raw b | Esc b => b
  | Hex d1 d2 =>
      match hexval d1, hexval d2 with Some x, Some y => 16 * x + y | _, _ => 0 end
  end.
Definition piece_ok (p : piece) : Prop :=
  match p with
  | Raw b => char_ok b /\ b <> 92
  | Esc b => b = 34 \/ b = 92
  | Hex d1 d2 => hexval d1 <> None /\ hexval d2 <> None
  end.
Definition enc (ps : list piece) : list Z := flat_map enc1 ps.
Definition val (ps : list piece) : list Z := map val1 ps.

(** lines of a dictionary: blank ones and comments, and
    name="token" *)
Inductive entry :=
| Skip (c t : list Z)
| Tok (lead name : list Z) (ps : list piece) (trail t : list Z).
Definition line_of (e : entry) : list Z * list Z :=
  match e with
  | Skip c t => (c, t)
  | Tok lead name ps trail t => (lead ++ name ++ 34 :: enc ps ++ 34 :: trail, t)
  end.
Definition name_ok (name : list Z) : Prop :=
  Forall (fun b => char_ok b /\ b <> 34) name /\
  forall b r, name = b :: r -> ~ ws b /\ b <> 35 /\ b <> 13.
Definition entry_ok (e : entry) : Prop :=
  match e with
  | Skip c t => content c /\ term t /\ keep (trim c) = false
  | Tok lead name ps trail t =>
      Forall ws lead /\ name_ok name /\ Forall piece_ok ps /\ Forall ws trail /\ term t /\
      len (enc ps) < 65535
  end.
Definition tokens (es : list entry) : list (list Z) :=
  flat_map (fun e => match e with Skip _ _ => [] | Tok _ _ ps _ _ => [val ps] end) es.

(** the C standard's sscanf on two hexadecimal digits *)
Definition scan_ok (scan : list Z -> option Z) : Prop :=
  forall d1 d2 x y r, hexval d1 = Some x -> hexval d2 = Some y ->
    scan (d1 :: d2 :: r) = Some (16 * x + y).

(** tokens with the order of their allocation *)
Definition numbered (l : list (list Z)) : list (nat * list Z) :=
  combine (seq 0 (List.length l)) l.
