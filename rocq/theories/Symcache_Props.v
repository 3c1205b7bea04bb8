(** The symbol cache: theorems. *)
From Coq Require Import String Permutation.
From Verif Require Import Base Symcache_Model Symcache_Spec Symcache_Proofs3 Symcache_Proofs4
  Symcache_Proofs5.
Open Scope Z_scope.
Open Scope list_scope.

(** ** C55 *)

(** Modules with different paths and names, symbols and offsets the file
    format can hold: over any number of runs, each lookup gives exactly what
    was recorded since the last lost run, and the tool stops only where the
    specification does. *)
Theorem C55_persist : forall ord, (forall t, Permutation t (ord t)) ->
  forall U, ok_images U -> forall l, ok_ops U l ->
  match irun i_init l with
  | None => run ord (mkSt [] []) l = Ok Aborted
  | Some i => exists s, run ord (mkSt [] []) l = Ok (Running s) /\
      forall m, In m U -> forall sym, cache_lookup s m sym = Ok (ilookup i m sym)
  end.
Proof. exact persist. Qed.

(** two modules, three runs of which the second is lost *)
Definition md5a : bytes := [0; 1; 2; 3; 4; 5; 6; 7; 8; 9; 10; 171; 205; 239; 254; 255].
Definition ma : image := mkMod (lit "/lib/a.so") (lit "a.so") 123456 1700000000 md5a true true.
Definition mb : image := mkMod (lit "/lib/b.so") (lit "b.so") 18446744073709551615 0 md5a false true.
Definition runs : list op :=
  [Load ma; Load mb; Add ma (lit "malloc") 4660; Add ma (lit "free") 0; Add mb (lit "malloc") 1;
   Add ma (lit "operator new") 17; Add ma (lit "operator new") 18; Add ma (lit "operator new") 0;
   Add ma (lit "operator new") 17; Exit;
   Load ma; Add ma (lit "calloc") 3; Crash;
   Load ma; Load mb; Add ma (lit "free") 4294967295; Unload ma; Load ma].

Example C55_case_ok : ok_images [ma; mb] /\ ok_ops [ma; mb] runs.
Proof.
  split.
  - split; [|split].
    + repeat constructor; cbn; try lia; repeat constructor; lia.
    + repeat constructor; cbn; intuition discriminate.
    + repeat constructor; cbn; intuition discriminate.
  - assert (A : forall m sym o, In m [ma; mb] -> ok_sym sym -> ok_off o ->
      ok_op (Add m sym o) /\ forall m', op_image (Add m sym o) = Some m' -> In m' [ma; mb]).
    { intros m sym o Im Hs Ho. split; [split; assumption|]. cbn [op_image].
      intros m' E. congruence. }
    assert (B : forall o m, In m [ma; mb] -> op_image o = Some m -> (forall s x, o <> Add m s x) ->
      ok_op o /\ forall m', op_image o = Some m' -> In m' [ma; mb]).
    { intros o m Im E N. split; [|intros m' E'; congruence].
      destruct o; cbn in *; try exact I. exfalso. apply (N sym offs). congruence. }
    assert (C : forall o, op_image o = None ->
      ok_op o /\ forall m', op_image o = Some m' -> In m' [ma; mb]).
    { intros o E. split; [|intros m' E'; congruence]. destruct o; try exact I. discriminate E. }
    assert (Ia : In ma [ma; mb]) by (left; reflexivity).
    assert (Ib : In mb [ma; mb]) by (right; left; reflexivity).
    unfold ok_ops, runs. repeat (apply Forall_cons;
      [first [ apply C; reflexivity
             | apply (B _ _ Ia); [reflexivity|discriminate]
             | apply (B _ _ Ib); [reflexivity|discriminate]
             | apply A; [assumption| |unfold ok_off; lia];
               split; [discriminate|split; [apply Nat.ltb_lt; reflexivity|]];
               cbn [lit]; repeat (apply Forall_cons; [cbn; lia|]); apply Forall_nil ]|]).
    apply Forall_nil.
Qed.

Definition look (ord : table -> table) (l : list op) (m : image) (sym : bytes)
  : res (option (option (list Z))) :=
  let* x := run ord (mkSt [] []) l in
  match x with
  | Aborted => Ok None
  | Running s => let* r := cache_lookup s m sym in Ok (Some r)
  end.

Example C55_case_runs :
  map (look (@rev _) runs ma) [lit "malloc"; lit "free"; lit "operator new"; lit "calloc"] =
  [Ok (Some (Some [4660])); Ok (Some (Some [4294967295])); Ok (Some (Some [17; 18; 0]));
   Ok (Some None)] /\
  look (@rev _) runs mb (lit "malloc") = Ok (Some (Some [1])).
Proof. vm_compute. split; reflexivity. Qed.

(** the file of the first run *)
Example C55_case_file :
  match run (fun t => t) (mkSt [] []) (firstn 10 runs) with
  | Ok (Running s) => assoc (s_files s) (lit "a.so")
  | _ => None
  end =
  Some (lit "Dr. Memory symbol cache version 16" ++ [10] ++
        lit "       166,123456,1700000000,00,01,02,03,04,05,06,07,08,09,0a,ab,cd,ef,fe,ff" ++ [10] ++
        lit "1" ++ [10] ++ lit "malloc,0x1234" ++ [10] ++ lit "free,0x0" ++ [10] ++
        lit "operator new,0x11" ++ [10] ++ lit ",0x12" ++ [10] ++ lit ",0x0" ++ [10]).
Proof. vm_compute. reflexivity. Qed.

(** Without the limits on symbols and offsets it is false: a symbol with a
    comma is lost, and with it what follows; so is a symbol of 256 characters;
    an offset of 2^32 or more is cut; and one that is cut to 0 stops the tool
    at the next load. *)
Theorem C55_comma_refuted : exists sym offs,
  look (fun t => t) [Load mb; Add mb sym offs; Add mb (lit "f") 7; Exit; Load mb] mb sym =
    Ok (Some None) /\
  look (fun t => t) [Load mb; Add mb sym offs; Add mb (lit "f") 7; Exit; Load mb] mb (lit "f") =
    Ok (Some None).
Proof. exists (lit "operator,<int>"), 5. vm_compute. split; reflexivity. Qed.

Theorem C55_long_refuted : exists sym, List.length sym = 256%nat /\
  look (fun t => t) [Load mb; Add mb sym 5; Add mb (lit "f") 7; Exit; Load mb] mb sym =
    Ok (Some None) /\
  look (fun t => t) [Load mb; Add mb sym 5; Add mb (lit "f") 7; Exit; Load mb] mb (lit "f") =
    Ok (Some None).
Proof. exists (repeat 97 256). vm_compute. repeat split; reflexivity. Qed.

Theorem C55_offset_refuted : exists offs,
  look (fun t => t) [Load mb; Add mb (lit "f") offs] mb (lit "f") = Ok (Some (Some [offs])) /\
  look (fun t => t) [Load mb; Add mb (lit "f") offs; Exit; Load mb] mb (lit "f") =
    Ok (Some (Some [18])).
Proof. exists 4294967314. vm_compute. split; reflexivity. Qed.

Theorem C55_abort_refuted : exists o1 o2,
  look (fun t => t) [Load mb; Add mb (lit "f") o1; Add mb (lit "f") o2] mb (lit "f") =
    Ok (Some (Some [o1; o2])) /\
  look (fun t => t) [Load mb; Add mb (lit "f") o1; Add mb (lit "f") o2; Exit; Load mb] mb (lit "f")
    = Ok None.
Proof. exists 5, 4294967296. vm_compute. split; reflexivity. Qed.

(** Three offsets, of which 2^64 - 1 is one: that one is recorded once more
    each time it is added. *)
Theorem C55_twice_refuted : exists o,
  look (fun t => t) [Load mb; Add mb (lit "f") 1; Add mb (lit "f") 2; Add mb (lit "f") o;
                     Add mb (lit "f") o; Add mb (lit "f") o] mb (lit "f") =
    Ok (Some (Some [1; 2; o; o; o])).
Proof. exists 18446744073709551615. vm_compute. reflexivity. Qed.

(** A symbol of 4096 characters or more: the writer leaves its buffer. *)
Theorem C55_buffer_refuted : exists sym, len sym = 4096 /\
  look (fun t => t) [Load mb; Add mb sym 5; Exit] mb sym = UB.
Proof. exists (repeat 97 (Z.to_nat 4096)). vm_compute. split; reflexivity. Qed.

(** A module without a cache: the two queries report success and leave their
    result as it was. *)
Theorem C55_unset_refuted : exists s m, forall require_syms before,
  has_data s m require_syms before = before.
Proof. exists (mkSt [] []), ma. reflexivity. Qed.

(** ** C56 *)

(** Whatever modules share a path or a name, and whatever is in the files
    written so far: no access is out of bounds, and each offset found was
    recorded for that symbol while the cache was that of a module of the same
    size, timestamp and digest. *)
Theorem C56_version : forall ord, (forall t, Permutation t (ord t)) -> forall l,
  Forall (fun o => ok_op o /\ forall m, op_image o = Some m -> ok_image m) l ->
  exists x, run ord (mkSt [] []) l = Ok x /\
    forall s, x = Running s -> forall m sym, exists r, cache_lookup s m sym = Ok r /\
      forall offs, r = Some offs -> exists id, live_ident l (m_path m) = Some id /\
        NoDup offs /\ forall o, In o offs -> recorded l id sym o.
Proof. exact sound. Qed.

(** A file that was cut or that something was appended to, as long as its
    first two lines are whole, is not used. *)
Theorem C56_cut : forall ord, (forall t, Permutation t (ord t)) -> forall l s n h r g a b c,
  Forall (fun o => ok_op o /\ forall m, op_image o = Some m -> ok_image m) l ->
  run ord (mkSt [] []) l = Ok (Running s) -> assoc (s_files s) n = Some (h ++ r) ->
  h = a ++ NL :: b ++ NL :: c -> len (h ++ g) mod 2 ^ 32 <> len (h ++ r) mod 2 ^ 32 ->
  forall m, m_name m = n -> exists s', module_load (mkSt [] [(n, h ++ g)]) m = Ok (Running s') /\
    forall m' sym, cache_lookup s' m' sym = Ok None.
Proof. exact cut. Qed.

(** A new version of a module under the same path; then the same file again
    under another path. *)
Definition ma2 : image := mkMod (lit "/lib/a.so") (lit "a.so") 123456 1700000001 md5a true true.
Definition ma3 : image := mkMod (lit "/opt/a.so") (lit "a.so") 123456 1700000001 md5a false true.
Example C56_case_version :
  look (fun t => t) [Load ma2; Add ma2 (lit "f") 9; Exit; Load mb; Load ma] ma (lit "f") =
    Ok (Some None) /\
  look (fun t => t) [Load ma2; Add ma2 (lit "f") 9; Exit; Load ma3] ma3 (lit "f") =
    Ok (Some (Some [9])) /\
  live_ident [Load ma2; Add ma2 (lit "f") 9; Exit; Load ma3] (m_path ma3) = Some (ident ma2).
Proof. vm_compute. repeat split; reflexivity. Qed.

Example C56_case_cut :
  match run (fun t => t) (mkSt [] []) (firstn 10 runs) with
  | Ok (Running s) =>
      match assoc (s_files s) (lit "a.so") with
      | Some f =>
          let g := firstn (List.length f - 3) f in
          (len (removelast f), match read_symfile (Some g) true
             (mkMC false false [] 123456 1700000000 md5a false) with
             | Ok (RDone ok tb dbg) => Some (ok, tb, dbg) | _ => None end)
      | None => (0, None)
      end
  | _ => (0, None)
  end = (165, Some (false, [], true)).
Proof. vm_compute. reflexivity. Qed.

(** When the disk fills up while the file is written, the size put in it is
    that of what could be written: the file is taken, with its last offset cut
    short. *)
Theorem C56_full_refuted : exists cap mc f tb,
  write_symfile (fun t => t) true (Some cap) mc = Ok (Some f) /\
  read_symfile (Some f) false (mkMC false false [] (c_size mc) (c_time mc) (c_md5 mc) false) =
    Ok (RDone true tb false) /\
  option_map ol_list (sym_find (c_table mc) (lit "f")) = Some [4660] /\
  option_map ol_list (sym_find tb (lit "f")) = Some [18].
Proof.
  pose (mc := mkMC false false [(lit "f", mkOL 1 [4660] None)] 1 2 md5a false).
  exists 106, mc,
    (match write_symfile (fun t => t) true (Some 106) mc with Ok (Some f) => f | _ => [] end),
    [(lit "f", mkOL 1 [18] None)].
  vm_compute. repeat split; reflexivity.
Qed.

(** Files that were not written by the tool in this form make it leave them:
    one that ends within the first line, and one of a whole page without an
    end of line. *)
Theorem C56_short_refuted : exists f, forall mc,
  read_symfile (Some f) true mc = UB.
Proof. exists (lit "Dr. Memory symbol cache version 16"). intros mc. vm_compute. reflexivity. Qed.

Theorem C56_page_refuted : exists f, len f = 4096 /\ forall mc,
  read_symfile (Some f) true mc = UB.
Proof.
  exists (lit "Dr. Memory symbol cache version 16" ++ repeat 32 (Z.to_nat 4062)).
  split; [vm_compute; reflexivity|]. intros mc. vm_compute. reflexivity.
Qed.

Print Assumptions C55_persist.
Print Assumptions C55_comma_refuted.
Print Assumptions C55_long_refuted.
Print Assumptions C55_offset_refuted.
Print Assumptions C55_abort_refuted.
Print Assumptions C55_twice_refuted.
Print Assumptions C55_buffer_refuted.
Print Assumptions C55_unset_refuted.
Print Assumptions C56_version.
Print Assumptions C56_cut.
Print Assumptions C56_full_refuted.
Print Assumptions C56_short_refuted.
Print Assumptions C56_page_refuted.
