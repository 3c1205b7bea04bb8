(** Property theorems about the checking of one memory access. *)
From Verif Require Import Base MemRef_Model MemRef_Spec MemRef_Proofs MemRef_Proofs2
  MemRef_Proofs3 MemRef_Proofs4.
Open Scope Z_scope.

(** Every bad byte is in exactly one report, of the right kind; no other byte
    is in any; the access is clean exactly if no byte is bad, and exactly if
    nothing was reported. *)
Theorem C25_exactly_once e f addr sz sh :
  e_map4 e = false -> 0 <= e_rz e -> 0 <= sz -> f_abort f = false ->
  (is_read f = true -> f_checkdef f = true ->
     forall x, addr <= x < addr + sz -> state_at e f addr sh x <> BITLEVEL) ->
  exists o, handle_mem_ref e f addr sz sh = Ok o /\
    (forall kind start len, In (kind, start, len) (o_reports o) ->
       addr <= start /\ 0 < len /\ start + len <= addr + sz) /\
    (forall kind x, covers kind x (o_reports o) =
       if (addr <=? x) && (x <? addr + sz) then
         match bad e f addr sh x with
         | Some k => if Bool.eqb k kind then 1%nat else 0%nat
         | None => 0%nat
         end
       else 0%nat) /\
    (o_clean o = true <->
       forall x, addr <= x < addr + sz -> bad e f addr sh x = None) /\
    (o_clean o = true <-> o_reports o = nil).
Proof. exact (exactly_once e f addr sz sh). Qed.
Print Assumptions C25_exactly_once.

(** The reports are the maximal runs of bad bytes, in address order, also when
    the access may be cut short; it is cut short only by a bad byte that
    comes after an unaddressable run that has ended or is 4 bytes long. *)
Theorem C25_maximal_runs e f addr sz sh :
  e_map4 e = false -> 0 <= e_rz e -> 0 <= sz ->
  (is_read f = true -> f_checkdef f = true ->
     forall x, addr <= x < addr + sz -> state_at e f addr sh x <> BITLEVEL) ->
  exists o n, handle_mem_ref e f addr sz sh = Ok o /\ addr <= n <= addr + sz /\
    runs (bad e f addr sh) addr n (rev (o_reports o)) /\
    (o_clean o = true <->
       forall x, addr <= x < addr + sz -> bad e f addr sh x = None) /\
    (n < addr + sz ->
       f_abort f = true /\ bad e f addr sh n <> None /\
       exists start len L, rev (o_reports o) = (true, start, len) :: L /\
         (start + len < n \/ ABORT_SIZE <= len \/ bad e f addr sh n = Some false)).
Proof. exact (maximal_runs e f addr sz sh). Qed.
Print Assumptions C25_maximal_runs.

(** Shadow memory after an access that is not a push or pop: every byte of the
    access has the expected state, every other byte is as before (both unless
    an exception routine stores there), and a read hands on the state of each
    byte as it was found. *)
Theorem C25_shadow e f addr sz sh :
  e_map4 e = false -> 0 <= sz -> f_pushpop f = false -> f_abort f = false ->
  no_bitlevel e f addr sz sh ->
  (forall x, addr <= x < addr + sz -> source_intact e f addr x) ->
  exists o, handle_mem_ref e f addr sz sh = Ok o /\
  (forall x, addr <= x < addr + sz -> untouched e addr sz (x + 1) x ->
     o_shadow o x = expected e f addr sh x) /\
  (forall x, ~ (addr <= x < addr + sz) -> untouched e addr sz addr x ->
     o_shadow o x = sh x) /\
  (f_write f = false -> f_values f = true ->
   o_fed o = map (fun k => (operand_byte f (Z.of_nat k),
                            state_at e f addr sh (addr + Z.of_nat k)))
                 (seq 0 (Z.to_nat sz))).
Proof. exact (fun H1 H2 H3 H4 H5 => shadow_ok e f addr sz sh H1 H2 H3 H4 H5). Qed.
Print Assumptions C25_shadow.

(** A push is always clean; its slot carries the pushed state whatever was
    there, nothing above it changes, and the red zone moves down with it. *)
Theorem C25_push e f addr sz sh :
  e_map4 e = false -> e_rz e = 0 \/ 0 < e_rz e /\ sz <= e_rz e -> 0 <= sz ->
  f_pushpop f = true -> f_write f = true -> f_checkaddr f = false ->
  f_movs f = false ->
  (e_rz e = 0 -> forall i, 0 <= i < sz -> sh (addr + i) <> BITLEVEL /\
     (f_values f = true -> e_dst e (operand_byte f i) <> BITLEVEL)) ->
  exists o, handle_mem_ref e f addr sz sh = Ok o /\
    o_clean o = true /\ o_reports o = nil /\
    (forall x, addr <= x < addr + sz -> o_shadow o x = slot e f (x - addr)) /\
    (forall x, addr + sz <= x -> o_shadow o x = sh x) /\
    (0 < e_rz e -> forall x, addr - e_rz e <= x < addr - e_rz e + sz ->
       o_shadow o x = UNDEFINED).
Proof. exact (push_ok e f addr sz sh). Qed.
Print Assumptions C25_push.

(** A pop leaves every addressable byte of its slot inaccessible, or as red
    zone if there is one, whose far end becomes inaccessible. *)
Theorem C25_pop e f addr sz sh :
  e_map4 e = false -> e_rz e = 0 \/ 0 < e_rz e /\ sz <= e_rz e -> 0 <= sz ->
  f_pushpop f = true -> f_write f = false -> f_checkaddr f = false ->
  f_abort f = false ->
  exists o, handle_mem_ref e f addr sz sh = Ok o /\
    (forall x, addr <= x < addr + sz -> state_at e f addr sh x <> UNADDRESSABLE ->
       untouched e addr sz (x + 1) x -> o_shadow o x = popped e) /\
    (forall x, addr <= x < addr + sz -> state_at e f addr sh x <> UNADDRESSABLE ->
       0 < e_rz e -> untouched e addr sz (x + 1) (x - e_rz e) ->
       o_shadow o (x - e_rz e) = UNADDRESSABLE).
Proof. exact (pop_ok e f addr sz sh). Qed.
Print Assumptions C25_pop.

(** With one state per word (uninitialised reads not checked): the result is
    clean exactly if no looked-at byte is bad, and reports contain only bad
    bytes, each of them once except the first byte of each later word. *)
Theorem C25_word_mode e f addr sz sh :
  e_map4 e = true -> 0 <= sz -> f_pushpop f = false -> f_checkaddr f = true ->
  f_abort f = false ->
  (forall a x, snd (e_unaddr e a) x = None) ->
  (forall x y, same_word x y ->
     sh x = sh y /\ fst (e_unaddr e x) = fst (e_unaddr e y)) ->
  exists o, handle_mem_ref e f addr sz sh = Ok o /\
    (o_clean o = true <->
       forall x, addr <= x < addr + looked_at addr sz -> word_bad e sh x = false) /\
    (forall k st l, In (k, st, l) (o_reports o) ->
       k = true /\ addr <= st /\ 0 < l /\ st + l <= addr + looked_at addr sz /\
       forall x, st <= x < st + l -> word_bad e sh x = true) /\
    (forall x, addr <= x < addr + looked_at addr sz ->
       covers true x (rev (o_reports o)) =
         if word_bad e sh x && ((x =? addr) || negb (x mod 4 =? 0))
         then 1%nat else 0%nat).
Proof. exact (word_ok e f addr sz sh). Qed.
Print Assumptions C25_word_mode.

(** In that mode a last byte that is alone in its word is never looked at. *)
Theorem C25_word_missed_refuted :
  exists e f addr sz sh o,
    e_map4 e = true /\ f = addr_read /\ sz = 4 /\
    (forall x y, same_word x y ->
       sh x = sh y /\ fst (e_unaddr e x) = fst (e_unaddr e y)) /\
    (forall a x, snd (e_unaddr e a) x = None) /\
    word_bad e sh (addr + sz - 1) = true /\
    handle_mem_ref e f addr sz sh = Ok o /\
    o_clean o = true /\ o_reports o = nil.
Proof. exact word_missed. Qed.
Print Assumptions C25_word_missed_refuted.

(** In that mode a run of bad words is reported as one range per word, with
    the first byte of each later word left out. *)
Theorem C25_word_split_refuted :
  exists e f addr sz sh o,
    e_map4 e = true /\ f = addr_read /\
    (forall x, addr <= x < addr + sz -> word_bad e sh x = true) /\
    handle_mem_ref e f addr sz sh = Ok o /\
    o_reports o = [(true, addr, 4); (true, addr + 5, 3); (true, addr + 9, 3)] /\
    covers true (addr + 4) (o_reports o) = 0%nat /\ sz = 12.
Proof. exact word_split. Qed.
Print Assumptions C25_word_split_refuted.

(** A byte with the bit-level marker makes the result not clean without any
    report, and keeps its state when it is written. *)
Theorem C25_bitlevel_read_refuted :
  exists e addr sz sh o,
    e_map4 e = false /\ handle_mem_ref e checked_read addr sz sh = Ok o /\
    o_clean o = false /\ o_reports o = nil.
Proof. exact bitlevel_read. Qed.
Print Assumptions C25_bitlevel_read_refuted.

Theorem C25_bitlevel_write_refuted :
  exists e addr sz sh o,
    e_map4 e = false /\ sh addr <> UNADDRESSABLE /\ 0 < sz /\
    handle_mem_ref e plain_store addr sz sh = Ok o /\ o_shadow o addr <> DEFINED.
Proof. exact bitlevel_write. Qed.
Print Assumptions C25_bitlevel_write_refuted.

(** A multi-byte copy onto a range that overlaps its source marks a byte
    initialised whose source byte was not. *)
Theorem C25_overlapping_copy_refuted :
  exists e addr sz sh o x,
    e_map4 e = false /\ addr <= x < addr + sz /\
    (forall y, addr <= y < addr + sz -> sh y = DEFINED \/ sh y = UNDEFINED) /\
    (forall a y, snd (e_unaddr e a) y = None /\ snd (e_undef e a) y = None) /\
    sh (e_movs e + (x - addr)) = UNDEFINED /\
    handle_mem_ref e copy_store addr sz sh = Ok o /\ o_shadow o x = DEFINED.
Proof. exact overlapping_copy. Qed.
Print Assumptions C25_overlapping_copy_refuted.

(** Concrete cases.  A checked read of ten bytes with two uninitialised runs
    and an unaddressable run that touches one of them; byte 109 is excused. *)
Definition mixed : list Z := [D; U; U; D; N; N; U; D; D; U].

Definition env1 : env :=
  {| e_rz := 128; e_map4 := false; e_leave := false; e_check_push := true;
     e_unaddr := quiet;
     e_undef := (fun a => (a =? 109, fun _ => None));
     e_on_stack := fun _ => false;
     e_bounds := fun _ => Some (0, 4096); e_dst := fun i => if i =? 0 then U else D;
     e_movs := 0 |}.

Example C25_reports_case :
  match handle_mem_ref env1 checked_read 100 10 (from mixed) with
  | Ok o => o_clean o = false /\
            o_reports o = [(false, 101, 2); (true, 104, 2); (false, 106, 1)] /\
            map (o_shadow o) [101; 102; 104; 105; 106; 109] = [D; D; N; N; D; U]
  | _ => False
  end.
Proof. vm_compute. repeat split. Qed.

Example C25_reports_hyps :
  e_map4 env1 = false /\ 0 <= e_rz env1 /\ f_abort checked_read = false /\
  (forall x, In x [100;101;102;103;104;105;106;107;108;109] ->
     state_at env1 checked_read 100 (from mixed) x <> BITLEVEL) /\
  bad env1 checked_read 100 (from mixed) 104 = Some true /\
  bad env1 checked_read 100 (from mixed) 101 = Some false /\
  bad env1 checked_read 100 (from mixed) 109 = None.
Proof.
  split; [reflexivity|]. split; [discriminate|]. split; [reflexivity|].
  split; [|repeat split].
  intros x Hx. repeat (destruct Hx as [<-|Hx]; [vm_compute; discriminate|]). destruct Hx.
Qed.

(** An exception routine that marks the rest of the region initialised
    changes what later bytes are judged by. *)
Definition env2 : env :=
  {| e_rz := 0; e_map4 := false; e_leave := false; e_check_push := true;
     e_unaddr := (fun a => (a =? 104, fun x => if x =? 105 then Some D else None));
     e_undef := quiet; e_on_stack := fun _ => false;
     e_bounds := fun _ => None; e_dst := fun _ => D; e_movs := 0 |}.

Example C25_marks_case :
  match handle_mem_ref env2 checked_read 103 3 (from mixed) with
  | Ok o => o_clean o = true /\ o_reports o = nil
  | _ => False
  end.
Proof. vm_compute. repeat split. Qed.

(** A store of a word whose low byte is uninitialised. *)
Definition value_store : flags :=
  {| f_write := true; f_pushpop := false; f_checkdef := false; f_values := true;
     f_byte := false; f_word := false; f_dword := false; f_movs := false;
     f_checkaddr := false; f_isread := false; f_abort := false |}.

Example C25_store_case :
  match handle_mem_ref env1 value_store 106 4 (from mixed) with
  | Ok o => o_clean o = true /\ map (o_shadow o) [105; 106; 107; 108; 109; 110]
                              = [N; U; D; D; D; N]
  | _ => False
  end.
Proof. vm_compute. repeat split. Qed.

(** A push of 8 bytes below the stack pointer, and the pop that undoes it. *)
Definition push8 : flags :=
  {| f_write := true; f_pushpop := true; f_checkdef := false; f_values := true;
     f_byte := false; f_word := false; f_dword := false; f_movs := false;
     f_checkaddr := false; f_isread := false; f_abort := false |}.

Definition pop8 : flags :=
  {| f_write := false; f_pushpop := true; f_checkdef := false; f_values := true;
     f_byte := false; f_word := false; f_dword := false; f_movs := false;
     f_checkaddr := false; f_isread := false; f_abort := false |}.

Definition stack (x : Z) : Z :=
  if x <? 2000 - 128 then N else if x <? 2000 then U else D.

Example C25_push_case :
  match handle_mem_ref env1 push8 1992 8 stack with
  | Ok o => map (o_shadow o) [1992; 1993; 1999; 1864; 1871; 1863; 2000]
            = [U; D; D; U; U; N; D]
  | _ => False
  end.
Proof. vm_compute. reflexivity. Qed.

Example C25_pop_case :
  match handle_mem_ref env1 pop8 2000 8 (fun x => if 2000 <=? x then D else stack x) with
  | Ok o => o_clean o = true /\
            map (o_shadow o) [2000; 2007; 2008; 1872; 1879; 1880] = [U; U; D; N; N; U]
            /\ o_fed o = [(0, D); (1, D); (2, D); (3, D); (4, D); (5, D); (6, D); (7, D)]
  | _ => False
  end.
Proof. vm_compute. repeat split. Qed.

(** A system call's buffer check gives up after four unaddressable bytes. *)
Definition buffer_check : flags :=
  {| f_write := false; f_pushpop := false; f_checkdef := false; f_values := false;
     f_byte := false; f_word := false; f_dword := false; f_movs := false;
     f_checkaddr := true; f_isread := false; f_abort := true |}.

Example C25_abort_case :
  match handle_mem_ref env0 buffer_check 100 4096 (from [D; D]) with
  | Ok o => o_clean o = false /\ o_reports o = [(true, 102, 4)]
  | _ => False
  end.
Proof. vm_compute. repeat split. Qed.

Example C25_word_case :
  match handle_mem_ref words addr_read 101 6
          (fun x => if x / 4 =? 25 then D else N) with
  | Ok o => o_clean o = false /\ o_reports o = [(true, 105, 2)]
  | _ => False
  end /\ looked_at 101 6 = 6.
Proof. vm_compute. repeat split. Qed.
