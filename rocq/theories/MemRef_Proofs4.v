(** The statements of [MemRef_Props], assembled, and the witnesses. *)
From Verif Require Import Base MemRef_Model MemRef_Spec MemRef_Proofs MemRef_Proofs2
  MemRef_Proofs3.
Open Scope Z_scope.

Lemma covers_rev k x L : covers k x (rev L) = covers k x L.
Proof.
  unfold covers. induction L as [|r L IH]; [reflexivity|].
  cbn [rev]. rewrite filter_app, app_length, IH. cbn [filter].
  destruct (let '(_, _, _) := r in _); cbn [length]; lia.
Qed.

Lemma exactly_once e f addr sz sh :
  e_map4 e = false -> 0 <= e_rz e -> 0 <= sz -> f_abort f = false ->
  (is_read f = true -> f_checkdef f = true ->
     forall x, addr <= x < addr + sz -> state_at e f addr sh x <> BITLEVEL) ->
  exists o, handle_mem_ref e f addr sz sh = Ok o /\
    (forall kind start len, In (kind, start, len) (o_reports o) ->
       addr <= start /\ 0 < len /\ start + len <= addr + sz) /\
    (forall kind x, covers kind x (o_reports o) =
       if (addr <=? x) && (x <? addr + sz) then
         match bad e f addr sh x with
         | Some k => if Bool.eqb k kind then 1%nat else 0%nat
         | None => 0%nat
         end
       else 0%nat) /\
    (o_clean o = true <->
       forall x, addr <= x < addr + sz -> bad e f addr sh x = None) /\
    (o_clean o = true <-> o_reports o = nil).
Proof.
  intros Hm Hr Hs Ha Hb.
  destruct (reports_ok e f addr sz sh Hm Hr Hs Hb) as (o & Ho & n & Hn & HR & HG & HA).
  exists o. split; [exact Ho|].
  assert (n = addr + sz).
  { destruct (Z_lt_dec n (addr + sz)) as [Hlt|]; [|lia].
    destruct (HA Hlt) as [Hx _]. congruence. }
  subst n. split; [|split; [|split]].
  - intros kind start len HI. apply in_rev in HI. exact (runs_inside _ _ _ _ _ _ _ HR HI).
  - intros kind x. rewrite <- covers_rev. exact (runs_covers _ _ _ _ kind x HR).
  - exact HG.
  - rewrite HG. split.
    + intros Hall. destruct (rev (o_reports o)) as [|[[k s] l] L] eqn:E.
      * rewrite <- (rev_involutive (o_reports o)), E. reflexivity.
      * exfalso. cbn [runs] in HR. destruct HR as (H1 & H2 & H3 & H4 & _).
        specialize (H4 s). rewrite Hall in H4; [|lia]. discriminate H4. lia.
    + intros Hnil. rewrite Hnil in HR. exact HR.
Qed.

Lemma maximal_runs e f addr sz sh :
  e_map4 e = false -> 0 <= e_rz e -> 0 <= sz ->
  (is_read f = true -> f_checkdef f = true ->
     forall x, addr <= x < addr + sz -> state_at e f addr sh x <> BITLEVEL) ->
  exists o n, handle_mem_ref e f addr sz sh = Ok o /\ addr <= n <= addr + sz /\
    runs (bad e f addr sh) addr n (rev (o_reports o)) /\
    (o_clean o = true <->
       forall x, addr <= x < addr + sz -> bad e f addr sh x = None) /\
    (n < addr + sz ->
       f_abort f = true /\ bad e f addr sh n <> None /\
       exists start len L, rev (o_reports o) = (true, start, len) :: L /\
         (start + len < n \/ ABORT_SIZE <= len \/ bad e f addr sh n = Some false)).
Proof.
  intros Hm Hr Hs Hb.
  destruct (reports_ok e f addr sz sh Hm Hr Hs Hb) as (o & Ho & n & Hn & HR & HG & HA).
  exists o, n. split; [exact Ho|]. split; [exact Hn|]. split; [exact HR|].
  split; [exact HG|exact HA].
Qed.

(** Concrete environments. *)
Definition quiet : Z -> bool * (Z -> option Z) := fun _ => (false, fun _ => None).

Definition env0 : env :=
  {| e_rz := 0; e_map4 := false; e_leave := false; e_check_push := true;
     e_unaddr := quiet; e_undef := quiet; e_on_stack := fun _ => false;
     e_bounds := fun _ => None; e_dst := fun _ => DEFINED; e_movs := 0 |}.

Definition words : env :=
  {| e_rz := 0; e_map4 := true; e_leave := false; e_check_push := true;
     e_unaddr := quiet; e_undef := quiet; e_on_stack := fun _ => false;
     e_bounds := fun _ => None; e_dst := fun _ => DEFINED; e_movs := 0 |}.

Definition no_flags : flags :=
  {| f_write := false; f_pushpop := false; f_checkdef := false; f_values := false;
     f_byte := false; f_word := false; f_dword := false; f_movs := false;
     f_checkaddr := false; f_isread := false; f_abort := false |}.

Definition checked_read : flags :=
  {| f_write := false; f_pushpop := false; f_checkdef := true; f_values := false;
     f_byte := false; f_word := false; f_dword := false; f_movs := false;
     f_checkaddr := false; f_isread := false; f_abort := false |}.

Definition addr_read : flags :=
  {| f_write := false; f_pushpop := false; f_checkdef := false; f_values := false;
     f_byte := false; f_word := false; f_dword := false; f_movs := false;
     f_checkaddr := true; f_isread := true; f_abort := false |}.

Definition plain_store : flags :=
  {| f_write := true; f_pushpop := false; f_checkdef := false; f_values := false;
     f_byte := false; f_word := false; f_dword := false; f_movs := false;
     f_checkaddr := false; f_isread := false; f_abort := false |}.

Definition copy_store : flags :=
  {| f_write := true; f_pushpop := false; f_checkdef := false; f_values := true;
     f_byte := false; f_word := false; f_dword := false; f_movs := true;
     f_checkaddr := false; f_isread := false; f_abort := false |}.

Definition from (l : list Z) (x : Z) : Z :=
  if x <? 100 then UNADDRESSABLE else nth (Z.to_nat (x - 100)) l UNADDRESSABLE.

Definition D := DEFINED.
Definition N := UNADDRESSABLE.
Definition U := UNDEFINED.

Lemma have (r : res outcome) (P : outcome -> Prop) :
  match r with Ok o => P o | _ => False end -> exists o, r = Ok o /\ P o.
Proof. destruct r as [o| |]; [|intros []..]. intros H. exists o. now split. Qed.

(** A 4-byte access at 1 mod 4 whose last byte is just past a block. *)
Definition block_end (x : Z) : Z := if x / 4 =? 25 then DEFINED else UNADDRESSABLE.

Lemma word_missed :
  exists e f addr sz sh o,
    e_map4 e = true /\ f = addr_read /\ sz = 4 /\
    (forall x y, same_word x y ->
       sh x = sh y /\ fst (e_unaddr e x) = fst (e_unaddr e y)) /\
    (forall a x, snd (e_unaddr e a) x = None) /\
    word_bad e sh (addr + sz - 1) = true /\
    handle_mem_ref e f addr sz sh = Ok o /\
    o_clean o = true /\ o_reports o = nil.
Proof.
  destruct (have (handle_mem_ref words addr_read 101 4 block_end)
              (fun o => o_clean o = true /\ o_reports o = nil)) as (o & Ho & Hc & Hr).
  { vm_compute. split; reflexivity. }
  exists words, addr_read, 101, 4, block_end, o.
  split; [reflexivity|]. split; [reflexivity|]. split; [reflexivity|].
  split.
  { intros x y H. unfold same_word in H. unfold block_end. rewrite H. split; reflexivity. }
  split; [reflexivity|]. split; [reflexivity|].
  split; [exact Ho|]. split; [exact Hc|exact Hr].
Qed.

(** An access to 12 inaccessible bytes is reported as three ranges that leave
    out two of them. *)
Lemma word_split :
  exists e f addr sz sh o,
    e_map4 e = true /\ f = addr_read /\
    (forall x, addr <= x < addr + sz -> word_bad e sh x = true) /\
    handle_mem_ref e f addr sz sh = Ok o /\
    o_reports o = [(true, addr, 4); (true, addr + 5, 3); (true, addr + 9, 3)] /\
    covers true (addr + 4) (o_reports o) = 0%nat /\ sz = 12.
Proof.
  destruct (have (handle_mem_ref words addr_read 100 12 (fun _ => UNADDRESSABLE))
              (fun o => o_reports o = [(true, 100, 4); (true, 105, 3); (true, 109, 3)]))
    as (o & Ho & Hr).
  { vm_compute. reflexivity. }
  exists words, addr_read, 100, 12, (fun _ => UNADDRESSABLE), o.
  split; [reflexivity|]. split; [reflexivity|]. split; [intros x _; reflexivity|].
  split; [exact Ho|]. rewrite Hr. split; [reflexivity|]. split; reflexivity.
Qed.

(** A byte carrying the bit-level marker makes a checked read come back as
    not clean without any report, and does not take the state of a store. *)
Lemma bitlevel_read :
  exists e addr sz sh o,
    e_map4 e = false /\ handle_mem_ref e checked_read addr sz sh = Ok o /\
    o_clean o = false /\ o_reports o = nil.
Proof.
  destruct (have (handle_mem_ref env0 checked_read 100 1 (fun _ => BITLEVEL))
              (fun o => o_clean o = false /\ o_reports o = nil)) as (o & Ho & Hc & Hr).
  { vm_compute. split; reflexivity. }
  exists env0, 100, 1, (fun _ => BITLEVEL), o.
  split; [reflexivity|]. split; [exact Ho|]. split; [exact Hc|exact Hr].
Qed.

Lemma bitlevel_write :
  exists e addr sz sh o,
    e_map4 e = false /\ sh addr <> UNADDRESSABLE /\ 0 < sz /\
    handle_mem_ref e plain_store addr sz sh = Ok o /\ o_shadow o addr <> DEFINED.
Proof.
  destruct (have (handle_mem_ref env0 plain_store 100 1 (fun _ => BITLEVEL))
              (fun o => o_shadow o 100 <> DEFINED)) as (o & Ho & Hc).
  { vm_compute. discriminate. }
  exists env0, 100, 1, (fun _ => BITLEVEL), o.
  split; [reflexivity|]. split; [discriminate|]. split; [reflexivity|].
  split; [exact Ho|exact Hc].
Qed.

(** A load and a store of 8 bytes that overlap (the fld/fstp case): a byte
    whose source was uninitialised ends up marked as initialised. *)
Definition copy_env : env :=
  {| e_rz := 0; e_map4 := false; e_leave := false; e_check_push := true;
     e_unaddr := quiet; e_undef := quiet; e_on_stack := fun _ => false;
     e_bounds := fun _ => None; e_dst := fun _ => DEFINED; e_movs := 100 |}.

Definition copy_sh (y : Z) : Z := if (104 <=? y) && (y <? 108) then U else D.

Lemma overlapping_copy :
  exists e addr sz sh o x,
    e_map4 e = false /\ addr <= x < addr + sz /\
    (forall y, addr <= y < addr + sz -> sh y = DEFINED \/ sh y = UNDEFINED) /\
    (forall a y, snd (e_unaddr e a) y = None /\ snd (e_undef e a) y = None) /\
    sh (e_movs e + (x - addr)) = UNDEFINED /\
    handle_mem_ref e copy_store addr sz sh = Ok o /\ o_shadow o x = DEFINED.
Proof.
  destruct (have (handle_mem_ref copy_env copy_store 104 8 copy_sh)
              (fun o => o_shadow o 108 = DEFINED)) as (o & Ho & Hc).
  { vm_compute. reflexivity. }
  exists copy_env, 104, 8, copy_sh, o, 108.
  split; [reflexivity|]. split; [lia|]. split.
  { intros y Hy. unfold copy_sh. destruct (_ && _); [now right|now left]. }
  split; [split; reflexivity|]. split; [reflexivity|]. split; [exact Ho|exact Hc].
Qed.
