(** Proofs about socket addresses that the kernel reads. *)
From Coq Require Import String.
From Verif Require Import Base Sysarg_Model Sysarg_Table Sysarg_Spec.
Local Open Scope Z_scope.

Lemma read16 m a v : word16 m a = Some v -> safe_read m a 2 = Some v.
Proof.
  unfold word16. cbn [safe_read]. destruct (m a) as [b0|]; [|discriminate].
  destruct (m (a + 1)) as [b1|]; [|discriminate]. intros E. rewrite <- E. f_equal. lia.
Qed.

Lemma strnlen_ok m n : forall a k,
  0 <= k -> (Z.to_nat k <= n)%nat ->
  (forall j, 0 <= j < k -> exists b, m (a + j) = Some b /\ b <> 0) ->
  Z.to_nat k = n \/ m (a + k) = Some 0 ->
  strnlen m a n = Ok k.
Proof.
  induction n as [|n IH]; intros a k K0 KN B E; cbn [strnlen].
  - f_equal. lia.
  - destruct (Z.eq_dec k 0) as [->|NZ].
    + destruct E as [E|E]; [lia|]. rewrite Z.add_0_r in E. rewrite E. reflexivity.
    + destruct (B 0) as (b & B1 & B2); [lia|]. rewrite Z.add_0_r in B1. rewrite B1.
      destruct (Z.eqb_spec b 0); [contradiction|].
      rewrite (IH (a + 1) (k - 1)).
      * cbn [bind]. f_equal. lia.
      * lia.
      * lia.
      * intros j J. replace (a + 1 + j) with (a + (1 + j)) by lia. apply B. lia.
      * replace (a + 1 + (k - 1)) with (a + k) by lia. destruct E; [left; lia|auto].
Qed.

Definition address_row (p q : Z) := [Entry p (- q) [fREAD; fCOMPLEX] T_SOCKADDR].

(** For an address that is only read, the handler leaves the state alone. *)
Lemma handler_state w s s' ord ptr n :
  handle_sockaddr true w s ord [fREAD; fCOMPLEX] ptr n =
  let* r := handle_sockaddr true w s' ord [fREAD; fCOMPLEX] ptr n in Ok (s, snd r).
Proof.
  unfold handle_sockaddr. cbn [existsb flag_eqb orb]. rewrite !andb_false_r.
  destruct (safe_read (mem w) ptr 2); [|reflexivity].
  destruct (z =? 1); [|reflexivity].
  destruct (strnlen _ _ _); reflexivity.
Qed.

Lemma address_walk w s r :
  args w 1 <> 0 -> 0 < args w 2 < 2 ^ 32 ->
  handle_sockaddr true w s 1 [fREAD; fCOMPLEX] (args w 1) (args w 2) = Ok (s, r) ->
  forall s1, exists s2, iterate_pre w (address_row 1 2) s1 = Ok (s2, r).
Proof.
  intros A L H s1. unfold iterate_pre, address_row.
  change (array _) with
    (Entry 1 (-2) [fREAD; fCOMPLEX] T_SOCKADDR :: repeat zero_entry 5).
  cbn [pre_loop]. cbn [invalid param size flags Z.eqb andb].
  change (sysarg w 1) with (Ok (args w 1)). cbn [bind].
  change (get_size true w _ 0 _ (args w 1) s1) with (Ok (args w 2, s1, @nil report)).
  cbn [bind has flags existsb flag_eqb orb].
  destruct (Z.eqb_spec (args w 1) 0); [contradiction|].
  destruct (Z.ltb_spec 0 (args w 2)); [|lia]. cbn [negb andb].
  destruct (Z.eqb_spec (args w 2) SIZE_DYNAMIC) as [X|X]; [unfold SIZE_DYNAMIC in X; lia|].
  unfold os_access. cbn [has flags existsb flag_eqb orb negb misc param].
  change (T_SOCKADDR =? T_CSTRING) with false. change (T_SOCKADDR =? T_SOCKADDR) with true.
  cbn [bind].
  replace (u32 (args w 2)) with (args w 2) by (unfold u32; rewrite Z.mod_small; auto; lia).
  rewrite (handler_state w _ s), H. cbn [bind snd repeat pre_loop invalid zero_entry param size flags Z.eqb andb fst].
  eexists. rewrite !app_nil_r. reflexivity.
Qed.

Lemma address_session before after s r :
  args before 1 <> 0 -> 0 < args before 2 < 2 ^ 32 ->
  handle_sockaddr true before s 1 [fREAD; fCOMPLEX] (args before 1) (args before 2) = Ok (s, r) ->
  session before after (address_row 1 2) s = Ok (r, []).
Proof.
  intros A L H. unfold session, iterate_args.
  destruct (address_walk before s r A L H (start_call s)) as (s1 & ->). cbn [bind fst].
  destruct (address_walk before s r A L H s1) as (s2 & ->). cbn [bind fst snd].
  unfold iterate_post. destruct (succeeded after); reflexivity.
Qed.

Lemma demanded_nil a : demanded [] a <-> False.
Proof. unfold demanded. split; [intros (r & [] & _)|contradiction]. Qed.

Lemma demanded_cons i b x n l a :
  demanded (Report i true b x n :: l) a <-> x <= a < x + n \/ demanded l a.
Proof.
  unfold demanded. split.
  - intros (r & [<-|I] & H1 & H2); [left; exact H2|right; eauto].
  - intros [H|(r & I & H)]; [eexists; split; [left; reflexivity|cbn; auto]|].
    exists r. split; [right|]; auto.
Qed.

Lemma address_taken : takes_address (address_row 1 2) 1 2.
Proof.
  intros before after s n A L BY SG.
  enough (R : exists r,
    handle_sockaddr true before s 1 [fREAD; fCOMPLEX] (args before 1) (args before 2) = Ok (s, r) /\
    0 < args before 2 /\
    (forall a, demanded r a <-> args before 1 <= a < args before 1 + n) /\
    Forall (fun r => r_ord r = 1 /\ r_out r = false) r).
  { destruct R as (r & H & K & D & F). exists r. split; [|auto].
    apply address_session; auto. lia. }
  remember (mem before) as m. remember (args before 1) as p. remember (args before 2) as k.
  unfold handle_sockaddr. cbn [existsb flag_eqb orb]. rewrite !andb_false_r. rewrite <- ?Heqm.
  destruct SG as [E LE|E LE|E LE|n E LE N0 B EN]; rewrite (read16 _ _ _ E).
  1-3: cbn [Z.eqb Pos.eqb sock_fields flat_map fst snd app];
    repeat match goal with |- context [?x <=? ?y] =>
      destruct (Z.leb_spec x y); [|lia] end;
    eexists; split; [reflexivity|]; split; [lia|];
    split; [intros a; cbn [app report_memarg negb andb existsb flag_eqb orb];
            rewrite !demanded_cons, demanded_nil; lia
           |repeat constructor].
  assert (KM : u64 (k - 2) = k - 2) by (unfold u64; rewrite Z.mod_small; auto; lia).
  cbn [Z.eqb Pos.eqb]. rewrite KM, Z.min_l by lia.
  rewrite (strnlen_ok m _ (p + 2) n); auto.
  - cbn [bind]. eexists. split; [reflexivity|]. split; [lia|].
    destruct (Z.ltb_spec 0 n);
    cbn [app report_memarg negb andb existsb flag_eqb orb];
    (split; [intros a; rewrite !demanded_cons, demanded_nil; lia|repeat constructor]).
  - lia.
  - destruct EN as [EN|[_ EN]]; [left; f_equal; lia|right; auto].
Qed.

Local Open Scope string_scope.

Lemma address_rows : forall n, In n ["connect"; "bind"] ->
  exists t, lookup n linux_table = Some t /\ takes_address t 1 2.
Proof.
  intros n [<-|[<-|[]]]; eexists; (split; [vm_compute; reflexivity|exact address_taken]).
Qed.
