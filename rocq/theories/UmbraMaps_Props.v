(** The registry of shadow maps: theorems. *)
From Coq Require Import ZArith List Bool Lia.
Import ListNotations.
From Verif Require Import UmbraMaps_Model UmbraMaps_Spec UmbraMaps_Proofs.
Open Scope Z_scope.

(** ** C45 *)

(** A careful client gets the answers of the ideal registry, nothing is read
    outside the table or after it was freed, no lock is waited for in vain, and
    each map that should exist does, in its own place. *)
Theorem C45_registry : forall arch l, always arch careful start l = true ->
  exists st, run arch boot l = Ret (st, snd (ideal_run arch start l)) /\
    forall x, In x (maps (fst (ideal_run arch start l))) ->
      exists m, In m (heap st) /\ described m = x /\ m_lock m = true /\
        nth (m_index m) (slots st) None = Some (m_id m).
Proof.
  intros arch l H. destruct (run_ok arch l _ _ rel_boot H) as (st & E & R).
  exists st. split; [exact E|]. intros x. now apply rel_maps.
Qed.

(** If no create fails after the map was allocated, the maps that exist are the
    ones that should: nothing is left after the last destroy. *)
Theorem C45_no_leak : forall arch l, always arch careful start l = true ->
  always arch (clean arch) start l = true ->
  exists st, run arch boot l = Ret (st, snd (ideal_run arch start l)) /\
    map described (heap st) = maps (fst (ideal_run arch start l)).
Proof. intros arch l. exact (run_exact arch l _ _ rel_boot eq_refl). Qed.

Definition fine (n : nat) (o : ops) : status := S_ok.
Definition down4 := Ops 1 0 1 false.
Definition up2 := Ops 4 0 1 false.
Definition on := Init true true true.

(** Two sessions, the first with two users and two maps. *)
Definition story : list call :=
  [Create false down4; on; on; Create false down4; Create false down4; Create false up2;
   Destroy (Some 1); Exit; Destroy (Some 2); Exit; on; Create false up2; Create true up2;
   Destroy (Some 3); Exit].

Example C45_case_careful :
  always fine careful start story && always fine (clean fine) start story = true.
Proof. vm_compute. reflexivity. Qed.

Example C45_case_story :
  match run fine boot story with
  | Ret (st, l) => Some (heap st, l)
  | _ => None
  end = Some ([],
    [(S_call, None); (S_ok, None); (S_ok, None); (S_ok, Some 1); (S_ok, Some 2);
     (S_feature, None); (S_ok, None); (S_ok, None); (S_ok, None); (S_ok, None); (S_ok, None);
     (S_ok, Some 3); (S_param, None); (S_ok, None); (S_ok, None)]).
Proof. vm_compute. reflexivity. Qed.

Example C45_case_two :
  match run fine boot [on; Create false down4; Create false down4] with
  | Ret (st, _) => Some (map described (heap st), slots st)
  | _ => None
  end = Some ([(2, 1, 1%nat); (1, 1, 0%nat)], [Some 1; Some 2]).
Proof. vm_compute. reflexivity. Qed.

(** [num_umbra_maps] is never incremented: after a destroy it is 2^32 - 1, and
    the next create of an acceptable map reads beyond the table. *)
Theorem C45_recreate_refuted : forall arch l o, always arch careful start l = true ->
  let s := fst (ideal_run arch start l) in
  users s <> 0%nat -> shrunk s = true -> byte_default o = true -> o_cb o = false ->
  known_scale o = true -> arch (place s) o = S_ok -> same_scale s (o_scale o) = true ->
  snd (snd (ideal_step arch s (Create false o))) = Some (fresh s) /\
  run arch boot (l ++ [Create false o]) = Bad.
Proof.
  intros arch l o H s U Sh Bd Cb Ks Ar Sc.
  destruct (run_ok arch l _ _ rel_boot H) as (st & E & R). fold s in R. split.
  - pose proof (r_some _ _ R Sh) as L. cbn [ideal_step].
    rewrite (proj2 (Nat.eqb_neq _ _) U), (proj2 (Nat.leb_gt _ _)), Bd, Cb, Ks, Ar, Sc by lia.
    reflexivity.
  - assert (Q : forall st0, run arch st0 l = Ret (st, snd (ideal_run arch start l)) ->
                run arch st0 (l ++ [Create false o]) = Bad).
    2: { exact (Q _ E). }
    clear H. clearbody s. clear E. generalize (snd (ideal_run arch start l)).
    induction l as [|c l' IH]; intros a st0.
    + intros [= -> _]. cbn [app run].
      rewrite (create_after_destroy arch st s o); auto.
    + cbn [app run]. destruct (step arch st0 c) as [[st1 b]| |]; cbn [bind fst snd]; try discriminate.
      destruct (run arch st1 l') as [[st2 r]| |] eqn:E2; cbn [bind fst snd]; try discriminate.
      intros [= -> _]. erewrite IH; eauto.
Qed.

Example C45_case_recreate :
  always fine careful start [on; Create false down4; Destroy (Some 1)] = true /\
  run fine boot [on; Create false down4; Destroy (Some 1); Create false down4] = Bad.
Proof. vm_compute. split; reflexivity. Qed.

(** For the same reason a map of another scale is accepted. *)
Theorem C45_scales_refuted : exists l,
  snd (ideal_run fine start l) = [(S_ok, None); (S_ok, Some 1); (S_feature, None)] /\
  match run fine boot l with Ret (st, a) => Some (map described (heap st), a) | _ => None end =
  Some ([(2, 4, 1%nat); (1, 1, 0%nat)], [(S_ok, None); (S_ok, Some 1); (S_ok, Some 2)]).
Proof. exists [on; Create false down4; Create false up2]. vm_compute. split; reflexivity. Qed.

(** The last [umbra_exit] with a map left locks a mutex that it holds. *)
Theorem C45_exit_refuted : forall arch l, always arch careful start l = true ->
  let s := fst (ideal_run arch start l) in
  users s = 1%nat -> maps s <> [] ->
  exists st, run arch boot l = Ret (st, snd (ideal_run arch start l)) /\
    step arch st Exit = Hang.
Proof.
  intros arch l H s U M. destruct (run_ok arch l _ _ rel_boot H) as (st & E & R).
  exists st. split; [exact E|]. eapply exit_with_map; eauto.
Qed.

Example C45_case_exit : run fine boot [on; Create false down4; Exit] = Hang.
Proof. vm_compute. reflexivity. Qed.

(** A create that fails after the allocation leaves the map behind, for ever:
    it is not in the table. *)
Theorem C45_leak_refuted : exists l,
  match run fine boot l with
  | Ret (st, a) => Some (map described (heap st), slots st, count st, a)
  | _ => None
  end = Some ([(1, 9, 0%nat)], [None; None], 0,
              [(S_ok, None); (S_feature, None); (S_ok, None)]).
Proof. exists [on; Create false (Ops 9 0 1 false); Exit]. vm_compute. reflexivity. Qed.

(** After an [umbra_init] that failed, the next one reports success although
    nothing works; and an exit locks a mutex that does not exist. *)
Theorem C45_failed_init_refuted : exists l,
  match run fine boot l with Ret (_, a) => Some a | _ => None end =
  Some [(S_error, None); (S_ok, None); (S_call, None)] /\
  run fine boot [Init false true true; Exit] = Bad.
Proof. exists [Init false true true; on; Create false down4]. vm_compute. split; reflexivity. Qed.

(** One [umbra_exit] too many: the next session is never closed. *)
Theorem C45_extra_exit_refuted : exists l,
  match run fine boot l with Ret (st, a) => Some (ready st, a) | _ => None end =
  Some (true, [(S_error, None); (S_ok, None); (S_error, None)]).
Proof. exists [Exit; on; Exit]. vm_compute. reflexivity. Qed.

Print Assumptions C45_registry.
Print Assumptions C45_no_leak.
Print Assumptions C45_recreate_refuted.
Print Assumptions C45_scales_refuted.
Print Assumptions C45_exit_refuted.
Print Assumptions C45_leak_refuted.
Print Assumptions C45_failed_init_refuted.
Print Assumptions C45_extra_exit_refuted.
