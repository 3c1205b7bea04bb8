(** Digests: theorems. *)
From Verif Require Import Base Digest_Model Digest_Spec Digest_Proofs Digest_Proofs3.
Local Open Scope Z_scope.

(** ** C53 *)

(** In whatever pieces the bytes are given, and whatever the buffer held
    before, the digest is that of RFC 1321 of all of them, with no access out of
    the buffer. *)
Theorem C53_pieces : forall buf l, List.length buf = 64%nat ->
  (let* c := updates (init buf) l in final c) = Ok (md5 (concat l)).
Proof. exact pieces. Qed.

Theorem C53_region : forall buf m, List.length buf = 64%nat ->
  get_md5_for_region buf m = Ok (md5 m).
Proof. exact region. Qed.

(** "abc", one of the examples in RFC 1321, whole and in pieces; and a message
    of 130 bytes. *)
Example C53_case_abc : md5 [97; 98; 99] =
  [144; 1; 80; 152; 60; 210; 79; 176; 214; 150; 63; 125; 40; 225; 127; 114].
Proof.
  assert (E : get_md5_for_region (repeat 9 64) [97; 98; 99] =
    Ok [144; 1; 80; 152; 60; 210; 79; 176; 214; 150; 63; 125; 40; 225; 127; 114]).
  { vm_compute. reflexivity. }
  rewrite (C53_region (repeat 9 64) [97; 98; 99] eq_refl) in E.
  exact (f_equal (fun r => match r with Ok l => l | _ => [] end) E).
Qed.

Example C53_case_pieces :
  (let* c := updates (init (repeat 9 64)) [[97]; []; [98; 99]] in final c) =
  get_md5_for_region (repeat 0 64) [97; 98; 99].
Proof. vm_compute. reflexivity. Qed.

Example C53_case_long :
  (let* c := updates (init (repeat 9 64)) [repeat 1 60; repeat 1 70] in final c) =
  get_md5_for_region (repeat 0 64) (repeat 1 130).
Proof. vm_compute. reflexivity. Qed.

(** ** C54 *)

(** The table does what shifting in the bits one by one does.  (There is no
    complement at the end, as there is in other uses of this CRC.) *)
Theorem C54_crc : forall m, crc32 m = crc m.
Proof. exact crc32_ok. Qed.

(** Two blocks that are alike but for bits within a run of 32 never have the
    same CRC. *)
Theorem C54_burst : forall m1 m2 p d1 d2 s,
  flat_map bits m1 = p ++ d1 ++ s -> flat_map bits m2 = p ++ d2 ++ s ->
  List.length d1 = List.length d2 -> (List.length d1 <= 32)%nat -> d1 <> d2 ->
  crc32 m1 <> crc32 m2.
Proof. exact burst. Qed.

(** So such call stacks are told apart, whatever the results held before. *)
Theorem C54_apart : forall m1 m2 o1 o2 p d1 d2 s,
  flat_map bits m1 = p ++ d1 ++ s -> flat_map bits m2 = p ++ d2 ++ s ->
  List.length d1 = List.length d2 -> (List.length d1 <= 32)%nat -> d1 <> d2 ->
  wh_equal (whole_and_half m1 o1) (whole_and_half m2 o2) = false.
Proof.
  intros m1 m2 o1 o2 p d1 d2 s E1 E2 L L32 N. unfold wh_equal. rewrite !wh_whole.
  apply andb_false_iff. left. apply Z.eqb_neq. eapply burst; eauto.
Qed.

(** The two results, for a block that is not empty: the second is of one byte
    more than half. *)
Theorem C54_whole_and_half : forall m out, m <> [] ->
  whole_and_half m out = (crc m, crc (firstn (List.length m / 2 + 1) m)).
Proof. exact wh_eq. Qed.

(** Equal call stacks have equal results. *)
Theorem C54_same : forall m o1 o2, m <> [] ->
  wh_equal (whole_and_half m o1) (whole_and_half m o2) = true.
Proof. intros m o1 o2 N. rewrite !wh_eq by auto. unfold wh_equal. now rewrite !Z.eqb_refl. Qed.

Example C54_case_abc : crc32 [97; 98; 99] = 2 ^ 32 - 1 - 891568578.
Proof. vm_compute. reflexivity. Qed.

(** Two frames of which one differs in its low-order four bytes. *)
Example C54_case_apart :
  let m1 := [1; 2; 3; 4; 5; 6; 7; 8] in let m2 := [1; 2; 3; 4; 9; 6; 0; 8] in
  crc32 m1 <> crc32 m2.
Proof.
  refine (C54_burst [1; 2; 3; 4; 5; 6; 7; 8] [1; 2; 3; 4; 9; 6; 0; 8] (flat_map bits [1; 2; 3; 4]) (flat_map bits [5; 6; 7; 8])
            (flat_map bits [9; 6; 0; 8]) [] eq_refl eq_refl eq_refl _ _).
  - cbn. lia.
  - vm_compute. discriminate.
Qed.

(** The comment on crc32_whole_and_half says that the second result is of half
    the bytes; it is not. *)
Theorem C54_half_refuted : exists m, m <> [] /\
  snd (whole_and_half m (0, 0)) <> crc (firstn (List.length m / 2) m).
Proof. exists [1; 2]. split; [discriminate|]. vm_compute. discriminate. Qed.

(** And for no bytes it is not set, so that equal (empty) call stacks may have
    different results. *)
Theorem C54_empty_refuted : exists o1 o2,
  wh_equal (whole_and_half [] o1) (whole_and_half [] o2) = false.
Proof. exists (0, 0), (0, 1). vm_compute. reflexivity. Qed.

Print Assumptions C53_pieces.
Print Assumptions C53_region.
Print Assumptions C54_crc.
Print Assumptions C54_burst.
Print Assumptions C54_apart.
Print Assumptions C54_whole_and_half.
Print Assumptions C54_same.
Print Assumptions C54_half_refuted.
Print Assumptions C54_empty_refuted.
