(** C33, C34: the fuzzer's mutators. *)
From Verif Require Import Base Mutator_Model Mutator_Spec Mutator_Proofs2 Mutator_Proofs3 Mutator_Proofs4 Mutator_Proofs5 Mutator_Proofs6.
Open Scope Z_scope.

(** Any history of requests and feedback of the ordered bit mutator: the i-th value is
    its base with the i-th set of bits flipped. *)
Theorem C33_history_exact junk seed o d l : o_unit o = UBits -> o_alg o = AOrdered -> good_start seed o -> good_requests (len seed) l ->
  let sets := bit_sets (Z.to_nat (skip_of o)) (Z.to_nat (8 * len seed)) in
  (asks l <= length sets)%nat ->
  exists m m', start junk seed o d = Ok m /\
    run junk m (map of_request l) =
      Ok (expected (o_centric o) seed seed (map (fun S base => flipped (spread (len seed)) base S) sets) l, m') /\
    (has_next_value m' = true <-> (asks l < length sets)%nat).
Proof. exact (ordered_exact junk seed o d l). Qed.
Print Assumptions C33_history_exact.

(** Sparsity one around a fixed seed: no value twice, never the seed, and when there is
    no next value every other buffer of that size has been produced. *)
Theorem C33_complete junk seed o d l : o_unit o = UBits -> o_alg o = AOrdered -> o_centric o = true -> 0 <= o_sparsity o <= 1 ->
  bytes seed -> 0 < len seed -> 8 * len seed < 2 ^ 32 -> good_requests (len seed) l ->
  (forall v, In (Tell v) l -> v <= 0) -> Z.of_nat (asks l) <= 2 ^ (8 * len seed) - 1 ->
  exists m outs m', start junk seed o d = Ok m /\ run junk m (map of_request l) = Ok (outs, m') /\
    length outs = asks l /\ NoDup outs /\ (forall v, In v outs -> bytes v /\ len v = len seed /\ v <> seed) /\
    (has_next_value m' = false <-> Z.of_nat (asks l) = 2 ^ (8 * len seed) - 1) /\
    (has_next_value m' = false -> forall v, bytes v -> len v = len seed -> v <> seed -> In v outs).
Proof. exact (ordered_complete junk seed o d l). Qed.
Print Assumptions C33_complete.

(** Ordered numbers count up, ordered words walk through the dictionary. *)
Theorem C33_numbers junk seed o d l : o_unit o = UNum -> o_alg o = AOrdered -> bytes seed -> len seed <= 8 -> good_requests (len seed) l ->
  let limit := if o_max o =? 0 then 2 ^ 64 - 1 else o_max o in
  0 <= o_max o < 2 ^ 64 -> Z.of_nat (asks l) <= limit ->
  exists m outs m', start junk seed o d = Ok m /\ run junk m (map of_request l) = Ok (outs, m') /\ length outs = asks l /\
    (forall k, (k < length outs)%nat ->
       bytes (nth k outs []) /\ len (nth k outs []) = len seed /\ value (nth k outs []) = Z.of_nat k mod 256 ^ len seed) /\
    (has_next_value m' = true <-> Z.of_nat (asks l) < limit).
Proof. exact (ordered_numbers junk seed o d l). Qed.
Print Assumptions C33_numbers.
Theorem C33_words junk seed o d l : o_unit o = UToken -> o_alg o = AOrdered -> bytes seed -> len d < 2 ^ 64 -> good_requests (len seed) l ->
  (asks l <= length d)%nat ->
  exists m m', start junk seed o d = Ok m /\ run junk m (map of_request l) =
      Ok (expected (o_centric o) seed seed (map (fun t base => placed base 0 t) d) (filter (fun r => match r with Ask _ => true | _ => false end) l), m') /\
    (has_next_value m' = true <-> (asks l < length d)%nat).
Proof. exact (ordered_words junk seed o d l). Qed.
Print Assumptions C33_words.

(** Without a maximum the options accept ordered numbers for any buffer size, and more
    than eight bytes are then copied from an eight-byte variable. *)
Theorem C33_wide_number_refuted : exists seed o,
  check_options 0 0 o false false true true false (len seed) = Some o /\ bytes seed /\ o_unit o = UNum /\ o_alg o = AOrdered /\
  (let* m := start 0 seed o [] in run 0 m [Next seed]) = UB.
Proof.
  exists (repeat 0 9), (Opts AOrdered UNum false false 0 0 1). split; [reflexivity|]. split; [repeat constructor; discriminate|]. repeat split.
Qed.
Print Assumptions C33_wide_number_refuted.

Definition bits_opts (a : alg) (centric : bool) (sparsity s : Z) := Opts a UBits centric false sparsity 0 s.
Definition run_all seed o d l := let* m := start 77 seed o d in let* (r, m) := run 77 m l in Ok (r, has_next_value m).
Example C33_ex_first : run_all [0; 0] (bits_opts AOrdered true 1 5) [] (repeat (Next [9; 9]) 18) =
  Ok ([[1; 0]; [0; 1]; [2; 0]; [0; 2]; [4; 0]; [0; 4]; [8; 0]; [0; 8]; [16; 0]; [0; 16]; [32; 0]; [0; 32]; [64; 0]; [0; 64]; [128; 0]; [0; 128];
       [1; 1]; [3; 0]], true).
Proof. vm_compute. reflexivity. Qed.
Example C33_ex_all : match run_all [65] (bits_opts AOrdered true 1 5) [] (repeat (Next [0]) 255) with
                     | Ok (r, more) => length r = 255%nat /\ more = false /\ nth 254 r [] = [Z.lxor 65 255] | _ => False end.
Proof. vm_compute. auto. Qed.
Example C33_ex_feedback : run_all [0] (bits_opts AOrdered true 3 5) [] [Next [7]; Next [7]; Feedback 1; Next [7]; Feedback 0; Next [7]; Next [7]] =
  Ok ([[1]; [8]; [72]; [136]; [11]], true).
Proof. vm_compute. reflexivity. Qed.
Example C33_ex_numbers : run_all [9; 9] (Opts AOrdered UNum false false 0 300 1) [] (repeat (Next [1; 2]) 299) =
  (let* (r, b) := run_all [9; 9] (Opts AOrdered UNum false false 0 300 1) [] (repeat (Next [1; 2]) 299) in Ok (firstn 298 r ++ [[42; 1]], true)).
Proof. vm_compute. reflexivity. Qed.
Example C33_ex_words : run_all [1; 2; 3; 4] (Opts AOrdered UToken true false 0 0 1) [[65; 66]; [67; 68; 69; 70; 71]] [Next [0; 0; 0; 0]; Next [0; 0; 0; 0]] =
  Ok ([[65; 66; 32; 4]; [67; 68; 69; 70]], false).
Proof. vm_compute. reflexivity. Qed.

(** Random bits: the i-th value flips as many distinct bits inside the buffer as the
    ordered walk would. *)
Theorem C34_bits junk seed o d l : o_unit o = UBits -> o_alg o = ARandom -> good_start seed o -> len seed <= 4096 ->
  good_requests (len seed) l ->
  let sets := bit_sets (Z.to_nat (skip_of o)) (Z.to_nat (8 * len seed)) in
  (asks l <= length sets)%nat ->
  exists m outs m', start junk seed o d = Ok m /\ run junk m (map of_request l) = Ok (outs, m') /\
    accepted (o_centric o) seed seed (map (fun S base v => flips_some base (length S) v) sets) l outs /\
    (has_next_value m' = true <-> (asks l < length sets)%nat).
Proof. exact (random_bits junk seed o d l). Qed.
Print Assumptions C34_bits.

(** Random numbers stay below the maximum that the options accepted. *)
Theorem C34_numbers junk seed oob clock o0 us usp uu ua ud o d l : o_unit o = UNum -> o_alg o = ARandom -> bytes seed -> good_requests (len seed) l ->
  0 <= o_max o0 < 2 ^ 64 -> check_options oob clock o0 us usp uu ua ud (len seed) = Some o ->
  exists m outs m', start junk seed o d = Ok m /\ run junk m (map of_request l) = Ok (outs, m') /\ length outs = asks l /\
    (forall v, In v outs -> bytes v /\ len v = len seed /\ (o_max o <> 0 -> value v < o_max o)) /\ has_next_value m' = true.
Proof. exact (random_numbers junk seed oob clock o0 us usp uu ua ud o d l). Qed.
Print Assumptions C34_numbers.

(** Random words are dictionary words placed inside the buffer. *)
Theorem C34_words junk seed o d l : o_unit o = UToken -> o_alg o = ARandom -> bytes seed -> d <> [] -> good_requests (len seed) l ->
  exists m outs m', start junk seed o d = Ok m /\ run junk m (map of_request l) = Ok (outs, m') /\ length outs = asks l /\
    accepted (o_centric o) seed seed (repeat (some_word d) (asks l)) (filter (fun r => match r with Ask _ => true | _ => false end) l) outs /\
    has_next_value m' = true.
Proof. exact (random_words_exact junk seed o d l). Qed.
Print Assumptions C34_words.

(** Above 4096 bytes the 16-bit shuffle entries overflow: the third value of an
    8192-byte buffer flips a bit outside it. *)
Definition big : list Z := repeat 0 (Z.to_nat 8192).
Theorem C34_large_buffer_refuted : exists seed o,
  good_start seed o /\ o_unit o = UBits /\ o_alg o = ARandom /\ len seed = 8192 /\
  (let* m := start 0 seed o [] in run 0 m [Next seed; Next seed; Next seed]) = UB.
Proof.
  exists big, (bits_opts ARandom true 65535 5550720349663277410). split; [|repeat split; vm_compute; reflexivity].
  assert (L : len big = 8192) by (vm_compute; reflexivity).
  assert (B : bytes big) by (apply Forall_forall; intros x I; apply repeat_spec in I; subst; split; [discriminate|reflexivity]).
  split; [exact B|]. rewrite L. split; [reflexivity|]. split; [reflexivity|]. split; vm_compute; discriminate.
Qed.
Print Assumptions C34_large_buffer_refuted.
(** A dictionary file without words is accepted and the choice of a word then divides
    by zero. *)
Theorem C34_empty_dictionary_refuted : exists seed o,
  check_options 0 0 o false false false false true (len seed) = Some o /\ bytes seed /\ o_unit o = UToken /\ o_alg o = ARandom /\
  (let* m := start 0 seed o [] in run 0 m [Next seed]) = UB.
Proof.
  exists [1; 2], (Opts ARandom UToken true false 0 0 1). split; [reflexivity|]. split; [repeat constructor; discriminate|]. repeat split.
Qed.
Print Assumptions C34_empty_dictionary_refuted.

Example C34_ex_bits : run_all [0; 0] (bits_opts ARandom true 8 5) [] (repeat (Next [9; 9]) 5) =
 Ok ([[16; 0]; [16; 0]; [0; 2]; [34; 0]; [2; 2]], true).
Proof. vm_compute. reflexivity. Qed.
Example C34_ex_numbers : run_all [0; 0] (Opts ARandom UNum false false 0 1000 5) [] (repeat (Next [9; 9]) 3) = Ok ([[236; 1]; [20; 0]; [153; 0]], true).
Proof. vm_compute. reflexivity. Qed.
Example C34_ex_words : run_all [1; 2; 3; 4; 5; 6; 7; 8] (Opts ARandom UToken true false 0 0 5) [[65; 66]; [67; 68; 69; 70; 71]] (repeat (Next (repeat 0 8)) 3) = Ok ([[1; 32; 65; 66; 32; 6; 7; 8]; [67; 68; 69; 70; 71; 32; 7; 8]; [1; 2; 3; 4; 32; 65; 66; 32]], true).
Proof. vm_compute. reflexivity. Qed.
