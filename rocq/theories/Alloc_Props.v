(** C11-C15, C38: the replacement allocator. *)
From Coq Require Import Permutation.
From Verif Require Import Base Alloc_Model Alloc_Spec Alloc_Proofs18 Alloc_Proofs19 Alloc_Proofs20.
Open Scope Z_scope.

(** ** C11 *)
(** Every call comes back. *)
Theorem C11_no_crash c o s v k : config_ok c -> reach c s v -> kernel_ok o s -> memory_ok o s -> call_ok k ->
  exists s' a r, step c o s k = Ok (s', a, r).
Proof. intros Cf R Ko Mo Co. destruct (step_ok c Cf o s v k (reach_inv c Cf s v R) Ko Mo Co) as (s' & a & r & E & _). eauto. Qed.
(** Blocks are aligned, have their size, and lie with a redzone in front inside one region
    of memory; so does the redzone behind, if it is not enormous. *)
Theorem C11_blocks c s v : config_ok c -> reach c s v ->
  NoDup (map ptr v) /\
  forall b, In b v -> 0 < ptr b /\ ptr b mod 16 = 0 /\ 0 <= len b /\ len b <= capacity s (ptr b) /\
    exists r, In r (regions s) /\ r_lo r + redzone c <= ptr b /\ ptr b + len b <= r_hi r /\
      (r_mmap r = true \/ 384 + inter c <= 4096 -> ptr b + capacity s (ptr b) + redzone c <= r_hi r).
Proof. exact (fun Cf => blocks_ok c Cf s v). Qed.
(** Two blocks are a redzone apart, or two where they are not shared. *)
Theorem C11_redzones c s v b b' : config_ok c -> reach c s v -> In b v -> In b' v -> ptr b <> ptr b' ->
  (ptr b + capacity s (ptr b) + redzone c <= ptr b' \/ ptr b' + capacity s (ptr b') + redzone c <= ptr b) /\
  (shared c = false -> 384 + inter c <= 4096 ->
   ptr b + capacity s (ptr b) + 2 * redzone c <= ptr b' \/ ptr b' + capacity s (ptr b') + 2 * redzone c <= ptr b).
Proof. exact (fun Cf => apart_ok c Cf s v b b'). Qed.
(** malloc, calloc, memalign: a new block with the alignment asked for, zeroed for calloc,
    the contents of all others as they were; NULL only for a reason. *)
Theorem C11_malloc c o s v n al zero ty s' a r : config_ok c -> reach c s v -> kernel_ok o s -> memory_ok o s -> call_ok (Malloc n al zero ty) ->
  step c o s (Malloc n al zero ty) = Ok (s', a, r) -> (forall q, a = Ptr q -> pre_us c q = None) ->
  exists p, a = Ptr p /\ r = [] /\ kept v v s s' /\ (p = 0 -> refuse o n al) /\
    (p <> 0 -> reach c s' ((p, n, ty) :: v) /\ ~ In p (map ptr v) /\ (al <> 0 -> p mod al = 0) /\ n < 2 ^ 32 /\
               (zero = true -> forall x, p <= x < p + n -> mem s' x = 0)).
Proof.
  intros Cf R Ko Mo Co E G. destruct (call_effect c Cf o s v _ s' a r R Ko Mo Co E G) as [(p & -> & -> & _ & Z1 & Z2) K].
  pose proof (reach_call c s v o _ s' _ _ R Ko Mo Co E G) as R'. cbn [view_step] in K, R'. exists p. split; [reflexivity|]. split; [reflexivity|]. unfold give in *.
  split; [intros b b' x Ib Ib'; apply (K b b' x Ib); destruct (p =? 0); [exact Ib' | right; exact Ib']|]. split; [exact Z1|]. intros Np. specialize (Z2 Np). rewrite (proj2 (Z.eqb_neq _ _) Np) in R'. split; [exact R'|].
  destruct Z2 as (A & B & D & F). split; [exact A|]. split; [exact B|]. split; [lia | exact F].
Qed.

(** ** C12 *)
(** A freed chunk joins the end of the quarantine; of what is then there the newest part
    within the limits stays.  (A block with a mapping of its own is unmapped instead.) *)
Theorem C12_free c o s v p ty b s' a r : config_ok c -> reach c s v -> kernel_ok o s -> memory_ok o s -> lookup v p = Some b ->
  step c o s (Free p ty) = Ok (s', a, r) -> queue_free c s s' p.
Proof.
  intros Cf R Ko Mo Lk E. assert (G : forall q, a = Ptr q -> pre_us c q = None) by (intros q ->; cbn [step] in E; destruct (free_common c o s p ty false) as [[? ?]| |]; discriminate).
  destruct (call_effect c Cf o s v (Free p ty) s' a r R Ko Mo Logic.I E G) as [[_ Q] _]. rewrite Lk in Q. apply Q.
Qed.
(** Allocation takes nothing out of quarantine, unless the kernel has no memory left; then
    it takes the oldest. *)
Theorem C12_malloc c o s v n al zero ty s' a r : config_ok c -> reach c s v -> kernel_ok o s -> memory_ok o s -> call_ok (Malloc n al zero ty) ->
  step c o s (Malloc n al zero ty) = Ok (s', a, r) -> (forall q, a = Ptr q -> pre_us c q = None) -> same_queue o s s'.
Proof. intros Cf R Ko Mo Co E G. destruct (call_effect c Cf o s v _ s' a r R Ko Mo Co E G) as [(p & _ & _ & Q & _) _]. exact Q. Qed.
(** realloc: in place, nothing; else as malloc and then free. *)
Theorem C12_realloc c o s v p n b s' q r : config_ok c -> reach c s v -> kernel_ok o s -> memory_ok o s -> call_ok (Realloc p n) -> p <> 0 -> n <> 0 ->
  lookup v p = Some b -> step c o s (Realloc p n) = Ok (s', Ptr q, r) -> pre_us c q = None ->
  (q = 0 -> same_queue o s s') /\ (q = p -> quarantine s' = quarantine s) /\
  (q <> 0 -> q <> p -> exists k, (k <> 0%nat -> o_map o ARENA_INITIAL_SIZE = None) /\
     if mapped s p then quarantine s' = skipn k (quarantine s) else newest c (skipn k (quarantine s) ++ [(p, capacity s p)]) (quarantine s')).
Proof.
  intros Cf R Ko Mo Co Np Nn Lk E G. destruct (call_effect c Cf o s v _ s' _ r R Ko Mo Co E ltac:(intros ? [= <-]; exact G)) as [(q0 & [= <-] & Q) _].
  rewrite (proj2 (Z.eqb_neq _ _) Np), Lk, (proj2 (Z.eqb_neq _ _) Nn) in Q. destruct Q as (_ & Q1 & _ & Q3 & Q4). split; [intros H; apply Q1; exact H|]. split; [exact Q3|]. intros N1 N2. apply Q4; auto.
Qed.
(** The limits hold always, and no block lies over a chunk in quarantine. *)
Theorem C12_limits c s v : config_ok c -> reach c s v -> within c (quarantine s).
Proof. exact (fun Cf => quarantine_within c Cf s v). Qed.
Theorem C12_apart c s v b q z : config_ok c -> reach c s v -> In b v -> In (q, z) (quarantine s) ->
  16 <= z /\ (ptr b + capacity s (ptr b) <= q \/ q + z <= ptr b).
Proof. exact (fun Cf => quarantine_apart c Cf s v b q z). Qed.

(** ** C13 *)
(** free and delete: for a block nothing but a mismatch of kinds is reported, for anything
    else that was not there before the tool "invalid" is, and then nothing changes. *)
Theorem C13_free c o s v p ty s' a r : config_ok c -> reach c s v -> kernel_ok o s -> memory_ok o s ->
  step c o s (Free p ty) = Ok (s', a, r) ->
  a = Done /\ match lookup v p with
              | Some b => r = mismatch b ty /\ reach c s' (without v p) /\ kept v (without v p) s s'
              | None => s' = s /\ r = bad_report c v p ty
              end.
Proof.
  intros Cf R Ko Mo E. assert (G : forall q, a = Ptr q -> pre_us c q = None) by (intros q ->; cbn [step] in E; destruct (free_common c o s p ty false) as [[? ?]| |]; discriminate).
  destruct (call_effect c Cf o s v (Free p ty) s' a r R Ko Mo Logic.I E G) as [[A Q] K]. split; [exact A|].
  pose proof (reach_call c s v o (Free p ty) s' _ _ R Ko Mo Logic.I E G) as R'. cbn [view_step] in K, R'. destruct (lookup v p); [|exact Q]. destruct Q as [Q _]. auto.
Qed.
(** realloc to nothing is free; realloc of a block reports nothing. *)
Theorem C13_realloc c o s v p n s' q r : config_ok c -> reach c s v -> kernel_ok o s -> memory_ok o s -> call_ok (Realloc p n) -> p <> 0 ->
  step c o s (Realloc p n) = Ok (s', Ptr q, r) -> pre_us c q = None ->
  r = match lookup v p with
      | Some b => if n =? 0 then mismatch b TYPE_MALLOC else []
      | None => if n =? 0 then bad_report c v p TYPE_MALLOC else match pre_us c p with Some _ => [] | None => [Invalid p] end
      end.
Proof.
  intros Cf R Ko Mo Co Np E G. destruct (call_effect c Cf o s v _ s' _ r R Ko Mo Co E ltac:(intros ? [= <-]; exact G)) as [(q0 & _ & Q) _].
  rewrite (proj2 (Z.eqb_neq _ _) Np) in Q. destruct (lookup v p), (n =? 0); try destruct (pre_us c p); tauto.
Qed.
Theorem C13_size c o s v p s' a r : config_ok c -> reach c s v -> kernel_ok o s -> memory_ok o s ->
  step c o s (Size p) = Ok (s', a, r) ->
  s' = s /\ (a, r) = match lookup v p with
                     | Some b => (Bytes (Some (len b)), [])
                     | None => match pre_us c p with Some (n, _) => (Bytes (Some n), []) | None => (Bytes None, [Invalid p]) end
                     end.
Proof.
  intros Cf R Ko Mo E. assert (G : forall q, a = Ptr q -> pre_us c q = None) by (intros q ->; cbn [step] in E; destruct (size_common c s p) as [[? ?]| |]; discriminate).
  destruct (call_effect c Cf o s v (Size p) s' a r R Ko Mo Logic.I E G) as [[A Q] _]. split; [exact A|].
  destruct (lookup v p); [|destruct (pre_us c p) as [[? ?]|]]; destruct Q as [-> ->]; reflexivity.
Qed.

(** ** C14 *)
(** realloc of a block: on success a block of the new size with the old contents, on
    failure everything as it was. *)
Theorem C14_realloc c o s v p n b s' q r : config_ok c -> reach c s v -> kernel_ok o s -> memory_ok o s -> call_ok (Realloc p n) -> p <> 0 -> n <> 0 ->
  lookup v p = Some b -> step c o s (Realloc p n) = Ok (s', Ptr q, r) -> pre_us c q = None ->
  (q = 0 -> refuse o n 0 /\ reach c s' v /\ kept v v s s') /\
  (q <> 0 -> reach c s' ((q, n, if q =? p then kindb b else TYPE_MALLOC) :: without v p) /\
             copied s s' p q (Z.min n (len b)) /\ kept v (without v p) s s' /\ (q <> p -> ~ In q (map ptr v))).
Proof.
  intros Cf R Ko Mo Co Np Nn Lk E G. assert (G' : forall x, Ptr q = Ptr x -> pre_us c x = None) by (intros ? [= <-]; exact G).
  destruct (call_effect c Cf o s v _ s' _ r R Ko Mo Co E G') as [(q0 & [= <-] & Q) K]. pose proof (reach_call c s v o _ s' _ _ R Ko Mo Co E G') as R'. cbn [view_step] in K, R'.
  rewrite (proj2 (Z.eqb_neq _ _) Np), (proj2 (Z.eqb_neq _ _) Nn), Lk in *. destruct Q as (_ & Q1 & Q2 & _ & Q4). split.
  - intros ->. change (0 =? 0) with true in *. cbv iota in *. destruct (Q1 eq_refl) as (A & _ & B). auto.
  - intros Nq. rewrite (proj2 (Z.eqb_neq _ _) Nq) in *. split; [exact R'|]. split; [auto|]. split; [intros b1 b2 x I1 I2; apply (K b1 b2 x I1); right; exact I2|]. intros N. apply (Q4 Nq N).
Qed.
(** The size reported for a block is the one last asked for, after any history. *)
Theorem C14_size c o s v b : config_ok c -> reach c s v -> In b v -> step c o s (Size (ptr b)) = Ok (s, Bytes (Some (len b)), []).
Proof.
  intros Cf R Ib. pose proof (reach_inv c Cf s v R) as I. cbn [step]. rewrite (size_step c (cfg_wf c Cf) s v (ptr b) I).
  rewrite (lookup_in v b (proj1 (blocks_ok c Cf s v R)) Ib). reflexivity.
Qed.
(** No call touches the contents of a block that stays. *)
Theorem C14_kept c o s v k s' a r : config_ok c -> reach c s v -> kernel_ok o s -> memory_ok o s -> call_ok k ->
  step c o s k = Ok (s', a, r) -> (forall q, a = Ptr q -> pre_us c q = None) -> kept v (view_step c v k a) s s'.
Proof. intros Cf R Ko Mo Co E G. apply (call_effect c Cf o s v k s' a r R Ko Mo Co E G). Qed.

(** ** C15 *)
Theorem C15_iterate c s v : config_ok c -> reach c s v ->
  exists l, alloc_iterate c s = Ok l /\ Permutation l (map fst v).
Proof. intros Cf R. exact (iter_step c (cfg_wf c Cf) s v (reach_inv c Cf s v R)). Qed.

(** ** C38 *)
(** The table of large blocks holds exactly the blocks of 12KB and more. *)
Theorem C38_large c s v : config_ok c -> reach c s v ->
  Permutation (large s) (map fst (filter (fun b => LARGE_MALLOC_MIN_SIZE <=? len b) v)).
Proof. intros Cf R. exact (large_step c s v (reach_inv c Cf s v R)). Qed.

(** ** Cases *)
Definition c1 := Cfg 32 true 2 1000 (fun p => if p =? 4096 then Some (24, 32) else None) (fun _ => 7).
Definition in_gb (g : Z) (k : call) := Call (g * 1073741824) (8 * 1048576) 1048576 k.
(** a history with moves, splits, a block of its own mapping and all sorts of bad calls *)
Definition h1 := [in_gb 1 (Malloc 100 0 false 1); in_gb 1 (Malloc 5000 0 false 2); in_gb 1 (Malloc 100 0 false 1); in_gb 1 (Malloc 200000 0 false 1);
  Store 65952 9; in_gb 2 (Realloc 65952 3000); in_gb 2 (Free 66096 1); in_gb 2 (Free 71136 1); in_gb 2 (Free 71136 1); in_gb 2 (Free 71272 2); in_gb 2 (Free 4096 1);
  in_gb 2 (Malloc 40 256 true 1); in_gb 2 (Size 65952); in_gb 2 (Size 71280); in_gb 2 (Malloc 4294967296 0 false 1); in_gb 2 (Malloc 10 24 false 1); in_gb 2 (Realloc 71280 3008);
  in_gb 2 (Realloc 4096 16)].
Example C11_case : exists x, history c1 65536 h1 = Some x /\ reach c1 (final x) (view x) /\ config_ok c1 /\
  answers x = [(Ptr 65952, []); (Ptr 66096, []); (Ptr 71136, []); (Ptr 1073741872, []);
    (Ptr 71280, []); (Done, [Mismatch 66096 2 1]); (Done, []); (Done, [Invalid 71136]); (Done, [Mismatch 71280 1 2; Invalid 71272]); (Done, []);
    (Ptr 66048, []); (Bytes None, [Invalid 65952]); (Bytes (Some 3000), []); (Ptr 0, []); (Ptr 0, []); (Ptr 71280, []); (Ptr 65952, [])] /\
  view x = [(65952, 16, 1); (71280, 3008, 1); (66048, 40, 1); (1073741872, 200000, 1)] /\
  quarantine (final x) = [(71136, 112)] /\
  alloc_iterate c1 (final x) = Ok [(1073741872, 200000); (65952, 16); (66048, 40); (71280, 3008)] /\
  large (final x) = [(1073741872, 200000)] /\
  map (mem (final x)) [71280; 71281; 66048; 66087; 66088] = [9; 170; 0; 0; 7].
Proof.
  destruct (seen (fun x => (answers x, view x, quarantine (final x), alloc_iterate c1 (final x), large (final x), map (mem (final x)) [71280; 71281; 66048; 66087; 66088])) (history c1 65536 h1)
   ([(Ptr 65952, []); (Ptr 66096, []); (Ptr 71136, []); (Ptr 1073741872, []);
    (Ptr 71280, []); (Done, [Mismatch 66096 2 1]); (Done, []); (Done, [Invalid 71136]); (Done, [Mismatch 71280 1 2; Invalid 71272]); (Done, []);
    (Ptr 66048, []); (Bytes None, [Invalid 65952]); (Bytes (Some 3000), []); (Ptr 0, []); (Ptr 0, []); (Ptr 71280, []); (Ptr 65952, [])],
   [(65952, 16, 1); (71280, 3008, 1); (66048, 40, 1); (1073741872, 200000, 1)], [(71136, 112)],
   Ok [(1073741872, 200000); (65952, 16); (66048, 40); (71280, 3008)], [(1073741872, 200000)], [9; 170; 0; 0; 7])) as (x & E & Q); [vm_compute; reflexivity|].
  exists x. split; [exact E|]. split; [exact (history_reach c1 65536 h1 x eq_refl eq_refl E)|].
  split; [unfold config_ok; cbn; repeat split; discriminate|]. do 5 (apply pair_equal_spec in Q as [Q ?]). repeat (split; [assumption|]). assumption.
Qed.

(** ** Where it fails *)
Definition c0 := Cfg 32 true 1000 1000000 (fun _ => None) (fun _ => 7).
Definition k0 := kern 4294967296 (8 * 4294967296) 4000000000.
Definition s0 := init c0 65536 (fun _ => 0).
Lemma s0_ok : reach c0 s0 [] /\ config_ok c0 /\ kernel_ok k0 s0 /\ memory_ok k0 s0.
Proof. split; [apply reach_init; reflexivity|]. split; [unfold config_ok; cbn; repeat split; discriminate|]. split; [apply kern_ok; reflexivity | left; reflexivity]. Qed.
(** A request just under 4GB gets a chunk of 16 bytes: rounding up gives 0 in 32 bits. *)
Theorem C11_near_4gb_refuted : exists s' p, reach c0 s0 [] /\ config_ok c0 /\ kernel_ok k0 s0 /\ memory_ok k0 s0 /\
  step c0 k0 s0 (Malloc 4294967285 0 false 1) = Ok (s', Ptr p, []) /\ p <> 0 /\ capacity s' p = 16.
Proof.
  destruct s0_ok as (A & B & D & E). destruct (looked (fun s => capacity s 65952) (step c0 k0 s0 (Malloc 4294967285 0 false 1)) 16 (Ptr 65952) []) as (s' & St & Q); [vm_compute; reflexivity|].
  exists s', 65952. split; [exact A|]. split; [exact B|]. split; [exact D|]. split; [exact E|]. split; [exact St|]. split; [discriminate | exact Q].
Qed.
(** A bit less, and the next block is given at the same address: the chunk's size plus
    the space between chunks gives 0. *)
Theorem C11_overlap_refuted : exists s1 s2 p, reach c0 s0 [] /\ config_ok c0 /\ kernel_ok k0 s0 /\ memory_ok k0 s0 /\
  step c0 k0 s0 (Malloc 4294967264 0 false 1) = Ok (s1, Ptr p, []) /\ step c0 k0 s1 (Malloc 100 0 false 1) = Ok (s2, Ptr p, []) /\ p <> 0.
Proof.
  destruct s0_ok as (A & B & D & E). 
  destruct (looked (fun s => look (fun _ => tt) (step c0 k0 s (Malloc 100 0 false 1))) (step c0 k0 s0 (Malloc 4294967264 0 false 1)) (Some (tt, Ptr 65952, [])) (Ptr 65952) []) as (s1 & St & Q); [vm_compute; reflexivity|].
  destruct (looked (fun _ => tt) _ _ _ _ Q) as (s2 & St2 & _). exists s1, s2, 65952. split; [exact A|]. split; [exact B|]. split; [exact D|]. split; [exact E|]. split; [exact St|]. split; [exact St2 | discriminate].
Qed.
(** An alignment of 4GB is lost in 32 bits: the block lies in no memory of the heap. *)
Theorem C11_alignment_refuted : exists s' p, reach c0 s0 [] /\ config_ok c0 /\ kernel_ok k0 s0 /\ memory_ok k0 s0 /\
  step c0 k0 s0 (Malloc 100 4294967296 false 1) = Ok (s', Ptr p, []) /\ forall r, In r (regions s') -> ~ (r_lo r <= p < r_hi r).
Proof.
  destruct s0_ok as (A & B & D & E). destruct (looked regions (step c0 k0 s0 (Malloc 100 4294967296 false 1)) [Region 65536 69632 false] (Ptr 4294967296) []) as (s' & St & Q); [vm_compute; reflexivity|].
  exists s', 4294967296. split; [exact A|]. split; [exact B|]. split; [exact D|]. split; [exact E|]. split; [exact St|]. rewrite Q. intros r [<-|[]]. cbn. lia.
Qed.
(** Pattern mode allows redzones of 8 bytes: a block with its own mapping may then lie over
    the redzone behind it. *)
Definition c8 := Cfg 8 false 1000 1000000 (fun _ => None) (fun _ => 7).
Theorem C11_pattern_redzone_refuted : exists s' p, kernel_ok k0 (init c8 65536 (fun _ => 0)) /\
  step c8 k0 (init c8 65536 (fun _ => 0)) (Malloc 135088 0 false 1) = Ok (s', Ptr p, []) /\
  exists r, In r (regions s') /\ r_lo r <= p /\ r_hi r < p + 135088 + 8.
Proof.
  destruct (looked regions (step c8 k0 (init c8 65536 (fun _ => 0)) (Malloc 135088 0 false 1)) [Region 4294967296 4295102464 true; Region 65536 69632 false] (Ptr 4294967376) []) as (s' & St & Q); [vm_compute; reflexivity|].
  exists s', 4294967376. split; [apply kern_ok; vm_compute; reflexivity|]. split; [exact St|]. rewrite Q. eexists. split; [left; reflexivity|]. cbn. lia.
Qed.
(** With redzones of more than a page the one behind the last block is not in memory. *)
Definition c8k := Cfg 8192 true 1000 1000000 (fun _ => None) (fun _ => 7).
Theorem C11_large_redzone_refuted : exists s' p r, config_ok c8k /\ reach c8k s' [(p, 100, 1)] /\ regions s' = [r] /\ r_hi r < p + 100 + redzone c8k.
Proof.
  destruct (seen (fun x => (view x, regions (final x))) (history c8k 65536 [in_gb 1 (Malloc 100 0 false 1)]) ([(74112, 100, 1)], [Region 65536 81920 false])) as (x & E & Q); [vm_compute; reflexivity|].
  pose proof (history_reach c8k 65536 _ x eq_refl eq_refl E) as R. injection Q as Q1 Q2. rewrite Q1 in R. exists (final x), 74112, (Region 65536 81920 false).
  split; [unfold config_ok; cbn; repeat split; discriminate|]. split; [exact R|]. split; [exact Q2|]. cbn. lia.
Qed.
(** Out of memory with a chunk of an earlier arena in quarantine: the walk over the arenas
    starts at the last one and ends in a NULL dereference. *)
Definition no_brk (g : Z) (k : call) := Call (g * 1073741824) (8 * 1048576) 65536 k.
Definition h3 := no_brk 1 (Malloc 2500 0 false 1) :: no_brk 1 (Free 65952 1) :: no_brk 1 (Malloc 100000 0 false 1) ::
  repeat (no_brk 2 (Malloc 100000 0 false 1)) 40 ++ [no_brk 2 (Malloc 92700 0 false 1)].
Definition stuck (x : shown) : bool := match step c0 (kern 4096 (-1) 0) (final x) (Malloc 2000 0 false 1) with UB => true | _ => false end.
Lemma h3_stuck : option_map (fun x => (kern_okb 4096 (-1) 0 (final x), stuck x)) (history c0 65536 h3) = Some (true, true).
Proof. vm_compute. reflexivity. Qed.
Theorem C11_oom_refuted : exists s v, config_ok c0 /\ reach c0 s v /\ kernel_ok (kern 4096 (-1) 0) s /\ call_ok (Malloc 2000 0 false 1) /\
  step c0 (kern 4096 (-1) 0) s (Malloc 2000 0 false 1) = UB.
Proof.
  destruct (seen _ _ _ h3_stuck) as (x & E & Q). apply pair_equal_spec in Q as [Q1 Q2]. exists (final x), (view x). split; [exact (proj1 (proj2 s0_ok))|].
  split; [exact (history_reach c0 65536 h3 x eq_refl eq_refl E)|]. split; [apply kern_ok; exact Q1|]. split; [apply call_okb_ok; reflexivity|].
  unfold stuck in Q2. destruct (step c0 (kern 4096 (-1) 0) (final x) (Malloc 2000 0 false 1)); [discriminate Q2 | reflexivity | discriminate Q2].
Qed.
(** A block from before the tool can be freed twice without a report. *)
Theorem C13_before_tool_refuted : exists s v p, config_ok c1 /\ reach c1 s v /\ kernel_ok k0 s /\
  step c1 k0 s (Free p 1) = Ok (s, Done, []) /\ ~ In p (map ptr v).
Proof.
  exists (init c1 65536 (fun _ => 0)), [], 4096. split; [unfold config_ok; cbn; repeat split; discriminate|]. split; [apply reach_init; reflexivity|]. split; [apply kern_ok; reflexivity|]. split; [reflexivity | intros []].
Qed.

Print Assumptions C11_no_crash. Print Assumptions C11_blocks. Print Assumptions C11_redzones. Print Assumptions C11_malloc.
Print Assumptions C12_free. Print Assumptions C12_malloc. Print Assumptions C12_realloc. Print Assumptions C12_limits. Print Assumptions C12_apart.
Print Assumptions C13_free. Print Assumptions C13_realloc. Print Assumptions C13_size. Print Assumptions C14_realloc. Print Assumptions C14_size. Print Assumptions C14_kept.
Print Assumptions C15_iterate. Print Assumptions C38_large.
Print Assumptions C11_near_4gb_refuted. Print Assumptions C11_overlap_refuted. Print Assumptions C11_alignment_refuted. Print Assumptions C11_pattern_redzone_refuted.
Print Assumptions C11_large_redzone_refuted. Print Assumptions C11_oom_refuted. Print Assumptions C13_before_tool_refuted.
