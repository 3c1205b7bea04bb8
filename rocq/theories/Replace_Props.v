(** C01-C04: the application routines that Dr. Memory replaces
    (drmemory/replace.c) against the C standard (Replace_Spec). *)
From Verif Require Import Base Mem Replace_Model Replace_Spec Replace_Proofs1 Replace_Proofs2 Replace_Proofs3.
Open Scope Z_scope.

(** * C01 *)
Theorem C01_memset : forall m dst val size, mapped m dst (Z.of_nat size) ->
  exists m', replace_memset m dst val size = Ok (m', dst) /\ filled m m' dst (val mod 256) (Z.of_nat size).
Proof. exact memset_ok. Qed.
Print Assumptions C01_memset.

Theorem C01_bzero : forall m dst size, mapped m dst (Z.of_nat size) ->
  exists m', replace_bzero m dst size = Ok m' /\ filled m m' dst 0 (Z.of_nat size).
Proof. exact bzero_ok. Qed.
Print Assumptions C01_bzero.

Theorem C01_memcpy : forall m dst src size, mem_ok m ->
  (dst <= src \/ src + Z.of_nat size <= dst) ->
  mapped m src (Z.of_nat size) -> mapped m dst (Z.of_nat size) ->
  exists m', replace_memcpy m dst src size = Ok (m', dst) /\ copied m m' dst src (Z.of_nat size).
Proof. exact memcpy_ok. Qed.
Print Assumptions C01_memcpy.

Theorem C01_memmove : forall m dst src size, mem_ok m ->
  0 <= dst -> 0 <= src -> dst + Z.of_nat size <= 2 ^ 64 -> src + Z.of_nat size <= 2 ^ 64 ->
  mapped m src (Z.of_nat size) -> mapped m dst (Z.of_nat size) ->
  exists m', replace_memmove m dst src size = Ok (m', dst) /\ copied m m' dst src (Z.of_nat size).
Proof. exact memmove_ok. Qed.
Print Assumptions C01_memmove.

Theorem C01_wmemcpy : forall m dst src count, mem_ok m -> 4 * Z.of_nat count < 2 ^ 64 ->
  (dst <= src \/ src + 4 * Z.of_nat count <= dst) ->
  mapped m src (4 * Z.of_nat count) -> mapped m dst (4 * Z.of_nat count) ->
  exists m', replace_wmemcpy m dst src count = Ok (m', dst) /\ copied m m' dst src (4 * Z.of_nat count).
Proof. exact wmemcpy_ok. Qed.
Print Assumptions C01_wmemcpy.

Theorem C01_wmemset : forall m dst val count, mapped m dst (4 * Z.of_nat count) ->
  exists m', replace_wmemset m dst val count = Ok (m', dst) /\
    (forall x, m' x = if (dst <=? x) && (x <? dst + 4 * Z.of_nat count)
                      then Some ((val / 256 ^ ((x - dst) mod 4)) mod 256) else m x).
Proof. exact wmemset_ok. Qed.
Print Assumptions C01_wmemset.

(** overlapping move by 3 within an unaligned buffer: the bytes that a forward
    copy would clobber arrive intact *)
Example C01_ex_memmove :
  match replace_memmove (mem_of 4097 [1;2;3;4;5;6;7;8;9;10;11;12;13;14]) 4100 4097 11 with
  | Ok (m', r) => r = 4100 /\
      map m' [4096;4097;4098;4099;4100;4101;4102;4103;4104;4105;4106;4107;4108;4109;4110;4111] =
      [None;Some 1;Some 2;Some 3;Some 1;Some 2;Some 3;Some 4;Some 5;Some 6;Some 7;Some 8;Some 9;Some 10;Some 11;None]
  | _ => False
  end.
Proof. vm_compute. auto. Qed.
Example C01_ex_memset :
  match replace_memset (mem_of 4097 (repeat 9 12)) 4098 (-1) 10 with
  | Ok (m', r) => map m' [4096;4097;4098;4103;4107;4108;4109] =
      [None;Some 9;Some 255;Some 255;Some 255;Some 9;None]
  | _ => False
  end.
Proof. vm_compute. auto. Qed.

(** * C02 *)
Theorem C02_memchr : forall m a find l size, elems_at 1 m a l ->
  (length l = size \/ (length l <= size)%nat /\ In (find mod 256) l) ->
  exists r, replace_memchr m a find size = Ok r /\ find_first 1 a (find mod 256) l r.
Proof. intros. apply memchr_ok; auto. Qed.
Print Assumptions C02_memchr.

Theorem C02_wmemchr : forall m a c l size, elems_at 4 m a l ->
  (length l = size \/ (length l <= size)%nat /\ In c l) ->
  exists r, replace_wmemchr m a c size = Ok r /\ find_first 4 a c l r.
Proof. intros. apply memchr_ok; auto. Qed.
Print Assumptions C02_wmemchr.

Theorem C02_memrchr : forall m a find l, elems_at 1 m a l ->
  exists r, replace_memrchr m a find (length l) = Ok r /\ find_last 1 a (find mod 256) l r.
Proof. intros. apply memrchr_ok; auto. Qed.
Print Assumptions C02_memrchr.

Theorem C02_rawmemchr : forall m a find l fuel, elems_at 1 m a l -> In (find mod 256) l -> (length l <= fuel)%nat ->
  exists p, replace_rawmemchr fuel m a find = Ok p /\ find_first 1 a (find mod 256) l (Some p).
Proof. intros. apply rawmemchr_ok; auto. Qed.
Print Assumptions C02_rawmemchr.

(** the terminator is part of the string: strchr(s, 0) finds it *)
Theorem C02_strchr : forall w m a find s fuel, is_str w m a s -> (length s < fuel)%nat ->
  exists r, replace_strchr w fuel m a find = Ok r /\
    find_first w a (find mod 2 ^ (8 * Z.of_nat w)) (s ++ [0]) r.
Proof. intros. apply strchr_ok; auto. Qed.
Print Assumptions C02_strchr.

Theorem C02_strrchr : forall w m a find s fuel, is_str w m a s -> (length s < fuel)%nat ->
  exists r, replace_strrchr w fuel m a find = Ok r /\
    find_last w a (find mod 2 ^ (8 * Z.of_nat w)) (s ++ [0]) r.
Proof. intros. apply strrchr_ok; auto. Qed.
Print Assumptions C02_strrchr.

Theorem C02_strchrnul : forall m a find s fuel, is_str 1 m a s -> (length s < fuel)%nat ->
  exists p, replace_strchrnul fuel m a find = Ok p /\
    ((In (find mod 256) s /\ find_first 1 a (find mod 256) s (Some p)) \/
     (~ In (find mod 256) s /\ p = a + Z.of_nat (length s))).
Proof. intros. apply strchrnul_ok; auto. Qed.
Print Assumptions C02_strchrnul.

Theorem C02_strlen : forall w m a s fuel, (0 < w)%nat -> is_str w m a s -> (length s < fuel)%nat ->
  replace_strlen w fuel m a = Ok (Z.of_nat (length s)).
Proof. intros. apply strlen_ok; auto. Qed.
Print Assumptions C02_strlen.

Theorem C02_strnlen : forall w m a l n, (0 < w)%nat -> is_bounded w m a n l ->
  replace_strnlen w m a n = Ok (Z.of_nat (length (until0 l))).
Proof. intros. apply strnlen_ok; auto. Qed.
Print Assumptions C02_strnlen.

(** strcmp/wcscmp; the order is the unsigned one *)
Theorem C02_strcmp : forall w m a1 a2 s1 s2 fuel,
  is_str w m a1 s1 -> is_str w m a2 s2 -> (forall c, In c (s1 ++ s2) -> 0 <= c) ->
  (length s1 < fuel \/ length s2 < fuel)%nat ->
  exists r, strcmp_loop w (fun c => c) fuel m a1 a2 = Ok r /\ cmp_result (s1 ++ [0]) (s2 ++ [0]) r.
Proof. intros w m a1 a2 s1 s2 fuel H1 H2 P L. destruct (strcmp_ok w _ m id_fold_str s1 s2 a1 a2 fuel H1 H2 P L) as (r&E&C). rewrite !map_id in C. eauto. Qed.
Print Assumptions C02_strcmp.

Theorem C02_strncmp : forall w m a1 a2 l1 l2 n,
  is_bounded w m a1 n l1 -> is_bounded w m a2 n l2 -> (forall c, In c (l1 ++ l2) -> 0 <= c) ->
  exists r, strncmp_loop w (fun c => c) m a1 a2 n = Ok r /\ cmp_result l1 l2 r.
Proof. intros w m a1 a2 l1 l2 n H1 H2 P. destruct (strncmp_ok w _ m id_fold_str n l1 l2 a1 a2 H1 H2 P) as (r&E&C). rewrite !map_id in C. eauto. Qed.
Print Assumptions C02_strncmp.

(** the C locale's lower-casing, as a specification *)
Definition lower (c : Z) : Z := if (65 <=? c) && (c <=? 90) then c + 32 else c.
Lemma tolower_eq c : replace_tolower_ascii c = lower c.
Proof. unfold replace_tolower_ascii, lower. destruct ((65 <=? c) && (c <=? 90)); lia. Qed.

Theorem C02_strcasecmp : forall m a1 a2 s1 s2 fuel,
  is_str 1 m a1 s1 -> is_str 1 m a2 s2 -> (forall c, In c (s1 ++ s2) -> 0 <= c) ->
  (length s1 < fuel \/ length s2 < fuel)%nat ->
  exists r, strcmp_loop 1 replace_tolower_ascii fuel m a1 a2 = Ok r /\
    cmp_result (map lower (s1 ++ [0])) (map lower (s2 ++ [0])) r.
Proof. intros m a1 a2 s1 s2 fuel H1 H2 P L. rewrite <- !(map_ext _ _ tolower_eq). exact (strcmp_ok 1 _ m tolower_fold_str s1 s2 a1 a2 fuel H1 H2 P L). Qed.
Print Assumptions C02_strcasecmp.

Theorem C02_strncasecmp : forall m a1 a2 l1 l2 n,
  is_bounded 1 m a1 n l1 -> is_bounded 1 m a2 n l2 -> (forall c, In c (l1 ++ l2) -> 0 <= c) ->
  exists r, strncmp_loop 1 replace_tolower_ascii m a1 a2 n = Ok r /\
    cmp_result (map lower l1) (map lower l2) r.
Proof. intros m a1 a2 l1 l2 n H1 H2 P. rewrite <- !(map_ext _ _ tolower_eq). exact (strncmp_ok 1 _ m tolower_fold_str n l1 l2 a1 a2 H1 H2 P). Qed.
Print Assumptions C02_strncasecmp.

Theorem C02_memcmp : forall m a1 a2 l1 l2, length l1 = length l2 -> elems_at 1 m a1 l1 -> elems_at 1 m a2 l2 ->
  exists r, memcmp_loop m a1 a2 (length l1) = Ok r /\ cmp_result l1 l2 r.
Proof. intros. apply memcmp_ok; auto. Qed.
Print Assumptions C02_memcmp.

Theorem C02_wmemcmp_guarded : forall m a1 a2 l1 l2, length l1 = length l2 -> elems_at 4 m a1 l1 -> elems_at 4 m a2 l2 ->
  (forall c, In c (l1 ++ l2) -> 0 <= c < 2 ^ 31) ->
  exists r, wmemcmp_loop m a1 a2 (length l1) = Ok r /\ cmp_result l1 l2 r.
Proof. intros. apply wmemcmp_ok; auto. Qed.
Print Assumptions C02_wmemcmp_guarded.

(** wchar_t values with the top bit set: the signed subtraction overflows *)
Theorem C02_wmemcmp_refuted : exists m a1 a2 l1 l2, length l1 = length l2 /\ elems_at 4 m a1 l1 /\ elems_at 4 m a2 l2 /\
  (forall c, In c (l1 ++ l2) -> 0 <= c < 2 ^ 32) /\ wmemcmp_loop m a1 a2 (length l1) = UB.
Proof. exists (mem_of 4096 [1;0;0;128; 255;255;255;127]), 4096, 4100, [2147483649], [2147483647]. split; [reflexivity|]. split; [cbn; auto|]. split; [cbn; auto|]. split; [|vm_compute; reflexivity]. intros c [<-|[<-|[]]]; lia. Qed.
Print Assumptions C02_wmemcmp_refuted.

(** strspn/strcspn: exact as long as no byte is 0xff; with one, the 255-entry
    table is indexed out of bounds *)
Theorem C02_strspn_guarded : forall m str set s l fuel, is_str 1 m str s -> is_str 1 m set l ->
  (forall c, In c (s ++ l) -> 0 <= c < 255) -> (length s < fuel)%nat -> (length l < fuel)%nat ->
  exists n, replace_strspn fuel m str set = Ok (Z.of_nat n) /\ span_len (fun c => In c l) s n.
Proof. exact (span_ok true). Qed.
Print Assumptions C02_strspn_guarded.

Theorem C02_strcspn_guarded : forall m str set s l fuel, is_str 1 m str s -> is_str 1 m set l ->
  (forall c, In c (s ++ l) -> 0 <= c < 255) -> (length s < fuel)%nat -> (length l < fuel)%nat ->
  exists n, replace_strcspn fuel m str set = Ok (Z.of_nat n) /\ span_len (fun c => ~ In c l) s n.
Proof. exact (span_ok false). Qed.
Print Assumptions C02_strcspn_guarded.

Theorem C02_strspn_refuted : exists m str set1 set2 s l1 l2,
  is_str 1 m str s /\ is_str 1 m set1 l1 /\ is_str 1 m set2 l2 /\
  (forall fuel, (3 <= fuel)%nat -> replace_strspn fuel m str set1 = UB /\ replace_strcspn fuel m str set2 = UB).
Proof. exists (mem_of 4096 [97;255;0; 97;0; 98;0]), 4096, 4099, 4101, [97;255], [97], [98].
  split. { split; [|cbn; auto]. cbn. intros [X|[X|[]]]; discriminate. }
  split. { split; [|cbn; auto]. cbn. intros [X|[]]; discriminate. }
  split. { split; [|cbn; auto]. cbn. intros [X|[]]; discriminate. }
  intros [|[|[|f]]] L; try lia. split; reflexivity. Qed.
Print Assumptions C02_strspn_refuted.

Theorem C02_strstr : forall w m hay needle h nd fuel, (0 < w)%nat -> is_str w m hay h -> is_str w m needle nd ->
  ((length h + 1) * (length nd + 1) <= fuel)%nat ->
  exists r, replace_strstr w fuel m hay needle = Ok r /\ find_sub w hay h nd r.
Proof. intros. apply strstr_ok; auto. Qed.
Print Assumptions C02_strstr.

Example C02_ex_strstr : (* "aab" in "aaab": backtracking *)
  replace_strstr 1 100 (mem_of 4096 [97;97;97;98;0; 97;97;98;0]) 4096 4101 = Ok (Some 4097).
Proof. reflexivity. Qed.
Example C02_ex_strcmp : (* 0x80 sorts above 'a' *)
  strcmp_loop 1 (fun c => c) 10 (mem_of 4096 [97;128;0; 97;97;0]) 4096 4099 = Ok 1.
Proof. reflexivity. Qed.
Example C02_ex_strncasecmp : (* "aBc" and "Abd" agree on 2 characters *)
  strncmp_loop 1 replace_tolower_ascii (mem_of 4096 [97;66;99;0; 65;98;100;0]) 4096 4100 2 = Ok 0.
Proof. reflexivity. Qed.
Example C02_ex_strspn :
  replace_strspn 20 (mem_of 4096 [97;98;97;99;97;0; 98;97;0]) 4096 4102 = Ok 3.
Proof. reflexivity. Qed.

(** * C03: only the entitled bytes are touched.  [only] unmaps everything else. *)
Theorem C03_unary : forall w m a s find fuel, (0 < w)%nat -> is_str w m a s -> (length s < fuel)%nat ->
  let m1 := only m [(a, Z.of_nat w * (Z.of_nat (length s) + 1))] in
  (exists r, replace_strlen w fuel m1 a = Ok r) /\
  (exists r, replace_strchr w fuel m1 a find = Ok r) /\
  (exists r, replace_strrchr w fuel m1 a find = Ok r) /\
  (w = 1%nat -> exists r, replace_strchrnul fuel m1 a find = Ok r).
Proof. intros w m a s find fuel W H L m1.
  assert (H1 : is_str w m1 a s) by (apply only_str; [left|]; auto).
  split; [eexists; apply strlen_ok; eauto|].
  split; [destruct (C02_strchr w m1 a find s fuel H1 L) as (r&E&_); eauto|].
  split; [destruct (C02_strrchr w m1 a find s fuel H1 L) as (r&E&_); eauto|].
  intros ->. destruct (C02_strchrnul m1 a find s fuel H1 L) as (r&E&_); eauto. Qed.
Print Assumptions C03_unary.

Theorem C03_bounded : forall w m a l n, (0 < w)%nat -> is_bounded w m a n l ->
  exists r, replace_strnlen w (only m [(a, Z.of_nat w * Z.of_nat (length l))]) a n = Ok r.
Proof. intros w m a l n W H. eexists. apply strnlen_ok; auto. apply only_bounded; [left|]; auto. Qed.
Print Assumptions C03_bounded.

(** memchr may stop at the match: bytes behind it need not be readable *)
Theorem C03_memchr : forall m a l rest find, In (find mod 256) l -> elems_at 1 m a l ->
  exists r, replace_memchr (only m [(a, Z.of_nat (length l))]) a find (length l + rest) = Ok r.
Proof. intros m a l rest find I E.
  destruct (C02_memchr (only m [(a, Z.of_nat (length l))]) a find l (length l + rest)) as (r&X&_); eauto.
  - eapply only_elems; eauto. left; reflexivity. lia.
  - right. split; auto. lia. Qed.
Print Assumptions C03_memchr.

Theorem C03_compare : forall w m a1 a2 s1 s2 fuel,
  is_str w m a1 s1 -> is_str w m a2 s2 -> (forall c, In c (s1 ++ s2) -> 0 <= c) ->
  (length s1 < fuel \/ length s2 < fuel)%nat ->
  exists r, strcmp_loop w (fun c => c) fuel
    (only m [(a1, Z.of_nat w * (Z.of_nat (length s1) + 1)); (a2, Z.of_nat w * (Z.of_nat (length s2) + 1))]) a1 a2 = Ok r.
Proof.
  intros w m a1 a2 s1 s2 fuel H1 H2 P L.
  match goal with |- exists r, strcmp_loop _ _ _ ?x _ _ = _ => set (m1 := x) end.
  destruct (C02_strcmp w m1 a1 a2 s1 s2 fuel) as (r&E&_); eauto.
  - apply only_str; [left; reflexivity|exact H1].
  - apply only_str; [right; left; reflexivity|exact H2].
Qed.
Print Assumptions C03_compare.

Theorem C03_compare_bounded : forall w m a1 a2 l1 l2 n,
  is_bounded w m a1 n l1 -> is_bounded w m a2 n l2 -> (forall c, In c (l1 ++ l2) -> 0 <= c) ->
  exists r, strncmp_loop w (fun c => c)
    (only m [(a1, Z.of_nat w * Z.of_nat (length l1)); (a2, Z.of_nat w * Z.of_nat (length l2))]) a1 a2 n = Ok r.
Proof.
  intros w m a1 a2 l1 l2 n H1 H2 P.
  match goal with |- exists r, strncmp_loop _ _ ?x _ _ _ = _ => set (m1 := x) end.
  destruct (C02_strncmp w m1 a1 a2 l1 l2 n) as (r&E&_); eauto.
  - apply only_bounded; [left; reflexivity|exact H1].
  - apply only_bounded; [right; left; reflexivity|exact H2].
Qed.
Print Assumptions C03_compare_bounded.

Theorem C03_memcmp : forall m a1 a2 l1 l2, length l1 = length l2 -> elems_at 1 m a1 l1 -> elems_at 1 m a2 l2 ->
  exists r, memcmp_loop (only m [(a1, Z.of_nat (length l1)); (a2, Z.of_nat (length l2))]) a1 a2 (length l1) = Ok r.
Proof.
  intros m a1 a2 l1 l2 L H1 H2.
  match goal with |- exists r, memcmp_loop ?x _ _ _ = _ => set (m1 := x) end.
  destruct (C02_memcmp m1 a1 a2 l1 l2 L) as (r&E&_); eauto.
  - eapply only_elems; [left; reflexivity| |exact H1]; lia.
  - eapply only_elems; [right; left; reflexivity| |exact H2]; lia.
Qed.
Print Assumptions C03_memcmp.

Theorem C03_strstr : forall w m hay needle h nd fuel, (0 < w)%nat -> is_str w m hay h -> is_str w m needle nd ->
  ((length h + 1) * (length nd + 1) <= fuel)%nat ->
  exists r, replace_strstr w fuel
    (only m [(hay, Z.of_nat w * (Z.of_nat (length h) + 1)); (needle, Z.of_nat w * (Z.of_nat (length nd) + 1))]) hay needle = Ok r.
Proof.
  intros w m hay needle h nd fuel W H1 H2 L.
  match goal with |- exists r, replace_strstr _ _ ?x _ _ = _ => set (m1 := x) end.
  destruct (strstr_ok w m1 hay needle h nd fuel W) as (r&E&_); eauto.
  - apply only_str; [left; reflexivity|exact H1].
  - apply only_str; [right; left; reflexivity|exact H2].
Qed.
Print Assumptions C03_strstr.

Theorem C03_movers : forall m dst src size val, mem_ok m ->
  0 <= dst -> 0 <= src -> dst + Z.of_nat size <= 2 ^ 64 -> src + Z.of_nat size <= 2 ^ 64 ->
  mapped m src (Z.of_nat size) -> mapped m dst (Z.of_nat size) ->
  (exists r, replace_memmove (only m [(dst, Z.of_nat size); (src, Z.of_nat size)]) dst src size = Ok r) /\
  (disjoint dst (Z.of_nat size) src (Z.of_nat size) ->
   exists r, replace_memcpy (only m [(dst, Z.of_nat size); (src, Z.of_nat size)]) dst src size = Ok r) /\
  (exists r, replace_memset (only m [(dst, Z.of_nat size)]) dst val size = Ok r).
Proof. intros m dst src size val MO D0 S0 D1 S1 Ms Md.
  assert (M1 : mapped (only m [(dst, Z.of_nat size); (src, Z.of_nat size)]) dst (Z.of_nat size)) by (apply only_mapped; [left|]; auto).
  assert (M2 : mapped (only m [(dst, Z.of_nat size); (src, Z.of_nat size)]) src (Z.of_nat size)) by (apply only_mapped; [right; left|]; auto).
  assert (M3 : mapped (only m [(dst, Z.of_nat size)]) dst (Z.of_nat size)) by (apply only_mapped; [left|]; auto).
  pose proof (only_ok m [(dst, Z.of_nat size); (src, Z.of_nat size)] MO) as O1.
  split; [destruct (C01_memmove _ dst src size O1 D0 S0 D1 S1 M2 M1) as (r&E&_); rewrite E; eauto|].
  split; [intros D; destruct (C01_memcpy _ dst src size O1) as (r&E&_); [unfold disjoint in D; lia|assumption..|]; rewrite E; eauto|].
  destruct (C01_memset _ dst val size M3) as (r&E&_); rewrite E; eauto. Qed.
Print Assumptions C03_movers.

Theorem C03_strcpy : forall w m dst src s fuel, mem_ok m -> is_str w m src s ->
  let n := Z.of_nat w * (Z.of_nat (length s) + 1) in
  disjoint dst n src n -> mapped m dst n -> (length s < fuel)%nat ->
  exists r, replace_strcpy w fuel (only m [(src, n); (dst, n)]) dst src = Ok r.
Proof.
  intros w m dst src s fuel MO H n D Md L. unfold replace_strcpy.
  destruct (strcpy_loop_ok w (only m [(src, n); (dst, n)]) dst src s fuel) as (m'&E&_); auto.
  - apply only_ok; auto.
  - apply only_str; [left; reflexivity|exact H].
  - apply only_mapped; [right; left|]; auto.
  - rewrite E. cbn. eauto.
Qed.
Print Assumptions C03_strcpy.

Theorem C03_strncpy : forall m dst src n l, mem_ok m -> is_bounded 1 m src n l ->
  disjoint dst (Z.of_nat n) src (Z.of_nat (length l)) -> mapped m dst (Z.of_nat n) ->
  exists r, replace_strncpy (only m [(src, Z.of_nat (length l)); (dst, Z.of_nat n)]) dst src n = Ok r.
Proof.
  intros m dst src n l MO H D Md.
  destruct (strncpy_ok (only m [(src, Z.of_nat (length l)); (dst, Z.of_nat n)]) dst src n l) as (m'&E&_); auto.
  - apply only_ok; auto.
  - apply only_bounded; [|exact H]. left. f_equal. lia.
  - apply only_mapped; [right; left|]; auto.
  - eauto.
Qed.
Print Assumptions C03_strncpy.

(** an over-read of one byte would be seen: "ab" ends exactly at the end of the
    accessible memory *)
Example C03_ex : replace_strlen 1 10 (mem_of 4096 [97;98;0]) 4096 = Ok 2 /\
  replace_strlen 1 10 (mem_of 4096 [97;98]) 4096 = UB.
Proof. split; reflexivity. Qed.

(** * C04 *)
Theorem C04_strcpy : forall w m dst src s fuel, mem_ok m -> is_str w m src s ->
  let n := Z.of_nat w * (Z.of_nat (length s) + 1) in
  disjoint dst n src n -> mapped m dst n -> (length s < fuel)%nat ->
  exists m', replace_strcpy w fuel m dst src = Ok (m', dst) /\
    copied m m' dst src n /\ is_str w m' dst s.
Proof. intros w m dst src s fuel MO H n D Md L. unfold replace_strcpy.
  destruct (strcpy_loop_ok w m dst src s fuel MO H D Md L) as (m'&E&C). rewrite E. cbn. exists m'.
  split; auto. split; auto. eapply copied_str; eauto. Qed.
Print Assumptions C04_strcpy.

Theorem C04_stpcpy : forall m dst src s fuel, mem_ok m -> is_str 1 m src s ->
  let n := Z.of_nat (length s) + 1 in
  disjoint dst n src n -> mapped m dst n -> (length s < fuel)%nat ->
  exists m', replace_stpcpy fuel m dst src = Ok (m', dst + Z.of_nat (length s)) /\
    wrote m m' dst (s ++ [0]) /\ is_str 1 m' dst s.
Proof. intros m dst src s fuel MO H n D Md L. unfold replace_stpcpy.
  assert (EN : Z.of_nat 1 * (Z.of_nat (length s) + 1) = n) by (unfold n; lia).
  destruct (strcpy_loop_ok 1 m dst src s fuel MO H) as (m'&E&C); rewrite ?EN in *; auto.
  exists m'. replace (Z.of_nat 1 * Z.of_nat (length s)) with (Z.of_nat (length s)) in E by lia.
  split; auto. split; [|eapply copied_str; eauto; rewrite EN; auto].
  eapply copied_wrote. apply H. rewrite app_length. cbn [length].
  replace (Z.of_nat (length s + 1)) with n by (unfold n; lia). auto. Qed.
Print Assumptions C04_stpcpy.

Theorem C04_strncpy : forall m dst src n l, mem_ok m -> is_bounded 1 m src n l ->
  disjoint dst (Z.of_nat n) src (Z.of_nat (length l)) -> mapped m dst (Z.of_nat n) ->
  exists m', replace_strncpy m dst src n = Ok (m', dst) /\
    wrote m m' dst (until0 l ++ repeat 0 (n - length (until0 l))).
Proof. exact strncpy_ok. Qed.
Print Assumptions C04_strncpy.

Theorem C04_strcat : forall m dst src s1 s2 fuel, mem_ok m -> is_str 1 m dst s1 -> is_str 1 m src s2 ->
  disjoint (dst + Z.of_nat (length s1)) (Z.of_nat (length s2) + 1) src (Z.of_nat (length s2) + 1) ->
  mapped m (dst + Z.of_nat (length s1)) (Z.of_nat (length s2) + 1) ->
  (length s1 < fuel)%nat -> (length s2 < fuel)%nat ->
  exists m', replace_strcat fuel m dst src = Ok (m', dst) /\
    wrote m m' (dst + Z.of_nat (length s1)) (s2 ++ [0]) /\ is_str 1 m' dst (s1 ++ s2).
Proof. exact strcat_ok. Qed.
Print Assumptions C04_strcat.

Theorem C04_strncat : forall m dst src s1 l n fuel, mem_ok m -> is_str 1 m dst s1 -> is_bounded 1 m src n l ->
  let k := Z.of_nat (length (until0 l)) in
  disjoint (dst + Z.of_nat (length s1)) (k + 1) src (Z.of_nat (length l)) ->
  mapped m (dst + Z.of_nat (length s1)) (k + 1) ->
  (length s1 < fuel)%nat ->
  exists m', replace_strncat fuel m dst src n = Ok (m', dst) /\
    wrote m m' (dst + Z.of_nat (length s1)) (until0 l ++ [0]) /\ is_str 1 m' dst (s1 ++ until0 l).
Proof. exact strncat_ok. Qed.
Print Assumptions C04_strncat.

(** strncpy of "ab" with n = 2 (no terminator), 3 and 4 (padding) *)
Example C04_ex_strncpy :
  map (fun n => match replace_strncpy (mem_of 4096 [97;98;0; 9;9;9;9;9]) 4099 4096 n with
                | Ok (m', _) => map m' [4099;4100;4101;4102;4103] | _ => [] end) [2%nat;3%nat;4%nat] =
  [[Some 97;Some 98;Some 9;Some 9;Some 9]; [Some 97;Some 98;Some 0;Some 9;Some 9]; [Some 97;Some 98;Some 0;Some 0;Some 9]].
Proof. reflexivity. Qed.
Example C04_ex_strncat :
  match replace_strncat 10 (mem_of 4096 [97;98;99;0; 120;0;9;9;9]) 4100 4096 2 with
  | Ok (m', r) => r = 4100 /\ map m' [4100;4101;4102;4103;4104] = [Some 120;Some 97;Some 98;Some 0;Some 9]
  | _ => False end.
Proof. vm_compute. auto. Qed.
