(** C67: what the user's options are taken to be. *)
From Coq Require Import String Ascii.
From Verif Require Import Base Opt_Model Opt_Spec Opt_Proofs Opt_Proofs2.
Open Scope Z_scope.

(** A line is split into its words, with or without quotes and with any white
    space between them. *)
Theorem C67_words : forall maxlen l tail fuel, line_ok l -> apart l -> blank tail ->
  not_empty_last l tail ->
  (forall sp i, In (sp, i) l -> (List.length (word i) < maxlen)%nat) ->
  (List.length l < fuel)%nat ->
  read_words maxlen fuel (text l ++ tail) = Ok (map (fun x => word (snd x)) l).
Proof. intros maxlen l tail fuel. exact (words_ok maxlen l tail fuel). Qed.
Print Assumptions C67_words.

(** Each option has the value of its last setting or else its default; one
    that can be repeated has all its settings in order; and exactly the
    options that were set are marked as specified. *)
Theorem C67_options : forall maxlen fold hex dec (numeral : list Z -> Z -> Prop),
  (forall w v, numeral w v -> hex w = Some v \/ hex w = None /\ dec w = Some v) ->
  forall os, distinct fold os -> forall def l tail ss st,
  line_ok l -> apart l -> blank tail -> not_empty_last l tail ->
  map (fun x => word (snd x)) l = concat (map words_of ss) ->
  (forall s, In s ss -> valid numeral os s) ->
  (List.length (text l ++ tail) < maxlen)%nat -> start_ok maxlen os def st ->
  exists st', options_init maxlen fold hex dec (map ent os) (text l ++ tail) st = Ok (Some st') /\
  forall k o, nth_error os k = Some o ->
    (exists m, means numeral k o ss (def k) m /\ rep maxlen m (vals st' k)) /\
    specified st' k = specified st k || existsb (fun s => Nat.eqb (key s) k) ss.
Proof. exact options_ok. Qed.
Print Assumptions C67_options.

(** A word that no option answers to is refused, whatever comes after it. *)
Theorem C67_unknown : forall maxlen fold hex dec (numeral : list Z -> Z -> Prop),
  (forall w v, numeral w v -> hex w = Some v \/ hex w = None /\ dec w = Some v) ->
  forall os, distinct fold os -> forall def l sp i rest ss st,
  line_ok l -> apart l ->
  map (fun x => word (snd x)) l = concat (map words_of ss) ->
  (forall s, In s ss -> valid numeral os s) ->
  (List.length (text l ++ sp ++ show i ++ rest) < maxlen)%nat -> start_ok maxlen os def st ->
  blank sp -> sp <> [] -> good i -> starts_blank rest ->
  (List.length (word i) < maxlen)%nat -> word i <> [] ->
  ~ In (fold 34) (map fold (word i)) ->
  (forall o w, In o os -> In w (all_words o) -> map fold (word i) <> map fold w) ->
  options_init maxlen fold hex dec (map ent os) (text l ++ sp ++ show i ++ rest) st = Ok None.
Proof.
  intros maxlen fold hex dec numeral Hn os D def l sp i rest ss st Hl Ha Hw Hv Hm Hs B Sn G R L W Q U.
  refine (refused maxlen fold hex dec numeral Hn os D def l _ ss st Hl Ha _ _ Hw Hv Hm Hs _).
  - destruct sp as [|c sp]; [congruence|]. apply B. left; auto.
  - intros l' s' i' _ _ X. destruct sp; [congruence|discriminate].
  - exact (unknown_step maxlen fold hex dec os sp i rest B G R L W Q U).
Qed.
Print Assumptions C67_unknown.

(** So is a number that cannot be read, is out of range, or has a sign where
    none is allowed. *)
Theorem C67_number : forall maxlen fold hex dec (numeral : list Z -> Z -> Prop),
  (forall w v, numeral w v -> hex w = Some v \/ hex w = None /\ dec w = Some v) ->
  forall os, distinct fold os -> forall def l sp i sp2 i2 rest ss st k o n neg mn mx,
  line_ok l -> apart l ->
  map (fun x => word (snd x)) l = concat (map words_of ss) ->
  (forall s, In s ss -> valid numeral os s) ->
  (List.length (text l ++ sp ++ show i ++ sp2 ++ show i2 ++ rest) < maxlen)%nat ->
  start_ok maxlen os def st ->
  blank sp -> sp <> [] -> good i -> blank sp2 -> sp2 <> [] -> good i2 -> starts_blank rest ->
  (List.length (word i) < maxlen)%nat -> (List.length (word i2) < maxlen)%nat ->
  nth_error os k = Some o -> o_kind o = KNum neg mn mx -> In n (names o) -> word i = on_ n ->
  (forall v, hex (word i2) = Some v \/ hex (word i2) = None /\ dec (word i2) = Some v ->
    ~ (mn <= v <= mx)) \/ (neg = false /\ exists r, word i2 = DASH :: r) ->
  options_init maxlen fold hex dec (map ent os) (text l ++ sp ++ show i ++ sp2 ++ show i2 ++ rest) st =
    Ok None.
Proof.
  intros maxlen fold hex dec numeral Hn os D def l sp i sp2 i2 rest ss st k o n neg mn mx
    Hl Ha Hw Hv Hm Hs B Sn G B2 Sn2 G2 R L L2 No K Nn W Bad.
  refine (refused maxlen fold hex dec numeral Hn os D def l _ ss st Hl Ha _ _ Hw Hv Hm Hs _).
  - destruct sp as [|c sp]; [congruence|]. apply B. left; auto.
  - intros l' s' i' _ _ X. destruct sp; [congruence|discriminate].
  - exact (number_step maxlen fold hex dec numeral Hn os D def sp i sp2 i2 rest k o n neg mn mx
      B G B2 Sn2 G2 R L L2 No K Nn W Bad).
Qed.
Print Assumptions C67_number.

(** An empty value in quotes is refused if it is the very last thing, though
    it is accepted anywhere else by [C67_options]. *)
Theorem C67_empty_refuted : forall maxlen fold hex dec (numeral : list Z -> Z -> Prop),
  (forall w v, numeral w v -> hex w = Some v \/ hex w = None /\ dec w = Some v) ->
  forall os, distinct fold os -> forall def l sp i sp2 i2 ss st k o n,
  line_ok l -> apart l ->
  map (fun x => word (snd x)) l = concat (map words_of ss) ->
  (forall s, In s ss -> valid numeral os s) ->
  (List.length (text l ++ sp ++ show i ++ sp2 ++ show i2) < maxlen)%nat ->
  start_ok maxlen os def st ->
  blank sp -> sp <> [] -> good i -> blank sp2 -> sp2 <> [] -> good i2 ->
  (List.length (word i) < maxlen)%nat ->
  nth_error os k = Some o -> o_kind o <> KBool -> In n (names o) -> word i = on_ n ->
  word i2 = [] ->
  options_init maxlen fold hex dec (map ent os) (text l ++ sp ++ show i ++ sp2 ++ show i2) st = Ok None.
Proof.
  intros maxlen fold hex dec numeral Hn os D def l sp i sp2 i2 ss st k o n
    Hl Ha Hw Hv Hm Hs B Sn G B2 Sn2 G2 L No K Nn W Em.
  refine (refused maxlen fold hex dec numeral Hn os D def l _ ss st Hl Ha _ _ Hw Hv Hm Hs _).
  - destruct sp as [|c sp]; [congruence|]. apply B. left; auto.
  - intros l' s' i' _ _ X. destruct sp; [congruence|discriminate].
  - refine (empty_step maxlen fold hex dec numeral Hn os D def sp i sp2 i2 k o n B G B2 Sn2 G2 L _ No K Nn W Em). lia.
Qed.
Print Assumptions C67_empty_refuted.

(** The word -"" is taken for the first flag, if that has no alias. *)
Theorem C67_quotes_refuted : forall maxlen fold hex dec o r st, (4 <= maxlen)%nat ->
  o_kind o = KBool -> o_alias o = None ->
  exists st', options_init maxlen fold hex dec (map ent (o :: r)) [45; 34; 34] st = Ok (Some st') /\
    vals st' 0%nat = VBool true.
Proof. exact quotes_ok. Qed.
Print Assumptions C67_quotes_refuted.

(** * Cases *)
Fixpoint z (s : string) : list Z :=
  match s with
  | EmptyString => []
  | String c r => Z.of_N (N_of_ascii c) :: z r
  end.

Definition digit (c : Z) : bool := (48 <=? c) && (c <=? 57).
Fixpoint decimal (acc : Z) (w : list Z) : option Z :=
  match w with
  | [] => Some acc
  | c :: r => if digit c then decimal (acc * 10 + (c - 48)) r else None
  end.
Definition dec (w : list Z) : option Z := match w with [] => None | _ => decimal 0 w end.
Definition hex (w : list Z) : option Z := None.
Definition numeral (w : list Z) (v : Z) : Prop := dec w = Some v.

Definition os : list option_ :=
  [ {| o_name := z "light"; o_alias := None; o_kind := KBool |};
    {| o_name := z "lib_blocklist"; o_alias := Some (z "lib_blacklist"); o_kind := KStr |};
    {| o_name := z "lib_blocklist_frames"; o_alias := Some (z "lib_blacklist_frames");
       o_kind := KNum false 0 4096 |};
    {| o_name := z "suppress"; o_alias := None; o_kind := KMulti |};
    {| o_name := z "brief"; o_alias := None; o_kind := KBool |};
    {| o_name := z "logdir"; o_alias := None; o_kind := KStr |} ].

Definition def (k : nat) : meaning :=
  match k with
  | 0%nat | 4%nat => MBool false
  | 2%nat => MNum 4
  | 3%nat => MList []
  | _ => MStr []
  end.

Definition st0 : state :=
  {| vals := fun k => match k with
                      | 0%nat | 4%nat => VBool false
                      | 2%nat => VNum 4
                      | 3%nat => VMulti (repeat 0 120)
                      | _ => VStr []
                      end;
     specified := fun _ => false |}.

Definition Q : string := String "034" EmptyString.

Definition run (s : string) : option (list value * list bool) :=
  match options_init 120 (fun c => c) hex dec (map ent os) (z s) st0 with
  | Ok (Some st) => Some (map (vals st) (seq 0 6), map (specified st) (seq 0 6))
  | _ => None
  end.

Fixpoint trim (l : list Z) : list Z :=
  match l with [] => [] | c :: r => match trim r with [] => if c =? 0 then [] else [c] | t => c :: t end end.

Definition shown (r : option (list value * list bool)) :=
  match r with
  | Some (vs, bs) => Some (map (fun v => match v with VMulti b => VMulti (trim b) | _ => v end) vs, bs)
  | None => None
  end.

(** The hypotheses of [C67_options] can be met. *)
Example C67_hypotheses_case :
  distinct (fun c => c) os /\ start_ok 120 os def st0 /\
  valid numeral os (Flag 0 (z "light") false) /\
  valid numeral os (Val 2 (z "lib_blacklist_frames") (z "12")) /\
  valid numeral os (Val 3 (z "suppress") (z "a b")).
Proof.
  split; [apply distinctb_ok; vm_compute; reflexivity|].
  split.
  { intros k o N.
    assert (MD : forall k b, nth_error os k = Some o ->
      (match def k with MList _ => true | _ => false end = b) ->
      (match o_kind o with KMulti => true | _ => false end = b) ->
      (forall ws, def k = MList ws -> ws = []) ->
      rep 120 (def k) (vals st0 k) -> rep 120 (def k) (vals st0 k) /\
      (o_kind o = KMulti <-> exists ws, def k = MList ws) /\ (forall ws, def k = MList ws -> ws = [])).
    { intros k' b _ H1 H2 H3 H4. split; auto. split; auto. rewrite <- H2 in H1.
      destruct (def k'), (o_kind o); try discriminate; split; intros X;
        try discriminate; try (destruct X; discriminate); eauto. }
    destruct k as [|[|[|[|[|[|k]]]]]]; cbn [nth_error os] in N; try discriminate;
      [| | | | | |destruct k; discriminate];
      injection N as <-; eapply MD; try reflexivity; try discriminate.
    - intros ws H. injection H as <-. reflexivity.
    - cbn [rep def vals st0]. split; [intros w []|]. exists 119%nat. split; reflexivity. }
  split; [|split].
  - eexists. split; [reflexivity|]. cbn. auto.
  - eexists. split; [reflexivity|]. cbn [o_kind]. split; [cbn; auto|]. exists 12.
    split; [reflexivity|]. split; [lia|]. split; [discriminate|]. right. intros r. discriminate.
  - eexists. split; [reflexivity|]. cbn [o_kind]. split; [cbn; auto|]. cbn. intuition discriminate.
Qed.

Example C67_words_case :
  read_words 120 20 (z (" -a  'b " ++ Q ++ "c'`d` e" ++ Q ++ "f " ++ Q ++ Q ++ " ")) =
    Ok [z "-a"; z ("b " ++ Q ++ "c"); z "d"; z ("e" ++ Q ++ "f"); []].
Proof. vm_compute. reflexivity. Qed.

(** The later setting counts; strings that can be repeated are collected. *)
Example C67_options_case :
  shown (run ("-light -suppress 'a b' -lib_blacklist x*,y -no_light -suppress " ++ Q ++ Q ++
    " -lib_blocklist_frames 7 -suppress c")) =
  Some ([VBool false; VStr (z "x*,y"); VNum 7; VMulti (z "a b" ++ [0] ++ z "c"); VBool false; VStr []],
        [true; true; true; true; false; false]).
Proof. vm_compute. reflexivity. Qed.

Example C67_refused_case :
  run "-light -lite -brief" = None /\
  run "-brief -lib_blocklist_frames 4097 -light" = None /\
  run "-brief -lib_blocklist_frames -1" = None /\
  run "-brief -lib_blocklist_frames four" = None /\
  run "-brief -lib_blocklist_frames" = None.
Proof. vm_compute. repeat split. Qed.

Example C67_empty_case :
  run ("-brief -logdir " ++ Q ++ Q) = None /\
  shown (run ("-logdir " ++ Q ++ Q ++ " -brief")) =
  Some ([VBool false; VStr []; VNum 4; VMulti []; VBool true; VStr []],
        [false; false; false; false; true; true]).
Proof. vm_compute. repeat split. Qed.

(** A string that begins with a dash, even in quotes, is taken for the next
    option: here -logdir '-light' leaves -logdir empty and sets -light. *)
Theorem C67_dash_refuted : exists s st',
  s = z "-logdir '-light'" /\
  options_init 120 (fun c => c) hex dec (map ent os) s st0 = Ok (Some st') /\
  vals st' 5%nat = VStr [] /\ vals st' 0%nat = VBool true.
Proof.
  exists (z "-logdir '-light'"),
    (set_val (set_val st0 5 (VStr [])) 0 (VBool true)).
  split; [reflexivity|]. split; [reflexivity|]. split; reflexivity.
Qed.
Print Assumptions C67_dash_refuted.

Example C67_quotes_case :
  option_map fst (shown (run ("-" ++ Q ++ Q))) =
  Some [VBool true; VStr []; VNum 4; VMulti []; VBool false; VStr []].
Proof. vm_compute. reflexivity. Qed.
