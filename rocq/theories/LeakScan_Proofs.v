From Coq Require Import Sorting.Sorted.
From Verif Require Import Base Leak_Model LeakScan_Model LeakScan_Spec.
Open Scope Z_scope.

Lemma align8_spec x : x <= align8 x < x + 8 /\ align8 x mod 8 = 0.
Proof. unfold align8, PTR. pose proof (Z.div_mod (x + 7) 8 ltac:(lia)). pose proof (Z.mod_pos_bound (x + 7) 8 ltac:(lia)). split; [lia|]. apply Z.mod_mul. lia. Qed.
Lemma align8_le x w : w mod 8 = 0 -> x <= w -> align8 x <= w.
Proof. intros H L. pose proof (align8_spec x) as (A & B). rewrite (Z.div_mod w 8), (Z.div_mod (align8 x) 8) in * by lia. lia. Qed.
Lemma align8_id x : x mod 8 = 0 -> align8 x = x.
Proof. intros H. pose proof (align8_spec x). pose proof (align8_le x x H). lia. Qed.

Section Words.
Context (m : machine) (t : truth) (G : agrees m t) (sk : bool).

Definition upto (P : Z -> Prop) (lo hi : Z) (ws : list (Z * Z)) : Prop :=
  StronglySorted Z.lt (map fst ws) /\ forall w, In w (map fst ws) <-> lo <= w < hi /\ P w.
Lemma upto_app P lo mid hi a b : lo <= mid <= hi -> upto P lo mid a -> upto P mid hi b -> upto P lo hi (a ++ b).
Proof.
  intros L (A1 & A2) (B1 & B2). unfold upto. rewrite map_app. split.
  - assert (X : forall x y, In x (map fst a) -> In y (map fst b) -> x < y) by (intros x y I J; apply A2 in I; apply B2 in J; lia). clear A2 B2.
    induction (map fst a) as [|x l IH]; [exact B1|]. cbn. inversion A1; subst. constructor.
    + apply IH; auto. intros; apply X; auto. right. auto.
    + apply Forall_app. split; [auto|]. apply Forall_forall. intros y J. apply X; auto. left. reflexivity.
  - intros w. rewrite in_app_iff, A2, B2. split; [intros [?|?]; split; try tauto; lia|]. intros (H & Q). destruct (Z_lt_dec w mid); [left|right]; split; auto; lia.
Qed.
Lemma upto_none P lo hi : (forall w, lo <= w < hi -> ~ P w) -> upto P lo hi [].
Proof. intros H. split; [constructor|]. intros w. cbn. split; [tauto|]. intros (A & B). exact (H w A B). Qed.
Lemma upto_weak (P Q : Z -> Prop) lo hi ws : (forall w, lo <= w < hi -> (P w <-> Q w)) -> upto P lo hi ws -> upto Q lo hi ws.
Proof. intros H (A & B). split; [exact A|]. intros w. rewrite B. split; intros (X & Y); split; auto; apply (H w X); auto. Qed.

Lemma range_ok : forall f pc de, pc mod 8 = 0 -> (Z.to_nat (de - pc) < f)%nat ->
  exists ws, range_words m sk f pc de = Ok ws /\ upto (fun w => w mod 8 = 0 /\ w + 8 <= de /\ (sk = true -> heap t w = false)) pc (Z.max pc de) ws /\ forall w d, In (w, d) ws -> d = de.
Proof.
  induction f as [|f IH]; intros pc de A F; [lia|]. cbn [range_words]. unfold PTR. destruct ((pc <? de) && (pc + 8 <=? de)) eqn:Q.
  2: { exists []. split; [reflexivity|]. split; [|intros w d []]. apply upto_none. intros w L (_ & B & _). lia. }
  assert (Z0 : forall w, pc < w < pc + 8 -> w mod 8 <> 0). { intros w L H. pose proof (Z.div_mod w 8 ltac:(lia)). pose proof (Z.div_mod pc 8 ltac:(lia)). lia. }
  destruct (if sk then heap_end m pc else None) as [q|] eqn:H.
  - destruct sk; [|discriminate]. pose proof (g_heap m t G pc) as Hh. rewrite H in Hh. destruct Hh as (L & Aq & Hq). unfold PTR in Aq. replace (q - 8 + 8) with q by lia.
    destruct (IH q de Aq) as (ws & E & U & D); [lia|]. exists ws. split; [exact E|]. split; [|exact D].
    destruct (Z_le_dec q de) as [C|C].
    + change ws with ([] ++ ws). apply upto_app with (mid := q); [lia| |replace (Z.max pc de) with (Z.max q de) by lia; exact U]. apply upto_none. intros w Lw (_ & _ & X). rewrite Hq in X by lia. discriminate (X eq_refl).
    + assert (ws = []). { destruct ws as [|(w, d) ws]; [reflexivity|]. assert (X : In w (map fst ((w, d) :: ws))) by (left; reflexivity). apply U in X. lia. } subst ws.
      apply upto_none. intros w Lw (_ & B & X). rewrite Hq in X by lia. discriminate (X eq_refl).
  - destruct (IH (pc + 8) de) as (ws & E & U & D); [rewrite Z.add_mod, A by lia; reflexivity|lia|]. rewrite E. cbn [bind]. exists ((pc, de) :: ws). split; [reflexivity|]. split.
    + replace (Z.max pc de) with (Z.max (pc + 8) de) by lia. change ((pc, de) :: ws) with ([(pc, de)] ++ ws). apply upto_app with (mid := pc + 8); [lia| |exact U].
      split; [repeat constructor|]. intros w. cbn. split.
      * intros [<-|[]]. split; [lia|]. split; [exact A|]. split; [lia|]. intros ->. pose proof (g_heap m t G pc) as Hh. rewrite H in Hh. exact Hh.
      * intros (L & B & _). left. destruct (Z.eq_dec pc w); auto. exfalso. apply (Z0 w); auto. lia.
    + intros w d [[= <- <-]|I]; [reflexivity|]. eapply D; eauto.
Qed.

(** What each word is listed with. *)
Definition within (end_ : Z) (ws : list (Z * Z)) : Prop := forall w d, In (w, d) ws ->
  w + 8 <= d <= end_ /\ (have_info m = true -> forall x, w <= x < d -> defd t x = true) /\ (forall x, w <= x < d -> scannable t x = true).
Definition good (end_ w : Z) : Prop := wanted m t sk w end_ w.
Definition in_region (pc qe : Z) : Prop := exists r b, query m r = Some (qe, b) /\ 0 <= r <= pc /\ qe mod 8 = 0 /\ forall x, r <= x < qe -> scannable t x = true.

Lemma scan_ok end_ : forall f pc qe, 0 <= pc -> (Z.to_nat (end_ - pc) < f)%nat -> (qe <= pc \/ in_region pc qe) ->
  exists ws, scan_words m sk f pc qe end_ = Ok ws /\ upto (good end_) pc (Z.max pc end_) ws /\ within end_ ws.
Proof.
  induction f as [|f IH]; intros pc qe P0 F R; [lia|]. cbn [scan_words]. destruct (end_ <=? pc) eqn:Q0.
  { exists []. split; [reflexivity|]. split; [apply upto_none; intros; lia|intros w d []]. }
  assert (RG : exists qe' b, (if qe <=? pc then query m pc else Some (qe, false)) = Some (qe', b) /\ pc < qe' /\ (if b then (forall x, pc <= x < qe' -> scannable t x = false) else in_region pc qe')).
  { destruct (qe <=? pc) eqn:Q1.
    - destruct (g_query m t G pc P0) as (qe' & b & E & L & A & S). exists qe', b. split; [exact E|]. split; [exact L|]. destruct b; [exact S|]. exists pc, false. repeat split; auto; lia.
    - exists qe, false. split; [reflexivity|]. split; [lia|]. destruct R; [lia|auto]. }
  destruct RG as (qe' & b & -> & L & RG). clear R qe. destruct b.
  { replace (qe' <? pc) with false by lia. destruct (IH qe' qe') as (ws & E & U & D); [lia|lia|left; lia|]. exists ws. split; [exact E|]. split; [|exact D].
    destruct (Z_le_dec qe' end_).
    - change ws with ([] ++ ws). apply upto_app with (mid := qe'); [lia| |replace (Z.max pc end_) with (Z.max qe' end_) by lia; exact U]. apply upto_none. intros w Lw (_ & _ & _ & X & _). rewrite RG in X by lia. discriminate.
    - assert (ws = []). { destruct ws as [|(w, d) ws]; [reflexivity|]. assert (X : In w (map fst ((w, d) :: ws))) by (left; reflexivity). apply U in X. lia. } subst ws.
      apply upto_none. intros w Lw (_ & _ & _ & X & _). rewrite RG in X by lia. discriminate. }
  destruct RG as (r & b & Rq & Rl & Ra & Rs). set (it := if qe' <? end_ then qe' else end_). assert (It : pc < it <= end_ /\ it <= qe') by (unfold it; destruct (qe' <? end_) eqn:?; lia).
  assert (Reg : forall x, pc <= x -> in_region x qe') by (intros x Lx; exists r, b; repeat split; auto; lia).
  assert (Cross : forall w, w mod 8 = 0 -> w < it < w + 8 -> w + 8 > end_). { intros w A Lw. unfold it in Lw. destruct (qe' <? end_) eqn:?; [|lia]. pose proof (Z.div_mod w 8 ltac:(lia)). pose proof (Z.div_mod qe' 8 ltac:(lia)). lia. }
  (* scanning from [p] to [de] and going on *)
  assert (RANGE : forall p de, pc <= p < it -> p <= de <= it -> pc < align8 de ->
    (forall w, pc <= w < p -> ~ good end_ w) ->
    (forall w, w mod 8 = 0 -> p <= w -> w + 8 <= de -> (have_info m = false \/ at_exit m = true -> stack t w = false) /\ (have_info m = true -> forall x, w <= x < w + 8 -> defd t x = true)) ->
    (have_info m = true -> forall x, p <= x < de -> defd t x = true) ->
    (de = it \/ (have_info m = true /\ defd t de = false)) ->
    exists ws, (let* ws := range_words m sk (S (Z.to_nat (de - p))) (align8 p) de in let* rest := scan_words m sk f (align8 de) qe' end_ in Ok (ws ++ rest)) = Ok ws /\ upto (good end_) pc (Z.max pc end_) ws /\ within end_ ws).
  { intros p de Lp Lde Pr Before In_ Def Stop. pose proof (align8_spec p) as (Ap & Mp). pose proof (align8_spec de) as (Ad & Md).
    destruct (range_ok (S (Z.to_nat (de - p))) (align8 p) de Mp) as (w1 & E1 & U1 & D1); [lia|]. rewrite E1. cbn [bind].
    destruct (IH (align8 de) qe') as (w2 & E2 & U2 & D2); [lia|lia|right; apply Reg; lia|]. rewrite E2. cbn [bind]. exists (w1 ++ w2). split; [reflexivity|].
    assert (Tail : forall w, w mod 8 = 0 -> p <= w -> w < align8 de -> w + 8 > de -> ~ good end_ w).
    { intros w A L1 L2 L3 (_ & _ & E & _ & _ & X & _). unfold PTR in *. assert (W : w < de). { destruct (Z_lt_dec w de); auto. exfalso. pose proof (align8_le de w A ltac:(lia)). lia. }
      destruct Stop as [->|(I & Dd)]; [pose proof (Cross w A ltac:(lia)); lia|]. rewrite (X I de) in Dd by lia. discriminate. }
    assert (UP : upto (good end_) pc (Z.min (align8 de) (Z.max pc end_)) w1).
    { destruct U1 as (S1 & M1). split; [exact S1|]. intros w. rewrite M1. split.
      - intros (Lw & A & B & H). split; [lia|]. destruct (In_ w A) as (X1 & X2); [lia|lia|]. unfold good, wanted, PTR. repeat split; auto; try lia. apply Rs. lia.
      - intros (Lw & X). destruct (Z_lt_dec w p); [exfalso; apply (Before w); auto; lia|]. pose proof X as (A & _ & B & _ & _ & _ & H). unfold PTR in *. assert (w + 8 <= de). { destruct (Z_le_dec (w + 8) de); auto. exfalso. apply (Tail w A); auto; lia. }
        pose proof (align8_le p w A ltac:(lia)). split; [lia|]. auto. }
    split.
    - destruct (Z_le_dec (align8 de) (Z.max pc end_)) as [C|C].
      + rewrite Z.min_l in UP by lia. apply upto_app with (mid := align8 de); [lia|exact UP|]. replace (Z.max pc end_) with (Z.max (align8 de) end_) by lia. exact U2.
      + assert (w2 = []). { destruct w2 as [|(w, d) w2]; [reflexivity|]. assert (X : In w (map fst ((w, d) :: w2))) by (left; reflexivity). apply U2 in X. lia. } subst w2. rewrite app_nil_r. rewrite Z.min_r in UP by lia. exact UP.
    - intros w d I. apply in_app_iff in I. destruct I as [I|I]; [|apply D2; auto]. pose proof (D1 w d I). subst d. assert (X : In w (map fst w1)) by (apply in_map_iff; exists (w, de); auto). apply U1 in X. destruct X as (X1 & X2 & X3 & _).
      split; [lia|]. split; [intros H x Lx; apply Def; auto; lia|]. intros x Lx. apply Rs. lia. }
  (* going on from [p], nothing of interest before *)
  assert (SKIP : forall p, pc < p -> (forall w, pc <= w < p -> w < end_ -> ~ good end_ w) -> exists ws, scan_words m sk f p qe' end_ = Ok ws /\ upto (good end_) pc (Z.max pc end_) ws /\ within end_ ws).
  { intros p Lp B. destruct (IH p qe') as (ws & E & U & D); [lia|lia|right; apply Reg; lia|]. exists ws. split; [exact E|]. split; [|exact D]. destruct (Z_le_dec p end_).
    - change ws with ([] ++ ws). apply upto_app with (mid := p); [lia| |replace (Z.max pc end_) with (Z.max p end_) by lia; exact U]. apply upto_none. intros w Lw. apply B; lia.
    - assert (ws = []). { destruct ws as [|(w, d) ws]; [reflexivity|]. assert (X : In w (map fst ((w, d) :: ws))) by (left; reflexivity). apply U in X. lia. } subst ws.
      apply upto_none. intros w Lw. apply B; lia. }
  destruct (have_info m) eqn:HI; cbn [negb].
  - pose proof (g_next m t G pc it) as N. destruct (next_def m pc it) as [p|] eqn:NE.
    + destruct N as (Lp & Dp & N). unfold PTR in N.
      assert (BF : forall w, pc <= w < p -> ~ good end_ w). { intros w Lw (A & _ & _ & _ & _ & X & _). unfold PTR in *. destruct (N w A Lw) as (x & Lx & Dx). rewrite (X HI x) in Dx by auto. discriminate. }
      assert (NOSTACK : (at_exit m = false \/ (at_exit m = true /\ stack t p = false)) -> exists ws, (let* ws := range_words m sk (S (Z.to_nat (end_def m p it - p))) (align8 p) (end_def m p it) in let* rest := scan_words m sk f (align8 (end_def m p it)) qe' end_ in Ok (ws ++ rest)) = Ok ws /\ upto (good end_) pc (Z.max pc end_) ws /\ within end_ ws).
      { intros ST. destruct (g_end m t G p it ltac:(lia)) as (L1 & D1 & S1). assert (p < end_def m p it). { destruct (Z.eq_dec p (end_def m p it)) as [E|]; [|lia]. destruct S1 as [S1|S1]; [lia|]. rewrite <- E in S1. congruence. }
        apply RANGE; auto; try lia.
        - pose proof (align8_spec (end_def m p it)). lia.
        - intros w A L2 L3. split; [|intros _ x Lx; apply D1; lia]. intros [X|X]; [discriminate|]. destruct ST as [ST|(_ & ST)]; [congruence|]. destruct (stack t w) eqn:SW; [|reflexivity]. rewrite (g_first m t G r qe' b Rq p w) in ST; auto; lia. }
      destruct (at_exit m) eqn:AE; [|apply NOSTACK; auto]. pose proof (g_stack m t G p) as ST. destruct (stack_end m p) as [q|] eqn:SE; [|apply NOSTACK; auto]. destruct ST as (Lq & ST).
      assert (BQ : forall w, pc <= w < q -> ~ good end_ w). { intros w Lw X. destruct (Z_lt_dec w p); [apply (BF w); auto; lia|]. destruct X as (_ & _ & _ & _ & X & _). rewrite ST in X by lia. discriminate X. right. auto. }
      destruct (it <=? q) eqn:Q2; [apply SKIP; [lia|auto]|].
      destruct (g_end m t G q it ltac:(lia)) as (L1 & D1 & S1). apply RANGE; auto; try lia.
      * pose proof (align8_spec (end_def m q it)). lia.
      * intros w A L2 L3. split; [|intros _ x Lx; apply D1; lia]. intros _. destruct (stack t w) eqn:SW; [|reflexivity]. pose proof (g_top m t G r qe' b p q Rq ltac:(lia) SE ltac:(lia)) as T. rewrite (g_first m t G r qe' b Rq q w) in T; auto; lia.
    + apply SKIP; [lia|]. intros w Lw Le (A & _ & E & _ & _ & X & _). unfold PTR in *. assert (w + 8 <= it). { destruct (Z_le_dec (w + 8) it); auto. destruct (Z.eq_dec w it); [lia|]. pose proof (Cross w A ltac:(lia)). lia. }
      destruct (N w A ltac:(lia) ltac:(lia)) as (x & Lx & Dx). rewrite (X HI x) in Dx by auto. discriminate.
  - assert (PLAIN : forall p, pc <= p < it -> (forall w, pc <= w < p -> ~ good end_ w) -> stack t p = false -> exists ws, (let* ws := range_words m sk (S (Z.to_nat (it - p))) (align8 p) it in let* rest := scan_words m sk f (align8 it) qe' end_ in Ok (ws ++ rest)) = Ok ws /\ upto (good end_) pc (Z.max pc end_) ws /\ within end_ ws).
    { intros p Lp B ST. apply RANGE; auto; try lia; try congruence.
      - pose proof (align8_spec it). lia.
      - intros w A L2 L3. split; [|discriminate]. intros _. destruct (stack t w) eqn:SW; [|reflexivity]. rewrite (g_first m t G r qe' b Rq p w) in ST; auto; lia. }
    pose proof (g_stack m t G pc) as ST. destruct (stack_end m pc) as [q|] eqn:SE; [|apply PLAIN; auto; intros; lia]. destruct ST as (Lq & ST).
    assert (BQ : forall w, pc <= w < q -> ~ good end_ w). { intros w Lw (_ & _ & _ & _ & X & _). rewrite ST in X by lia. discriminate X. auto. }
    destruct (it <=? q) eqn:Q2; [apply SKIP; [lia|auto]|]. apply PLAIN; [lia|exact BQ|]. apply (g_top m t G r qe' b pc q Rq); auto; lia.
Qed.
Theorem visited_ok start end_ : 0 <= start -> exists ws, visited m sk start end_ = Ok ws /\ exactly (wanted m t sk start end_) (map fst ws) /\ within end_ ws.
Proof.
  intros H. destruct (scan_ok end_ (S (Z.to_nat (end_ - start))) start 0 H) as (ws & E & (S1 & M) & D); [lia|lia|]. exists ws. split; [exact E|]. split; [|exact D]. split; [exact S1|].
  intros w. rewrite M. unfold good, wanted, PTR. split; [intros (L & X); repeat split; try tauto; try lia|]. intros X. split; [lia|]. repeat split; try tauto; lia.
Qed.
End Words.

Lemma ascii_iff b : IS_ASCII b = true -> b <> 0. Proof. unfold IS_ASCII. lia. Qed.
