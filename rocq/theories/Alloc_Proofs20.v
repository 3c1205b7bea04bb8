(** Concrete histories, by computation. *)
From Coq Require Import Permutation.
From Verif Require Import Base Alloc_Model Alloc_Spec.
Open Scope Z_scope.

(** A kernel that has one place [b] for mappings of up to [n] bytes and lets the brk go
    up to [l]. *)
Definition kern (b n l : Z) : os :=
  Os (fun k => if k <=? n then Some b else None) (fun _ _ => false) (fun k => k <=? l).
Definition apartb (r r' : Z * Z) : bool := (snd r <=? fst r') || (snd r' <=? fst r).
Definition kern_okb (b n l : Z) (s : state) : bool :=
  (0 <? b) && (b mod 4096 =? 0) && forallb (fun r => apartb (b, b + n) (r_lo r, r_hi r)) (regions s) &&
  match arenas s with
  | [] => true
  | a :: _ => (l - a_base a <? 2 ^ 32) && forallb (fun r => (r_lo r =? a_base a) || apartb (a_base a, l) (r_lo r, r_hi r)) (regions s)
  end.
Lemma kern_ok b n l s : kern_okb b n l s = true -> kernel_ok (kern b n l) s.
Proof.
  unfold kern_okb. intros E. apply andb_true_iff in E as [E E4]. apply andb_true_iff in E as [E E3]. apply andb_true_iff in E as [E1 E2]. rewrite forallb_forall in E3.
  unfold kern. split; [|split]; cbn [o_map o_grow o_brk].
  - intros k x H. destruct (k <=? n) eqn:Kn; [|discriminate]. injection H as <-. split; [lia|]. split; [lia|]. apply Forall_forall. intros r Ir. specialize (E3 r Ir). unfold apart, apartb in *. cbn [fst snd] in *. lia.
  - discriminate.
  - intros x a H Ha. destruct (arenas s) as [|a' l']; [discriminate|]. injection Ha as ->. apply andb_true_iff in E4 as [E4 E5]. rewrite forallb_forall in E5. split; [lia|]. intros r Ir Nr. specialize (E5 r Ir). unfold apart, apartb in *. cbn [fst snd] in *. lia.
Qed.
Definition memory_okb (n : Z) (s : state) : bool := (length (arenas s) =? 1)%nat || (ARENA_INITIAL_SIZE <=? n) || (dfront s =? 0).
Lemma memory_okb_ok b n l s : memory_okb n s = true -> memory_ok (kern b n l) s.
Proof.
  unfold memory_okb, memory_ok, kern. cbn [o_map]. intros E. apply orb_true_iff in E as [E|E]; [apply orb_true_iff in E as [E|E]|].
  - left. apply Nat.eqb_eq. exact E.
  - right. left. rewrite E. discriminate.
  - right. right. lia.
Qed.
Definition in_rangeb (n al : Z) : bool := (2 ^ 32 <=? n) || (negb (al =? 0) && negb (IS_POWER_OF_2 al)) || (n + al + 2 ^ 19 <=? 2 ^ 32).
Lemma in_rangeb_ok n al : in_rangeb n al = true -> in_range n al.
Proof.
  unfold in_rangeb, in_range. intros E. apply orb_true_iff in E as [E|E]; [apply orb_true_iff in E as [E|E]|]; [left; lia | right; left | right; right; lia].
  apply andb_true_iff in E as [A B]. split; [lia|]. destruct (IS_POWER_OF_2 al); [discriminate | reflexivity].
Qed.
Definition call_okb (k : call) : bool :=
  match k with
  | Malloc n al _ _ => (0 <=? n) && (0 <=? al) && in_rangeb n al
  | Realloc _ n => (0 <=? n) && in_rangeb n 0
  | _ => true
  end.
Lemma call_okb_ok k : call_okb k = true -> call_ok k.
Proof.
  destruct k as [n al z t|p t|p n|p]; cbn [call_okb call_ok]; try exact (fun _ => I); intros E.
  - apply andb_true_iff in E as [E E3]. apply andb_true_iff in E as [E1 E2]. split; [lia|]. split; [lia|]. apply in_rangeb_ok. exact E3.
  - apply andb_true_iff in E as [E1 E2]. split; [lia|]. apply in_rangeb_ok. exact E2.
Qed.

(** One thing that happens: a call, with the kernel of the time, or a store. *)
Inductive event := Call (b n l : Z) (k : call) | Store (x y : Z).
Record shown := Shown { answers : list (answer * list report); view : list block; final : state }.
Fixpoint play (c : cfg) (s : state) (v : list block) (l : list event) : option shown :=
  match l with
  | [] => Some (Shown [] v s)
  | Call b n lim k :: t =>
      if kern_okb b n lim s && memory_okb n s && call_okb k then
        match step c (kern b n lim) s k with
        | Ok (s', a, r) =>
            if match a with Ptr q => match pre_us c q with None => true | Some _ => false end | _ => true end then
              match play c s' (view_step c v k a) t with
              | Some x => Some (Shown ((a, r) :: answers x) (view x) (final x))
              | None => None
              end
            else None
        | _ => None
        end
      else None
  | Store x y :: t =>
      if existsb (fun b => (ptr b <=? x) && (x <? ptr b + len b)) v then play c (with_mem s (upd (mem s) x y)) v t else None
  end.
Lemma play_reach c l : forall s v x, reach c s v -> play c s v l = Some x -> reach c (final x) (view x).
Proof.
  induction l as [|e l IH]; intros s v x R E; cbn [play] in E.
  - injection E as <-. exact R.
  - destruct e as [b n lim k|y z].
    + destruct (_ && _) eqn:G in E; [|discriminate]. apply andb_true_iff in G as [G G3]. apply andb_true_iff in G as [G1 G2].
      destruct (step c _ s k) as [[[s' a] r]| |] eqn:St; try discriminate. destruct (match a with Ptr q => _ | _ => _ end) eqn:Pu in E; [|discriminate].
      destruct (play c s' _ l) as [x'|] eqn:Ep; [|discriminate]. injection E as <-. cbn [final view]. apply (IH s' (view_step c v k a)); [|exact Ep].
      eapply reach_call; [exact R | apply kern_ok; exact G1 | apply memory_okb_ok; exact G2 | apply call_okb_ok; exact G3 | exact St|].
      intros q ->. destruct (pre_us c q); [discriminate | reflexivity].
    + destruct (existsb _ v) eqn:Ex; [|discriminate]. apply existsb_exists in Ex as (b & Ib & Hb). apply (IH (with_mem s (upd (mem s) y z)) v); [|exact E]. eapply reach_store; [exact R | exact Ib | lia].
Qed.
(** from the start *)
Definition history (c : cfg) (brk : Z) (l : list event) : option shown := play c (init c brk (fun _ => 170)) [] l.
Lemma history_reach c brk l x : 0 < brk -> brk mod 4096 = 0 -> history c brk l = Some x -> reach c (final x) (view x).
Proof. intros H1 H2. apply play_reach. apply reach_init; auto. Qed.
Lemma seen {A} (f : shown -> A) o a : option_map f o = Some a -> exists x, o = Some x /\ f x = a.
Proof. destruct o as [x|]; [|discriminate]. intros [= <-]. eauto. Qed.
Definition look {A} (f : state -> A) (r : res (state * answer * list report)) : option (A * answer * list report) :=
  match r with Ok (s, a, l) => Some (f s, a, l) | _ => None end.
Lemma looked {A} (f : state -> A) r x a l : look f r = Some (x, a, l) -> exists s, r = Ok (s, a, l) /\ f s = x.
Proof. destruct r as [[[s a'] l']| |]; [|discriminate..]. intros [= <- <- <-]. eauto. Qed.
