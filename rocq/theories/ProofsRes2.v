(** ProofsRes2.v - the invariant holds in every reachable state. *)
From Coq Require Import List ZArith Bool Lia Arith.
From Verif Require Import SpecRes ModelRes ProofsRes.
Import ListNotations.

Lemma deeds_app l1 l2 : deeds (l1 ++ l2) = deeds l1 ++ deeds l2. Proof. apply map_app. Qed.
Lemma deeds_own i ds : deeds (map (fun d => (Some i, d)) ds) = ds.
Proof. unfold deeds. rewrite map_map. apply map_id. Qed.
Lemma by_app w l1 l2 : by_thread w (l1 ++ l2) = by_thread w l1 ++ by_thread w l2.
Proof. unfold by_thread. now rewrite filter_app, map_app. Qed.
Lemma by_own i ds : by_thread (Some i) (map (fun d => (Some i, d)) ds) = ds.
Proof. unfold by_thread. induction ds as [|d ds IH]; [reflexivity|]. cbn. rewrite Nat.eqb_refl. cbn. now rewrite IH. Qed.
Lemma by_not w i ds : w <> Some i -> by_thread w (map (fun d => (Some i, d)) ds) = [].
Proof.
  intros H. unfold by_thread. induction ds as [|d ds IH]; [reflexivity|]. cbn. destruct w as [j|]; [|exact IH].
  destruct (Nat.eqb_spec i j) as [->|]; [congruence|exact IH].
Qed.
Lemma by_caller_of w d : by_thread w [(None, d)] = match w with None => [d] | _ => [] end.
Proof. destruct w; reflexivity. Qed.

(** The deeds of a worker's step. *)
Definition work_held (h : host) (w : worker) : nat := match w with Loop _ => vecs h | _ => 0%nat end.
Definition about (l : list deed) := fun i : nat => spawned i l = 0%nat /\ joined i l = 0%nat.
Lemma in_repeat_eq {A} (a b : A) n : In a (repeat b n) -> a = b. Proof. apply repeat_spec. Qed.
Ltac counts := rewrite ?taken_cnt, ?given_cnt, ?spawned_cnt, ?joined_cnt, ?cnt_app, ?cnt_cons, ?cnt_repeat, ?cnt_app, ?cnt_repeat.
Lemma point_counts h r : taken r (point h) = (if thing_eq r RTemp then temps h else 0%nat) /\ given r (point h) = (if thing_eq r RTemp then temps h else 0%nat) /\
  forall i, about (point h) i.
Proof.
  unfold about, point. repeat split; counts; destruct (0 <? plans h)%nat, (table h), (0 <? vecs h)%nat; destruct r; cbn; lia.
Qed.
Lemma enter_counts h r : taken r (enter h) = (if thing_eq r RWork then vecs h else 0%nat) /\ given r (enter h) = 0%nat /\ forall i, about (enter h) i.
Proof. unfold about, enter. repeat split; counts; destruct r; cbn; lia. Qed.
Lemma leave_counts h r : taken r (leave h) = 0%nat /\ given r (leave h) = (if thing_eq r RWork then vecs h else 0%nat) /\ forall i, about (leave h) i.
Proof. unfold about, leave. repeat split; counts; destruct r; cbn; lia. Qed.

Lemma step_deeds h k w bail w' ds : worker_step h k w bail = Some (w', ds) ->
  (w = Enter \/ exists j, w = Loop j) /\ (w' = Done \/ exists j, w' = Loop j) /\
  (forall i, about ds i) /\
  (forall r, shared r -> taken r ds = 0%nat /\ given r ds = 0%nat) /\
  taken RTemp ds = given RTemp ds /\ (taken RWork ds + work_held h w = given RWork ds + work_held h w')%nat.
Proof.
  intros E. destruct w as [| |[|j]|]; cbn [worker_step] in E; try discriminate.
  - injection E as <- <-. split; [now left|]. split; [right; eauto|]. destruct (enter_counts h RWork) as (A & B & C). destruct (enter_counts h RTemp) as (A' & B' & _).
    split; [exact C|]. split; [|rewrite A', B', A, B; cbn; lia].
    intros r [H1 H2]. destruct (enter_counts h r) as (A2 & B2 & _). rewrite A2, B2. destruct r; try congruence; auto.
  - injection E as <- <-. split; [right; eauto|]. split; [now left|]. destruct (leave_counts h RWork) as (A & B & C). destruct (leave_counts h RTemp) as (A' & B' & _).
    split; [exact C|]. split; [|rewrite A', B', A, B; cbn; lia].
    intros r [H1 H2]. destruct (leave_counts h r) as (A2 & B2 & _). rewrite A2, B2. destruct r; try congruence; auto.
  - destruct (point_counts h RWork) as (A & B & C). destruct (point_counts h RTemp) as (A' & B' & _).
    destruct bail; [assert (E1 : Done = w') by congruence; assert (E2 : point h ++ leave h = ds) by congruence; subst w' ds|injection E as <- <-].
    + split; [right; eauto|]. split; [now left|]. destruct (leave_counts h RWork) as (L1 & L2 & L3). destruct (leave_counts h RTemp) as (L1' & L2' & _).
      split; [intros i; destruct (C i) as [C1 C2], (L3 i) as [D1 D2]; unfold about; unfold spawned, joined in *; rewrite !filter_app, !app_length; split; lia|].
      split.
      * intros r [H1 H2]. destruct (leave_counts h r) as (A2 & B2 & _). destruct (point_counts h r) as (A3 & B3 & _).
        rewrite !taken_cnt, !given_cnt, !cnt_app in *. rewrite A2, B2, A3, B3. destruct r; try congruence; auto.
      * rewrite !taken_cnt, !given_cnt, !cnt_app in *. rewrite A', B', L1', L2', A, B, L1, L2. cbn. lia.
    + split; [right; eauto|]. split; [right; eauto|]. split; [exact C|]. split; [|rewrite A', B', A, B; cbn; lia].
      intros r [H1 H2]. destruct (point_counts h r) as (A2 & B2 & _). rewrite A2, B2. destruct r; try congruence; auto.
Qed.
Lemma fine_takes r k : forall t, fine r t (repeat (Take r) k).
Proof. induction k as [|k IH]; intros t; cbn [repeat fine]; [exact I|]. split; [intros [E|E]; discriminate|apply IH]. Qed.
Lemma thing_refl r : thing_eq r r = true. Proof. now apply thing_eq_spec. Qed.
Lemma fine_gives r k : forall t, (k <= t)%nat -> fine r t (repeat (Give r) k).
Proof.
  induction k as [|k IH]; intros t Ht; cbn [repeat fine]; [exact I|]. split; [intros _; lia|].
  cbn [is_take is_give]. rewrite thing_refl. apply IH. lia.
Qed.
Lemma fine_point_own h r t : own r -> (r = RWork -> t = vecs h) -> fine r t (point h).
Proof.
  intros Hr Ht. unfold point. cbn [fine is_take is_give]. split; [intros [E|E]; destruct Hr; subst; discriminate|].
  replace (t + 0 - (if thing_eq r RData then 0 else 0))%nat with t by (destruct (thing_eq r RData); lia).
  assert (O : forall b (d : deed), (forall x, x = d -> x <> Use r /\ is_give r x = false /\ is_take r x = false) -> fine r t (if b : bool then [d] else [])
     /\ taken r (if b then [d] else []) = 0%nat /\ given r (if b then [d] else []) = 0%nat).
  { intros [|] d H; [|split; [exact I|split; reflexivity]]. destruct (H d eq_refl) as (H1 & H2 & H3). split; [apply fine_other; intros x [<-|[]]; auto|].
    rewrite taken_cnt, given_cnt, !cnt_cons, H2, H3. split; reflexivity. }
  destruct (O (0 <? plans h)%nat (Use RPlan)) as (F1 & T1 & G1).
  { intros x ->. split; [|split; reflexivity]. intros E; injection E as E; destruct Hr; subst; discriminate. }
  destruct (O (table h) (Use RTable)) as (F2 & T2 & G2).
  { intros x ->. split; [|split; reflexivity]. intros E; injection E as E; destruct Hr; subst; discriminate. }
  replace (t + 0 - 0)%nat with t by lia.
  apply fine_app; [exact F1|]. rewrite T1, G1. replace (t + 0 - 0)%nat with t by lia.
  apply fine_app; [exact F2|]. rewrite T2, G2. replace (t + 0 - 0)%nat with t by lia.
  assert (T3 : taken r (if (0 <? vecs h)%nat then [Use RWork] else []) = 0%nat /\ given r (if (0 <? vecs h)%nat then [Use RWork] else []) = 0%nat)
    by (destruct (0 <? vecs h)%nat; split; reflexivity).
  apply fine_app.
  { destruct (0 <? vecs h)%nat eqn:V; [|exact I]. apply Nat.ltb_lt in V. cbn [fine]. split; [|exact I]. intros [E|E]; [|discriminate]. injection E as <-. rewrite (Ht eq_refl). exact V. }
  rewrite (proj1 T3), (proj2 T3). replace (t + 0 - 0)%nat with t by lia.
  destruct Hr as [-> | ->].
  - apply fine_other. intros d Hd. apply in_app_or in Hd. destruct Hd as [Hd|Hd]; apply repeat_spec in Hd; subst d; split; reflexivity || discriminate.
  - apply fine_app; [apply fine_takes|]. apply fine_gives. counts. cbn. lia.
Qed.
Lemma step_fine_own h k w bail w' ds r : worker_step h k w bail = Some (w', ds) -> own r -> fine r (if thing_eq r RWork then work_held h w else 0%nat) ds.
Proof.
  intros E Hr. destruct w as [| |[|j]|]; cbn [worker_step] in E; try discriminate.
  - injection E as <- <-. unfold enter. cbn [fine is_take is_give work_held]. split; [intros [X|X]; destruct Hr; subst; discriminate|].
    destruct Hr as [-> | ->]; [apply fine_takes|]. apply fine_other. intros d Hd. apply repeat_spec in Hd. subst d. split; [discriminate|reflexivity].
  - injection E as <- <-. unfold leave. cbn [work_held]. destruct Hr as [-> | ->]; cbn [thing_eq]; [apply fine_gives; lia|].
    apply fine_other. intros d Hd. apply repeat_spec in Hd. subst d. split; [discriminate|reflexivity].
  - assert (P : fine r (if thing_eq r RWork then work_held h (Loop (S j)) else 0%nat) (point h)).
    { apply fine_point_own; [exact Hr|]. intros ->. reflexivity. }
    destruct bail; [assert (E2 : point h ++ leave h = ds) by congruence; subst ds|injection E as <- <-; exact P]. apply fine_app; [exact P|].
    destruct (point_counts h r) as (A & B & _). rewrite A, B.
    match goal with |- fine _ ?t _ => replace t with (if thing_eq r RWork then vecs h else 0)%nat by (cbn [work_held]; lia) end.
    unfold leave. destruct Hr as [-> | ->]; cbn [thing_eq]; [apply fine_gives; lia|].
    apply fine_other. intros d Hd. apply repeat_spec in Hd. subst d. split; [discriminate|reflexivity].
Qed.
(** Uses of shared things in a worker's step. *)
Lemma step_fine_shared h k w bail w' ds r t : worker_step h k w bail = Some (w', ds) -> shared r ->
  t = match r with RData | RArray => 1%nat | RPlan => plans h | RTable => if table h then 1%nat else 0%nat | _ => 0%nat end -> fine r t ds.
Proof.
  intros E Hr Et. destruct (step_deeds _ _ _ _ _ _ E) as (_ & _ & _ & Sh & _). destruct (Sh r Hr) as [_ G0].
  assert (NG : forall d, In d ds -> is_give r d = false).
  { intros d Hd. destruct (is_give r d) eqn:X; [|reflexivity]. rewrite given_cnt in G0. pose proof (cnt_pos _ _ _ Hd X). lia. }
  destruct (Nat.eq_dec t 0) as [T0|T0]; [|apply fine_uses; [lia|exact NG]].
  apply fine_other. intros d Hd. split; [|apply NG, Hd]. intros ->.
  assert (U : In (Use r) (point h) \/ In (Use r) (enter h) \/ In (Use r) (leave h)).
  { destruct w as [| |[|j]|]; cbn [worker_step] in E; try discriminate; [| |destruct bail]; injection E as <- <-; auto.
    change (In (Use r) (point h ++ leave h)) in Hd. apply in_app_or in Hd. tauto. }
  assert (NL : ~ In (Use r) (leave h)) by (intros X; apply repeat_spec in X; discriminate).
  assert (NT : ~ In (Use r) (repeat (Take RTemp) (temps h))) by (intros X; apply repeat_spec in X; discriminate).
  assert (NG' : ~ In (Use r) (repeat (Give RTemp) (temps h))) by (intros X; apply repeat_spec in X; discriminate).
  assert (NE : In (Use r) (enter h) -> r = RData).
  { intros [X|X]; [congruence|apply repeat_spec in X; discriminate]. }
  destruct Hr as [H1 H2]. destruct U as [U|[U|U]]; [|apply NE in U; subst r t; discriminate T0|exact (NL U)].
  unfold point in U. destruct U as [U|U]; [assert (r = RData) by congruence; subst r t; discriminate T0|].
  rewrite !in_app_iff in U. destruct U as [U|[U|[U|[U|U]]]]; [| | |exact (NT U)|exact (NG' U)].
  - destruct (0 <? plans h)%nat eqn:X; [|exact U]. destruct U as [U|[]]. assert (r = RPlan) by congruence. subst r t. apply Nat.ltb_lt in X. lia.
  - destruct (table h) eqn:X; [|exact U]. destruct U as [U|[]]. assert (r = RTable) by congruence. subst r t. discriminate T0.
  - destruct (0 <? vecs h)%nat; [|exact U]. destruct U as [U|[]]. congruence.
Qed.

Section Inv.
  Context (h : host) (n : nat) (points : nat -> nat).
  Record Inv (s : state) (p : list instr) : Prop := {
    i_prog : program h n = p ++ rest s;
    i_shared : forall r, shared r -> taken r (deeds (log s)) = taken r (deeds_of p) /\ given r (deeds (log s)) = given r (deeds_of p);
    i_threads : forall i, spawned i (deeds (log s)) = spawned i (deeds_of p) /\ joined i (deeds (log s)) = joined i (deeds_of p);
    i_idle : forall i, workers s i = Idle <-> cnt (is_begin i) p = 0%nat;
    i_done : forall i, (0 < cnt (is_end i) p)%nat -> workers s i = Done;
    i_work : forall i, taken RWork (by_thread (Some i) (log s)) = (given RWork (by_thread (Some i) (log s)) + work_held h (workers s i))%nat;
    i_temp : forall i, taken RTemp (by_thread (Some i) (log s)) = given RTemp (by_thread (Some i) (log s));
    i_caller : by_thread None (log s) = deeds_of p;
    i_proper : forall r, shared r -> proper r (deeds (log s));
    i_own : forall i r, own r -> proper r (by_thread (Some i) (log s));
    i_alive : forall l1 i d l2, log s = l1 ++ (Some i, d) :: l2 ->
      joined i (deeds l1) = 0%nat /\ given RData (deeds l1) = 0%nat /\ given RTable (deeds l1) = 0%nat /\ (threaded h n = true -> spawned i (deeds l1) = 1%nat)
  }.
  Lemma proper_nil r : proper r [].
  Proof. intros l1 d l2 E. destruct l1; discriminate. Qed.
  Lemma inv_start : Inv (initial h n) [].
  Proof.
    constructor.
    - reflexivity.
    - intros; split; reflexivity.
    - intros; split; reflexivity.
    - intros; split; reflexivity.
    - intros i Hi; cbn in Hi; lia.
    - reflexivity.
    - reflexivity.
    - reflexivity.
    - intros; apply proper_nil.
    - intros; apply proper_nil.
    - intros l1 i d l2 H. destruct l1; discriminate H.
  Qed.
  Lemma prog_threaded x : In x (program h n) -> (forall i, is_begin i x = true -> deed_of x = if threaded h n then [Spawn i] else []) /\
    (forall i, is_end i x = true -> deed_of x = if threaded h n then [Join i] else []).
  Proof.
    intros Hx. assert (C : (forall i, is_begin i x = false /\ is_end i x = false) \/ exists j, x = (if threaded h n then Start j else Call j) \/ x = (if threaded h n then Wait j else Back j)).
    { unfold program in Hx. rewrite !in_app_iff in Hx. destruct Hx as [Hx|[Hx|[Hx|Hx]]].
      - left. intros i. destruct (before_begin h i) as [A B]. split.
        + destruct (is_begin i x) eqn:E; [|reflexivity]. pose proof (cnt_pos _ _ _ Hx E). lia.
        + destruct (is_end i x) eqn:E; [|reflexivity]. pose proof (cnt_pos _ _ _ Hx E). lia.
      - apply in_flat_map in Hx. destruct Hx as (j & _ & [<-|[<-|[]]]); [left; intros; split; reflexivity|right; eauto].
      - apply in_flat_map in Hx. destruct Hx as (j & _ & Hx). unfold end_worker in Hx. destruct (threaded h n); cbn in Hx.
        + destruct Hx as [<-|[<-|[]]]; [right; exists j; now right|left; intros; split; reflexivity].
        + destruct Hx as [<-|[]]. right; exists j; now right.
      - left. intros i. destruct (after_begin h i) as [A B]. split.
        + destruct (is_begin i x) eqn:E; [|reflexivity]. pose proof (cnt_pos _ _ _ Hx E). lia.
        + destruct (is_end i x) eqn:E; [|reflexivity]. pose proof (cnt_pos _ _ _ Hx E). lia. }
    destruct C as [C|(j & [-> | ->])].
    - split; intros i E; destruct (C i); congruence.
    - split; intros i E; destruct (threaded h n); cbn in E; try discriminate; apply Nat.eqb_eq in E; now subst.
    - split; intros i E; destruct (threaded h n); cbn in E; try discriminate; apply Nat.eqb_eq in E; now subst.
  Qed.
  Lemma spawn_begin p q i : program h n = p ++ q -> threaded h n = true -> spawned i (deeds_of p) = cnt (is_begin i) p /\ joined i (deeds_of p) = cnt (is_end i) p.
  Proof.
    intros E T. assert (Gn : forall l, incl l (program h n) -> spawned i (deeds_of l) = cnt (is_begin i) l /\ joined i (deeds_of l) = cnt (is_end i) l).
    { induction l as [|x l IH]; intros Hl; [split; reflexivity|]. destruct (IH ltac:(intros y Hy; apply Hl; now right)) as [A B].
      change (deeds_of (x :: l)) with (deed_of x ++ deeds_of l). rewrite spawned_cnt, joined_cnt, !cnt_app, !cnt_cons in *. rewrite A, B.
      destruct (prog_threaded x ltac:(apply Hl; now left)) as [P1 P2]. rewrite T in P1, P2.
      destruct x as [d|j|j|j|j]; cbn [deed_of is_begin is_end].
      - assert (D : is_spawn i d = false /\ is_join i d = false).
        { assert (Hd : In (Do d) (program h n)) by (apply Hl; now left). clear -Hd. 
          assert (Sp := prog_spawn h n i). unfold program in Hd. rewrite !in_app_iff in Hd. destruct Hd as [Hd|[Hd|[Hd|Hd]]].
          + unfold before in Hd. rewrite !in_app_iff in Hd. destruct Hd as [Hd|[Hd|Hd]].
            * destruct (table h); cbn in Hd; [|contradiction]. destruct Hd as [Hd|[]]. injection Hd as <-. split; reflexivity.
            * apply repeat_spec in Hd. injection Hd as ->. split; reflexivity.
            * cbn in Hd. destruct Hd as [Hd|[Hd|[]]]; injection Hd as <-; split; reflexivity.
          + apply in_flat_map in Hd. destruct Hd as (k & _ & Hd). unfold begin_worker in Hd. destruct (threaded h n); cbn in Hd; destruct Hd as [Hd|[Hd|[]]]; try discriminate; injection Hd as <-; split; reflexivity.
          + apply in_flat_map in Hd. destruct Hd as (k & _ & Hd). unfold end_worker in Hd. destruct (threaded h n); cbn in Hd; repeat (destruct Hd as [Hd|Hd]; try discriminate; try (injection Hd as <-; split; reflexivity)); contradiction.
          + unfold after in Hd. cbn in Hd. destruct Hd as [Hd|Hd]; [injection Hd as <-; split; reflexivity|]. destruct (table h), (keeps h); cbn in Hd; try contradiction.
            destruct Hd as [Hd|[]]. injection Hd as <-. split; reflexivity. }
        rewrite !cnt_cons. destruct D as [-> ->]. cbn. lia.
      - rewrite !cnt_cons. cbn. lia.
      - rewrite !cnt_cons. cbn. lia.
      - specialize (P1 j ltac:(cbn; apply Nat.eqb_refl)). discriminate P1.
      - specialize (P2 j ltac:(cbn; apply Nat.eqb_refl)). discriminate P2. }
    apply Gn. rewrite E. intros x Hx. apply in_or_app. now left.
  Qed.

  Lemma by_own_not i j ds : i <> j -> by_thread (Some j) (map (fun d => (Some i, d)) ds) = [].
  Proof. intros H. apply by_not. congruence. Qed.

  Lemma inv_worker s p i bail s' : Inv s p -> step h points s (Worker i bail) = Some s' -> Inv s' p.
  Proof.
    intros V E. cbn [step] in E. destruct (worker_step h (points i) (workers s i) bail) as [[w' ds]|] eqn:W; [|discriminate]. injection E as <-.
    destruct (step_deeds _ _ _ _ _ _ W) as (Hw & Hw' & Ab & Sh & Te & Wo). destruct V as [V1 V2 V3 V4 V5 V6 V7 V8 V9 V10 V11].
    assert (Nd : cnt (is_end i) p = 0%nat).
    { destruct (cnt (is_end i) p) eqn:X; [reflexivity|]. assert (D : workers s i = Done) by (apply V5; lia). destruct Hw as [Hw|[j Hw]]; congruence. }
    assert (Nb : (0 < cnt (is_begin i) p)%nat).
    { destruct (cnt (is_begin i) p) eqn:X; [|lia]. apply V4 in X. destruct Hw as [Hw|[j Hw]]; congruence. }
    constructor; cbn [log rest workers].
    - exact V1.
    - intros r Hr. destruct (V2 r Hr) as [A B]. destruct (Sh r Hr) as [C D]. rewrite deeds_app, deeds_own, !taken_cnt, !given_cnt, !cnt_app in *. lia.
    - intros j. destruct (V3 j) as [A B]. destruct (Ab j) as [C D]. rewrite deeds_app, deeds_own, !spawned_cnt, !joined_cnt, !cnt_app in *. lia.
    - intros j. unfold set_worker. destruct (Nat.eqb_spec j i) as [->|Hn]; [|apply V4]. split; [intros ->; destruct Hw' as [X|[k X]]; discriminate|lia].
    - intros j Hj. unfold set_worker. destruct (Nat.eqb_spec j i) as [->|Hn]; [lia|now apply V5].
    - intros j. unfold set_worker. rewrite by_app. destruct (Nat.eqb_spec j i) as [->|Hn].
      + rewrite by_own, !taken_cnt, !given_cnt, !cnt_app. specialize (V6 i). rewrite !taken_cnt, !given_cnt in V6, Wo. lia.
      + rewrite by_own_not by congruence. rewrite app_nil_r. apply V6.
    - intros j. rewrite by_app. destruct (Nat.eq_dec j i) as [->|Hn].
      + rewrite by_own, !taken_cnt, !given_cnt, !cnt_app. specialize (V7 i). rewrite !taken_cnt, !given_cnt in V7, Te. lia.
      + rewrite by_own_not by congruence. rewrite app_nil_r. apply V7.
    - rewrite by_app, by_not by discriminate. rewrite app_nil_r. exact V8.
    - intros r Hr. rewrite deeds_app, deeds_own. destruct (holding h n p (rest s) i r V1 Nb Nd Hr) as [G0 T0]. destruct (V2 r Hr) as [A B].
      apply proper_fine; [now apply V9|lia|]. apply (step_fine_shared _ _ _ _ _ _ r _ W Hr). rewrite A, B, G0, T0, (proj1 (prog_counts h n r Hr)). lia.
    - intros j r Hr. rewrite by_app. destruct (Nat.eq_dec j i) as [->|Hn].
      + rewrite by_own. pose proof (step_fine_own _ _ _ _ _ _ r W Hr) as FF. specialize (V6 i). specialize (V7 i).
        apply proper_fine; [now apply V10|destruct Hr as [-> | ->]; lia|].
        destruct Hr as [-> | ->]; cbn [thing_eq] in FF; [rewrite V6|rewrite V7];
          match goal with |- fine _ ?t _ => match type of FF with fine _ ?u _ => replace t with u by lia end end; exact FF.
      + rewrite by_own_not by congruence. rewrite app_nil_r. now apply V10.
    - intros l1 j d l2 El.
      assert (D : (exists t, log s = l1 ++ (Some j, d) :: t) \/ (exists t, l1 = log s ++ t /\ map (fun d => (Some i, d)) ds = t ++ (Some j, d) :: l2)).
      { clear -El. revert El. generalize (log s). intros L. revert L. induction l1 as [|a l1 IH]; intros L El.
        - destruct L as [|b L]; [right; exists []; auto|]. cbn in El. injection El as -> _. left. now exists L.
        - destruct L as [|b L]; [right; exists (a :: l1); auto|]. cbn in El. injection El as -> El. destruct (IH L El) as [[t ->]|(t & -> & Et)]; [left; exists t; reflexivity|right; exists t; auto]. }
      destruct D as [[t Et]|(t & -> & Et)]; [exact (V11 _ _ _ _ Et)|].
      assert (Dt : exists ds1 ds2, ds = ds1 ++ ds2 /\ t = map (fun d => (Some i, d)) ds1 /\ j = i).
      { clear -Et. revert ds Et. induction t as [|a t IH]; intros ds Et.
        - destruct ds as [|x ds]; [discriminate|]. cbn in Et. injection Et as -> -> _. exists [], (d :: ds). auto.
        - destruct ds as [|x ds]; [discriminate|]. cbn in Et. injection Et as <- Et. destruct (IH ds Et) as (d1 & d2 & -> & -> & ->). exists (x :: d1), d2. auto. }
      destruct Dt as (ds1 & ds2 & -> & -> & ->).
      destruct (holding h n p (rest s) i RData V1 Nb Nd ltac:(split; discriminate)) as [G0 _].
      destruct (holding h n p (rest s) i RTable V1 Nb Nd ltac:(split; discriminate)) as [G1 _].
      destruct (V2 RData ltac:(split; discriminate)) as [_ B0]. destruct (V2 RTable ltac:(split; discriminate)) as [_ B1].
      destruct (Sh RData ltac:(split; discriminate)) as [_ S0]. destruct (Sh RTable ltac:(split; discriminate)) as [_ S1].
      destruct (Ab i) as [A1 A2]. destruct (V3 i) as [C1 C2].
      rewrite deeds_app, deeds_own. rewrite !given_cnt, !joined_cnt, !spawned_cnt, !cnt_app in *.
      assert (J0 : joined i (deeds_of p) = 0%nat).
      { destruct (threaded h n) eqn:T; [rewrite (proj2 (spawn_begin p (rest s) i V1 T)); exact Nd|].
        destruct (prog_spawn h n i) as [_ J]. rewrite T in J. cbn in J. rewrite V1, deeds_of_app, joined_cnt, cnt_app in J. rewrite joined_cnt. lia. }
      rewrite joined_cnt in J0. split; [lia|]. split; [lia|]. split; [lia|].
      intros T. destruct (spawn_begin p (rest s) i V1 T) as [Sb _]. rewrite spawned_cnt in Sb.
      pose proof (prog_begin h n i) as PB. rewrite V1, cnt_app in PB. destruct (i <? n)%nat; lia.
  Qed.

  Lemma alive_snoc l d : (forall l1 i e l2, l = l1 ++ (Some i, e) :: l2 ->
      joined i (deeds l1) = 0%nat /\ given RData (deeds l1) = 0%nat /\ given RTable (deeds l1) = 0%nat /\ (threaded h n = true -> spawned i (deeds l1) = 1%nat)) ->
    forall l1 i e l2, l ++ [(None, d)] = l1 ++ (Some i, e) :: l2 ->
      joined i (deeds l1) = 0%nat /\ given RData (deeds l1) = 0%nat /\ given RTable (deeds l1) = 0%nat /\ (threaded h n = true -> spawned i (deeds l1) = 1%nat).
  Proof.
    intros H l1 i e l2 E. destruct l2 as [|a l2 _] using rev_ind.
    - apply app_inj_tail in E. destruct E as [_ E]. discriminate.
    - rewrite app_comm_cons, app_assoc in E. apply app_inj_tail in E. destruct E as [E _]. exact (H _ _ _ _ E).
  Qed.
  Lemma in_cnt_eq p q x i : program h n = p ++ x :: q -> is_begin i x = true -> cnt (is_begin i) p = 0%nat /\ (i < n)%nat.
  Proof.
    intros E Hx. pose proof (prog_begin h n i) as P. rewrite E, cnt_app, cnt_cons, Hx in P. destruct (i <? n)%nat eqn:L; [apply Nat.ltb_lt in L; lia|lia].
  Qed.

  Lemma inv_caller s p s' : Inv s p -> step h points s Caller = Some s' -> exists x, Inv s' (p ++ [x]) /\ rest s = x :: rest s'.
  Proof.
    intros V E. cbn [step] in E. destruct (rest s) as [|x q] eqn:R; [discriminate|].
    destruct V as [V1 V2 V3 V4 V5 V6 V7 V8 V9 V10 V11]. rewrite R in V1.
    assert (P1 : program h n = (p ++ [x]) ++ q) by (rewrite V1, <- app_assoc; reflexivity).
    pose proof (fine_prog h n) as FP.
    (* one deed of the caller *)
    assert (LOG : forall d ws, deed_of x = [d] -> (forall i, is_begin i x = true -> workers s i = Idle /\ ws i = Enter) ->
      (forall i, is_begin i x = false -> ws i = workers s i) -> (forall i, is_end i x = true -> workers s i = Done) ->
      (forall i, is_begin i x = true -> is_end i x = false) ->
      Inv {| rest := q; workers := ws; log := log s ++ [(None, d)] |} (p ++ [x])).
    { intros d ws Ed Hb Hnb He Hbe.
      assert (D1 : deeds_of (p ++ [x]) = deeds_of p ++ [d]) by (rewrite deeds_of_app; unfold deeds_of at 2; cbn [flat_map]; rewrite Ed; reflexivity).
      assert (WH : forall i, work_held h (ws i) = work_held h (workers s i)).
      { intros i. destruct (is_begin i x) eqn:B; [destruct (Hb i B) as [-> ->]; reflexivity|now rewrite (Hnb i B)]. }
      constructor; cbn [log rest workers].
      - exact P1.
      - intros r Hr. destruct (V2 r Hr) as [A B]. rewrite deeds_app, D1, !taken_cnt, !given_cnt, !cnt_app in *. cbn [deeds map snd]. lia.
      - intros i. destruct (V3 i) as [A B]. rewrite deeds_app, D1, !spawned_cnt, !joined_cnt, !cnt_app in *. cbn [deeds map snd]. lia.
      - intros i. rewrite cnt_app, cnt_cons. destruct (is_begin i x) eqn:B.
        + destruct (Hb i B) as [_ ->]. split; [discriminate|lia].
        + rewrite (Hnb i B). replace (cnt (is_begin i) p + (0 + cnt (is_begin i) []))%nat with (cnt (is_begin i) p) by (unfold cnt; cbn; lia). apply V4.
      - intros i Hi. rewrite cnt_app, cnt_cons in Hi. destruct (is_begin i x) eqn:B.
        + destruct (Hb i B) as [Hid _]. rewrite (Hbe i B) in Hi. replace (cnt (is_end i) p + (0 + cnt (is_end i) []))%nat with (cnt (is_end i) p) in Hi by (unfold cnt; cbn; lia).
          rewrite (V5 i Hi) in Hid. discriminate.
        + rewrite (Hnb i B). destruct (is_end i x) eqn:X; [now apply He|]. apply V5.
          replace (cnt (is_end i) p + (0 + cnt (is_end i) []))%nat with (cnt (is_end i) p) in Hi by (unfold cnt; cbn; lia). exact Hi.
      - intros i. rewrite by_app, by_caller_of, app_nil_r, WH. apply V6.
      - intros i. rewrite by_app, by_caller_of, app_nil_r. apply V7.
      - rewrite by_app, by_caller_of, D1, V8. reflexivity.
      - intros r Hr. rewrite deeds_app. cbn [deeds map snd]. destruct (V2 r Hr) as [A B].
        assert (F1 : fine r 0 (deeds_of p ++ d :: deeds_of q)).
        { specialize (FP r). rewrite V1, deeds_of_app in FP. change (deeds_of (x :: q)) with (deed_of x ++ deeds_of q) in FP. rewrite Ed in FP. exact FP. }
        intros m1 e m2 Em Hd. destruct m2 as [|z m2 _] using rev_ind.
        + apply app_inj_tail in Em. destruct Em as [<- <-]. unfold held. fold (deeds (log s)) in *. change (map snd (log s)) with (deeds (log s)). rewrite A, B. pose proof (fine_at r _ _ _ _ F1 Hd). lia.
        + rewrite app_comm_cons, app_assoc in Em. apply app_inj_tail in Em. destruct Em as [Em _]. exact (V9 r Hr _ _ _ Em Hd).
      - intros i r Hr. rewrite by_app, by_caller_of, app_nil_r. now apply V10.
      - now apply alive_snoc. }
    destruct x as [d|i|i|i|i].
    - injection E as <-. exists (Do d). split; [|reflexivity]. apply LOG; try reflexivity; discriminate.
    - injection E as <-. exists (Start i). split; [|reflexivity].
      assert (B0 : is_begin i (Start i) = true) by (cbn; apply Nat.eqb_refl). destruct (in_cnt_eq _ _ _ i V1 B0) as [C0 _].
      apply LOG; try reflexivity; try discriminate.
      + intros j Hj. cbn in Hj. apply Nat.eqb_eq in Hj. subst j. split; [now apply V4|]. unfold set_worker. now rewrite Nat.eqb_refl.
      + intros j Hj. cbn in Hj. unfold set_worker. now rewrite Hj.
    - destruct (workers s i) eqn:D; try discriminate. injection E as <-. exists (Wait i). split; [|reflexivity].
      apply LOG; try reflexivity; try discriminate. intros j Hj. cbn in Hj. apply Nat.eqb_eq in Hj. now subst j.
    - injection E as <-. exists (Call i). split; [|reflexivity].
      assert (B0 : is_begin i (Call i) = true) by (cbn; apply Nat.eqb_refl). destruct (in_cnt_eq _ _ _ i V1 B0) as [C0 _].
      assert (D1 : deeds_of (p ++ [Call i]) = deeds_of p) by (rewrite deeds_of_app; cbn; apply app_nil_r).
      constructor; cbn [log rest workers]; try assumption; rewrite ?D1; auto.
      + intros j. rewrite cnt_app, cnt_cons. unfold set_worker. cbn [is_begin]. destruct (Nat.eqb_spec j i) as [->|Hn]; [split; [discriminate|lia]|].
        replace (cnt (is_begin j) p + (0 + cnt (is_begin j) []))%nat with (cnt (is_begin j) p) by (unfold cnt; cbn; lia). apply V4.
      + intros j Hj. rewrite cnt_app, cnt_cons in Hj. cbn [is_end] in Hj. replace (cnt (is_end j) p + (0 + cnt (is_end j) []))%nat with (cnt (is_end j) p) in Hj by (unfold cnt; cbn; lia).
        unfold set_worker. destruct (Nat.eqb_spec j i) as [->|Hn]; [|now apply V5]. apply V4 in C0. rewrite (V5 i Hj) in C0. discriminate.
      + intros j. unfold set_worker. destruct (Nat.eqb_spec j i) as [->|Hn]; [|apply V6]. apply V4 in C0. specialize (V6 i). rewrite C0 in V6. exact V6.
    - destruct (workers s i) eqn:D; try discriminate. injection E as <-. exists (Back i). split; [|reflexivity].
      assert (D1 : deeds_of (p ++ [Back i]) = deeds_of p) by (rewrite deeds_of_app; cbn; apply app_nil_r).
      constructor; cbn [log rest workers]; try assumption; rewrite ?D1; auto.
      + intros j. rewrite cnt_app, cnt_cons. cbn [is_begin].
        replace (cnt (is_begin j) p + (0 + cnt (is_begin j) []))%nat with (cnt (is_begin j) p) by (unfold cnt; cbn; lia). apply V4.
      + intros jj Hj. rewrite cnt_app, cnt_cons in Hj. cbn [is_end] in Hj. destruct (Nat.eq_dec jj i) as [E0|Hn]; [rewrite E0; exact D|]. rewrite (proj2 (Nat.eqb_neq jj i) Hn) in Hj.
        apply V5. replace (cnt (is_end jj) p + (0 + cnt (is_end jj) []))%nat with (cnt (is_end jj) p) in Hj by (unfold cnt; cbn; lia). exact Hj.
  Qed.

  Lemma inv_run ms : forall s p s', Inv s p -> run h points s ms = Some s' -> exists q, Inv s' (p ++ q) /\ rest s = q ++ rest s'.
  Proof.
    induction ms as [|m ms IH]; intros s p s' V E; cbn [run] in E; [injection E as <-; exists []; now rewrite app_nil_r|].
    destruct (step h points s m) as [s1|] eqn:S; [|discriminate]. destruct m as [|i b].
    - destruct (inv_caller s p s1 V S) as (x & V1 & R). destruct (IH s1 _ s' V1 E) as (q & V2 & R2). exists (x :: q). rewrite <- app_assoc in V2. split; [exact V2|]. now rewrite R, R2.
    - pose proof (inv_worker s p i b s1 V S) as V1. destruct (IH s1 _ s' V1 E) as (q & V2 & R2). exists q. split; [exact V2|]. rewrite <- R2.
      cbn [step] in S. destruct (worker_step h (points i) (workers s i) b) as [[w ds]|]; [|discriminate]. now injection S as <-.
  Qed.
End Inv.
