(** ProofsRes3.v - progress of the interleavings of ModelRes. *)
From Coq Require Import List ZArith Bool Lia Arith.
From Verif Require Import SpecRes ModelRes ProofsRes ProofsRes2.
Import ListNotations.

Definition work_left (pts : nat) (w : worker) : nat := match w with Idle | Enter => pts + 2 | Loop k => k + 1 | Done => 0 end.
Definition sum (f : nat -> nat) (n : nat) : nat := list_sum (map f (seq 0 n)).
Lemma sum_S f n : sum f (S n) = (sum f n + f n)%nat.
Proof. unfold sum. rewrite seq_S, map_app, list_sum_app. cbn [map list_sum fold_right Nat.add]. lia. Qed.
Lemma sum_ext f g n : (forall i, (i < n)%nat -> f i = g i) -> sum f n = sum g n.
Proof. induction n as [|n IH]; intros H; [reflexivity|]. rewrite !sum_S, IH, H by (intros; try apply H; lia). reflexivity. Qed.
Lemma sum_drop f g n i : (i < n)%nat -> (g i < f i)%nat -> (forall j, j <> i -> g j = f j) -> (sum g n < sum f n)%nat.
Proof.
  induction n as [|n IH]; intros Hi Hg H; [lia|]. rewrite !sum_S. destruct (Nat.eq_dec i n) as [->|Hn].
  - rewrite (sum_ext g f n) by (intros j Hj; apply H; lia). lia.
  - rewrite (H n) by congruence. specialize (IH ltac:(lia) Hg H). lia.
Qed.

Section Progress.
  Context (h : host) (n : nat) (points : nat -> nat).
  Local Notation Inv := (Inv h n).
  Definition measure (s : state) : nat := (length (rest s) + sum (fun i => work_left (points i) (workers s i)) n)%nat.
  Lemma awake_lt s p i : Inv s p -> workers s i <> Idle -> (i < n)%nat.
  Proof.
    intros V H. destruct (le_lt_dec n i) as [L|L]; [|exact L]. exfalso. apply H. apply (i_idle _ _ _ _ V).
    pose proof (prog_begin h n i) as P. rewrite (i_prog _ _ _ _ V), cnt_app in P. rewrite (proj2 (Nat.ltb_ge i n) L) in P. lia.
  Qed.
  Lemma begun p x q i : program h n = p ++ x :: q -> is_end i x = true -> (0 < cnt (is_begin i) p)%nat.
  Proof.
    intros E Hx. assert (Li : (i < n)%nat).
    { pose proof (prog_end h n i) as P. rewrite E, cnt_app, cnt_cons, Hx in P. destruct (Nat.ltb_spec i n); [assumption|lia]. }
    unfold program in E. rewrite app_assoc in E. set (AB := before h ++ flat_map (begin_worker h n) (seq 0 n)) in *.
    assert (B1 : cnt (is_begin i) AB = 1%nat).
    { unfold AB. rewrite cnt_app, (proj1 (before_begin h i)).
      rewrite (cnt_flat _ _ i 1) by (intros j; unfold begin_worker; rewrite !cnt_cons; destruct (threaded h n); cbn; destruct (Nat.eqb i j); reflexivity).
      cbn [Nat.leb andb Nat.add]. now rewrite (proj2 (Nat.ltb_lt i n) Li). }
    assert (B0 : cnt (is_end i) AB = 0%nat).
    { unfold AB. rewrite cnt_app, (proj2 (before_begin h i)).
      apply (cnt_flat0 (begin_worker h n) _). intros j; unfold begin_worker; destruct (threaded h n); reflexivity. }
    clearbody AB. assert (D : (exists t, AB = p ++ x :: t) \/ (exists t, p = AB ++ t)).
    { clear -E. revert E. generalize (flat_map (end_worker h n) (seq 0 n) ++ after h). intros R. revert AB. induction p as [|a p IH]; intros AB E.
      - destruct AB as [|b AB]; [right; exists []; reflexivity|]. cbn in E. injection E as -> _. left. now exists AB.
      - destruct AB as [|b AB]; [right; now exists (a :: p)|]. cbn in E. injection E as -> E. destruct (IH AB E) as [[t ->]|[t ->]]; [left; now exists t|right; now exists t]. }
    destruct D as [[t ->]|[t ->]]; [rewrite cnt_app, cnt_cons, Hx in B0; lia|]. rewrite cnt_app, B1. lia.
  Qed.
  Lemma progress s p : Inv s p -> rest s <> [] -> exists m s', step h points s m = Some s'.
  Proof.
    intros V H. destruct (rest s) as [|x q] eqn:R; [congruence|]. pose proof (i_prog _ _ _ _ V) as P. rewrite R in P.
    assert (W : forall i, is_end i x = true -> workers s i <> Idle).
    { intros i Hi X. apply (i_idle _ _ _ _ V) in X. pose proof (begun _ _ _ _ P Hi). lia. }
    assert (M : forall i, is_end i x = true -> workers s i <> Done -> exists m s', step h points s m = Some s').
    { intros i Hi Hd. exists (Worker i false). cbn [step]. specialize (W i Hi). destruct (workers s i) as [| |[|k]|]; try congruence; cbn [worker_step]; eauto. }
    destruct x as [d|i|i|i|i].
    - exists Caller. cbn [step]. rewrite R. eauto.
    - exists Caller. cbn [step]. rewrite R. eauto.
    - destruct (workers s i) eqn:D; try (apply (M i); [cbn; apply Nat.eqb_refl|rewrite D; discriminate]). exists Caller. cbn [step]. rewrite R, D. eauto.
    - exists Caller. cbn [step]. rewrite R. eauto.
    - destruct (workers s i) eqn:D; try (apply (M i); [cbn; apply Nat.eqb_refl|rewrite D; discriminate]). exists Caller. cbn [step]. rewrite R, D. eauto.
  Qed.
  Lemma sum_set ws i w : work_left (points i) w = work_left (points i) (ws i) -> sum (fun j => work_left (points j) (set_worker ws i w j)) n = sum (fun j => work_left (points j) (ws j)) n.
  Proof. intros H. apply sum_ext. intros j _. unfold set_worker. destruct (Nat.eqb_spec j i) as [->|]; [exact H|reflexivity]. Qed.
  Lemma step_measure s p m s' : Inv s p -> step h points s m = Some s' -> (measure s' < measure s)%nat.
  Proof.
    intros V E. destruct m as [|i b].
    - pose proof (inv_caller h n points s p s' V E) as (x & V1 & R). pose proof (i_prog _ _ _ _ V) as P. rewrite R in P.
      unfold measure. rewrite R. cbn [length]. cbn [step] in E. rewrite R in E. destruct x as [d|i|i|i|i].
      + injection E as <-. cbn [rest workers]. lia.
      + injection E as <-. cbn [rest workers]. rewrite sum_set; [lia|].
        assert (B0 : is_begin i (Start i) = true) by (cbn; apply Nat.eqb_refl). destruct (in_cnt_eq h n _ _ _ i P B0) as [C0 _].
        rewrite (proj2 (i_idle _ _ _ _ V i) C0). reflexivity.
      + destruct (workers s i); try discriminate. injection E as <-. cbn [rest workers]. lia.
      + injection E as <-. cbn [rest workers]. rewrite sum_set; [lia|].
        assert (B0 : is_begin i (Call i) = true) by (cbn; apply Nat.eqb_refl). destruct (in_cnt_eq h n _ _ _ i P B0) as [C0 _].
        rewrite (proj2 (i_idle _ _ _ _ V i) C0). reflexivity.
      + destruct (workers s i); try discriminate. injection E as <-. cbn [rest workers]. lia.
    - cbn [step] in E. destruct (worker_step h (points i) (workers s i) b) as [[w ds]|] eqn:W; [|discriminate]. injection E as <-.
      unfold measure. cbn [rest workers]. apply Nat.add_lt_mono_l. apply (sum_drop _ _ n i).
      + apply (awake_lt s p i V). intros X. rewrite X in W. discriminate.
      + unfold set_worker. rewrite Nat.eqb_refl. destruct (workers s i) as [| |[|k]|]; cbn [worker_step] in W; try discriminate.
        * injection W as <- _. cbn. lia.
        * injection W as <- _. cbn. lia.
        * destruct b; injection W as <- _; cbn; lia.
      + intros j Hj. unfold set_worker. now rewrite (proj2 (Nat.eqb_neq j i) Hj).
  Qed.
  Lemma run_measure ms : forall s p s', Inv s p -> run h points s ms = Some s' -> (length ms + measure s' <= measure s)%nat.
  Proof.
    induction ms as [|m ms IH]; intros s p s' V E; cbn [run] in E; [injection E as <-; cbn; lia|].
    destruct (step h points s m) as [s1|] eqn:S; [|discriminate]. pose proof (step_measure s p m s1 V S) as M.
    assert (R1 : run h points s [m] = Some s1) by (cbn [run]; now rewrite S).
    destruct (inv_run h n points [m] s p s1 V R1) as (q & V1 & _). specialize (IH _ _ _ V1 E). cbn [length]. lia.
  Qed.
  Lemma run_app ms1 : forall ms2 s s1, run h points s ms1 = Some s1 -> run h points s (ms1 ++ ms2) = run h points s1 ms2.
  Proof.
    induction ms1 as [|m ms1 IH]; intros ms2 s s1 E; cbn [run app] in *; [now injection E as ->|].
    destruct (step h points s m) as [s2|]; [|discriminate]. now apply IH.
  Qed.
  Lemma completes s p : Inv s p -> exists ms s', run h points s ms = Some s' /\ rest s' = [].
  Proof.
    remember (measure s) as k eqn:K. revert s p K. induction k as [k IH] using lt_wf_ind. intros s p K V.
    destruct (rest s) as [|x q] eqn:R; [exists [], s; split; [reflexivity|exact R]|].
    destruct (progress s p V ltac:(congruence)) as (m & s1 & S). pose proof (step_measure s p m s1 V S) as M.
    assert (R1 : run h points s [m] = Some s1) by (cbn [run]; now rewrite S).
    destruct (inv_run h n points [m] s p s1 V R1) as (p1 & V1 & _).
    destruct (IH (measure s1) ltac:(lia) s1 _ eq_refl V1) as (ms & s' & E & F). exists (m :: ms), s'. split; [|exact F].
    cbn [run]. now rewrite S.
  Qed.
End Progress.
