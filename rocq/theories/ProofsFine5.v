(** ProofsFine5.v - progress at the granularity of single accesses: a worker
    that gets enough steps finishes, whatever the others do. *)
From Verif Require Import Base BaseLemmas ModelSir ModelArr ModelSmp ModelFine SpecSmp SpecFine ProofsLocal ProofsSmp ProofsFine.
From Coq Require Import ZifyBool ZifyNat.
Ltac Zify.zify_post_hook ::= Z.div_mod_to_equations.

Section Progress.
  Context {N : Num}.
  Local Notation buf := (list N).
  Local Notation st := (buf * SIRError)%type.
  Variables (nt No nthreads : Z) (pt : Z -> buf -> res st) (P : Z -> prog N SIRError).
  Hypothesis Hnt : 0 <= nt.
  Hypothesis HNo : 0 <= No.
  Hypothesis Hth : 1 <= nthreads.
  Hypothesis Hin : forall n, 0 <= n < No -> inside nt (P n).
  Hypothesis Hpt : forall n H, 0 <= n < No -> length H = Z.to_nat (No * nt) -> pt n H = exec (P n) (n * nt) H.
  Local Notation Rel := (Rel nt No P).

  (** Accesses a program makes on the column c. *)
  Fixpoint cost {A} (p : prog N A) (c : buf) : nat :=
    match p with
    | Read i k => S (match buf_get c i with Ok x => cost (k x) c | _ => 0 end)
    | Write i v k => S (match buf_upd c i (fun _ => v) with Ok c' => cost k c' | _ => 0 end)
    | _ => 0
    end.
  Fixpoint rest (m : nat) (n : Z) (H : buf) : nat :=
    match m with O => 0 | S m' => cost (P n) (col nt n H) + 4 + rest m' (n + 1) H end.
  Definition rank (H : buf) (t : fthread (N:=N)) : nat :=
    let more := rest (Z.to_nat (f_stop t - (f_n t + 1))) (f_n t + 1) H in
    match f_pc t with
    | FHead => 1 + rest (Z.to_nat (f_stop t - f_n t)) (f_n t) H
    | FRun p => 4 + cost p (col nt (f_n t) H) + more
    | FFlag _ => 3 + more
    | FCheck => 2 + more
    | FDone => 0
    end.

  Lemma rest_ext m : forall n H H', (forall k, n <= k < n + Z.of_nat m -> col nt k H = col nt k H') -> rest m n H = rest m n H'.
  Proof.
    induction m as [|m IH]; intros n H H' E; cbn [rest]; auto.
    rewrite (E n) by lia. rewrite (IH (n + 1) H H'); auto. intros k Hk. apply E. lia.
  Qed.
  Lemma rank_ext t H H' : (forall k, f_n t <= k < f_stop t -> col nt k H = col nt k H') ->
    (forall p, f_pc t = FRun p -> f_n t < f_stop t) -> rank H t = rank H' t.
  Proof.
    intros E Hr. unfold rank.
    assert (E1 : rest (Z.to_nat (f_stop t - (f_n t + 1))) (f_n t + 1) H = rest (Z.to_nat (f_stop t - (f_n t + 1))) (f_n t + 1) H').
    { apply rest_ext. intros k Hk. apply E. lia. }
    destruct (f_pc t) as [|p|e| |] eqn:Ep; try (rewrite E1; reflexivity); auto.
    - f_equal. apply rest_ext. intros k Hk. apply E. lia.
    - rewrite E1. rewrite (E (f_n t)); auto. specialize (Hr p eq_refl). lia.
  Qed.

  (** A step of worker i, seen from worker i and from the others. *)
  Lemma rank_own fs cs i ft r : Rel fs cs -> nth_error (f_threads fs) i = Some ft ->
    fthread_step nt P (f_H fs) (f_running fs) ft = Ok r -> (rank (fst (fst r)) (snd r) <= rank (f_H fs) ft - 1)%nat.
  Proof.
    intros R Ei E. destruct (rl_t _ _ _ fs cs R i ft Ei) as (ct & _ & T).
    pose proof (rl_lf _ _ _ fs cs R) as Lf. destruct T as [T1 T2 T3 T4 T5 T6].
    unfold fthread_step in E. destruct (f_pc ft) as [|p|e| |] eqn:Epc.
    - destruct (Z.ltb_spec (f_n ft) (f_stop ft)) as [Hlt|Hge]; injection E as <-; cbn [fst snd].
      + unfold rank. rewrite Epc. cbn [f_pc f_n f_stop].
        replace (Z.to_nat (f_stop ft - f_n ft)) with (S (Z.to_nat (f_stop ft - (f_n ft + 1)))) by lia.
        cbn [rest]. lia.
      + unfold rank. cbn [f_pc]. lia.
    - destruct T6 as (T6 & Hlt & Hip & _). assert (Hn : 0 <= f_n ft < No) by lia.
      destruct p as [err|u| |a k|a v k]; try discriminate.
      + injection E as <-. cbn [fst snd]. unfold rank. rewrite Epc. cbn [f_pc f_n f_stop cost]. lia.
      + cbn [inside] in Hip. destruct Hip as [Ha Hk].
        destruct (read_col nt No pt P Hnt HNo Hin Hpt (f_H fs) (f_n ft) a Hn Ha Lf) as (x & Ex & Exc).
        rewrite Ex in E. cbn [bind] in E. injection E as <-. cbn [fst snd]. unfold rank. rewrite Epc.
        cbn [f_pc f_n f_stop cost]. rewrite Exc. lia.
      + cbn [inside] in Hip. destruct Hip as [Ha Hk].
        destruct (write_cols nt No pt P Hnt HNo Hin Hpt (f_H fs) (f_n ft) a v Hn Ha Lf) as (H' & EH & LH & Ec & Eo).
        rewrite EH in E. cbn [bind] in E. injection E as <-. cbn [fst snd]. unfold rank. rewrite Epc.
        cbn [f_pc f_n f_stop cost]. rewrite Ec.
        rewrite (rest_ext _ (f_n ft + 1) H' (f_H fs)); [lia|]. intros j Hj. apply Eo; lia.
    - injection E as <-. cbn [fst snd]. unfold rank. rewrite Epc. cbn [f_pc f_n f_stop]. lia.
    - destruct (f_running fs); injection E as <-; cbn [fst snd]; unfold rank; rewrite Epc; cbn [f_pc f_n f_stop]; lia.
    - injection E as <-. cbn [fst snd]. unfold rank. rewrite Epc. lia.
  Qed.
  (** ... it changes at most its own current column. *)
  Lemma step_frame fs cs i ft r k : Rel fs cs -> nth_error (f_threads fs) i = Some ft ->
    fthread_step nt P (f_H fs) (f_running fs) ft = Ok r -> 0 <= k < No -> (k <> f_n ft \/ f_stop ft <= f_n ft) ->
    col nt k (fst (fst r)) = col nt k (f_H fs).
  Proof.
    intros R Ei E Hk Hne. destruct (rl_t _ _ _ fs cs R i ft Ei) as (ct & _ & T).
    pose proof (rl_lf _ _ _ fs cs R) as Lf. destruct T as [T1 T2 T3 T4 T5 T6].
    unfold fthread_step in E. destruct (f_pc ft) as [|p|e| |] eqn:Epc.
    - destruct (f_n ft <? f_stop ft); injection E as <-; reflexivity.
    - destruct T6 as (T6 & Hlt & Hip & _). assert (Hn : 0 <= f_n ft < No) by lia.
      destruct p as [err|u| |a q|a v q]; try discriminate.
      + injection E as <-. reflexivity.
      + apply bind_Ok_inv in E as (x & _ & E). injection E as <-. reflexivity.
      + cbn [inside] in Hip. destruct Hip as [Ha _].
        destruct (write_cols nt No pt P Hnt HNo Hin Hpt (f_H fs) (f_n ft) a v Hn Ha Lf) as (H' & EH & LH & Ec & Eo).
        rewrite EH in E. cbn [bind] in E. injection E as <-. cbn [fst]. apply Eo; lia.
    - injection E as <-. reflexivity.
    - destruct (f_running fs); injection E as <-; reflexivity.
    - injection E as <-. reflexivity.
  Qed.

  Lemma rank_step fs cs e fs' i ft : Rel fs cs -> fstep nt P fs e = Ok fs' -> nth_error (f_threads fs) i = Some ft ->
    exists ft', nth_error (f_threads fs') i = Some ft' /\
      (rank (f_H fs') ft' + (match e with Run j => if Nat.eqb i j then 1 else 0 | CtrlC => 0 end)
       <= Nat.max (rank (f_H fs) ft) 1)%nat /\
      (rank (f_H fs') ft' <= rank (f_H fs) ft)%nat.
  Proof.
    intros R E Ei. destruct e as [j|].
    2:{ cbn [fstep] in E. injection E as <-. cbn [f_H f_threads]. exists ft. split; [exact Ei|]. lia. }
    cbn [fstep] in E. destruct (nth_error (f_threads fs) j) as [fj|] eqn:Ej.
    2:{ injection E as <-. exists ft. split; [exact Ei|]. destruct (Nat.eqb_spec i j) as [->|]; [congruence|]. lia. }
    apply bind_Ok_inv in E as ([[H' run'] t'] & Es & E). injection E as <-. cbn [f_H f_threads].
    rewrite upd_nth. destruct (Nat.eqb_spec j i) as [->|Hji].
    - rewrite Ei in Ej. injection Ej as <-. rewrite Ei. cbn [option_map]. exists t'. split; [reflexivity|].
      rewrite Nat.eqb_refl. pose proof (rank_own fs cs i ft _ R Ei Es) as Hr. cbn [fst snd] in Hr. lia.
    - exists ft. split; [exact Ei|].
      replace (Nat.eqb i j) with false by (symmetry; apply Nat.eqb_neq; congruence).
      assert (Er : rank H' ft = rank (f_H fs) ft).
      { destruct (rl_t _ _ _ fs cs R i ft Ei) as (ct & _ & T). destruct T as [T1 T2 T3 T4 T5 T6].
        apply rank_ext.
        - intros k Hk. apply (step_frame fs cs j fj (H', run', t') k R Ej Es); [lia|].
          destruct (Nat.lt_ge_cases i j) as [Hl|Hl].
          + pose proof (rl_ord _ _ _ fs cs R i j ft fj Hl Ei Ej). lia.
          + pose proof (rl_ord _ _ _ fs cs R j i fj ft ltac:(lia) Ej Ei). lia.
        - intros p Ep. rewrite Ep in T6. lia. }
      rewrite Er. lia.
  Qed.

  Lemma rank_steps sch : forall fs cs fs' i ft, Rel fs cs -> fsteps nt P fs sch = Ok fs' ->
    nth_error (f_threads fs) i = Some ft ->
    exists ft', nth_error (f_threads fs') i = Some ft' /\
      (Z.of_nat (rank (f_H fs') ft') <= Z.max 0 (Z.of_nat (rank (f_H fs) ft) - steps_of i sch)).
  Proof.
    induction sch as [|e sch IH]; intros fs cs fs' i ft R E Ei; cbn [fsteps] in E.
    - injection E as <-. exists ft. split; [exact Ei|]. unfold steps_of. cbn. lia.
    - apply bind_Ok_inv in E as (fs1 & E1 & E).
      destruct (rank_step fs cs e fs1 i ft R E1 Ei) as (f1 & Ef1 & Hr1 & Hr2).
      pose proof (step_follows nt No pt P Hnt HNo Hin Hpt fs cs e R) as F. rewrite E1 in F.
      destruct F as (l & cs1 & _ & R1).
      destruct (IH fs1 cs1 fs' i f1 R1 E Ef1) as (f' & Ef' & Hr'). exists f'. split; [exact Ef'|].
      assert (S : steps_of i (e :: sch) = (match e with Run j => if Nat.eqb i j then 1 else 0 | CtrlC => 0 end) + steps_of i sch).
      { unfold steps_of. cbn [filter]. destruct e as [j|]; [destruct (Nat.eqb i j)|]; cbn [length]; lia. }
      rewrite S. assert (0 <= steps_of i sch) by (unfold steps_of; lia).
      destruct e as [j|]; [destruct (Nat.eqb i j)|]; lia.
  Qed.

  Lemma rank_zero H t : rank H t = 0%nat -> f_is_done t = true.
  Proof. unfold rank, f_is_done. destruct (f_pc t); intros E; reflexivity || lia. Qed.

  (** Bound on the steps of the workers of a call on H. *)
  Definition fine_bound (H : buf) : Z :=
    fold_right Z.max 0 (map (fun t => Z.of_nat (rank H t)) (f_threads (finit No nthreads H))).
  Lemma bound_le (l : list Z) x : In x l -> x <= fold_right Z.max 0 l.
  Proof. induction l as [|y l IH]; cbn [In fold_right]; intros Hx; [contradiction|]. destruct Hx as [<-|Hx]; [lia|]. specialize (IH Hx). lia. Qed.

  Lemma fine_num sch H fs : length H = Z.to_nat (No * nt) ->
    fsteps nt P (finit No nthreads H) sch = Ok fs -> length (f_threads fs) = Z.to_nat nthreads.
  Proof.
    intros HL E. pose proof (rel_init nt No nthreads pt P HNo Hth Hin Hpt H HL) as R0.
    pose proof (steps_follow nt No pt P Hnt HNo Hin Hpt sch _ _ R0) as F. rewrite E in F.
    destruct F as (l & cs & El & R). rewrite (rl_num _ _ _ fs cs R).
    assert (G : forall l (s s' : gstate (N:=N)), gsteps pt s l = Ok s' -> length (g_threads s') = length (g_threads s)).
    { clear. induction l as [|e l IH]; intros s s' E; cbn [gsteps] in E; [injection E as <-; reflexivity|].
      apply bind_Ok_inv in E as (s1 & E1 & E). rewrite (IH s1 s' E). destruct e as [i|]; cbn [gstep] in E1.
      - destruct (nth_error (g_threads s) i); [|injection E1 as <-; reflexivity].
        apply bind_Ok_inv in E1 as ([[H' r'] t'] & _ & E1). injection E1 as <-. cbn. apply length_upd.
      - injection E1 as <-. reflexivity. }
    rewrite (G _ _ _ El). unfold init. cbn [g_threads]. rewrite map_length, seq_length. reflexivity.
  Qed.
  Lemma fine_completes1 sch H : length H = Z.to_nat (No * nt) ->
    (forall sch', exists cs, gsteps pt (init No nthreads H) sch' = Ok cs) ->
    exists fs, fsteps nt P (finit No nthreads H) sch = Ok fs /\
      (forall i t, nth_error (f_threads fs) i = Some t -> fine_bound H <= steps_of i sch -> f_is_done t = true).
  Proof.
    intros HL Hok. pose proof (rel_init nt No nthreads pt P HNo Hth Hin Hpt H HL) as R0.
    destruct (fsteps nt P (finit No nthreads H) sch) as [fs|u|] eqn:E.
    - exists fs. split; [reflexivity|]. intros i t Ei Hs.
      pose proof (fine_num sch H fs HL E) as Li.
      assert (Hi : (i < Z.to_nat nthreads)%nat) by (rewrite <- Li; apply nth_error_Some; congruence).
      assert (Hi0 : exists ft, nth_error (f_threads (finit No nthreads H)) i = Some ft).
      { destruct (nth_error (f_threads (finit No nthreads H)) i) eqn:En; eauto. apply nth_error_None in En.
        cbn [finit f_threads] in En. rewrite map_length, seq_length in En. lia. }
      destruct Hi0 as (ft & Eft).
      destruct (rank_steps sch _ _ fs i ft R0 E Eft) as (ft' & Eft' & Hr).
      rewrite Ei in Eft'. injection Eft' as <-. apply (rank_zero (f_H fs)).
      assert (B : Z.of_nat (rank H ft) <= fine_bound H).
      { unfold fine_bound. apply bound_le. apply in_map_iff. exists ft. split; [reflexivity|]. exact (nth_error_In _ _ Eft). }
      change (f_H (finit No nthreads H)) with H in Hr. lia.
    - exfalso. destruct (proj1 (fine_fails nt No nthreads pt P Hnt HNo Hth Hin Hpt sch H HL) u E) as (l & El).
      destruct (Hok l) as (cs & Ec). congruence.
    - exfalso. destruct (proj2 (fine_fails nt No nthreads pt P Hnt HNo Hth Hin Hpt sch H HL) E) as (l & El).
      destruct (Hok l) as (cs & Ec). congruence.
  Qed.
  Lemma fine_completes sch H : length H = Z.to_nat (No * nt) ->
    (forall sch', exists cs, gsteps pt (init No nthreads H) sch' = Ok cs) ->
    exists fs, fsteps nt P (finit No nthreads H) sch = Ok fs /\
      ((forall i, 0 <= i < nthreads -> fine_bound H <= steps_of (Z.to_nat i) sch) -> f_all_done fs = true).
  Proof.
    intros HL Hok. destruct (fine_completes1 sch H HL Hok) as (fs & E & D). exists fs. split; [exact E|].
    intros Hs. unfold f_all_done. apply forallb_forall. intros t Ht. apply In_nth_error in Ht as (i & Ei).
    apply (D i t Ei). pose proof (fine_num sch H fs HL E) as Li.
    assert (Hi : (i < Z.to_nat nthreads)%nat) by (rewrite <- Li; apply nth_error_Some; congruence).
    specialize (Hs (Z.of_nat i) ltac:(lia)). rewrite Nat2Z.id in Hs. exact Hs.
  Qed.
End Progress.
