(** PropFine2.v - more calls one memory access at a time, and their progress
    (C106, C107). *)
From Coq Require Import Floats.
From Verif Require Import Base BaseLemmas ModelSir ModelArr ModelSmp ModelDas ModelConv ModelAna ModelFine ModelFine2 NumF
  SpecSmp SpecFine ProofsLocal ProofsLocalArr ProofsSmp ProofsCall ProofsSmp2 ProofsFine ProofsFine2 ProofsFine3
  ProofsFine4 ProofsFine5 ExJob PropSmp PropFine.

(** ** The analytic responses, sum_fftconv and fftconv_ola *)
Theorem C106_analytic : forall (N : Num) (J : ajob N) nthreads H0 sch,
  0 <= a_nt J -> 0 <= a_No J -> 1 <= nthreads -> length H0 = Z.to_nat (a_No J * a_nt J) ->
  (forall r, fine_cols_call (a_nt J) (p_ana_point J) (a_No J) nthreads sch H0 = Ok (Some r) ->
     exists sch', ana_call J nthreads sch' H0 = Ok (Some r)) /\
  (forall u, fine_cols_call (a_nt J) (p_ana_point J) (a_No J) nthreads sch H0 = UB u ->
     exists sch', ana_call J nthreads sch' H0 = UB u) /\
  (forall s, fsteps (a_nt J) (p_ana_point J) (finit (a_No J) nthreads H0) sch = Ok s -> ~ conflict (a_nt J) s).
Proof.
  intros N J nth H0 sch Hl HNo Hn HL. apply (fine_cols (a_nt J) (ana_point J)); auto.
  - intros n _. apply in_ana_point.
  - intros n H Hn' HL'. apply x_ana_point; auto.
Qed.
Print Assumptions C106_analytic.

Theorem C106_sum_fftconv : forall (N : Num) p (H : list (list N)) L H_M U U_M mode scr No nthreads Y0 sch,
  let len := H_M + U_M - 1 in
  let P := p_sum_fftconv_point p H L H_M U U_M mode scr in
  let pt := sum_fftconv_point p H L H_M U U_M mode scr in
  0 <= len -> 0 <= No -> 1 <= nthreads -> length Y0 = Z.to_nat (No * len) ->
  (forall r, fine_cols_call len P No nthreads sch Y0 = Ok (Some r) -> exists sch', cols_call pt No nthreads sch' Y0 = Ok (Some r)) /\
  (forall u, fine_cols_call len P No nthreads sch Y0 = UB u -> exists sch', cols_call pt No nthreads sch' Y0 = UB u) /\
  (forall s, fsteps len P (finit No nthreads Y0) sch = Ok s -> ~ conflict len s).
Proof.
  intros N p H L H_M U U_M mode scr No nth Y0 sch len P pt Hl HNo Hn HL. apply fine_cols; auto.
  - intros n _. apply in_sum_fftconv_point.
  - intros n Y Hn' HL'. apply (x_sum_fftconv_point p H L H_M U U_M mode scr n Y No); auto.
Qed.
Print Assumptions C106_sum_fftconv.

Theorem C106_ola : forall (N : Num) fuel p (M : mats N) block_len mode cs loc No nthreads Y0 sch,
  let len := m_AM M + m_BM M - 1 in
  let P := p_ola_point fuel p M block_len mode cs loc in
  let pt := ola_point fuel p M block_len mode cs loc in
  0 <= block_len -> 0 <= len -> 0 <= No -> 1 <= nthreads -> length Y0 = Z.to_nat (No * len) ->
  (forall r, fine_cols_call len P No nthreads sch Y0 = Ok (Some r) -> exists sch', cols_call pt No nthreads sch' Y0 = Ok (Some r)) /\
  (forall u, fine_cols_call len P No nthreads sch Y0 = UB u -> exists sch', cols_call pt No nthreads sch' Y0 = UB u) /\
  (forall s, fsteps len P (finit No nthreads Y0) sch = Ok s -> ~ conflict len s).
Proof.
  intros N fuel p M bl mode cs loc No nth Y0 sch len P pt Hb Hl HNo Hn HL. apply fine_cols; auto.
  - intros n _. apply in_ola_point. exact Hb.
  - intros n Y Hn' HL'. apply (x_ola_point fuel p M bl mode Hb cs loc n Y No); auto.
Qed.
Print Assumptions C106_ola.

(** ** Progress: no worker waits for another.  There is a number of steps after
    which a worker has finished, whatever the others do in the meantime: it
    depends on the call only, not on the schedule. *)
Theorem C107_progress : forall (N : Num) K (J : job N) nthreads H0,
  wf_job K J -> 1 <= nthreads -> length H0 = Z.to_nat (j_No J * nt (j_q J)) ->
  (forall n, 0 <= n < j_No J -> exists c e, alone K J n (col (nt (j_q J)) n H0) = Ok (c, e)) ->
  exists B, forall sch, exists s,
    fsteps (nt (j_q J)) (p_point K J) (finit (j_No J) nthreads H0) sch = Ok s /\
    (forall i t, nth_error (f_threads s) i = Some t -> B <= steps_of i sch -> f_is_done t = true).
Proof.
  intros N K J nth H0 W Hn HL Hal. exists (fine_bound (nt (j_q J)) (j_No J) nth (p_point K J) H0). intros sch.
  assert (Hok : forall sch', exists cs, gsteps (point K J) (init (j_No J) nth H0) sch' = Ok cs).
  { intros sch'. destruct (C04_completes N K J nth H0 sch' W Hn HL Hal) as (r & E & _).
    unfold call in E. apply bind_Ok_inv in E as (cs & E & _). eauto. }
  destruct (fine_completes1 (nt (j_q J)) (j_No J) nth (point K J) (p_point K J) (wj_nt K J W) (wj_No K J W) Hn
              (fine_in K J W) (fine_pt K J W) sch H0 HL Hok) as (fs & E & D).
  exists fs. split; [exact E|]. exact D.
Qed.
Print Assumptions C107_progress.

(** So the call returns once every worker has had that many steps. *)
Theorem C107_completes : forall (N : Num) K (J : job N) nthreads H0,
  wf_job K J -> 1 <= nthreads -> length H0 = Z.to_nat (j_No J * nt (j_q J)) ->
  (forall n, 0 <= n < j_No J -> exists c e, alone K J n (col (nt (j_q J)) n H0) = Ok (c, e)) ->
  exists B, forall sch, (forall i, 0 <= i < nthreads -> B <= steps_of (Z.to_nat i) sch) ->
    exists r, fine_call K J nthreads sch H0 = Ok (Some r).
Proof.
  intros N K J nth H0 W Hn HL Hal. exists (fine_bound (nt (j_q J)) (j_No J) nth (p_point K J) H0). intros sch Hs.
  assert (Hok : forall sch', exists cs, gsteps (point K J) (init (j_No J) nth H0) sch' = Ok cs).
  { intros sch'. destruct (C04_completes N K J nth H0 sch' W Hn HL Hal) as (r & E & _).
    unfold call in E. apply bind_Ok_inv in E as (cs & E & _). eauto. }
  destruct (fine_completes (nt (j_q J)) (j_No J) nth (point K J) (p_point K J) (wj_nt K J W) (wj_No K J W) Hn
              (fine_in K J W) (fine_pt K J W) sch H0 HL Hok) as (fs & E & D).
  unfold fine_call. rewrite E. cbn [bind]. rewrite (D Hs). eauto.
Qed.
Print Assumptions C107_completes.

(** Once the flag is down (CTRL-C, or a stop error) it stays down and no worker
    goes on to another observation point: each finishes the one it is at. *)
Theorem C107_abort : forall (N : Num) K (J : job N) (s s' : fstate (N:=N)) sch,
  f_running s = false -> fsteps (nt (j_q J)) (p_point K J) s sch = Ok s' ->
  f_running s' = false /\
  forall i t, nth_error (f_threads s) i = Some t ->
    exists t', nth_error (f_threads s') i = Some t' /\ f_n t' = f_n t.
Proof.
  intros N K J s s' sch. revert s. induction sch as [|e sch IH]; intros s Hr E; cbn [fsteps] in E.
  - injection E as <-. split; [exact Hr|]. eauto.
  - apply bind_Ok_inv in E as (s1 & E1 & E).
    assert (G : f_running s1 = false /\ forall i t, nth_error (f_threads s) i = Some t ->
              exists t', nth_error (f_threads s1) i = Some t' /\ f_n t' = f_n t).
    { destruct e as [j|]; cbn [fstep] in E1.
      2:{ injection E1 as <-. cbn. split; [reflexivity|]. eauto. }
      destruct (nth_error (f_threads s) j) as [tj|] eqn:Ej.
      2:{ injection E1 as <-. split; [exact Hr|]. eauto. }
      apply bind_Ok_inv in E1 as ([[H' r'] t'] & Es & E1). injection E1 as <-. cbn [f_running f_threads].
      assert (Q : r' = false /\ f_n t' = f_n tj).
      { rewrite Hr in Es. unfold fthread_step in Es.
        destruct (f_pc tj) as [|[err|u| |a k|a v k]|err| |].
        - destruct (f_n tj <? f_stop tj); injection Es as _ <- <-; auto.
        - injection Es as _ <- <-; auto.
        - discriminate.
        - discriminate.
        - apply bind_Ok_inv in Es as (x & _ & Es). injection Es as _ <- <-; auto.
        - apply bind_Ok_inv in Es as (x & _ & Es). injection Es as _ <- <-; auto.
        - injection Es as _ <- <-. destruct (SIRError_eqb err err_oob); auto.
        - injection Es as _ <- <-; auto.
        - injection Es as _ <- <-; auto. }
      destruct Q as [-> Q]. split; [reflexivity|]. intros i t Ei. rewrite upd_nth.
      destruct (Nat.eqb_spec j i) as [->|]; [|eauto]. rewrite Ej in Ei. injection Ei as <-.
      rewrite Ej. cbn. eauto. }
    destruct G as [G1 G2]. destruct (IH s1 G1 E) as [I1 I2]. split; [exact I1|].
    intros i t Ei. destruct (G2 i t Ei) as (t1 & Et1 & En1). destruct (I2 i t1 Et1) as (t2 & Et2 & En2).
    exists t2. split; [exact Et2|]. congruence.
Qed.
Print Assumptions C107_abort.

(** The columns of the example can be computed: three points, two workers. *)
Example C107_ex : wf_job SignedIdx (ex_job ex_rect lvl_warn 25) /\
  (forall n, 0 <= n < j_No (ex_job ex_rect lvl_warn 25) ->
     exists c e, alone SignedIdx (ex_job ex_rect lvl_warn 25) n (col 25 n (ex_H 25)) = Ok (c, e)).
Proof.
  split; [exact (proj1 ex_job_wf)|]. cbn [j_No ex_job]. intros n Hn.
  assert (E : n = 0 \/ n = 1 \/ n = 2) by lia. destruct E as [->|[->| ->]]; eexists; eexists; vm_compute; reflexivity.
Qed.
