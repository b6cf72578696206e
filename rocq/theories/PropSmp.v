(** PropSmp.v - property theorems: work split, worker count, memory safety,
    schedule independence, status, abort (C01-C04, C08, C09, C36). *)
From Coq Require Import Floats.
From Verif Require Import Base BaseLemmas ModelSir ModelArr ModelSmp NumF ProofsLocal ProofsLocalArr
  ProofsSmp ProofsCall SpecSmp ProofsSmp2 ExJob.

(** C01: every observation point belongs to exactly one worker, the ranges
    are consecutive, start at 0 and end at No. *)
Theorem C01_partition : forall No n, 0 <= No -> 1 <= n ->
  part_start 0 No n = 0 /\ part_stop (n - 1) No n = No /\
  (forall t, part_stop t No n = part_start (t + 1) No n) /\
  (forall t, 0 <= t < n -> 0 <= part_start t No n <= part_stop t No n /\ part_stop t No n <= No) /\
  (forall m, 0 <= m < No -> exists t, owners No n m = [t]).
Proof.
  intros No n HNo Hn. split; [exact (part_start_0 No n Hn)|]. split; [exact (part_stop_last No n Hn)|].
  split; [exact (part_stop_next No n)|].
  split; [intros t Ht; split; [split; [exact (proj1 (part_range No n HNo Hn t Ht))|exact (part_start_le_stop No n HNo Hn t)]|exact (proj2 (part_range No n HNo Hn t Ht))]|].
  intros m Hm. exact (owners_unique No n m HNo Hn Hm).
Qed.
Print Assumptions C01_partition.
Example C01_ex : map (owners 7 3) [0; 1; 2; 3; 4; 5; 6] = [[0]; [0]; [1]; [1]; [2]; [2]; [2]]%nat.
Proof. vm_compute. reflexivity. Qed.

(** C02 *)
Theorem C02_worker_count : forall hw env No, 0 <= hw -> 0 <= No ->
  (1 <= num_threads hw env No) /\
  (1 <= No -> num_threads hw env No <= No) /\
  (forall e, env = Some e -> 1 <= e -> num_threads hw env No <= e) /\
  (1 <= hw -> num_threads hw env No <= hw).
Proof. exact num_threads_ok. Qed.
Print Assumptions C02_worker_count.
Example C02_ex : num_threads 8 (Some 4) 100 = 4 /\ num_threads 8 None 3 = 3 /\ num_threads 0 (Some 0) 5 = 1.
Proof. vm_compute. auto. Qed.

(** C03: whatever the transducer, the arithmetic and the inputs, computing one
    observation point into H[base .. base+nt) accesses no memory outside its
    arrays and changes nothing outside that range ... *)
Theorem C03_frame : forall (N : Num) K fuel (T : transducer N) q att lvl xo yo zo delay base H,
  0 <= nt q -> att_wf (nt q) att -> wf_transducer K q T ->
  0 <= base -> base + nt q <= Z.of_nat (length H) ->
  no_oob (serial K fuel T q att lvl xo yo zo delay base H) /\
  (forall H' e, serial K fuel T q att lvl xo yo zo delay base H = Ok (H', e) ->
     length H' = length H /\
     forall k, (Z.of_nat k < base \/ base + nt q <= Z.of_nat k) -> nth_error H' k = nth_error H k).
Proof. exact @serial_frame. Qed.
Print Assumptions C03_frame.

(** ... and reads nothing of H outside that range. *)
Theorem C03_reads : forall (N : Num) K fuel (T : transducer N) q att lvl xo yo zo delay pre post col pre' post',
  0 <= nt q -> att_wf (nt q) att -> wf_transducer K q T -> Z.of_nat (length col) = nt q ->
  forall H1 e, serial K fuel T q att lvl xo yo zo delay (Z.of_nat (length pre)) (pre ++ col ++ post) = Ok (H1, e) ->
  exists c, H1 = pre ++ c ++ post /\
    serial K fuel T q att lvl xo yo zo delay (Z.of_nat (length pre')) (pre' ++ col ++ post') = Ok (pre' ++ c ++ post', e).
Proof. exact @serial_reads. Qed.
Print Assumptions C03_reads.

(** The whole call, any worker count, any schedule, with or without CTRL-C. *)
Theorem C03_call_safe : forall (N : Num) K (J : job N) nthreads H0 sch,
  wf_job K J -> 1 <= nthreads -> length H0 = Z.to_nat (j_No J * nt (j_q J)) ->
  no_oob (call K J nthreads sch H0).
Proof. intros N K J n H0 sch W Hn HL. exact (good_no_oob _ _ (call_good K J W n H0 Hn HL sch)). Qed.
Print Assumptions C03_call_safe.

Example ex_job_wf : wf_job SignedIdx (ex_job ex_rect lvl_warn 25) /\
  length (ex_H 25) = Z.to_nat (j_No (ex_job ex_rect lvl_warn 25) * nt (j_q (ex_job ex_rect lvl_warn 25))).
Proof. split; [split; cbn; try lia; exact I|reflexivity]. Qed.

(** C04: a call that was not stopped leaves in column n exactly the
    single-point computation of observation point n ... *)
Theorem C04_columns : forall (N : Num) K (J : job N) nthreads H0 sch H' stt,
  wf_job K J -> 1 <= nthreads -> length H0 = Z.to_nat (j_No J * nt (j_q J)) ->
  call K J nthreads sch H0 = Ok (Some (H', stt, true)) ->
  length H' = length H0 /\
  forall n, 0 <= n < j_No J -> exists e, alone K J n (col (nt (j_q J)) n H0) = Ok (col (nt (j_q J)) n H', e).
Proof. intros N K J n H0 sch H' stt W Hn HL. exact (call_columns K J W n H0 Hn HL sch H' stt). Qed.
Print Assumptions C04_columns.

(** ... so the matrix does not depend on the worker count or the schedule. *)
Theorem C04_schedule_independent : forall (N : Num) K (J : job N) n1 n2 s1 s2 H0 H1 H2 st1 st2,
  wf_job K J -> 1 <= n1 -> 1 <= n2 -> length H0 = Z.to_nat (j_No J * nt (j_q J)) ->
  call K J n1 s1 H0 = Ok (Some (H1, st1, true)) ->
  call K J n2 s2 H0 = Ok (Some (H2, st2, true)) -> H1 = H2.
Proof. exact @call_deterministic. Qed.
Print Assumptions C04_schedule_independent.

(** A call without CTRL-C and without an out-of-bounds stop is not stopped. *)
Theorem C04_not_stopped : forall (N : Num) K (J : job N) nthreads H0 sch H' stt r,
  wf_job K J -> 1 <= nthreads -> length H0 = Z.to_nat (j_No J * nt (j_q J)) ->
  no_ctrlc sch ->
  (forall n c, 0 <= n < j_No J -> alone K J n (col (nt (j_q J)) n H0) <> Ok (c, err_oob)) ->
  call K J nthreads sch H0 = Ok (Some (H', stt, r)) -> r = true.
Proof.
  intros N K J n H0 sch H' stt r W Hn HL Hc.
  exact (call_running K J W n H0 Hn HL sch H' stt r (existsb_ctrlc sch Hc)).
Qed.
Print Assumptions C04_not_stopped.

(** If every single-point computation returns, so does the call: no schedule
    gets stuck, and a schedule giving every worker 3 steps per point plus one
    completes it. *)
Theorem C04_completes : forall (N : Num) K (J : job N) nthreads H0 sch,
  wf_job K J -> 1 <= nthreads -> length H0 = Z.to_nat (j_No J * nt (j_q J)) ->
  (forall n, 0 <= n < j_No J -> exists c e, alone K J n (col (nt (j_q J)) n H0) = Ok (c, e)) ->
  exists r, call K J nthreads sch H0 = Ok r /\
  ((forall i, 0 <= i < nthreads ->
     3 * (part_stop i (j_No J) nthreads - part_start i (j_No J) nthreads) + 1 <= steps_of (Z.to_nat i) sch) ->
   r <> None).
Proof. intros N K J n H0 sch W Hn HL. exact (call_completes K J W n H0 Hn HL sch). Qed.
Print Assumptions C04_completes.

(** Two different worker counts and schedules on a concrete job. *)
Example C04_ex :
  call SignedIdx (ex_job ex_rect lvl_warn 25) 2 (round_robin 10 2) (ex_H 25) =
  call SignedIdx (ex_job ex_rect lvl_warn 25) 3 ([Run 2] ++ round_robin 10 3)%nat (ex_H 25) /\
  (exists H', call SignedIdx (ex_job ex_rect lvl_warn 25) 2 (round_robin 10 2) (ex_H 25)
              = Ok (Some (H', err_none, true)) /\ H' <> ex_H 25).
Proof.
  split; [vm_compute; reflexivity|]. eexists. split; [vm_compute; reflexivity|].
  intros E. apply (f_equal (fun l => map (fun x => PrimFloat.eqb x 0%float) l)) in E.
  vm_compute in E. discriminate.
Qed.

(** C08, more than one worker, any transducer but dreamsphere: the status is
    zero iff every observation point had status zero, and a non-zero status is
    the status of some observation point. *)
Theorem C08_status_partial : forall (N : Num) K (J : job N) nthreads H0 sch H' stt,
  wf_job K J -> 1 < nthreads -> length H0 = Z.to_nat (j_No J * nt (j_q J)) ->
  is_sphere (j_T J) = false ->
  call K J nthreads sch H0 = Ok (Some (H', stt, true)) ->
  (stt = err_none <-> forall n c e, 0 <= n < j_No J ->
     alone K J n (col (nt (j_q J)) n H0) = Ok (c, e) -> e = err_none) /\
  (stt <> err_none -> exists n c, 0 <= n < j_No J /\ alone K J n (col (nt (j_q J)) n H0) = Ok (c, stt)).
Proof.
  intros N K J n H0 sch H' stt W Hn HL Hs E.
  exact (call_status_spec K J W n H0 (Z.lt_le_incl _ _ Hn) HL sch H' stt Hn Hs E).
Qed.
Print Assumptions C08_status_partial.
Example C08_ex : exists H',
  call SignedIdx (ex_job ex_rect lvl_warn 18) 2 (round_robin 10 2) (ex_H 18) = Ok (Some (H', err_warn_oob, true)).
Proof. eexists. vm_compute. reflexivity. Qed.

(** One worker: whatever happened, the status is 'none'. *)
Theorem C08_single_worker : forall (N : Num) K (J : job N) nthreads H0 sch H' stt run,
  nthreads <= 1 -> call K J nthreads sch H0 = Ok (Some (H', stt, run)) -> stt = err_none.
Proof.
  intros N K J nthreads H0 sch H' stt run Hn E. unfold call in E.
  destruct (gsteps _ _ _) as [s| |]; cbn [bind] in E; try discriminate.
  destruct (all_done s); [|discriminate]. injection E as _ <- _. unfold call_status.
  destruct (Z.ltb_spec 1 nthreads); [lia|reflexivity].
Qed.
Print Assumptions C08_single_worker.

(** C08 is false with one worker: the same call, whose first point warns when
    two workers are used, returns status 0. *)
Theorem C08_single_worker_refuted : exists (J : job FI) H0 H' n c,
  wf_job SignedIdx J /\ length H0 = Z.to_nat (j_No J * nt (j_q J)) /\
  call SignedIdx J 1 (round_robin 10 1) H0 = Ok (Some (H', err_none, true)) /\
  0 <= n < j_No J /\ alone SignedIdx J n (col (nt (j_q J)) n H0) = Ok (c, err_warn_oob).
Proof.
  exists (ex_job ex_rect lvl_warn 18), (ex_H 18). eexists. exists 2. eexists.
  split; [split; cbn; try lia; exact I|]. split; [reflexivity|].
  split; [vm_compute; reflexivity|]. split; [cbn; lia|]. vm_compute. reflexivity.
Qed.
Print Assumptions C08_single_worker_refuted.

(** C09 is false: dreamsphere with two workers and a warning returns 0. *)
Theorem C09_sphere_refuted : exists (J : job FI) H0 H' n c,
  wf_job SignedIdx J /\ length H0 = Z.to_nat (j_No J * nt (j_q J)) /\ is_sphere (j_T J) = true /\
  call SignedIdx J 2 (round_robin 10 2) H0 = Ok (Some (H', err_none, true)) /\
  0 <= n < j_No J /\ alone SignedIdx J n (col (nt (j_q J)) n H0) = Ok (c, err_warn_oob).
Proof.
  exists (ex_job (@TSphere FI 1%float 20%float) lvl_warn 18), (ex_H 18). eexists. exists 2. eexists.
  split; [split; cbn; try lia; exact I|]. split; [reflexivity|]. split; [reflexivity|].
  split; [vm_compute; reflexivity|]. split; [cbn; lia|]. vm_compute. reflexivity.
Qed.
Print Assumptions C09_sphere_refuted.

(** C36: in every reachable state, also after CTRL-C or a stop, each column
    is untouched or complete ... *)
Theorem C36_prefix : forall (N : Num) K (J : job N) nthreads H0 sch s,
  wf_job K J -> 1 <= nthreads -> length H0 = Z.to_nat (j_No J * nt (j_q J)) ->
  gsteps (point K J) (init (j_No J) nthreads H0) sch = Ok s ->
  length (g_H s) = length H0 /\
  forall n, 0 <= n < j_No J -> col (nt (j_q J)) n (g_H s) = col (nt (j_q J)) n H0 \/
    exists e, alone K J n (col (nt (j_q J)) n H0) = Ok (col (nt (j_q J)) n (g_H s), e).
Proof. intros N K J n H0 sch s W Hn HL. exact (call_prefix K J W n H0 Hn HL sch s). Qed.
Print Assumptions C36_prefix.

(** ... and once the flag is down it stays down, no worker goes on to another
    observation point, and after three more steps it has finished. *)
Theorem C36_abort_prompt : forall (N : Num) K (J : job N) nthreads H0 sch1 sch2 s s',
  wf_job K J -> 1 <= nthreads -> length H0 = Z.to_nat (j_No J * nt (j_q J)) ->
  gsteps (point K J) (init (j_No J) nthreads H0) sch1 = Ok s -> g_running s = false ->
  gsteps (point K J) s sch2 = Ok s' ->
  g_running s' = false /\
  (forall i t, nth_error (g_threads s) i = Some t ->
     exists t', nth_error (g_threads s') i = Some t' /\ t_n t' = t_n t /\
       (3 <= steps_of i sch2 -> t_pc t' = PDone)).
Proof. intros N K J n H0 sch1 sch2 s s'. exact (call_abort K J n H0 sch1 sch2 s s'). Qed.
Print Assumptions C36_abort_prompt.
Example C36_ex : exists H' stt,
  call SignedIdx (ex_job ex_rect lvl_warn 25) 1 [Run 0%nat; CtrlC; Run 0%nat; Run 0%nat] (ex_H 25)
  = Ok (Some (H', stt, false)).
Proof. do 2 eexists. vm_compute. reflexivity. Qed.
