(** PropRes.v - C128: every call gives back what it takes, except that it does not. *)
From Coq Require Import List ZArith Bool Lia Arith.
From Verif Require Import SpecRes ModelRes ProofsRes ProofsRes2 ProofsRes3.
Import ListNotations.

Local Lemma reach r n points ms s : run (host_of r) points (initial (host_of r) n) ms = Some s ->
  exists p, Inv (host_of r) n s p /\ program (host_of r) n = p ++ rest s.
Proof.
  intros E. destruct (inv_run _ n points ms _ [] _ (inv_start (host_of r) n) E) as (q & V & H).
  exists q. split; [exact V|]. exact H.
Qed.
Local Lemma done_inv r n points ms l : call_log (host_of r) n points ms = Some l ->
  exists s, log s = l /\ Inv (host_of r) n s (program (host_of r) n).
Proof.
  unfold call_log. destruct (run _ _ _ ms) as [s|] eqn:E; [|discriminate]. destruct (rest s) as [|x q] eqn:R; [|discriminate]. intros X. injection X as <-.
  destruct (reach _ _ _ _ _ E) as (p & V & P). rewrite R, app_nil_r in P. exists s. split; [reflexivity|]. now rewrite P.
Qed.
(** A thread is started for each of several workers, and even for one by the
    circular-impulse-response and copy functions. *)
Definition starts_threads (r : routine) (n : nat) : bool := match r with FCircSir | FCopy => true | _ => (1 <? n)%nat end.
Local Lemma starts r n : threaded (host_of r) n = starts_threads r n. Proof. destruct r; reflexivity. Qed.

(** At every moment of every call, whatever the scheduler does and wherever the
    workers stop: the thread data, the plans and the table are used, and given
    back, only while they are held; so are the buffers of a worker; and a worker
    does something only after it was started, before it was joined, and before
    the thread data and the table are given back. *)
Theorem C128_lifetimes r n points ms s : run (host_of r) points (initial (host_of r) n) ms = Some s ->
  (forall t, shared t -> proper t (deeds (log s))) /\
  (forall i t, own t -> proper t (by_thread (Some i) (log s))) /\
  (forall before i d after, log s = before ++ (Some i, d) :: after ->
     given RData (deeds before) = 0%nat /\ given RTable (deeds before) = 0%nat /\
     joined i (deeds before) = 0%nat /\ (starts_threads r n = true -> spawned i (deeds before) = 1%nat)).
Proof.
  intros E. destruct (reach _ _ _ _ _ E) as (p & V & _). split; [exact (i_proper _ _ _ _ V)|]. split; [exact (i_own _ _ _ _ V)|].
  intros l1 i d l2 El. destruct (i_alive _ _ _ _ V _ _ _ _ El) as (A & B & C & D). rewrite starts in D. auto.
Qed.
Print Assumptions C128_lifetimes.

(** When a call has returned, the thread data and every buffer of every worker
    have been given back, and each worker's thread was started once and joined
    once. *)
Theorem C128_returned r n points ms l : call_log (host_of r) n points ms = Some l ->
  taken RData (deeds l) = 1%nat /\ returned RData (deeds l) /\
  (r <> FSum true -> returned RTable (deeds l)) /\
  (forall i t, own t -> returned t (by_thread (Some i) l)) /\
  (forall i, spawned i (deeds l) = (if starts_threads r n && (i <? n)%nat then 1 else 0)%nat /\ joined i (deeds l) = spawned i (deeds l)).
Proof.
  intros E. destruct (done_inv _ _ _ _ _ E) as (s & <- & V). set (h := host_of r) in *.
  assert (SD : shared RData) by (split; discriminate). assert (ST : shared RTable) by (split; discriminate).
  destruct (i_shared _ _ _ _ V _ SD) as [A B]. destruct (prog_counts h n _ SD) as [A' B'].
  destruct (i_shared _ _ _ _ V _ ST) as [C D]. destruct (prog_counts h n _ ST) as [C' D'].
  unfold returned. split; [congruence|]. split; [congruence|]. split.
  { intros Hr. rewrite C, D, C', D'. subst h. destruct r as [ | | | | | | | | |[|]]; reflexivity || congruence. }
  split.
  - intros i t [-> | ->]; [|symmetry; apply (i_temp _ _ _ _ V)]. pose proof (i_work _ _ _ _ V i) as W.
    assert (X : work_held h (workers s i) = 0%nat); [|lia].
    destruct (Nat.ltb_spec i n) as [L|L].
    + rewrite (i_done _ _ _ _ V i); [reflexivity|]. rewrite prog_end, (proj2 (Nat.ltb_lt i n) L). lia.
    + rewrite (proj2 (i_idle _ _ _ _ V i)); [reflexivity|]. now rewrite prog_begin, (proj2 (Nat.ltb_ge i n) L).
  - intros i. destruct (i_threads _ _ _ _ V i) as [S J]. destruct (prog_spawn h n i) as [S' J']. subst h. rewrite starts in S', J'. split; congruence.
Qed.
Print Assumptions C128_returned.

(** No call hangs: from every moment of every call it can go on and return, and
    whatever the scheduler does it returns after a bounded number of steps. *)
Theorem C128_returns r n points ms s : run (host_of r) points (initial (host_of r) n) ms = Some s ->
  (exists ms' l, call_log (host_of r) n points (ms ++ ms') = Some l) /\
  (rest s <> [] -> exists m s', step (host_of r) points s m = Some s') /\
  (length ms <= length (program (host_of r) n) + list_sum (map (fun i => points i + 2) (seq 0 n)))%nat.
Proof.
  intros E. destruct (reach _ _ _ _ _ E) as (p & V & _). split; [|split].
  - destruct (completes _ _ points _ _ V) as (ms' & s' & R & F). exists ms', (log s').
    unfold call_log. rewrite (run_app _ _ ms ms' _ _ E), R, F. reflexivity.
  - apply (progress _ _ points _ _ V).
  - pose proof (run_measure _ _ _ ms _ _ _ (inv_start (host_of r) n) E) as M.
    unfold measure at 2 in M. cbn [rest workers initial] in M. unfold sum in M. cbn [work_left] in M. lia.
Qed.
Print Assumptions C128_returns.

(** What a call does not give back: the array of thread handles, always; the
    two FFT plans of every function that makes an FFT object, a lossless
    call included; the table of sum_fftconv, if CTRL-C was pressed. *)
Theorem C128_call_leaks_refuted r n points ms l : call_log (host_of r) n points ms = Some l ->
  outstanding RArray (deeds l) = 1%Z /\
  outstanding RPlan (deeds l) = match r with FSir _ | FAnnular _ _ | FFftconv | FOla | FSum _ => 2 | _ => 0 end%Z /\
  outstanding RTable (deeds l) = match r with FSum true => 1 | _ => 0 end%Z.
Proof.
  intros E. destruct (done_inv _ _ _ _ _ E) as (s & <- & V). set (h := host_of r) in *.
  assert (SA : shared RArray) by (split; discriminate). assert (SP : shared RPlan) by (split; discriminate). assert (ST : shared RTable) by (split; discriminate).
  destruct (i_shared _ _ _ _ V _ SA) as [A1 A2]. destruct (prog_counts h n _ SA) as [A3 A4].
  destruct (i_shared _ _ _ _ V _ SP) as [P1 P2]. destruct (prog_counts h n _ SP) as [P3 P4].
  destruct (i_shared _ _ _ _ V _ ST) as [T1 T2]. destruct (prog_counts h n _ ST) as [T3 T4].
  unfold outstanding. rewrite A1, A2, A3, A4, P1, P2, P3, P4, T1, T2, T3, T4. subst h. destruct r as [ | | | | | | | | |[|]]; repeat split; reflexivity.
Qed.
Print Assumptions C128_call_leaks_refuted.

(** Over a session the leak grows with every call. *)
Theorem C128_session_leaks_refuted (calls : list (routine * nat * (nat -> nat) * list move)) logs :
  Forall2 (fun c l => let '(r, n, points, ms) := c in call_log (host_of r) n points ms = Some l) calls logs ->
  outstanding RArray (flat_map deeds logs) = Z.of_nat (length calls) /\
  outstanding RPlan (flat_map deeds logs) =
    (2 * Z.of_nat (length (filter (fun c => match fst (fst (fst c)) with FSir _ | FAnnular _ _ | FFftconv | FOla | FSum _ => true | _ => false end) calls)))%Z.
Proof.
  assert (O : forall t a b, outstanding t (a ++ b) = (outstanding t a + outstanding t b)%Z).
  { intros t a b. unfold outstanding. rewrite !taken_cnt, !given_cnt, !cnt_app. lia. }
  induction 1 as [|[[[r n] points] ms] l cs ls H _ IH]; [split; reflexivity|].
  destruct (C128_call_leaks_refuted _ _ _ _ _ H) as (A & B & _). cbn [flat_map filter fst]. rewrite !O, A, B. destruct IH as [IA IB].
  rewrite IA, IB. cbn [length]. split; [lia|]. destruct r; cbn [length]; lia.
Qed.
Print Assumptions C128_session_leaks_refuted.

(** A call that returns: two workers, one interrupted, threads interleaved. *)
Example C128_ex : exists l, call_log (host_of (FSir true)) 2 (fun _ => 2%nat)
  ([Caller; Caller; Caller; Caller; Caller; Caller; Worker 0 false; Caller; Caller; Worker 1 false; Worker 0 false; Worker 1 true;
    Worker 0 false; Worker 0 false; Caller; Caller; Caller; Caller; Caller]) = Some l /\
  taken RWork (by_thread (Some 0%nat) l) = 2%nat /\ taken RWork (by_thread (Some 1%nat) l) = 2%nat /\ given RWork (deeds l) = 4%nat /\
  outstanding RPlan (deeds l) = 2%Z.
Proof. eexists. split; [vm_compute; reflexivity|]. vm_compute. auto. Qed.
