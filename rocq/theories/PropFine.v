(** PropFine.v - calls executed one memory access at a time (C106). *)
From Coq Require Import Floats.
From Verif Require Import Base BaseLemmas ModelSir ModelArr ModelSmp ModelDas ModelConv ModelFine NumF SpecSmp SpecFine
  ProofsLocal ProofsLocalArr ProofsSmp ProofsCall ProofsSmp2 ProofsFine ProofsFine2 ProofsFine3 ExJob PropSmp.

(** Whatever the interleaving of the single loads and stores of the workers,
    a completed transducer call has the result, the status and the flag of a
    call in which the workers compute whole observation points one at a time;
    a failing one fails as such a call can. *)
Theorem C106_calls : forall (N : Num) K (J : job N) nthreads H0 sch,
  wf_job K J -> 1 <= nthreads -> length H0 = Z.to_nat (j_No J * nt (j_q J)) ->
  (forall r, fine_call K J nthreads sch H0 = Ok (Some r) -> exists sch', call K J nthreads sch' H0 = Ok (Some r)) /\
  (forall u, fine_call K J nthreads sch H0 = UB u -> exists sch', call K J nthreads sch' H0 = UB u).
Proof.
  intros N K J nth H0 sch W Hn HL.
  pose proof (wj_nt K J W) as Hnt. pose proof (wj_No K J W) as HNo. pose proof (wj_att K J W) as Ha.
  assert (Hin : forall n, 0 <= n < j_No J -> inside (nt (j_q J)) (p_point K J n)) by (intros n _; apply in_point; exact Ha).
  assert (Hpt : forall n H, 0 <= n < j_No J -> length H = Z.to_nat (j_No J * nt (j_q J)) ->
            point K J n H = exec (p_point K J n) (n * nt (j_q J)) H) by (intros n H Hn' HL'; apply x_point; auto).
  split.
  - intros r E. unfold fine_call in E. apply bind_Ok_inv in E as (fs & Ef & E).
    destruct (f_all_done fs) eqn:D; [|discriminate]. injection E as <-.
    destruct (fine_done (nt (j_q J)) (j_No J) nth (point K J) (p_point K J) Hnt HNo Hn Hin Hpt sch H0 fs HL Ef D)
      as (sch' & cs & Ec & Dc & Eh & Er & Et).
    exists sch'. unfold call. rewrite Ec. cbn [bind]. rewrite Dc, Eh, Er, Et. reflexivity.
  - intros u E. unfold fine_call in E.
    destruct (fsteps _ _ _ _) as [fs|u'|] eqn:Ef; cbn [bind] in E; try discriminate.
    { destruct (f_all_done fs); discriminate. }
    injection E as ->.
    destruct (proj1 (fine_fails (nt (j_q J)) (j_No J) nth (point K J) (p_point K J) Hnt HNo Hn Hin Hpt sch H0 HL) u Ef) as (sch' & Ec).
    exists sch'. unfold call. rewrite Ec. reflexivity.
Qed.
Print Assumptions C106_calls.

Section Facts.
  Context {N : Num} (K : idx_kind) (J : job N) (nthreads : Z) (H0 : list N).
  Hypothesis W : wf_job K J.
  Hypothesis Hn : 1 <= nthreads.
  Hypothesis HL : length H0 = Z.to_nat (j_No J * nt (j_q J)).
  Lemma fine_in n : 0 <= n < j_No J -> inside (nt (j_q J)) (p_point K J n).
  Proof. intros _. apply in_point. exact (wj_att K J W). Qed.
  Lemma fine_pt n H : 0 <= n < j_No J -> length H = Z.to_nat (j_No J * nt (j_q J)) ->
    point K J n H = exec (p_point K J n) (n * nt (j_q J)) H.
  Proof. intros Hn' HL'. apply x_point; auto. exact (wj_nt K J W). exact (wj_att K J W). Qed.
End Facts.

(** No two workers are ever about to access the same element of the result:
    the calls have no data race. *)
Theorem C106_race_free : forall (N : Num) K (J : job N) nthreads H0 sch s,
  wf_job K J -> 1 <= nthreads -> length H0 = Z.to_nat (j_No J * nt (j_q J)) ->
  fsteps (nt (j_q J)) (p_point K J) (finit (j_No J) nthreads H0) sch = Ok s -> ~ conflict (nt (j_q J)) s.
Proof.
  intros N K J nth H0 sch s W Hn HL E.
  exact (fine_race (nt (j_q J)) (j_No J) nth (point K J) (p_point K J) (wj_nt K J W) (wj_No K J W) Hn
           (fine_in K J W) (fine_pt K J W) sch H0 s HL E).
Qed.
Print Assumptions C106_race_free.

(** No access is out of bounds. *)
Theorem C106_safe : forall (N : Num) K (J : job N) nthreads H0 sch,
  wf_job K J -> 1 <= nthreads -> length H0 = Z.to_nat (j_No J * nt (j_q J)) ->
  no_oob (fine_call K J nthreads sch H0).
Proof.
  intros N K J nth H0 sch W Hn HL. destruct (C106_calls N K J nth H0 sch W Hn HL) as [_ F].
  split; intros C; destruct (F _ C) as (sch' & E); destruct (C03_call_safe N K J nth H0 sch' W Hn HL) as [S1 S2]; auto.
Qed.
Print Assumptions C106_safe.

(** A completed call that was not aborted returns in each column what the
    observation point gives computed alone. *)
Theorem C106_columns : forall (N : Num) K (J : job N) nthreads H0 sch H' stt,
  wf_job K J -> 1 <= nthreads -> length H0 = Z.to_nat (j_No J * nt (j_q J)) ->
  fine_call K J nthreads sch H0 = Ok (Some (H', stt, true)) ->
  length H' = length H0 /\
  forall n, 0 <= n < j_No J -> exists e, alone K J n (col (nt (j_q J)) n H0) = Ok (col (nt (j_q J)) n H', e).
Proof.
  intros N K J nth H0 sch H' stt W Hn HL E.
  destruct (proj1 (C106_calls N K J nth H0 sch W Hn HL) _ E) as (sch' & E').
  exact (C04_columns N K J nth H0 sch' H' stt W Hn HL E').
Qed.
Print Assumptions C106_columns.

(** A call that has returned, aborted or not, has left each column as it was
    or complete. *)
Theorem C106_prefix : forall (N : Num) K (J : job N) nthreads H0 sch H' stt run,
  wf_job K J -> 1 <= nthreads -> length H0 = Z.to_nat (j_No J * nt (j_q J)) ->
  fine_call K J nthreads sch H0 = Ok (Some (H', stt, run)) ->
  length H' = length H0 /\
  forall n, 0 <= n < j_No J -> col (nt (j_q J)) n H' = col (nt (j_q J)) n H0 \/
    exists e, alone K J n (col (nt (j_q J)) n H0) = Ok (col (nt (j_q J)) n H', e).
Proof.
  intros N K J nth H0 sch H' stt run W Hn HL E.
  destruct (proj1 (C106_calls N K J nth H0 sch W Hn HL) _ E) as (sch' & E').
  unfold call in E'. apply bind_Ok_inv in E' as (s & Es & E'). destruct (all_done s); [|discriminate].
  injection E' as <- _ _. exact (C36_prefix N K J nth H0 sch' s W Hn HL Es).
Qed.
Print Assumptions C106_prefix.

(** ** Delay-and-sum *)
Theorem C106_das : forall (N : Num) K (J : das_job N) nthreads Im0 sch,
  0 <= d_No J -> 1 <= nthreads -> length Im0 = Z.to_nat (d_No J) ->
  (forall r, fine_das_call K J nthreads sch Im0 = Ok (Some r) -> exists sch', das_call K J nthreads sch' Im0 = Ok (Some r)) /\
  (forall u, fine_das_call K J nthreads sch Im0 = UB u -> exists sch', das_call K J nthreads sch' Im0 = UB u) /\
  (forall s, fsteps 1 (p_das_point K J) (finit (d_No J) nthreads Im0) sch = Ok s -> ~ conflict 1 s).
Proof.
  intros N K J nth H0 sch HNo Hn HL.
  assert (HL' : length H0 = Z.to_nat (d_No J * 1)) by (rewrite Z.mul_1_r; exact HL).
  assert (Hin : forall n, 0 <= n < d_No J -> inside 1 (p_das_point K J n)) by (intros n _; apply in_das_point).
  assert (Hpt : forall n H, 0 <= n < d_No J -> length H = Z.to_nat (d_No J * 1) ->
            das_point K J n H = exec (p_das_point K J n) (n * 1) H) by (intros n H Hn' HL''; apply x_das_point; auto).
  assert (H1 : 0 <= 1) by lia.
  split; [|split].
  - intros r E. unfold fine_das_call in E. apply bind_Ok_inv in E as (fs & Ef & E).
    destruct (f_all_done fs) eqn:D; [|discriminate]. injection E as <-.
    destruct (fine_done 1 (d_No J) nth (das_point K J) (p_das_point K J) H1 HNo Hn Hin Hpt sch H0 fs HL' Ef D)
      as (sch' & cs & Ec & Dc & Eh & Er & Et).
    exists sch'. unfold das_call. rewrite Ec. cbn [bind]. rewrite Dc, Eh, Er, Et. reflexivity.
  - intros u E. unfold fine_das_call in E.
    destruct (fsteps _ _ _ _) as [fs|u'|] eqn:Ef; cbn [bind] in E; try discriminate.
    { destruct (f_all_done fs); discriminate. }
    injection E as ->.
    destruct (proj1 (fine_fails 1 (d_No J) nth (das_point K J) (p_das_point K J) H1 HNo Hn Hin Hpt sch H0 HL') u Ef) as (sch' & Ec).
    exists sch'. unfold das_call. rewrite Ec. reflexivity.
  - intros s E. exact (fine_race 1 (d_No J) nth (das_point K J) (p_das_point K J) H1 HNo Hn Hin Hpt sch H0 s HL' E).
Qed.
Print Assumptions C106_das.

(** ** Convolution *)
Lemma fine_cols {N : Num} (len : Z) (pt : Z -> list N -> res (list N * SIRError)) (P : Z -> prog N SIRError)
  (No nthreads : Z) (Y0 : list N) (sch : list event) :
  0 <= len -> 0 <= No -> 1 <= nthreads ->
  (forall n, 0 <= n < No -> inside len (P n)) ->
  (forall n H, 0 <= n < No -> length H = Z.to_nat (No * len) -> pt n H = exec (P n) (n * len) H) ->
  length Y0 = Z.to_nat (No * len) ->
  (forall r, fine_cols_call len P No nthreads sch Y0 = Ok (Some r) -> exists sch', cols_call pt No nthreads sch' Y0 = Ok (Some r)) /\
  (forall u, fine_cols_call len P No nthreads sch Y0 = UB u -> exists sch', cols_call pt No nthreads sch' Y0 = UB u) /\
  (forall s, fsteps len P (finit No nthreads Y0) sch = Ok s -> ~ conflict len s).
Proof.
  intros H1 HNo Hn Hin Hpt HL'. split; [|split].
  - intros r E. unfold fine_cols_call in E. apply bind_Ok_inv in E as (fs & Ef & E).
    destruct (f_all_done fs) eqn:D; [|discriminate]. injection E as <-.
    destruct (fine_done len No nthreads pt P H1 HNo Hn Hin Hpt sch Y0 fs HL' Ef D)
      as (sch' & cs & Ec & Dc & Eh & Er & Et).
    exists sch'. unfold cols_call. rewrite Ec. cbn [bind]. rewrite Dc, Eh, Er. reflexivity.
  - intros u E. unfold fine_cols_call in E.
    destruct (fsteps _ _ _ _) as [fs|u'|] eqn:Ef; cbn [bind] in E; try discriminate.
    { destruct (f_all_done fs); discriminate. }
    injection E as ->.
    destruct (proj1 (fine_fails len No nthreads pt P H1 HNo Hn Hin Hpt sch Y0 HL') u Ef) as (sch' & Ec).
    exists sch'. unfold cols_call. rewrite Ec. reflexivity.
  - intros s E. exact (fine_race len No nthreads pt P H1 HNo Hn Hin Hpt sch Y0 s HL' E).
Qed.

Theorem C106_conv : forall (N : Num) (M : mats N) mode No nthreads Y0 sch,
  let len := m_AM M + m_BM M - 1 in
  0 <= len -> 0 <= No -> 1 <= nthreads -> length Y0 = Z.to_nat (No * len) ->
  (forall r, fine_cols_call len (p_conv_point M mode) No nthreads sch Y0 = Ok (Some r) ->
     exists sch', cols_call (conv_point M mode) No nthreads sch' Y0 = Ok (Some r)) /\
  (forall u, fine_cols_call len (p_conv_point M mode) No nthreads sch Y0 = UB u ->
     exists sch', cols_call (conv_point M mode) No nthreads sch' Y0 = UB u) /\
  (forall s, fsteps len (p_conv_point M mode) (finit No nthreads Y0) sch = Ok s -> ~ conflict len s).
Proof.
  intros N M mode No nth Y0 sch len Hl HNo Hn HL. apply fine_cols; auto.
  - intros n _. apply in_conv_point.
  - intros n H Hn' HL'. apply (x_conv_point M mode n H No); auto.
Qed.
Print Assumptions C106_conv.

Theorem C106_fftconv : forall (N : Num) p (M : mats N) mode scr No nthreads Y0 sch,
  let len := m_AM M + m_BM M - 1 in
  0 <= len -> 0 <= No -> 1 <= nthreads -> length Y0 = Z.to_nat (No * len) ->
  (forall r, fine_cols_call len (p_fftconv_point p M mode scr) No nthreads sch Y0 = Ok (Some r) ->
     exists sch', cols_call (fftconv_point p M mode scr) No nthreads sch' Y0 = Ok (Some r)) /\
  (forall u, fine_cols_call len (p_fftconv_point p M mode scr) No nthreads sch Y0 = UB u ->
     exists sch', cols_call (fftconv_point p M mode scr) No nthreads sch' Y0 = UB u) /\
  (forall s, fsteps len (p_fftconv_point p M mode scr) (finit No nthreads Y0) sch = Ok s -> ~ conflict len s).
Proof.
  intros N p M mode scr No nth Y0 sch len Hl HNo Hn HL. apply fine_cols; auto.
  - intros n _. apply in_fftconv_point.
  - intros n H Hn' HL'. apply (x_fftconv_point p M mode scr n H No); auto.
Qed.
Print Assumptions C106_fftconv.

(** Two workers, three observation points, accesses interleaved one by one. *)
Example C106_ex : wf_job SignedIdx (ex_job ex_rect lvl_warn 25) /\
  fine_call SignedIdx (ex_job ex_rect lvl_warn 25) 2 (round_robin 200 2) (ex_H 25)
  = call SignedIdx (ex_job ex_rect lvl_warn 25) 2 (round_robin 10 2) (ex_H 25) /\
  exists H' stt, fine_call SignedIdx (ex_job ex_rect lvl_warn 25) 2 (round_robin 200 2) (ex_H 25) = Ok (Some (H', stt, true)).
Proof.
  split; [exact (proj1 ex_job_wf)|]. split; [vm_compute; reflexivity|].
  eexists. eexists. vm_compute. reflexivity.
Qed.
