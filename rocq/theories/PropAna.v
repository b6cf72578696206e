(** PropAna.v - property theorems: the analytic responses (C46-C48, C50).
    C49 (scirc_sir) is in PropScirc.v. *)
From Coq Require Import Reals Lra Permutation.
From Coquelicot Require Import Coquelicot.
From Verif Require Import Base BaseLemmas NumR ModelSir ModelArr ModelSmp ModelAna SpecAna ProofsLocal ProofsLocalArr
  ProofsSmp ProofsSmp2 SpecSmp ProofsCallG SpecSir ProofsEnum ProofsAna ProofsR ProofsArc ProofsArc2 ProofsAnaR ProofsAnaR2.
From Coq Require Import ZifyBool ZifyNat.
Open Scope Z_scope.

(** ** C46: circ_sir, scirc_sir and rect_sir, any arithmetic *)

(** A call never accesses memory outside its arrays, no schedule gets stuck, and
    a schedule giving every worker 3 steps per point plus one completes it. *)
Theorem C46_completes : forall (N : Num) (J : ajob N) nthreads sch H0,
  wf_ajob J -> 1 <= nthreads -> length H0 = Z.to_nat (a_No J * a_nt J) ->
  exists r, ana_call J nthreads sch H0 = Ok r /\
  ((forall i, 0 <= i < nthreads ->
      3 * (part_stop i (a_No J) nthreads - part_start i (a_No J) nthreads) + 1 <= steps_of (Z.to_nat i) sch) ->
   r <> None).
Proof. intros N J n sch H0 W Hn HL. exact (ana_ok J W n H0 Hn HL sch). Qed.
Print Assumptions C46_completes.

(** The matrix depends only on the arguments: not on the worker count, not on
    the schedule, and not on what the output memory held before. *)
Theorem C46_schedule_independent : forall (N : Num) (J : ajob N) n1 n2 s1 s2 H1 H2 H1' H2',
  wf_ajob J -> 1 <= n1 -> 1 <= n2 ->
  length H1 = Z.to_nat (a_No J * a_nt J) -> length H2 = Z.to_nat (a_No J * a_nt J) ->
  ana_call J n1 s1 H1 = Ok (Some (H1', true)) ->
  ana_call J n2 s2 H2 = Ok (Some (H2', true)) -> H1' = H2'.
Proof.
  intros N J n1 n2 s1 s2 H1 H2 H1' H2' W Hn1 Hn2 L1 L2 E1 E2.
  destruct (ana_columns J W n1 H1 Hn1 L1 s1 H1' E1) as [A1 B1].
  destruct (ana_columns J W n2 H2 Hn2 L2 s2 H2' E2) as [A2 B2].
  apply (cols_ext (a_nt J) (a_No J)); [exact (wa_nt J W)|lia|lia|].
  intros n Hn. now rewrite B1, B2.
Qed.
Print Assumptions C46_schedule_independent.

(** Without CTRL-C a call that returns has finished all its work; with it,
    every column is either finished or untouched, and the finished ones are
    those of the uninterrupted call. *)
Theorem C46_not_stopped : forall (N : Num) (J : ajob N) nthreads sch H0 H' b,
  wf_ajob J -> 1 <= nthreads -> length H0 = Z.to_nat (a_No J * a_nt J) -> no_ctrlc sch ->
  ana_call J nthreads sch H0 = Ok (Some (H', b)) -> b = true.
Proof. intros N J n sch H0 H' b W Hn HL Hc. exact (ana_running J W n H0 Hn HL sch H' b (existsb_ctrlc sch Hc)). Qed.
Print Assumptions C46_not_stopped.

Theorem C46_interrupted : forall (N : Num) (J : ajob N) n1 n2 s1 s2 H0 H2 H' Hfull b k,
  wf_ajob J -> 1 <= n1 -> 1 <= n2 ->
  length H0 = Z.to_nat (a_No J * a_nt J) -> length H2 = Z.to_nat (a_No J * a_nt J) ->
  ana_call J n1 s1 H0 = Ok (Some (H', b)) -> ana_call J n2 s2 H2 = Ok (Some (Hfull, true)) -> 0 <= k < a_No J ->
  length H' = length H0 /\ (col (a_nt J) k H' = col (a_nt J) k H0 \/ col (a_nt J) k H' = col (a_nt J) k Hfull).
Proof.
  intros N J n1 n2 s1 s2 H0 H2 H' Hf b k W Hn1 Hn2 L1 L2 E1 E2 Hk.
  destruct (ana_columns J W n2 H2 Hn2 L2 s2 Hf E2) as [_ B2]. rewrite (B2 k Hk).
  exact (ana_partial J W n1 H0 Hn1 L1 s1 H' b k E1 Hk).
Qed.
Print Assumptions C46_interrupted.

(** The worker count: as for the other functions, except that scirc_sir does
    not respect DREAM_NUM_THREADS. *)
Theorem C46_workers : forall (N : Num) (T : analytic N) hw env No, 0 <= hw -> 0 <= No ->
  (1 <= ana_threads T hw env No) /\ (1 <= No -> ana_threads T hw env No <= No) /\
  (forall e, env = Some e -> 1 <= e -> match T with ASCirc _ _ => False | _ => True end -> ana_threads T hw env No <= e).
Proof.
  intros N T hw env No Hh HN.
  destruct (num_threads_ok hw env No Hh HN) as (A & B & C & _).
  destruct (num_threads_ok hw None No Hh HN) as (A' & B' & _).
  destruct T; cbn [ana_threads]; repeat split; auto; intros; contradiction.
Qed.
Print Assumptions C46_workers.
Theorem C46_scirc_env_refuted : forall (N : Num) (r : N) n hw env No,
  ana_threads (ASCirc r n) hw env No = ana_threads (ASCirc r n) hw None No /\
  (1 <= hw -> 1 <= No -> ana_threads (ASCirc r n) hw env No = Z.min hw No).
Proof.
  intros N r n hw env No. split; [reflexivity|]. intros Hh HN. cbn [ana_threads]. unfold num_threads.
  cbv zeta. destruct (Z.ltb_spec No hw); [destruct (Z.ltb_spec No 1)|destruct (Z.ltb_spec hw 1)]; lia.
Qed.
Print Assumptions C46_scirc_env_refuted.

(** ** C47: circ_sir is the exact response

    In exact arithmetic, sample [it] of observation point n is the impulse
    response of the disk at time it*dt + delay - the only exception being the
    sample at exactly the arrival time of a point exactly above the edge. *)
Theorem C47_circ_sir : forall (J : ajob EN) nthreads sch H0 H' n it r dt v c x y z d,
  wf_ajob J -> 1 <= nthreads -> length H0 = Z.to_nat (a_No J * a_nt J) ->
  ana_call J nthreads sch H0 = Ok (Some (H', true)) ->
  a_T J = @ACirc EN (Some r) -> a_dt J = Some dt -> a_v J = Some v -> a_cp J = Some c ->
  0 <= n < a_No J -> 0 <= it < a_nt J ->
  obs_x J n = Some x -> obs_y J n = Some y -> obs_z J n = Some z -> obs_delay J n = Some d ->
  (0 <= z)%R -> (0 < r)%R ->
  ~ (sqrt (x ^ 2 + y ^ 2) = r /\ c * second (IZR it * dt + d) = metre z)%R ->
  exists h, nth_error H' (Z.to_nat (n * a_nt J + it)) = Some (Some h) /\
    is_sir (disk (metre r)) v c (metre x) (metre y) (metre z) (second (IZR it * dt + d)) h.
Proof.
  intros J nth sch H0 H' n it r dt v c x y z d W Hth HL E ET Edt Ev Ec Hn Hit Ex Ey Ez Ed Hz Hr Hne.
  destruct (ana_columns J W nth H0 Hth HL sch H' E) as [L B]. specialize (B n Hn).
  destruct (circ_val_exact x y z r dt d v c it Hz Hr Hne) as (h & Eh & Hh).
  exists h. split; [|exact Hh].
  assert (X : nth_error (col (a_nt J) n H') (Z.to_nat it) = Some (Some h)).
  { rewrite B, nth_samples by exact Hit. unfold sample_of, ana_val. rewrite ET, Edt, Ev, Ec, Ex, Ey, Ez, Ed. f_equal. exact Eh. }
  rewrite col_nth in X. destruct (Nat.ltb_spec (Z.to_nat it) (Z.to_nat (a_nt J))); [|discriminate].
  rewrite <- X. f_equal. nia.
Qed.
Print Assumptions C47_circ_sir.

(** Such a response is between 0 and v*c, and a sample time determines it. *)
Theorem C47_bounds : forall ap v c x y z t h, (0 <= v)%R -> (0 <= c)%R ->
  is_sir ap v c x y z t h -> (0 <= h <= v * c)%R.
Proof. exact is_sir_bound. Qed.
Print Assumptions C47_bounds.
Theorem C47_unique : forall ap v c x y z t h1 h2,
  is_sir ap v c x y z t h1 -> is_sir ap v c x y z t h2 -> h1 = h2.
Proof. exact is_sir_unique. Qed.
Print Assumptions C47_unique.

(** The exception is real: that sample is 0/0. *)
Theorem C47_edge_refuted : forall (J : ajob EN) nthreads sch H0 H' n it r dt v c x y z d,
  wf_ajob J -> 1 <= nthreads -> length H0 = Z.to_nat (a_No J * a_nt J) ->
  ana_call J nthreads sch H0 = Ok (Some (H', true)) ->
  a_T J = @ACirc EN (Some r) -> a_dt J = Some dt -> a_v J = Some v -> a_cp J = Some c ->
  0 <= n < a_No J -> 0 <= it < a_nt J ->
  obs_x J n = Some x -> obs_y J n = Some y -> obs_z J n = Some z -> obs_delay J n = Some d ->
  (0 <= z)%R -> (0 < r)%R ->
  (sqrt (x ^ 2 + y ^ 2) = r /\ c * second (IZR it * dt + d) = metre z)%R ->
  nth_error H' (Z.to_nat (n * a_nt J + it)) = Some None.
Proof.
  intros J nth sch H0 H' n it r dt v c x y z d W Hth HL E ET Edt Ev Ec Hn Hit Ex Ey Ez Ed Hz Hr Hne.
  destruct (ana_columns J W nth H0 Hth HL sch H' E) as [L B]. specialize (B n Hn).
  assert (X : nth_error (col (a_nt J) n H') (Z.to_nat it) = Some None).
  { rewrite B, nth_samples by exact Hit. unfold sample_of, ana_val. rewrite ET, Edt, Ev, Ec, Ex, Ey, Ez, Ed. f_equal.
    exact (circ_val_edge x y z r dt d v c it Hz Hr Hne). }
  rewrite col_nth in X. destruct (Nat.ltb_spec (Z.to_nat it) (Z.to_nat (a_nt J))); [|discriminate].
  rewrite <- X. f_equal. nia.
Qed.
Print Assumptions C47_edge_refuted.

(** A job that meets the hypotheses: a disk of radius 10 mm and the point
    (10, 0, 5) mm, which is above its edge; c = 1000 m/s, dt = 1 us; samples
    0..19 at delay 0; only sample 5 is at the arrival time. *)
Definition ana_ex (T : analytic EN) (nt : Z) (x y z c d : R) : ajob EN :=
  {| a_T := T; a_dt := Some 1%R; a_nt := nt; a_v := Some 1%R; a_cp := Some c;
     a_No := 1; a_Ro := [Some x; Some y; Some z]; a_delay_type := delay_single; a_delay := [Some d] |}.
Lemma ana_ex_wf T nt x y z c d : 0 <= nt -> wf_ajob (ana_ex T nt x y z c d).
Proof. intros H. constructor; cbn; try lia. Qed.
Lemma ana_ex_runs T nt x y z c d H0 : 0 <= nt -> length H0 = Z.to_nat nt ->
  exists H', ana_call (ana_ex T nt x y z c d) 1 (round_robin 4 1) H0 = Ok (Some (H', true)).
Proof.
  intros Hnt HL. pose proof (ana_ex_wf T nt x y z c d Hnt) as W.
  assert (HL' : length H0 = Z.to_nat (a_No (ana_ex T nt x y z c d) * a_nt (ana_ex T nt x y z c d))).
  { cbn [a_No a_nt ana_ex]. lia. }
  destruct (ana_ok _ W 1 H0 ltac:(discriminate) HL' (round_robin 4 1)) as (r & Er & Hr).
  assert (r <> None).
  { apply Hr. intros i Hi. replace i with 0 by lia. vm_compute. discriminate. }
  destruct r as [[H' b]|]; [|contradiction]. exists H'.
  rewrite Er. rewrite (ana_running _ W 1 H0 ltac:(discriminate) HL' (round_robin 4 1) H' b); [reflexivity|reflexivity|exact Er].
Qed.
Example C47_ex : let J := ana_ex (@ACirc EN (Some 10%R)) 20 10 0 5 1000 0 in wf_ajob J /\
  (exists H', ana_call J 1 (round_robin 4 1) (zeros (N:=EN) 20) = Ok (Some (H', true))) /\
  obs_x J 0 = Some 10%R /\ obs_y J 0 = Some 0%R /\ obs_z J 0 = Some 5%R /\ obs_delay J 0 = Some 0%R /\
  (forall it, it <> 5 -> ~ (sqrt (10 ^ 2 + 0 ^ 2) = 10 /\ 1000 * second (IZR it * 1 + 0) = metre 5)%R) /\
  (sqrt (10 ^ 2 + 0 ^ 2) = 10 /\ 1000 * second (IZR 5 * 1 + 0) = metre 5)%R.
Proof.
  cbv zeta. split; [apply ana_ex_wf; lia|]. split; [apply ana_ex_runs; [lia|reflexivity]|].
  do 4 (split; [reflexivity|]). split.
  - intros it Hit [_ E]. unfold second, metre in E. apply Hit. apply eq_IZR. lra.
  - split; [|unfold second, metre; lra]. replace (10 ^ 2 + 0 ^ 2)%R with (10 * 10)%R by ring. apply sqrt_square. lra.
Qed.

(** ** C48: rect_sir

    Over points that are not above the aperture, or lie on its symmetry line
    y = 0, sample [it] is the response of the rectangle for unit normal
    velocity. *)
Theorem C48_rect_sir_partial : forall (J : ajob EN) nthreads sch H0 H' n it a b dt c x y z d,
  wf_ajob J -> 1 <= nthreads -> length H0 = Z.to_nat (a_No J * a_nt J) ->
  ana_call J nthreads sch H0 = Ok (Some (H', true)) ->
  a_T J = @ARect EN (Some a) (Some b) -> a_dt J = Some dt -> a_cp J = Some c ->
  0 <= n < a_No J -> 0 <= it < a_nt J ->
  obs_x J n = Some x -> obs_y J n = Some y -> obs_z J n = Some z -> obs_delay J n = Some d ->
  (0 <= z)%R -> (0 < a)%R -> (0 < b)%R -> (0 < c)%R ->
  ~ (c * second (IZR it * dt + d) = metre z /\ (Rabs x = a/2 \/ Rabs y = b/2))%R ->
  (y = 0 \/ a/2 < Rabs x \/ b/2 < Rabs y)%R ->
  exists h, nth_error H' (Z.to_nat (n * a_nt J + it)) = Some (Some h) /\
    is_sir (rectangle (metre a) (metre b)) 1 c (metre x) (metre y) (metre z) (second (IZR it * dt + d)) h.
Proof.
  intros J nth sch H0 H' n it a b dt c x y z d W Hth HL E ET Edt Ec Hn Hit Ex Ey Ez Ed Hz Ha Hb Hc Hne Hout.
  destruct (rect_call_exact J nth sch H0 H' n it a b dt c x y z d W Hth HL E ET Edt Ec Hn Hit Ex Ey Ez Ed Hz Ha Hb Hc Hne) as (h & A & B).
  exists h. split; [exact A|]. rewrite shortfall_0, Rplus_0_r in B by exact Hout. exact B.
Qed.
Print Assumptions C48_rect_sir_partial.

(** For every point, over the aperture or not: what is stored falls short of
    the exact response by [shortfall], which is never negative (the fourth
    sub-rectangle is given the height of the first). *)
Theorem C48_shortfall : forall (J : ajob EN) nthreads sch H0 H' n it a b dt c x y z d,
  wf_ajob J -> 1 <= nthreads -> length H0 = Z.to_nat (a_No J * a_nt J) ->
  ana_call J nthreads sch H0 = Ok (Some (H', true)) ->
  a_T J = @ARect EN (Some a) (Some b) -> a_dt J = Some dt -> a_cp J = Some c ->
  0 <= n < a_No J -> 0 <= it < a_nt J ->
  obs_x J n = Some x -> obs_y J n = Some y -> obs_z J n = Some z -> obs_delay J n = Some d ->
  (0 <= z)%R -> (0 < a)%R -> (0 < b)%R -> (0 < c)%R ->
  ~ (c * second (IZR it * dt + d) = metre z /\ (Rabs x = a/2 \/ Rabs y = b/2))%R ->
  exists h, nth_error H' (Z.to_nat (n * a_nt J + it)) = Some (Some h) /\
    is_sir (rectangle (metre a) (metre b)) 1 c (metre x) (metre y) (metre z) (second (IZR it * dt + d))
      (h + shortfall x y z a b c (second (IZR it * dt + d))) /\
    (0 <= shortfall x y z a b c (second (IZR it * dt + d)))%R.
Proof.
  intros J nth sch H0 H' n it a b dt c x y z d W Hth HL E ET Edt Ec Hn Hit Ex Ey Ez Ed Hz Ha Hb Hc Hne.
  destruct (rect_call_exact J nth sch H0 H' n it a b dt c x y z d W Hth HL E ET Edt Ec Hn Hit Ex Ey Ez Ed Hz Ha Hb Hc Hne) as (h & A & B).
  exists h. split; [exact A|]. split; [exact B|]. apply shortfall_nonneg; auto.
Qed.
Print Assumptions C48_shortfall.

Example C48_ex : let J := ana_ex (@ARect EN (Some 4%R) (Some 6%R)) 20 1 5 3 1000 0 in wf_ajob J /\
  (exists H', ana_call J 1 (round_robin 4 1) (zeros (N:=EN) 20) = Ok (Some (H', true))) /\
  obs_x J 0 = Some 1%R /\ obs_y J 0 = Some 5%R /\ obs_z J 0 = Some 3%R /\ obs_delay J 0 = Some 0%R /\
  (forall it, ~ (1000 * second (IZR it * 1 + 0) = metre 3 /\ (Rabs 1 = 4/2 \/ Rabs 5 = 6/2))%R) /\
  (6/2 < Rabs 5)%R.
Proof.
  cbv zeta. split; [apply ana_ex_wf; lia|]. split; [apply ana_ex_runs; [lia|reflexivity]|].
  do 4 (split; [reflexivity|]). rewrite (Rabs_pos_eq 1), (Rabs_pos_eq 5) by lra. split; [intros it [_ X]|]; lra.
Qed.

(** Over the aperture the response is wrong: for a 4 mm x 4 mm aperture and
    the point (0, 1, 0) mm at c t = 2 mm, c/6 of the 2c/3 is missing. *)
Theorem C48_inside_refuted : exists (J : ajob EN) H' h,
  wf_ajob J /\ a_T J = @ARect EN (Some 4%R) (Some 4%R) /\ a_v J = Some 1%R /\
  ana_call J 1 (round_robin 4 1) (zeros (N:=EN) 1) = Ok (Some (H', true)) /\
  nth_error H' 0 = Some (Some h) /\
  is_sir (rectangle (metre 4) (metre 4)) 1 1000 (metre 0) (metre 1) (metre 0) (second 2) (h + 1000 / 6).
Proof.
  set (J := ana_ex (@ARect EN (Some 4%R) (Some 4%R)) 1 0 1 0 1000 2).
  destruct (ana_ex_runs (@ARect EN (Some 4%R) (Some 4%R)) 1 0 1 0 1000 2 (zeros (N:=EN) 1)) as (H' & E); [lia|reflexivity|].
  assert (W : wf_ajob J) by (apply ana_ex_wf; lia).
  destruct (rect_call_exact J 1 (round_robin 4 1) (zeros (N:=EN) 1) H' 0 0 4 4 1 1000 0 1 0 2 W) as (h & A & B);
    try reflexivity; try exact E; try (cbn; lia); try lra.
  { intros [X _]. unfold second, metre in X. lra. }
  exists J, H', h. split; [exact W|]. do 2 (split; [reflexivity|]). split; [exact E|]. split; [exact A|].
  replace (IZR 0 * 1 + 2)%R with 2%R in B by ring. rewrite shortfall_ex in B. exact B.
Qed.
Print Assumptions C48_inside_refuted.

(** The normal velocity has no effect at all (any arithmetic). *)
Theorem C48_v_refuted : forall (N : Num) (J1 J2 : ajob N) a b n1 n2 s1 s2 H1 H2 H1' H2',
  wf_ajob J1 -> a_T J1 = ARect a b -> a_T J2 = ARect a b -> a_dt J2 = a_dt J1 -> a_nt J2 = a_nt J1 -> a_cp J2 = a_cp J1 ->
  a_No J2 = a_No J1 -> a_Ro J2 = a_Ro J1 -> a_delay_type J2 = a_delay_type J1 -> a_delay J2 = a_delay J1 ->
  1 <= n1 -> 1 <= n2 ->
  length H1 = Z.to_nat (a_No J1 * a_nt J1) -> length H2 = Z.to_nat (a_No J1 * a_nt J1) ->
  ana_call J1 n1 s1 H1 = Ok (Some (H1', true)) -> ana_call J2 n2 s2 H2 = Ok (Some (H2', true)) -> H1' = H2'.
Proof.
  intros N J1 J2 a b n1 n2 s1 s2 H1 H2 H1' H2' W ET1 ET2 Edt Ent Ecp ENo ERo Edl Ed Hn1 Hn2 L1 L2 E1 E2.
  assert (W2 : wf_ajob J2).
  { destruct W. constructor; rewrite ?Ent, ?ENo, ?ERo, ?Edl, ?Ed; auto. }
  assert (L2' : length H2 = Z.to_nat (a_No J2 * a_nt J2)) by now rewrite ENo, Ent.
  destruct (ana_columns J1 W n1 H1 Hn1 L1 s1 H1' E1) as [A1 B1].
  destruct (ana_columns J2 W2 n2 H2 Hn2 L2' s2 H2' E2) as [A2 B2].
  apply (cols_ext (a_nt J1) (a_No J1)); [exact (wa_nt J1 W)|lia|lia|].
  intros n Hn. rewrite ENo, Ent in B2. rewrite B1, B2 by exact Hn. unfold samples. apply map_ext. intros k.
  unfold ProofsAna.sample_of, ana_val, obs_x, obs_y, obs_z, obs_delay. rewrite ET1, ET2, Edt, Ecp, ENo, ERo, Edl, Ed. reflexivity.
Qed.
Print Assumptions C48_v_refuted.

(** ** C50: rect_sir on the GPU *)
Definition all_pts (No : Z) : list Z := map Z.of_nat (seq 0 (Z.to_nat No)).
Lemma in_all_pts No n : In n (all_pts No) <-> 0 <= n < No.
Proof.
  unfold all_pts. rewrite in_map_iff. split.
  - intros (k & <- & Hk). apply in_seq in Hk. lia.
  - intros H. exists (Z.to_nat n). split; [lia|]. apply in_seq. lia.
Qed.

(** In exact arithmetic, for a single delay and a multiple of 64 observation
    points, the GPU (work items in any order, any old device memory) returns the
    matrix of the CPU. *)
Theorem C50_gpu_cpu_partial : forall (J : ajob EN) items junk nthreads sch H0 Hc a b dt c,
  wf_ajob J -> 1 <= nthreads -> length H0 = Z.to_nat (a_No J * a_nt J) -> length junk = Z.to_nat (a_No J * a_nt J) ->
  a_T J = @ARect EN (Some a) (Some b) -> a_dt J = Some dt -> a_cp J = Some c ->
  (0 < a)%R -> (0 < b)%R -> (0 < c)%R ->
  a_delay_type J = delay_single -> a_No J mod 64 = 0 ->
  (forall n, 0 <= n < a_No J -> exists x y z d,
     obs_x J n = Some x /\ obs_y J n = Some y /\ obs_z J n = Some z /\ obs_delay J n = Some d /\ (0 <= z)%R /\
     forall it, 0 <= it < a_nt J ->
       ~ (c * second (IZR it * dt + d) = metre z /\ (Rabs x = a/2 \/ Rabs y = b/2))%R) ->
  Permutation items (all_pts (a_No J)) ->
  ana_call J nthreads sch H0 = Ok (Some (Hc, true)) ->
  rs_gpu J items junk = Ok Hc.
Proof.
  intros J items junk nth sch H0 Hc a b dt c W Hth HL HJ ET Edt Ec Ha Hb Hcp Hd Hm Hpt HP E.
  unfold rs_gpu. rewrite Hm. cbn [Z.eqb].
  assert (Hin : forall k, In k items -> 0 <= k < a_No J).
  { intros k Hk. apply in_all_pts. exact (Permutation_in _ HP Hk). }
  destruct (rs_items_cols J (Some a) (Some b) W ET Hd items Hin junk HJ) as (Hg & Eg & A & B & _).
  rewrite Eg. f_equal.
  destruct (ana_columns J W nth H0 Hth HL sch Hc E) as [A1 B1].
  apply (cols_ext (a_nt J) (a_No J)); [exact (wa_nt J W)|lia|lia|].
  intros n Hn. rewrite B by (apply (Permutation_in _ (Permutation_sym HP)), in_all_pts, Hn). rewrite B1 by exact Hn.
  unfold samples. apply map_ext_in. intros k Hk. apply in_seq in Hk.
  destruct (Hpt n Hn) as (x & y & z & d & Ex & Ey & Ez & Ed & Hz & Hne).
  unfold gpu_sample, ProofsAna.sample_of, ana_val. rewrite ET, Edt, Ec, Ex, Ey, Ez, Ed.
  assert (Hk' : 0 <= Z.of_nat k < a_nt J) by lia. specialize (Hne _ Hk').
  destruct (rect_val_exact (add_gpu (N:=EN)) x y z a b dt d c (Z.of_nat k) (or_intror eq_refl) Hz Ha Hb Hcp Hne) as (h1 & E1 & S1).
  destruct (rect_val_exact (add_cpu (N:=EN)) x y z a b dt d c (Z.of_nat k) (or_introl eq_refl) Hz Ha Hb Hcp Hne) as (h2 & E2 & S2).
  rewrite E1, E2. f_equal. pose proof (is_sir_unique _ _ _ _ _ _ _ _ _ S1 S2). lra.
Qed.
Print Assumptions C50_gpu_cpu_partial.

(** Otherwise: with another number of points the user gets the old device
    memory, and every delay but the first is ignored. *)
Theorem C50_workgroup_refuted : forall (N : Num) (J : ajob N) items junk,
  a_No J mod 64 <> 0 -> rs_gpu J items junk = Ok junk.
Proof. intros N J items junk H. unfold rs_gpu. destruct (Z.eqb_spec (a_No J mod 64) 0); [contradiction|reflexivity]. Qed.
Print Assumptions C50_workgroup_refuted.
Theorem C50_delays_refuted : forall (N : Num) (J1 J2 : ajob N) items junk,
  a_T J2 = a_T J1 -> a_dt J2 = a_dt J1 -> a_nt J2 = a_nt J1 -> a_cp J2 = a_cp J1 -> a_v J2 = a_v J1 ->
  a_No J2 = a_No J1 -> a_Ro J2 = a_Ro J1 -> buf_get (a_delay J2) 0 = buf_get (a_delay J1) 0 ->
  rs_gpu J2 items junk = rs_gpu J1 items junk.
Proof.
  intros N J1 J2 items junk ET Edt Ent Ec Ev ENo ERo Ed. unfold rs_gpu. rewrite ENo.
  destruct (_ =? 0)%Z; [|reflexivity]. revert junk.
  induction items as [|m items IH]; intros junk; cbn [rs_items]; [reflexivity|].
  assert (X : rs_item J2 m junk = rs_item J1 m junk) by (unfold rs_item; rewrite ET, Edt, Ent, Ec, Ev, ENo, ERo, Ed; reflexivity).
  rewrite X. destruct (rs_item J1 m junk); cbn [bind]; auto.
Qed.
Print Assumptions C50_delays_refuted.
