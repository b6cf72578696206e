(** PropScirc.v - property theorems: scirc_sir (C49). *)
From Coq Require Import Reals Lra.
From Coquelicot Require Import Coquelicot.
From Verif Require Import Base BaseLemmas NumR ModelSir ModelArr ModelSmp ModelAna SpecAna ProofsLocal ProofsLocalArr
  ProofsSmp ProofsSmp2 SpecSmp ProofsCallG SpecSir ProofsEnum ProofsAna ProofsR ProofsArc ProofsAnaR ProofsAnaR2 ProofsTrap ProofsScirc PropAna.
From Coq Require Import ZifyBool ZifyNat.
Open Scope Z_scope.

(** The calls that differ only in the number of integration steps. *)
Definition scirc_job (r dt v c : R) (nt No : Z) (Ro : list EN) (dtp : DelayType) (delay : list EN) (steps : Z) : ajob EN :=
  {| a_T := @ASCirc EN (Some r) steps; a_dt := Some dt; a_nt := nt; a_v := Some v; a_cp := Some c;
     a_No := No; a_Ro := Ro; a_delay_type := dtp; a_delay := delay |}.

(** C49: as the number of integration steps grows, every sample converges to the
    mean of the exact impulse response of the disk over the sampling interval
    [t - dt/2, t + dt/2] - except that for a point on the disk itself (z = 0)
    sampling intervals wholly before time 0 are excluded. *)
Theorem C49_scirc_sir_partial : forall r dt v c nt No Ro dtp delay nthreads sch H0 (H' : nat -> list EN) n it x y z d,
  let J k := scirc_job r dt v c nt No Ro dtp delay (Z.of_nat (S k)) in
  let t := second (IZR it * dt + d) in
  (forall k, wf_ajob (J k)) -> 1 <= nthreads -> length H0 = Z.to_nat (No * nt) ->
  (forall k, ana_call (J k) nthreads sch H0 = Ok (Some (H' k, true))) ->
  0 <= n < No -> 0 <= it < nt ->
  obs_x (J O) n = Some x -> obs_y (J O) n = Some y -> obs_z (J O) n = Some z -> obs_delay (J O) n = Some d ->
  (0 <= z)%R -> (0 < r)%R -> (0 < c)%R -> (0 < dt)%R ->
  (0 < z \/ r <= sqrt (x ^ 2 + y ^ 2) \/ 0 <= t + second dt / 2)%R ->
  exists I h,
    is_RInt (sir (disk (metre r)) v c (metre x) (metre y) (metre z)) (t - second dt / 2)%R (t + second dt / 2)%R I /\
    (forall k, nth_error (H' k) (Z.to_nat (n * nt + it)) = Some (Some (h k))) /\
    is_lim_seq h (I / second dt)%R.
Proof.
  intros r dt v c nt No Ro dtp delay nth sch H0 H' n it x y z d J t W Hth HL E Hn Hit Ex Ey Ez Ed Hz Hr Hc Hdt Hex.
  destruct (scirc_val_lim x y z r dt d v c it Hz Hr Hc Hdt Hex) as (I & h & HI & Hv & Hl).
  exists I, h. split; [exact HI|]. split; [|exact Hl]. intros k.
  destruct (ana_columns (J k) (W k) nth H0 Hth HL sch (H' k) (E k)) as [L B]. specialize (B n Hn).
  assert (X : nth_error (col nt n (H' k)) (Z.to_nat it) = Some (Some (h k))).
  { change (a_nt (J k)) with nt in B. rewrite B, nth_samples by exact Hit. unfold ProofsAna.sample_of, ana_val.
    change (a_T (J k)) with (@ASCirc EN (Some r) (Z.of_nat (S k))). cbv iota.
    change (obs_x (J k) n) with (obs_x (J O) n). change (obs_y (J k) n) with (obs_y (J O) n).
    change (obs_z (J k) n) with (obs_z (J O) n). change (obs_delay (J k) n) with (obs_delay (J O) n).
    rewrite Ex, Ey, Ez, Ed. f_equal. exact (Hv k). }
  rewrite col_nth in X. destruct (Nat.ltb_spec (Z.to_nat it) (Z.to_nat nt)); [|discriminate].
  rewrite <- X. f_equal. nia.
Qed.
Print Assumptions C49_scirc_sir_partial.

(** [sir] is the response of C47. *)
Theorem C49_sir : forall ap v c x y z t h, is_sir ap v c x y z t h -> sir ap v c x y z t = h.
Proof. exact is_sir_sir. Qed.
Print Assumptions C49_sir.

Example C49_ex : let J k := scirc_job 10 1 1 1000 20 1 [Some 3%R; Some 4%R; Some 5%R] delay_single [Some 0%R] (Z.of_nat (S k)) in
  (forall k, wf_ajob (J k)) /\
  (forall k, exists H', ana_call (J k) 1 (round_robin 4 1) (zeros (N:=EN) 20) = Ok (Some (H', true))) /\
  obs_x (J O) 0 = Some 3%R /\ obs_y (J O) 0 = Some 4%R /\ obs_z (J O) 0 = Some 5%R /\ obs_delay (J O) 0 = Some 0%R.
Proof.
  cbv zeta. split; [intros k; apply (ana_ex_wf (@ASCirc EN (Some 10%R) (Z.of_nat (S k))) 20 3 4 5 1000 0); lia|].
  split; [|repeat split].
  intros k. apply (ana_ex_runs (@ASCirc EN (Some 10%R) (Z.of_nat (S k))) 20 3 4 5 1000 0); [lia|reflexivity].
Qed.

(** The excluded case is wrong: with the point (0,0,0) on a disk of radius 10 mm,
    c = 1000, dt = 1 us and delay -5 us the first sample is -4500, while the
    response is 0 over the whole sampling interval. *)
Theorem C49_negative_refuted : exists (J : ajob EN) H',
  wf_ajob J /\ a_T J = @ASCirc EN (Some 10%R) 1 /\
  ana_call J 1 (round_robin 4 1) (zeros (N:=EN) 1) = Ok (Some (H', true)) /\
  nth_error H' 0 = Some (Some (-4500)%R) /\
  (forall t, second (-5) - second 1 / 2 <= t <= second (-5) + second 1 / 2 ->
     sir (disk (metre 10)) 1 1000 (metre 0) (metre 0) (metre 0) t = 0)%R.
Proof.
  set (J := ana_ex (@ASCirc EN (Some 10%R) 1) 1 0 0 0 1000 (-5)).
  destruct (ana_ex_runs (@ASCirc EN (Some 10%R) 1) 1 0 0 0 1000 (-5) (zeros (N:=EN) 1)) as (H' & E); [lia|reflexivity|].
  assert (W : wf_ajob J) by (apply ana_ex_wf; lia).
  exists J, H'. split; [exact W|]. split; [reflexivity|]. split; [exact E|]. split.
  - destruct (ana_columns J W 1 (zeros (N:=EN) 1) ltac:(lia) eq_refl (round_robin 4 1) H' E) as [L B].
    specialize (B 0 ltac:(cbn; lia)).
    assert (X : nth_error (col (a_nt J) 0 H') (Z.to_nat 0) = Some (Some (-4500)%R)).
    { rewrite B, nth_samples by (cbn; lia). f_equal. exact scirc_val_neg. }
    rewrite col_nth in X. exact X.
  - intros t Ht. unfold second in Ht. unfold sir. destruct (Rlt_dec (1000 * t) (metre 0)) as [|Hn]; [reflexivity|].
    exfalso. apply Hn. unfold metre. lra.
Qed.
Print Assumptions C49_negative_refuted.
