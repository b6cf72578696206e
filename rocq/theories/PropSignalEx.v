(** PropSignalEx.v - concrete calls that meet the hypotheses of C109 (cylinder,
    line, annular array) and of C111_signal_partial, with a triangular pulse of 2 us. *)
From Coq Require Strings.String Strings.Ascii.
Import Coq.Strings.String.StringSyntax.
From Coq Require Import Reals List ZArith Lra Lia.
From Verif Require Import Base BaseLemmas ModelSir ModelArr ModelSmp ModelConv NumR SpecSmp SpecSir SpecRayleigh SpecArr
  ModelGw SpecGw SpecGwR ProofsR ProofsRayleigh ProofsSirR PropSir PropArr PropGwR SpecPhys ProofsPhys PropPhys PropPhys2 SpecDft ModelCgw SpecCgw PropCgw2
  SpecField SpecField2 PropField PropField2 SpecField3 PropField3 SpecAnnuR PropAnnuR SpecField4 PropField4 PropFieldEx SpecField6 PropField6 PropField6ex
  SpecField7 PropField7 SpecAttSig PropAttSig PropAttSigEx PropSignal.
Import ListNotations.
Open Scope R_scope.

Example C109_cylinder_ex : forall fe', available fe' KConv -> exists W,
  signal (gateway 10 (map fst) Julia FCylind 1 1 None (round_robin 4 1) [] (geom_args [2; 10; 10] (q1 1 5) 20 0 (centre 10))) sig_mc fe' KConv 20 1
    (samples 2 1 pulse2) W /\
  forall k, Rabs (W 0%nat k - radiated_cyl 1000 1 2 10 10 (centre 10) (fun t => pulse2 (0 + INR k * 1 - t))) <= cylinder_error (q1 1 5) 2 10 10 (centre 10) 1 1.
Proof.
  intros fe' Hav. destruct (C110_ex Julia) as (E & D & Hc & Hin).
  destruct (C109_cylinder 10 (map fst) Julia FCylind 1 1 None (round_robin 4 1) [] _ 2 10 10 (q1 1 5) 20 [centre 10] delay_single [0] 1 1 2 pulse2
    sig_mc fe' KConv E D) as (W & HW & H); try (cbn; lra); try lia.
  - exact pulse2_ok.
  - apply sig_call; [lia|reflexivity|exact Hav|discriminate|discriminate].
  - exists W. split; [exact HW|]. intros k. apply (H 0%nat k (Nat.lt_0_1) Hc Hin).
Qed.
Example C109_line_ex : forall fe', available fe' KFft -> exists W,
  signal (gateway 10 (map fst) Python FLine 1 1 None (round_robin 4 1) [] (geom_args [2] (q1 1 1) 10 0 exo)) sig_mc fe' KFft 10 1
    (samples 2 1 pulse2) W /\
  forall k, Rabs (W 0%nat k - radiated_line 1000 1 2 1 exo (fun t => pulse2 (0 + INR k * 1 - t))) <= line_error (q1 1 1) 2 exo 1 1.
Proof.
  intros fe' Hav. destruct (C110_line_ex Python) as (E & D & Hc & Hin).
  destruct (C109_line 10 (map fst) Python FLine 1 1 None (round_robin 4 1) [] _ 2 (q1 1 1) 10 [exo] delay_single [0] 1 1 2 pulse2
    sig_mc fe' KFft E D) as (W & HW & H); try (cbn; lra); try lia.
  - exact pulse2_ok.
  - apply sig_call; [lia|reflexivity|exact Hav|discriminate|reflexivity].
  - exists W. split; [exact HW|]. intros k. apply (H 0%nat k (Nat.lt_0_1) Hc Hin).
Qed.
Example C109_annular_ex : exists W,
  signal (gateway 10 (map fst) Octave FArrAnnu 1 1 None (round_robin 4 1) [] ex_annu_call) sig_mc Octave KFft 10 1 (samples 2 1 pulse2) W /\
  forall k, Rabs (W 0%nat k - annular_field 1000 1 exA3 exo (fun t => pulse2 (0 + INR k * 1 - t))) <= annular_error exq exA3 5 1 1.
Proof.
  destruct (C113_ex Octave (or_introl eq_refl)) as (E & D & Ho & Hc & Hin & _).
  destruct (C109_annular 10 (map fst) Octave 1 1 None (round_robin 4 1) [] _ exA3 exq 10 [exo] delay_single [0] 1 1 2 pulse2
    sig_mc Octave KFft E D Ho Hc) as (W & HW & H); try (cbn; lra); try lia.
  - exact pulse2_ok.
  - apply sig_call; [lia|reflexivity|left; reflexivity|discriminate|reflexivity].
  - exists W. split; [exact HW|]. intros k. apply (H 0%nat k (Nat.lt_0_1)); [cbn; lra|exact Hin].
Qed.
Example C111_signal_ex : exists W,
  signal (gateway 300 (map fst) Matlab FSphere 1 1 None (round_robin 4 1) [] (geom_args [3; 5] (q1 1 1) 10 0 (centre 5))) sig_mc Matlab KConv 10 1 (samples 2 1 pulse2) W /\
  forall k, Rabs (W 0%nat k - radiated_projected 1000 1 3 5 (centre 5) (fun t => pulse2 (0 + INR k * 1 - t))) <= bowl_error (q1 1 1) 3 5 (centre 5) 1 1.
Proof.
  destruct (C111_projected_ex Matlab) as (E & D & Hin & Hr & Hc).
  destruct (C111_signal_partial 300 (map fst) Matlab FSphere 1 1 None (round_robin 4 1) [] _ 3 5 (q1 1 1) 10 [centre 5] delay_single [0] 1 1 2 pulse2
    sig_mc Matlab KConv E D Hr) as (W & HW & H); try (cbn; lra); try lia.
  - exact pulse2_ok.
  - apply sig_call; [lia|reflexivity|right; left; reflexivity|discriminate|discriminate].
  - exists W. split; [exact HW|]. intros k. apply (H 0%nat k (Nat.lt_0_1)); [|exact Hin]. cbn [nth]. rewrite Hc. lra.
Qed.
