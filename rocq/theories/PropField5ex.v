(** PropField5ex.v - non-vacuity of C112: the focused two element array of
    PropPhys4ex and a triangular pulse; Octave conv_p for the signal. *)
From Coq Require Strings.String Strings.Ascii.
Import Coq.Strings.String.StringSyntax.
From Coq Require Import Reals List ZArith Lra Lia.
From Verif Require Import Base BaseLemmas ModelSir ModelArr ModelSmp NumR SpecSmp SpecSir SpecRayleigh SpecArr
  ModelGw SpecGw SpecGwR ProofsR PropSir PropArr PropGwR SpecPhys SpecPhysA PropPhys3 PropPhys3ex SpecPhysB PropPhys4 PropPhys4ex
  SpecField PropField SpecField2 PropField2 SpecField3 SpecField5 PropField5
  SpecDft ModelConv SpecConv ProofsConv ModelCgw SpecCgw PropCgw2.
Import ListNotations.
Open Scope R_scope.

Lemma A5_off : off_array (GRect 2 1) A5 exo.
Proof. intros i Hi. destruct i as [|[|i]]; cbn in Hi; [cbn; lra|cbn; lra|lia]. Qed.
Example C112_ex : forall fe junk,
  exists V, returns (gateway 10 (map fst) fe FArrRect 1 1 None (round_robin 4 1) junk (foc2_args 2 1 exq (mk (-1) 0 0) (mk 1 0 0) 5 exo 0)) 10 1 V /\
  Rabs (observed exq 10 0 (V O) triangle - array_field 1000 1 (GRect 2 1) A5 exo triangle) <= array_error exq (GRect 2 1) A5 exo 1 1.
Proof.
  intros fe junk.
  destruct (C112_field 10 (map fst) fe FArrRect 1 1 None (round_robin 4 1) junk _ (GRect 2 1) A5 exq 10 [exo] delay_single [0]
    (foc2_call fe 2 1 exq (mk (-1) 0 0) (mk 1 0 0) 5 exo 0) (A5_defined fe)) as (V & HV & H); [cbn; lra|cbn; lra|cbn; lra|].
  exists V. split; [exact HV|]. apply (H 0%nat); [cbn; lia|exact A5_off|apply (C87_array_ex fe)|exact triangle_smooth].
Qed.
Example C112_signal_ex : forall junk, exists H w er Y W,
  gateway 10 (map fst) Octave FArrRect 1 1 None (round_robin 4 1) junk (foc2_args 2 1 exq (mk (-1) 0 0) (mk 1 0 0) 5 exo 0) = Ok (Some (Returned H 10 1 w er)) /\
  conv_gateway (ex_mc (round_robin 4 1)) Octave KConv 1 [VNum Full 10 1 H; mat 2 1 (samples 2 1 pulse2)] = Ok (Some (CReturned 11 1 Y)) /\
  matrix_is Y 11 1 W /\
  forall k, (k < 11)%nat -> Rabs (W 0%nat k - array_field 1000 1 (GRect 2 1) A5 exo (fun t => pulse2 (0 + INR k * 1 - t))) <= array_error exq (GRect 2 1) A5 exo 1 1.
Proof.
  intros junk.
  destruct (C112_signal 10 (map fst) Octave FArrRect 1 1 None (round_robin 4 1) junk _ (GRect 2 1) A5 exq 10 [exo] delay_single [0] 1 1 2 pulse2
    (ex_mc (round_robin 4 1)) KConv (foc2_call Octave 2 1 exq (mk (-1) 0 0) (mk 1 0 0) 5 exo 0) (A5_defined Octave))
    as (H & w & er & Y & W & H1 & H2 & H3 & H4); try (cbn; lra); try (cbn; lia); try discriminate.
  - exact pulse2_ok.
  - left; reflexivity.
  - split.
    + intros Hi. cbn in Hi. repeat destruct Hi as [Hi|Hi]; try discriminate Hi; exact Hi.
    + change (num_threads (mc_hw (ex_mc (round_robin 4 1))) (mc_env (ex_mc (round_robin 4 1))) (Z.of_nat (length [exo]))) with 1%Z.
      intros i Hi. assert (i = 0)%Z by lia. subst i. cbn. lia.
  - exists H, w, er, Y, W. split; [exact H1|]. split; [exact H2|]. split; [exact H3|].
    intros k Hk. apply (H4 0%nat k); auto; [exact A5_off|apply (C87_array_ex Octave)].
Qed.
