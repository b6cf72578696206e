(** PropAtt4ex.v - concrete calls that meet the hypotheses of C126: 0.5 dB/(cm
    MHz), a 2 x 1 mm plate and two such plates focused at 5 mm. *)
From Coq Require Import Reals List ZArith Lra Lia.
From Verif Require Import Base BaseLemmas ModelSir ModelArr ModelSmp NumR SpecSmp SpecSir SpecRayleigh SpecArr ModelConv
  ModelGw SpecGw SpecGwR ProofsR ProofsRayleigh ProofsSirR PropSir PropArr PropGwR SpecPhys SpecPhysA SpecPhysB ProofsPhys PropPhys PropPhys2 PropPhys3 PropPhys4 PropPhys4ex
  SpecDft SpecAtt ProofsAtt PropAtt SpecAtt2 ProofsAtt2 PropAtt2 PropAtt2ex SpecAtt3 ProofsAtt3 PropAtt3 PropAtt3ex SpecAtt4 PropAtt4.
Import ListNotations.
Open Scope R_scope.

Example C126_single_ex : forall fe,
  absorbing_call fe FRect 1 1 None (round_robin 4 1) (ab_args exq 10 0 (1/2) exo) (1/2) (GRect 2 1) exq 10 [exo] delay_single [0] /\
  exact_call (map fst) fe FRect 1 1 None (round_robin 4 1) (rect_args 2 1 exq 10 0 exo) (GRect 2 1) exq 10 [exo] delay_single [0] /\
  all_defined fe 10 exq 10 (GRect 2 1) [exo] delay_single [0] /\ 0 < p_dt exq /\
  0 < spread_strength exq 10 1 0 exo (sources exq (GRect 2 1)).
Proof.
  intros fe. destruct (C115_ex fe) as (A & B & C & D & E & _). split; [exact A|]. split; [apply rect_exact_call; lia|].
  split; [exact B|]. split; [exact C|]. unfold spread_strength. rewrite E.
  assert (P : forall s, In s (sources exq (GRect 2 1)) -> 0 < strength exq 1 exo s).
  { intros s Hs. pose proof (D s Hs) as Hd. unfold strength. rewrite ex_sources in Hs.
    assert (H : 0 < dist exo s) by lra. assert (HP := PI_RGT_0).
    assert (DS : s_ds s = 1) by (destruct Hs as [<-|[<-|[]]]; reflexivity). rewrite DS.
    set (r := dist exo s) in *. clearbody r. change (p_v exq) with 1. change (p_dt exq) with 1.
    apply Rdiv_lt_0_compat; [lra|]. rewrite Rmult_1_r. apply Rmult_lt_0_compat; [|exact H]. lra. }
  assert (Q : forall s, In s (sources exq (GRect 2 1)) -> 0 < Rabs (strength exq 1 exo s) * dist exo s).
  { intros s Hs. specialize (D s Hs). specialize (P s Hs). rewrite Rabs_pos_eq by lra. apply Rmult_lt_0_compat; lra. }
  rewrite ex_sources in *. cbn [map]. 
  match goal with |- 0 < Rsum (?a :: ?b :: nil) => change (0 < a + (b + 0)) end.
  pose proof (Q _ (or_introl eq_refl)). pose proof (Q _ (or_intror (or_introl eq_refl))). cbv beta in *. lra.
Qed.
Example C126_array_ex : forall fe,
  absorbing_array_call fe FArrRect 1 1 None (round_robin 4 1) (ab2_args 2 1 exq (mk (-1) 0 0) (mk 1 0 0) 5 exo 0 (1/2)) (1/2) (GRect 2 1) A5 exq 10 [exo] delay_single [0] /\
  exact_array_call (map fst) fe FArrRect 1 1 None (round_robin 4 1) (foc2_args 2 1 exq (mk (-1) 0 0) (mk 1 0 0) 5 exo 0) (GRect 2 1) A5 exq 10 [exo] delay_single [0] /\
  all_arr_defined fe 10 exq 10 (GRect 2 1) A5 [exo] delay_single [0].
Proof. exact C117_array_ex. Qed.
