(** PropAttSpeedEx.v - concrete calls that meet the hypotheses of C131 (s = 2): a
    2 x 1 mm plate and two of them, steered by 30 degrees, with user
    defined weights, in a medium of 1/2 and, twice as fast, 1/4 dB/(cm MHz). *)
From Coq Require Strings.String Strings.Ascii.
Import Coq.Strings.String.StringSyntax.
From Coq Require Import Reals List ZArith Lra Lia Permutation.
From Verif Require Import Base BaseLemmas ModelSir ModelArr ModelSmp NumR SpecSmp SpecSir SpecRayleigh SpecArr
  ModelGw SpecGw SpecGwR ProofsR ProofsRayleigh ProofsSirR PropSir PropArr PropGwR SpecPhys ProofsPhys PropPhys PropPhys2 SpecPhysA SpecPhysB PropPhys3 PropPhys3ex SpecSym PropSym PropSymEx
  SpecAtt SpecAtt2 PropAtt2 PropAtt2ex PropAttSym PropAttSymEx PropAttSpeed.
Import ListNotations.
Local Open Scope string_scope.
Open Scope R_scope.

Example C131_ex : forall fe,
  let A := tw left_pos right_pos (Some 30) 1 2 in
  absorbing_call fe FRect 1 1 None (round_robin 4 1) (pl_args 2 1 exq 0 (1/2) aside) (1/2) (GRect 2 1) exq 10 [aside] delay_single [0] /\
  all_defined fe 10 exq 10 (GRect 2 1) [aside] delay_single [0] /\
  absorbing_call fe FRect 1 1 None (round_robin 4 1) (pl_args 2 1 (faster 2 exq) (0 / 2) (1 / 2 / 2) aside) (1 / 2 / 2) (GRect 2 1) (faster 2 exq) 10 [aside]
    delay_single (map (fun t => t / 2) [0]) /\
  absorbing_array_call fe FArrRect 1 1 None (round_robin 4 1) (aw_args 2 1 exq left_pos right_pos (Some 30) 1 2 aside 1 (1/2)) (1/2) (GRect 2 1) A exq 10 [aside] delay_single [1] /\
  all_arr_defined fe 10 exq 10 (GRect 2 1) A [aside] delay_single [1] /\
  absorbing_array_call fe FArrRect 1 1 None (round_robin 4 1) (aw_args 2 1 (faster 2 exq) left_pos right_pos (Some 30) 1 2 aside (1 / 2) (1 / 2 / 2)) (1 / 2 / 2)
    (GRect 2 1) (faster_array 2 A) (faster 2 exq) 10 [aside] delay_single (map (fun t => t / 2) [1]).
Proof.
  intros fe A. assert (N : near aside) by (unfold near, aside; cbn; repeat split; try lra; apply Rabs_le; lra).
  assert (HQ : / 2^52 < 1 / 2 / 2).
  { pose proof (pow_lt 2 52 ltac:(lra)). apply (Rmult_lt_reg_r (2^52)); [lra|]. rewrite Rinv_l by lra.
    assert (2^3 < 2^52) by (apply Rlt_pow; [lra|lia]). lra. }
  split; [apply pl_call; exact half_absorbs|]. split.
  { intros n Hn; cbn in Hn; destruct n; [|lia]; apply near_defined; [exact N|cbn; lra]. }
  split; [apply pl_call; exact HQ|]. split; [apply aw_call; exact half_absorbs|]. split; [apply tw_defined; [lra|auto]|].
  apply aw_call; exact HQ.
Qed.
