(** PropAtt3ex.v - concrete calls that meet the hypotheses of C117 (arrays), C122
    and C123: 0.5 dB/(cm MHz), start delays 0 and 2 samples, a 2 x 1 mm plate and
    two such plates focused at 5 mm. *)
From Coq Require Import Reals List ZArith Lra Lia.
From Verif Require Import Base BaseLemmas ModelSir ModelArr ModelSmp NumR SpecSmp SpecSir SpecRayleigh SpecArr ModelConv
  ModelGw SpecGw SpecGwR ProofsR ProofsRayleigh ProofsSirR PropSir PropArr PropGwR SpecPhys SpecPhysA SpecPhysB ProofsPhys PropPhys PropPhys2 PropPhys3 PropPhys4 PropPhys4ex
  SpecDft SpecAtt ProofsAtt PropAtt SpecAtt2 ProofsAtt2 PropAtt2 PropAtt2ex SpecAtt3 ProofsAtt3 PropAtt3.
Import ListNotations.
Open Scope R_scope.

Example C117_array_ex : forall fe,
  absorbing_array_call fe FArrRect 1 1 None (round_robin 4 1) (ab2_args 2 1 exq (mk (-1) 0 0) (mk 1 0 0) 5 exo 0 (1/2)) (1/2) (GRect 2 1) A5 exq 10 [exo] delay_single [0] /\
  exact_array_call (map fst) fe FArrRect 1 1 None (round_robin 4 1) (foc2_args 2 1 exq (mk (-1) 0 0) (mk 1 0 0) 5 exo 0) (GRect 2 1) A5 exq 10 [exo] delay_single [0] /\
  all_arr_defined fe 10 exq 10 (GRect 2 1) A5 [exo] delay_single [0].
Proof. intros fe. split; [apply ab2_call; exact half_absorbs|]. split; [apply foc2_call|apply A5_defined]. Qed.

Example C122_single_ex : forall fe,
  absorbing_call fe FRect 1 1 None (round_robin 4 1) (ab_args exq 10 0 (1/2) exo) (1/2) (GRect 2 1) exq 10 [exo] delay_single [0] /\
  absorbing_call fe FRect 1 1 None (round_robin 4 1) (ab_args exq 10 2 (1/2) exo) (1/2) (GRect 2 1) exq 10 [exo] delay_single [2] /\
  all_defined fe 10 exq 10 (GRect 2 1) [exo] delay_single [0] /\ all_defined fe 10 exq 10 (GRect 2 1) [exo] delay_single [2] /\
  start_delay delay_single [2] 0 = start_delay delay_single [0] 0 + IZR 2 * p_dt exq /\
  forall s, In s (sources exq (GRect 2 1)) -> (0 <= arrives_at exq 0 exo s < 10)%Z /\ (0 <= arrives_at exq 2 exo s < 10)%Z.
Proof.
  intros fe. split; [apply ab_call; [lia|exact half_absorbs]|]. split; [apply ab_call; [lia|exact half_absorbs]|].
  split; [|split; [|split]].
  - intros n Hn. cbn in Hn. destruct n; [|lia]. apply ex_defined.
  - intros n Hn. cbn in Hn. destruct n; [|lia]. cbn [nth start_delay]. pose proof (proj2 (ex_defined (idx_of fe))) as X. replace (0 + IZR 2 * p_dt exq) with 2 in X by (cbn; lra). exact X.
  - cbn. lra.
  - intros s Hs. rewrite (ex_arr_at 0 5 s Hs), (ex_arr_at 2 3 s Hs) by lra. lia.
Qed.

Lemma A5_times i s : (i < 2)%nat -> In s (sources exq (GRect 2 1)) -> 3 <= arrival exq (elem_delay exq A5 0 i) (rel exo (elem A5 i)) s <= 7.
Proof.
  intros Hi Hs. assert (Hq : par_ok exq) by (unfold par_ok; cbn; repeat split; lra).
  destruct (source_on_surface _ (GRect 2 1) s Hq I Hs) as [Hon _]. rewrite (arrival_time _ (GRect 2 1)) by (auto; exact I).
  set (p := spos s) in *. assert (HR : p_x p ^2 + p_y p ^2 + p_z p ^2 <= (6 / 5)^2).
  { destruct Hon as (Hx & Hy & Hz). rewrite Hz. apply Rabs_le_inv' in Hx. apply Rabs_le_inv' in Hy. nra. }
  assert (HF : focal_point 1000 A5 exo (1000 / 1000 * sqrt (extr A5 ^2 + 5^2))).
  { apply C104_xy; try reflexivity; [lra|]. intros [|[|j]] Hj; [reflexivity|reflexivity|cbn in Hj; lia]. }
  specialize (HF i Hi). assert (Ex : extr A5 = 1) by exact (exA_extr (FXY 5) SNone ANone). rewrite Ex in HF.
  assert (S : 5 < sqrt (1^2 + 5^2) < 51 / 10).
  { replace (1^2 + 5^2) with 26 by ring. split.
    - rewrite <- (sqrt_square 5) by lra. apply sqrt_lt_1; lra.
    - rewrite <- (sqrt_square (51/10)) by lra. apply sqrt_lt_1; lra. }
  unfold travel_time. cbn [lens exq p_cp p_dt]. destruct (distance_rel exo (elem A5 i) p (6 / 5) ltac:(lra) HR) as [D1 D2].
  unfold elem_delay. cbn [exq p_cp]. unfold Rdiv at 1 3. rewrite Rinv_1, !Rmult_1_r. lra.
Qed.
Lemma rint_range x a b : IZR a <= x <= IZR b -> (a <= Zrint x <= b)%Z.
Proof. intros [H1 H2]. apply Zrint_mono in H1, H2. rewrite Zrint_IZR in H1. rewrite Zrint_IZR in H2. lia. Qed.
Example C122_array_ex : forall fe,
  absorbing_array_call fe FArrRect 1 1 None (round_robin 4 1) (ab2_args 2 1 exq (mk (-1) 0 0) (mk 1 0 0) 5 exo 0 (1/2)) (1/2) (GRect 2 1) A5 exq 10 [exo] delay_single [0] /\
  absorbing_array_call fe FArrRect 1 1 None (round_robin 4 1) (ab2_args 2 1 exq (mk (-1) 0 0) (mk 1 0 0) 5 exo 2 (1/2)) (1/2) (GRect 2 1) A5 exq 10 [exo] delay_single [2] /\
  all_arr_defined fe 10 exq 10 (GRect 2 1) A5 [exo] delay_single [0] /\ all_arr_defined fe 10 exq 10 (GRect 2 1) A5 [exo] delay_single [2] /\
  forall i s, (i < length (ar_pos A5))%nat -> In s (sources exq (GRect 2 1)) ->
    (0 <= arrives_at exq (elem_delay exq A5 0 i) (rel exo (elem A5 i)) s < 10)%Z /\ (0 <= arrives_at exq (elem_delay exq A5 2 i) (rel exo (elem A5 i)) s < 10)%Z.
Proof.
  intros fe.
  assert (T : forall i s, (i < length (ar_pos A5))%nat -> In s (sources exq (GRect 2 1)) ->
    (3 <= arrives_at exq (elem_delay exq A5 0 i) (rel exo (elem A5 i)) s <= 7)%Z /\ (1 <= arrives_at exq (elem_delay exq A5 2 i) (rel exo (elem A5 i)) s <= 5)%Z).
  { intros i s Hi Hs. cbn [A5 foc2 ar_pos length] in Hi. pose proof (A5_times i s Hi Hs) as B. split; apply rint_range; [exact B|].
    replace (elem_delay exq A5 2 i) with (elem_delay exq A5 0 i + IZR 2 * p_dt exq) by (unfold elem_delay; cbn [exq p_dt]; ring).
    rewrite arrival_shift by (cbn; lra). rewrite opp_IZR. lra. }
  split; [apply ab2_call; exact half_absorbs|]. split; [apply ab2_call; exact half_absorbs|]. split; [apply A5_defined|]. split.
  - intros n Hn. cbn in Hn. destruct n; [|lia]. cbn [nth start_delay]. destruct (A5_defined fe 0%nat ltac:(cbn; lia)) as [Ha He].
    constructor; [exact Ha|]. intros i Hi. destruct (He i Hi) as [D1 D2 D3 D4 D5 D6]. constructor; auto.
    intros s Hs. destruct (T i s Hi Hs) as [_ T2]. destruct (idx_of fe); lia.
  - intros i s Hi Hs. destruct (T i s Hi Hs). lia.
Qed.
(** C123: the nearest source point is more than 5 mm away; there the energy left
    of a unit pulse of 10 samples is less than 1. *)
Example C123_ex : (forall s, In s (sources exq (GRect 2 1)) -> 5 <= dist exo s) /\ unit_energy 10 (p_dt exq) (1/2) 5 <= 1.
Proof.
  split; [intros s Hs; pose proof (ex_dist exo s Hs eq_refl); lra|]. apply C123_unit_energy; cbn; lra || lia.
Qed.
