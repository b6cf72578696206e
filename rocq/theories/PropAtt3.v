(** PropAtt3.v - property theorems C117 (arrays), C122, C123: calls in an
    absorbing medium. *)
From Coq Require Import Reals List ZArith Lra Lia.
From Verif Require Import Base BaseLemmas ModelSir ModelArr ModelSmp NumR SpecSmp SpecSir SpecRayleigh SpecArr ModelConv
  ModelGw SpecGw SpecGwR ProofsR ProofsRayleigh ProofsSirR ProofsArr PropSir PropArr PropErr ProofsGwR PropGwR SpecPhys SpecPhysA ProofsPhys PropPhys PropPhys3
  SpecDft ProofsDft ProofsDft2 SpecAtt ProofsAtt PropAtt SpecAtt2 ProofsAtt2 PropAtt2 SpecAtt3 ProofsAtt3.
From Coq Require Import ZifyBool ZifyNat.
Import ListNotations.
Open Scope R_scope.

(** C117, arrays. *)
Theorem C117_time_integral_array : forall fuel fuel' c2r fe fe' f f' nlhs nlhs' hw hw' env env' sch sch' junk junk' args args' alpha g A q ntz ps dty dl,
  absorbing_array_call fe f nlhs hw env sch args alpha g A q ntz ps dty dl -> all_arr_defined fe fuel q ntz g A ps dty dl ->
  exact_array_call c2r fe' f' nlhs' hw' env' sch' args' g A q ntz ps dty dl -> all_arr_defined fe' fuel' q ntz g A ps dty dl ->
  exists V V', returns (gateway fuel exact_ifft fe f nlhs hw env sch junk args) ntz (length ps) V /\
    returns (gateway fuel' c2r fe' f' nlhs' hw' env' sch' junk' args') ntz (length ps) V' /\
    forall n, (n < length ps)%nat -> rsum (Z.to_nat ntz) (V n) = rsum (Z.to_nat ntz) (V' n).
Proof.
  intros fuel fuel' c2r fe fe' f f' nlhs nlhs' hw hw' env env' sch sch' junk junk' args args' alpha g A q ntz ps dty dl HC HD HC' HD'.
  do 2 eexists. split; [eapply C115_array; eassumption|]. split; [eapply array_call_returns; eassumption|]. cbv beta.
  intros n Hn. destruct HC as [_ _ Hnt _ _ _]. destruct (HD n Hn) as [_ He].
  unfold attenuated_superposition, superposition. rewrite !rsum_elems. apply Rsum_ext. intros i Hi. apply in_seq in Hi.
  destruct (He i ltac:(lia)) as [(_ & _ & Hdt & _) _ _ _ _ _].
  etransitivity; [now apply sum_dc|]. rewrite <- (sum_dc q ntz 0) by exact Hnt. apply rsum_ext. intros k Hk. now apply attenuated_sum_0.
Qed.
Print Assumptions C117_time_integral_array.

(** C122: with every wave inside the record before and after, j more sample
    periods of start delay turn the record of an absorbing medium around by j
    samples: what leaves at the beginning comes back at the end. *)
Lemma sum_shift q ntz alpha w d o g j k k' : (0 < ntz)%Z -> p_dt q <> 0 -> (Z.even j = true \/ no_tie q d o g) ->
  (forall s, In s (sources q g) -> (0 <= arrives_at q d o s < ntz)%Z /\ (0 <= arrives_at q (d + IZR j * p_dt q) o s < ntz)%Z) ->
  (exists m, Z.of_nat k + j - Z.of_nat k' = m * ntz)%Z ->
  attenuated_sum q ntz alpha w (d + IZR j * p_dt q) o (sources q g) k = attenuated_sum q ntz alpha w d o (sources q g) k'.
Proof.
  intros Hnt Hdt Hj Hin (m & Hm). unfold attenuated_sum. f_equal. apply map_ext_in. intros s Hs. destruct (Hin s Hs) as [I1 I2].
  unfold inside. rewrite (proj2 (Z.leb_le _ _) (proj1 I1)), (proj2 (Z.leb_le _ _) (proj1 I2)), (proj2 (Z.ltb_lt _ _) (proj2 I1)), (proj2 (Z.ltb_lt _ _) (proj2 I2)).
  cbn [andb]. f_equal. rewrite (arrives_shift q d o g j s Hdt Hj Hs). apply (green_shift _ _ _ _ _ j m); auto; lia.
Qed.
Theorem C122_turn_single : forall j fuel fe f nlhs hw env sch junk args f' nlhs' hw' env' sch' junk' args' alpha g q ntz ps dty dl dty' dl',
  (forall n, (n < length ps)%nat -> start_delay dty' dl' n = start_delay dty dl n + IZR j * p_dt q) ->
  absorbing_call fe f nlhs hw env sch args alpha g q ntz ps dty dl -> all_defined fe fuel q ntz g ps dty dl ->
  absorbing_call fe f' nlhs' hw' env' sch' args' alpha g q ntz ps dty' dl' -> all_defined fe fuel q ntz g ps dty' dl' ->
  (Z.even j = true \/ forall n s z, (n < length ps)%nat -> In s (sources q g) -> arrival q (start_delay dty dl n) (nth n ps origin) s <> IZR z + 1 / 2) ->
  (forall n s, (n < length ps)%nat -> In s (sources q g) ->
     (0 <= arrives_at q (start_delay dty dl n) (nth n ps origin) s < ntz)%Z /\ (0 <= arrives_at q (start_delay dty' dl' n) (nth n ps origin) s < ntz)%Z) ->
  exists V V', returns (gateway fuel exact_ifft fe f nlhs hw env sch junk args) ntz (length ps) V /\
    returns (gateway fuel exact_ifft fe f' nlhs' hw' env' sch' junk' args') ntz (length ps) V' /\
    forall n k k', (n < length ps)%nat -> (k < Z.to_nat ntz)%nat -> (k' < Z.to_nat ntz)%nat -> (Z.of_nat k' = (Z.of_nat k + j) mod ntz)%Z -> V' n k = V n k'.
Proof.
  intros j fuel fe f nlhs hw env sch junk args f' nlhs' hw' env' sch' junk' args' alpha g q ntz ps dty dl dty' dl' Hdl HC HD HC' HD' Hj Hin.
  do 2 eexists. split; [eapply C115_single; eassumption|]. split; [eapply C115_single; eassumption|]. cbv beta.
  intros n k k' Hn Hk Hk' E. rewrite Hdl by exact Hn. destruct HC as [_ _ Hnt _ _ _]. destruct (HD n Hn) as [(_ & _ & Hdt & _) _ _ _ _ _].
  apply sum_shift; auto.
  - destruct Hj as [Hj|Hj]; [now left|right]. intros s z Hs. auto.
  - intros s Hs. specialize (Hin n s Hn Hs). rewrite Hdl in Hin by exact Hn. exact Hin.
  - exists ((Z.of_nat k + j) / ntz)%Z. pose proof (Z.div_mod (Z.of_nat k + j) ntz). lia.
Qed.
Print Assumptions C122_turn_single.
Theorem C122_turn_array : forall j fuel fe f nlhs hw env sch junk args f' nlhs' hw' env' sch' junk' args' alpha g A q ntz ps dty dl dty' dl',
  (forall n, (n < length ps)%nat -> start_delay dty' dl' n = start_delay dty dl n + IZR j * p_dt q) ->
  absorbing_array_call fe f nlhs hw env sch args alpha g A q ntz ps dty dl -> all_arr_defined fe fuel q ntz g A ps dty dl ->
  absorbing_array_call fe f' nlhs' hw' env' sch' args' alpha g A q ntz ps dty' dl' -> all_arr_defined fe fuel q ntz g A ps dty' dl' ->
  (Z.even j = true \/ forall n i s z, (n < length ps)%nat -> (i < length (ar_pos A))%nat -> In s (sources q g) ->
     arrival q (elem_delay q A (start_delay dty dl n) i) (rel (nth n ps origin) (elem A i)) s <> IZR z + 1 / 2) ->
  (forall n i s, (n < length ps)%nat -> (i < length (ar_pos A))%nat -> In s (sources q g) ->
     (0 <= arrives_at q (elem_delay q A (start_delay dty dl n) i) (rel (nth n ps origin) (elem A i)) s < ntz)%Z /\
     (0 <= arrives_at q (elem_delay q A (start_delay dty' dl' n) i) (rel (nth n ps origin) (elem A i)) s < ntz)%Z) ->
  exists V V', returns (gateway fuel exact_ifft fe f nlhs hw env sch junk args) ntz (length ps) V /\
    returns (gateway fuel exact_ifft fe f' nlhs' hw' env' sch' junk' args') ntz (length ps) V' /\
    forall n k k', (n < length ps)%nat -> (k < Z.to_nat ntz)%nat -> (k' < Z.to_nat ntz)%nat -> (Z.of_nat k' = (Z.of_nat k + j) mod ntz)%Z -> V' n k = V n k'.
Proof.
  intros j fuel fe f nlhs hw env sch junk args f' nlhs' hw' env' sch' junk' args' alpha g A q ntz ps dty dl dty' dl' Hdl HC HD HC' HD' Hj Hin.
  do 2 eexists. split; [eapply C115_array; eassumption|]. split; [eapply C115_array; eassumption|]. cbv beta.
  intros n k k' Hn Hk Hk' E. rewrite Hdl by exact Hn. destruct HC as [_ _ Hnt _ _ _]. destruct (HD n Hn) as [_ He].
  unfold attenuated_superposition. apply Rsum_ext. intros i Hi. apply in_seq in Hi. destruct (He i ltac:(lia)) as [(_ & _ & Hdt & _) _ _ _ _ _].
  assert (Ed : forall d, elem_delay q A (d + IZR j * p_dt q) i = elem_delay q A d i + IZR j * p_dt q) by (intros d; unfold elem_delay; ring).
  rewrite Ed. apply sum_shift; auto.
  - destruct Hj as [Hj|Hj]; [now left|right]. intros s z Hs. apply Hj; auto; lia.
  - intros s Hs. specialize (Hin n i s Hn ltac:(lia) Hs). rewrite Hdl, Ed in Hin by exact Hn. exact Hin.
  - exists ((Z.of_nat k + j) / ntz)%Z. pose proof (Z.div_mod (Z.of_nat k + j) ntz). lia.
Qed.
Print Assumptions C122_turn_array.

(** C123: the energy of a response in an absorbing medium is at most the squared
    sum of the strengths of the source points heard, times the energy that is
    left of a unit pulse over the way to the nearest of them. *)
Lemma sum_power_near q ntz alpha w d o src k r0 : 0 < p_dt q -> 0 <= alpha -> (0 < ntz)%Z -> (2 * k <= Z.to_nat ntz)%nat -> (forall s, In s src -> r0 <= dist o s) ->
  0 <= Rsum (map (fun s => Rabs (strength q w o s)) (heard_sources q ntz d o src)) /\
  power (Z.to_nat ntz) (attenuated_sum q ntz alpha w d o src) k <=
  (Rsum (map (fun s => Rabs (strength q w o s)) (heard_sources q ntz d o src)) * damping alpha (frequency (Z.to_nat ntz) (p_dt q) k) r0)^2.
Proof.
  intros Hdt Ha Hnt Hk Hr. set (L := Z.to_nat ntz) in *. set (D := damping alpha (frequency L (p_dt q) k) r0).
  assert (HL : (0 < L)%nat) by lia.
  assert (HD0 : 0 < D) by apply exp_pos.
  destruct (power_sum L k (fun s n => strength q w o s * green L (p_dt q) alpha (dist o s) (arrives_at q d o s) n)
    (fun s => Rabs (strength q w o s) * D) (heard_sources q ntz d o src)) as [P1 P2].
  { intros s Hs. apply filter_In in Hs as [Hs _]. pose proof (Rabs_pos (strength q w o s)). split; [nra|].
    rewrite (power_scal L (strength q w o s) (green L (p_dt q) alpha (dist o s) (arrives_at q d o s))), Rpow_mult_distr, pow2_abs.
    apply Rmult_le_compat_l; [apply pow2_ge_0|].
    eapply Rle_trans; [apply green_power_le; auto; lra|]. apply pow_incr. split; [left; apply exp_pos|].
    apply damping_mono; auto. apply frequency_pos; auto. }
  rewrite <- Rsum_scal_r in P1, P2. split.
  { apply (Rmult_le_reg_r D); [exact HD0|]. lra. }
  eapply Rle_trans; [|exact P2]. right. unfold power. f_equal; f_equal.
  - apply dft_re_ext. intros n _. apply filter_sum.
  - apply dft_im_ext. intros n _. apply filter_sum.
Qed.
Lemma alpha_pos alpha : / 2^52 < alpha -> 0 <= alpha.
Proof. intros H. assert (0 < / 2^52) by (apply Rinv_0_lt_compat, pow_lt; lra). lra. Qed.
Theorem C123_energy_single : forall fuel fe f nlhs hw env sch junk args alpha g q ntz ps dty dl,
  absorbing_call fe f nlhs hw env sch args alpha g q ntz ps dty dl -> all_defined fe fuel q ntz g ps dty dl -> 0 < p_dt q ->
  exists V, returns (gateway fuel exact_ifft fe f nlhs hw env sch junk args) ntz (length ps) V /\
  forall n r0, (n < length ps)%nat -> (forall s, In s (sources q g) -> r0 <= dist (nth n ps origin) s) ->
    energy (Z.to_nat ntz) (V n) <=
    (Rsum (map (fun s => Rabs (strength q 1 (nth n ps origin) s)) (heard_sources q ntz (start_delay dty dl n) (nth n ps origin) (sources q g))))^2
    * unit_energy (Z.to_nat ntz) (p_dt q) alpha r0.
Proof.
  intros fuel fe f nlhs hw env sch junk args alpha g q ntz ps dty dl HC HD Hdt.
  eexists. split; [eapply C115_single; eassumption|]. cbv beta. intros n r0 Hn Hr. destruct HC as [_ _ Hnt _ Ha _].
  apply energy_bound; [lia|]. intros k Hk. apply sum_power_near; auto. now apply alpha_pos.
Qed.
Print Assumptions C123_energy_single.
Theorem C123_energy_array : forall fuel fe f nlhs hw env sch junk args alpha g A q ntz ps dty dl,
  absorbing_array_call fe f nlhs hw env sch args alpha g A q ntz ps dty dl -> all_arr_defined fe fuel q ntz g A ps dty dl -> 0 < p_dt q ->
  exists V, returns (gateway fuel exact_ifft fe f nlhs hw env sch junk args) ntz (length ps) V /\
  forall n r0, (n < length ps)%nat ->
    (forall i s, (i < length (ar_pos A))%nat -> In s (sources q g) -> r0 <= dist (rel (nth n ps origin) (elem A i)) s) ->
    energy (Z.to_nat ntz) (V n) <=
    (Rsum (map (element_strength q ntz A g (start_delay dty dl n) (nth n ps origin)) (seq 0 (length (ar_pos A)))))^2
    * unit_energy (Z.to_nat ntz) (p_dt q) alpha r0.
Proof.
  intros fuel fe f nlhs hw env sch junk args alpha g A q ntz ps dty dl HC HD Hdt.
  eexists. split; [eapply C115_array; eassumption|]. cbv beta. intros n r0 Hn Hr. destruct HC as [_ _ Hnt _ Ha _]. apply alpha_pos in Ha.
  apply energy_bound; [lia|]. intros k Hk. set (d := start_delay dty dl n). set (o := nth n ps origin) in *. set (D := damping _ _ _).
  assert (HD0 : 0 < D) by apply exp_pos.
  destruct (power_sum (Z.to_nat ntz) k
    (fun i => attenuated_sum q ntz alpha (weight A i) (elem_delay q A d i) (rel o (elem A i)) (sources q g))
    (fun i => element_strength q ntz A g d o i * D) (seq 0 (length (ar_pos A)))) as [_ P].
  { intros i Hi. apply in_seq in Hi.
    destruct (sum_power_near q ntz alpha (weight A i) (elem_delay q A d i) (rel o (elem A i)) (sources q g) k r0 Hdt Ha Hnt Hk) as [W1 W2].
    { intros s Hs. apply Hr; auto. lia. }
    split; [|exact W2]. apply Rmult_le_pos; [exact W1|lra]. }
  rewrite <- Rsum_mul in P. exact P.
Qed.
Print Assumptions C123_energy_array.

(** What is left is at most all. *)
Theorem C123_unit_energy : forall L dt alpha r, 0 < dt -> 0 <= alpha -> 0 <= r -> (0 < L)%nat -> unit_energy L dt alpha r <= 1.
Proof. exact unit_energy_le. Qed.
Print Assumptions C123_unit_energy.

(** A point source: dream_att. *)
From Verif Require Import ModelTools SpecTools PropTools.
Open Scope R_scope.
Lemma point_energy L dt alpha r it : dt <> 0 -> (0 < L)%nat ->
  energy L (green L dt alpha r it) <= unit_energy L dt alpha r /\ (Nat.even L = false -> energy L (green L dt alpha r it) = unit_energy L dt alpha r).
Proof.
  intros Hdt HL. split.
  - replace (unit_energy L dt alpha r) with (1^2 * unit_energy L dt alpha r) by ring. apply energy_bound; auto. intros k Hk.
    rewrite Rmult_1_l. now apply green_power_le.
  - intros Eo. assert (HLr : 0 < INR L) by (apply lt_0_INR; lia). apply (Rmult_eq_reg_l (INR L)); [|lra].
    unfold energy. rewrite parseval by exact HL. unfold unit_energy. rewrite Eo.
    replace (INR L * ((1 + rsum ((L - 1) / 2) (fun k => 2 * damping alpha (frequency L dt (S k)) r ^ 2) + 0) / INR L)) with
      (1 + rsum ((L - 1) / 2) (fun k => 2 * damping alpha (frequency L dt (S k)) r ^ 2) + 0) by (field; lra).
    f_equal. f_equal.
    + rewrite (proj1 (green_bin L dt alpha r it 0 ltac:(lia))). cbn [green_re]. ring.
    + apply rsum_ext. intros k Hk. pose proof (Nat.mul_div_le (L - 1) 2). destruct (green_bin L dt alpha r it (S k)) as [-> ->]; [lia|].
      rewrite green_power by (auto; lia). reflexivity.
Qed.
Theorem C123_point : forall fe nlhs junk vo vs vd vm (ps : list pos) dt ntz dl cp alpha,
  fe = Octave \/ fe = Matlab -> (0 <= nlhs <= 1)%Z ->
  points vo ps -> two vs dt (IZR ntz) -> delays vd (length ps) dl -> two vm cp alpha ->
  dt <> 0 -> cp <> 0 -> (0 < ntz < 2^31)%Z ->
  (forall n, (n < length ps)%nat -> att_fits fe (att_index cp dt (SpecTools.delay_of dl n) (nth n ps origin))) ->
  exists H V, att_gateway (N:=EN) (att_c2r (exact_att ntz dt alpha)) fe nlhs junk [vo; vs; vd; vm] =
      Ok (TReturned ntz (Z.of_nat (length ps)) H) /\
    matrix_is H (Z.to_nat ntz) (length ps) V /\
    forall n, (n < length ps)%nat ->
      energy (Z.to_nat ntz) (V n) <= unit_energy (Z.to_nat ntz) dt alpha (range (nth n ps origin)) /\
      (Z.odd ntz = true -> energy (Z.to_nat ntz) (V n) = unit_energy (Z.to_nat ntz) dt alpha (range (nth n ps origin))).
Proof.
  intros fe nlhs junk vo vs vd vm ps dt ntz dl cp alpha H1 H2 H3 H4 H5 H6 H7 H8 H9 H10.
  destruct (C60_response fe nlhs junk vo vs vd vm ps dt ntz dl cp alpha H1 H2 H3 H4 H5 H6 H7 H8 H9 H10) as (H & E & M).
  exists H. eexists. split; [exact E|]. split; [exact M|]. cbv beta. intros n Hn.
  match goal with |- energy ?L (fun j => green ?a ?b ?c ?d ?e j) <= _ /\ _ =>
    change (fun j => green a b c d e j) with (green a b c d e); destruct (point_energy a b c d e) as [P1 P2]; [auto|lia|] end.
  split; [exact P1|]. intros Ho. apply P2. apply Bool.not_true_iff_false. intros Ev. apply Nat.even_spec in Ev as [h Eh].
  apply Z.odd_spec in Ho as [m Em]. lia.
Qed.
Print Assumptions C123_point.
