(** PropAttSpeed.v - property theorems C131: in an absorbing medium, too, the sound
    speed only rescales time. *)
From Coq Require Import Reals List ZArith Lra Lia Permutation.
From Verif Require Import Base BaseLemmas ModelSir ModelArr ModelSmp NumR SpecSmp SpecSir SpecRayleigh SpecArr ModelConv
  ModelGw SpecGw SpecGwR ProofsR ProofsRayleigh ProofsSirR PropSir PropArr PropGwR SpecPhys ProofsPhys PropPhys SpecPhysA SpecPhysB PropPhys3 PropPhys4 SpecSym PropSym
  SpecDft ProofsDft ProofsDft2 SpecAtt SpecAtt2 PropAtt2 PropAttSym.
Import ListNotations.
Open Scope R_scope.

Lemma green_faster s L dt alpha r it n : 0 < s -> dt <> 0 -> (0 < L)%nat -> green L (dt / s) (alpha / s) r it n = green L dt alpha r it n.
Proof.
  intros Hs Hdt HL. assert (HLr : 0 < INR L) by (apply lt_0_INR; lia). pose proof PI_RGT_0 as HP.
  unfold green. f_equal.
  assert (Eo : forall k, omega L (dt / s) k = omega L dt k * s) by (intros k; unfold omega; field; repeat split; lra).
  assert (En : neper (alpha / s) = neper alpha / s) by (unfold neper; field; lra).
  assert (Em : forall k, green_mag L (dt / s) (alpha / s) r k = green_mag L dt alpha r k).
  { intros k. unfold green_mag. f_equal. f_equal. rewrite Eo, En. field. repeat split; lra. }
  assert (Ep : forall k, green_ph L (dt / s) (alpha / s) r it k = green_ph L dt alpha r it k).
  { intros k. unfold green_ph. rewrite Eo, En.
    replace (95 / 100 * (dt / s / 1000000) / PI * (omega L dt k * s)) with (95 / 100 * (dt / 1000000) / PI * omega L dt k) by (field; lra).
    set (l := ln _). field. repeat split; lra. }
  apply idft_ext; intros k _; (destruct k; [reflexivity|]); unfold green_re, green_im; now rewrite Em, Ep.
Qed.
Lemma att_faster s q ntz alpha w d o g k : 0 < s -> (0 < ntz)%Z -> par_ok q -> off_source q g o ->
  attenuated_sum (faster s q) ntz (alpha / s) w (d / s) o (sources (faster s q) g) k = s * attenuated_sum q ntz alpha w d o (sources q g) k.
Proof.
  intros Hs Hn (Hx & Hy & Hdt & Hc) Hoff. rewrite sources_faster by auto. unfold attenuated_sum. rewrite map_map, <- Rsum_scal.
  apply Rsum_ext. intros c Hin. unfold SpecAtt.inside. rewrite arrives_faster by auto.
  change (SpecRayleigh.dist o (retimed s c)) with (SpecRayleigh.dist o c). cbn [faster p_dt].
  destruct (_ && _)%bool; [|ring]. rewrite green_faster by (auto; lia).
  unfold strength, retimed. cbn [faster p_v p_dt s_ds]. change (SpecRayleigh.dist o {| s_x := _ |}) with (SpecRayleigh.dist o c).
  specialize (Hoff c Hin). pose proof PI_RGT_0. field. repeat split; lra.
Qed.

(** In a medium s times as fast, with an absorption coefficient (dB per cm and
    MHz) s times as small, sampled s times as often, with start delays s times as
    short, every sample is s times as large. *)
Theorem C131_sound_speed_single : forall s fuel fe f nlhs hw env sch junk args f' nlhs' hw' env' sch' junk' args' alpha g q ntz ps dty dl,
  0 < s ->
  absorbing_call fe f nlhs hw env sch args alpha g q ntz ps dty dl -> all_defined fe fuel q ntz g ps dty dl ->
  absorbing_call fe f' nlhs' hw' env' sch' args' (alpha / s) g (faster s q) ntz ps dty (map (fun t => t / s) dl) ->
  exists V V', returns (gateway fuel exact_ifft fe f nlhs hw env sch junk args) ntz (length ps) V /\
    returns (gateway fuel exact_ifft fe f' nlhs' hw' env' sch' junk' args') ntz (length ps) V' /\
    forall n k, (n < length ps)%nat -> (k < Z.to_nat ntz)%nat -> V' n k = s * V n k.
Proof.
  intros s fuel fe f nlhs hw env sch junk args f' nlhs' hw' env' sch' junk' args' alpha g q ntz ps dty dl Hs HC HD HC'.
  assert (S0 : 0 / s = 0) by (unfold Rdiv; ring).
  assert (Hnt : (0 < ntz)%Z) by apply HC.
  do 2 eexists. split; [eapply C115_single; eassumption|]. split.
  - eapply C115_single; [eassumption|]. intros n Hn. rewrite (start_map (fun t => t / s)) by exact S0. apply defined_faster; auto.
  - cbv beta. intros n k Hn Hk. rewrite (start_map (fun t => t / s)) by exact S0. destruct (HD n Hn) as [Hq Hg Ho _ _ _].
    apply att_faster; auto.
Qed.
Print Assumptions C131_sound_speed_single.
Theorem C131_sound_speed_array : forall s fuel fe f nlhs hw env sch junk args f' nlhs' hw' env' sch' junk' args' alpha g A q ntz ps dty dl,
  0 < s ->
  absorbing_array_call fe f nlhs hw env sch args alpha g A q ntz ps dty dl -> all_arr_defined fe fuel q ntz g A ps dty dl ->
  absorbing_array_call fe f' nlhs' hw' env' sch' args' (alpha / s) g (faster_array s A) (faster s q) ntz ps dty (map (fun t => t / s) dl) ->
  exists V V', returns (gateway fuel exact_ifft fe f nlhs hw env sch junk args) ntz (length ps) V /\
    returns (gateway fuel exact_ifft fe f' nlhs' hw' env' sch' junk' args') ntz (length ps) V' /\
    forall n k, (n < length ps)%nat -> (k < Z.to_nat ntz)%nat -> V' n k = s * V n k.
Proof.
  intros s fuel fe f nlhs hw env sch junk args f' nlhs' hw' env' sch' junk' args' alpha g A q ntz ps dty dl Hs HC HD HC'.
  assert (S0 : 0 / s = 0) by (unfold Rdiv; ring).
  assert (Hnt : (0 < ntz)%Z) by apply HC.
  do 2 eexists. split; [eapply C115_array; eassumption|]. split.
  - eapply C115_array; [eassumption|]. intros n Hn. rewrite (start_map (fun t => t / s)) by exact S0.
    destruct (HD n Hn) as [[H1 H2 H3] He]. constructor.
    + constructor; cbn [faster_array ar_pos ar_focus ar_apo]; auto.
      destruct (ar_focus A); auto. now rewrite map_length.
    + cbn [faster_array ar_pos]. intros m Hm. fold (faster_array s A). change (elem _ m) with (elem A m).
      destruct (He m Hm) as [(_ & _ & _ & Hc) _ _ _ _ _]. rewrite elem_delay_faster by auto. apply defined_faster; auto.
  - cbv beta. intros n k Hn Hk. rewrite (start_map (fun t => t / s)) by exact S0. destruct (HD n Hn) as [_ He].
    unfold attenuated_superposition. rewrite <- Rsum_scal. cbn [faster_array ar_pos]. fold (faster_array s A). apply Rsum_ext. intros i Hi. apply in_seq in Hi.
    change (elem (faster_array s A) i) with (elem A i). change (weight (faster_array s A) i) with (weight A i).
    destruct (He i ltac:(lia)) as [Hq Hg Ho _ _ _]. rewrite elem_delay_faster by (auto; apply Hq). apply att_faster; auto.
Qed.
Print Assumptions C131_sound_speed_array.
