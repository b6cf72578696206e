(** PropAttSym.v - property theorems C124 (symmetries of calls in absorbing media)
    and C125 (similarity in absorbing media). *)
From Coq Require Import Reals List ZArith Lra Lia Permutation.
From Verif Require Import Base BaseLemmas ModelSir ModelArr ModelSmp NumR SpecSmp SpecSir SpecRayleigh SpecArr ModelConv
  ModelGw SpecGw SpecGwR ProofsR ProofsRayleigh ProofsSirR PropSir PropArr PropGwR SpecPhys ProofsPhys PropPhys SpecPhysA SpecPhysB PropPhys3 PropPhys4 SpecSym PropSym
  SpecDft ProofsDft ProofsDft2 SpecAtt SpecAtt2 PropAtt2.
Import ListNotations.
Open Scope R_scope.

(** ** One element *)
Lemma att_flip (fl : source -> source) q ntz alpha w d o o' src k :
  (forall s, dist o' s = dist o (fl s)) -> (forall s, s_ds (fl s) = s_ds s) -> (forall s, s_tau (fl s) = s_tau s) ->
  attenuated_sum q ntz alpha w d o' src k = attenuated_sum q ntz alpha w d o (map fl src) k.
Proof.
  intros Hd H1 H2. unfold attenuated_sum. rewrite map_map. f_equal. apply map_ext. intros s.
  unfold SpecAtt.inside, arrives_at, arrival, strength. now rewrite Hd, H1, H2.
Qed.
Lemma att_perm q ntz alpha w d o src src' k : Permutation src src' -> attenuated_sum q ntz alpha w d o src k = attenuated_sum q ntz alpha w d o src' k.
Proof. intros H. unfold attenuated_sum. apply Rsum_perm. now apply Permutation_map. Qed.
Lemma att_mirror ax q ntz alpha w d o g k : par_ok q -> geom_ok q g -> whole ax q g ->
  attenuated_sum q ntz alpha w d (mirror ax o) (sources q g) k = attenuated_sum q ntz alpha w d o (sources q g) k.
Proof.
  intros Hp Hg Hw. rewrite (att_flip (flip ax) q ntz alpha w d o (mirror ax o)) by auto using dist_flip, ds_flip, tau_flip.
  apply att_perm. now apply sources_flip.
Qed.
Lemma att_swap q ntz alpha w d o g g' k : swap_geom g = Some g' ->
  attenuated_sum (swap_par q) ntz alpha w d (swap o) (sources (swap_par q) g') k = attenuated_sum q ntz alpha w d o (sources q g) k.
Proof.
  intros E. rewrite <- (att_perm _ _ _ _ _ _ _ _ _ (sources_swap q g g' E)). unfold attenuated_sum. rewrite map_map. f_equal. apply map_ext.
  intros s. unfold SpecAtt.inside, arrives_at, arrival, strength. rewrite dist_swap. reflexivity.
Qed.
Lemma att_lin q ntz alpha w1 w2 al be d o src k :
  attenuated_sum q ntz alpha (al * w1 + be * w2) d o src k = al * attenuated_sum q ntz alpha w1 d o src k + be * attenuated_sum q ntz alpha w2 d o src k.
Proof.
  unfold attenuated_sum. rewrite <- !Rsum_scal, <- Rsum_plus. apply Rsum_ext. intros s _. destruct (SpecAtt.inside _ _ _ _ _); [|ring].
  unfold strength, Rdiv. ring.
Qed.
Lemma green_scale s L dt alpha r it n : 0 < s -> dt <> 0 -> (0 < L)%nat -> green L (s * dt) alpha (s * r) it n = green L dt alpha r it n.
Proof.
  intros Hs Hdt HL. assert (HLr : 0 < INR L) by (apply lt_0_INR; lia). pose proof PI_RGT_0 as HP.
  unfold green. f_equal.
  assert (Eo : forall k, omega L (s * dt) k = omega L dt k / s) by (intros k; unfold omega; field; repeat split; lra).
  assert (Em : forall k, green_mag L (s * dt) alpha (s * r) k = green_mag L dt alpha r k).
  { intros k. unfold green_mag. f_equal. f_equal. rewrite Eo. field. lra. }
  assert (Ep : forall k, green_ph L (s * dt) alpha (s * r) it k = green_ph L dt alpha r it k).
  { intros k. unfold green_ph. rewrite Eo.
    replace (95 / 100 * (s * dt / 1000000) / PI * (omega L dt k / s)) with (95 / 100 * (dt / 1000000) / PI * omega L dt k) by (field; lra).
    set (l := ln _). field. lra. }
  apply idft_ext; intros k _; (destruct k; [reflexivity|]); unfold green_re, green_im; now rewrite Em, Ep.
Qed.
Lemma att_scaled s q ntz alpha w d o g k : 0 < s -> (0 < ntz)%Z -> par_ok q -> off_source q g o ->
  attenuated_sum (scale_par s q) ntz alpha w (s * d) (scale_pos s o) (sources (scale_par s q) (scale_geom s g)) k =
  attenuated_sum q ntz alpha w d o (sources q g) k.
Proof.
  intros Hs Hn (Hx & Hy & Hdt & _) Hoff. rewrite sources_scaled by auto. unfold attenuated_sum. rewrite map_map.
  apply Rsum_ext. intros c Hc. unfold SpecAtt.inside. rewrite arrives_scaled, strength_scaled, dist_scaled by auto.
  cbn [scale_par p_dt]. rewrite green_scale by (auto; lia). reflexivity.
Qed.

(** ** C124, single elements *)
Theorem C124_mirror_single : forall ax fuel fe f nlhs hw env sch junk args f' nlhs' hw' env' sch' junk' args' alpha g q ntz ps dty dl,
  whole ax q g ->
  absorbing_call fe f nlhs hw env sch args alpha g q ntz ps dty dl -> all_defined fe fuel q ntz g ps dty dl ->
  absorbing_call fe f' nlhs' hw' env' sch' args' alpha g q ntz (map (mirror ax) ps) dty dl ->
  exists V V', returns (gateway fuel exact_ifft fe f nlhs hw env sch junk args) ntz (length ps) V /\
    returns (gateway fuel exact_ifft fe f' nlhs' hw' env' sch' junk' args') ntz (length ps) V' /\
    forall n k, (n < length ps)%nat -> (k < Z.to_nat ntz)%nat -> V' n k = V n k.
Proof.
  intros ax fuel fe f nlhs hw env sch junk args f' nlhs' hw' env' sch' junk' args' alpha g q ntz ps dty dl Hw HC HD HC'.
  do 2 eexists. split; [eapply C115_single; eassumption|]. split.
  - rewrite <- (map_length (mirror ax)). eapply C115_single; [eassumption|].
    intros n Hn. rewrite map_length in Hn. rewrite nth_mirror by exact Hn. apply defined_mirror; auto.
  - cbv beta. intros n k Hn Hk. rewrite nth_mirror by exact Hn. destruct (HD n Hn) as [Hp Hg _ _ _ _]. now apply att_mirror.
Qed.
Print Assumptions C124_mirror_single.
Theorem C124_axes_single : forall fuel fe f nlhs hw env sch junk args f' nlhs' hw' env' sch' junk' args' alpha g g' q ntz ps dty dl,
  swap_geom g = Some g' ->
  absorbing_call fe f nlhs hw env sch args alpha g q ntz ps dty dl -> all_defined fe fuel q ntz g ps dty dl ->
  absorbing_call fe f' nlhs' hw' env' sch' args' alpha g' (swap_par q) ntz (map swap ps) dty dl ->
  exists V V', returns (gateway fuel exact_ifft fe f nlhs hw env sch junk args) ntz (length ps) V /\
    returns (gateway fuel exact_ifft fe f' nlhs' hw' env' sch' junk' args') ntz (length ps) V' /\
    forall n k, (n < length ps)%nat -> (k < Z.to_nat ntz)%nat -> V' n k = V n k.
Proof.
  intros fuel fe f nlhs hw env sch junk args f' nlhs' hw' env' sch' junk' args' alpha g g' q ntz ps dty dl E HC HD HC'.
  do 2 eexists. split; [eapply C115_single; eassumption|]. split.
  - rewrite <- (map_length swap). eapply C115_single; [eassumption|].
    intros n Hn. rewrite map_length in Hn. rewrite nth_swap by exact Hn. eapply defined_swap; eauto.
  - cbv beta. intros n k Hn Hk. rewrite nth_swap by exact Hn. now apply att_swap.
Qed.
Print Assumptions C124_axes_single.

(** ** C124, arrays *)
Lemma super_mirror ax q ntz alpha A g d d' o k : par_ok q -> geom_ok q g -> whole ax q g -> d' = d - tilt ax (p_cp q) A ->
  attenuated_superposition q ntz alpha (mirror_array ax A) g d' (mirror ax o) k = attenuated_superposition q ntz alpha A g d o k.
Proof.
  intros Hp Hg Hw Hd. unfold attenuated_superposition. cbn [mirror_array ar_pos]. rewrite map_length. apply Rsum_ext. intros i Hi. apply in_seq in Hi.
  change ({| ar_pos := map (mirror ax) (ar_pos A); ar_focus := _; ar_steer := _; ar_apo := _ |}) with (mirror_array ax A).
  destruct Hp as (P1 & P2 & P3 & P4).
  rewrite weight_mirror, (delay_mirror ax q A d d'), elem_mirror, rel_mirror by (auto; lia).
  apply att_mirror; auto. now repeat split.
Qed.
Theorem C124_mirrored_array : forall ax fuel fe f nlhs hw env sch junk args f' nlhs' hw' env' sch' junk' args' alpha g A q ntz ps dty dl dty' dl',
  whole ax q g -> (forall n, (n < length ps)%nat -> start_delay dty' dl' n = start_delay dty dl n - tilt ax (p_cp q) A) ->
  absorbing_array_call fe f nlhs hw env sch args alpha g A q ntz ps dty dl -> all_arr_defined fe fuel q ntz g A ps dty dl ->
  absorbing_array_call fe f' nlhs' hw' env' sch' args' alpha g (mirror_array ax A) q ntz (map (mirror ax) ps) dty' dl' ->
  exists V V', returns (gateway fuel exact_ifft fe f nlhs hw env sch junk args) ntz (length ps) V /\
    returns (gateway fuel exact_ifft fe f' nlhs' hw' env' sch' junk' args') ntz (length ps) V' /\
    forall n k, (n < length ps)%nat -> (k < Z.to_nat ntz)%nat -> V' n k = V n k.
Proof.
  intros ax fuel fe f nlhs hw env sch junk args f' nlhs' hw' env' sch' junk' args' alpha g A q ntz ps dty dl dty' dl' Hw Hdl HC HD HC'.
  do 2 eexists. split; [eapply C115_array; eassumption|]. split.
  - rewrite <- (map_length (mirror ax)). eapply C115_array; [eassumption|].
    intros n Hn. rewrite map_length in Hn. rewrite nth_mirror by exact Hn. eapply arr_defined_mirror; eauto.
  - cbv beta. intros n k Hn Hk. rewrite nth_mirror by exact Hn. destruct (HD n Hn) as [[HO _ _] He].
    destruct (He O HO) as [Hp Hg _ _ _ _]. apply super_mirror; auto.
Qed.
Print Assumptions C124_mirrored_array.
Theorem C124_axes_array : forall fuel fe f nlhs hw env sch junk args f' nlhs' hw' env' sch' junk' args' alpha g g' A q ntz ps dty dl,
  swap_geom g = Some g' ->
  absorbing_array_call fe f nlhs hw env sch args alpha g A q ntz ps dty dl -> all_arr_defined fe fuel q ntz g A ps dty dl ->
  absorbing_array_call fe f' nlhs' hw' env' sch' args' alpha g' (swap_array A) (swap_par q) ntz (map swap ps) dty dl ->
  exists V V', returns (gateway fuel exact_ifft fe f nlhs hw env sch junk args) ntz (length ps) V /\
    returns (gateway fuel exact_ifft fe f' nlhs' hw' env' sch' junk' args') ntz (length ps) V' /\
    forall n k, (n < length ps)%nat -> (k < Z.to_nat ntz)%nat -> V' n k = V n k.
Proof.
  intros fuel fe f nlhs hw env sch junk args f' nlhs' hw' env' sch' junk' args' alpha g g' A q ntz ps dty dl E HC HD HC'.
  do 2 eexists. split; [eapply C115_array; eassumption|]. split.
  - rewrite <- (map_length swap). eapply C115_array; [eassumption|].
    intros n Hn. rewrite map_length in Hn. rewrite nth_swap by exact Hn. destruct (HD n Hn) as [[H1 H2 H3] He]. constructor.
    + constructor; cbn [swap_array ar_pos ar_focus ar_apo]; rewrite ?map_length; auto.
      * destruct (ar_focus A); auto.
      * pose proof (extr_swap A) as ER. revert ER H3. unfold swap_array. destruct (ar_apo A); intros ER H3; auto; rewrite ER; exact H3.
    + intros i Hi. cbn [swap_array ar_pos] in Hi. rewrite map_length in Hi.
      rewrite delay_swap, elem_swap, rel_swap by auto. eapply defined_swap; eauto.
  - cbv beta. intros n k Hn Hk. rewrite nth_swap by exact Hn. unfold attenuated_superposition. cbn [swap_array ar_pos]. rewrite map_length.
    apply Rsum_ext. intros i Hi. apply in_seq in Hi.
    match goal with |- context [weight ?X i] => change X with (swap_array A) end.
    rewrite weight_swap, delay_swap, elem_swap, rel_swap by lia. now apply att_swap.
Qed.
Print Assumptions C124_axes_array.
Lemma seq_idx (idx : list nat) : map (fun j => nth j idx O) (seq 0 (length idx)) = idx.
Proof.
  apply nth_error_ext. intros i. rewrite nth_error_map.
  destruct (Nat.lt_ge_cases i (length idx)) as [Hi|Hi].
  - rewrite (nth_error_nth' (seq 0 (length idx)) O) by (rewrite seq_length; lia). cbn.
    rewrite seq_nth by lia. symmetry. now apply nth_error_nth'.
  - rewrite (proj2 (nth_error_None (seq 0 (length idx)) i)) by (rewrite seq_length; lia). cbn.
    symmetry. now apply nth_error_None.
Qed.
Lemma super_re idx A q ntz alpha g d o k : Permutation idx (seq 0 (length (ar_pos A))) ->
  attenuated_superposition q ntz alpha (reorder idx A) g d o k = attenuated_superposition q ntz alpha A g d o k.
Proof.
  intros HP. unfold attenuated_superposition. cbn [reorder ar_pos]. rewrite map_length.
  set (F := fun i => attenuated_sum q ntz alpha (weight A i) (elem_delay q A d i) (rel o (elem A i)) (sources q g) k).
  transitivity (Rsum (map F (map (fun j => nth j idx O) (seq 0 (length idx))))).
  - rewrite map_map. apply Rsum_ext. intros i Hi. apply in_seq in Hi. unfold F.
    change ({| ar_pos := map (elem A) idx; ar_focus := _; ar_steer := _; ar_apo := _ |}) with (reorder idx A).
    rewrite PropPhys3.weight_re, PropPhys3.delay_re, PropPhys3.elem_re by (auto; lia). reflexivity.
  - rewrite seq_idx. apply Rsum_perm. apply Permutation_map. exact HP.
Qed.
Theorem C124_element_order : forall idx fuel fe f nlhs hw env sch junk args f' nlhs' hw' env' sch' junk' args' alpha g A q ntz ps dty dl,
  Permutation idx (seq 0 (length (ar_pos A))) ->
  absorbing_array_call fe f nlhs hw env sch args alpha g A q ntz ps dty dl -> all_arr_defined fe fuel q ntz g A ps dty dl ->
  absorbing_array_call fe f' nlhs' hw' env' sch' args' alpha g (reorder idx A) q ntz ps dty dl ->
  exists V V', returns (gateway fuel exact_ifft fe f nlhs hw env sch junk args) ntz (length ps) V /\
    returns (gateway fuel exact_ifft fe f' nlhs' hw' env' sch' junk' args') ntz (length ps) V' /\
    forall n k, (n < length ps)%nat -> (k < Z.to_nat ntz)%nat -> V' n k = V n k.
Proof.
  intros idx fuel fe f nlhs hw env sch junk args f' nlhs' hw' env' sch' junk' args' alpha g A q ntz ps dty dl HP HC HD HC'.
  do 2 eexists. split; [eapply C115_array; eassumption|]. split.
  - eapply C115_array; [eassumption|]. intros n Hn. apply arr_defined_re; auto.
  - cbv beta. intros n k Hn Hk. now apply super_re.
Qed.
Print Assumptions C124_element_order.
Theorem C124_translation : forall t fuel fe f nlhs hw env sch junk args f' nlhs' hw' env' sch' junk' args' alpha g A q ntz ps dty dl,
  element_wise A ->
  absorbing_array_call fe f nlhs hw env sch args alpha g A q ntz ps dty dl -> all_arr_defined fe fuel q ntz g A ps dty dl ->
  absorbing_array_call fe f' nlhs' hw' env' sch' args' alpha g (move_array t A) q ntz (map (move t) ps) dty dl ->
  exists V V', returns (gateway fuel exact_ifft fe f nlhs hw env sch junk args) ntz (length ps) V /\
    returns (gateway fuel exact_ifft fe f' nlhs' hw' env' sch' junk' args') ntz (length ps) V' /\
    forall n k, (n < length ps)%nat -> (k < Z.to_nat ntz)%nat -> V' n k = V n k.
Proof.
  intros t fuel fe f nlhs hw env sch junk args f' nlhs' hw' env' sch' junk' args' alpha g A q ntz ps dty dl HE HC HD HC'.
  assert (SP : forall n, (n < length ps)%nat -> nth n (map (move t) ps) origin = move t (nth n ps origin)).
  { intros n Hn. rewrite (nth_indep _ origin (move t origin)) by (rewrite map_length; exact Hn). apply map_nth. }
  do 2 eexists. split; [eapply C115_array; eassumption|]. split.
  - rewrite <- (map_length (move t)). eapply C115_array; [eassumption|].
    intros n Hn. rewrite map_length in Hn. rewrite SP by exact Hn. apply arr_defined_move; auto.
  - cbv beta. intros n k Hn Hk. rewrite SP by exact Hn. unfold attenuated_superposition. cbn [move_array ar_pos]. rewrite map_length.
    apply Rsum_ext. intros i Hi. apply in_seq in Hi.
    match goal with |- context [weight ?X i] => change X with (move_array t A) end.
    now rewrite weight_move, delay_move, elem_move, rel_move by (auto; lia).
Qed.
Print Assumptions C124_translation.
Theorem C124_weights_linear : forall al be w1 w2 w fuel fe f nlhs hw env sch junk args
    f1 nlhs1 hw1 env1 sch1 junk1 args1 f2 nlhs2 hw2 env2 sch2 junk2 args2 alpha g A q ntz ps dty dl,
  length w1 = length (ar_pos A) -> length w2 = length (ar_pos A) -> length w = length (ar_pos A) ->
  (forall i, (i < length w)%nat -> nth i w 0 = al * nth i w1 0 + be * nth i w2 0) ->
  absorbing_array_call fe f nlhs hw env sch args alpha g (with_weights w A) q ntz ps dty dl ->
  all_arr_defined fe fuel q ntz g (with_weights w A) ps dty dl ->
  absorbing_array_call fe f1 nlhs1 hw1 env1 sch1 args1 alpha g (with_weights w1 A) q ntz ps dty dl ->
  absorbing_array_call fe f2 nlhs2 hw2 env2 sch2 args2 alpha g (with_weights w2 A) q ntz ps dty dl ->
  exists V V1 V2, returns (gateway fuel exact_ifft fe f nlhs hw env sch junk args) ntz (length ps) V /\
    returns (gateway fuel exact_ifft fe f1 nlhs1 hw1 env1 sch1 junk1 args1) ntz (length ps) V1 /\
    returns (gateway fuel exact_ifft fe f2 nlhs2 hw2 env2 sch2 junk2 args2) ntz (length ps) V2 /\
    forall n k, (n < length ps)%nat -> (k < Z.to_nat ntz)%nat -> V n k = al * V1 n k + be * V2 n k.
Proof.
  intros al be w1 w2 w fuel fe f nlhs hw env sch junk args f1 nlhs1 hw1 env1 sch1 junk1 args1
    f2 nlhs2 hw2 env2 sch2 junk2 args2 alpha g A q ntz ps dty dl L1 L2 L HW HC HD HC1 HC2.
  assert (D' : forall w', length w' = length (ar_pos A) -> all_arr_defined fe fuel q ntz g (with_weights w' A) ps dty dl).
  { intros w' Hw' n Hn. destruct (HD n Hn) as [[H1 H2 H3] He]. constructor; [constructor; auto|]. exact He. }
  do 3 eexists. split; [eapply C115_array; eassumption|].
  split; [eapply C115_array; eauto|]. split; [eapply C115_array; eauto|]. cbv beta.
  intros n k Hn Hk. unfold attenuated_superposition. rewrite <- !Rsum_scal, <- Rsum_plus. cbn [with_weights ar_pos].
  apply Rsum_ext. intros i Hi. apply in_seq in Hi.
  change ({| ar_pos := ar_pos A; ar_focus := ar_focus A; ar_steer := ar_steer A; ar_apo := AUd w |}) with (with_weights w A).
  assert (EW : forall w', weight (with_weights w' A) i = nth i w' 0) by reflexivity.
  assert (ED : forall w', elem_delay q (with_weights w' A) (start_delay dty dl n) i = elem_delay q A (start_delay dty dl n) i) by reflexivity.
  assert (EE : forall w', elem (with_weights w' A) i = elem A i) by reflexivity.
  rewrite !EW, !ED, !EE. rewrite HW by lia. apply att_lin.
Qed.
Print Assumptions C124_weights_linear.

(** ** C125 *)
Theorem C125_similarity_single : forall s fuel fe f nlhs hw env sch junk args f' nlhs' hw' env' sch' junk' args' alpha g q ntz ps dty dl,
  0 < s ->
  absorbing_call fe f nlhs hw env sch args alpha g q ntz ps dty dl -> all_defined fe fuel q ntz g ps dty dl ->
  absorbing_call fe f' nlhs' hw' env' sch' args' alpha (scale_geom s g) (scale_par s q) ntz (map (scale_pos s) ps) dty (map (Rmult s) dl) ->
  exists V V', returns (gateway fuel exact_ifft fe f nlhs hw env sch junk args) ntz (length ps) V /\
    returns (gateway fuel exact_ifft fe f' nlhs' hw' env' sch' junk' args') ntz (length ps) V' /\
    forall n k, (n < length ps)%nat -> (k < Z.to_nat ntz)%nat -> V' n k = V n k.
Proof.
  intros s fuel fe f nlhs hw env sch junk args f' nlhs' hw' env' sch' junk' args' alpha g q ntz ps dty dl Hs HC HD HC'.
  assert (SP : forall n, (n < length ps)%nat -> nth n (map (scale_pos s) ps) origin = scale_pos s (nth n ps origin)).
  { intros n Hn. rewrite (nth_indep _ origin (scale_pos s origin)) by (rewrite map_length; exact Hn). apply map_nth. }
  assert (S0 : s * 0 = 0) by ring.
  assert (Hnt : (0 < ntz)%Z) by apply HC.
  do 2 eexists. split; [eapply C115_single; eassumption|]. split.
  - rewrite <- (map_length (scale_pos s)). eapply C115_single; [eassumption|]. intros n Hn. rewrite map_length in Hn.
    rewrite SP, (start_map (Rmult s)) by (exact Hn || exact S0). apply defined_scaled; auto.
  - cbv beta. intros n k Hn Hk. rewrite SP, (start_map (Rmult s)) by (exact Hn || exact S0). destruct (HD n Hn) as [Hq Hg Ho _ _ _].
    apply att_scaled; auto.
Qed.
Print Assumptions C125_similarity_single.
Theorem C125_similarity_array : forall s fuel fe f nlhs hw env sch junk args f' nlhs' hw' env' sch' junk' args' alpha g A q ntz ps dty dl,
  0 < s ->
  absorbing_array_call fe f nlhs hw env sch args alpha g A q ntz ps dty dl -> all_arr_defined fe fuel q ntz g A ps dty dl ->
  absorbing_array_call fe f' nlhs' hw' env' sch' args' alpha (scale_geom s g) (scale_array s A) (scale_par s q) ntz (map (scale_pos s) ps) dty (map (Rmult s) dl) ->
  exists V V', returns (gateway fuel exact_ifft fe f nlhs hw env sch junk args) ntz (length ps) V /\
    returns (gateway fuel exact_ifft fe f' nlhs' hw' env' sch' junk' args') ntz (length ps) V' /\
    forall n k, (n < length ps)%nat -> (k < Z.to_nat ntz)%nat -> V' n k = V n k.
Proof.
  intros s fuel fe f nlhs hw env sch junk args f' nlhs' hw' env' sch' junk' args' alpha g A q ntz ps dty dl Hs HC HD HC'.
  assert (SP : forall n, (n < length ps)%nat -> nth n (map (scale_pos s) ps) origin = scale_pos s (nth n ps origin)).
  { intros n Hn. rewrite (nth_indep _ origin (scale_pos s origin)) by (rewrite map_length; exact Hn). apply map_nth. }
  assert (S0 : s * 0 = 0) by ring.
  assert (Hnt : (0 < ntz)%Z) by apply HC.
  do 2 eexists. split; [eapply C115_array; eassumption|]. split.
  - rewrite <- (map_length (scale_pos s)). eapply C115_array; [eassumption|]. intros n Hn. rewrite map_length in Hn.
    rewrite SP, (start_map (Rmult s)) by (exact Hn || exact S0). destruct (HD n Hn) as [[H1 H2 H3] He]. constructor.
    + constructor; cbn [scale_array ar_pos ar_focus ar_apo]; rewrite ?map_length; auto.
      * destruct (ar_focus A); auto. now rewrite map_length.
      * fold (scale_array s A). destruct (ar_apo A); auto; rewrite extr_scale by exact Hs; apply Rmult_integral_contrapositive_currified; auto; lra.
    + cbn [scale_array ar_pos]. rewrite map_length. intros m Hm. fold (scale_array s A).
      rewrite elem_delay_scale, elem_scale, rel_scale by exact Hs. apply defined_scaled; auto.
  - cbv beta. intros n k Hn Hk. rewrite SP, (start_map (Rmult s)) by (exact Hn || exact S0). destruct (HD n Hn) as [_ He].
    unfold attenuated_superposition. cbn [scale_array ar_pos]. rewrite map_length. fold (scale_array s A). apply Rsum_ext. intros i Hi. apply in_seq in Hi.
    rewrite weight_scale, elem_delay_scale, elem_scale, rel_scale by exact Hs.
    destruct (He i ltac:(lia)) as [Hq Hg Ho _ _ _]. apply att_scaled; auto.
Qed.
Print Assumptions C125_similarity_array.
