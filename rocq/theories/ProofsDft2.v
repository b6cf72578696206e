(** ProofsDft2.v - the DFT of an inverse DFT. *)
From Coq Require Import Reals List ZArith Lra Lia.
From Verif Require Import SpecDft ProofsDft.
Open Scope R_scope.

Lemma ang_comm L a b : ang L (a * b) = ang L (b * a).
Proof. now rewrite Rmult_comm. Qed.
Lemma ang_plus L a b : ang L (a + b) = ang L a + ang L b.
Proof. unfold ang. unfold Rdiv. ring. Qed.
Lemma sin_orth (L d : nat) : (0 < L)%nat -> rsum L (fun n => sin (ang L (INR d * INR n))) = 0.
Proof.
  intros HL. assert (HLr : 0 < INR L) by (apply lt_0_INR; lia).
  destruct L as [|m]; [lia|]. rewrite rsum_S_l. cbn [INR]. rewrite Rmult_0_r. unfold ang at 1.
  replace (2 * PI * 0 / INR (S m)) with 0 by (field; lra). rewrite sin_0, Rplus_0_l.
  set (f := fun n => sin (ang (S m) (INR d * INR (S n)))).
  assert (E : rsum m f = - rsum m f).
  { rewrite rsum_rev at 1. rewrite <- (Rmult_1_l (rsum m f)). rewrite Ropp_mult_distr_l, <- (rsum_scal m (- (1)) f). apply rsum_ext. intros k Hk.
    unfold f. replace (INR (S (m - 1 - k))) with (INR (S m) - INR (S k)) by (rewrite <- minus_INR by lia; f_equal; lia).
    rewrite Rmult_minus_distr_l. replace (ang (S m) (INR d * INR (S m) - INR d * INR (S k))) with (- ang (S m) (INR d * INR (S k)) + 2 * INR d * PI).
    2:{ unfold ang. field. lra. }
    rewrite sin_period, sin_neg. lra. }
  change (rsum m f = 0). lra.
Qed.
Lemma cc L j k : (j + k < L)%nat ->
  rsum L (fun n => cos (ang L (INR j * INR n)) * cos (ang L (INR k * INR n))) = if Nat.eqb j k then (if Nat.eqb j 0 then INR L else INR L / 2) else 0.
Proof.
  intros H. rewrite (rsum_ext _ _ (fun n => / 2 * (cos (ang L (INR n * INR j) - ang L (INR n * INR k)) + cos (ang L (INR n * INR (j + k)) - ang L (INR n * INR 0))))).
  - rewrite rsum_scal, rsum_plus, !orth by lia. destruct (Nat.eqb_spec j k) as [->|].
    + destruct (Nat.eqb_spec k 0) as [->|]; [cbn [Nat.add Nat.eqb]; lra|]. replace (k + k =? 0)%nat with false by (symmetry; apply Nat.eqb_neq; lia). lra.
    + replace (j + k =? 0)%nat with false by (symmetry; apply Nat.eqb_neq; lia). lra.
  - intros n _. rewrite plus_INR, (Rmult_plus_distr_l (INR n)), ang_plus. cbn [INR]. rewrite Rmult_0_r. replace (ang L 0) with 0 by (unfold ang, Rdiv; ring).
    rewrite Rminus_0_r, cos_minus, cos_plus, (ang_comm L (INR j)), (ang_comm L (INR k)). lra.
Qed.
Lemma ss L j k : (j + k < L)%nat ->
  rsum L (fun n => sin (ang L (INR j * INR n)) * sin (ang L (INR k * INR n))) = if Nat.eqb j k then (if Nat.eqb j 0 then 0 else INR L / 2) else 0.
Proof.
  intros H. rewrite (rsum_ext _ _ (fun n => / 2 * (cos (ang L (INR n * INR j) - ang L (INR n * INR k)) - cos (ang L (INR n * INR (j + k)) - ang L (INR n * INR 0))))).
  - rewrite rsum_scal, rsum_minus, !orth by lia. destruct (Nat.eqb_spec j k) as [->|].
    + destruct (Nat.eqb_spec k 0) as [->|]; [cbn [Nat.add Nat.eqb]; lra|]. replace (k + k =? 0)%nat with false by (symmetry; apply Nat.eqb_neq; lia). lra.
    + replace (j + k =? 0)%nat with false by (symmetry; apply Nat.eqb_neq; lia). lra.
  - intros n _. rewrite plus_INR, (Rmult_plus_distr_l (INR n)), ang_plus. cbn [INR]. rewrite Rmult_0_r. replace (ang L 0) with 0 by (unfold ang, Rdiv; ring).
    rewrite Rminus_0_r, cos_minus, cos_plus, (ang_comm L (INR j)), (ang_comm L (INR k)). lra.
Qed.
Lemma sc L j k : (0 < L)%nat ->
  rsum L (fun n => sin (ang L (INR j * INR n)) * cos (ang L (INR k * INR n))) = 0.
Proof.
  intros H.
  assert (D : rsum L (fun n => sin (ang L (INR j * INR n) - ang L (INR k * INR n))) = 0).
  { destruct (Nat.le_gt_cases k j) as [C|C].
    - rewrite (rsum_ext _ _ (fun n => sin (ang L (INR (j - k) * INR n)))); [now apply sin_orth|].
      intros n _. f_equal. rewrite minus_INR by lia. unfold ang, Rdiv. ring.
    - rewrite (rsum_ext _ _ (fun n => -1 * sin (ang L (INR (k - j) * INR n)))); [rewrite rsum_scal, sin_orth by lia; ring|].
      intros n _. rewrite minus_INR by lia. replace (ang L ((INR k - INR j) * INR n)) with (- (ang L (INR j * INR n) - ang L (INR k * INR n))).
      + rewrite sin_neg. ring.
      + unfold ang, Rdiv. ring. }
  rewrite (rsum_ext _ _ (fun n => / 2 * (sin (ang L (INR (j + k) * INR n)) + sin (ang L (INR j * INR n) - ang L (INR k * INR n))))).
  - rewrite rsum_scal, rsum_plus, sin_orth, D by lia. ring.
  - intros n _. rewrite plus_INR, (Rmult_plus_distr_r _ _ (INR n)), ang_plus, sin_plus, sin_minus. lra.
Qed.
Lemma nyquist L n : (0 < L)%nat -> Nat.even L = true -> cos (PI * INR n) = cos (ang L (INR (L / 2) * INR n)).
Proof.
  intros HL He. apply Nat.even_spec in He as [h ->]. f_equal. unfold ang. rewrite (Nat.mul_comm 2 h), Nat.div_mul by lia.
  rewrite mult_INR. cbn [INR]. assert (0 < INR h) by (apply lt_0_INR; lia). field. lra.
Qed.

Section Inv.
Variables (L : nat) (re im : nat -> R).
Lemma rsum_pick m k (c : nat -> R) x : (forall j, (j < m)%nat -> c j = if Nat.eqb (S j) k then x else 0) -> rsum m c = if (Nat.leb 1 k && Nat.leb k m)%bool then x else 0.
Proof.
  intros H. destruct (Nat.leb_spec 1 k); destruct (Nat.leb_spec k m); cbn [andb].
  - rewrite (rsum_single m c (k - 1)); [|lia|].
    + rewrite H by lia. replace (S (k - 1) =? k)%nat with true by (symmetry; apply Nat.eqb_eq; lia). reflexivity.
    + intros j Hm Hj. rewrite H by lia. replace (S j =? k)%nat with false by (symmetry; apply Nat.eqb_neq; lia). reflexivity.
  - apply rsum_0. intros j Hj. rewrite H by lia. replace (S j =? k)%nat with false by (symmetry; apply Nat.eqb_neq; lia). reflexivity.
  - apply rsum_0. intros j Hj. rewrite H by lia. replace (S j =? k)%nat with false by (symmetry; apply Nat.eqb_neq; lia). reflexivity.
  - lia.
Qed.
Lemma dft_idft_re k : (2 * k < L)%nat -> dft_re L (fun n => idft L re im n / INR L) k = re k.
Proof.
  intros Hk. assert (HL : 0 < INR L) by (apply lt_0_INR; lia). unfold dft_re, idft.
  set (N := if Nat.even L then re (L / 2)%nat else 0).
  rewrite (rsum_ext _ _ (fun n => / INR L * (re O * (cos (ang L (INR 0 * INR n)) * cos (ang L (INR k * INR n)))
     + rsum ((L - 1) / 2) (fun j => 2 * (re (S j) * (cos (ang L (INR (S j) * INR n)) * cos (ang L (INR k * INR n)))
                                        - im (S j) * (sin (ang L (INR (S j) * INR n)) * cos (ang L (INR k * INR n)))))
     + N * (cos (ang L (INR (L / 2) * INR n)) * cos (ang L (INR k * INR n)))))).
  2:{ intros n _. change (INR 0) with 0. rewrite Rmult_0_l. replace (ang L 0) with 0 by (unfold ang, Rdiv; ring). rewrite cos_0.
      replace (rsum ((L - 1) / 2) (fun j => 2 * (re (S j) * (cos (ang L (INR (S j) * INR n)) * cos (ang L (INR k * INR n)))
                                        - im (S j) * (sin (ang L (INR (S j) * INR n)) * cos (ang L (INR k * INR n)))))) with
        (rsum ((L - 1) / 2) (fun j => 2 * (re (S j) * cos (ang L (INR (S j) * INR n)) - im (S j) * sin (ang L (INR (S j) * INR n)))) * cos (ang L (INR k * INR n))).
      2:{ rewrite <- rsum_scal_r. apply rsum_ext. intros; ring. }
      unfold N. destruct (Nat.even L) eqn:E; [rewrite (nyquist L n) by (auto; lia)|]; field; lra. }
  rewrite rsum_scal, !rsum_plus, !rsum_scal, rsum_swap, !cc by (try lia; pose proof (Nat.div_lt L 2); lia).
  assert (HN : N * (if (L / 2 =? k)%nat then if (L / 2 =? 0)%nat then INR L else INR L / 2 else 0) = 0).
  { unfold N. destruct (Nat.even L) eqn:E; [|ring]. apply Nat.even_spec in E as [h ->]. rewrite (Nat.mul_comm 2 h), Nat.div_mul by lia.
    replace (h =? k)%nat with false by (symmetry; apply Nat.eqb_neq; lia). ring. }
  rewrite HN, Rplus_0_r.
  rewrite (rsum_pick _ k _ (re k * INR L)).
  - destruct k as [|k]; cbn [Nat.eqb Nat.leb andb]; [field; lra|].
    assert (B : (S k <= (L - 1) / 2)%nat) by (apply Nat.div_le_lower_bound; lia). apply Nat.leb_le in B. cbn [Nat.leb] in B. rewrite B. field; lra.
  - intros j Hj. assert (B : (S j + k < L)%nat) by (pose proof (Nat.mul_div_le (L - 1) 2); lia).
    rewrite rsum_scal, rsum_minus, !rsum_scal, cc, sc by lia. change (S j =? 0)%nat with false. destruct (Nat.eqb_spec (S j) k) as [Ek|]; [rewrite ?Ek; field|ring].
Qed.
Lemma dft_idft_im k : (2 * k < L)%nat -> dft_im L (fun n => idft L re im n / INR L) k = if Nat.eqb k 0 then 0 else im k.
Proof.
  intros Hk. assert (HL : 0 < INR L) by (apply lt_0_INR; lia). unfold dft_im, idft.
  set (N := if Nat.even L then re (L / 2)%nat else 0).
  rewrite (rsum_ext _ _ (fun n => / INR L * (re O * (sin (ang L (INR k * INR n)) * cos (ang L (INR 0 * INR n)))
     + rsum ((L - 1) / 2) (fun j => 2 * (re (S j) * (sin (ang L (INR k * INR n)) * cos (ang L (INR (S j) * INR n)))
                                        - im (S j) * (sin (ang L (INR (S j) * INR n)) * sin (ang L (INR k * INR n)))))
     + N * (sin (ang L (INR k * INR n)) * cos (ang L (INR (L / 2) * INR n)))))).
  2:{ intros n _. change (INR 0) with 0. rewrite Rmult_0_l. replace (ang L 0) with 0 by (unfold ang, Rdiv; ring). rewrite cos_0.
      replace (rsum ((L - 1) / 2) (fun j => 2 * (re (S j) * (sin (ang L (INR k * INR n)) * cos (ang L (INR (S j) * INR n)))
                                        - im (S j) * (sin (ang L (INR (S j) * INR n)) * sin (ang L (INR k * INR n)))))) with
        (rsum ((L - 1) / 2) (fun j => 2 * (re (S j) * cos (ang L (INR (S j) * INR n)) - im (S j) * sin (ang L (INR (S j) * INR n)))) * sin (ang L (INR k * INR n))).
      2:{ rewrite <- rsum_scal_r. apply rsum_ext. intros; ring. }
      unfold N. destruct (Nat.even L) eqn:E; [rewrite (nyquist L n) by (auto; lia)|]; field; lra. }
  rewrite rsum_scal, !rsum_plus, !rsum_scal, rsum_swap, !sc by lia. rewrite !Rmult_0_r, Rplus_0_r, Rplus_0_l.
  rewrite (rsum_pick _ k _ (- (im k * INR L))).
  - destruct k as [|k]; cbn [Nat.eqb Nat.leb andb]; [field; lra|].
    assert (B : (S k <= (L - 1) / 2)%nat) by (apply Nat.div_le_lower_bound; lia). apply Nat.leb_le in B. cbn [Nat.leb] in B. rewrite B. field; lra.
  - intros j Hj. assert (B : (S j + k < L)%nat) by (pose proof (Nat.mul_div_le (L - 1) 2); lia).
    rewrite rsum_scal, rsum_minus, !rsum_scal, ss, sc by lia. change (S j =? 0)%nat with false. destruct (Nat.eqb_spec (S j) k) as [Ek|]; [rewrite ?Ek; field|ring].
Qed.
End Inv.
