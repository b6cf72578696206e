(** ProofsAtt3.v - circular shifts of absorbed pulses, the energy of a record. *)
From Coq Require Import Reals List ZArith Lra Lia.
From Verif Require Import Base SpecDft ProofsDft ProofsDft2 SpecRayleigh SpecAtt.
Open Scope R_scope.

Lemma cos_period_Z x z : cos (x + 2 * IZR z * PI) = cos x.
Proof.
  destruct (Z.le_gt_cases 0 z) as [H|H].
  - rewrite <- (Z2Nat.id z H), <- INR_IZR_INZ. apply cos_period.
  - rewrite <- (cos_period (x + 2 * IZR z * PI) (Z.to_nat (- z))). f_equal. rewrite INR_IZR_INZ, Z2Nat.id by lia.
    rewrite opp_IZR. ring.
Qed.
Lemma sin_int z : sin (PI * IZR z) = 0.
Proof. apply sin_eq_0_1. exists z. ring. Qed.
Lemma cos_add_int x z : cos (x + PI * IZR z) = cos x * cos (PI * IZR z).
Proof. rewrite cos_plus, sin_int. ring. Qed.

Section Shift.
  Variables (L : nat) (dt alpha r : R) (it j m : Z) (n n' : nat).
  Hypothesis HL : (0 < L)%nat.
  Hypothesis Hdt : dt <> 0.
  Hypothesis Hm : (Z.of_nat n + j - Z.of_nat n' = m * Z.of_nat L)%Z.
  Let HLr : 0 < INR L.
  Proof. apply lt_0_INR; lia. Qed.
  Lemma ph_shift k : green_ph L dt alpha r (it - j) k = green_ph L dt alpha r it k + ang L (INR k * IZR j).
  Proof.
    unfold green_ph. rewrite minus_IZR.
    replace (ang L (INR k * IZR j)) with (IZR j * (dt / 1000000) * omega L dt k); [ring|].
    unfold ang, omega. field. split; lra.
  Qed.
  Lemma n_shift : INR n + IZR j = INR n' + IZR m * INR L.
  Proof. rewrite !INR_IZR_INZ, <- mult_IZR, <- !plus_IZR. f_equal. lia. Qed.
  Lemma bin_shift k : cos (green_ph L dt alpha r (it - j) k + ang L (INR k * INR n)) = cos (green_ph L dt alpha r it k + ang L (INR k * INR n')).
  Proof.
    rewrite ph_shift, Rplus_assoc, <- ang_plus, <- Rmult_plus_distr_l, (Rplus_comm (IZR j)), n_shift.
    replace (ang L (INR k * (INR n' + IZR m * INR L))) with (ang L (INR k * INR n') + 2 * IZR (Z.of_nat k * m) * PI).
    - rewrite <- Rplus_assoc. apply cos_period_Z.
    - rewrite mult_IZR, <- INR_IZR_INZ. unfold ang. field. lra.
  Qed.
  Lemma green_shift : green L dt alpha r (it - j) n = green L dt alpha r it n'.
  Proof.
    unfold green. f_equal. unfold idft. cbn [green_re green_im]. f_equal; [f_equal|].
    - apply rsum_ext. intros k _. f_equal.
      set (g := green_mag _ _ _ _ _).
      replace (g * cos (green_ph L dt alpha r (it - j) (S k)) * cos (ang L (INR (S k) * INR n)) - g * sin (green_ph L dt alpha r (it - j) (S k)) * sin (ang L (INR (S k) * INR n)))
        with (g * cos (green_ph L dt alpha r (it - j) (S k) + ang L (INR (S k) * INR n))) by (rewrite cos_plus; ring).
      rewrite bin_shift, cos_plus. ring.
    - destruct (Nat.even L) eqn:E; [|reflexivity]. pose proof (nyquist L n HL E) as N1. pose proof (nyquist L n' HL E) as N2.
      apply Nat.even_spec in E as [h E]. assert (L / 2 = h)%nat as Eh by (rewrite E, Nat.mul_comm, Nat.div_mul; lia).
      assert (0 < h)%nat by lia. rewrite Eh in *. destruct h as [|h']; [lia|]. set (h := S h') in *. unfold green_re, h. fold h.
      assert (S1 : sin (ang L (INR h * INR n)) = 0).
      { replace (ang L (INR h * INR n)) with (PI * IZR (Z.of_nat n)); [apply sin_int|]. rewrite <- INR_IZR_INZ. unfold ang. rewrite E, mult_INR. cbn [INR].
        assert (0 < INR h) by (apply lt_0_INR; lia). field. lra. }
      assert (S2 : sin (ang L (INR h * INR n')) = 0).
      { replace (ang L (INR h * INR n')) with (PI * IZR (Z.of_nat n')); [apply sin_int|]. rewrite <- INR_IZR_INZ. unfold ang. rewrite E, mult_INR. cbn [INR].
        assert (0 < INR h) by (apply lt_0_INR; lia). field. lra. }
      pose proof (bin_shift h) as B. rewrite !cos_plus, S1, S2, <- N1, <- N2, !Rmult_0_r, !Rminus_0_r in B.
      rewrite !Rmult_assoc, B. reflexivity.
  Qed.
End Shift.

(** ** Parseval *)
Lemma parseval L x : (0 < L)%nat ->
  INR L * rsum L (fun n => x n * x n) =
  (dft_re L x 0)^2 + rsum ((L - 1) / 2) (fun k => 2 * ((dft_re L x (S k))^2 + (dft_im L x (S k))^2)) +
  (if Nat.even L then (dft_re L x (L / 2))^2 else 0).
Proof.
  intros HL. rewrite <- rsum_scal. rewrite (rsum_ext _ _ (fun n => x n * idft L (dft_re L x) (dft_im L x) n)).
  2:{ intros n Hn. rewrite idft_dft by exact Hn. ring. }
  unfold idft.
  rewrite (rsum_ext _ _ (fun n => dft_re L x 0 * (x n * cos (ang L (INR 0 * INR n)))
     + rsum ((L - 1) / 2) (fun k => 2 * (dft_re L x (S k) * (x n * cos (ang L (INR (S k) * INR n))) - dft_im L x (S k) * (x n * sin (ang L (INR (S k) * INR n)))))
     + (if Nat.even L then dft_re L x (L / 2) else 0) * (x n * cos (ang L (INR (L / 2) * INR n))))).
  2:{ intros n _. change (INR 0) with 0. rewrite Rmult_0_l. replace (ang L 0) with 0 by (unfold ang, Rdiv; ring). rewrite cos_0.
      replace (rsum ((L - 1) / 2) (fun k => 2 * (dft_re L x (S k) * (x n * cos (ang L (INR (S k) * INR n))) - dft_im L x (S k) * (x n * sin (ang L (INR (S k) * INR n)))))) with
        (x n * rsum ((L - 1) / 2) (fun k => 2 * (dft_re L x (S k) * cos (ang L (INR (S k) * INR n)) - dft_im L x (S k) * sin (ang L (INR (S k) * INR n))))).
      2:{ rewrite <- rsum_scal. apply rsum_ext. intros; ring. }
      destruct (Nat.even L) eqn:E; [rewrite (nyquist L n) by (auto; lia)|]; ring. }
  rewrite !rsum_plus, !rsum_scal, rsum_swap. f_equal; [f_equal|].
  - fold (dft_re L x 0). ring.
  - rewrite <- rsum_scal. apply rsum_ext. intros k _. rewrite rsum_scal, rsum_minus, !rsum_scal. f_equal. fold (dft_re L x (S k)).
    replace (rsum L (fun i => x i * sin (ang L (INR (S k) * INR i)))) with (- dft_im L x (S k)) by (unfold dft_im; ring). ring.
  - fold (dft_re L x (L / 2)). destruct (Nat.even L); ring.
Qed.

(** The highest bin of an inverse transform. *)
Lemma dft_idft_nyquist L re im : (0 < L)%nat -> Nat.even L = true -> dft_re L (fun n => idft L re im n / INR L) (L / 2) = re (L / 2)%nat.
Proof.
  intros HL0 E. assert (HL : 0 < INR L) by (apply lt_0_INR; lia). unfold dft_re, idft. rewrite E.
  rewrite (rsum_ext _ _ (fun n => / INR L * (re O * (cos (ang L (INR 0 * INR n)) * cos (ang L (INR (L / 2) * INR n)))
     + rsum ((L - 1) / 2) (fun j => 2 * (re (S j) * (cos (ang L (INR (S j) * INR n)) * cos (ang L (INR (L / 2) * INR n)))
                                        - im (S j) * (sin (ang L (INR (S j) * INR n)) * cos (ang L (INR (L / 2) * INR n)))))
     + re (L / 2)%nat * (cos (ang L (INR (L / 2) * INR n)) * cos (ang L (INR (L / 2) * INR n)))))).
  2:{ intros n _. change (INR 0) with 0. rewrite Rmult_0_l. replace (ang L 0) with 0 by (unfold ang, Rdiv; ring). rewrite cos_0.
      replace (rsum ((L - 1) / 2) (fun j => 2 * (re (S j) * (cos (ang L (INR (S j) * INR n)) * cos (ang L (INR (L / 2) * INR n)))
                                        - im (S j) * (sin (ang L (INR (S j) * INR n)) * cos (ang L (INR (L / 2) * INR n)))))) with
        (rsum ((L - 1) / 2) (fun j => 2 * (re (S j) * cos (ang L (INR (S j) * INR n)) - im (S j) * sin (ang L (INR (S j) * INR n)))) * cos (ang L (INR (L / 2) * INR n))).
      2:{ rewrite <- rsum_scal_r. apply rsum_ext. intros; ring. }
      rewrite (nyquist L n) by (auto; lia); field; lra. }
  assert (Eh : exists h, L = (2 * h)%nat /\ (L / 2 = h)%nat /\ (0 < h)%nat).
  { apply Nat.even_spec in E as [h ->]. exists h. rewrite (Nat.mul_comm 2 h), Nat.div_mul by lia. repeat split; lia. }
  destruct Eh as (h & Eh & E2 & Hh).
  assert (B : forall j, (j < (L - 1) / 2)%nat -> (S j < h)%nat) by (intros j Hj; pose proof (Nat.mul_div_le (L - 1) 2); lia).
  rewrite rsum_scal, !rsum_plus, !rsum_scal, rsum_swap, E2, cc by lia.
  replace (0 =? h)%nat with false by (symmetry; apply Nat.eqb_neq; lia).
  rewrite (rsum_0 ((L - 1) / 2)).
  2:{ intros j Hj. specialize (B j Hj). rewrite rsum_scal, rsum_minus, !rsum_scal, cc, sc by lia.
      replace (S j =? h)%nat with false by (symmetry; apply Nat.eqb_neq; lia). ring. }
  rewrite (rsum_ext _ _ (fun _ => 1)).
  - assert (forall m, rsum m (fun _ => 1) = INR m) as ->. { induction m as [|m IH]; [reflexivity|]. rewrite S_INR. cbn [rsum]. now rewrite IH. }
    field. lra.
  - intros n _. rewrite <- E2, <- nyquist by auto. rewrite INR_IZR_INZ. pose proof (sin_int (Z.of_nat n)) as S0. pose proof (sin2_cos2 (PI * IZR (Z.of_nat n))) as S1.
    rewrite S0 in S1. unfold Rsqr in S1. lra.
Qed.
Lemma im_nyquist L x : (0 < L)%nat -> Nat.even L = true -> dft_im L x (L / 2) = 0.
Proof.
  intros HL E. unfold dft_im. rewrite rsum_0; [ring|]. intros n _. apply Nat.even_spec in E as [h E].
  replace (ang L (INR (L / 2) * INR n)) with (PI * IZR (Z.of_nat n)); [rewrite sin_int; ring|].
  assert (E2 : (L / 2)%nat = h) by (rewrite E, Nat.mul_comm; apply Nat.div_mul; lia).
  rewrite <- INR_IZR_INZ, E2. unfold ang. rewrite E, mult_INR. change (INR 2) with (1 + 1).
  assert (0 < INR h) by (apply lt_0_INR; lia). field. lra.
Qed.

(** ** Powers of sums *)
From Verif Require Import ModelSir NumR SpecArr SpecAtt2 PropAtt2.
Lemma dft_re_plus L x y k : dft_re L (fun n => x n + y n) k = dft_re L x k + dft_re L y k.
Proof. unfold dft_re. rewrite <- rsum_plus. apply rsum_ext. intros; ring. Qed.
Lemma dft_im_plus L x y k : dft_im L (fun n => x n + y n) k = dft_im L x k + dft_im L y k.
Proof. unfold dft_im. rewrite <- Ropp_plus_distr, <- rsum_plus. f_equal. apply rsum_ext. intros; ring. Qed.
Lemma power_plus L x y k A B : 0 <= A -> 0 <= B -> power L x k <= A^2 -> power L y k <= B^2 -> power L (fun n => x n + y n) k <= (A + B)^2.
Proof. unfold power. rewrite dft_re_plus, dft_im_plus. apply norm_add. Qed.
Lemma power_0 L k : power L (fun _ => 0) k = 0.
Proof. unfold power, dft_re, dft_im. rewrite !rsum_0 by (intros; ring). ring. Qed.
Lemma power_scal L c x k : power L (fun n => c * x n) k = c^2 * power L x k.
Proof.
  unfold power, dft_re, dft_im.
  rewrite (rsum_ext _ (fun n => c * x n * cos (ang L (INR k * INR n))) (fun n => c * (x n * cos (ang L (INR k * INR n))))) by (intros; ring).
  rewrite (rsum_ext _ (fun n => c * x n * sin (ang L (INR k * INR n))) (fun n => c * (x n * sin (ang L (INR k * INR n))))) by (intros; ring).
  rewrite !rsum_scal. ring.
Qed.
Lemma power_sum {A} L k (x : A -> nat -> R) (m : A -> R) l : (forall s, In s l -> 0 <= m s /\ power L (x s) k <= (m s)^2) ->
  0 <= Rsum (map m l) /\ power L (fun n => Rsum (map (fun s => x s n) l)) k <= (Rsum (map m l))^2.
Proof.
  induction l as [|s l IH]; intros H.
  - change (fun n : nat => Rsum (map (fun s => x s n) nil)) with (fun _ : nat => 0). rewrite power_0. cbn. lra.
  - destruct (H s (or_introl eq_refl)) as [H1 H2]. destruct (IH (fun s' Hs => H s' (or_intror Hs))) as [I1 I2].
    change (Rsum (map m (s :: l))) with (m s + Rsum (map m l)). split; [lra|].
    change (fun n : nat => Rsum (map (fun s0 => x s0 n) (s :: l))) with (fun n : nat => x s n + Rsum (map (fun s0 => x s0 n) l)).
    now apply (power_plus L (x s) (fun n => Rsum (map (fun s0 => x s0 n) l))).
Qed.
Lemma green_power_le L dt alpha r it k : dt <> 0 -> (0 < L)%nat -> (2 * k <= L)%nat ->
  power L (green L dt alpha r it) k <= (damping alpha (frequency L dt k) r)^2.
Proof.
  intros Hdt HL Hk. destruct (Nat.eq_dec (2 * k) L) as [E|E].
  - assert (Ev : Nat.even L = true) by (apply Nat.even_spec; exists k; lia).
    assert (E2 : (L / 2)%nat = k) by (rewrite <- E, Nat.mul_comm; apply Nat.div_mul; lia).
    unfold power. rewrite <- E2, im_nyquist by auto. unfold green. rewrite dft_idft_nyquist by auto. rewrite E2.
    destruct k as [|k]; [lia|]. cbn [green_re]. rewrite <- green_mag_damping by auto. set (m := green_mag _ _ _ _ _). set (p := green_ph _ _ _ _ _ _).
    rewrite Rpow_mult_distr. pose proof (pow2_ge_0 m). pose proof (pow2_ge_0 (sin p)). pose proof (sin2_cos2 p) as S. rewrite !Rsqr_pow2 in S. nra.
  - unfold power. destruct (green_bin L dt alpha r it k) as [-> ->]; [lia|]. rewrite green_power by (auto; lia). lra.
Qed.

(** ** Energy *)
From Verif Require Import SpecAtt3.
Lemma damping_0 alpha L dt r : damping alpha (frequency L dt 0) r = 1.
Proof. unfold damping, frequency. cbn [INR]. unfold Rdiv at 2. rewrite Rmult_0_l, Rmult_0_r, Rmult_0_l, Ropp_0. apply exp_0. Qed.
Lemma rsum_le m f g : (forall k, (k < m)%nat -> f k <= g k) -> rsum m f <= rsum m g.
Proof. induction m as [|m IH]; intros H; cbn [rsum]; [lra|]. apply Rplus_le_compat; [apply IH; intros; apply H; lia|apply H; lia]. Qed.
Lemma energy_bound L x S alpha dt r : (0 < L)%nat ->
  (forall k, (2 * k <= L)%nat -> power L x k <= (S * damping alpha (frequency L dt k) r)^2) ->
  rsum L (fun n => x n * x n) <= S^2 * unit_energy L dt alpha r.
Proof.
  intros HL H. assert (HLr : 0 < INR L) by (apply lt_0_INR; lia).
  apply (Rmult_le_reg_l (INR L)); [exact HLr|]. rewrite parseval by exact HL. unfold unit_energy.
  replace (INR L * (S^2 * ((1 + rsum ((L - 1) / 2) (fun k => 2 * (damping alpha (frequency L dt (Datatypes.S k)) r)^2) +
     (if Nat.even L then (damping alpha (frequency L dt (L / 2)) r)^2 else 0)) / INR L)))
    with (S^2 + rsum ((L - 1) / 2) (fun k => S^2 * (2 * (damping alpha (frequency L dt (Datatypes.S k)) r)^2)) +
     (if Nat.even L then S^2 * (damping alpha (frequency L dt (L / 2)) r)^2 else 0))
    by (rewrite rsum_scal; destruct (Nat.even L); field; lra).
  apply Rplus_le_compat; [apply Rplus_le_compat|].
  - specialize (H O ltac:(lia)). rewrite damping_0, Rmult_1_r in H. unfold power in H. pose proof (pow2_ge_0 (dft_im L x 0)). lra.
  - apply rsum_le. intros k Hk. specialize (H (Datatypes.S k)). pose proof (Nat.mul_div_le (L - 1) 2). specialize (H ltac:(lia)). unfold power in H. nra.
  - destruct (Nat.even L) eqn:E; [|lra]. specialize (H (L / 2)%nat). pose proof (Nat.mul_div_le L 2). specialize (H ltac:(lia)). unfold power in H.
    pose proof (pow2_ge_0 (dft_im L x (L / 2))). rewrite Rpow_mult_distr in H. lra.
Qed.
(** An absorbed unit pulse has at most the energy of a unit pulse. *)
Lemma unit_energy_le L dt alpha r : 0 < dt -> 0 <= alpha -> 0 <= r -> (0 < L)%nat -> unit_energy L dt alpha r <= 1.
Proof.
  intros Hdt Ha Hr HL. assert (HLr : 0 < INR L) by (apply lt_0_INR; lia). unfold unit_energy.
  assert (D : forall k, (damping alpha (frequency L dt k) r)^2 <= 1).
  { intros k. assert (0 < damping alpha (frequency L dt k) r <= 1).
    { split; [apply exp_pos|]. pose proof (damping_mono alpha (frequency L dt k) 0 r Ha (frequency_pos L dt k Hdt HL) Hr) as M.
      eapply Rle_trans; [exact M|]. unfold damping. unfold Rdiv at 2. rewrite Rmult_0_l, Rmult_0_r, Ropp_0, exp_0. lra. }
    nra. }
  apply (Rmult_le_reg_r (INR L)); [exact HLr|]. unfold Rdiv. rewrite Rmult_assoc, Rinv_l, Rmult_1_r, Rmult_1_l by lra.
  assert (B : rsum ((L - 1) / 2) (fun k => 2 * (damping alpha (frequency L dt (S k)) r)^2) <= 2 * INR ((L - 1) / 2)).
  { generalize ((L - 1) / 2)%nat. intros m. induction m as [|m IH]; [cbn; lra|]. rewrite S_INR. cbn [rsum]. specialize (D (S m)). lra. }
  destruct (Nat.even L) eqn:E.
  - apply Nat.even_spec in E as [h E]. rewrite E in B |- *. replace ((2 * h - 1) / 2)%nat with (h - 1)%nat in *.
    2:{ replace (2 * h - 1)%nat with (1 + (h - 1) * 2)%nat by lia. rewrite Nat.div_add by lia. reflexivity. }
    rewrite minus_INR in B by lia. rewrite mult_INR. change (INR 1) with 1 in B. change (INR 2) with (1 + 1). specialize (D (2 * h / 2)%nat). rewrite <- E in *. lra.
  - assert (O : Nat.odd L = true) by (unfold Nat.odd; now rewrite E). apply Nat.odd_spec in O as [h O]. rewrite O in B |- *.
    replace ((2 * h + 1 - 1) / 2)%nat with h in *. 2:{ replace (2 * h + 1 - 1)%nat with (h * 2)%nat by lia. now rewrite Nat.div_mul by lia. }
    rewrite plus_INR, mult_INR. change (INR 1) with 1. change (INR 2) with (1 + 1). lra.
Qed.
