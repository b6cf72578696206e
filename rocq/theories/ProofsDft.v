(** ProofsDft.v - real analysis of the discrete Fourier transform: finite
    sums, orthogonality, inversion of the half spectrum, convolution theorem. *)
From Coq Require Import Reals Lra Lia ZArith List Arith.
From Coq Require Import ZifyNat.
From Verif Require Import SpecDft.
Import ListNotations.
Open Scope R_scope.

Lemma rsum_ext n f g : (forall k, (k < n)%nat -> f k = g k) -> rsum n f = rsum n g.
Proof. induction n as [|n IH]; intros H; cbn; [reflexivity|]. rewrite IH by (intros; apply H; lia). now rewrite H by lia. Qed.
Lemma rsum_plus n f g : rsum n (fun k => f k + g k) = rsum n f + rsum n g.
Proof. induction n as [|n IH]; cbn; [lra|]. rewrite IH. lra. Qed.
Lemma rsum_minus n f g : rsum n (fun k => f k - g k) = rsum n f - rsum n g.
Proof. induction n as [|n IH]; cbn; [lra|]. rewrite IH. lra. Qed.
Lemma rsum_scal n c f : rsum n (fun k => c * f k) = c * rsum n f.
Proof. induction n as [|n IH]; cbn; [lra|]. rewrite IH. lra. Qed.
Lemma rsum_scal_r n c f : rsum n (fun k => f k * c) = rsum n f * c.
Proof. induction n as [|n IH]; cbn; [lra|]. rewrite IH. lra. Qed.
Lemma rsum_0 n f : (forall k, (k < n)%nat -> f k = 0) -> rsum n f = 0.
Proof. induction n as [|n IH]; intros H; cbn; [lra|]. rewrite IH by (intros; apply H; lia). rewrite H by lia. lra. Qed.
Lemma rsum_const n c : rsum n (fun _ => c) = INR n * c.
Proof. induction n as [|n IH]; cbn [rsum]; [cbn; lra|]. rewrite IH, S_INR. lra. Qed.
Lemma rsum_app n m f : rsum (n + m) f = rsum n f + rsum m (fun k => f (n + k)%nat).
Proof.
  induction m as [|m IH]; cbn [rsum].
  - rewrite Nat.add_0_r. lra.
  - rewrite Nat.add_succ_r. cbn [rsum]. rewrite IH. lra.
Qed.
Lemma rsum_S_l n f : rsum (S n) f = f O + rsum n (fun k => f (S k)).
Proof. change (S n) with (1 + n)%nat. rewrite rsum_app. cbn [rsum]. cbn [Nat.add]. lra. Qed.
Lemma rsum_rev n : forall f, rsum n f = rsum n (fun k => f (n - 1 - k)%nat).
Proof.
  induction n as [|n IH]; intros f; [reflexivity|]. rewrite rsum_S_l, (IH (fun k => f (S k))).
  cbn [rsum]. replace (S n - 1 - n)%nat with O by lia. rewrite Rplus_comm. f_equal.
  apply rsum_ext. intros k Hk. f_equal. lia.
Qed.
Lemma rsum_swap n m (f : nat -> nat -> R) : rsum n (fun i => rsum m (f i)) = rsum m (fun j => rsum n (fun i => f i j)).
Proof.
  induction n as [|n IH]; cbn [rsum].
  - symmetry. apply rsum_0. reflexivity.
  - rewrite IH, <- rsum_plus. reflexivity.
Qed.
Lemma rsum_single n f j : (j < n)%nat -> (forall k, (k < n)%nat -> k <> j -> f k = 0) -> rsum n f = f j.
Proof.
  intros Hj H. replace n with (j + S (n - 1 - j))%nat by lia. rewrite rsum_app, rsum_S_l.
  rewrite Nat.add_0_r, (rsum_0 j f) by (intros; apply H; lia).
  rewrite rsum_0; [lra|]. intros k Hk. apply H; lia.
Qed.
(** Cut off a tail of zeros. *)
Lemma rsum_tail n m f : (n <= m)%nat -> (forall k, (n <= k < m)%nat -> f k = 0) -> rsum m f = rsum n f.
Proof.
  intros Hl H. replace m with (n + (m - n))%nat by lia. rewrite rsum_app, (rsum_0 (m - n)); [lra|].
  intros k Hk. apply H. lia.
Qed.
(** Triangle: sum over n < L, i <= n of f i (n - i) = sum over i < L, j < L - i of f i j. *)
Lemma rsum_triangle L (f : nat -> nat -> R) :
  rsum L (fun n => rsum (S n) (fun i => f i (n - i)%nat)) = rsum L (fun i => rsum (L - i) (fun j => f i j)).
Proof.
  induction L as [|L IH]; [reflexivity|].
  change (rsum L (fun n => rsum (S n) (fun i => f i (n - i)%nat)) + rsum (S L) (fun i => f i (L - i)%nat) = rsum (S L) (fun i => rsum (S L - i) (fun j => f i j))).
  rewrite IH. cbn [rsum]. replace (L - L)%nat with O by lia. replace (S L - L)%nat with 1%nat by lia. cbn [rsum].
  rewrite (rsum_ext L (fun i => rsum (S L - i) (fun j => f i j)) (fun i => rsum (L - i) (fun j => f i j) + f i (L - i)%nat)).
  - rewrite rsum_plus. lra.
  - intros i Hi. replace (S L - i)%nat with (S (L - i)) by lia. reflexivity.
Qed.

(** ** Orthogonality *)
Lemma cos_sum th L : 2 * sin (th / 2) * rsum L (fun k => cos (INR k * th)) = sin ((INR L - /2) * th) + sin (th / 2).
Proof.
  induction L as [|L IH]; cbn [rsum].
  - cbn [INR]. replace ((0 - / 2) * th) with (- (th / 2)) by lra. rewrite sin_neg. lra.
  - rewrite Rmult_plus_distr_l, IH. rewrite S_INR.
    replace ((INR L - / 2) * th) with (INR L * th - th / 2) by lra.
    replace ((INR L + 1 - / 2) * th) with (INR L * th + th / 2) by lra.
    rewrite sin_minus, sin_plus. lra.
Qed.

Lemma cos_orth (L d : nat) : (0 < d < L)%nat -> rsum L (fun k => cos (INR k * (2 * PI * INR d / INR L))) = 0.
Proof.
  intros [Hd HL]. assert (HLr : 0 < INR L) by (apply lt_0_INR; lia). assert (Hdr : 0 < INR d) by (apply lt_0_INR; lia).
  assert (Hlt : INR d < INR L) by (apply lt_INR; lia).
  set (th := 2 * PI * INR d / INR L).
  assert (Hs : 0 < sin (th / 2)).
  { unfold th. replace (2 * PI * INR d / INR L / 2) with (PI * (INR d / INR L)) by (field; lra).
    assert (0 < INR d / INR L) by (apply Rdiv_lt_0_compat; lra).
    assert (INR d / INR L < 1) by (apply Rmult_lt_reg_r with (INR L); [lra|]; unfold Rdiv; rewrite Rmult_assoc, Rinv_l; lra).
    pose proof PI_RGT_0. apply sin_gt_0; [apply Rmult_lt_0_compat; lra|].
    rewrite <- (Rmult_1_r PI) at 2. apply Rmult_lt_compat_l; lra. }
  pose proof (cos_sum th L) as H.
  replace ((INR L - / 2) * th) with (- (th / 2) + 2 * INR d * PI) in H by (unfold th; field; lra).
  rewrite sin_period, sin_neg in H.
  apply Rmult_eq_reg_l with (2 * sin (th / 2)); [|lra]. rewrite Rmult_0_r. lra.
Qed.

Lemma cos_2PI_nat (n : nat) : cos (INR n * (2 * PI)) = 1.
Proof. replace (INR n * (2 * PI)) with (0 + 2 * INR n * PI) by lra. rewrite cos_period. apply cos_0. Qed.

(** sum_k cos(2 pi k (m - n) / L) = L if m = n, else 0. *)
Lemma orth (L m n : nat) : (m < L)%nat -> (n < L)%nat ->
  rsum L (fun k => cos (ang L (INR k * INR m) - ang L (INR k * INR n))) = if Nat.eqb m n then INR L else 0.
Proof.
  intros Hm Hn. assert (HLr : 0 < INR L) by (apply lt_0_INR; lia). unfold ang.
  destruct (Nat.eqb_spec m n) as [->|Hne].
  - rewrite (rsum_ext _ _ (fun _ => 1)); [rewrite rsum_const; lra|].
    intros k _. rewrite Rminus_diag_eq by reflexivity. apply cos_0.
  - destruct (Nat.lt_ge_cases n m) as [H|H].
    + rewrite (rsum_ext _ _ (fun k => cos (INR k * (2 * PI * INR (m - n) / INR L)))); [apply cos_orth; lia|].
      intros k _. f_equal. rewrite minus_INR by lia. field. lra.
    + rewrite (rsum_ext _ _ (fun k => cos (INR k * (2 * PI * INR (n - m) / INR L)))); [apply cos_orth; lia|].
      intros k _. rewrite <- cos_neg. f_equal. rewrite minus_INR by lia. field. lra.
Qed.

(** ** Half sums of a symmetric sequence *)
Lemma half_sum L (T : nat -> R) : (0 < L)%nat -> (forall k, (0 < k < L)%nat -> T (L - k)%nat = T k) ->
  T O + rsum ((L - 1) / 2) (fun k => 2 * T (S k)) + (if Nat.even L then T (L / 2)%nat else 0) = rsum L T.
Proof.
  intros HL Hs. destruct L as [|M]; [lia|]. rewrite (rsum_S_l M).
  replace (S M - 1)%nat with M by lia. rewrite Rplus_assoc. f_equal. clear HL.
  rewrite rsum_scal.
  destruct (Nat.even (S M)) eqn:Ev.
  - apply Nat.even_spec in Ev as [h Eh]. destruct h as [|h]; [lia|].
    replace (S M / 2)%nat with (S h) by (rewrite Eh, Nat.mul_comm, Nat.div_mul; lia).
    assert (M = h + S h)%nat by lia. subst M.
    replace ((h + S h) / 2)%nat with h by (apply Nat.div_unique with 1%nat; lia).
    rewrite rsum_app, rsum_S_l. rewrite Nat.add_0_r.
    rewrite (rsum_rev h (fun k => T (S (h + S k)))).
    rewrite (rsum_ext h (fun k => T (S (h + S (h - 1 - k)))) (fun k => T (S k))); [lra|].
    intros k Hk. rewrite <- (Hs (S k)) by lia. f_equal. lia.
  - assert (Od : Nat.odd (S M) = true) by (unfold Nat.odd; now rewrite Ev).
    apply Nat.odd_spec in Od as [h Eh]. assert (M = h + h)%nat by lia. subst M.
    replace ((h + h) / 2)%nat with h by (apply Nat.div_unique with 0%nat; lia).
    rewrite rsum_app. rewrite (rsum_rev h (fun k => T (S (h + k)))).
    rewrite (rsum_ext h (fun k => T (S (h + (h - 1 - k)))) (fun k => T (S k))); [lra|].
    intros k Hk. rewrite <- (Hs (S k)) by lia. f_equal. lia.
Qed.

(** ** Inversion: a spectrum re/im that satisfies
    re k cos(..kn) - im k sin(..kn) = sum_m x_m cos(.. k (m-n)) transforms back to L x_n. *)
Lemma ang_refl L k j : (0 < L)%nat -> (k <= L)%nat -> cos (ang L (INR (L - k) * j)) = cos (2 * PI * j - ang L (INR k * j)).
Proof.
  intros HL Hk. assert (0 < INR L) by (apply lt_0_INR; lia). f_equal. unfold ang. rewrite minus_INR by lia. field. lra.
Qed.

Lemma idft_dft (L : nat) (x : nat -> R) (n : nat) : (n < L)%nat -> idft L (dft_re L x) (dft_im L x) n = INR L * x n.
Proof.
  intros Hn. assert (HL : 0 < INR L) by (apply lt_0_INR; lia).
  set (T := fun k => rsum L (fun m => x m * cos (ang L (INR k * INR m) - ang L (INR k * INR n)))).
  assert (HT : forall k, dft_re L x k * cos (ang L (INR k * INR n)) - dft_im L x k * sin (ang L (INR k * INR n)) = T k).
  { intros k. unfold dft_re, dft_im, T. rewrite <- rsum_scal_r.
    replace (- rsum L (fun n0 => x n0 * sin (ang L (INR k * INR n0))) * sin (ang L (INR k * INR n)))
      with (- rsum L (fun n0 => x n0 * sin (ang L (INR k * INR n0)) * sin (ang L (INR k * INR n)))) by (rewrite rsum_scal_r; lra).
    unfold Rminus. rewrite Ropp_involutive, <- rsum_plus. apply rsum_ext. intros m _.
    fold (ang L (INR k * INR m) - ang L (INR k * INR n)). rewrite cos_minus. lra. }
  assert (Hsym : forall k, (0 < k < L)%nat -> T (L - k)%nat = T k).
  { intros k Hk. unfold T. apply rsum_ext. intros m Hm. f_equal.
    rewrite <- (cos_neg (ang L (INR k * INR m) - _)). unfold ang. rewrite minus_INR by lia.
    replace (2 * PI * ((INR L - INR k) * INR m) / INR L - 2 * PI * ((INR L - INR k) * INR n) / INR L)
      with ((- (2 * PI * (INR k * INR m) / INR L - 2 * PI * (INR k * INR n) / INR L)) + 2 * INR m * PI - 2 * INR n * PI) by (field; lra).
    set (z := - (2 * PI * (INR k * INR m) / INR L - 2 * PI * (INR k * INR n) / INR L)).
    rewrite <- (cos_period (z + 2 * INR m * PI - 2 * INR n * PI) n).
    replace (z + 2 * INR m * PI - 2 * INR n * PI + 2 * INR n * PI) with (z + 2 * INR m * PI) by lra.
    apply cos_period. }
  unfold idft.
  replace (dft_re L x 0) with (T O).
  2:{ rewrite <- (HT O). cbn [INR]. replace (ang L (0 * INR n)) with 0 by (unfold ang; field; lra). rewrite sin_0, cos_0. lra. }
  rewrite (rsum_ext _ _ (fun k => 2 * T (S k))) by (intros k _; now rewrite HT).
  replace (if Nat.even L then dft_re L x (L / 2) * cos (PI * INR n) else 0) with (if Nat.even L then T (L / 2)%nat else 0).
  2:{ destruct (Nat.even L) eqn:Ev; [|reflexivity]. apply Nat.even_spec in Ev as [h Eh].
      replace (L / 2)%nat with h by (rewrite Eh, Nat.mul_comm, Nat.div_mul; lia).
      assert (Hh : INR L = 2 * INR h) by (rewrite Eh, mult_INR; cbn; lra).
      rewrite <- (HT h). replace (ang L (INR h * INR n)) with (PI * INR n) by (unfold ang; rewrite Hh; field; lra).
      assert (S0 : sin (PI * INR n) = 0).
      { clear. induction n as [|n IH]; [cbn [INR]; rewrite Rmult_0_r; apply sin_0|].
        rewrite S_INR, Rmult_plus_distr_l, Rmult_1_r, neg_sin, IH. lra. }
      rewrite S0. lra. }
  rewrite (half_sum L T) by (auto; lia). unfold T. rewrite rsum_swap.
  rewrite (rsum_ext _ _ (fun m => x m * (if Nat.eqb m n then INR L else 0))).
  - rewrite (rsum_single L _ n Hn); [rewrite Nat.eqb_refl; lra|].
    intros k _ Hk. rewrite (proj2 (Nat.eqb_neq k n) Hk). lra.
  - intros m Hm. rewrite rsum_scal. f_equal. apply orth; lia.
Qed.

Lemma idft_ext L re im re' im' n :
  (forall k, (k <= L / 2)%nat -> re k = re' k) -> (forall k, (k <= L / 2)%nat -> im k = im' k) ->
  idft L re im n = idft L re' im' n.
Proof.
  intros H1 H2. unfold idft. rewrite H1 by lia. f_equal; [f_equal|].
  - apply rsum_ext. intros k Hk. assert ((L - 1) / 2 <= L / 2)%nat by (apply Nat.div_le_mono; lia).
    rewrite H1, H2 by lia. reflexivity.
  - destruct (Nat.even L); [|reflexivity]. rewrite H1 by lia. reflexivity.
Qed.

(** ** The convolution theorem for zero-padded vectors *)
Section ConvThm.
  Variables (x y : list R).
  Hypothesis Hx : (1 <= length x)%nat.
  Hypothesis Hy : (1 <= length y)%nat.
  Let L := (length x + length y - 1)%nat.
  Let X n := nth n x 0.
  Let Y n := nth n y 0.

  Lemma conv_trig (f : nat -> nat -> R) :
    rsum L (fun n => rsum (S n) (fun i => X i * Y (n - i)%nat * f i (n - i)%nat)) =
    rsum L (fun i => rsum L (fun j => X i * Y j * f i j)).
  Proof.
    rewrite (rsum_triangle L (fun i j => X i * Y j * f i j)). apply rsum_ext. intros i Hi.
    symmetry. apply rsum_tail; [lia|]. intros j Hj.
    destruct (Nat.lt_ge_cases i (length x)) as [Hl|Hl].
    - unfold Y. rewrite (nth_overflow y) by lia. lra.
    - unfold X. rewrite (nth_overflow x) by lia. lra.
  Qed.

  Lemma dft_conv_re k : dft_re L (cauchy x y) k =
    dft_re L X k * dft_re L Y k - dft_im L X k * dft_im L Y k.
  Proof.
    unfold dft_re at 1.
    rewrite (rsum_ext L _ (fun n => rsum (S n) (fun i => X i * Y (n - i)%nat *
        (cos (ang L (INR k * INR i)) * cos (ang L (INR k * INR (n - i))) - sin (ang L (INR k * INR i)) * sin (ang L (INR k * INR (n - i))))))).
    - rewrite (conv_trig (fun i j => cos (ang L (INR k * INR i)) * cos (ang L (INR k * INR j)) - sin (ang L (INR k * INR i)) * sin (ang L (INR k * INR j)))).
      unfold dft_re, dft_im. rewrite Rmult_opp_opp.
      rewrite <- !rsum_scal_r, <- rsum_minus. apply rsum_ext. intros i Hi.
      rewrite <- !rsum_scal, <- rsum_minus. apply rsum_ext. intros j Hj. lra.
    - intros n Hn. unfold cauchy. rewrite <- rsum_scal_r. apply rsum_ext. intros i Hi.
      unfold X, Y. rewrite <- cos_plus. f_equal. f_equal. unfold ang. rewrite minus_INR by lia. unfold Rdiv. ring.
  Qed.
  Lemma dft_conv_im k : dft_im L (cauchy x y) k =
    dft_re L X k * dft_im L Y k + dft_im L X k * dft_re L Y k.
  Proof.
    unfold dft_im at 1.
    rewrite (rsum_ext L _ (fun n => rsum (S n) (fun i => X i * Y (n - i)%nat *
        (sin (ang L (INR k * INR i)) * cos (ang L (INR k * INR (n - i))) + cos (ang L (INR k * INR i)) * sin (ang L (INR k * INR (n - i))))))).
    - rewrite (conv_trig (fun i j => sin (ang L (INR k * INR i)) * cos (ang L (INR k * INR j)) + cos (ang L (INR k * INR i)) * sin (ang L (INR k * INR j)))).
      unfold dft_re, dft_im. rewrite Ropp_mult_distr_r_reverse, Ropp_mult_distr_l_reverse, <- Ropp_plus_distr. f_equal.
      rewrite <- !rsum_scal_r, <- rsum_plus. apply rsum_ext. intros i Hi.
      rewrite <- !rsum_scal, <- rsum_plus. apply rsum_ext. intros j Hj. lra.
    - intros n Hn. unfold cauchy. rewrite <- rsum_scal_r. apply rsum_ext. intros i Hi.
      unfold X, Y. rewrite <- sin_plus. f_equal. f_equal. unfold ang. rewrite minus_INR by lia. unfold Rdiv. ring.
  Qed.

  (** Multiplying the spectra and transforming back gives L times the Cauchy product. *)
  Lemma dft_convolution n : (n < L)%nat ->
    idft L (fun k => dft_re L X k * dft_re L Y k - dft_im L X k * dft_im L Y k)
           (fun k => dft_re L X k * dft_im L Y k + dft_im L X k * dft_re L Y k) n
    = INR L * cauchy x y n.
  Proof.
    intros Hn. rewrite <- (idft_dft L (cauchy x y) n Hn). apply idft_ext; intros k _.
    - symmetry. apply dft_conv_re.
    - symmetry. apply dft_conv_im.
  Qed.
End ConvThm.
