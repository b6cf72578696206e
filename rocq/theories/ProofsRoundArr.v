(** ProofsRoundArr.v - rounding errors of the responses of array elements in
    doubles: the element is moved to the origin first (one more rounding of the
    coordinates and of the delay). *)
From Coq Require Import Floats Uint63.
From Coq Require Import Reals Lra Lia ZArith List Bool.
From Flocq Require Import Core BinarySingleNaN PrimFloat.
From Verif Require Import Base BaseLemmas NumF NumR ModelSir ModelArr SpecSir ProofsEnum ProofsErr SpecRayleigh
  ProofsTermF SpecRound ProofsRound ProofsRel SpecRoundSir ProofsRoundSir ProofsSmp ProofsR.
Import ListNotations.
Open Scope R_scope.

#[local] Instance fe_valid : Valid_exp fe := fexp_correct prec emax Hprec.
#[local] Instance p53 : Prec_gt_0 53 := eq_refl.

(** ** Powers of w *)
Lemma w_le n : w ^ n * (1 + INR n * u) <= 1.
Proof.
  pose proof u_small as Hu. pose proof w_pos as Hw. induction n as [|n IH]; [cbn; lra|]. rewrite S_INR. cbn [pow].
  pose proof (w_pow n). pose proof (pos_INR n). set (m := INR n) in *. set (x := w ^ n) in *.
  assert (w * (1 + (m + 1) * u) <= 1 + m * u). { assert (0 <= m * u) by nra. nra. }
  replace (w * x * (1 + (m + 1) * u)) with (x * (w * (1 + (m + 1) * u))) by ring.
  apply Rle_trans with (2 := IH). apply Rmult_le_compat_l; lra.
Qed.

(** ** The distance: errors of at most 16/5 u D in x and y and u D in z *)
Lemma triangle A B C a b c D : 0 < D -> D ^ 2 = A ^ 2 + B ^ 2 + C ^ 2 ->
  Rabs (a - A) <= 16 / 5 * u * D -> Rabs (b - B) <= 16 / 5 * u * D -> Rabs (c - C) <= u * D ->
  D * w ^ 6 <= sqrt (a ^ 2 + b ^ 2 + c ^ 2) <= D / w ^ 6.
Proof.
  intros PD E Ha Hb Hc. pose proof u_small as Hu. pose proof w_pos as Hw.
  pose proof (w_le 6) as W6. pose proof (w_le 12) as W12. pose proof (w_pow 6) as P6. pose proof (w_pow 12) as P12.
  replace (INR 6) with 6 in W6 by (rewrite INR_IZR_INZ; reflexivity). replace (INR 12) with 12 in W12 by (rewrite INR_IZR_INZ; reflexivity).
  set (x := a - A) in *. set (y := b - B) in *. set (z := c - C) in *.
  assert (SQ : forall t e, Rabs t <= e -> t ^ 2 <= e ^ 2).
  { intros t e H. rewrite <- (pow2_abs t). apply pow_incr. split; [apply Rabs_pos|exact H]. }
  pose proof (SQ _ _ Ha) as Xa. pose proof (SQ _ _ Hb) as Xb. pose proof (SQ _ _ Hc) as Xc.
  set (e := u * D) in *. assert (Pe : 0 < e) by (unfold e; nra).
  replace ((16 / 5 * u * D) ^ 2) with (256 / 25 * e ^ 2) in Xa, Xb by (unfold e; field).
  assert (N2 : x ^ 2 + y ^ 2 + z ^ 2 <= (5 * e) ^ 2) by (replace ((5 * e) ^ 2) with (25 * e ^ 2) by ring; pose proof (pow2_ge_0 e); lra).
  assert (N0 : 0 <= x ^ 2 + y ^ 2 + z ^ 2) by (pose proof (pow2_ge_0 x); pose proof (pow2_ge_0 y); pose proof (pow2_ge_0 z); lra).
  assert (CS : (A * x + B * y + C * z) ^ 2 <= (D * (5 * e)) ^ 2).
  { replace ((D * (5 * e)) ^ 2) with (D ^ 2 * (5 * e) ^ 2) by ring. rewrite E.
    apply Rle_trans with ((A ^ 2 + B ^ 2 + C ^ 2) * (x ^ 2 + y ^ 2 + z ^ 2)).
    - pose proof (pow2_ge_0 (A * y - B * x)). pose proof (pow2_ge_0 (A * z - C * x)). pose proof (pow2_ge_0 (B * z - C * y)).
      replace ((A ^ 2 + B ^ 2 + C ^ 2) * (x ^ 2 + y ^ 2 + z ^ 2)) with
        ((A * x + B * y + C * z) ^ 2 + (A * y - B * x) ^ 2 + (A * z - C * x) ^ 2 + (B * z - C * y) ^ 2) by ring. lra.
    - apply Rmult_le_compat_l; [|exact N2]. pose proof (pow2_ge_0 A); pose proof (pow2_ge_0 B); pose proof (pow2_ge_0 C); lra. }
  assert (CS' : Rabs (A * x + B * y + C * z) <= D * (5 * e)).
  { assert (0 <= D * (5 * e)) by (apply Rmult_le_pos; lra). rewrite <- (Rabs_pos_eq (D * (5 * e))) by assumption. now apply Rsqr_le_abs_0; rewrite !Rsqr_pow2. }
  apply Rabs_le_inv in CS'.
  assert (ES : a ^ 2 + b ^ 2 + c ^ 2 = D ^ 2 + 2 * (A * x + B * y + C * z) + (x ^ 2 + y ^ 2 + z ^ 2)) by (rewrite E; unfold x, y, z; ring).
  rewrite ES. set (d := A * x + B * y + C * z) in *. set (n := x ^ 2 + y ^ 2 + z ^ 2) in *. clearbody d n. clear - PD Hu Hw W6 W12 P6 P12 N2 N0 CS' Pe e.
  assert (Ee : e = u * D) by reflexivity. clearbody e. subst e. split.
  - apply Rle_trans with (sqrt ((D * w ^ 6) ^ 2)); [rewrite sqrt_pow2; [lra|apply Rmult_le_pos; lra]|]. apply sqrt_le_1_alt.
    replace ((D * w ^ 6) ^ 2) with (D ^ 2 * w ^ 12) by ring.
    assert (w ^ 12 <= 1 - 10 * u) by nra.
    apply Rle_trans with (D ^ 2 * (1 - 10 * u)); [apply Rmult_le_compat_l; [apply pow2_ge_0|lra]|]. nra.
  - apply Rle_trans with (sqrt ((D * (1 + 5 * u)) ^ 2)).
    + apply sqrt_le_1_alt. nra.
    + rewrite sqrt_pow2 by nra. unfold Rdiv. apply Rmult_le_compat_l; [lra|].
      apply Rmult_le_reg_l with (w ^ 6); [lra|]. rewrite Rinv_r by lra. nra.
Qed.
(** fl (fl (o - g) - x) *)
Lemma moved_coord o g x D : fin o = true -> fin g = true -> fin x = true -> Rabs (V o) <= bpow radix2 100 -> Rabs (V g) <= bpow radix2 100 ->
  Rabs (V x) <= bpow radix2 102 -> Rabs (V x) <= D -> Rabs (V o - V g - V x) <= D ->
  fin (o - g - x)%float = true /\ Rabs (V (o - g - x)%float - (V o - V g - V x)) <= 16 / 5 * u * D /\ Rabs (V (o - g - x)%float) <= bpow radix2 104.
Proof.
  intros Fo Fg Fx Bo Bg Bx HX HA. pose proof u_small as Hu.
  assert (B1 : bpow radix2 101 = 2 * bpow radix2 100) by (change 101%Z with (1 + 100)%Z; rewrite bpow_plus; reflexivity).
  assert (B2 : bpow radix2 102 = 2 * bpow radix2 101) by (change 102%Z with (1 + 101)%Z; rewrite bpow_plus; reflexivity).
  assert (B4 : bpow radix2 104 = 4 * bpow radix2 102) by (change 104%Z with (2 + 102)%Z; rewrite bpow_plus; reflexivity).
  assert (P : 0 < bpow radix2 100) by apply bpow_gt_0.
  assert (BB : 8 * bpow radix2 102 <= bpow radix2 1023) by (change 8 with (bpow radix2 3); rewrite <- bpow_plus; apply bpow_le; lia).
  assert (Bog : Rabs (V o - V g) <= 2 * bpow radix2 100) by (unfold Rminus; eapply Rle_trans; [apply Rabs_triang|rewrite Rabs_Ropp; lra]).
  destruct (sub_std o g Fo Fg) as (F1 & E1); [lra|]. set (s := (o - g)%float) in *.
  assert (Bs : Rabs (V s) <= 3 * bpow radix2 100).
  { replace (V s) with ((V s - (V o - V g)) + (V o - V g)) by ring. eapply Rle_trans; [apply Rabs_triang|]. nra. }
  assert (Bsx : Rabs (V s - V x) <= 7 * bpow radix2 100) by (unfold Rminus; eapply Rle_trans; [apply Rabs_triang|rewrite Rabs_Ropp; lra]).
  destruct (sub_std s x F1 Fx) as (F2 & E2); [lra|].
  assert (M : Rabs (V o - V g) <= 2 * D).
  { replace (V o - V g) with ((V o - V g - V x) + V x) by ring. eapply Rle_trans; [apply Rabs_triang|]. lra. }
  assert (E1' : Rabs (V s - (V o - V g)) <= 2 * u * D) by nra.
  assert (PD : 0 <= D) by (pose proof (Rabs_pos (V x)); lra).
  assert (E3 : Rabs (V s - V x) <= (1 + 2 * u) * D).
  { replace (V s - V x) with ((V s - (V o - V g)) + (V o - V g - V x)) by ring. eapply Rle_trans; [apply Rabs_triang|]. lra. }
  split; [exact F2|]. split.
  - replace (V (s - x)%float - (V o - V g - V x)) with ((V (s - x)%float - (V s - V x)) + (V s - (V o - V g))) by ring.
    eapply Rle_trans; [apply Rabs_triang|]. assert (u * Rabs (V s - V x) <= u * ((1 + 2 * u) * D)) by (apply Rmult_le_compat_l; lra).
    assert (u * D * (2 * u) <= u * D * (/ 5)) by (apply Rmult_le_compat_l; [apply Rmult_le_pos; lra|lra]). lra.
  - replace (V (s - x)%float) with ((V (s - x)%float - (V s - V x)) + (V s - V x)) by ring. eapply Rle_trans; [apply Rabs_triang|]. nra.
Qed.

Lemma moved_dist xo yo zo gx gy gz x y D :
  (forall v, In v [xo; yo; zo; gx; gy; gz] -> fin v = true /\ Rabs (V v) <= bpow radix2 100) -> moderate x -> moderate y ->
  D = sqrt ((V xo - V gx - V x) ^ 2 + (V yo - V gy - V y) ^ 2 + (V zo - V gz - 0) ^ 2) -> bpow radix2 (-99) <= D -> Rabs (V x) <= D -> Rabs (V y) <= D ->
  rel 10 (-100) 106 (PrimFloat.sqrt ((xo - gx - x) * (xo - gx - x) + (yo - gy - y) * (yo - gy - y) + (zo - gz) * (zo - gz))%float) D.
Proof.
  intros HB [Fx Bx] [Fy By] ED LD HX HY. rewrite Rminus_0_r in ED.
  destruct (HB xo) as [F1 B1]; [cbn; auto|]. destruct (HB yo) as [F2 B2]; [cbn; auto|]. destruct (HB zo) as [F3 B3]; [cbn; auto 6|].
  destruct (HB gx) as [F4 B4]; [cbn; auto 7|]. destruct (HB gy) as [F5 B5]; [cbn; auto 8|]. destruct (HB gz) as [F6 B6]; [cbn; auto 9|].
  pose proof u_small as Hu. pose proof w_pos as Hw. pose proof (bpow_gt_0 radix2 (-99)) as P99. assert (PD : 0 < D) by lra.
  set (A := V xo - V gx - V x) in *. set (B := V yo - V gy - V y) in *. set (C := V zo - V gz) in *.
  assert (E : D ^ 2 = A ^ 2 + B ^ 2 + C ^ 2).
  { rewrite ED. apply pow2_sqrt. pose proof (pow2_ge_0 A); pose proof (pow2_ge_0 B); pose proof (pow2_ge_0 C); lra. }
  assert (LE : forall t, t ^ 2 <= D ^ 2 -> Rabs t <= D).
  { intros t Ht. rewrite <- (Rabs_pos_eq D) by lra. apply Rsqr_le_abs_0. rewrite !Rsqr_pow2. exact Ht. }
  assert (HA : Rabs A <= D) by (apply LE; pose proof (pow2_ge_0 B); pose proof (pow2_ge_0 C); lra).
  assert (HBB : Rabs B <= D) by (apply LE; pose proof (pow2_ge_0 A); pose proof (pow2_ge_0 C); lra).
  assert (HC : Rabs C <= D) by (apply LE; pose proof (pow2_ge_0 A); pose proof (pow2_ge_0 B); lra).
  destruct (moved_coord xo gx x D F1 F4 Fx B1 B4 Bx HX HA) as (G1 & E1 & M1). destruct (moved_coord yo gy y D F2 F5 Fy B2 B5 By HY HBB) as (G2 & E2 & M2).
  assert (Bz : Rabs C <= 2 * bpow radix2 100) by (unfold C, Rminus; eapply Rle_trans; [apply Rabs_triang|rewrite Rabs_Ropp; lra]).
  assert (P104 : 3 * bpow radix2 100 <= bpow radix2 104) by (change 104%Z with (4 + 100)%Z; rewrite bpow_plus; change (bpow radix2 4) with 16; pose proof (bpow_gt_0 radix2 100); lra).
  destruct (sub_std zo gz F3 F6) as (G3 & E3); [fold C; apply Rle_trans with (1 := Bz); change 2 with (bpow radix2 1); rewrite <- bpow_plus; apply bpow_le; lia|].
  fold C in E3. assert (E3' : Rabs (V (zo - gz)%float - C) <= u * D) by nra.
  assert (M3 : Rabs (V (zo - gz)%float) <= bpow radix2 104).
  { replace (V (zo - gz)%float) with ((V (zo - gz)%float - C) + C) by ring. eapply Rle_trans; [apply Rabs_triang|]. pose proof (Rabs_pos C). nra. }
  destruct (triangle A B C _ _ _ D PD E E1 E2 E3') as [T1 T2].
  set (a := V (xo - gx - x)%float) in *. set (b := V (yo - gy - y)%float) in *. set (c := V (zo - gz)%float) in *.
  pose proof (w_pow 6) as W6. pose proof (w_pow_half 6 (hundred 6 ltac:(lia))) as Wh.
  assert (L : bpow radix2 (-100) <= sqrt (a ^ 2 + b ^ 2 + c ^ 2)).
  { apply Rle_trans with (2 := T1). change (-100)%Z with (-99 + -1)%Z. rewrite bpow_plus. apply Rmult_le_compat; try lra; [apply bpow_ge_0|cbn; lra]. }
  pose proof (dist_rel (xo - gx - x)%float (yo - gy - y)%float (zo - gz)%float a b c (near1_exact _ G1) (near1_exact _ G2) (near1_exact _ G3) M1 M2 M3 L) as (FR & BR & R1 & R2).
  set (s := sqrt (a ^ 2 + b ^ 2 + c ^ 2)) in *. pose proof (w_pow 4) as W4.
  split; [exact FR|]. split; [split|].
  - apply Rle_trans with (2 := LD). apply bpow_le. lia.
  - change 106%Z with (105 + 1)%Z. rewrite bpow_plus. change (bpow radix2 1) with 2. nra.
  - change 10%nat with (4 + 6)%nat. rewrite pow_add. split.
    + apply Rle_trans with (2 := R1). replace (D * (w ^ 4 * w ^ 6)) with (D * w ^ 6 * w ^ 4) by ring. apply Rmult_le_compat_r; lra.
    + apply Rle_trans with (1 := R2). replace (D / (w ^ 4 * w ^ 6)) with (D / w ^ 6 / w ^ 4) by (field; lra).
      unfold Rdiv at 1 2. apply Rmult_le_compat_r; [apply Rlt_le, Rinv_0_lt_compat; lra|exact T2].
Qed.

(** ** (t - d) / dt with a rounded delay d *)
Lemma arg_moved t T d D h : rel 12 (-191) 216 t T -> fin d = true -> Rabs (V d - D) <= u * Rabs D -> Rabs D <= bpow radix2 102 -> fin h = true ->
  bpow radix2 (-100) <= V h <= bpow radix2 100 ->
  fin ((t - d) / h)%float = true /\
  Rabs (V ((t - d) / h)%float - (T - D) / V h) <= 18 * u * ((T + Rabs D) / V h).
Proof.
  intros Ht Fd Ed Bd Fh Bh. pose proof u_small as Hu. destruct (rel_pos _ _ _ _ _ Ht) as [PT Pt].
  destruct Ht as (Ft & BT & L & U). pose proof (Rabs_pos D) as Pd.
  pose proof (bpow_gt_0 radix2 (-100)) as P100. assert (Ph : 0 < V h) by lra. assert (Ih : 0 < / V h) by (apply Rinv_0_lt_compat; exact Ph).
  pose proof (w_pow 12) as W6. pose proof (w_pow_lin 12) as WL.
  replace (INR 12) with 12 in WL by (rewrite INR_IZR_INZ; reflexivity).
  assert (WU' : / w ^ 12 <= 1 + 13 * u).
  { apply Rmult_le_reg_l with (w ^ 12); [lra|]. rewrite Rinv_r by lra. nra. }
  assert (Et : Rabs (V t - T) <= 13 * u * T).
  { apply Rabs_le. unfold Rdiv in U. split; nra. }
  assert (Bt : V t <= 2 * bpow radix2 216) by (unfold Rdiv in U; nra).
  assert (B215 : bpow radix2 102 <= bpow radix2 216) by (apply bpow_le; lia). pose proof (bpow_gt_0 radix2 216) as P216.
  assert (BVd : Rabs (V d) <= 2 * bpow radix2 216).
  { replace (V d) with ((V d - D) + D) by ring. eapply Rle_trans; [apply Rabs_triang|]. nra. }
  assert (Bs : Rabs (V t - V d) <= 4 * bpow radix2 216).
  { unfold Rminus. eapply Rle_trans; [apply Rabs_triang|]. rewrite Rabs_Ropp, (Rabs_pos_eq (V t)) by lra. lra. }
  destruct (sub_std t d Ft Fd) as (Fs & Es).
  { apply Rle_trans with (1 := Bs). change 4 with (bpow radix2 2). rewrite <- bpow_plus. apply bpow_le. lia. }
  set (s := (t - d)%float) in *.
  set (M := T + Rabs D) in *. assert (PM : 0 < M) by (unfold M; lra).
  assert (TD : Rabs (T - D) <= M). { unfold M, Rminus. eapply Rle_trans; [apply Rabs_triang|]. rewrite Rabs_Ropp, (Rabs_pos_eq T) by lra. lra. }
  assert (A0 : Rabs (V t - T) + Rabs (V d - D) <= 13 * u * M). { assert (u * Rabs D <= 13 * u * Rabs D) by nra. unfold M. lra. }
  assert (A01 : Rabs ((V t - T) - (V d - D)) <= 13 * u * M).
  { unfold Rminus at 1. eapply Rle_trans; [apply Rabs_triang|]. rewrite Rabs_Ropp. exact A0. }
  assert (A1 : Rabs (V t - V d) <= (1 + 13 * u) * M).
  { replace (V t - V d) with (((V t - T) - (V d - D)) + (T - D)) by ring. eapply Rle_trans; [apply Rabs_triang|]. lra. }
  assert (A2 : Rabs (V s - (T - D)) <= 15 * u * M).
  { replace (V s - (T - D)) with ((V s - (V t - V d)) + ((V t - T) - (V d - D))) by ring. eapply Rle_trans; [apply Rabs_triang|].
    assert (u * Rabs (V t - V d) <= u * ((1 + 13 * u) * M)) by (apply Rmult_le_compat_l; lra).
    assert (u * M * (13 * u) <= u * M * 1) by (apply Rmult_le_compat_l; [apply Rmult_le_pos; lra|lra]). lra. }
  assert (A3 : Rabs (V s) <= 2 * M).
  { replace (V s) with ((V s - (T - D)) + (T - D)) by ring. eapply Rle_trans; [apply Rabs_triang|].
    assert (15 * u * M <= M) by nra. lra. }
  assert (BM : M <= 2 * bpow radix2 216) by (unfold M; lra).
  assert (Ihb : / V h <= bpow radix2 100). { change 100%Z with (- -100)%Z. rewrite bpow_opp. apply Rinv_le; lra. }
  assert (A4 : Rabs (V s / V h) <= 4 * bpow radix2 316).
  { unfold Rdiv. rewrite Rabs_mult, (Rabs_pos_eq (/ V h)) by lra. change 316%Z with (216 + 100)%Z. rewrite bpow_plus.
    rewrite <- Rmult_assoc. apply Rmult_le_compat; try lra. apply Rabs_pos. }
  destruct (fin_div s h Fs ltac:(lra)) as (Fq & Eq).
  { apply rnd_nover. apply Rle_trans with (1 := A4). change 4 with (bpow radix2 2). rewrite <- bpow_plus. apply bpow_le. lia. }
  split; [exact Fq|]. rewrite Eq. destruct (rnd_std (V s / V h)) as (dd & ee & Hd & He & ->).
  replace (V s / V h * (1 + dd) + ee - (T - D) / V h) with ((V s - (T - D)) * / V h + (dd * (V s * / V h) + ee)) by (unfold Rdiv; ring).
  eapply Rle_trans; [apply Rabs_triang|]. eapply Rle_trans; [apply Rplus_le_compat_l, Rabs_triang|].
  rewrite !Rabs_mult, (Rabs_pos_eq (/ V h)) by lra.
  assert (C1 : Rabs (V s - (T - D)) * / V h <= 15 * u * M * / V h) by (apply Rmult_le_compat_r; lra).
  assert (C2 : Rabs dd * (Rabs (V s) * / V h) <= u * (2 * M * / V h)).
  { apply Rmult_le_compat; [apply Rabs_pos|apply Rmult_le_pos; [apply Rabs_pos|lra]|exact Hd|apply Rmult_le_compat_r; lra]. }
  assert (C3 : eta <= u * (M * / V h)).
  { pose proof (eta_le (-291) ltac:(lia)) as E8. pose proof (bpow_gt_0 radix2 (-1075)).
    assert (bpow radix2 (-291) <= M * / V h).
    { change (-291)%Z with (-191 + -100)%Z. rewrite bpow_plus. apply Rmult_le_compat; [apply bpow_ge_0|apply bpow_ge_0|unfold M; lra|].
      change (-100)%Z with (- (100))%Z. rewrite bpow_opp. apply Rinv_le; lra. }
    assert (u * bpow radix2 (-291) <= u * (M * / V h)) by (apply Rmult_le_compat_l; lra). lra. }
  unfold Rdiv. lra.
Qed.

(** ** Accumulation, 19 errors in each term *)
Definition ainv (m : nat) (x : PrimFloat.float) (X : R) : Prop :=
  fin x = true /\ 0 <= X <= INR m * bpow radix2 608 /\ X * w ^ (19 + m) <= V x <= X / w ^ (19 + m).
Lemma ainv_weaken m x X : ainv m x X -> ainv (S m) x X.
Proof.
  intros (F1 & B & E1 & E2). pose proof w_pos as Hw. pose proof (w_pow (19 + m)) as W. pose proof (w_pow (19 + S m)) as W'.
  split; [exact F1|]. split; [rewrite S_INR; pose proof (bpow_gt_0 radix2 608); lra|].
  assert (LE : w ^ (19 + S m) <= w ^ (19 + m)). { replace (19 + S m)%nat with (S (19 + m)) by lia. cbn [pow Nat.add] in *. nra. }
  split.
  - apply Rle_trans with (2 := E1). apply Rmult_le_compat_l; lra.
  - apply Rle_trans with (1 := E2). unfold Rdiv. apply Rmult_le_compat_l; [lra|]. apply Rinv_le; lra.
Qed.
Lemma amany_half m : INR m <= bpow radix2 50 -> INR (19 + m) * u <= / 4.
Proof.
  intros H. rewrite plus_INR. replace (INR 19) with 19 by (rewrite INR_IZR_INZ; reflexivity). pose proof u50. pose proof u_small.
  assert (INR m * u <= bpow radix2 50 * u) by (apply Rmult_le_compat_r; lra). lra.
Qed.
Lemma ainv_add m x X a A : INR m <= bpow radix2 50 -> ainv m x X -> rel 19 (-600) 608 a A -> ainv (S m) (x + a)%float (X + A).
Proof.
  intros Hm (Fx & B & E1 & E2) Ha. destruct (rel_pos _ _ _ _ _ Ha) as [PA Pa]. destruct Ha as (Fa & BA & A1 & A2).
  pose proof u_small as Hu. pose proof w_pos as Hw.
  assert (WW : w ^ (19 + m) <= w ^ 19). { rewrite pow_add. pose proof (w_pow 19). pose proof (w_pow m). nra. }
  pose proof (w_pow (19 + m)) as W. pose proof (w_pow_half (19 + m) ltac:(pose proof (amany_half m Hm); lra)) as Wh.
  assert (A1' : A * w ^ (19 + m) <= V a) by (apply Rle_trans with (2 := A1); apply Rmult_le_compat_l; lra).
  assert (A2' : V a <= A / w ^ (19 + m)).
  { apply Rle_trans with (1 := A2). unfold Rdiv. apply Rmult_le_compat_l; [lra|]. apply Rinv_le; lra. }
  assert (Px : 0 <= V x) by (apply Rle_trans with (2 := E1); apply Rmult_le_pos; lra).
  assert (Hi : / w ^ (19 + m) <= 2) by (apply Rmult_le_reg_l with (w ^ (19 + m)); [lra|]; rewrite Rinv_r by lra; lra).
  assert (Hip : 0 < / w ^ (19 + m)) by (apply Rinv_0_lt_compat; lra).
  pose proof (bpow_gt_0 radix2 608) as P608. pose proof (pos_INR m) as Pm.
  assert (BS : X + A <= bpow radix2 51 * bpow radix2 608).
  { assert (INR m * bpow radix2 608 <= bpow radix2 50 * bpow radix2 608) by (apply Rmult_le_compat_r; lra).
    assert (bpow radix2 51 = 2 * bpow radix2 50) by (change 51%Z with (1 + 50)%Z; rewrite bpow_plus; reflexivity).
    assert (1 <= bpow radix2 50) by (change 1 with (bpow radix2 0); apply bpow_le; lia). nra. }
  assert (VS : V x + V a <= (X + A) / w ^ (19 + m)) by (unfold Rdiv in *; lra).
  assert (VL : (X + A) * w ^ (19 + m) <= V x + V a) by lra.
  destruct (add_pos x a Fx Fa Px ltac:(lra)) as (Fs & S1 & S2).
  { apply Rle_trans with (1 := VS). apply Rle_trans with (bpow radix2 51 * bpow radix2 608 * 2).
    - unfold Rdiv. apply Rmult_le_compat; lra.
    - change 2 with (bpow radix2 1). rewrite <- !bpow_plus. apply bpow_le. lia. }
  split; [exact Fs|]. split.
  - rewrite S_INR. lra.
  - replace (w ^ (19 + S m)) with (w * w ^ (19 + m)) by (replace (19 + S m)%nat with (S (19 + m)) by lia; reflexivity). split.
    + apply Rle_trans with (2 := S1). replace ((X + A) * (w * w ^ (19 + m))) with ((X + A) * w ^ (19 + m) * w) by ring. apply Rmult_le_compat_r; lra.
    + apply Rle_trans with (1 := S2). replace ((X + A) / (w * w ^ (19 + m))) with ((X + A) / w ^ (19 + m) / w) by (field; lra).
      unfold Rdiv at 1 2. apply Rmult_le_compat_r; [apply Rlt_le, Rinv_0_lt_compat; lra|lra].
Qed.
Lemma ainv_zero : ainv 0 0%float 0.
Proof. split; [reflexivity|]. rewrite V0. cbn [INR]. unfold Rdiv. rewrite !Rmult_0_l. lra. Qed.
Lemma ainv_close n x X : INR n <= bpow radix2 50 -> ainv n x X -> finite x /\ Rabs (val x - X) <= (INR n + 19) * eps * X.
Proof.
  intros Hn (Fx & B & E1 & E2). split; [now apply finite_fin|]. rewrite val_V, u_eps.
  pose proof (w_pow_lin (19 + n)) as L. pose proof (inv_lin (19 + n) ltac:(pose proof (amany_half n Hn); lra)) as U.
  rewrite plus_INR in L, U. replace (INR 19) with 19 in L, U by (rewrite INR_IZR_INZ; reflexivity).
  pose proof u_small. pose proof (pos_INR n).
  apply Rabs_le. unfold Rdiv in E2. set (M := (19 + INR n) * u) in *.
  replace ((INR n + 19) * (2 * u) * X) with (2 * M * X) by (unfold M; ring).
  assert (0 <= M) by (unfold M; nra).
  assert (X * (1 - M) <= X * w ^ (19 + n)) by (apply Rmult_le_compat_l; lra).
  assert (X * / w ^ (19 + n) <= X * (1 + 2 * M)) by (apply Rmult_le_compat_l; lra).
  assert (0 <= M * X) by (apply Rmult_le_pos; lra). split; lra.
Qed.

(** ** One source point of an element moved to the origin *)
Section Moved.
  Context (fsin fcos fatan fasin facos fexp flog : PrimFloat.float -> PrimFloat.float).
  Local Notation F := (FN fsin fcos fatan fasin facos fexp flog).
  Local Notation Q := (val_par fsin fcos fatan fasin facos fexp flog).
  Local Notation src := (val_source fsin fcos fatan fasin facos fexp flog).
  Variables (q : samp F) (o : pos) (W D : R) (xo yo zo gx gy gz d wt : F).
  Hypothesis Hq : ordinary_par fsin fcos fatan fasin facos fexp flog q.
  Hypothesis Ho : forall v, In v [xo; yo; zo; gx; gy; gz] -> ordinary v.
  Hypothesis Eo : o = {| p_x := val xo - val gx; p_y := val yo - val gy; p_z := val zo - val gz |}.
  Hypothesis Hd : fin d = true /\ Rabs (V d - D) <= u * Rabs D /\ Rabs D <= bpow radix2 102.
  Hypothesis Hw : ordinary_pos wt.
  Hypothesis EW : W = val wt.

  Definition mwell (s : source) (c : contrib F) : Prop :=
    sample_of c = Some (arrives_at (Q q) D o s) /\ rel 19 (-600) 608 (c_ai c) (strength (Q q) W o s).
  Definition mpt (xy : F * F) : contrib F := sc_pt (rect_scanner q (nofZ 0) (nofZ 0) d wt (xo - gx)%float (yo - gy)%float (zo - gz)%float) (snd xy) (fst xy).

  Lemma mdist x y : moderate x -> moderate y -> powerRZ 2 (-99) <= dist o (src q (x, y)) ->
    Rabs (val x) <= dist o (src q (x, y)) -> Rabs (val y) <= dist o (src q (x, y)) ->
    rel 10 (-100) 106 (PrimFloat.sqrt ((xo - gx - x) * (xo - gx - x) + (yo - gy - y) * (yo - gy - y) + (zo - gz) * (zo - gz))%float) (dist o (src q (x, y))).
  Proof.
    intros Mx My H1 H2 H3. rewrite !val_V in *. rewrite <- bpow_val in H1. apply moved_dist; auto.
    - intros v Hv. apply ordinary_V, Ho, Hv.
    - rewrite Eo. unfold dist. cbn [p_x p_y p_z val_source flat s_x s_y s_z fst snd]. rewrite !val_V. reflexivity.
  Qed.
  Lemma mamp r DD : rel 10 (-100) 106 r DD ->
    rel 19 (-600) 608 (wt * vel q * (dx q * dy q) / (2 * f_pi * r) / dt q * 1000)%float
      (1000 * W * val (vel q) * (val (dx q) * val (dy q)) / (2 * PI * DD * val (dt q))).
  Proof.
    intros Hr. destruct Hq as (Hx & Hy & Ht & Hv & Hc). pose proof Hw as Hw'. rewrite EW, !val_V in *.
    apply ordinary_pos_rel in Hx, Hy, Ht, Hv, Hw'.
    assert (E : 1000 * V wt * V (vel q) * (V (dx q) * V (dy q)) / (2 * PI * DD * V (dt q)) =
      V wt * V (vel q) * (V (dx q) * V (dy q)) / (2 * PI * DD) / V (dt q) * 1000).
    { pose proof PI_RGT_0. destruct (rel_pos _ _ _ _ _ Hr), (rel_pos _ _ _ _ _ Ht). field. repeat split; lra. }
    rewrite E. clear E.
    eapply (rel_weaken 19 19 (-600) 608); [|lia|lia|lia].
    refine (mul_rel 18 0 (-609) 598 9 10 _ _ _ _ _ thousand_rel _ _ _); try lia.
    refine (div_rel 17 0 (-509) 498 (-100) 100 _ _ _ _ _ Ht _ _ _); try lia.
    refine (div_rel 3 13 (-400) 400 (-98) 109 _ _ _ _ _ _ _ _ _); try lia.
    - refine (mul_rel 1 1 (-200) 200 (-200) 200 _ _ _ _ _ _ _ _ _); try lia.
      + exact (mul_rel 0 0 (-100) 100 (-100) 100 _ _ _ _ Hw' Hv ltac:(lia) ltac:(lia) ltac:(lia)).
      + exact (mul_rel 0 0 (-100) 100 (-100) 100 _ _ _ _ Hx Hy ltac:(lia) ltac:(lia) ltac:(lia)).
    - eapply (rel_weaken 13 13 (1 + 1 + -100) (1 + 2 + 106)); [|lia|lia|lia].
      refine (mul_rel 2 10 (1 + 1) (1 + 2) (-100) 106 _ _ _ _ _ Hr _ _ _); try lia.
      exact (mul_rel 0 1 1 1 1 2 _ _ _ _ two_rel pi_rel ltac:(lia) ltac:(lia) ltac:(lia)).
  Qed.
  Lemma mtime r DD : rel 10 (-100) 106 r DD ->
    (forall z : Z, 9 * eps * ((1000 * DD / val (cp q) + Rabs D) / val (dt q)) < Rabs ((1000 * DD / val (cp q) - D + 0) / val (dt q) - (IZR z + / 2))) ->
    f_rint ((r * 1000 / cp q - d) / dt q)%float = Some (Zrint ((1000 * DD / val (cp q) - D + 0) / val (dt q))).
  Proof.
    intros Hr Hties. destruct Hq as (_ & _ & Ht & _ & Hc). rewrite !val_V in *.
    apply ordinary_pos_rel in Ht, Hc. destruct Hd as (Fd & Ed & Bd).
    assert (RT : rel 12 (-191) 216 (r * 1000 / cp q)%float (DD * 1000 / V (cp q))).
    { refine (div_rel 11 0 (-91) 116 (-100) 100 _ _ _ _ _ Hc _ _ _); try lia.
      exact (mul_rel 10 0 (-100) 106 9 10 _ _ _ _ Hr thousand_rel ltac:(lia) ltac:(lia) ltac:(lia)). }
    replace (DD * 1000) with (1000 * DD) in RT by ring.
    destruct Ht as (Ft & Bt & _). destruct (arg_moved _ _ _ _ _ RT Fd Ed Bd Ft Bt) as (Fa & Ea).
    set (T := 1000 * DD / V (cp q)) in *.
    apply f_rint_near; [exact Fa|]. rewrite Rplus_0_r in *.
    refine (stays_on_sample _ _ _ Ea _). intros z. eapply Rle_lt_trans; [|exact (Hties z)]. rewrite u_eps. right. ring.
  Qed.
  Lemma mwell_pt x y : moderate x -> moderate y -> powerRZ 2 (-99) <= dist o (src q (x, y)) ->
    Rabs (val x) <= dist o (src q (x, y)) -> Rabs (val y) <= dist o (src q (x, y)) ->
    (forall z : Z, 9 * eps * ((1000 * dist o (src q (x, y)) / p_cp (Q q) + Rabs D) / p_dt (Q q)) < Rabs (arrival (Q q) D o (src q (x, y)) - (IZR z + / 2))) ->
    mwell (src q (x, y)) (mpt (x, y)).
  Proof.
    intros Mx My H1 H2 H3 H4. pose proof (mdist x y Mx My H1 H2 H3) as Hr. split.
    - exact (mtime _ _ Hr H4).
    - exact (mamp _ _ Hr).
  Qed.
  Lemma maccumulate ntz : forall (l : list (contrib F)) (ss : list source), Forall2 mwell ss l ->
    forall (h : list F) m (X : nat -> R), length h = Z.to_nat ntz -> INR (m + length l) <= bpow radix2 50 ->
    (forall k, (k < Z.to_nat ntz)%nat -> ainv m (nth k h (0%float : F)) (X k)) ->
    forall k, (k < Z.to_nat ntz)%nat ->
      ainv (m + length l) (nth k (accumulate ntz l h) (0%float : F)) (X k + rayleigh (Q q) W D o ss (Z.of_nat k)).
  Proof.
    intros l ss H. induction H as [|s c ss l Hc H IH]; intros h m X Hh Hm Hi k Hk.
    - cbn [length accumulate fold_left]. unfold rayleigh, Rsum. cbn [map fold_right]. rewrite Nat.add_0_r, Rplus_0_r. auto.
    - destruct Hc as [Hz Ha]. cbn [length] in *. rewrite accumulate_cons. unfold in_window. rewrite Hz.
      set (z := arrives_at (Q q) D o s) in *.
      assert (Er : forall k, rayleigh (Q q) W D o (s :: ss) k = (if Z.eqb z k then strength (Q q) W o s else 0) + rayleigh (Q q) W D o ss k) by reflexivity.
      rewrite Er, <- Rplus_assoc. replace (m + S (length l))%nat with (S m + length l)%nat in * by lia.
      assert (Hm1 : INR m <= bpow radix2 50) by (apply Rle_trans with (2 := Hm); apply le_INR; lia).
      apply (IH _ (S m) (fun k => X k + (if Z.eqb z (Z.of_nat k) then strength (Q q) W o s else 0))); auto.
      + destruct ((0 <=? z) && (z <? ntz))%Z; [rewrite length_upd|]; exact Hh.
      + intros j Hj. destruct ((0 <=? z) && (z <? ntz))%Z eqn:Ew.
        * apply andb_prop in Ew. destruct Ew as [E1 E2]. apply Z.leb_le in E1. apply Z.ltb_lt in E2.
          rewrite (nth_upd_f fsin fcos fatan fasin facos fexp flog d) by lia. destruct (Nat.eqb_spec (Z.to_nat z) j) as [<-|Hne].
          -- rewrite Z2Nat.id, Z.eqb_refl by lia. exact (ainv_add m _ _ _ _ Hm1 (Hi _ Hj) Ha).
          -- replace (z =? Z.of_nat j)%Z with false by (symmetry; apply Z.eqb_neq; lia). rewrite Rplus_0_r. apply ainv_weaken, Hi, Hj.
        * replace (z =? Z.of_nat j)%Z with false; [rewrite Rplus_0_r; apply ainv_weaken, Hi, Hj|].
          symmetry. apply Z.eqb_neq. intros ->. apply andb_false_iff in Ew. destruct Ew as [Ew|Ew]; [apply Z.leb_gt in Ew|apply Z.ltb_ge in Ew]; lia.
  Qed.
End Moved.
