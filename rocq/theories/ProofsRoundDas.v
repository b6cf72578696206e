(** ProofsRoundDas.v - rounding errors of travel times and delay-and-sum
    images in doubles. *)
From Coq Require Import Floats Uint63.
From Coq Require Import Reals Lra Lia ZArith List Bool.
From Flocq Require Import Core Plus_error Relative BinarySingleNaN PrimFloat.
From Verif Require Import Base BaseLemmas NumF NumR ProofsTermF SpecRound ProofsRound ProofsRel SpecRoundSir ProofsRoundSir.
Import ListNotations.
Open Scope R_scope.

#[local] Instance fe_valid : Valid_exp fe := fexp_correct prec emax Hprec.
#[local] Instance p53 : Prec_gt_0 53 := eq_refl.

(** ** Truncation *)
Lemma Zfl_spec x : IZR (NumR.Zfloor x) <= x < IZR (NumR.Zfloor x) + 1.
Proof. exact (ProofsR.Zfloor_spec x). Qed.
Lemma Ztr_pos x z : 0 <= x -> IZR z <= x < IZR z + 1 -> Ztruncr x = z.
Proof. intros H1 H2. rewrite ProofsR.Ztruncr_nonneg by exact H1. now apply ProofsR.Zfloor_unique. Qed.
Lemma Ztr_neg x z : x < 0 -> IZR z - 1 < x <= IZR z -> Ztruncr x = z.
Proof.
  intros H1 H2. unfold Ztruncr. destruct (Rle_dec 0 x) as [H|_]; [lra|].
  rewrite (ProofsR.Zfloor_unique (- x) (- z)); [lia|]. rewrite opp_IZR. lra.
Qed.
Lemma floor_me (m e : Z) : (0 <= m)%Z ->
  let v := (if 0 <=? e then m * 2 ^ e else m / 2 ^ (- e))%Z in (0 <= v)%Z /\ IZR v <= IZR m * bpow radix2 e < IZR v + 1.
Proof.
  intros Hm. cbv zeta. destruct (0 <=? e)%Z eqn:E.
  - apply Z.leb_le in E. rewrite <- IZR_Zpower by exact E. rewrite <- mult_IZR. change (Z.pow radix2 e) with (2 ^ e)%Z.
    split; [|lra]. apply Z.mul_nonneg_nonneg; [exact Hm|]. apply Z.pow_nonneg. lia.
  - apply Z.leb_gt in E. set (d := (2 ^ (- e))%Z). assert (Hd : (0 < d)%Z) by (apply Z.pow_pos_nonneg; lia).
    assert (Eb : bpow radix2 e = / IZR d).
    { replace e with (- - e)%Z by lia. rewrite bpow_opp. f_equal. rewrite <- IZR_Zpower by lia. reflexivity. }
    rewrite Eb. assert (Hd' : 0 < IZR d) by (apply IZR_lt; exact Hd).
    pose proof (Z.div_mod m d ltac:(lia)) as DM. pose proof (Z.mod_pos_bound m d Hd) as MB.
    split; [apply Z.div_pos; lia|]. split.
    + apply Rmult_le_reg_r with (IZR d); [exact Hd'|]. rewrite Rmult_assoc, Rinv_l, Rmult_1_r by lra.
      rewrite <- mult_IZR. apply IZR_le. lia.
    + apply Rmult_lt_reg_r with (IZR d); [exact Hd'|]. rewrite Rmult_assoc, Rinv_l, Rmult_1_r by lra.
      rewrite <- plus_IZR, <- mult_IZR. apply IZR_lt. lia.
Qed.
Lemma f_trunc_V x : fin x = true -> f_trunc x = Some (Ztruncr (V x)).
Proof.
  intros F. unfold f_trunc. unfold fin, V, Prim2B in *. rewrite is_finite_SF2B in F. rewrite B2R_SF2B.
  destruct (Prim2SF x) as [s|s| |s m e]; try discriminate F.
  - unfold SF2R. f_equal. symmetry. apply Ztr_pos; lra.
  - f_equal. unfold SF2R, F2R. cbn [Fnum Fexp]. destruct (floor_me (Zpos m) e ltac:(lia)) as (H0 & H1). cbv zeta in H0, H1.
    set (v := (if 0 <=? e then Z.pos m * 2 ^ e else Z.pos m / 2 ^ (- e))%Z) in *.
    assert (P : 0 < IZR (Z.pos m) * bpow radix2 e) by (apply Rmult_lt_0_compat; [apply IZR_lt; lia|apply bpow_gt_0]).
    symmetry. destruct s; unfold cond_Zopp; cbv iota.
    + rewrite opp_IZR. apply Ztr_neg; [lra|]. rewrite opp_IZR. lra.
    + apply Ztr_pos; lra.
Qed.
Lemma same_trunc a A e : Rabs (a - A) <= e -> (forall z : Z, e < Rabs (A - IZR z)) -> Ztruncr a = Ztruncr A.
Proof.
  intros He Hc. apply Rabs_le_inv in He. pose proof (Zfl_spec A) as F. set (z := NumR.Zfloor A) in *.
  pose proof (Hc z) as C1. pose proof (Hc (z + 1)%Z) as C2. rewrite plus_IZR in C2.
  rewrite Rabs_pos_eq in C1 by lra. rewrite Rabs_left1 in C2 by lra.
  assert (B : IZR z < a < IZR z + 1) by lra. assert (B' : IZR z < A < IZR z + 1) by lra.
  destruct (Z_le_gt_dec 0 z) as [Hz|Hz].
  - assert (0 <= IZR z) by (apply IZR_le; exact Hz). rewrite (Ztr_pos a z), (Ztr_pos A z) by lra. reflexivity.
  - assert (IZR (z + 1) <= 0) by (apply IZR_le; lia). rewrite plus_IZR in *.
    rewrite (Ztr_neg a (z + 1)), (Ztr_neg A (z + 1)) by (rewrite ?plus_IZR; lra). reflexivity.
Qed.

(** ** Absolute errors, in multiples of u M *)
Definition within (c M : R) (x : PrimFloat.float) (X : R) : Prop := fin x = true /\ Rabs (V x - X) <= c * u * M.
Lemma within_abs c M x X : within c M x X -> 0 <= c <= 50 -> Rabs X <= M -> Rabs (V x) <= (1 + / 1000) * M.
Proof.
  intros (_ & E) Hc HX. pose proof u_small as Hu. pose proof (Rabs_pos X).
  replace (V x) with ((V x - X) + X) by ring. eapply Rle_trans; [apply Rabs_triang|].
  assert (c * u <= / 1000) by nra. assert (c * u * M <= / 1000 * M) by (apply Rmult_le_compat_r; lra). lra.
Qed.
Lemma within_add a b M x X y Y : within a M x X -> within b M y Y -> 0 <= a <= 20 -> 0 <= b <= 20 -> Rabs (X + Y) <= M ->
  M <= bpow radix2 1000 -> within (a + b + 1 + / 100) M (x + y)%float (X + Y).
Proof.
  intros (Fx & Ex) (Fy & Ey) Ha Hb HS HM. pose proof u_small as Hu. pose proof (Rabs_pos (X + Y)).
  assert (ES : Rabs (V x + V y - (X + Y)) <= (a + b) * u * M).
  { replace (V x + V y - (X + Y)) with ((V x - X) + (V y - Y)) by ring. eapply Rle_trans; [apply Rabs_triang|]. lra. }
  assert (BS : Rabs (V x + V y) <= (1 + (a + b) * u) * M).
  { replace (V x + V y) with ((V x + V y - (X + Y)) + (X + Y)) by ring. eapply Rle_trans; [apply Rabs_triang|]. lra. }
  assert (SM : (a + b) * u <= / 100) by nra.
  destruct (add_std x y Fx Fy) as (F & E).
  { apply Rle_trans with (1 := BS). apply Rle_trans with (2 * bpow radix2 1000); [nra|]. change 2 with (bpow radix2 1). rewrite <- bpow_plus. apply bpow_le. lia. }
  split; [exact F|]. replace (V (x + y)%float - (X + Y)) with ((V (x + y)%float - (V x + V y)) + (V x + V y - (X + Y))) by ring.
  eapply Rle_trans; [apply Rabs_triang|].
  assert (u * Rabs (V x + V y) <= u * ((1 + / 100) * M)).
  { apply Rmult_le_compat_l; [lra|]. apply Rle_trans with (1 := BS). apply Rmult_le_compat_r; lra. }
  lra.
Qed.
Lemma within_rel n a b x X M : rel n a b x X -> X <= M -> (n <= 6)%nat -> within 7 M x X.
Proof.
  intros H HM Hn. apply (rel_weaken n 6 a b a b) in H; [|exact Hn|lia|lia]. pose proof u_small as Hu. destruct (rel_pos _ _ _ _ _ H) as [PX Px].
  destruct H as (F & B & L & U). pose proof (w_pow 6) as W6. pose proof (w_pow_lin 6) as WL. pose proof (inv_lin 6 (hundred 6 ltac:(lia))) as WU.
  replace (INR 6) with 6 in WL, WU by (rewrite INR_IZR_INZ; reflexivity).
  assert (WU' : / w ^ 6 <= 1 + 7 * u).
  { apply Rmult_le_reg_l with (w ^ 6); [lra|]. rewrite Rinv_r by lra. nra. }
  split; [exact F|]. apply Rle_trans with (7 * u * X); [|apply Rmult_le_compat_l; lra]. apply Rabs_le. unfold Rdiv in U. split; nra.
Qed.

Lemma V1000 : V 1000%float = 1000.
Proof.
  rewrite <- val_V. unfold val. replace (Prim2SF 1000) with (S754_finite false 8796093022208000 (-43)) by (vm_compute; reflexivity).
  cbv [powerRZ Pos.to_nat Pos.iter_op Nat.add]. lra.
Qed.
(** delay / 1000 *)
Lemma within_dms d M : fin d = true -> Rabs (V d) <= bpow radix2 100 -> Rabs (V d / 1000) <= M -> bpow radix2 (-200) <= M ->
  within 2 M (d / 1000)%float (V d / 1000).
Proof.
  intros F B HM Hm. pose proof u_small as Hu.
  destruct (fin_div d 1000%float F) as (Fq & Eq).
  { rewrite V1000. lra. }
  { rewrite V1000. apply rnd_nover. unfold Rdiv. rewrite Rabs_mult, (Rabs_pos_eq (/ 1000)) by lra.
    apply Rle_trans with (bpow radix2 100); [pose proof (Rabs_pos (V d)); lra|]. apply bpow_le. lia. }
  split; [exact Fq|]. rewrite Eq, V1000. destruct (rnd_std (V d / 1000)) as (dd & ee & Hd & He & ->).
  replace (V d / 1000 * (1 + dd) + ee - V d / 1000) with (dd * (V d / 1000) + ee) by ring.
  eapply Rle_trans; [apply Rabs_triang|]. rewrite Rabs_mult.
  assert (Rabs dd * Rabs (V d / 1000) <= u * M) by (apply Rmult_le_compat; auto using Rabs_pos).
  pose proof (eta_le (-200) ltac:(lia)) as E8. pose proof (bpow_gt_0 radix2 (-1075)).
  assert (u * bpow radix2 (-200) <= u * M) by (apply Rmult_le_compat_l; lra). lra.
Qed.
(** times the sampling frequency *)
Lemma within_fs c M x X f FS : within c M x X -> 0 <= c <= 12 -> Rabs X <= M -> bpow radix2 (-200) <= M <= bpow radix2 300 ->
  rel 2 (-91) 110 f FS -> within 16 (M * FS) (x * f)%float (X * FS).
Proof.
  intros Hx Hc HX HM Hf. pose proof u_small as Hu. pose proof (within_abs _ _ _ _ Hx ltac:(lra) HX) as Bx.
  destruct Hx as (Fx & Ex). destruct (rel_pos _ _ _ _ _ Hf) as [PF Pf]. destruct Hf as (Ff & BF & L & U).
  pose proof (bpow_gt_0 radix2 (-200)) as P200. pose proof (Rabs_pos (V x)) as PVx. pose proof (Rabs_pos X) as PX.
  assert (W2 : w ^ 2 >= 1 - 2 * u) by nra. assert (Wp : 0 < w ^ 2 <= 1) by apply (w_pow 2).
  assert (I2 : / w ^ 2 <= 1 + 2.01 * u).
  { apply Rmult_le_reg_l with (w ^ 2); [lra|]. rewrite Rinv_r by lra. nra. }
  assert (Ef : Rabs (V f - FS) <= 2.01 * u * FS).
  { apply Rabs_le. unfold Rdiv in U. split; nra. }
  assert (Bf : V f <= 2 * FS). { apply Rabs_le_inv in Ef. nra. }
  assert (B410 : bpow radix2 300 * bpow radix2 110 = bpow radix2 410) by (rewrite <- bpow_plus; reflexivity).
  assert (BMF : M * FS <= bpow radix2 410) by (rewrite <- B410; apply Rmult_le_compat; lra).
  assert (Bp : Rabs (V x * V f) <= 4 * (M * FS)).
  { rewrite Rabs_mult, (Rabs_pos_eq (V f)) by lra. replace (4 * (M * FS)) with ((2 * M) * (2 * FS)) by ring. apply Rmult_le_compat; lra. }
  destruct (mul_std x f Fx Ff) as (F & E).
  { apply Rle_trans with (1 := Bp). apply Rle_trans with (4 * bpow radix2 410); [lra|]. change 4 with (bpow radix2 2). rewrite <- bpow_plus. apply bpow_le. lia. }
  split; [exact F|].
  (* the exact product *)
  assert (E1 : Rabs (V x * V f - X * FS) <= (c + 2.02) * u * (M * FS)).
  { replace (V x * V f - X * FS) with ((V x - X) * FS + V x * (V f - FS)) by ring. eapply Rle_trans; [apply Rabs_triang|].
    rewrite !Rabs_mult, (Rabs_pos_eq FS) by lra.
    assert (Rabs (V x - X) * FS <= c * u * M * FS) by (apply Rmult_le_compat_r; lra).
    assert (Rabs (V x) * Rabs (V f - FS) <= ((1 + / 1000) * M) * (2.01 * u * FS)) by (apply Rmult_le_compat; auto using Rabs_pos).
    assert (0 <= u * (M * FS)) by (repeat apply Rmult_le_pos; lra). lra. }
  assert (E2 : Rabs (V x * V f) <= (1 + / 100) * (M * FS)).
  { replace (V x * V f) with ((V x * V f - X * FS) + X * FS) by ring. eapply Rle_trans; [apply Rabs_triang|].
    rewrite (Rabs_mult X FS), (Rabs_pos_eq FS) by lra.
    assert (Rabs X * FS <= M * FS) by (apply Rmult_le_compat_r; lra).
    assert (0 <= M * FS) by (apply Rmult_le_pos; lra). assert ((c + 2.02) * u <= / 100) by nra.
    assert ((c + 2.02) * u * (M * FS) <= / 100 * (M * FS)) by (apply Rmult_le_compat_r; lra). lra. }
  assert (E3 : eta <= / 8 * (u * (M * FS))).
  { pose proof (eta_le (-291) ltac:(lia)) as E8.
    assert (bpow radix2 (-291) <= M * FS).
    { change (-291)%Z with (-200 + -91)%Z. rewrite bpow_plus. apply Rmult_le_compat; try lra; apply bpow_ge_0. }
    assert (u * bpow radix2 (-291) <= u * (M * FS)) by (apply Rmult_le_compat_l; lra). lra. }
  replace (V (x * f)%float - X * FS) with ((V (x * f)%float - V x * V f) + (V x * V f - X * FS)) by ring.
  eapply Rle_trans; [apply Rabs_triang|].
  assert (u * Rabs (V x * V f) <= u * ((1 + / 100) * (M * FS))) by (apply Rmult_le_compat_l; lra).
  assert (0 <= u * (M * FS)) by (repeat apply Rmult_le_pos; lra).
  assert (c * (u * (M * FS)) <= 12 * (u * (M * FS))) by (apply Rmult_le_compat_r; lra). lra.
Qed.
Lemma within_add2 a M1 M2 x X y Y : within a M1 x X -> within a M2 y Y -> 0 <= a <= 20 -> Rabs X <= M1 -> Rabs Y <= M2 ->
  M1 + M2 <= bpow radix2 1000 -> within (a + 1 + / 100) (M1 + M2) (x + y)%float (X + Y).
Proof.
  intros (Fx & Ex) (Fy & Ey) Ha HX HY HM. pose proof u_small as Hu. pose proof (Rabs_pos X). pose proof (Rabs_pos Y).
  assert (HS : Rabs (X + Y) <= M1 + M2) by (eapply Rle_trans; [apply Rabs_triang|]; lra).
  assert (ES : Rabs (V x + V y - (X + Y)) <= a * u * (M1 + M2)).
  { replace (V x + V y - (X + Y)) with ((V x - X) + (V y - Y)) by ring. eapply Rle_trans; [apply Rabs_triang|]. lra. }
  assert (SM : a * u <= / 100) by nra.
  assert (BS : Rabs (V x + V y) <= (1 + / 100) * (M1 + M2)).
  { replace (V x + V y) with ((V x + V y - (X + Y)) + (X + Y)) by ring. eapply Rle_trans; [apply Rabs_triang|].
    assert (a * u * (M1 + M2) <= / 100 * (M1 + M2)) by (apply Rmult_le_compat_r; lra). lra. }
  destruct (add_std x y Fx Fy) as (F & E).
  { apply Rle_trans with (1 := BS). apply Rle_trans with (2 * bpow radix2 1000); [nra|]. change 2 with (bpow radix2 1). rewrite <- bpow_plus. apply bpow_le. lia. }
  split; [exact F|]. replace (V (x + y)%float - (X + Y)) with ((V (x + y)%float - (V x + V y)) + (V x + V y - (X + Y))) by ring.
  eapply Rle_trans; [apply Rabs_triang|].
  assert (u * Rabs (V x + V y) <= u * ((1 + / 100) * (M1 + M2))) by (apply Rmult_le_compat_l; lra).
  lra.
Qed.
Lemma within_weaken a b M x X : within a M x X -> a <= b -> 0 <= M -> within b M x X.
Proof.
  intros (F & E) H HM. split; [exact F|]. eapply Rle_trans; [exact E|]. pose proof u_small. apply Rmult_le_compat_r; [exact HM|]. apply Rmult_le_compat_r; lra.
Qed.
Lemma within_double c M x X : within c M x X -> 0 <= c <= 10.5 -> Rabs X <= M -> bpow radix2 (-200) <= M <= bpow radix2 290 ->
  within (c + 1.2) (2 * M) (2 * x)%float (2 * X).
Proof.
  intros Hx Hc HX HM. pose proof u_small as Hu. pose proof (within_abs _ _ _ _ Hx ltac:(lra) HX) as Bx. destruct Hx as (Fx & Ex).
  pose proof (bpow_gt_0 radix2 (-200)) as P200.
  assert (B2 : Rabs (V 2%float * V x) <= 2 * ((1 + / 1000) * M)).
  { rewrite V_two, Rabs_mult, (Rabs_pos_eq 2) by lra. lra. }
  destruct (mul_std 2%float x eq_refl Fx) as (F & E).
  { apply Rle_trans with (1 := B2). apply Rle_trans with (4 * bpow radix2 290); [lra|]. change 4 with (bpow radix2 2). rewrite <- bpow_plus. apply bpow_le. lia. }
  split; [exact F|]. rewrite V_two in *.
  replace (V (2 * x)%float - 2 * X) with ((V (2 * x)%float - 2 * V x) + 2 * (V x - X)) by ring.
  eapply Rle_trans; [apply Rabs_triang|]. rewrite (Rabs_mult 2 (V x - X)), (Rabs_pos_eq 2) by lra.
  assert (u * Rabs (2 * V x) <= u * (2 * ((1 + / 1000) * M))) by (apply Rmult_le_compat_l; lra).
  pose proof (eta_le (-200) ltac:(lia)) as E8. assert (u * bpow radix2 (-200) <= u * M) by (apply Rmult_le_compat_l; lra). assert (0 <= u * M) by (apply Rmult_le_pos; lra). lra.
Qed.

(** ** The sample index of a pair *)
Section Arg.
  Variables (cp dt d : PrimFloat.float).
  Hypothesis Hcp : ordinary_pos cp.
  Hypothesis Hdt : ordinary_pos dt.
  Hypothesis Hd : ordinary d.

  Lemma fs_rel : rel 2 (-91) 110 (1 / dt * 1000)%float (1 / V dt * 1000).
  Proof.
    apply ordinary_pos_rel in Hdt.
    refine (rel_weaken 2 2 (0 - 100 + 9) (0 - -100 + 10) (-91) 110 _ _ _ _ _ _); try lia.
    refine (mul_rel 1 0 (0 - 100) (0 - -100) 9 10 _ _ _ _ _ thousand_rel _ _ _); try lia.
    exact (div_rel 0 0 0 0 (-100) 100 _ _ _ _ one_rel Hdt ltac:(lia) ltac:(lia) ltac:(lia)).
  Qed.
  Lemma travel_rel r D : rel 4 (-100) 105 r D -> rel 6 (-200) 205 (r * (1 / cp))%float (D / V cp).
  Proof.
    intros Hr. apply ordinary_pos_rel in Hcp.
    replace (D / V cp) with (D * (1 / V cp)) by (unfold Rdiv; ring).
    refine (mul_rel 4 1 (-100) 105 (0 - 100) (0 - -100) _ _ _ _ Hr _ _ _ _); try lia.
    exact (div_rel 0 0 0 0 (-100) 100 _ _ _ _ one_rel Hcp ltac:(lia) ltac:(lia) ltac:(lia)).
  Qed.

  Variables (t r : PrimFloat.float) (T R : R).
  Hypothesis Ht : rel 6 (-200) 205 t T.
  Hypothesis Hr : rel 6 (-200) 205 r R.

  Lemma dms_small : Rabs (V d / 1000) <= bpow radix2 100.
  Proof.
    apply ordinary_V in Hd. destruct Hd as [_ B]. unfold Rdiv. rewrite Rabs_mult, (Rabs_pos_eq (/ 1000)) by lra.
    pose proof (Rabs_pos (V d)). lra.
  Qed.
  Lemma time_d : within 10.1 (T + Rabs (V d / 1000)) (t + d / 1000)%float (T + V d / 1000).
  Proof.
    pose proof dms_small as Bd. destruct (ordinary_V d Hd) as [Fd Bd0].
    pose proof (Rabs_pos (V d / 1000)) as Pd. destruct (rel_pos _ _ _ _ _ Ht) as [PT _]. pose proof (proj1 (proj2 Ht)) as BT.
    assert (W : within (7 + 2 + 1 + / 100) (T + Rabs (V d / 1000)) (t + d / 1000)%float (T + V d / 1000)).
    { apply within_add; try lra.
      - apply (within_rel 6 (-200) 205); [exact Ht|lra|lia].
      - apply within_dms; auto; lra.
      - eapply Rle_trans; [apply Rabs_triang|]. rewrite (Rabs_pos_eq T) by lra. lra.
      - apply Rle_trans with (bpow radix2 205 + bpow radix2 205).
        + apply Rplus_le_compat; [lra|]. apply Rle_trans with (1 := Bd). apply bpow_le. lia.
        + replace (bpow radix2 205 + bpow radix2 205) with (bpow radix2 1 * bpow radix2 205) by (change (bpow radix2 1) with 2; ring).
          rewrite <- bpow_plus. apply bpow_le. lia. }
    eapply within_weaken; [exact W|lra|lra].
  Qed.
  Lemma Mb : bpow radix2 (-200) <= T + Rabs (V d / 1000) <= bpow radix2 206.
  Proof.
    pose proof dms_small as Bd. pose proof (Rabs_pos (V d / 1000)). pose proof (proj1 (proj2 Ht)) as BT. split; [lra|].
    replace (bpow radix2 206) with (bpow radix2 205 + bpow radix2 205) by (change 206%Z with (1 + 205)%Z; rewrite bpow_plus; change (bpow radix2 1) with 2; ring).
    apply Rplus_le_compat; [lra|]. apply Rle_trans with (1 := Bd). apply bpow_le. lia.
  Qed.
  Lemma pair_arg : within 16 ((T + Rabs (V d / 1000) + R) * (1 / V dt * 1000))
    ((t + d / 1000 + r) * (1 / dt * 1000))%float ((T + V d / 1000 + R) * (1 / V dt * 1000)).
  Proof.
    pose proof time_d as W. pose proof Mb as MB. destruct (rel_pos _ _ _ _ _ Hr) as [PR _]. pose proof (proj1 (proj2 Hr)) as BR.
    destruct (rel_pos _ _ _ _ _ Ht) as [PT _]. pose proof (Rabs_pos (V d / 1000)) as Pd. pose proof (bpow_gt_0 radix2 (-200)).
    assert (B300 : bpow radix2 206 + bpow radix2 205 <= bpow radix2 300).
    { apply Rle_trans with (bpow radix2 206 + bpow radix2 206); [apply Rplus_le_compat_l, bpow_le; lia|].
      replace (bpow radix2 206 + bpow radix2 206) with (bpow radix2 1 * bpow radix2 206) by (change (bpow radix2 1) with 2; ring).
      rewrite <- bpow_plus. apply bpow_le. lia. }
    assert (AX : Rabs (T + V d / 1000) <= T + Rabs (V d / 1000)).
    { eapply Rle_trans; [apply Rabs_triang|]. rewrite (Rabs_pos_eq T) by lra. lra. }
    apply (within_fs (10.1 + 1 + / 100)); [|lra| |lra|exact fs_rel].
    - apply within_add2; try lra.
      + exact W.
      + apply (within_weaken 7); [|lra|lra]. apply (within_rel 6 (-200) 205); [exact Hr|lra|lia].
      + rewrite Rabs_pos_eq; lra.
      + apply Rle_trans with (bpow radix2 300); [lra|]. apply bpow_le. lia.
    - eapply Rle_trans; [apply Rabs_triang|]. rewrite (Rabs_pos_eq R) by lra. lra.
  Qed.
  Lemma saft_arg : within 16 (2 * (T + Rabs (V d / 1000)) * (1 / V dt * 1000))
    (2 * (t + d / 1000) * (1 / dt * 1000))%float (2 * (T + V d / 1000) * (1 / V dt * 1000)).
  Proof.
    pose proof time_d as W. pose proof Mb as MB. destruct (rel_pos _ _ _ _ _ Ht) as [PT _].
    pose proof (bpow_gt_0 radix2 (-200)).
    assert (AX : Rabs (T + V d / 1000) <= T + Rabs (V d / 1000)).
    { eapply Rle_trans; [apply Rabs_triang|]. rewrite (Rabs_pos_eq T) by lra. lra. }
    assert (B290 : bpow radix2 206 <= bpow radix2 290) by (apply bpow_le; lia).
    assert (B300 : 2 * bpow radix2 290 <= bpow radix2 300).
    { change 2 with (bpow radix2 1). rewrite <- bpow_plus. apply bpow_le. lia. }
    apply (within_fs (10.1 + 1.2)); [|lra| |lra|exact fs_rel].
    - apply within_double; try lra. exact W.
    - rewrite Rabs_mult, (Rabs_pos_eq 2) by lra. lra.
  Qed.
End Arg.
