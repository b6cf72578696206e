(** ProofsRel.v - relative rounding errors of products, quotients, roots
    and sums of positive doubles; pi. *)
From Coq Require Import Floats Uint63.
From Coq Require Import Reals Lra Lia ZArith List Bool QArith Qreals Machin Ratan.
From Flocq Require Import Core Plus_error Relative BinarySingleNaN PrimFloat.
From Verif Require Import Base BaseLemmas NumF NumR ProofsTermF SpecRound ProofsRound.
Import ListNotations.
Open Scope R_scope.

#[local] Instance fe_valid : Valid_exp fe := fexp_correct prec emax Hprec.
#[local] Instance p53 : Prec_gt_0 53 := eq_refl.

(** ** pi *)
Definition qterm (n : nat) : Q :=
  (let k := Z.of_nat (2 * n + 1) in
   (if Nat.even n then 1 else -1) * (2 * Qmake 1 (Z.to_pos (3 ^ k * k)) + Qmake 1 (Z.to_pos (7 ^ k * k))))%Q.
Fixpoint qsum (n : nat) : Q := match n with O => qterm 0 | S m => (qsum m + qterm (S m))%Q end.

Lemma Q2R_frac (p : positive) : Q2R (Qmake 1 p) = / IZR (Zpos p).
Proof. unfold Q2R. cbn [Qnum Qden]. ring. Qed.
Lemma IZR_frac (b : Z) (n : nat) : (1 < b)%Z -> IZR (Zpos (Z.to_pos (b ^ Z.of_nat (2 * n + 1) * Z.of_nat (2 * n + 1)))) =
  IZR b ^ (2 * n + 1) * INR (2 * n + 1).
Proof.
  intros Hb. rewrite Z2Pos.id.
  - rewrite mult_IZR, <- INR_IZR_INZ, pow_IZR. reflexivity.
  - apply Z.mul_pos_pos; [apply Z.pow_pos_nonneg; lia|lia].
Qed.
Lemma qterm_R n : Q2R (qterm n) = tg_alt PI_2_3_7_tg n.
Proof.
  unfold qterm, tg_alt, PI_2_3_7_tg, Ratan_seq. cbv zeta. rewrite Q2R_mult, Q2R_plus, Q2R_mult, !Q2R_frac, !IZR_frac by lia.
  assert (Hi : INR (2 * n + 1) <> 0) by (apply not_0_INR; lia).
  assert (E : Q2R (if Nat.even n then 1 else -1) = (-1) ^ n).
  { destruct (Nat.even n) eqn:En.
    - apply Nat.even_spec in En. destruct En as (m & ->). rewrite pow_1_even. unfold Q2R. cbn. lra.
    - assert (O : Nat.odd n = true) by (unfold Nat.odd; now rewrite En). apply Nat.odd_spec in O. destruct O as (m & ->).
      replace (2 * m + 1)%nat with (S (2 * m)) by lia. rewrite pow_1_odd. unfold Q2R. cbn. lra. }
  rewrite E. replace (Q2R 2) with 2 by (unfold Q2R; cbn; lra).
  f_equal.
  rewrite !Rinv_mult. rewrite !pow_inv. unfold Rdiv. ring.
Qed.
Lemma qsum_R n : Q2R (qsum n) = sum_f_R0 (tg_alt PI_2_3_7_tg) n.
Proof. induction n as [|n IH]; cbn [qsum sum_f_R0]; [apply qterm_R|]. rewrite Q2R_plus, IH, qterm_R. reflexivity. Qed.

Lemma pi_bounds : 884279719003555 / 2 ^ 48 * (1 - / 2 ^ 54) <= PI <= 884279719003555 / 2 ^ 48 * (1 + / 2 ^ 54).
Proof.
  pose proof (PI_2_3_7_ineq 9) as [L U]. change (2 * 9)%nat with 18%nat in *. rewrite <- !qsum_R in *.
  assert (B1 : ((Qmake 884279719003555 1125899906842624) * (1 - (Qmake 1 18014398509481984)) <= qsum 19)%Q) by (apply Qle_bool_iff; vm_compute; reflexivity).
  assert (B2 : (qsum 18 <= (Qmake 884279719003555 1125899906842624) * (1 + (Qmake 1 18014398509481984)))%Q) by (apply Qle_bool_iff; vm_compute; reflexivity).
  apply Qle_Rle in B1. apply Qle_Rle in B2. rewrite Q2R_mult in B1, B2. rewrite Q2R_minus in B1. rewrite Q2R_plus in B2.
  unfold Q2R in B1 at 1 2 3. unfold Q2R in B2 at 2 3 4. cbn [Qnum Qden] in B1, B2.
  split; lra.
Qed.

(** ** Relative errors *)
Notation w := (1 - u).
Lemma u_small : 0 < u <= / 1000000000000.
Proof.
  split; [apply bpow_gt_0|]. apply Rle_trans with (bpow radix2 (-40)); [apply bpow_le; lia|].
  replace (bpow radix2 (-40)) with (/ 1099511627776) by reflexivity. apply Rinv_le; lra.
Qed.
Lemma w_pos : 0 < w < 1.
Proof. pose proof u_small. lra. Qed.
Lemma w_pow n : 0 < w ^ n <= 1.
Proof. pose proof w_pos. split; [apply pow_lt; lra|]. apply Rle_trans with (1 ^ n); [apply pow_incr; lra|rewrite pow1; lra]. Qed.
Lemma w_pow_lin n : 1 - INR n * u <= w ^ n.
Proof.
  pose proof u_small as [Hu _]. induction n as [|n IH]; [cbn; lra|]. rewrite S_INR. cbn [pow]. pose proof (w_pow n) as [H1 H2].
  pose proof (pos_INR n). nra.
Qed.
Lemma w_pow_half n : INR n * u <= / 2 -> / 2 <= w ^ n.
Proof. pose proof (w_pow_lin n). lra. Qed.
Lemma inv_lin n : INR n * u <= / 2 -> / (w ^ n) <= 1 + 2 * (INR n * u).
Proof.
  intros H. pose proof (w_pow n) as [P _]. pose proof (w_pow_lin n) as L. pose proof u_small as [Hu _]. pose proof (pos_INR n).
  apply Rmult_le_reg_l with (1 := P). rewrite Rinv_r by lra. set (x := INR n * u) in *.
  assert (0 <= x) by (unfold x; nra). nra.
Qed.
Lemma hundred n : (n <= 1000)%nat -> INR n * u <= / 2.
Proof. intros H. apply le_INR in H. replace (INR 1000) with 1000 in H by (rewrite INR_IZR_INZ; reflexivity). pose proof u_small. pose proof (pos_INR n). nra. Qed.

Lemma rnd_rel z : bpow radix2 (-1022) <= z -> z * w <= rnd z <= z / w.
Proof.
  intros H. pose proof (bpow_gt_0 radix2 (-1022)) as Hp. pose proof u_small as Hu. pose proof w_pos as Hw.
  pose proof (relative_error_N_FLT radix2 (-1074) 53 eq_refl (fun n => negb (Z.even n)) z) as R.
  change (-1074 + 53 - 1)%Z with (-1022)%Z in R. rewrite Rabs_pos_eq in R by lra. specialize (R H).
  assert (R' : Rabs (rnd z - z) <= u * z). { eapply Rle_trans; [exact R|]. right. f_equal. exact half_u. }
  clear R. apply Rabs_le_inv in R'. split; [lra|].
  apply Rmult_le_reg_r with w; [lra|]. unfold Rdiv. rewrite Rmult_assoc, Rinv_l by lra. nra.
Qed.

(** x approximates X, at most n relative errors; 2^a <= X <= 2^b. *)
Definition rel (n : nat) (a b : Z) (x : PrimFloat.float) (X : R) : Prop :=
  fin x = true /\ bpow radix2 a <= X <= bpow radix2 b /\ X * w ^ n <= V x <= X / w ^ n.
Lemma rel_pos n a b x X : rel n a b x X -> 0 < X /\ 0 < V x.
Proof.
  intros (_ & [H _] & [H1 _]). pose proof (bpow_gt_0 radix2 a). pose proof (w_pow n). split; [lra|].
  apply Rlt_le_trans with (2 := H1). apply Rmult_lt_0_compat; lra.
Qed.
Lemma exact_rel a b x : fin x = true -> bpow radix2 a <= V x <= bpow radix2 b -> rel 0 a b x (V x).
Proof. intros H1 H2. split; [exact H1|]. split; [exact H2|]. cbn [pow]. lra. Qed.

Lemma rel_of_rnd n a b x X z : (n < 1000)%nat -> (-1000 <= a)%Z -> (b <= 1000)%Z -> bpow radix2 a <= X <= bpow radix2 b ->
  X * w ^ n <= z <= X / w ^ n -> (Rlt_bool (Rabs (rnd z)) (bpow radix2 emax) = true -> fin x = true /\ V x = rnd z) -> rel (S n) a b x X.
Proof.
  intros Hn Ha Hb HX Hz Hx. pose proof (w_pow n) as W. pose proof (w_pow_half n (hundred n ltac:(lia))) as Wh. pose proof w_pos as Hw.
  pose proof (bpow_gt_0 radix2 a) as Pa.
  assert (L : bpow radix2 (-1001) <= z).
  { apply Rle_trans with (2 := proj1 Hz). apply Rle_trans with (bpow radix2 a * / 2).
    - change (-1001)%Z with (-1 + -1000)%Z. rewrite bpow_plus. rewrite Rmult_comm. apply Rmult_le_compat; try lra; [apply bpow_ge_0|cbn; lra|apply bpow_le; exact Ha|cbn; lra].
    - apply Rmult_le_compat; lra. }
  assert (Hi : / w ^ n <= 2). { apply Rmult_le_reg_l with (w ^ n); [lra|]. rewrite Rinv_r by lra. lra. }
  assert (U : z <= bpow radix2 1001).
  { apply Rle_trans with (1 := proj2 Hz). unfold Rdiv. change 1001%Z with (1000 + 1)%Z. rewrite bpow_plus.
    apply Rmult_le_compat; [lra|apply Rlt_le, Rinv_0_lt_compat; lra| |exact Hi]. apply Rle_trans with (bpow radix2 b); [lra|]. apply bpow_le; exact Hb. }
  assert (Pz : 0 < z) by (apply Rlt_le_trans with (2 := L); apply bpow_gt_0).
  destruct Hx as (F & E).
  { apply rnd_nover. rewrite Rabs_pos_eq by lra. apply Rle_trans with (1 := U). apply bpow_le. lia. }
  destruct (rnd_rel z) as (R1 & R2). { apply Rle_trans with (2 := L). apply bpow_le. lia. }
  split; [exact F|]. split; [exact HX|]. rewrite E. cbn [pow]. split.
  - apply Rle_trans with (2 := R1). replace (X * (w * w ^ n)) with (X * w ^ n * w) by ring. apply Rmult_le_compat_r; lra.
  - apply Rle_trans with (1 := R2). replace (X / (w * w ^ n)) with (X / w ^ n / w) by (field; lra).
    unfold Rdiv at 1 2. apply Rmult_le_compat_r; [apply Rlt_le, Rinv_0_lt_compat; lra|lra].
Qed.

Lemma rel_weaken n n' a b a' b' x X : rel n a b x X -> (n <= n')%nat -> (a' <= a)%Z -> (b <= b')%Z -> rel n' a' b' x X.
Proof.
  intros H Hn Ha Hb. pose proof (rel_pos _ _ _ _ _ H) as [PX _]. destruct H as (F & B & E1 & E2). split; [exact F|]. split.
  - split; [apply Rle_trans with (bpow radix2 a); [apply bpow_le; lia|lra]|apply Rle_trans with (bpow radix2 b); [lra|apply bpow_le; lia]].
  - pose proof (w_pow n) as W. pose proof (w_pow n') as W'. pose proof (w_pow (n' - n)) as Wd.
    assert (E : w ^ n' = w ^ n * w ^ (n' - n)) by (rewrite <- pow_add; f_equal; lia).
    assert (LE : w ^ n' <= w ^ n) by (rewrite E; nra). split.
    + apply Rle_trans with (2 := E1). apply Rmult_le_compat_l; lra.
    + apply Rle_trans with (1 := E2). unfold Rdiv. apply Rmult_le_compat_l; [lra|]. apply Rinv_le; lra.
Qed.

Lemma fin_mul x y : fin x = true -> fin y = true ->
  Rlt_bool (Rabs (rnd (V x * V y))) (bpow radix2 emax) = true -> fin (x * y)%float = true /\ V (x * y)%float = rnd (V x * V y).
Proof.
  intros Hx Hy Hb. pose proof (Bmult_correct prec emax Hprec Hmax mode_NE (Prim2B x) (Prim2B y)) as H.
  rewrite <- mul_equiv in H. change (round_mode mode_NE) with ZnearestE in H.
  change (B2R (Prim2B x)) with (V x) in H. change (B2R (Prim2B y)) with (V y) in H. rewrite Hb in H.
  destruct H as (H1 & H2 & _). unfold fin in Hx, Hy |- *. rewrite Hx, Hy in H2. split; [exact H2|exact H1].
Qed.
Lemma fin_div x y : fin x = true -> V y <> 0 ->
  Rlt_bool (Rabs (rnd (V x / V y))) (bpow radix2 emax) = true -> fin (x / y)%float = true /\ V (x / y)%float = rnd (V x / V y).
Proof.
  intros Hx Hy Hb. pose proof (Bdiv_correct prec emax Hprec Hmax mode_NE (Prim2B x) (Prim2B y) Hy) as H.
  rewrite <- div_equiv in H. change (round_mode mode_NE) with ZnearestE in H.
  change (B2R (Prim2B x)) with (V x) in H. change (B2R (Prim2B y)) with (V y) in H. rewrite Hb in H.
  destruct H as (H1 & H2 & _). unfold fin in Hx |- *. rewrite Hx in H2. split; [exact H2|exact H1].
Qed.
Lemma fin_add x y : fin x = true -> fin y = true ->
  Rlt_bool (Rabs (rnd (V x + V y))) (bpow radix2 emax) = true -> fin (x + y)%float = true /\ V (x + y)%float = rnd (V x + V y).
Proof.
  intros Hx Hy Hb. pose proof (Bplus_correct prec emax Hprec Hmax mode_NE _ _ Hx Hy) as H.
  rewrite <- add_equiv in H. change (round_mode mode_NE) with ZnearestE in H.
  change (B2R (Prim2B x)) with (V x) in H. change (B2R (Prim2B y)) with (V y) in H. rewrite Hb in H.
  destruct H as (H1 & H2 & _). split; [exact H2|exact H1].
Qed.
Lemma fin_sqrt x : fin x = true -> 0 < V x -> fin (PrimFloat.sqrt x) = true /\ V (PrimFloat.sqrt x) = rnd (sqrt (V x)).
Proof.
  intros Hx Hp. pose proof (Bsqrt_correct prec emax Hprec Hmax mode_NE (Prim2B x)) as (H1 & H2 & _).
  rewrite <- sqrt_equiv in H1, H2. split; [|exact H1]. unfold fin. rewrite H2. pose proof (V_sign_pos x Hx Hp) as S.
  unfold fin, V in Hx, Hp. destruct (Prim2B x) as [s|s| |s m e E]; cbn in *; try discriminate; try lra; try reflexivity. now rewrite S.
Qed.

Lemma mul_rel n m a b c d x X y Y : rel n a b x X -> rel m c d y Y -> (n + m < 1000)%nat -> (-1000 <= a + c)%Z -> (b + d <= 1000)%Z ->
  rel (S (n + m)) (a + c) (b + d) (x * y)%float (X * Y).
Proof.
  intros Hx Hy Hn Ha Hb. destruct (rel_pos _ _ _ _ _ Hx) as [PX Px]. destruct (rel_pos _ _ _ _ _ Hy) as [PY Py].
  destruct Hx as (Fx & Bx & Ex1 & Ex2), Hy as (Fy & By & Ey1 & Ey2).
  pose proof (bpow_gt_0 radix2 a). pose proof (bpow_gt_0 radix2 c).
  apply (rel_of_rnd _ _ _ _ _ (V x * V y)); auto.
  - rewrite !bpow_plus. split; apply Rmult_le_compat; lra.
  - pose proof (w_pow n) as W1. pose proof (w_pow m) as W2. rewrite pow_add. split.
    + replace (X * Y * (w ^ n * w ^ m)) with ((X * w ^ n) * (Y * w ^ m)) by ring. apply Rmult_le_compat; try lra; apply Rmult_le_pos; lra.
    + replace (X * Y / (w ^ n * w ^ m)) with ((X / w ^ n) * (Y / w ^ m)) by (field; lra). apply Rmult_le_compat; lra.
  - now apply fin_mul.
Qed.

Lemma div_rel n m a b c d x X y Y : rel n a b x X -> rel m c d y Y -> (n + m < 1000)%nat -> (-1000 <= a - d)%Z -> (b - c <= 1000)%Z ->
  rel (S (n + m)) (a - d) (b - c) (x / y)%float (X / Y).
Proof.
  intros Hx Hy Hn Ha Hb. destruct (rel_pos _ _ _ _ _ Hx) as [PX Px]. destruct (rel_pos _ _ _ _ _ Hy) as [PY Py].
  destruct Hx as (Fx & Bx & Ex1 & Ex2), Hy as (Fy & By & Ey1 & Ey2).
  pose proof (bpow_gt_0 radix2 a). pose proof (bpow_gt_0 radix2 c). pose proof (bpow_gt_0 radix2 d).
  assert (IY : 0 < / Y) by (apply Rinv_0_lt_compat; lra). assert (Iy : 0 < / V y) by (apply Rinv_0_lt_compat; lra).
  pose proof (w_pow n) as W1. pose proof (w_pow m) as W2.
  apply (rel_of_rnd _ _ _ _ _ (V x / V y)); auto.
  - unfold Zminus. rewrite !bpow_plus, !bpow_opp. unfold Rdiv. split; apply Rmult_le_compat; try lra; try (apply Rlt_le, Rinv_0_lt_compat; lra); apply Rinv_le; lra.
  - rewrite pow_add. split.
    + replace (X / Y * (w ^ n * w ^ m)) with ((X * w ^ n) * / (Y / w ^ m)) by (field; lra). unfold Rdiv at 2. apply Rmult_le_compat; try lra.
      * apply Rmult_le_pos; lra.
      * apply Rlt_le, Rinv_0_lt_compat. apply Rlt_le_trans with (1 := Py). exact Ey2.
      * apply Rinv_le; lra.
    + replace (X / Y / (w ^ n * w ^ m)) with ((X / w ^ n) * / (Y * w ^ m)) by (field; lra). unfold Rdiv at 1. apply Rmult_le_compat; try lra.
      apply Rinv_le; [apply Rmult_lt_0_compat; lra|lra].
  - intros Hr. apply fin_div; auto. lra.
Qed.

Lemma sqrt_rel n a b x X : rel (2 * n) (2 * a) (2 * b) x X -> (n < 1000)%nat -> (-1000 <= a)%Z -> (b <= 1000)%Z ->
  rel (S n) a b (PrimFloat.sqrt x) (sqrt X).
Proof.
  intros Hx Hn Ha Hb. destruct (rel_pos _ _ _ _ _ Hx) as [PX Px]. destruct Hx as (Fx & Bx & Ex1 & Ex2).
  assert (SB : forall c, sqrt (bpow radix2 (2 * c)) = bpow radix2 c).
  { intros c. replace (2 * c)%Z with (c + c)%Z by lia. rewrite bpow_plus. apply sqrt_square, bpow_ge_0. }
  pose proof (w_pow n) as W.
  assert (EW : w ^ (2 * n) = w ^ n * w ^ n) by (rewrite <- pow_add; f_equal; lia). rewrite EW in *.
  apply (rel_of_rnd _ _ _ _ _ (sqrt (V x))); auto.
  - rewrite <- (SB a), <- (SB b). split; apply sqrt_le_1_alt; lra.
  - split.
    + replace (sqrt X * w ^ n) with (sqrt (X * (w ^ n * w ^ n))); [apply sqrt_le_1_alt; lra|]. rewrite sqrt_mult by nra. rewrite sqrt_square by lra. reflexivity.
    + replace (sqrt X / w ^ n) with (sqrt (X / (w ^ n * w ^ n))); [apply sqrt_le_1_alt; lra|]. rewrite sqrt_div by nra. rewrite sqrt_square by lra. reflexivity.
  - intros _. now apply fin_sqrt.
Qed.

Lemma pi_rel : rel 1 1 2 f_pi PI.
Proof.
  assert (E : V f_pi = 884279719003555 / 2 ^ 48).
  { rewrite <- val_V. unfold val, f_pi. replace (Prim2SF 0x1.921fb54442d18p+1) with (S754_finite false 7074237752028440 (-51)) by (vm_compute; reflexivity).
    cbv [powerRZ Pos.to_nat Pos.iter_op Nat.add]. lra. }
  pose proof pi_bounds as [L U]. pose proof u_small as Hu. pose proof w_pos as Hw.
  assert (Hh : u = 2 * / 2 ^ 54). { replace (bpow radix2 (-53)) with (/ 9007199254740992) by reflexivity. lra. }
  split; [reflexivity|]. rewrite E, Hh in *. split; [cbn [bpow]; cbn; lra|]. rewrite pow_1. split; [lra|].
  apply Rmult_le_reg_r with (1 - 2 * / 2 ^ 54); [lra|]. unfold Rdiv at 2. rewrite Rmult_assoc, Rinv_l by lra. lra.
Qed.
