(** ProofsArc.v - angles of arcs on a disk and on a rectangle. *)
From Coq Require Import Reals Lra.
From Coquelicot Require Import Coquelicot.
From Verif Require Import NumR SpecAna.
Open Scope R_scope.

(** ** Indicator functions of intervals *)
Lemma const_RInt (f : R -> R) a b c : a <= b -> (forall t, a < t < b -> f t = c) -> is_RInt f a b ((b - a) * c).
Proof.
  intros Hab E. apply is_RInt_ext with (fun _ => c).
  - intros t. rewrite Rmin_left, Rmax_right by lra. intros H. symmetry. auto.
  - exact (is_RInt_const a b c).
Qed.

Lemma ind_RInt (f : R -> R) a p q b : a <= p -> p <= q -> q <= b ->
  (forall t, a < t < p -> f t = 0) -> (forall t, p < t < q -> f t = 1) -> (forall t, q < t < b -> f t = 0) ->
  is_RInt f a b (q - p).
Proof.
  intros H1 H2 H3 E1 E2 E3.
  pose proof (const_RInt f a p 0 H1 E1) as I1. pose proof (const_RInt f p q 1 H2 E2) as I2.
  pose proof (const_RInt f q b 0 H3 E3) as I3.
  pose proof (is_RInt_Chasles f a q b _ _ (is_RInt_Chasles f a p q _ _ I1 I2) I3) as I.
  replace (q - p) with (plus (plus ((p - a) * 0) ((q - p) * 1)) ((b - q) * 0)); [exact I|].
  unfold plus; cbn. ring.
Qed.

Lemma shift_RInt (f : R -> R) m a b I : is_RInt (fun t => f (t + m)) a b I -> is_RInt f (a + m) (b + m) I.
Proof.
  intros H. apply is_RInt_ext with (fun t => scal 1 (f (1 * t + - m + m))).
  - intros t _. replace (1 * t + - m + m) with t by ring. apply (scal_one (f t)).
  - apply (is_RInt_comp_lin (fun t => f (t + m)) 1 (- m)).
    replace (1 * (a + m) + - m) with a by ring. replace (1 * (b + m) + - m) with b by ring. exact H.
Qed.

Lemma reflect_RInt (f : R -> R) m a b I : is_RInt (fun t => f (m - t)) a b I -> is_RInt f (m - b) (m - a) I.
Proof.
  intros H. apply is_RInt_swap in H. apply is_RInt_ext with (fun t => opp (opp (f t))).
  { intros t _. apply opp_opp. }
  replace I with (opp (opp I)) by apply opp_opp.
  apply (is_RInt_opp (fun t => opp (f t)) _ _ (opp I)).
  apply is_RInt_ext with (fun t => scal (-1) (f (m - (-1 * t + m)))).
  { intros t _. replace (m - (-1 * t + m)) with t by ring. apply (scal_opp_one (f t)). }
  apply (is_RInt_comp_lin (fun t => f (m - t)) (-1) m).
  replace (-1 * (m - b) + m) with b by ring. replace (-1 * (m - a) + m) with a by ring. exact H.
Qed.

(** A full turn may start anywhere. *)
Lemma turn_RInt (f : R -> R) m I : (forall t, f (t + 2 * PI) = f t) -> - PI <= m <= PI ->
  is_RInt f (m - PI) (m + PI) I -> is_RInt f 0 (2 * PI) I.
Proof.
  intros Hp Hm HI. pose proof PI_RGT_0.
  assert (E : ex_RInt f (m - PI) (m + PI)) by (exists I; exact HI).
  assert (E1 : ex_RInt f (m - PI) 0).
  { apply (ex_RInt_Chasles_1 (V := R_CompleteNormedModule)) with (m + PI); [lra|exact E]. }
  assert (E2 : ex_RInt f 0 (m + PI)).
  { apply (ex_RInt_Chasles_2 (V := R_CompleteNormedModule)) with (m - PI); [lra|exact E]. }
  destruct E1 as [I1 H1]. destruct E2 as [I2 H2].
  assert (I = plus I2 I1).
  { rewrite <- (is_RInt_unique _ _ _ _ HI).
    rewrite (is_RInt_unique _ _ _ _ (is_RInt_Chasles _ _ _ _ _ _ H1 H2)). unfold plus; cbn; ring. }
  subst I. apply is_RInt_Chasles with (m + PI); [exact H2|].
  replace (m + PI) with (m - PI + 2 * PI) by ring. rewrite <- (Rplus_0_l (2 * PI)) at 2.
  apply shift_RInt. apply is_RInt_ext with f; [|exact H1]. intros t _. symmetry. apply Hp.
Qed.

(** ** cos phi > cos alpha *)
Lemma cos_gt_iff alpha t : 0 <= alpha <= PI -> -PI <= t <= PI -> (cos alpha < cos t <-> Rabs t < alpha).
Proof.
  intros Ha Ht.
  assert (E : cos t = cos (Rabs t)).
  { unfold Rabs. destruct (Rcase_abs t); [symmetry; apply cos_neg|reflexivity]. }
  assert (Hr : 0 <= Rabs t <= PI).
  { split; [apply Rabs_pos|]. apply Rabs_le. lra. }
  rewrite E. split; intros H.
  - destruct (Rle_lt_dec alpha (Rabs t)) as [Hl|]; [|assumption]. exfalso.
    destruct (Req_dec (Rabs t) alpha) as [Hn|Hn]; [rewrite Hn in H; lra|].
    pose proof (cos_decreasing_1 alpha (Rabs t)). lra.
  - apply cos_decreasing_1; lra.
Qed.

Lemma Rleb_iff x y : Rleb x y = true <-> x <= y.
Proof. unfold Rleb. destruct (Rle_dec x y); split; auto; discriminate. Qed.
Lemma Rleb_niff x y : Rleb x y = false <-> y < x.
Proof. unfold Rleb. destruct (Rle_dec x y); split; intros; try discriminate; auto; lra. Qed.
Lemma Rltb_iff x y : Rltb x y = true <-> x < y.
Proof. unfold Rltb. destruct (Rlt_dec x y); split; auto; discriminate. Qed.
Lemma Rltb_niff x y : Rltb x y = false <-> y <= x.
Proof. unfold Rltb. destruct (Rlt_dec x y); split; intros; try discriminate; auto; lra. Qed.

Lemma cos_arc m alpha : 0 <= alpha <= PI -> - PI <= m <= PI ->
  is_RInt (fun t => if Rltb (cos alpha) (cos (t - m)) then 1 else 0) 0 (2 * PI) (2 * alpha).
Proof.
  intros Ha Hm. pose proof PI_RGT_0. apply turn_RInt with m; [| exact Hm |].
  { intros t. replace (t + 2 * PI - m) with (t - m + 2 * INR 1 * PI) by (cbn; ring). now rewrite cos_period. }
  replace (m - PI) with (- PI + m) by ring. replace (m + PI) with (PI + m) by ring.
  apply shift_RInt. replace (2 * alpha) with (alpha - - alpha) by ring.
  apply ind_RInt; try lra; intros t Ht; replace (t + m - m) with t by ring.
  - replace (Rltb (cos alpha) (cos t)) with false; [reflexivity|]. symmetry. apply Rltb_niff.
    apply Rnot_lt_le. rewrite cos_gt_iff by lra. rewrite Rabs_left by lra. lra.
  - replace (Rltb (cos alpha) (cos t)) with true; [reflexivity|]. symmetry. apply Rltb_iff.
    apply cos_gt_iff; [lra|lra|]. apply Rabs_def1; lra.
  - replace (Rltb (cos alpha) (cos t)) with false; [reflexivity|]. symmetry. apply Rltb_niff.
    apply Rnot_lt_le. rewrite cos_gt_iff by lra. rewrite Rabs_right by lra. lra.
Qed.

(** ** Polar coordinates *)
Lemma polar x y : exists m, - PI <= m <= PI /\ x = sqrt (x^2 + y^2) * cos m /\ y = sqrt (x^2 + y^2) * sin m.
Proof.
  pose proof PI_RGT_0. set (s := sqrt (x^2 + y^2)).
  assert (Hs : s ^ 2 = x ^ 2 + y ^ 2).
  { unfold s. rewrite <- Rsqr_pow2. apply Rsqr_sqrt. nra. }
  assert (Hs0 : 0 <= s) by apply sqrt_pos.
  destruct (Req_dec s 0) as [Hz|Hz].
  { exists 0. rewrite Hz in *. assert (x = 0) by nra. assert (y = 0) by nra. split; [lra|]. lra. }
  assert (Hsp : 0 < s) by lra.
  assert (Hq : -1 <= x / s <= 1).
  { split; [apply Rmult_le_reg_r with s|apply Rmult_le_reg_r with s]; auto; field_simplify; try lra; nra. }
  assert (Hc : cos (acos (x / s)) = x / s) by (apply cos_acos; exact Hq).
  assert (Hsin : sin (acos (x / s)) = Rabs y / s).
  { rewrite sin_acos by exact Hq. replace (1 - (x / s)²) with ((Rabs y / s)²).
    - rewrite sqrt_Rsqr; [reflexivity|]. apply Rdiv_le_0_compat; [apply Rabs_pos|exact Hsp].
    - unfold Rsqr. assert (E : Rabs y * Rabs y = y ^ 2) by (rewrite <- Rabs_mult, Rabs_pos_eq; nra).
      replace (Rabs y / s * (Rabs y / s)) with ((Rabs y * Rabs y) / s ^ 2) by (field; lra).
      rewrite E. apply Rmult_eq_reg_r with (s ^ 2); [|nra]. field_simplify; lra. }
  pose proof (acos_bound (x / s)) as Hb.
  destruct (Rle_lt_dec 0 y) as [Hy|Hy].
  - exists (acos (x / s)). rewrite Hc, Hsin, Rabs_pos_eq by exact Hy. repeat split; try lra; field; lra.
  - exists (- acos (x / s)). rewrite cos_neg, sin_neg, Hc, Hsin, Rabs_left by exact Hy. repeat split; try lra; field; lra.
Qed.

(** ** Arcs on a disk *)
Lemma disk_eq x y rho phi m : - x = sqrt (x^2 + y^2) * cos m -> - y = sqrt (x^2 + y^2) * sin m ->
  (x + rho * cos phi) ^ 2 + (y + rho * sin phi) ^ 2 =
  sqrt (x^2 + y^2) ^ 2 + rho ^ 2 - 2 * rho * sqrt (x^2 + y^2) * cos (phi - m).
Proof.
  intros Hx Hy. rewrite cos_minus. set (s := sqrt (x^2 + y^2)) in *.
  assert (Hs : s ^ 2 = x ^ 2 + y ^ 2).
  { unfold s. rewrite <- Rsqr_pow2. apply Rsqr_sqrt. nra. }
  pose proof (sin2_cos2 phi) as Hp. unfold Rsqr in Hp.
  replace ((x + rho * cos phi) ^ 2 + (y + rho * sin phi) ^ 2) with
    (x ^ 2 + y ^ 2 + rho ^ 2 * (sin phi * sin phi + cos phi * cos phi) - 2 * rho * ((- x) * cos phi + (- y) * sin phi)) by ring.
  rewrite Hp, Hx, Hy, Hs. ring.
Qed.

Lemma polar_opp x y : exists m, - PI <= m <= PI /\
  - x = sqrt (x^2 + y^2) * cos m /\ - y = sqrt (x^2 + y^2) * sin m.
Proof.
  destruct (polar (- x) (- y)) as (m & Hm & Hx & Hy). exists m.
  replace ((- x) ^ 2 + (- y) ^ 2) with (x ^ 2 + y ^ 2) in Hx, Hy by ring. auto.
Qed.

Lemma disk_arc_mid r x y rho (rc := sqrt (x^2 + y^2)) (q := (rho^2 + rc^2 - r^2) / (2 * rc * rho)) :
  0 < rho -> 0 < rc -> -1 <= q <= 1 -> is_arc (disk r) x y rho (2 * acos q).
Proof.
  intros Hrho Hrc Hq. destruct (polar_opp x y) as (m & Hm & Hx & Hy). fold rc in Hx, Hy.
  pose proof (acos_bound q) as Hb.
  unfold is_arc. apply is_RInt_ext with (2 := cos_arc m (acos q) Hb Hm). intros phi _.
  unfold disk. rewrite (disk_eq x y rho phi m Hx Hy). fold rc. rewrite cos_acos by exact Hq.
  assert (Hp : 0 < 2 * rc * rho) by (repeat apply Rmult_lt_0_compat; lra).
  assert (Hqe : q * (2 * rc * rho) = rho^2 + rc^2 - r^2) by (unfold q; field; lra).
  destruct (Rltb q (cos (phi - m))) eqn:E; [apply Rltb_iff in E|apply Rltb_niff in E].
  - replace (Rltb _ _) with true; [reflexivity|]. symmetry. apply Rltb_iff.
    assert (q * (2 * rc * rho) < cos (phi - m) * (2 * rc * rho)) by (apply Rmult_lt_compat_r; lra). lra.
  - replace (Rltb _ _) with false; [reflexivity|]. symmetry. apply Rltb_niff.
    assert (cos (phi - m) * (2 * rc * rho) <= q * (2 * rc * rho)) by (apply Rmult_le_compat_r; lra). lra.
Qed.

Lemma disk_dist x y rho phi (rc := sqrt (x^2 + y^2)) : 0 <= rho ->
  (rc - rho) ^ 2 <= (x + rho * cos phi) ^ 2 + (y + rho * sin phi) ^ 2 <= (rc + rho) ^ 2.
Proof.
  intros Hrho. destruct (polar_opp x y) as (m & Hm & Hx & Hy).
  rewrite (disk_eq x y rho phi m Hx Hy). fold rc. pose proof (COS_bound (phi - m)) as Hb.
  assert (0 <= rho * rc) by (apply Rmult_le_pos; [exact Hrho|apply sqrt_pos]). nra.
Qed.

Lemma disk_arc_in r x y rho : 0 <= rho -> sqrt (x^2 + y^2) + rho < r -> is_arc (disk r) x y rho (2 * PI).
Proof.
  intros Hrho Hr. unfold is_arc. pose proof PI_RGT_0. pose proof (sqrt_pos (x^2+y^2)).
  replace (2 * PI) with ((2 * PI - 0) * 1) at 2 by ring. apply const_RInt; [lra|]. intros phi _.
  unfold disk. replace (Rltb _ _) with true; [reflexivity|]. symmetry. apply Rltb_iff.
  pose proof (disk_dist x y rho phi Hrho) as [_ Hd]. nra.
Qed.

Lemma disk_arc_out r x y rho : 0 <= rho -> 0 <= r -> r ^ 2 <= (sqrt (x^2 + y^2) - rho) ^ 2 -> is_arc (disk r) x y rho 0.
Proof.
  intros Hrho Hr Ho. unfold is_arc. pose proof PI_RGT_0.
  replace 0 with ((2 * PI - 0) * 0) at 2 by ring. apply const_RInt; [lra|]. intros phi _.
  unfold disk. replace (Rltb _ _) with false; [reflexivity|]. symmetry. apply Rltb_niff.
  pose proof (disk_dist x y rho phi Hrho) as [Hd _]. lra.
Qed.
