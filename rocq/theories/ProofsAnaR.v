(** ProofsAnaR.v - circ_sir in exact arithmetic. *)
From Coq Require Import Reals Lra Lia.
From Coquelicot Require Import Coquelicot.
From Verif Require Import Base NumR ModelSir ModelArr ModelSmp ModelAna ProofsR SpecAna ProofsArc ProofsAna.
Open Scope R_scope.

Ltac encalc := cbn [nlt nle nmul nadd nsub ndiv nopp nabs nsqrt nacos npi nofZ EN ecmp e2 e1].

Lemma pow2_lt_sqrt a b : 0 <= a -> 0 <= b -> a ^ 2 < b ^ 2 -> a < b.
Proof. intros Ha Hb H. nra. Qed.
Lemma pow2_le_sqrt a b : 0 <= a -> 0 <= b -> a ^ 2 <= b ^ 2 -> a <= b.
Proof. intros Ha Hb H. nra. Qed.
Lemma sqrt_pow2' a : 0 <= a -> sqrt a ^ 2 = a.
Proof. intros H. rewrite <- Rsqr_pow2. apply Rsqr_sqrt. exact H. Qed.

Lemma ssq a b : 0 <= a * a + b * b.
Proof. nra. Qed.

Section Circ.
  Variables (x y z r v c t : R).
  Variables (rc Rp Rm rho : R).
  Hypothesis Drc : rc = sqrt (x^2 + y^2).
  Hypothesis DRp : Rp = sqrt (z * z + (r - rc) * (r - rc)).
  Hypothesis DRm : Rm = sqrt (z * z + (r + rc) * (r + rc)).
  Hypothesis Drho : rho = sqrt ((c * t) ^ 2 - z ^ 2).
  Hypothesis Hz : 0 <= z.
  Hypothesis Hr : 0 < r.
  Hypothesis Hc : 0 < c.

  Let Hrc : 0 <= rc. Proof. rewrite Drc. apply sqrt_pos. Qed.
  Let HRp : Rp ^ 2 = z ^ 2 + (r - rc) ^ 2.
  Proof. rewrite DRp. rewrite sqrt_pow2' by apply ssq. ring. Qed.
  Let HRm : Rm ^ 2 = z ^ 2 + (r + rc) ^ 2.
  Proof. rewrite DRm. rewrite sqrt_pow2' by apply ssq. ring. Qed.
  Let HRp0 : 0 <= Rp. Proof. rewrite DRp. apply sqrt_pos. Qed.
  Let HRm0 : 0 <= Rm. Proof. rewrite DRm. apply sqrt_pos. Qed.
  Let Hrho0 : 0 <= rho. Proof. rewrite Drho. apply sqrt_pos. Qed.
  Let Hrho : z <= c * t -> rho ^ 2 = (c * t) ^ 2 - z ^ 2.
  Proof. intros H. rewrite Drho. apply sqrt_pow2'. nra. Qed.
  Let HzRp : z <= Rp. Proof. apply pow2_le_sqrt; auto. rewrite HRp. pose proof (pow2_ge_0 (r - rc)). lra. Qed.
  Let HRpm : Rp <= Rm. Proof. apply pow2_le_sqrt; auto. rewrite HRp, HRm. assert (0 <= r * rc) by (apply Rmult_le_pos; lra). lra. Qed.

  Lemma circ_mid : Rp <= c * t -> c * t < Rm -> ~ (rc = r /\ c * t = z) ->
    exists q, nacos (circ_arg (N:=EN) (Some z) (Some r) (Some rc) (Some c) (Some t)) = Some (acos q) /\
              is_arc (disk r) x y rho (2 * acos q).
  Proof.
    intros H1 H2 Hn. assert (Hzt : z <= c * t) by lra. specialize (Hrho Hzt).
    assert (G1 : (r - rc) ^ 2 <= rho ^ 2) by (rewrite Hrho; nra).
    assert (G2 : rho ^ 2 < (r + rc) ^ 2) by (rewrite Hrho; nra).
    assert (G3 : rho < r + rc) by (apply pow2_lt_sqrt; lra).
    assert (Hpos : 0 < rho).
    { destruct (Rle_lt_or_eq_dec 0 rho Hrho0) as [|Eq]; [assumption|]. exfalso. apply Hn.
      rewrite <- Eq in *. split; nra. }
    assert (Hrcp : 0 < rc).
    { destruct (Rle_lt_or_eq_dec 0 rc Hrc) as [|Eq]; [assumption|]. rewrite <- Eq in *. nra. }
    assert (Hp : 0 < 2 * rc * rho) by (repeat apply Rmult_lt_0_compat; lra).
    set (q := (rho^2 + rc^2 - r^2) / (2 * rc * rho)).
    assert (Hq : -1 <= q <= 1).
    { assert (E : q * (2 * rc * rho) = rho^2 + rc^2 - r^2) by (unfold q; field; lra).
      assert (F1 : r - rc <= rho) by (destruct (Rle_lt_dec 0 (r - rc)); nra).
      assert (F2 : rc - r <= rho) by (destruct (Rle_lt_dec 0 (rc - r)); nra).
      split; apply Rmult_le_reg_r with (2 * rc * rho); try exact Hp; rewrite E; nra. }
    exists q. split; [|unfold q in Hq |- *; rewrite Drc in *; apply disk_arc_mid; assumption].
    unfold circ_arg. encalc.
    assert (E1 : c * t * c * t - z * z = (c * t) ^ 2 - z ^ 2) by ring.
    rewrite e_sqrt_ok by (rewrite E1, <- Hrho; nra). rewrite E1, <- Drho.
    cbn [e2]. rewrite e_div_ok by lra. 
    replace ((c * t) ^ 2 - z ^ 2 + rc * rc - r * r) with (rho ^ 2 + rc ^ 2 - r ^ 2) by (rewrite Hrho; ring).
    fold q. apply e_unit_ok. exact Hq.
  Qed.

  Lemma circ_sir_exact : ~ (rc = r /\ c * t = z) ->
    exists h, circ_sir_at (N:=EN) (Some z) (Some r) (Some rc) (Some Rp) (Some Rm) (Some v) (Some c) (Some t) (Some 0) = Some h /\
      is_sir (disk r) v c x y z t h.
  Proof.
    intros Hn. pose proof PI_RGT_0 as Hpi.
    unfold circ_sir_at. encalc.
    assert (Late : Rm <= c * t -> is_sir (disk r) v c x y z t 0).
    { intros H. right. split; [lra|]. exists 0. split; [|lra].
      rewrite <- Drho. assert (Hzt : z <= c * t) by lra. specialize (Hrho Hzt).
      apply disk_arc_out; try lra. rewrite <- Drc.
      assert (r + rc <= rho) by (apply pow2_le_sqrt; try lra; rewrite Hrho; nra). nra. }
    assert (Mid : Rp <= c * t -> c * t < Rm -> exists h,
       e2 Rmult (e_div (Some (v * c)) (Some PI)) (nacos (circ_arg (N:=EN) (Some z) (Some r) (Some rc) (Some c) (Some t))) = Some h /\
       is_sir (disk r) v c x y z t h).
    { intros H1 H2. destruct (circ_mid H1 H2 Hn) as (q & -> & Ha). rewrite e_div_ok by lra.
      eexists. split; [reflexivity|]. right. split; [lra|]. exists (2 * acos q). split; [rewrite <- Drho; exact Ha|]. field. lra. }
    destruct (Rltb rc r) eqn:E0; [apply Rltb_iff in E0|apply Rltb_niff in E0].
    - destruct (Rltb (c * t) z) eqn:E1; [apply Rltb_iff in E1|apply Rltb_niff in E1].
      { exists 0. split; [reflexivity|]. left. auto. }
      rewrite (proj2 (Rleb_iff z (c * t)) E1). cbn [andb].
      destruct (Rltb (c * t) Rp) eqn:E2; [apply Rltb_iff in E2|apply Rltb_niff in E2].
      { exists (v * c). split; [reflexivity|]. right. split; [exact E1|]. exists (2 * PI). split; [|field; lra].
        rewrite <- Drho. specialize (Hrho E1). apply disk_arc_in; [lra|]. rewrite <- Drc.
        assert (rho < r - rc) by (apply pow2_lt_sqrt; try lra; rewrite Hrho; nra). lra. }
      rewrite (proj2 (Rleb_iff Rp (c * t)) E2). cbn [andb].
      destruct (Rltb (c * t) Rm) eqn:E3; [apply Rltb_iff in E3|apply Rltb_niff in E3].
      { exact (Mid E2 E3). }
      rewrite (proj2 (Rleb_iff Rm (c * t)) E3). exists 0. split; [reflexivity|]. exact (Late E3).
    - destruct (Rltb (c * t) Rp) eqn:E2; [apply Rltb_iff in E2|apply Rltb_niff in E2].
      { exists 0. split; [reflexivity|]. destruct (Rle_lt_dec z (c * t)) as [E1|E1]; [|left; auto].
        right. split; [exact E1|]. exists 0. split; [|lra]. rewrite <- Drho. specialize (Hrho E1).
        apply disk_arc_out; try lra. rewrite <- Drc.
        assert (rho < rc - r) by (apply pow2_lt_sqrt; try lra; rewrite Hrho; nra). nra. }
      rewrite (proj2 (Rleb_iff Rp (c * t)) E2). cbn [andb].
      destruct (Rltb (c * t) Rm) eqn:E3; [apply Rltb_iff in E3|apply Rltb_niff in E3].
      { exact (Mid E2 E3). }
      rewrite (proj2 (Rleb_iff Rm (c * t)) E3). exists 0. split; [reflexivity|]. exact (Late E3).
  Qed.
End Circ.

Lemma t_at_EN dt delay it : t_at (N:=EN) (Some dt) (Some delay) it = Some (second (IZR it * dt + delay)).
Proof. unfold t_at, second. encalc. rewrite e_div_ok by lra. reflexivity. Qed.

Lemma milli x : ndiv (n:=EN) (Some x) (nofZ 1000) = Some (metre x).
Proof. encalc. rewrite e_div_ok by lra. reflexivity. Qed.

Lemma sq_EN u w : nsqrt (n:=EN) (nadd (n:=EN) (nmul (n:=EN) (Some u) (Some u)) (nmul (n:=EN) (Some w) (Some w))) = Some (sqrt (u * u + w * w)).
Proof. encalc. rewrite e_sqrt_ok by nra. reflexivity. Qed.
Lemma hyp_EN u w : nsqrt (n:=EN) (nadd (n:=EN) (nmul (n:=EN) (Some u) (Some u)) (nmul (n:=EN) (Some w) (Some w))) = Some (sqrt (u ^ 2 + w ^ 2)).
Proof. rewrite sq_EN. do 2 f_equal. ring. Qed.

Lemma circ_val_exact x y z r dt delay v c it : 0 <= z -> 0 < r ->
  ~ (sqrt (x^2 + y^2) = r /\ c * second (IZR it * dt + delay) = metre z) ->
  exists h, circ_val (N:=EN) (Some x) (Some y) (Some z) (Some r) (Some dt) (Some delay) (Some v) (Some c) it = Some h /\
    is_sir (disk (metre r)) v c (metre x) (metre y) (metre z) (second (IZR it * dt + delay)) h.
Proof.
  intros Hz Hr Hn. unfold circ_val. cbv zeta. rewrite !milli, t_at_EN.
  assert (Hz' : 0 <= metre z) by (unfold metre; lra). assert (Hr' : 0 < metre r) by (unfold metre; lra).
  rewrite hyp_EN.
  destruct (circ_sir_exact (metre x) (metre y) (metre z) (metre r) v c (second (IZR it * dt + delay)) _ _ _ _ eq_refl eq_refl eq_refl eq_refl Hz' Hr') as (h & Eh & Hh).
  { intros [E1 E2]. apply Hn. split; [|exact E2].
    assert (E3 : sqrt (metre x ^ 2 + metre y ^ 2) = metre (sqrt (x ^ 2 + y ^ 2))).
    { unfold metre. replace ((x / 1000) ^ 2 + (y / 1000) ^ 2) with ((x ^ 2 + y ^ 2) / (1000 * 1000)) by field.
      rewrite sqrt_div_alt by lra. rewrite sqrt_square by lra. reflexivity. }
    rewrite E3 in E1. unfold metre in E1. lra. }
  exists h. split; [|exact Hh]. rewrite <- Eh.
  f_equal; exact (sq_EN _ _).
Qed.

(** Above the edge, at the arrival time: 0/0. *)
Lemma e_div_0 (a : option R) : e_div a (Some 0) = None.
Proof. destruct a; cbn; [destruct (Req_EM_T 0 0); [reflexivity|lra]|reflexivity]. Qed.
Lemma circ_val_edge x y z r dt delay v c it : 0 <= z -> 0 < r ->
  (sqrt (x^2 + y^2) = r /\ c * second (IZR it * dt + delay) = metre z) ->
  circ_val (N:=EN) (Some x) (Some y) (Some z) (Some r) (Some dt) (Some delay) (Some v) (Some c) it = None.
Proof.
  intros Hz Hr [E1 E2]. unfold circ_val. cbv zeta. rewrite !milli, t_at_EN, hyp_EN.
  assert (E3 : sqrt (metre x ^ 2 + metre y ^ 2) = metre r).
  { rewrite <- E1. unfold metre. replace ((x / 1000) ^ 2 + (y / 1000) ^ 2) with ((x ^ 2 + y ^ 2) / (1000 * 1000)) by field.
    rewrite sqrt_div_alt by lra. rewrite sqrt_square by lra. reflexivity. }
  rewrite E3. assert (Hz' : 0 <= metre z) by (unfold metre; lra). assert (Hr' : 0 < metre r) by (unfold metre; lra).
  revert E2 Hz' Hr'. generalize (second (IZR it * dt + delay)) (metre z) (metre r). clear. intros t z r E Hz Hr.
  assert (Q1 : nsqrt (n:=EN) (nadd (n:=EN) (nmul (n:=EN) (Some z) (Some z)) (nmul (n:=EN) (nsub (n:=EN) (Some r) (Some r)) (nsub (n:=EN) (Some r) (Some r)))) = Some z).
  { encalc. replace (z * z + (r - r) * (r - r)) with (z * z) by ring. rewrite e_sqrt_ok by nra. now rewrite sqrt_square. }
  assert (Q2 : nsqrt (n:=EN) (nadd (n:=EN) (nmul (n:=EN) (Some z) (Some z)) (nmul (n:=EN) (nadd (n:=EN) (Some r) (Some r)) (nadd (n:=EN) (Some r) (Some r)))) = Some (sqrt (z * z + (r + r) * (r + r)))).
  { encalc. rewrite e_sqrt_ok by nra. reflexivity. }
  rewrite Q1, Q2.
  assert (Q3 : z < sqrt (z * z + (r + r) * (r + r))).
  { rewrite <- (sqrt_square z) at 1 by lra. apply sqrt_lt_1_alt. nra. }
  assert (Q4 : circ_arg (N:=EN) (Some z) (Some r) (Some r) (Some c) (Some t) = None).
  { unfold circ_arg. encalc. replace (c * t * c * t - z * z) with 0 by (replace (c * t * c * t) with ((c * t) * (c * t)) by ring; rewrite E; ring).
    rewrite e_sqrt_ok by lra. rewrite sqrt_0. cbn [e2]. rewrite Rmult_0_r. apply e_div_0. }
  unfold circ_sir_at. rewrite Q4. encalc. rewrite E.
  rewrite (proj2 (Rltb_niff r r)), (proj2 (Rltb_niff z z)), (proj2 (Rleb_iff z z)), (proj2 (Rltb_iff _ _) Q3) by lra.
  cbn [andb]. destruct (e_div (Some (v * c)) (Some PI)); reflexivity.
Qed.
