(** PropField.v - property theorems C108 and C109: the field of a flat
    transducer driven by a pulse, from the response and from the convolution
    of the response with the pulse. *)
From Coq Require Strings.String Strings.Ascii.
Import Coq.Strings.String.StringSyntax.
From Coq Require Import Reals List ZArith Lra Lia.
From Coquelicot Require Import Coquelicot.
From Verif Require Import Base BaseLemmas ModelSir ModelArr ModelSmp NumR SpecSmp SpecSir SpecRayleigh SpecArr
  ModelGw SpecGw SpecGwR ProofsR ProofsRayleigh ProofsSirR PropSir PropGwR SpecPhys ProofsPhys ProofsRiemann PropPhys PropPhys2
  SpecField ProofsField ProofsField2.
Import ListNotations.
Open Scope R_scope.

(** C108: what the samples of the response give for a signal phi differs from
    the exact field by at most field_error, an explicit bound that is linear in
    the sampling period and goes to 0 with the steps. Rectangles and discs,
    focused or not, sides that need not be whole numbers of steps. *)
Theorem C108_field : forall fuel c2r fe f nlhs hw env sch junk args g q ntz ps dty dl,
  exact_call c2r fe f nlhs hw env sch args g q ntz ps dty dl -> all_defined fe fuel q ntz g ps dty dl ->
  flat_geom g -> 0 < p_dt q -> 0 < p_cp q ->
  exists V, returns (gateway fuel c2r fe f nlhs hw env sch junk args) ntz (length ps) V /\
  forall n, (n < length ps)%nat -> p_z (nth n ps origin) <> 0 ->
    inside q ntz g (start_delay dty dl n) (nth n ps origin) ->
    forall phi L M, smooth L M phi ->
    Rabs (observed q ntz (start_delay dty dl n) (V n) phi - radiated (p_cp q) (p_v q) g (nth n ps origin) phi)
    <= field_error q g (p_z (nth n ps origin)) L M.
Proof.
  intros fuel c2r fe f nlhs hw env sch junk args g q ntz ps dty dl HC HD Hg Hdt Hcp.
  eexists. split; [apply call_returns; eassumption|]. cbv beta. intros n Hn Hz Hin phi L M Hphi.
  destruct (HD n Hn) as [Hq _ _ _ _ _]. now apply field_bound.
Qed.
Print Assumptions C108_field.

(** The bound goes to 0. *)
Lemma field_error_small g cp v z L M : flat_geom g -> 0 < cp -> z <> 0 -> 0 <= L -> 0 <= M ->
  exists K, 0 <= K /\ forall q h, p_cp q = cp -> p_v q = v -> 0 < p_dx q <= h -> 0 < p_dy q <= h -> 0 < p_dt q <= h -> h <= 1 ->
    field_error q g z L M <= K * sqrt h.
Proof.
  intros Hg Hcp Hz HL HM. set (S := max_width g). set (H := half_height g). set (C := 1000 * Rabs v / (2 * PI)).
  assert (HS : 0 <= S) by (unfold S; pose proof (flat_range g 0 Hg); lra).
  assert (HH : 0 <= H) by now apply flat_height.
  pose proof (Rabs_pos_lt _ Hz) as Hz'. pose proof PI_RGT_0 as HPI.
  assert (HC : 0 <= C).
  { unfold C. apply Rmult_le_pos; [|left; apply Rinv_0_lt_compat; lra]. apply Rmult_le_pos; [lra|apply Rabs_pos]. }
  set (amp := C * M / Rabs z). set (slope := C * (M / z^2 + 2000 * L / (cp * Rabs z))).
  assert (Hamp : 0 <= amp) by (unfold amp; apply Rmult_le_pos; [nra|left; now apply Rinv_0_lt_compat]).
  assert (Hsl : 0 <= slope).
  { unfold slope. apply Rmult_le_pos; auto. apply Rplus_le_le_0_compat.
    - apply Rmult_le_pos; auto. left. apply Rinv_0_lt_compat. nra.
    - apply Rmult_le_pos; [lra|]. left. apply Rinv_0_lt_compat. nra. }
  set (c := C / Rabs z * L). assert (Hc : 0 <= c).
  { unfold c. apply Rmult_le_pos; auto. apply Rmult_le_pos; auto. left. now apply Rinv_0_lt_compat. }
  set (A := (2 * H + 1) * (2 * S + 1)).
  set (B := 2 * amp * sqrt (S + 1) + S * slope + (amp + (2 * S + 1) * slope)).
  assert (HB1 : 0 <= amp * sqrt (S + 1)) by (apply Rmult_le_pos; auto; apply sqrt_pos).
  assert (HB2 : 0 <= S * slope) by (apply Rmult_le_pos; auto).
  assert (HB : 0 <= B) by (unfold B; nra).
  exists (c * A + (S * amp + (2 * H + 1) * B)). split.
  { assert (0 <= A) by (unfold A; apply Rmult_le_pos; lra).
    apply Rplus_le_le_0_compat; [|apply Rplus_le_le_0_compat]; apply Rmult_le_pos; lra. }
  intros q h Ecp Ev Hx Hy Ht Hh. assert (Hh0 : 0 < h) by lra.
  assert (Hsq : h <= sqrt h).
  { rewrite <- (sqrt_square h) at 1 by lra. apply sqrt_le_1_alt. nra. }
  pose proof (sqrt_pos h) as Hs0. set (r := sqrt h) in *.
  unfold field_error. rewrite Ecp, Ev. fold S H C amp slope.
  assert (He : edge g (p_dy q) <= sqrt (S + 1) * r).
  { assert (Z0 : 0 <= sqrt (S + 1) * r) by (apply Rmult_le_pos; auto; apply sqrt_pos).
    destruct g; try contradiction; cbn [edge]; auto; unfold r; rewrite <- sqrt_mult_alt by lra; apply sqrt_le_1_alt;
      unfold S; cbn [max_width flat_geom] in *; apply Rmult_le_compat; lra. }
  assert (He0 : 0 <= edge g (p_dy q)) by (destruct g; cbn [edge]; try lra; apply sqrt_pos).
  set (e := edge g (p_dy q)) in *. clearbody e.
  assert (T1 : C / Rabs z * (L * p_dt q / 2) * ((2 * H + p_dy q / 2) * (2 * S + p_dx q / 2)) <= c * A * r).
  { replace (C / Rabs z * (L * p_dt q / 2) * ((2 * H + p_dy q / 2) * (2 * S + p_dx q / 2))) with
      (c * ((2 * H + p_dy q / 2) * (2 * S + p_dx q / 2)) * (p_dt q / 2)) by (unfold c; field; lra).
    apply Rmult_le_compat; try lra.
    - apply Rmult_le_pos; auto. apply Rmult_le_pos; lra.
    - apply Rmult_le_compat_l; auto. unfold A. apply Rmult_le_compat; lra. }
  assert (T2 : S * amp * p_dy q <= S * amp * r) by (apply Rmult_le_compat_l; [nra|lra]).
  assert (T3 : 2 * amp * e + S * slope * p_dy q + (amp * (p_dx q / 2) + (2 * S + p_dx q / 2) * (slope * p_dx q / 2)) <= B * r).
  { assert (U1 : amp * e <= amp * (sqrt (S + 1) * r)) by (apply Rmult_le_compat_l; auto).
    assert (U2 : S * slope * p_dy q <= S * slope * r) by (apply Rmult_le_compat_l; lra).
    assert (U3 : amp * (p_dx q / 2) <= amp * r) by (apply Rmult_le_compat_l; lra).
    assert (U4 : (2 * S + p_dx q / 2) * (slope * p_dx q / 2) <= (2 * S + 1) * (slope * r)).
    { apply Rmult_le_compat; try lra; [|].
      - apply Rmult_le_pos; [apply Rmult_le_pos; lra|lra].
      - replace (slope * p_dx q / 2) with (slope * (p_dx q / 2)) by field. apply Rmult_le_compat_l; lra. }
    unfold B. lra. }
  assert (T4 : (2 * H + p_dy q / 2) * (2 * amp * e + S * slope * p_dy q + (amp * (p_dx q / 2) + (2 * S + p_dx q / 2) * (slope * p_dx q / 2)))
               <= (2 * H + 1) * (B * r)).
  { apply Rmult_le_compat; try lra.
    assert (V1 : 0 <= amp * e) by (apply Rmult_le_pos; auto).
    assert (V2 : 0 <= S * slope * p_dy q) by (apply Rmult_le_pos; lra).
    assert (V3 : 0 <= amp * (p_dx q / 2)) by (apply Rmult_le_pos; lra).
    assert (V4 : 0 <= (2 * S + p_dx q / 2) * (slope * p_dx q / 2)) by (apply Rmult_le_pos; [lra|]; apply Rmult_le_pos; [apply Rmult_le_pos; lra|lra]).
    lra. }
  lra.
Qed.

(** C108: convergence. Fix the transducer, the medium, the observation point,
    the signal and a tolerance: with steps and sampling period small enough,
    every call gives the exact field within the tolerance. *)
Theorem C108_convergence : forall g cp v o phi L M eps,
  flat_geom g -> 0 < cp -> p_z o <> 0 -> smooth L M phi -> 0 < eps ->
  exists h, 0 < h /\ forall fuel c2r fe f nlhs hw env sch junk args q ntz ps dty dl,
  exact_call c2r fe f nlhs hw env sch args g q ntz ps dty dl -> all_defined fe fuel q ntz g ps dty dl ->
  p_cp q = cp -> p_v q = v -> p_dx q < h -> p_dy q < h -> 0 < p_dt q < h ->
  exists V, returns (gateway fuel c2r fe f nlhs hw env sch junk args) ntz (length ps) V /\
  forall n, (n < length ps)%nat -> nth n ps origin = o -> inside q ntz g (start_delay dty dl n) o ->
    Rabs (observed q ntz (start_delay dty dl n) (V n) phi - radiated cp v g o phi) < eps.
Proof.
  intros g cp v o phi L M eps Hg Hcp Hz Hphi Heps.
  assert (HL : 0 <= L) by exact (lip_pos L phi (proj2 Hphi)).
  assert (HM : 0 <= M) by (eapply Rle_trans; [apply Rabs_pos|apply (proj1 Hphi 0)]).
  destruct (field_error_small g cp v (p_z o) L M Hg Hcp Hz HL HM) as (K & HK & HE).
  set (h0 := eps / (K + 1)). assert (Hh0 : 0 < h0) by (apply Rdiv_lt_0_compat; lra).
  set (h := Rmin 1 (h0^2)). assert (Hh : 0 < h) by (apply Rmin_pos; [lra|nra]).
  exists h. split; auto. intros fuel c2r fe f nlhs hw env sch junk args q ntz ps dty dl HC HD Ecp Ev Hx Hy Ht.
  destruct (C108_field fuel c2r fe f nlhs hw env sch junk args g q ntz ps dty dl HC HD Hg ltac:(lra) ltac:(lra)) as (V & HV & H).
  exists V. split; [exact HV|]. intros n Hn Eo Hin. subst o.
  destruct (HD n Hn) as [(Hx0 & Hy0 & _ & _) _ _ _ _ _].
  specialize (H n Hn Hz Hin phi L M Hphi). rewrite Ecp, Ev in H. eapply Rle_lt_trans; [exact H|].
  assert (Hh1 : h <= 1) by apply Rmin_l.
  eapply Rle_lt_trans; [apply (HE q h Ecp Ev); lra|].
  assert (Hsh : sqrt h <= h0). { rewrite <- (sqrt_pow2 h0) by lra. apply sqrt_le_1_alt. apply Rmin_r. }
  apply Rle_lt_trans with (K * h0); [now apply Rmult_le_compat_l|].
  unfold h0. apply Rmult_lt_reg_r with (K + 1); [lra|].
  replace (K * (eps / (K + 1)) * (K + 1)) with (K * eps) by (field; lra). nra.
Qed.
Print Assumptions C108_convergence.

(** ** Non-vacuity: the 2 x 1 mm plate of PropPhys2 and a triangular pulse
    around 6 us. *)
Definition triangle (t : R) : R := Rmax 0 (1 - Rabs (t - 6)).
Lemma triangle_smooth : smooth 1 1 triangle.
Proof.
  unfold smooth, triangle. split.
  - intros t. pose proof (Rabs_pos (t - 6)). apply Rabs_le. unfold Rmax. destruct (Rle_dec _ _); lra.
  - intros t t'. rewrite Rmult_1_l. unfold Rmax, Rabs. repeat destruct (Rle_dec _ _); repeat destruct (Rcase_abs _); lra.
Qed.
Example C108_ex : forall fe,
  exact_call (map fst) fe FRect 1 1 None (round_robin 4 1) (rect_args 2 1 (exqt 1) 10 0 exo) (GRect 2 1) (exqt 1) 10 [exo] delay_single [0] /\
  all_defined fe 10 (exqt 1) 10 (GRect 2 1) [exo] delay_single [0] /\ flat_geom (GRect 2 1) /\ p_z exo <> 0 /\
  inside (exqt 1) 10 (GRect 2 1) 0 exo /\ smooth 1 1 triangle.
Proof.
  intros fe. destruct (phys_ex fe) as (E & D & _ & _ & _ & I & _ & _ & _ & Z).
  repeat (split; [assumption || (cbn; lra)|]). exact triangle_smooth.
Qed.
