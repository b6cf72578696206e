(** PropField4.v - property theorem C111: dreamsphere and the area of the bowl. *)
From Coq Require Strings.String Strings.Ascii.
Import Coq.Strings.String.StringSyntax.
From Coq Require Import Reals List ZArith Lra Lia.
From Coquelicot Require Import Coquelicot.
From Verif Require Import Base BaseLemmas ModelSir ModelArr ModelSmp NumR SpecSmp SpecSir SpecRayleigh SpecArr
  ModelGw SpecGw SpecGwR ProofsR ProofsRayleigh ProofsSirR PropSir PropGwR SpecPhys ProofsPhys ProofsRiemann PropPhys PropPhys2
  SpecField ProofsField ProofsField2 PropField SpecField3 ProofsField3 SpecField4.
Import ListNotations.
Open Scope R_scope.

(** Every source of the bowl is at the distance |Rc| from the centre. *)
Lemma bowl_dist q r Rc s : par_ok q -> geom_ok q (GSphere r Rc) -> In s (sources q (GSphere r Rc)) -> SpecRayleigh.dist (centre Rc) s = Rabs Rc.
Proof.
  intros Hq Hg Hs. destruct (source_on_surface q _ s Hq Hg Hs) as [(_ & E & _) _]. cbn [spos p_x p_y p_z] in E.
  unfold SpecRayleigh.dist, centre. cbn [p_x p_y p_z].
  replace ((0 - s_x s)^2 + (0 - s_y s)^2 + (Rc - s_z s)^2) with (Rc^2) by (rewrite <- E; ring).
  rewrite <- (pow2_abs Rc). apply sqrt_pow2. apply Rabs_pos.
Qed.
Definition grid_area (q : rpar) (r : R) : R := p_dx q * p_dy q * Rsum (map (fun _ => 1) (disc_xy q r)).
Lemma bowl_sum q ntz delay r Rc : par_ok q -> geom_ok q (GSphere r Rc) -> Rc <> 0 -> 0 < p_dt q -> inside q ntz (GSphere r Rc) delay (centre Rc) ->
  over_time q ntz (fun k => rayleigh q 1 delay (centre Rc) (sources q (GSphere r Rc)) (Z.of_nat k)) =
  1000 * p_v q / (2 * PI * Rabs Rc) * grid_area q r.
Proof.
  intros Hq Hg HR Hdt Hin. unfold over_time, grid_area. rewrite rayleigh_total by (now apply inside_arrives).
  pose proof (Rabs_pos_lt _ HR) as HR'. pose proof PI_RGT_0 as HPI.
  transitivity (p_dt q * Rsum (map (fun _ => 1000 * p_v q * (p_dx q * p_dy q) / (2 * PI * Rabs Rc * p_dt q)) (disc_xy q r))).
  - f_equal. assert (Hd := fun s => bowl_dist q r Rc s Hq Hg). cbn [sources] in *. rewrite map_map. apply Rsum_ext. intros [x y] Hxy. cbv beta iota.
    unfold strength. rewrite Hd by (apply in_map_iff; exists (x, y); split; [reflexivity|exact Hxy]). cbn [s_ds].
    field. repeat split; lra.
  - set (P := disc_xy q r). clearbody P. rewrite <- !Rsum_scal.
    rewrite (Rsum_ext (fun _ => 1000 * p_v q / (2 * PI * Rabs Rc) * (p_dx q * p_dy q * 1))
       (fun _ => p_dt q * (1000 * p_v q * (p_dx q * p_dy q) / (2 * PI * Rabs Rc * p_dt q)))); [reflexivity|].
    intros _ _. field. repeat split; lra.
Qed.

(** The area of a disc. *)
Lemma disc_area r : 0 <= r -> RInt (fun y => 2 * half_disc r y) (- r) r = PI * r^2.
Proof.
  intros Hr. pose proof PI_RGT_0 as HPI.
  assert (E1 : RInt (fun y => 2 * half_disc r y) (r * sin (- (PI / 2))) (r * sin (PI / 2)) =
               RInt (fun t => scal (r * cos t) (2 * half_disc r (r * sin t))) (- (PI / 2)) (PI / 2)).
  { symmetry. apply (RInt_comp (fun y => 2 * half_disc r y) (fun t => r * sin t) (fun t => r * cos t)).
    - intros t _. apply (continuous_scal_r 2 (half_disc r) (r * sin t)). apply half_disc_cont.
    - intros t _. split; [auto_derive; [auto|ring]|].
      apply (continuous_scal_r r cos t). apply continuous_cos. }
  rewrite sin_neg, sin_PI2 in E1. replace (r * - (1)) with (- r) in E1 by ring. rewrite Rmult_1_r in E1. rewrite E1.
  assert (E2 : RInt (fun t => scal (r * cos t) (2 * half_disc r (r * sin t))) (- (PI / 2)) (PI / 2) =
               RInt (fun t => 2 * r^2 * (cos t)^2) (- (PI / 2)) (PI / 2)).
  { apply RInt_ext. intros t Ht. rewrite Rmin_left, Rmax_right in Ht by lra. unfold half_disc.
    assert (Hc : 0 <= cos t) by (apply cos_ge_0; lra).
    replace (r^2 - (r * sin t)^2) with ((r * cos t)^2).
    - rewrite sqrt_pow2 by (apply Rmult_le_pos; auto). change (r * cos t * (2 * (r * cos t)) = 2 * r^2 * (cos t)^2). ring.
    - pose proof (sin2_cos2 t) as E. unfold Rsqr in E. replace (r^2 - (r * sin t)^2) with (r^2 * (1 - sin t * sin t)) by ring.
      rewrite <- E. ring. }
  rewrite E2.
  assert (I : is_RInt (fun t => 2 * r^2 * (cos t)^2) (- (PI / 2)) (PI / 2) (minus (r^2 * (PI / 2 + sin (PI / 2) * cos (PI / 2))) (r^2 * (- (PI / 2) + sin (- (PI / 2)) * cos (- (PI / 2)))))).
  { apply (is_RInt_derive (fun t => r^2 * (t + sin t * cos t))).
    - intros t _. auto_derive; [auto|]. pose proof (sin2_cos2 t) as E. unfold Rsqr in E.
      replace (r * (r * 1) * (1 + (1 * cos t * cos t + sin t * (1 * - sin t)))) with (r * r * ((sin t * sin t + cos t * cos t) + cos t * cos t - sin t * sin t)) by (rewrite E; ring). ring.
    - intros t _. apply (ex_derive_continuous (fun t => 2 * r^2 * (cos t)^2)). auto_derive. auto. }
  rewrite (is_RInt_unique _ _ _ _ I). unfold minus, plus, opp. cbn. rewrite sin_neg, cos_neg, cos_PI2, sin_PI2. field.
Qed.

Lemma grid_area_near q r : 0 < p_dx q -> 0 < p_dy q -> 0 <= r ->
  Rabs (grid_area q r - PI * r^2) <= r * p_dy q + (2 * r + p_dy q / 2) * (2 * sqrt ((r + p_dy q) * p_dy q) + p_dx q / 2).
Proof.
  intros Hx Hy Hr.
  assert (B := region_rule (half_disc r) r r 0 1 (fun _ _ => 1) Hr (fun y => half_disc_range r y Hr) (half_disc_cont r)
    (fun _ => lipschitz_const 1) (fun _ => lipschitz_const 1) (fun _ _ => Req_le _ _ Rabs_R1) (p_dx q) (p_dy q) (sqrt ((r + p_dy q) * p_dy q)) Hx Hy
    (fun y y' H1 H2 => half_disc_osc r (p_dy q) y y' Hr Hy H1 H2)).
  cbv beta in B.
  assert (E : RInt (fun y => RInt (fun _ : R => 1) (- half_disc r y) (half_disc r y)) (- r) r = PI * r^2).
  { rewrite <- (disc_area r Hr). apply RInt_ext. intros y _. rewrite RInt_const. unfold scal. cbn. unfold mult. cbn.
    match goal with |- @eq _ ?A ?B => change (@eq R A B) end. ring. }
  rewrite E, Rabs_minus_sym in B.
  assert (EG : grid_area q r = p_dx q * p_dy q * Rsum (map (fun y => Rsum (map (fun _ => 1) (midpoints (- half_disc r y) (half_disc r y) (p_dx q)))) (midpoints (- r) r (p_dy q)))).
  { unfold grid_area, disc_xy. rewrite Rsum_flat. f_equal. apply Rsum_ext. intros y _. rewrite map_map. reflexivity. }
  rewrite EG. eapply Rle_trans; [exact B|]. right. field.
Qed.
Lemma grid_area_le q r : 0 < p_dx q -> 0 < p_dy q -> 0 <= r -> grid_area q r <= (2 * r + p_dy q / 2) * (2 * r + p_dx q / 2).
Proof.
  intros Hx Hy Hr. pose proof (region_count (half_disc r) r r Hr (fun y => half_disc_range r y Hr) (p_dx q) (p_dy q) Hx Hy) as B.
  eapply Rle_trans; [|exact B]. right. unfold grid_area, disc_xy. rewrite Rsum_flat. f_equal. apply Rsum_ext. intros y _. rewrite map_map. reflexivity.
Qed.

(** C111, what holds: at the centre of curvature the time integral of the
    response tends to the integral over the flat disc: the elements of area are
    not those of the bowl. *)
Theorem C111_sphere_disc_partial : forall fuel c2r fe f nlhs hw env sch junk args r Rc q ntz ps dty dl,
  exact_call c2r fe f nlhs hw env sch args (GSphere r Rc) q ntz ps dty dl -> all_defined fe fuel q ntz (GSphere r Rc) ps dty dl ->
  0 <= r -> Rc <> 0 -> 0 < p_dt q ->
  exists V, returns (gateway fuel c2r fe f nlhs hw env sch junk args) ntz (length ps) V /\
  forall n, (n < length ps)%nat -> nth n ps origin = centre Rc -> inside q ntz (GSphere r Rc) (start_delay dty dl n) (centre Rc) ->
    Rabs (over_time q ntz (V n) - disc_total (p_v q) r Rc) <=
    1000 * Rabs (p_v q) / (2 * PI * Rabs Rc) *
      (r * p_dy q + (2 * r + p_dy q / 2) * (2 * sqrt ((r + p_dy q) * p_dy q) + p_dx q / 2)).
Proof.
  intros fuel c2r fe f nlhs hw env sch junk args r Rc q ntz ps dty dl HC HD Hr HR Hdt.
  eexists. split; [apply call_returns; eassumption|]. cbv beta. intros n Hn Eo Hin. rewrite Eo.
  destruct (HD n Hn) as [Hq Hg _ _ _ _]. pose proof Hq as (Hx & Hy & _ & _).
  rewrite bowl_sum by auto. unfold disc_total.
  match goal with |- Rabs (?c * ?A - ?c * ?B) <= _ => replace (c * A - c * B) with (c * (A - B)) by ring end.
  pose proof (Rabs_pos_lt _ HR) as HR'. pose proof PI_RGT_0 as HPI.
  assert (Hi : 0 < / (2 * PI * Rabs Rc)) by (apply Rinv_0_lt_compat; apply Rmult_lt_0_compat; lra).
  rewrite Rabs_mult. unfold Rdiv at 1. rewrite !Rabs_mult, (Rabs_pos_eq 1000) by lra. rewrite (Rabs_pos_eq (/ (2 * PI * Rabs Rc))) by (left; exact Hi).
  apply Rmult_le_compat_l; [|now apply grid_area_near]. apply Rmult_le_pos; [|left; exact Hi]. apply Rmult_le_pos; [lra|apply Rabs_pos].
Qed.
Print Assumptions C111_sphere_disc_partial.

(** C111 refuted: for a hemisphere the response at the centre stays below 7/10
    of the Rayleigh integral over the bowl however fine the grid. *)
Theorem C111_bowl_integral_refuted : forall fuel c2r fe f nlhs hw env sch junk args Rc q ntz ps dty dl,
  exact_call c2r fe f nlhs hw env sch args (GSphere Rc Rc) q ntz ps dty dl -> all_defined fe fuel q ntz (GSphere Rc Rc) ps dty dl ->
  0 < Rc -> 0 < p_v q -> 0 < p_dt q -> p_dx q <= Rc / 100 -> p_dy q <= Rc / 100 ->
  exists V, returns (gateway fuel c2r fe f nlhs hw env sch junk args) ntz (length ps) V /\
  forall n, (n < length ps)%nat -> nth n ps origin = centre Rc -> inside q ntz (GSphere Rc Rc) (start_delay dty dl n) (centre Rc) ->
    over_time q ntz (V n) <= 7 / 10 * bowl_total (p_v q) Rc Rc.
Proof.
  intros fuel c2r fe f nlhs hw env sch junk args Rc q ntz ps dty dl HC HD HR Hv Hdt Hdx Hdy.
  eexists. split; [apply call_returns; eassumption|]. cbv beta. intros n Hn Eo Hin. rewrite Eo.
  destruct (HD n Hn) as [Hq Hg _ _ _ _]. pose proof Hq as (Hx & Hy & _ & _).
  rewrite bowl_sum by (auto; lra). unfold bowl_total, cap_area.
  rewrite Rminus_eq_0, sqrt_0, Rminus_0_r, (Rabs_pos_eq Rc) by lra.
  pose proof (grid_area_le q Rc Hx Hy ltac:(lra)) as B. pose proof PI2_3_2 as HPI.
  assert (B' : grid_area q Rc <= 7 / 10 * (2 * PI * Rc * Rc)).
  { eapply Rle_trans; [exact B|]. apply Rle_trans with ((2 * Rc + Rc / 200) * (2 * Rc + Rc / 200)).
    - apply Rmult_le_compat; lra.
    - assert (3 * (Rc * Rc) <= PI * (Rc * Rc)) by (apply Rmult_le_compat_r; nra). nra. }
  assert (Hc : 0 <= 1000 * p_v q / (2 * PI * Rc)).
  { apply Rmult_le_pos; [lra|]. left. apply Rinv_0_lt_compat. apply Rmult_lt_0_compat; lra. }
  apply (Rmult_le_compat_l _ _ _ Hc) in B'. eapply Rle_trans; [exact B'|]. right. ring.
Qed.
Print Assumptions C111_bowl_integral_refuted.
