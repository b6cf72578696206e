(** PropField3.v - property theorem C110: the field of a cylindrical
    transducer and of a line. *)
From Coq Require Strings.String Strings.Ascii.
Import Coq.Strings.String.StringSyntax.
From Coq Require Import Reals List ZArith Lra Lia.
From Coquelicot Require Import Coquelicot.
From Verif Require Import Base BaseLemmas ModelSir ModelArr ModelSmp NumR SpecSmp SpecSir SpecRayleigh SpecArr
  ModelGw SpecGw SpecGwR ProofsR ProofsRayleigh ProofsSirR PropSir PropGwR SpecPhys ProofsPhys ProofsRiemann PropPhys PropPhys2
  SpecField ProofsField ProofsField2 PropField SpecField3 ProofsField3.
Import ListNotations.
Open Scope R_scope.

(** C110: dreamcylind, concave or convex. *)
Theorem C110_cylinder : forall fuel c2r fe f nlhs hw env sch junk args a b Rc q ntz ps dty dl,
  exact_call c2r fe f nlhs hw env sch args (GCylind a b Rc) q ntz ps dty dl -> all_defined fe fuel q ntz (GCylind a b Rc) ps dty dl ->
  0 <= a -> 0 <= b -> 0 < p_dt q -> 0 < p_cp q ->
  exists V, returns (gateway fuel c2r fe f nlhs hw env sch junk args) ntz (length ps) V /\
  forall n, (n < length ps)%nat -> 0 < clearance Rc (nth n ps origin) ->
    inside q ntz (GCylind a b Rc) (start_delay dty dl n) (nth n ps origin) ->
    forall phi L M, smooth L M phi ->
    Rabs (observed q ntz (start_delay dty dl n) (V n) phi - radiated_cyl (p_cp q) (p_v q) a b Rc (nth n ps origin) phi)
    <= cylinder_error q a b Rc (nth n ps origin) L M.
Proof.
  intros fuel c2r fe f nlhs hw env sch junk args a b Rc q ntz ps dty dl HC HD Ha Hb Hdt Hcp.
  eexists. split; [apply call_returns; eassumption|]. cbv beta. intros n Hn Hz Hin phi L M Hphi.
  destruct (HD n Hn) as [Hq Hg _ _ _ _]. now apply cyl_bound.
Qed.
Print Assumptions C110_cylinder.

(** C110: dreamline, a strip one step wide. *)
Theorem C110_line : forall fuel c2r fe f nlhs hw env sch junk args a q ntz ps dty dl,
  exact_call c2r fe f nlhs hw env sch args (GLine a) q ntz ps dty dl -> all_defined fe fuel q ntz (GLine a) ps dty dl ->
  0 <= a -> 0 < p_dt q -> 0 < p_cp q ->
  exists V, returns (gateway fuel c2r fe f nlhs hw env sch junk args) ntz (length ps) V /\
  forall n, (n < length ps)%nat -> 0 < off_axis (nth n ps origin) ->
    inside q ntz (GLine a) (start_delay dty dl n) (nth n ps origin) ->
    forall phi L M, smooth L M phi ->
    Rabs (observed q ntz (start_delay dty dl n) (V n) phi - radiated_line (p_cp q) (p_v q) a (p_dy q) (nth n ps origin) phi)
    <= line_error q a (nth n ps origin) L M.
Proof.
  intros fuel c2r fe f nlhs hw env sch junk args a q ntz ps dty dl HC HD Ha Hdt Hcp.
  eexists. split; [apply call_returns; eassumption|]. cbv beta. intros n Hn Hz Hin phi L M Hphi.
  destruct (HD n Hn) as [Hq _ _ _ _ _]. now apply line_bound.
Qed.
Print Assumptions C110_line.

(** The bounds go to 0. *)
Lemma patch_error_small C d lam tau H S L M : 0 <= C -> 0 < d -> 0 <= lam -> 0 <= tau -> 0 <= H -> 0 <= S -> 0 <= L -> 0 <= M ->
  exists K, 0 <= K /\ forall dx du dt h, 0 < dx <= h -> 0 < du <= h -> 0 < dt <= h -> h <= 1 ->
    patch_error C d lam tau H S dx du dt L M <= K * h.
Proof.
  intros HC Hd Hl Ht HH HS HL HM.
  set (amp := C * M / d). set (slope := C * (lam * M / d^2 + L * tau / d)). set (c := C / d * L).
  assert (Hi : 0 < / d) by now apply Rinv_0_lt_compat. assert (Hi2 : 0 < / d^2) by (apply Rinv_0_lt_compat; nra).
  assert (Hamp : 0 <= amp) by (unfold amp; apply Rmult_le_pos; [nra|lra]).
  assert (Hsl : 0 <= slope).
  { unfold slope. apply Rmult_le_pos; auto. apply Rplus_le_le_0_compat; apply Rmult_le_pos; nra. }
  assert (Hc : 0 <= c) by (unfold c; apply Rmult_le_pos; auto; apply Rmult_le_pos; lra).
  set (A := (2 * H + 1) * (2 * S + 1)). assert (HA : 0 <= A) by (unfold A; apply Rmult_le_pos; lra).
  set (B := S * slope + (amp + (2 * S + 1) * slope)).
  assert (HB : 0 <= B) by (unfold B; assert (0 <= S * slope) by (apply Rmult_le_pos; auto); nra).
  exists (c * A + (S * amp + (2 * H + 1) * B)). split.
  { apply Rplus_le_le_0_compat; [|apply Rplus_le_le_0_compat]; apply Rmult_le_pos; lra. }
  intros dx du dt h Hx Hu Hdt Hh. unfold patch_error. fold amp slope.
  assert (T1 : C / d * (L * dt / 2) * ((2 * H + du / 2) * (2 * S + dx / 2)) <= c * A * h).
  { replace (C / d * (L * dt / 2) * ((2 * H + du / 2) * (2 * S + dx / 2))) with (c * ((2 * H + du / 2) * (2 * S + dx / 2)) * (dt / 2)) by (unfold c; field; lra).
    apply Rmult_le_compat; try lra.
    - apply Rmult_le_pos; auto. apply Rmult_le_pos; lra.
    - apply Rmult_le_compat_l; auto. unfold A. apply Rmult_le_compat; lra. }
  assert (T2 : S * amp * du <= S * amp * h) by (apply Rmult_le_compat_l; [apply Rmult_le_pos; auto|lra]).
  assert (W1 : 0 <= S * slope * du) by (apply Rmult_le_pos; [apply Rmult_le_pos; auto|lra]).
  assert (W2 : 0 <= amp * (dx / 2)) by (apply Rmult_le_pos; lra).
  assert (W3 : 0 <= slope * (dx / 2)) by (apply Rmult_le_pos; lra).
  assert (W4 : 0 <= (2 * S + dx / 2) * (slope * dx / 2)).
  { replace (slope * dx / 2) with (slope * (dx / 2)) by field. apply Rmult_le_pos; lra. }
  assert (T3 : S * slope * du + (amp * (dx / 2) + (2 * S + dx / 2) * (slope * dx / 2)) <= B * h).
  { assert (U2 : S * slope * du <= S * slope * h) by (apply Rmult_le_compat_l; [apply Rmult_le_pos; auto|lra]).
    assert (U3 : amp * (dx / 2) <= amp * h) by (apply Rmult_le_compat_l; lra).
    assert (U4 : (2 * S + dx / 2) * (slope * dx / 2) <= (2 * S + 1) * (slope * h)).
    { replace (slope * dx / 2) with (slope * (dx / 2)) by field. apply Rmult_le_compat; try lra. apply Rmult_le_compat_l; lra. }
    unfold B. lra. }
  assert (T4 : (2 * H + du / 2) * (S * slope * du + (amp * (dx / 2) + (2 * S + dx / 2) * (slope * dx / 2))) <= (2 * H + 1) * (B * h))
    by (apply Rmult_le_compat; lra).
  lra.
Qed.

Lemma asin_small u : 0 < u <= 1 / 2 -> asin u <= 2 * u.
Proof.
  intros Hu. assert (H0 : 0 < asin u) by (apply asin_pos; lra).
  assert (H1 : asin u <= PI / 6).
  { pose proof PI_RGT_0. pose proof (asin_bound u). apply sin_incr_0; try lra.
    rewrite sin_asin by lra. rewrite sin_PI6. lra. }
  destruct (MVT_cor2 sin cos 0 (asin u) H0) as (c & E & Hc); [intros; apply derivable_pt_lim_sin|].
  rewrite sin_0, sin_asin in E by lra.
  assert (1 / 2 <= cos c).
  { rewrite <- cos_PI3. pose proof PI_RGT_0. apply cos_decr_1; lra. }
  nra.
Qed.

(** C110: convergence of dreamcylind. *)
Theorem C110_cylinder_convergence : forall a b Rc cp v o phi L M eps,
  0 <= a -> 0 <= b -> Rc <> 0 -> 0 < cp -> 0 < clearance Rc o -> smooth L M phi -> 0 < eps ->
  exists h, 0 < h /\ forall fuel c2r fe f nlhs hw env sch junk args q ntz ps dty dl,
  exact_call c2r fe f nlhs hw env sch args (GCylind a b Rc) q ntz ps dty dl -> all_defined fe fuel q ntz (GCylind a b Rc) ps dty dl ->
  p_cp q = cp -> p_v q = v -> p_dx q < h -> p_dy q < h -> 0 < p_dt q < h ->
  exists V, returns (gateway fuel c2r fe f nlhs hw env sch junk args) ntz (length ps) V /\
  forall n, (n < length ps)%nat -> nth n ps origin = o -> inside q ntz (GCylind a b Rc) (start_delay dty dl n) o ->
    Rabs (observed q ntz (start_delay dty dl n) (V n) phi - radiated_cyl cp v a b Rc o phi) < eps.
Proof.
  intros a b Rc cp v o phi L M eps Ha Hb HR Hcp Hcl Hphi Heps.
  assert (HL : 0 <= L) by exact (lip_pos L phi (proj2 Hphi)).
  assert (HM : 0 <= M) by (eapply Rle_trans; [apply Rabs_pos|apply (proj1 Hphi 0)]).
  pose proof (Rabs_pos_lt _ HR) as HR'. pose proof PI_RGT_0 as HPI.
  set (C := Rabs Rc * (1000 * Rabs v / (2 * PI))).
  assert (HC : 0 <= C).
  { unfold C. apply Rmult_le_pos; [lra|]. apply Rmult_le_pos; [|left; apply Rinv_0_lt_compat; lra]. apply Rmult_le_pos; [lra|apply Rabs_pos]. }
  set (tau := 1000 * (1 + Rabs Rc) / cp).
  assert (Htau : 0 <= tau) by (unfold tau; apply Rmult_le_pos; [lra|left; now apply Rinv_0_lt_compat]).
  destruct (Rle_dec 0 (half_angle b Rc)) as [HH|HH].
  2: { (* half_angle is nonnegative whenever a call is defined *)
    exists 1. split; [lra|]. intros fuel c2r fe f nlhs hw env sch junk args q ntz ps dty dl HCc HD.
    intros Ecp Ev _ _ Ht. destruct (C110_cylinder fuel c2r fe f nlhs hw env sch junk args a b Rc q ntz ps dty dl HCc HD Ha Hb ltac:(lra) ltac:(lra)) as (V & HV & _).
    exists V. split; [exact HV|]. intros n Hn. exfalso. apply HH. destruct (HD n Hn) as [_ [Hg1 _] _ _ _ _].
    apply asin_nonneg. rewrite (Rabs_pos_eq (b / 2)) in Hg1 by lra. split.
    - apply Rmult_le_pos; [lra|left; now apply Rinv_0_lt_compat].
    - apply Rmult_le_reg_r with (Rabs Rc); auto. unfold Rdiv. rewrite (Rmult_assoc (b * / 2)), Rinv_l by lra. lra. }
  destruct (patch_error_small C (clearance Rc o) (1 + Rabs Rc) tau (half_angle b Rc) (a / 2) L M HC Hcl ltac:(lra) Htau HH ltac:(lra) HL HM) as (K & HK & HE).
  set (h0 := eps / (K + 1)). assert (Hh0 : 0 < h0) by (apply Rdiv_lt_0_compat; lra).
  set (h1 := Rmin 1 h0). assert (Hh1 : 0 < h1) by (apply Rmin_pos; lra).
  set (h := Rmin (Rmin h1 (Rabs Rc / 2)) (h1 * Rabs Rc / 2)).
  assert (Hh : 0 < h).
  { assert (0 < h1 * Rabs Rc) by (apply Rmult_lt_0_compat; lra). unfold h. repeat apply Rmin_pos; lra. }
  assert (Ha1 : h <= h1) by (unfold h; eapply Rle_trans; [apply Rmin_l|apply Rmin_l]).
  assert (Ha2 : h <= Rabs Rc / 2) by (unfold h; eapply Rle_trans; [apply Rmin_l|apply Rmin_r]).
  assert (Ha3 : h <= h1 * Rabs Rc / 2) by (unfold h; apply Rmin_r).
  clearbody h. exists h. split; auto.
  intros fuel c2r fe f nlhs hw env sch junk args q ntz ps dty dl HCc HD Ecp Ev Hx Hy Ht.
  destruct (C110_cylinder fuel c2r fe f nlhs hw env sch junk args a b Rc q ntz ps dty dl HCc HD Ha Hb ltac:(lra) ltac:(lra)) as (V & HV & H).
  exists V. split; [exact HV|]. intros n Hn Eo Hin. subst o.
  destruct (HD n Hn) as [(Hx0 & Hy0 & _ & _) _ _ _ _ _].
  specialize (H n Hn Hcl Hin phi L M Hphi). rewrite Ecp, Ev in H. eapply Rle_lt_trans; [exact H|].
  unfold cylinder_error. rewrite Ecp, Ev. fold C tau.
  assert (Hu : 0 < p_dy q / Rabs Rc <= 1 / 2).
  { split; [apply Rdiv_lt_0_compat; lra|]. apply Rmult_le_reg_r with (Rabs Rc); auto. unfold Rdiv at 1. rewrite Rmult_assoc, Rinv_l by lra. lra. }
  assert (Hdu : 0 < asin (p_dy q / Rabs Rc) <= h1).
  { split; [apply asin_pos; lra|]. eapply Rle_trans; [now apply asin_small|].
    apply Rmult_le_reg_r with (Rabs Rc); auto. replace (2 * (p_dy q / Rabs Rc) * Rabs Rc) with (2 * p_dy q) by (field; lra). lra. }
  eapply Rle_lt_trans; [apply (HE (p_dx q) (asin (p_dy q / Rabs Rc)) (p_dt q) h1); try lra; apply Rmin_l|].
  apply Rle_lt_trans with (K * h0); [apply Rmult_le_compat_l; auto; apply Rmin_r|].
  unfold h0. apply Rmult_lt_reg_r with (K + 1); [lra|].
  replace (K * (eps / (K + 1)) * (K + 1)) with (K * eps) by (field; lra). nra.
Qed.
Print Assumptions C110_cylinder_convergence.
