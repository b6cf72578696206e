(** ProofsField3.v - the discretised Rayleigh integral of a surface patch
    parametrised by a rectangle; the cylinder. *)
From Coq Require Import Reals Lra Lia List ZArith.
From Coquelicot Require Import Coquelicot.
From Verif Require Import Base ModelSir ModelArr NumR SpecRayleigh ProofsR ProofsRayleigh ProofsSirR SpecPhys ProofsPhys ProofsRiemann
  SpecField ProofsField ProofsField2 SpecField3.
Import ListNotations.
Open Scope R_scope.

Section Patch.
Variables (o : pos) (v k d lam tau L M : R) (D T : R -> R -> R) (phi : R -> R).
Let C := k * (1000 * Rabs v / (2 * PI)).
Hypothesis (Hk : 0 <= k) (Hd : 0 < d) (HD : forall x u, d <= D x u).
Hypothesis (Dx : forall u, lipschitz lam (fun x => D x u)) (Du : forall x, lipschitz lam (fun u => D x u)).
Hypothesis (Tx : forall u, lipschitz tau (fun x => T x u)) (Tu : forall x, lipschitz tau (fun u => T x u)).
Hypothesis (Hphi : smooth L M phi).
Definition pamp (x u : R) : R := k * (1000 * v / (2 * PI * D x u)).
Definition pint (x u : R) : R := k * (1000 * v / (2 * PI * D x u) * phi (T x u)).

Lemma pC : Rabs (k * (1000 * v / (2 * PI))) = C.
Proof.
  unfold C, Rdiv. pose proof PI_RGT_0. rewrite !Rabs_mult. rewrite (Rabs_pos_eq k) by auto.
  rewrite (Rabs_pos_eq 1000), (Rabs_pos_eq (/ (2 * PI))); [reflexivity| |lra]. left. apply Rinv_0_lt_compat. lra.
Qed.
Lemma pC0 : 0 <= C. Proof. rewrite <- pC. apply Rabs_pos. Qed.
Lemma pamp_split x u : pamp x u = k * (1000 * v / (2 * PI)) * / D x u.
Proof. unfold pamp. pose proof (HD x u). pose proof PI_RGT_0. field. split; lra. Qed.
Lemma pamp_bound x u : Rabs (pamp x u) <= C / d.
Proof.
  rewrite pamp_split, Rabs_mult, pC. pose proof (HD x u). apply Rmult_le_compat_l; [apply pC0|].
  rewrite Rabs_pos_eq by (left; apply Rinv_0_lt_compat; lra). apply Rinv_le_contravar; lra.
Qed.
Lemma inv_lip l f : (forall x, d <= f x) -> lipschitz l f -> lipschitz (l / d^2) (fun x => / f x).
Proof.
  intros Hf H x y. pose proof (Hf x) as A. pose proof (Hf y) as B.
  replace (/ f x - / f y) with ((f y - f x) * / (f x * f y)) by (field; lra).
  assert (P : 0 < f x * f y) by nra.
  rewrite Rabs_mult, (Rabs_pos_eq (/ (f x * f y))) by (left; now apply Rinv_0_lt_compat).
  replace (l / d^2 * Rabs (x - y)) with (l * Rabs (x - y) * / d^2) by (unfold Rdiv; ring).
  rewrite (Rabs_minus_sym (f y)). apply Rmult_le_compat; auto using Rabs_pos.
  - left; now apply Rinv_0_lt_compat.
  - apply Rinv_le_contravar; nra.
Qed.
Lemma pamp_lip_x u : lipschitz (C * (lam / d^2)) (fun x => pamp x u).
Proof.
  intros x y. rewrite !pamp_split, <- pC. apply (lip_cscal _ (lam / d^2) (fun x => / D x u)). apply inv_lip; auto.
Qed.
Lemma pamp_lip_u x : lipschitz (C * (lam / d^2)) (fun u => pamp x u).
Proof.
  intros u y. rewrite !pamp_split, <- pC. apply (lip_cscal _ (lam / d^2) (fun u => / D x u)). apply inv_lip; auto.
Qed.
Let slope := C * (lam * M / d^2 + L * tau / d).
Lemma pslope : slope = C * (lam / d^2) * M + C / d * (L * tau).
Proof. unfold slope. field. lra. Qed.
Lemma pint_split x u : pint x u = pamp x u * phi (T x u).
Proof. unfold pint, pamp. ring. Qed.
Lemma pint_lip_x u : lipschitz slope (fun x => pint x u).
Proof.
  intros x y. rewrite !pint_split, pslope. destruct Hphi as [HM HL].
  apply (lipschitz_mult (C * (lam / d^2)) (L * tau) (C / d) M (fun x => pamp x u) (fun x => phi (T x u)) (pamp_lip_x u)).
  - apply (lipschitz_comp L tau phi); [exact HL|apply Tx].
  - intros z. apply pamp_bound.
  - intros z. apply HM.
Qed.
Lemma pint_lip_u x : lipschitz slope (fun u => pint x u).
Proof.
  intros u y. rewrite !pint_split, pslope. destruct Hphi as [HM HL].
  apply (lipschitz_mult (C * (lam / d^2)) (L * tau) (C / d) M (fun u => pamp x u) (fun u => phi (T x u)) (pamp_lip_u x)).
  - apply (lipschitz_comp L tau phi); [exact HL|apply Tu].
  - intros z. apply pamp_bound.
  - intros z. apply HM.
Qed.
Lemma pint_bound x u : Rabs (pint x u) <= C * M / d.
Proof.
  rewrite pint_split, Rabs_mult. replace (C * M / d) with (C / d * M) by (unfold Rdiv; ring).
  apply Rmult_le_compat; auto using Rabs_pos, pamp_bound. apply (proj1 Hphi).
Qed.

(** The rounding of the arrival times. P the grid, mk the sources. *)
Variables (q : rpar) (delay du : R) (mk : R -> R -> source).
Hypothesis (Hdt : 0 < p_dt q) (Hdx : 0 < p_dx q) (Hdu : 0 < du) (Ev : p_v q = v).
Hypothesis (Hmk : forall x u, SpecRayleigh.dist o (mk x u) = D x u /\ s_ds (mk x u) = k * p_dx q * du).
Lemma patch_time P : (forall x u, In (x, u) P -> arrival q delay o (mk x u) = (T x u - delay) / p_dt q) ->
  Rabs (p_dt q * Rsum (map (fun s => strength q 1 o s * phi (delay + IZR (arrives_at q delay o s) * p_dt q)) (map (fun '(x, u) => mk x u) P)) -
        p_dx q * du * Rsum (map (fun '(x, u) => pint x u) P))
  <= C / d * (L * p_dt q / 2) * (p_dx q * du * Rsum (map (fun _ => 1) P)).
Proof.
  intros Harr. rewrite map_map, <- !Rsum_scal.
  assert (HL0 : 0 <= L) by exact (lip_pos L phi (proj2 Hphi)). pose proof PI_RGT_0 as HPI.
  apply Rsum_dev. intros [x u] Hxu. cbv beta iota. specialize (Harr x u Hxu).
  unfold arrives_at. rewrite Harr. destruct (Hmk x u) as [Ed Es].
  pose proof (Zrint_near ((T x u - delay) / p_dt q)) as Hr. set (n := Zrint _) in *.
  assert (Ht : Rabs (delay + IZR n * p_dt q - T x u) <= p_dt q / 2).
  { replace (delay + IZR n * p_dt q - T x u) with (- (((T x u - delay) / p_dt q - IZR n) * p_dt q)) by (field; lra).
    rewrite Rabs_Ropp, Rabs_mult, (Rabs_pos_eq (p_dt q)) by lra. apply (Rmult_le_compat_r (p_dt q)) in Hr; lra. }
  assert (Est : p_dt q * (strength q 1 o (mk x u) * phi (delay + IZR n * p_dt q)) =
                p_dx q * du * (pamp x u * phi (delay + IZR n * p_dt q))).
  { unfold strength. rewrite Ed, Es, Ev. unfold pamp. pose proof (HD x u). field. repeat split; lra. }
  rewrite Est, pint_split.
  match goal with |- Rabs (?E * (?A * ?u) - ?E * (?A * ?w)) <= _ =>
    replace (E * (A * u) - E * (A * w)) with (E * (A * (u - w))) by ring end.
  rewrite !Rabs_mult. rewrite (Rabs_pos_eq (p_dx q)), (Rabs_pos_eq du) by lra.
  replace (C / d * (L * p_dt q / 2) * (p_dx q * du * 1)) with (p_dx q * du * (C / d * (L * (p_dt q / 2)))) by (unfold Rdiv; ring).
  apply Rmult_le_compat_l; [nra|]. apply Rmult_le_compat; auto using Rabs_pos, pamp_bound.
  eapply Rle_trans; [apply (proj2 Hphi)|]. now apply Rmult_le_compat_l.
Qed.

Variables (H S : R).
Hypothesis (HH : 0 <= H) (HS : 0 <= S).
Lemma patch_bound ntz src :
  src = map (fun '(x, u) => mk x u) (flat_map (fun u => map (fun x => (x, u)) (midpoints (- S) S (p_dx q))) (midpoints (- H) H du)) ->
  (forall x u, In (mk x u) src -> arrival q delay o (mk x u) = (T x u - delay) / p_dt q) ->
  (forall s, In s src -> (0 <= arrives_at q delay o s < ntz)%Z) ->
  Rabs (observed q ntz delay (fun j => rayleigh q 1 delay o src (Z.of_nat j)) phi - RInt (fun u => RInt (fun x => pint x u) (- S) S) (- H) H)
  <= patch_error C d lam tau H S (p_dx q) du (p_dt q) L M.
Proof.
  intros Esrc Harr Hin. rewrite observed_sources by auto. subst src.
  set (P := flat_map _ _) in *.
  assert (D1 := patch_time P (fun x u Hxu => Harr x u (in_map (fun '(x, u) => mk x u) P (x, u) Hxu))).
  assert (E1 : p_dx q * du * Rsum (map (fun _ => 1) P) <= (2 * H + du / 2) * (2 * S + p_dx q / 2)).
  { unfold P. rewrite Rsum_flat.
    pose proof (region_count (fun _ => S) H S HH (fun _ => conj HS (Rle_refl S)) (p_dx q) du Hdx Hdu) as B.
    eapply Rle_trans; [|exact B]. right. f_equal. apply Rsum_ext. intros y _. rewrite map_map. reflexivity. }
  assert (EP : Rsum (map (fun '(x, u) => pint x u) P) = Rsum (map (fun u => Rsum (map (fun x => pint x u) (midpoints (- S) S (p_dx q)))) (midpoints (- H) H du))).
  { unfold P. rewrite Rsum_flat. apply Rsum_ext. intros u _. rewrite map_map. reflexivity. }
  rewrite EP in D1.
  assert (D2 := region_rule (fun _ => S) H S _ _ pint HH (fun _ => conj HS (Rle_refl S)) (fun y => continuous_const S y)
    pint_lip_x pint_lip_u pint_bound (p_dx q) du 0 Hdx Hdu).
  specialize (D2 ltac:(intros; rewrite Rminus_eq_0, Rabs_R0; lra)). cbv beta in D2. fold slope in D2.
  rewrite Rabs_minus_sym in D2. unfold patch_error. fold slope.
  match goal with |- Rabs (?A - ?B) <= _ => match type of D1 with Rabs (_ - ?Q) <= _ => replace (A - B) with ((A - Q) + (Q - B)) by ring end end.
  eapply Rle_trans; [apply Rabs_triang|]. apply Rplus_le_compat.
  - eapply Rle_trans; [exact D1|]. apply Rmult_le_compat_l; [|exact E1].
    assert (HL0 : 0 <= L) by exact (lip_pos L phi (proj2 Hphi)). apply Rmult_le_pos.
    + apply Rmult_le_pos; [apply pC0|]. left. now apply Rinv_0_lt_compat.
    + apply Rmult_le_pos; [apply Rmult_le_pos; lra|lra].
  - eapply Rle_trans; [exact D2|]. right. ring.
Qed.
End Patch.

(** ** Euclidean norms. *)
Definition norm3 (a b c : R) : R := sqrt (a^2 + b^2 + c^2).
Lemma norm3_sq a b c : norm3 a b c * norm3 a b c = a^2 + b^2 + c^2.
Proof. unfold norm3. apply sqrt_sqrt. pose proof (pow2_ge_0 a). pose proof (pow2_ge_0 b). pose proof (pow2_ge_0 c). lra. Qed.
Lemma norm3_lip a b c a' b' c' : Rabs (norm3 a b c - norm3 a' b' c') <= norm3 (a - a') (b - b') (c - c').
Proof.
  assert (Pn : forall x y z, 0 <= norm3 x y z) by (intros; apply sqrt_pos).
  rewrite <- (Rabs_pos_eq (norm3 (a - a') (b - b') (c - c'))) by auto. apply Rsqr_le_abs_0. unfold Rsqr.
  rewrite norm3_sq. replace ((norm3 a b c - norm3 a' b' c') * (norm3 a b c - norm3 a' b' c')) with
    (norm3 a b c * norm3 a b c + norm3 a' b' c' * norm3 a' b' c' - 2 * (norm3 a b c * norm3 a' b' c')) by ring.
  assert (CS : a * a' + b * b' + c * c' <= norm3 a b c * norm3 a' b' c').
  { assert (0 <= norm3 a b c * norm3 a' b' c') by (apply Rmult_le_pos; auto).
    destruct (Rle_dec (a * a' + b * b' + c * c') 0); [lra|]. apply Rsqr_incr_0_var; auto. unfold Rsqr.
    replace ((norm3 a b c * norm3 a' b' c') * (norm3 a b c * norm3 a' b' c')) with ((norm3 a b c * norm3 a b c) * (norm3 a' b' c' * norm3 a' b' c')) by ring.
    rewrite !norm3_sq.
    assert (0 <= (a * b' - b * a')^2 + (a * c' - c * a')^2 + (b * c' - c * b')^2)
      by (pose proof (pow2_ge_0 (a * b' - b * a')); pose proof (pow2_ge_0 (a * c' - c * a')); pose proof (pow2_ge_0 (b * c' - c * b')); lra).
    nra. }
  rewrite !norm3_sq. nra.
Qed.
Lemma abs_sin_le t : Rabs (sin t) <= Rabs t.
Proof.
  assert (A : forall x, 0 < x -> Rabs (sin x) <= x).
  { intros x Hx. apply Rabs_le. split; [|left; now apply sin_lt_x].
    destruct (Rle_dec x PI) as [H|H].
    - pose proof (sin_ge_0 x ltac:(lra) H). lra.
    - pose proof (SIN_bound x). pose proof PI2_1. lra. }
  destruct (Rtotal_order t 0) as [H|[->|H]].
  - rewrite <- (Rabs_Ropp (sin t)), <- sin_neg, (Rabs_left t) by auto. apply A. lra.
  - rewrite sin_0, Rabs_R0. lra.
  - rewrite (Rabs_pos_eq t) by lra. now apply A.
Qed.
Lemma chord u w : (sin u - sin w)^2 + (cos u - cos w)^2 <= (u - w)^2.
Proof.
  replace ((sin u - sin w)^2 + (cos u - cos w)^2) with ((sin u)^2 + (cos u)^2 + ((sin w)^2 + (cos w)^2) - 2 * (cos u * cos w + sin u * sin w)) by ring.
  rewrite <- cos_minus. pose proof (sin2_cos2 u) as E1. pose proof (sin2_cos2 w) as E2. unfold Rsqr in *.
  replace ((sin u)^2 + (cos u)^2) with 1 by (rewrite <- E1; ring). replace ((sin w)^2 + (cos w)^2) with 1 by (rewrite <- E2; ring).
  replace (u - w) with (2 * ((u - w) / 2)) at 1 by field. rewrite cos_2a_sin.
  pose proof (abs_sin_le ((u - w) / 2)) as B. apply Rsqr_le_abs_1 in B. unfold Rsqr in B. nra.
Qed.

Lemma cyl_dist Rc o x u : distance o (on_cylinder Rc x u) = norm3 (p_x o - x) (p_y o - Rabs Rc * sin u) (p_z o - Rc * (1 - cos u)).
Proof. reflexivity. Qed.
Lemma cyl_lip_x Rc o u : lipschitz 1 (fun x => distance o (on_cylinder Rc x u)).
Proof.
  intros x y. rewrite !cyl_dist. eapply Rle_trans; [apply norm3_lip|]. rewrite Rmult_1_l. unfold norm3.
  match goal with |- sqrt ?A <= _ => replace A with ((x - y)^2) by ring end.
  rewrite <- (pow2_abs (x - y)). rewrite sqrt_pow2 by apply Rabs_pos. lra.
Qed.
Lemma cyl_lip_u Rc o x : lipschitz (Rabs Rc) (fun u => distance o (on_cylinder Rc x u)).
Proof.
  intros u w. rewrite !cyl_dist. eapply Rle_trans; [apply norm3_lip|]. unfold norm3.
  pose proof (chord u w) as B.
  match goal with |- sqrt ?A <= _ => replace A with (Rabs Rc ^2 * (sin u - sin w)^2 + Rc^2 * (cos u - cos w)^2) by ring end.
  rewrite pow2_abs, <- Rmult_plus_distr_l.
  rewrite <- Rabs_mult. rewrite <- (sqrt_pow2 (Rabs (Rc * (u - w)))) by apply Rabs_pos. apply sqrt_le_1_alt.
  rewrite pow2_abs. rewrite Rpow_mult_distr. apply Rmult_le_compat_l; auto. apply pow2_ge_0.
Qed.
Lemma cyl_clear Rc o x u : clearance Rc o <= distance o (on_cylinder Rc x u).
Proof.
  rewrite cyl_dist. unfold clearance.
  assert (E1 : sqrt (p_y o ^2 + (p_z o - Rc)^2) = norm3 0 (p_y o) (p_z o - Rc)) by (unfold norm3; f_equal; ring).
  assert (E2 : Rabs Rc = norm3 0 (Rabs Rc * sin u) (- Rc * cos u)).
  { unfold norm3. transitivity (sqrt (Rabs Rc ^2)); [symmetry; apply sqrt_pow2; apply Rabs_pos|]. f_equal.
    rewrite !Rpow_mult_distr, !pow2_abs. pose proof (sin2_cos2 u) as E. unfold Rsqr in E.
    replace (0^2 + Rc^2 * (sin u)^2 + (- Rc)^2 * (cos u)^2) with (Rc^2 * (sin u * sin u + cos u * cos u)) by ring. rewrite E. ring. }
  rewrite E1. rewrite E2 at 1. eapply Rle_trans; [apply norm3_lip|]. unfold norm3. apply sqrt_le_1_alt.
  replace ((0 - 0)^2) with 0 by ring.
  replace (p_z o - Rc - - Rc * cos u) with (p_z o - Rc * (1 - cos u)) by ring. pose proof (pow2_ge_0 (p_x o - x)).
  pose proof (pow2_ge_0 (p_z o - Rc * (1 - cos u))). lra.
Qed.

(** ** The cylinder and the line. *)
Lemma cyl_sources q a b Rc : 
  sources q (GCylind a b Rc) = map (fun '(x, u) => {| s_x := x; s_y := Rabs Rc * sin u; s_z := Rc * (1 - cos u);
      s_ds := Rabs Rc * p_dx q * asin (p_dy q / Rabs Rc); s_tau := 0 |})
    (flat_map (fun u => map (fun x => (x, u)) (midpoints (- (a / 2)) (a / 2) (p_dx q)))
       (midpoints (- half_angle b Rc) (half_angle b Rc) (asin (p_dy q / Rabs Rc)))).
Proof.
  cbn [sources]. rewrite flat_map_concat_map, flat_map_concat_map, concat_map, map_map. f_equal. apply map_ext. intros u.
  rewrite map_map. replace (- a / 2) with (- (a / 2)) by field. apply map_ext. intros x. f_equal.
  unfold Rleb. destruct (Rle_dec 0 Rc); [rewrite Rabs_pos_eq by auto; reflexivity|]. rewrite Rabs_left by lra. ring.
Qed.
Lemma asin_nonneg x : 0 <= x <= 1 -> 0 <= asin x.
Proof. intros [[H|<-] H1]; [left; now apply asin_pos|rewrite asin_0; lra]. Qed.

Lemma cyl_bound q ntz delay a b Rc o phi L M : par_ok q -> geom_ok q (GCylind a b Rc) -> 0 < p_dt q -> 0 < p_cp q -> 0 <= a -> 0 <= b ->
  0 < clearance Rc o -> inside q ntz (GCylind a b Rc) delay o -> smooth L M phi ->
  Rabs (observed q ntz delay (fun k => rayleigh q 1 delay o (sources q (GCylind a b Rc)) (Z.of_nat k)) phi - radiated_cyl (p_cp q) (p_v q) a b Rc o phi)
  <= cylinder_error q a b Rc o L M.
Proof.
  intros Hq Hg Hdt Hcp Ha Hb Hcl Hin Hphi. pose proof Hq as (Hx & Hy & _ & _). pose proof Hg as [Hg1 Hg2].
  pose proof (Rabs_pos Rc) as HR. assert (HR' : 0 < Rabs Rc) by lra.
  assert (P : 0 < 1000 / p_cp q) by (apply Rdiv_lt_0_compat; lra).
  set (D := fun x u => distance o (on_cylinder Rc x u)).
  assert (Dx : forall u, lipschitz (1 + Rabs Rc) (fun x => D x u)) by (intros u; apply (lipschitz_weak 1); [lra|apply cyl_lip_x]).
  assert (Du : forall x, lipschitz (1 + Rabs Rc) (fun u => D x u)) by (intros x; apply (lipschitz_weak (Rabs Rc)); [lra|apply cyl_lip_u]).
  assert (TL : forall f, lipschitz (1 + Rabs Rc) f -> lipschitz (1000 * (1 + Rabs Rc) / p_cp q) (fun x => 1000 * f x / p_cp q)).
  { intros f Hf x y. replace (1000 * f x / p_cp q - 1000 * f y / p_cp q) with (1000 / p_cp q * (f x - f y)) by (field; lra).
    rewrite Rabs_mult, (Rabs_pos_eq (1000 / p_cp q)) by lra.
    replace (1000 * (1 + Rabs Rc) / p_cp q * Rabs (x - y)) with (1000 / p_cp q * ((1 + Rabs Rc) * Rabs (x - y))) by (field; lra).
    apply Rmult_le_compat_l; [lra|apply Hf]. }
  assert (Hdu : 0 < asin (p_dy q / Rabs Rc)).
  { apply asin_pos. split; [apply Rdiv_lt_0_compat; lra|]. apply Rmult_le_reg_r with (Rabs Rc); auto. unfold Rdiv. rewrite Rmult_assoc, Rinv_l by lra. lra. }
  assert (HH : 0 <= half_angle b Rc).
  { apply asin_nonneg. rewrite (Rabs_pos_eq (b / 2)) in Hg1 by lra. split.
    - apply Rmult_le_pos; [lra|left; now apply Rinv_0_lt_compat].
    - apply Rmult_le_reg_r with (Rabs Rc); auto. unfold Rdiv. rewrite (Rmult_assoc (b * / 2)), Rinv_l by lra. lra. }
  set (mk := fun x u => {| s_x := x; s_y := Rabs Rc * sin u; s_z := Rc * (1 - cos u);
      s_ds := Rabs Rc * p_dx q * asin (p_dy q / Rabs Rc); s_tau := 0 |}).
  assert (B := patch_bound o (p_v q) (Rabs Rc) (clearance Rc o) (1 + Rabs Rc) (1000 * (1 + Rabs Rc) / p_cp q) L M D
    (fun x u => 1000 * D x u / p_cp q) phi HR Hcl (fun x u => cyl_clear Rc o x u) Dx Du (fun u => TL _ (Dx u)) (fun x => TL _ (Du x)) Hphi
    q delay (asin (p_dy q / Rabs Rc)) mk Hdt Hx Hdu eq_refl (fun x u => conj eq_refl eq_refl) (half_angle b Rc) (a / 2) HH ltac:(lra) ntz
    (sources q (GCylind a b Rc)) (cyl_sources q a b Rc)).
  apply B.
  - intros x u Hs. rewrite (arrival_time q (GCylind a b Rc)) by auto. unfold travel_time. cbn [lens]. rewrite Rplus_0_r. reflexivity.
  - now apply inside_arrives.
Qed.

Lemma line_bound q ntz delay a o phi L M : par_ok q -> 0 < p_dt q -> 0 < p_cp q -> 0 <= a ->
  0 < off_axis o -> inside q ntz (GLine a) delay o -> smooth L M phi ->
  Rabs (observed q ntz delay (fun k => rayleigh q 1 delay o (sources q (GLine a)) (Z.of_nat k)) phi - radiated_line (p_cp q) (p_v q) a (p_dy q) o phi)
  <= line_error q a o L M.
Proof.
  intros Hq Hdt Hcp Ha Hof Hin Hphi. pose proof Hq as (Hx & Hy & _ & _).
  rewrite observed_sources by (apply inside_arrives; auto; exact I).
  assert (P : 0 < 1000 / p_cp q) by (apply Rdiv_lt_0_compat; lra).
  set (D := fun x (u : R) => distance o (on_plane x 0)).
  assert (HD : forall x u, off_axis o <= D x u).
  { intros x u. unfold D, off_axis. rewrite dist_plane. apply sqrt_le_1_alt. pose proof (pow2_ge_0 (p_x o - x)). 
    replace (p_y o - 0) with (p_y o) by ring. lra. }
  assert (Dx : forall u, lipschitz 1 (fun x => D x u)) by (intros u; apply dist_lip_x).
  assert (Du : forall x, lipschitz 1 (fun u => D x u)) by (intros x; apply (lipschitz_weak 0); [lra|exact (lipschitz_const (distance o (on_plane x 0)))]).
  assert (TL : forall f, lipschitz 1 f -> lipschitz (1000 / p_cp q) (fun x => 1000 * f x / p_cp q)).
  { intros f Hf x y. replace (1000 * f x / p_cp q - 1000 * f y / p_cp q) with (1000 / p_cp q * (f x - f y)) by (field; lra).
    rewrite Rabs_mult, (Rabs_pos_eq (1000 / p_cp q)) by lra. apply Rmult_le_compat_l; [lra|]. specialize (Hf x y). lra. }
  set (mk := fun x (u : R) => flat (p_dx q * p_dy q) x 0).
  set (P0 := map (fun x => (x, 0)) (midpoints (- (a / 2)) (a / 2) (p_dx q))).
  assert (ES : sources q (GLine a) = map (fun '(x, u) => mk x u) P0).
  { unfold P0. rewrite map_map. cbn [sources]. replace (- a / 2) with (- (a / 2)) by field. reflexivity. }
  assert (Hmk : forall x u, SpecRayleigh.dist o (mk x u) = D x u /\ s_ds (mk x u) = 1 * p_dx q * p_dy q).
  { intros x u. split; [reflexivity|]. cbn. ring. }
  assert (D1 := patch_time o (p_v q) 1 (off_axis o) L M D (fun x u => 1000 * D x u / p_cp q) phi Rle_0_1 Hof HD Hphi
    q delay (p_dy q) mk Hdt Hx Hy eq_refl Hmk P0).
  rewrite <- ES in D1. specialize (D1 ltac:(intros x u Hxu; rewrite (arrival_time q (GLine a)); auto;
    [unfold travel_time; cbn [lens]; rewrite Rplus_0_r; reflexivity|exact I|rewrite ES; apply (in_map (fun '(x, u) => mk x u) P0 (x, u) Hxu)])).
  set (F := fun x => pint (p_v q) 1 D (fun x u => 1000 * D x u / p_cp q) phi x 0).
  set (C := 1000 * Rabs (p_v q) / (2 * PI)). assert (EC : 1 * (1000 * Rabs (p_v q) / (2 * PI)) = C) by (unfold C; ring).
  assert (LF := pint_lip_x (p_v q) 1 (off_axis o) 1 (1000 / p_cp q) L M D (fun x u => 1000 * D x u / p_cp q) phi Rle_0_1 Hof HD Dx (fun u => TL _ (Dx u)) Hphi 0).
  assert (BF := fun x => pint_bound (p_v q) 1 (off_axis o) L M D (fun x u => 1000 * D x u / p_cp q) phi Rle_0_1 Hof HD Hphi x 0).
  assert (D2 := row_rule _ _ _ (- (a / 2)) (a / 2) (p_dx q) Hx ltac:(lra) LF BF). fold F in D2.
  rewrite EC in *. clear LF BF.
  assert (EI : radiated_line (p_cp q) (p_v q) a (p_dy q) o phi = p_dy q * RInt F (- (a / 2)) (a / 2)).
  { unfold radiated_line. f_equal. apply RInt_ext. intros x _. unfold F, pint, D.
    match goal with |- @eq _ ?A ?B => change (@eq R A B) end. ring. }
  rewrite EI.
  assert (EP : Rsum (map (fun '(x, u) => pint (p_v q) 1 D (fun x u => 1000 * D x u / p_cp q) phi x u) P0) = Rsum (map F (midpoints (- (a / 2)) (a / 2) (p_dx q)))).
  { unfold P0. rewrite map_map. reflexivity. }
  rewrite EP in D1.
  assert (E1 : p_dx q * p_dy q * Rsum (map (fun _ => 1) P0) <= p_dy q * (a + p_dx q / 2)).
  { unfold P0. rewrite map_map. pose proof (count_len (- (a / 2)) (a / 2) (p_dx q) Hx ltac:(lra)) as N.
    unfold midpoints. rewrite map_map. set (m := SpecRayleigh.count _ _ _) in *.
    assert (Ek : forall b n, Rsum (map (fun _ : nat => 1) (seq b n)) = INR n).
    { intros b n. revert b. induction n as [|n IHn]; intros b; [reflexivity|]. rewrite S_INR. cbn [seq map].
      change (Rsum (1 :: ?t)) with (1 + Rsum t). rewrite IHn. ring. }
    rewrite Ek. replace (p_dx q * p_dy q * INR m) with (p_dy q * (INR m * p_dx q)) by ring. apply Rmult_le_compat_l; lra. }
  assert (HC : 0 <= C / off_axis o * (L * p_dt q / 2)).
  { assert (HL0 : 0 <= L) by exact (lip_pos L phi (proj2 Hphi)). pose proof PI_RGT_0. apply Rmult_le_pos.
    - apply Rmult_le_pos; [|left; now apply Rinv_0_lt_compat]. unfold C. apply Rmult_le_pos; [|left; apply Rinv_0_lt_compat; lra].
      apply Rmult_le_pos; [lra|apply Rabs_pos].
    - apply Rmult_le_pos; [apply Rmult_le_pos; lra|lra]. }
  assert (D1' : C / off_axis o * (L * p_dt q / 2) * (p_dx q * p_dy q * Rsum (map (fun _ => 1) P0)) <=
                p_dy q * (C / off_axis o * (L * p_dt q / 2) * (a + p_dx q / 2))).
  { eapply Rle_trans; [apply Rmult_le_compat_l; [exact HC|exact E1]|]. right. ring. }
  apply (Rmult_le_compat_l (p_dy q)) in D2; [|lra]. rewrite <- (Rabs_pos_eq (p_dy q)) in D2 at 1 by lra. rewrite <- Rabs_mult in D2.
  rewrite Rabs_minus_sym in D1. rewrite Rabs_minus_sym.
  match goal with |- Rabs (?A - ?B) <= _ => match type of D1 with Rabs (?Q - _) <= _ => replace (A - B) with ((A - Q) + (Q - B)) by ring end end.
  eapply Rle_trans; [apply Rabs_triang|].
  unfold line_error. fold C. rewrite (Rmult_plus_distr_l (p_dy q)). rewrite (Rplus_comm (p_dy q * _)). apply Rplus_le_compat.
  - match goal with |- Rabs ?X <= _ => match type of D2 with Rabs ?Y <= _ => replace X with Y by ring end end.
    eapply Rle_trans; [exact D2|]. right.
    replace (a / 2 - - (a / 2)) with a by field. replace (1 * M) with M by ring. ring.
  - eapply Rle_trans; [exact D1|exact D1'].
Qed.
