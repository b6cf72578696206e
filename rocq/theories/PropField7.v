(** PropField7.v - property theorem C111, what holds: the response of
    dreamsphere converges to the integral over the plane of the rim. *)
From Coq Require Strings.String Strings.Ascii.
Import Coq.Strings.String.StringSyntax.
From Coq Require Import Reals List ZArith Lra Lia.
From Coquelicot Require Import Coquelicot.
From Verif Require Import Base BaseLemmas ModelSir ModelArr ModelSmp NumR SpecSmp SpecSir SpecRayleigh SpecArr
  ModelGw SpecGw SpecGwR ProofsR ProofsRayleigh ProofsSirR PropSir PropGwR SpecPhys ProofsPhys ProofsRiemann PropPhys PropPhys2
  SpecField ProofsField ProofsField2 PropField SpecField3 ProofsField3 SpecField4 PropField4 SpecField7.
Import ListNotations.
Open Scope R_scope.

Section Bowl.
Variables (r Rc : R) (o : pos).
Hypothesis (Hr : 0 <= r) (HR : r < Rabs Rc).
Let s := sqrt (Rc^2 - r^2).
Lemma rim_pos : 0 < s.
Proof. unfold s. apply sqrt_lt_R0. rewrite <- (pow2_abs Rc). nra. Qed.
Lemma depth_lip t t' : 0 <= t <= r^2 -> 0 <= t' <= r^2 ->
  Rabs (sqrt (Rc^2 - t) - sqrt (Rc^2 - t')) <= Rabs (t - t') / (2 * s).
Proof.
  intros Ht Ht'. pose proof rim_pos as Hs.
  assert (HR2 : r^2 <= Rc^2) by (rewrite <- (pow2_abs Rc); nra).
  assert (A : s <= sqrt (Rc^2 - t)) by (apply sqrt_le_1_alt; lra).
  assert (B : s <= sqrt (Rc^2 - t')) by (apply sqrt_le_1_alt; lra).
  assert (EA : sqrt (Rc^2 - t) * sqrt (Rc^2 - t) = Rc^2 - t) by (apply sqrt_sqrt; lra).
  assert (EB : sqrt (Rc^2 - t') * sqrt (Rc^2 - t') = Rc^2 - t') by (apply sqrt_sqrt; lra).
  set (a := sqrt (Rc^2 - t)) in *. set (b := sqrt (Rc^2 - t')) in *. clearbody a b s.
  apply Rmult_le_reg_r with (2 * s); [lra|]. replace (Rabs (t - t') / (2 * s) * (2 * s)) with (Rabs (t - t')) by (field; lra).
  replace (t - t') with (- ((a - b) * (a + b))) by lra. rewrite Rabs_Ropp, Rabs_mult, (Rabs_pos_eq (a + b)) by lra.
  apply Rmult_le_compat_l; [apply Rabs_pos|lra].
Qed.
Lemma clamp_lip c : 0 <= c -> lipschitz (2 * r) (fun x => Rmin (x^2 + c) (r^2)).
Proof.
  intros Hc x y. pose proof (hyp_lip c Hc x y) as H. rewrite Rmult_1_l in H. cbv beta in H.
  pose proof (sqrt_pos (x^2 + c)) as Pa. pose proof (sqrt_pos (y^2 + c)) as Pb.
  assert (Ea : sqrt (x^2 + c) * sqrt (x^2 + c) = x^2 + c) by (apply sqrt_sqrt; pose proof (pow2_ge_0 x); lra).
  assert (Eb : sqrt (y^2 + c) * sqrt (y^2 + c) = y^2 + c) by (apply sqrt_sqrt; pose proof (pow2_ge_0 y); lra).
  set (a := sqrt (x^2 + c)) in *. set (b := sqrt (y^2 + c)) in *. rewrite <- Ea, <- Eb. clearbody a b.
  set (w := Rabs (x - y)) in *. clearbody w.
  assert (H1 : a - b <= w /\ b - a <= w) by (unfold Rabs in H; destruct (Rcase_abs (a - b)); lra).
  unfold Rmin. destruct (Rle_dec (a * a) (r^2)) as [A|A]; destruct (Rle_dec (b * b) (r^2)) as [B|B].
  - assert (a <= r) by nra. assert (b <= r) by nra. replace (a * a - b * b) with ((a - b) * (a + b)) by ring.
    rewrite Rabs_mult, (Rabs_pos_eq (a + b)) by lra. rewrite Rmult_comm. apply Rmult_le_compat; try lra. apply Rabs_pos.
  - assert (a <= r) by nra. assert (r < b) by nra. rewrite Rabs_left1 by nra. nra.
  - assert (b <= r) by nra. assert (r < a) by nra. rewrite Rabs_pos_eq by nra. nra.
  - rewrite Rminus_eq_0, Rabs_R0. pose proof (Rabs_pos (a - b)). nra.
Qed.

Definition depth (t : R) : R := if Rleb 0 Rc then Rabs Rc - sqrt (Rc^2 - t) else - (Rabs Rc - sqrt (Rc^2 - t)).
Lemma depth_diff t t' : Rabs (depth t - depth t') = Rabs (sqrt (Rc^2 - t) - sqrt (Rc^2 - t')).
Proof.
  unfold depth. destruct (Rleb 0 Rc).
  - rewrite <- Rabs_Ropp. f_equal. ring.
  - f_equal. ring.
Qed.
Definition D0 (x y : R) : R := norm3 (p_x o - x) (p_y o - y) (p_z o - depth (Rmin (x^2 + y^2) (r^2))).
Definition Db (x y : R) : R := Rmax (sphere_clearance Rc o) (D0 x y).
Lemma norm3_le a b c : norm3 a b c <= Rabs a + Rabs b + Rabs c.
Proof.
  unfold norm3. pose proof (Rabs_pos a). pose proof (Rabs_pos b). pose proof (Rabs_pos c).
  rewrite <- (sqrt_pow2 (Rabs a + Rabs b + Rabs c)) by lra. apply sqrt_le_1_alt.
  rewrite <- (pow2_abs a), <- (pow2_abs b), <- (pow2_abs c). nra.
Qed.
Lemma max_lip d l f : lipschitz l f -> lipschitz l (fun x => Rmax d (f x)).
Proof.
  intros H x y. eapply Rle_trans; [|apply H]. unfold Rmax. repeat destruct (Rle_dec _ _); unfold Rabs; repeat destruct (Rcase_abs _); lra.
Qed.
Lemma clamp_range t : 0 <= t -> 0 <= Rmin t (r^2) <= r^2.
Proof. intros Ht. split; [apply Rmin_glb; [lra|apply pow2_ge_0]|apply Rmin_r]. Qed.
Lemma slope_bound t t' w : 0 <= t -> 0 <= t' -> Rabs (Rmin t (r^2) - Rmin t' (r^2)) <= 2 * r * w ->
  Rabs (depth (Rmin t (r^2)) - depth (Rmin t' (r^2))) <= rim_slope r Rc * w.
Proof.
  intros Ht Ht' H. rewrite depth_diff. pose proof rim_pos as Hs.
  eapply Rle_trans; [apply depth_lip; now apply clamp_range|]. unfold rim_slope. fold s.
  apply Rmult_le_reg_r with (2 * s); [lra|].
  replace (Rabs (Rmin t (r^2) - Rmin t' (r^2)) / (2 * s) * (2 * s)) with (Rabs (Rmin t (r^2) - Rmin t' (r^2))) by (field; lra).
  replace (r / s * w * (2 * s)) with (2 * r * w) by (field; lra). exact H.
Qed.
Lemma Db_x y : lipschitz (1 + rim_slope r Rc) (fun x => Db x y).
Proof.
  apply max_lip. intros x x'. unfold D0. eapply Rle_trans; [apply norm3_lip|]. eapply Rle_trans; [apply norm3_le|].
  pose proof (clamp_lip (y^2) (pow2_ge_0 y) x x') as H. cbv beta in H.
  assert (B := slope_bound (x^2 + y^2) (x'^2 + y^2) (Rabs (x - x'))
    ltac:(pose proof (pow2_ge_0 x); pose proof (pow2_ge_0 y); lra) ltac:(pose proof (pow2_ge_0 x'); pose proof (pow2_ge_0 y); lra) H).
  replace (p_x o - x - (p_x o - x')) with (- (x - x')) by ring. rewrite Rabs_Ropp.
  rewrite Rminus_eq_0, Rabs_R0.
  match goal with |- context [Rabs (?z - ?u - (?z - ?w))] => replace (z - u - (z - w)) with (- (u - w)) by ring end. rewrite Rabs_Ropp. lra.
Qed.
Lemma Db_y x : lipschitz (1 + rim_slope r Rc) (fun y => Db x y).
Proof.
  apply max_lip. intros y y'. unfold D0. eapply Rle_trans; [apply norm3_lip|]. eapply Rle_trans; [apply norm3_le|].
  pose proof (clamp_lip (x^2) (pow2_ge_0 x) y y') as H. cbv beta in H. rewrite (Rplus_comm (y^2)), (Rplus_comm (y'^2)) in H.
  assert (B := slope_bound (x^2 + y^2) (x^2 + y'^2) (Rabs (y - y'))
    ltac:(pose proof (pow2_ge_0 x); pose proof (pow2_ge_0 y); lra) ltac:(pose proof (pow2_ge_0 x); pose proof (pow2_ge_0 y'); lra) H).
  replace (p_y o - y - (p_y o - y')) with (- (y - y')) by ring. rewrite Rabs_Ropp.
  rewrite Rminus_eq_0, Rabs_R0.
  match goal with |- context [Rabs (?z - ?u - (?z - ?w))] => replace (z - u - (z - w)) with (- (u - w)) by ring end. rewrite Rabs_Ropp. lra.
Qed.
(** Over the disc it is the distance to the bowl. *)
Lemma Db_inside x y : x^2 + y^2 <= r^2 -> Db x y = distance o (on_bowl Rc x y).
Proof.
  intros H. assert (E : D0 x y = distance o (on_bowl Rc x y)).
  { unfold D0, depth. rewrite Rmin_left by exact H. unfold distance, norm3, on_bowl. cbn [p_x p_y p_z].
    replace (Rc^2 - (x^2 + y^2)) with (Rc^2 - x^2 - y^2) by ring. reflexivity. }
  unfold Db. rewrite E. apply Rmax_right. unfold sphere_clearance.
  assert (HR2 : r^2 <= Rc^2) by (rewrite <- (pow2_abs Rc); nra).
  assert (Hz : (p_z (on_bowl Rc x y) - Rc)^2 = Rc^2 - x^2 - y^2).
  { assert (Es : sqrt (Rc^2 - x^2 - y^2) * sqrt (Rc^2 - x^2 - y^2) = Rc^2 - x^2 - y^2) by (apply sqrt_sqrt; lra).
    cbn [on_bowl p_z]. unfold Rleb. destruct (Rle_dec 0 Rc).
    - rewrite (Rabs_pos_eq Rc) by lra. rewrite <- Es at 2. ring.
    - rewrite (Rabs_left Rc) by lra. rewrite <- Es at 2. ring. }
  assert (E1 : sqrt (p_x o ^2 + p_y o ^2 + (p_z o - Rc)^2) = norm3 (p_x o) (p_y o) (p_z o - Rc)) by reflexivity.
  assert (E2 : Rabs Rc = norm3 x y (p_z (on_bowl Rc x y) - Rc)).
  { unfold norm3. rewrite Hz. transitivity (sqrt (Rabs Rc ^2)); [symmetry; apply sqrt_pow2; apply Rabs_pos|]. f_equal. rewrite pow2_abs. ring. }
  rewrite E1, E2. eapply Rle_trans; [apply norm3_lip|]. right. unfold norm3, distance, on_bowl. cbn [p_x p_y p_z]. f_equal. ring.
Qed.
Lemma Db_ge x y : sphere_clearance Rc o <= Db x y.
Proof. apply Rmax_l. Qed.
End Bowl.

Lemma bowl_bound q ntz delay r Rc o phi L M : par_ok q -> 0 < p_dt q -> 0 < p_cp q -> 0 <= r < Rabs Rc -> 0 < sphere_clearance Rc o ->
  inside q ntz (GSphere r Rc) delay o -> smooth L M phi ->
  Rabs (observed q ntz delay (fun k => rayleigh q 1 delay o (sources q (GSphere r Rc)) (Z.of_nat k)) phi - radiated_projected (p_cp q) (p_v q) r Rc o phi)
  <= bowl_error q r Rc o L M.
Proof.
  intros Hq Hdt Hcp [Hr HR] Hcl Hin Hphi. pose proof Hq as (Hx & Hy & _ & _).
  assert (Hg : geom_ok q (GSphere r Rc)) by (cbn; lra).
  rewrite observed_sources by (apply inside_arrives; auto).
  set (D := Db r Rc o). set (lam := 1 + rim_slope r Rc).
  assert (Dx : forall u, lipschitz lam (fun x => D x u)) by (intros; now apply Db_x).
  assert (Du : forall x, lipschitz lam (fun u => D x u)) by (intros; now apply Db_y).
  assert (P : 0 < 1000 / p_cp q) by (apply Rdiv_lt_0_compat; lra).
  assert (TL : forall f, lipschitz lam f -> lipschitz (1000 * lam / p_cp q) (fun x => 1000 * f x / p_cp q)).
  { intros f Hf x y. replace (1000 * f x / p_cp q - 1000 * f y / p_cp q) with (1000 / p_cp q * (f x - f y)) by (field; lra).
    rewrite Rabs_mult, (Rabs_pos_eq (1000 / p_cp q)) by lra.
    replace (1000 * lam / p_cp q * Rabs (x - y)) with (1000 / p_cp q * (lam * Rabs (x - y))) by (field; lra).
    apply Rmult_le_compat_l; [lra|apply Hf]. }
  (* a source at the same distance *)
  set (mk := fun x u => {| s_x := p_x o - D x u; s_y := p_y o; s_z := p_z o; s_ds := 1 * p_dx q * p_dy q; s_tau := 0 |}).
  assert (Dp : forall x u, 0 < D x u) by (intros; pose proof (Db_ge r Rc o x u); unfold D; lra).
  assert (Hmk : forall x u, SpecRayleigh.dist o (mk x u) = D x u /\ s_ds (mk x u) = 1 * p_dx q * p_dy q).
  { intros x u. split; [|reflexivity]. unfold SpecRayleigh.dist, mk. cbn [s_x s_y s_z].
    replace ((p_x o - (p_x o - D x u))^2 + (p_y o - p_y o)^2 + (p_z o - p_z o)^2) with ((D x u)^2) by ring. apply sqrt_pow2. left; apply Dp. }
  set (T := fun x u => 1000 * D x u / p_cp q).
  assert (D1 := patch_time o (p_v q) 1 (sphere_clearance Rc o) L M D T phi ltac:(lra) Hcl (Db_ge r Rc o) Hphi
     q delay (p_dy q) mk Hdt Hx Hy eq_refl Hmk (disc_xy q r)).
  specialize (D1 ltac:(intros x u _; unfold arrival; rewrite (proj1 (Hmk x u)); unfold mk, T; cbn [s_tau]; f_equal; ring)).
  rewrite map_map in D1.
  assert (ES : Rsum (map (fun s => strength q 1 o s * phi (delay + IZR (arrives_at q delay o s) * p_dt q)) (sources q (GSphere r Rc))) =
     Rsum (map (fun xy : R * R => strength q 1 o (let '(x, u) := xy in mk x u) * phi (delay + IZR (arrives_at q delay o (let '(x, u) := xy in mk x u)) * p_dt q)) (disc_xy q r))).
  { cbn [sources]. rewrite map_map. apply Rsum_ext. intros [x y] Hxy. apply in_disc_xy in Hxy as [_ Hxy]; auto.
    assert (Ed : SpecRayleigh.dist o {| s_x := x; s_y := y; s_z := (if Rleb 0 Rc then Rabs Rc - sqrt (Rc^2 - x^2 - y^2) else - (Rabs Rc - sqrt (Rc^2 - x^2 - y^2)));
                           s_ds := p_dx q * p_dy q; s_tau := 0 |} = SpecRayleigh.dist o (mk x y)).
    { rewrite (proj1 (Hmk x y)). unfold D. rewrite Db_inside by auto. reflexivity. }
    cbv beta iota. unfold strength, arrives_at, arrival. rewrite Ed. rewrite (proj2 (Hmk x y)). change (s_tau (mk x y)) with 0. cbn [s_ds s_tau].
    rewrite (Rmult_1_l (p_dx q)). reflexivity. }
  rewrite ES. clear ES.
  set (g := GCirc r). assert (Hf : flat_geom g) by exact Hr.
  assert (E1 : p_dx q * p_dy q * Rsum (map (fun _ => 1) (disc_xy q r)) <= (2 * r + p_dy q / 2) * (2 * r + p_dx q / 2)).
  { unfold disc_xy. rewrite Rsum_flat.
    pose proof (region_count (half_width g) (half_height g) (max_width g) (flat_height g Hf) (fun y => flat_range g y Hf) (p_dx q) (p_dy q) Hx Hy) as B.
    eapply Rle_trans; [|exact B]. right. f_equal. apply Rsum_ext. intros y _. rewrite map_map. reflexivity. }
  set (F := pint (p_v q) 1 D T phi).
  assert (EP : Rsum (map (fun '(x, u) => F x u) (disc_xy q r)) =
     Rsum (map (fun y => Rsum (map (fun x => F x y) (midpoints (- half_width g y) (half_width g y) (p_dx q)))) (midpoints (- half_height g) (half_height g) (p_dy q)))).
  { unfold disc_xy. rewrite Rsum_flat. apply Rsum_ext. intros u _. rewrite map_map. reflexivity. }
  assert (D2 := region_rule (half_width g) (half_height g) (max_width g) _ _ F (flat_height g Hf) (fun y => flat_range g y Hf)
     (fun y => flat_cont g y Hf)
     (pint_lip_x (p_v q) 1 (sphere_clearance Rc o) lam (1000 * lam / p_cp q) L M D T phi ltac:(lra) Hcl (Db_ge r Rc o) Dx (fun u => TL _ (Dx u)) Hphi)
     (pint_lip_u (p_v q) 1 (sphere_clearance Rc o) lam (1000 * lam / p_cp q) L M D T phi ltac:(lra) Hcl (Db_ge r Rc o) Du (fun x => TL _ (Du x)) Hphi)
     (pint_bound (p_v q) 1 (sphere_clearance Rc o) L M D T phi ltac:(lra) Hcl (Db_ge r Rc o) Hphi) (p_dx q) (p_dy q) (edge g (p_dy q)) Hx Hy
     (fun y y' => flat_edge g (p_dy q) y y' Hf Hy)).
  assert (EI : RInt (fun y => RInt (fun x => F x y) (- half_width g y) (half_width g y)) (- half_height g) (half_height g) =
               radiated_projected (p_cp q) (p_v q) r Rc o phi).
  { unfold radiated_projected. cbn [half_width half_height g]. apply RInt_ext. intros y Hy'. apply RInt_ext. intros x Hx'.
    pose proof (half_disc_range r y Hr) as Hw. unfold half_disc in Hw.
    rewrite Rmin_left, Rmax_right in Hx' by lra. rewrite Rmin_left, Rmax_right in Hy' by lra.
    assert (Hsq : sqrt (r^2 - y^2) * sqrt (r^2 - y^2) = r^2 - y^2) by (apply sqrt_sqrt; nra).
    assert (x^2 + y^2 <= r^2) by nra.
    unfold F, pint, T, D. rewrite Db_inside by auto. apply Rmult_1_l. }
  rewrite EI in D2. fold F in D1. rewrite EP in D1. rewrite Rabs_minus_sym in D2.
  unfold bowl_error. fold lam. rewrite !Rmult_1_l in *.
  cbn [half_height max_width edge g] in D1, D2, E1.
  set (Q := p_dx q * p_dy q * Rsum _) in D2.
  match goal with |- Rabs (?X - ?Y) <= _ => replace (X - Y) with ((X - Q) + (Q - Y)) by ring end.
  eapply Rle_trans; [apply Rabs_triang|]. apply Rplus_le_compat.
  - eapply Rle_trans; [exact D1|]. apply Rmult_le_compat_l; [|exact E1].
    assert (HL0 : 0 <= L) by exact (lip_pos L phi (proj2 Hphi)). pose proof PI_RGT_0. apply Rmult_le_pos.
    + apply Rmult_le_pos; [|left; now apply Rinv_0_lt_compat]. apply Rmult_le_pos; [|left; apply Rinv_0_lt_compat; lra].
      apply Rmult_le_pos; [lra|apply Rabs_pos].
    + apply Rmult_le_pos; [apply Rmult_le_pos; lra|lra].
  - exact D2.
Qed.

(** C111, what holds: dreamsphere, concave or convex, at any point off the
    sphere - the waves of the bowl weighted with their projected area. *)
Theorem C111_projected_partial : forall fuel c2r fe f nlhs hw env sch junk args r Rc q ntz ps dty dl,
  exact_call c2r fe f nlhs hw env sch args (GSphere r Rc) q ntz ps dty dl -> all_defined fe fuel q ntz (GSphere r Rc) ps dty dl ->
  0 <= r < Rabs Rc -> 0 < p_dt q -> 0 < p_cp q ->
  exists V, returns (gateway fuel c2r fe f nlhs hw env sch junk args) ntz (length ps) V /\
  forall n, (n < length ps)%nat -> 0 < sphere_clearance Rc (nth n ps origin) ->
    inside q ntz (GSphere r Rc) (start_delay dty dl n) (nth n ps origin) ->
    forall phi L M, smooth L M phi ->
    Rabs (observed q ntz (start_delay dty dl n) (V n) phi - radiated_projected (p_cp q) (p_v q) r Rc (nth n ps origin) phi)
    <= bowl_error q r Rc (nth n ps origin) L M.
Proof.
  intros fuel c2r fe f nlhs hw env sch junk args r Rc q ntz ps dty dl HC HD Hr Hdt Hcp.
  eexists. split; [apply call_returns; eassumption|]. cbv beta. intros n Hn Hz Hin phi L M Hphi.
  destruct (HD n Hn) as [Hq Hg _ _ _ _]. now apply bowl_bound.
Qed.
Print Assumptions C111_projected_partial.

Lemma rim_slope_nonneg r Rc : 0 <= r -> r < Rabs Rc -> 0 <= rim_slope r Rc.
Proof. intros Hr HR. unfold rim_slope. apply Rmult_le_pos; auto. left. apply Rinv_0_lt_compat. now apply rim_pos. Qed.
(** The bound is at most 1 + rim slope times the one of the flat disc seen from
    the same distance. *)
Lemma bowl_error_le q r Rc o L M : par_ok q -> 0 < p_dt q -> 0 < p_cp q -> 0 <= r -> r < Rabs Rc -> 0 < sphere_clearance Rc o -> 0 <= L -> 0 <= M ->
  bowl_error q r Rc o L M <= (1 + rim_slope r Rc) * field_error q (GCirc r) (sphere_clearance Rc o) L M.
Proof.
  intros (Hx & Hy & _ & _) Ht Hcp Hr HR Hd HL HM. pose proof (rim_slope_nonneg r Rc Hr HR) as Hl.
  unfold bowl_error, field_error. cbn [max_width half_height edge]. set (d := sphere_clearance Rc o) in *. clearbody d.
  rewrite (Rabs_pos_eq d) by lra. set (la := rim_slope r Rc) in *. clearbody la. pose proof PI_RGT_0 as HPI.
  set (C := 1000 * Rabs (p_v q) / (2 * PI)).
  assert (HC : 0 <= C).
  { unfold C. apply Rmult_le_pos; [|left; apply Rinv_0_lt_compat; lra]. apply Rmult_le_pos; [lra|apply Rabs_pos]. }
  clearbody C.
  assert (P1 : 0 <= M / d^2) by (apply Rmult_le_pos; auto; left; apply Rinv_0_lt_compat; nra).
  assert (P2 : 0 <= L * (1000 / p_cp q) / d).
  { apply Rmult_le_pos; [apply Rmult_le_pos; auto; apply Rmult_le_pos; [lra|]; left; now apply Rinv_0_lt_compat|left; now apply Rinv_0_lt_compat]. }
  assert (P3 : 0 <= C * M / d) by (apply Rmult_le_pos; [nra|left; now apply Rinv_0_lt_compat]).
  assert (P4 : 0 <= C / d * (L * p_dt q / 2)).
  { apply Rmult_le_pos; [apply Rmult_le_pos; auto; left; now apply Rinv_0_lt_compat|nra]. }
  replace ((1 + la) * M / d^2 + L * (1000 * (1 + la) / p_cp q) / d) with ((1 + la) * (M / d^2 + L * (1000 / p_cp q) / d)) by (field; lra).
  replace (2000 * L / (p_cp q * d)) with (2 * (L * (1000 / p_cp q) / d)) by (field; lra).
  set (u := M / d^2) in *. set (w := L * (1000 / p_cp q) / d) in *. set (amp := C * M / d) in *. set (t := C / d * (L * p_dt q / 2)) in *.
  clearbody u w amp t. pose proof (sqrt_pos ((r + p_dy q) * p_dy q)) as He. set (e := sqrt ((r + p_dy q) * p_dy q)) in *. clearbody e.
  set (x := p_dx q) in *. set (y := p_dy q) in *. clearbody x y.
  set (sl := C * ((1 + la) * (u + w))).
  assert (S1 : sl <= (1 + la) * (C * (u + 2 * w))).
  { unfold sl. replace (C * ((1 + la) * (u + w))) with ((1 + la) * (C * (u + w))) by ring. apply Rmult_le_compat_l; [lra|]. apply Rmult_le_compat_l; lra. }
  set (sf := C * (u + 2 * w)) in *.
  assert (A1 : t * ((2 * r + y / 2) * (2 * r + x / 2)) <= (1 + la) * (t * ((2 * r + y / 2) * (2 * r + x / 2)))).
  { assert (0 <= t * ((2 * r + y / 2) * (2 * r + x / 2))) by (apply Rmult_le_pos; auto; apply Rmult_le_pos; lra). nra. }
  assert (A2 : r * amp * y <= (1 + la) * (r * amp * y)).
  { assert (0 <= r * amp * y) by (apply Rmult_le_pos; [apply Rmult_le_pos|]; lra). nra. }
  assert (A3 : 2 * amp * e <= (1 + la) * (2 * amp * e)) by (assert (0 <= 2 * amp * e) by (apply Rmult_le_pos; lra); nra).
  assert (A4 : r * sl * y <= (1 + la) * (r * sf * y)).
  { replace ((1 + la) * (r * sf * y)) with (r * ((1 + la) * sf) * y) by ring. apply Rmult_le_compat_r; [lra|]. now apply Rmult_le_compat_l. }
  assert (A5 : amp * (x / 2) <= (1 + la) * (amp * (x / 2))) by (assert (0 <= amp * (x / 2)) by (apply Rmult_le_pos; lra); nra).
  assert (A6 : (2 * r + x / 2) * (sl * x / 2) <= (1 + la) * ((2 * r + x / 2) * (sf * x / 2))).
  { replace ((1 + la) * ((2 * r + x / 2) * (sf * x / 2))) with ((2 * r + x / 2) * (((1 + la) * sf) * x / 2)) by field.
    apply Rmult_le_compat_l; [lra|]. unfold Rdiv. apply Rmult_le_compat_r; [lra|]. apply Rmult_le_compat_r; lra. }
  clearbody sl sf.
  assert (A7 : (2 * r + y / 2) * (2 * amp * e + r * sl * y + (amp * (x / 2) + (2 * r + x / 2) * (sl * x / 2))) <=
     (1 + la) * ((2 * r + y / 2) * (2 * amp * e + r * sf * y + (amp * (x / 2) + (2 * r + x / 2) * (sf * x / 2))))).
  { replace ((1 + la) * ((2 * r + y / 2) * (2 * amp * e + r * sf * y + (amp * (x / 2) + (2 * r + x / 2) * (sf * x / 2))))) with
      ((2 * r + y / 2) * ((1 + la) * (2 * amp * e) + (1 + la) * (r * sf * y) + ((1 + la) * (amp * (x / 2)) + (1 + la) * ((2 * r + x / 2) * (sf * x / 2))))) by ring.
    apply Rmult_le_compat_l; lra. }
  lra.
Qed.

(** C111, what holds: convergence. Fix the bowl, the medium, the point, the
    pulse and a tolerance; then every call with steps below some h is within it
    of the projected integral. *)
Theorem C111_projected_convergence_partial : forall r Rc cp v o phi L M eps,
  0 <= r < Rabs Rc -> 0 < cp -> 0 < sphere_clearance Rc o -> smooth L M phi -> 0 < eps ->
  exists h, 0 < h /\ forall fuel c2r fe f nlhs hw env sch junk args q ntz ps dty dl,
    exact_call c2r fe f nlhs hw env sch args (GSphere r Rc) q ntz ps dty dl -> all_defined fe fuel q ntz (GSphere r Rc) ps dty dl ->
    p_cp q = cp -> p_v q = v -> p_dx q <= h -> p_dy q <= h -> 0 < p_dt q <= h ->
    exists V, returns (gateway fuel c2r fe f nlhs hw env sch junk args) ntz (length ps) V /\
    forall n, (n < length ps)%nat -> nth n ps origin = o ->
      inside q ntz (GSphere r Rc) (start_delay dty dl n) o ->
      Rabs (observed q ntz (start_delay dty dl n) (V n) phi - radiated_projected cp v r Rc o phi) < eps.
Proof.
  intros r Rc cp v o phi L M eps [Hr HR] Hcp Hz Hphi Heps.
  assert (HL : 0 <= L) by exact (lip_pos L phi (proj2 Hphi)).
  assert (HM : 0 <= M) by (pose proof (proj1 Hphi 0); pose proof (Rabs_pos (phi 0)); lra).
  destruct (field_error_small (GCirc r) cp v (sphere_clearance Rc o) L M Hr Hcp ltac:(lra) HL HM) as (K0 & HK0 & HE).
  pose proof (rim_slope_nonneg r Rc Hr HR) as Hl.
  set (K := (1 + rim_slope r Rc) * K0). assert (HK : 0 <= K) by (apply Rmult_le_pos; lra).
  set (h0 := eps / (K + 1)). assert (Hh0 : 0 < h0) by (apply Rdiv_lt_0_compat; lra).
  set (h := Rmin 1 (h0^2)). assert (Hh : 0 < h) by (apply Rmin_pos; [lra|nra]).
  exists h. split; auto. intros fuel c2r fe f nlhs hw env sch junk args q ntz ps dty dl HC HD Ecp Ev Hx Hy Ht.
  destruct (C111_projected_partial fuel c2r fe f nlhs hw env sch junk args r Rc q ntz ps dty dl HC HD (conj Hr HR) ltac:(lra) ltac:(lra)) as (V & HV & H).
  exists V. split; [exact HV|]. intros n Hn Eo Hin. subst o.
  destruct (HD n Hn) as [Hq _ _ _ _ _]. pose proof Hq as (Hx0 & Hy0 & _ & _).
  specialize (H n Hn Hz Hin phi L M Hphi). rewrite Ecp, Ev in H. eapply Rle_lt_trans; [exact H|].
  assert (Hh1 : h <= 1) by apply Rmin_l.
  eapply Rle_lt_trans; [apply bowl_error_le; auto; lra|].
  eapply Rle_lt_trans; [apply Rmult_le_compat_l; [lra|]; apply (HE q h Ecp Ev); lra|]. rewrite <- Rmult_assoc. fold K.
  assert (Hsh : sqrt h <= h0). { rewrite <- (sqrt_pow2 h0) by lra. apply sqrt_le_1_alt. apply Rmin_r. }
  apply Rle_lt_trans with (K * h0); [now apply Rmult_le_compat_l|].
  unfold h0. apply Rmult_lt_reg_r with (K + 1); [lra|].
  replace (K * (eps / (K + 1)) * (K + 1)) with (K * eps) by (field; lra). nra.
Qed.
Print Assumptions C111_projected_convergence_partial.

(** ** Non-vacuity: a bowl of radius of curvature 5 mm and radius 3 mm seen from
    its centre. *)
From Verif Require Import PropFieldEx.
Local Open Scope string_scope.
Lemma bowl3_times : times_within 1000 (GSphere 3 5) (centre 5) 5 5.
Proof.
  intros p (_ & Hc & _). unfold travel_time, distance, lens, centre. cbn [p_x p_y p_z]. rewrite Rplus_0_r.
  replace ((0 - p_x p)^2 + (0 - p_y p)^2 + (5 - p_z p)^2) with (5^2) by (rewrite <- Hc; ring).
  rewrite sqrt_pow2 by lra. lra.
Qed.
Example C111_projected_ex : forall fe,
  exact_call (map fst) fe FSphere 1 1 None (round_robin 4 1) (geom_args [3; 5] (q1 1 1) 10 0 (centre 5)) (GSphere 3 5) (q1 1 1) 10 [centre 5] delay_single [0] /\
  all_defined fe 300 (q1 1 1) 10 (GSphere 3 5) [centre 5] delay_single [0] /\
  inside (q1 1 1) 10 (GSphere 3 5) 0 (centre 5) /\ 0 <= 3 < Rabs 5 /\ sphere_clearance 5 (centre 5) = 5.
Proof.
  intros fe. split; [apply geom_exact_call; [lia|reflexivity]|]. split; [|split; [|split]].
  - intros n Hn. cbn in Hn. destruct n; [|lia]. cbn [nth start_delay].
    apply (defined_of_times _ _ _ _ _ _ _ 5 5); try lra; try lia; try exact bowl3_times; try reflexivity.
    + cbn. rewrite Rabs_pos_eq by lra. lra.
    + cbn [enough q1 p_dx p_dy]. rewrite ?(Rabs_pos_eq 3) by lra.
      assert (E : SpecRayleigh.count (- (3) + 1 / 2) 3 1 = 6%nat).
      { apply Rcount; [lra|]. cbn. lra. }
      rewrite E. lia.
  - exists 5, 5. split; [exact bowl3_times|]. cbn. lra.
  - rewrite Rabs_pos_eq by lra. lra.
  - unfold sphere_clearance, centre. cbn [p_x p_y p_z]. replace (0^2 + 0^2 + (5 - 5)^2) with 0 by ring. rewrite sqrt_0.
    rewrite (Rabs_pos_eq 5) by lra. rewrite Rminus_0_l, Rabs_Ropp, Rabs_pos_eq; lra.
Qed.
