(** ProofsField2.v - the discretised Rayleigh integral of a flat transducer
    against the exact field. *)
From Coq Require Import Reals Lra Lia List ZArith.
From Coquelicot Require Import Coquelicot.
From Verif Require Import Base ModelSir ModelArr NumR SpecRayleigh ProofsR ProofsRayleigh ProofsSirR SpecPhys ProofsPhys ProofsRiemann
  SpecField ProofsField.
Import ListNotations.
Open Scope R_scope.

(** ** Sums over the sources. *)
Lemma Rsum_flat {A B} (f : B -> R) (h : A -> list B) l :
  Rsum (map f (flat_map h l)) = Rsum (map (fun a => Rsum (map f (h a))) l).
Proof.
  induction l as [|a l IH]; [reflexivity|]. cbn [flat_map map]. rewrite map_app, Rsum_app, IH. reflexivity.
Qed.
Lemma Rsum_dev {A} (f f' w : A -> R) l : (forall a, In a l -> Rabs (f a - f' a) <= w a) ->
  Rabs (Rsum (map f l) - Rsum (map f' l)) <= Rsum (map w l).
Proof.
  induction l as [|a l IH]; intros H; cbn [map]; [cbn; rewrite Rminus_0_r, Rabs_R0; lra|].
  change (Rsum (?x :: ?t)) with (x + Rsum t).
  replace (f a + Rsum (map f l) - (f' a + Rsum (map f' l))) with ((f a - f' a) + (Rsum (map f l) - Rsum (map f' l))) by ring.
  eapply Rle_trans; [apply Rabs_triang|]. apply Rplus_le_compat; [apply H; left; auto|apply IH; intros; apply H; right; auto].
Qed.

(** What the samples give: every source counts at its rounded arrival time. *)
Lemma observed_sources q ntz delay o src phi : (forall s, In s src -> (0 <= arrives_at q delay o s < ntz)%Z) ->
  observed q ntz delay (fun k => rayleigh q 1 delay o src (Z.of_nat k)) phi =
  p_dt q * Rsum (map (fun s => strength q 1 o s * phi (delay + IZR (arrives_at q delay o s) * p_dt q)) src).
Proof.
  intros H. unfold observed, rayleigh. f_equal.
  transitivity (Rsum (map (fun k => Rsum (map (fun s => if Z.eqb (arrives_at q delay o s) (Z.of_nat k)
     then strength q 1 o s * phi (delay + IZR (arrives_at q delay o s) * p_dt q) else 0) src)) (seq 0 (Z.to_nat ntz)))).
  - apply Rsum_ext. intros k _. rewrite Rmult_comm, <- Rsum_scal. apply Rsum_ext. intros s _.
    destruct (Z.eqb_spec (arrives_at q delay o s) (Z.of_nat k)) as [E|_]; [|ring]. rewrite E, <- INR_IZR_INZ. ring.
  - rewrite Rsum_swap. apply Rsum_ext. intros s Hs. apply Rsum_single. specialize (H s Hs). lia.
Qed.

(** ** The integrand. *)
Lemma focus_lip_x cp f F X Y RR y : 0 < cp -> lipschitz (1000 / cp) (fun x => focus_tau cp f F X Y RR x y).
Proof.
  intros Hcp. assert (P : 0 < 1000 / cp) by (apply Rdiv_lt_0_compat; lra).
  assert (A : forall h, lipschitz 1 h -> forall c, lipschitz (1000 / cp) (fun x => 1000 / cp * (c - h x))).
  { intros h Hh c u w. replace (1000 / cp * (c - h u) - 1000 / cp * (c - h w)) with (1000 / cp * (h w - h u)) by ring.
    rewrite Rabs_mult, (Rabs_pos_eq (1000 / cp)) by lra. apply Rmult_le_compat_l; [lra|].
    rewrite Rabs_minus_sym. specialize (Hh u w). lra. }
  assert (Z : forall c, lipschitz (1000 / cp) (fun _ => c)).
  { intros c. apply (lipschitz_weak 0); [lra|apply lipschitz_const]. }
  pose proof (pow2_ge_0 F). pose proof (pow2_ge_0 y).
  destruct f; cbn [focus_tau]; unfold focus_tau; try apply Z.
  - apply (A (fun x => sqrt (x^2 + F^2))). now apply hyp_lip.
  - intros u w. cbv beta. rewrite !(Rplus_assoc _ (y^2)).
    apply (A (fun x => sqrt (x^2 + (y^2 + F^2)))). apply hyp_lip. lra.
  - intros u w. cbv beta.
    replace (sqrt (RR + F^2) - (sqrt (u^2 + F^2) + sqrt (y^2 + F^2))) with (sqrt (RR + F^2) - sqrt (y^2 + F^2) - sqrt (u^2 + F^2)) by ring.
    replace (sqrt (RR + F^2) - (sqrt (w^2 + F^2) + sqrt (y^2 + F^2))) with (sqrt (RR + F^2) - sqrt (y^2 + F^2) - sqrt (w^2 + F^2)) by ring.
    apply (A (fun x => sqrt (x^2 + F^2))). now apply hyp_lip.
Qed.
Definition swap_foc (f : FocusMet) : FocusMet := match f with foc_x => foc_y | foc_y => foc_x | f => f end.
Lemma focus_swap cp f F X Y RR x y : focus_tau cp f F X Y RR x y = focus_tau cp (swap_foc f) F Y X RR y x.
Proof.
  destruct f; unfold focus_tau, swap_foc; try reflexivity; f_equal.
  - do 2 f_equal. ring.
  - ring.
Qed.
Lemma focus_lip_y cp f F X Y RR x : 0 < cp -> lipschitz (1000 / cp) (fun y => focus_tau cp f F X Y RR x y).
Proof. intros Hcp u w. rewrite !(focus_swap _ _ _ _ _ _ x). now apply (focus_lip_x cp (swap_foc f) F Y X RR x). Qed.

Lemma dist_plane o x y : distance o (on_plane x y) = sqrt ((p_x o - x)^2 + ((p_y o - y)^2 + p_z o ^2)).
Proof. unfold distance, on_plane. cbn [p_x p_y p_z]. f_equal. ring. Qed.
Lemma dist_plane' o x y : distance o (on_plane x y) = sqrt ((p_y o - y)^2 + ((p_x o - x)^2 + p_z o ^2)).
Proof. unfold distance, on_plane. cbn [p_x p_y p_z]. f_equal. ring. Qed.
Lemma refl_lip p L f : lipschitz L f -> lipschitz L (fun x => f (p - x)).
Proof. intros H x y. eapply Rle_trans; [apply H|]. right. f_equal. replace (p - x - (p - y)) with (- (x - y)) by ring. apply Rabs_Ropp. Qed.
Lemma dist_lip_x o y : lipschitz 1 (fun x => distance o (on_plane x y)).
Proof.
  intros u w. rewrite !dist_plane. pose proof (pow2_ge_0 (p_y o - y)). pose proof (pow2_ge_0 (p_z o)).
  apply (refl_lip (p_x o) 1 (fun x => sqrt (x^2 + ((p_y o - y)^2 + p_z o ^2)))). apply hyp_lip. lra.
Qed.
Lemma dist_lip_y o x : lipschitz 1 (fun y => distance o (on_plane x y)).
Proof.
  intros u w. rewrite !dist_plane'. pose proof (pow2_ge_0 (p_x o - x)). pose proof (pow2_ge_0 (p_z o)).
  apply (refl_lip (p_y o) 1 (fun y => sqrt (y^2 + ((p_x o - x)^2 + p_z o ^2)))). apply hyp_lip. lra.
Qed.
Lemma scaled_lip c f : 0 <= c -> lipschitz 1 f -> lipschitz c (fun x => c * f x).
Proof.
  intros Hc H x y. replace (c * f x - c * f y) with (c * (f x - f y)) by ring. rewrite Rabs_mult, (Rabs_pos_eq c) by auto.
  apply Rmult_le_compat_l; auto. specialize (H x y). lra.
Qed.
Lemma time_lip_x cp g o y : 0 < cp -> flat_geom g -> lipschitz (2000 / cp) (fun x => travel_time cp g o (on_plane x y)).
Proof.
  intros Hcp Hg. assert (P : 0 < 1000 / cp) by (apply Rdiv_lt_0_compat; lra).
  replace (2000 / cp) with (1000 / cp + 1000 / cp) by (field; lra).
  assert (A : lipschitz (1000 / cp) (fun x => 1000 * distance o (on_plane x y) / cp)).
  { intros u w. cbv beta. replace (1000 * distance o (on_plane u y) / cp) with (1000 / cp * distance o (on_plane u y)) by (field; lra).
    replace (1000 * distance o (on_plane w y) / cp) with (1000 / cp * distance o (on_plane w y)) by (field; lra).
    apply (scaled_lip (1000 / cp) (fun x => distance o (on_plane x y))); [lra|apply dist_lip_x]. }
  unfold travel_time. apply (lipschitz_plus _ _ _ (fun x => lens cp g (on_plane x y)) A).
  destruct g; try contradiction; cbn [lens on_plane p_x p_y];
    solve [apply focus_lip_x; auto | apply (lipschitz_weak 0); [lra|apply lipschitz_const]].
Qed.
Lemma time_lip_y cp g o x : 0 < cp -> flat_geom g -> lipschitz (2000 / cp) (fun y => travel_time cp g o (on_plane x y)).
Proof.
  intros Hcp Hg. assert (P : 0 < 1000 / cp) by (apply Rdiv_lt_0_compat; lra).
  replace (2000 / cp) with (1000 / cp + 1000 / cp) by (field; lra).
  assert (A : lipschitz (1000 / cp) (fun y => 1000 * distance o (on_plane x y) / cp)).
  { intros u w. cbv beta. replace (1000 * distance o (on_plane x u) / cp) with (1000 / cp * distance o (on_plane x u)) by (field; lra).
    replace (1000 * distance o (on_plane x w) / cp) with (1000 / cp * distance o (on_plane x w)) by (field; lra).
    apply (scaled_lip (1000 / cp) (fun y => distance o (on_plane x y))); [lra|apply dist_lip_y]. }
  unfold travel_time. apply (lipschitz_plus _ _ _ (fun y => lens cp g (on_plane x y)) A).
  destruct g; try contradiction; cbn [lens on_plane p_x p_y];
    solve [apply focus_lip_y; auto | apply (lipschitz_weak 0); [lra|apply lipschitz_const]].
Qed.

Lemma dist_plane_ge o x y : Rabs (p_z o) <= distance o (on_plane x y).
Proof.
  rewrite dist_plane. rewrite <- (sqrt_pow2 (Rabs (p_z o))) by apply Rabs_pos. rewrite pow2_abs.
  apply sqrt_le_1_alt. pose proof (pow2_ge_0 (p_x o - x)). pose proof (pow2_ge_0 (p_y o - y)). lra.
Qed.
Lemma inv_dist_lip z f : 0 < z -> (forall x, z <= f x) -> lipschitz 1 f -> lipschitz (/ z^2) (fun x => / f x).
Proof.
  intros Hz Hf H x y. pose proof (Hf x) as A. pose proof (Hf y) as B.
  replace (/ f x - / f y) with ((f y - f x) * / (f x * f y)) by (field; lra).
  assert (P : 0 < f x * f y) by nra.
  rewrite Rabs_mult, (Rabs_pos_eq (/ (f x * f y))) by (left; now apply Rinv_0_lt_compat).
  rewrite Rmult_comm, Rabs_minus_sym. apply Rmult_le_compat; auto using Rabs_pos.
  - left; now apply Rinv_0_lt_compat.
  - apply Rinv_le_contravar; nra.
  - specialize (H x y). lra.
Qed.

Definition amplitude (v : R) (o : pos) (x y : R) : R := 1000 * v / (2 * PI * distance o (on_plane x y)).
Definition integrand (cp v : R) (g : geom) (o : pos) (phi : R -> R) (x y : R) : R :=
  amplitude v o x y * phi (travel_time cp g o (on_plane x y)).

Section Integrand.
Variables (cp v : R) (g : geom) (o : pos) (phi : R -> R) (L M : R).
Hypothesis (Hcp : 0 < cp) (Hg : flat_geom g) (Hz : p_z o <> 0) (Hphi : smooth L M phi).
Let C := 1000 * Rabs v / (2 * PI).
Lemma C_eq : Rabs (1000 * v / (2 * PI)) = C.
Proof.
  unfold C, Rdiv. pose proof PI_RGT_0. rewrite !Rabs_mult. rewrite (Rabs_pos_eq 1000), (Rabs_pos_eq (/ (2 * PI))); [reflexivity| |lra].
  left. apply Rinv_0_lt_compat. lra.
Qed.
Lemma amp_split x y : amplitude v o x y = 1000 * v / (2 * PI) * / distance o (on_plane x y).
Proof.
  unfold amplitude. pose proof (dist_plane_ge o x y). pose proof (Rabs_pos_lt _ Hz). pose proof PI_RGT_0. field. split; lra.
Qed.
Lemma amp_bound x y : Rabs (amplitude v o x y) <= C / Rabs (p_z o).
Proof.
  rewrite amp_split, Rabs_mult, C_eq. pose proof (dist_plane_ge o x y). pose proof (Rabs_pos_lt _ Hz).
  unfold Rdiv at 1. apply Rmult_le_compat_l.
  - rewrite <- C_eq. apply Rabs_pos.
  - rewrite Rabs_pos_eq by (left; apply Rinv_0_lt_compat; lra). apply Rinv_le_contravar; lra.
Qed.
Lemma lip_cscal c L0 f : lipschitz L0 f -> lipschitz (Rabs c * L0) (fun x => c * f x).
Proof.
  intros H x y. replace (c * f x - c * f y) with (c * (f x - f y)) by ring. rewrite Rabs_mult, Rmult_assoc.
  apply Rmult_le_compat_l; [apply Rabs_pos|apply H].
Qed.
Lemma amp_lip_x y : lipschitz (C / p_z o ^2) (fun x => amplitude v o x y).
Proof.
  intros u w. rewrite !amp_split, <- C_eq.
  apply (lip_cscal (1000 * v / (2 * PI)) (/ p_z o ^2) (fun x => / distance o (on_plane x y))).
  rewrite <- (pow2_abs (p_z o)). apply inv_dist_lip; [now apply Rabs_pos_lt|intros; apply dist_plane_ge|apply dist_lip_x].
Qed.
Lemma amp_lip_y x : lipschitz (C / p_z o ^2) (fun y => amplitude v o x y).
Proof.
  intros u w. rewrite !amp_split, <- C_eq.
  apply (lip_cscal (1000 * v / (2 * PI)) (/ p_z o ^2) (fun y => / distance o (on_plane x y))).
  rewrite <- (pow2_abs (p_z o)). apply inv_dist_lip; [now apply Rabs_pos_lt|intros; apply dist_plane_ge|apply dist_lip_y].
Qed.
Let slope := C * (M / p_z o ^2 + 2000 * L / (cp * Rabs (p_z o))).
Lemma slope_eq : slope = C / p_z o ^2 * M + C / Rabs (p_z o) * (L * (2000 / cp)).
Proof. unfold slope. pose proof (Rabs_pos_lt _ Hz). field. repeat split; lra. Qed.
Lemma integrand_lip_x y : lipschitz slope (fun x => integrand cp v g o phi x y).
Proof.
  rewrite slope_eq. destruct Hphi as [HM HL].
  apply (lipschitz_mult (C / p_z o ^2) (L * (2000 / cp)) (C / Rabs (p_z o)) M (fun x => amplitude v o x y) (fun x => phi (travel_time cp g o (on_plane x y)))).
  - apply amp_lip_x.
  - apply (lipschitz_comp L (2000 / cp) phi); [exact HL|now apply time_lip_x].
  - intros x. apply amp_bound.
  - intros x. apply HM.
Qed.
Lemma integrand_lip_y x : lipschitz slope (fun y => integrand cp v g o phi x y).
Proof.
  rewrite slope_eq. destruct Hphi as [HM HL].
  apply (lipschitz_mult (C / p_z o ^2) (L * (2000 / cp)) (C / Rabs (p_z o)) M (fun y => amplitude v o x y) (fun y => phi (travel_time cp g o (on_plane x y)))).
  - apply amp_lip_y.
  - apply (lipschitz_comp L (2000 / cp) phi); [exact HL|now apply time_lip_y].
  - intros y. apply amp_bound.
  - intros y. apply HM.
Qed.
Lemma integrand_bound x y : Rabs (integrand cp v g o phi x y) <= C * M / Rabs (p_z o).
Proof.
  unfold integrand. rewrite Rabs_mult. destruct Hphi as [HM _].
  replace (C * M / Rabs (p_z o)) with (C / Rabs (p_z o) * M) by (unfold Rdiv; ring).
  apply Rmult_le_compat; auto using Rabs_pos. apply amp_bound.
Qed.
End Integrand.

(** ** The grids of the flat transducers are those of the region rule. *)
Definition src_at (q : rpar) (g : geom) (x y : R) : source :=
  {| s_x := x; s_y := y; s_z := 0; s_ds := p_dx q * p_dy q; s_tau := lens (p_cp q) g (on_plane x y) |}.
Lemma flat_sources q g : flat_geom g ->
  sources q g = map (fun '(x, y) => src_at q g x y)
    (flat_map (fun y => map (fun x => (x, y)) (midpoints (- half_width g y) (half_width g y) (p_dx q)))
       (midpoints (- half_height g) (half_height g) (p_dy q))).
Proof.
  intros Hg. destruct g; try contradiction; cbn [sources half_width half_height].
  - unfold rect_xy. replace (- a / 2) with (- (a / 2)) by field. replace (- b / 2) with (- (b / 2)) by field. reflexivity.
  - unfold rect_xy. replace (- a / 2) with (- (a / 2)) by field. replace (- b / 2) with (- (b / 2)) by field. reflexivity.
  - reflexivity.
  - reflexivity.
Qed.
Lemma flat_range g y : flat_geom g -> 0 <= half_width g y <= max_width g.
Proof. intros Hg. destruct g; try contradiction; cbn in *; try lra; now apply half_disc_range. Qed.
Lemma flat_cont g y : flat_geom g -> continuous (half_width g) y.
Proof. intros Hg. destruct g; try contradiction; cbn [half_width]; try apply continuous_const; apply half_disc_cont. Qed.
Lemma flat_height g : flat_geom g -> 0 <= half_height g.
Proof. intros Hg. destruct g; try contradiction; cbn in *; lra. Qed.
Lemma flat_edge g d y y' : flat_geom g -> 0 < d -> - half_height g <= y' <= half_height g -> Rabs (y - y') <= d / 2 ->
  Rabs (half_width g y - half_width g y') <= edge g d.
Proof.
  intros Hg Hd Hy' Hy. destruct g; try contradiction; cbn [half_width half_height edge] in *.
  - rewrite Rminus_eq_0, Rabs_R0. lra.
  - rewrite Rminus_eq_0, Rabs_R0. lra.
  - now apply half_disc_osc.
  - now apply half_disc_osc.
Qed.

Theorem field_bound q ntz delay g o phi L M : par_ok q -> 0 < p_dt q -> 0 < p_cp q -> flat_geom g -> p_z o <> 0 ->
  inside q ntz g delay o -> smooth L M phi ->
  Rabs (observed q ntz delay (fun k => rayleigh q 1 delay o (sources q g) (Z.of_nat k)) phi - radiated (p_cp q) (p_v q) g o phi)
  <= field_error q g (p_z o) L M.
Proof.
  intros Hq Hdt Hcp Hg Hz Hin Hphi.
  assert (Hgo : geom_ok q g) by (destruct g; try contradiction; exact I).
  rewrite observed_sources by (apply inside_arrives; auto).
  pose proof Hq as (Hx & Hy & _ & _).
  set (F := integrand (p_cp q) (p_v q) g o phi).
  set (C := 1000 * Rabs (p_v q) / (2 * PI)).
  assert (HL0 : 0 <= L) by exact (lip_pos L phi (proj2 Hphi)).
  pose proof (Rabs_pos_lt _ Hz) as Hz'. pose proof PI_RGT_0 as HPI.
  assert (HC : 0 <= C / Rabs (p_z o)).
  { unfold C. apply Rmult_le_pos; [|left; now apply Rinv_0_lt_compat]. apply Rmult_le_pos; [|left; apply Rinv_0_lt_compat; lra].
    apply Rmult_le_pos; [lra|apply Rabs_pos]. }
  (* the sources against the grid sum *)
  assert (D1 : Rabs (p_dt q * Rsum (map (fun s => strength q 1 o s * phi (delay + IZR (arrives_at q delay o s) * p_dt q)) (sources q g)) -
     p_dx q * p_dy q * Rsum (map (fun y => Rsum (map (fun x => F x y) (midpoints (- half_width g y) (half_width g y) (p_dx q))))
       (midpoints (- half_height g) (half_height g) (p_dy q)))) <=
     C / Rabs (p_z o) * (L * p_dt q / 2) * ((2 * half_height g + p_dy q / 2) * (2 * max_width g + p_dx q / 2))).
  { assert (Hsrc : forall s, In s (sources q g) -> arrival q delay o s = (travel_time (p_cp q) g o (spos s) - delay) / p_dt q)
      by (intros s Hs; now apply arrival_time).
    rewrite (flat_sources q g Hg) in *.
    set (P := flat_map _ _) in *.
    assert (EF : p_dx q * p_dy q * Rsum (map (fun y => Rsum (map (fun x => F x y) (midpoints (- half_width g y) (half_width g y) (p_dx q))))
       (midpoints (- half_height g) (half_height g) (p_dy q))) = p_dx q * p_dy q * Rsum (map (fun '(x, y) => F x y) P)).
    { unfold P. rewrite Rsum_flat. f_equal. apply Rsum_ext. intros y _. rewrite map_map. reflexivity. }
    assert (E1 : p_dx q * p_dy q * Rsum (map (fun _ => 1) P) <= (2 * half_height g + p_dy q / 2) * (2 * max_width g + p_dx q / 2)).
    { unfold P. rewrite Rsum_flat.
      pose proof (region_count (half_width g) (half_height g) (max_width g) (flat_height g Hg) (fun y => flat_range g y Hg) (p_dx q) (p_dy q) Hx Hy) as B.
      eapply Rle_trans; [|exact B]. right. f_equal. apply Rsum_ext. intros y _. rewrite map_map. reflexivity. }
    rewrite EF. clear EF. clearbody P. rewrite map_map in *. rewrite <- !Rsum_scal.
    apply Rle_trans with (Rsum (map (fun _ : R * R => C / Rabs (p_z o) * (L * p_dt q / 2) * (p_dx q * p_dy q)) P)).
    - apply Rsum_dev. intros [x y] Hxy. cbv beta iota.
      specialize (Hsrc _ (in_map _ _ _ Hxy)). cbv beta iota in Hsrc.
      change (spos (src_at q g x y)) with (on_plane x y) in Hsrc.
      unfold arrives_at. rewrite Hsrc.
      set (T := travel_time (p_cp q) g o (on_plane x y)).
      pose proof (Zrint_near ((T - delay) / p_dt q)) as Hr. set (k := Zrint _) in *.
      assert (Ht : Rabs (delay + IZR k * p_dt q - T) <= p_dt q / 2).
      { replace (delay + IZR k * p_dt q - T) with (- (((T - delay) / p_dt q - IZR k) * p_dt q)) by (field; lra).
        rewrite Rabs_Ropp, Rabs_mult, (Rabs_pos_eq (p_dt q)) by lra. apply (Rmult_le_compat_r (p_dt q)) in Hr; lra. }
      assert (Es : p_dt q * (strength q 1 o (src_at q g x y) * phi (delay + IZR k * p_dt q)) =
                   p_dx q * p_dy q * (amplitude (p_v q) o x y * phi (delay + IZR k * p_dt q))).
      { unfold strength. change (SpecRayleigh.dist o (src_at q g x y)) with (distance o (on_plane x y)). cbn [s_ds src_at]. unfold amplitude.
        pose proof (dist_plane_ge o x y). field. repeat split; lra. }
      rewrite Es. unfold F, integrand. fold T.
      match goal with |- Rabs (?D * (?A * ?u) - ?D * (?A * ?w)) <= _ =>
        replace (D * (A * u) - D * (A * w)) with (D * (A * (u - w))) by ring end.
      rewrite !Rabs_mult. rewrite (Rabs_pos_eq (p_dx q)), (Rabs_pos_eq (p_dy q)) by lra.
      rewrite (Rmult_comm (C / Rabs (p_z o) * (L * p_dt q / 2))). apply Rmult_le_compat_l; [nra|].
      apply Rmult_le_compat; auto using Rabs_pos.
      + now apply amp_bound.
      + eapply Rle_trans; [apply (proj2 Hphi)|]. replace (L * p_dt q / 2) with (L * (p_dt q / 2)) by field. now apply Rmult_le_compat_l.
    - assert (E2 : Rsum (map (fun _ : R * R => C / Rabs (p_z o) * (L * p_dt q / 2) * (p_dx q * p_dy q)) P) =
                   C / Rabs (p_z o) * (L * p_dt q / 2) * (p_dx q * p_dy q * Rsum (map (fun _ => 1) P))).
      { rewrite <- !Rsum_scal. apply Rsum_ext. intros _ _. ring. }
      rewrite E2. apply Rmult_le_compat_l; [|exact E1]. apply Rmult_le_pos; auto. apply Rmult_le_pos; [apply Rmult_le_pos; lra|lra]. }
  assert (D2 := region_rule (half_width g) (half_height g) (max_width g) _ _ F (flat_height g Hg) (fun y => flat_range g y Hg)
     (fun y => flat_cont g y Hg) (integrand_lip_x (p_cp q) (p_v q) g o phi L M Hcp Hg Hz Hphi) (integrand_lip_y (p_cp q) (p_v q) g o phi L M Hcp Hg Hz Hphi)
     (integrand_bound (p_cp q) (p_v q) g o phi L M Hz Hphi) (p_dx q) (p_dy q) (edge g (p_dy q)) Hx Hy (fun y y' => flat_edge g (p_dy q) y y' Hg Hy)).
  fold C in D2. change (RInt _ (- half_height g) (half_height g)) with (radiated (p_cp q) (p_v q) g o phi) in D2.
  rewrite Rabs_minus_sym in D2. unfold field_error. fold C.
  match goal with |- Rabs (?A - ?B) <= _ => match type of D1 with Rabs (_ - ?S) <= _ => replace (A - B) with ((A - S) + (S - B)) by ring end end.
  eapply Rle_trans; [apply Rabs_triang|]. apply Rplus_le_compat; [exact D1|exact D2].
Qed.
