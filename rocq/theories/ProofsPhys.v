(** ProofsPhys.v - source points lie on the surface, travel times, scaling. *)
From Coq Require Import Reals Lra Lia ZArith List Bool.
From Coq Require Import ZifyBool ZifyNat.
From Verif Require Import Base BaseLemmas ModelSir ModelArr ModelSmp NumR SpecSir SpecRayleigh SpecArr SpecSmp
  ModelGw SpecGw SpecGwR ProofsEnum ProofsR ProofsRayleigh ProofsSirR SpecPhys.
Import ListNotations.
Open Scope R_scope.

Definition spos (s : source) : pos := {| p_x := s_x s; p_y := s_y s; p_z := s_z s |}.

Lemma in_rect_xy q a b x y : 0 < p_dx q -> 0 < p_dy q -> In (x, y) (rect_xy q a b) -> Rabs x <= a / 2 /\ Rabs y <= b / 2.
Proof.
  intros Hx Hy H. unfold rect_xy in H. apply in_flat_map in H as (y' & H1 & H2).
  apply in_map_iff in H2 as (x' & E & H2). injection E as -> ->.
  apply in_midpoints in H1; auto. apply in_midpoints in H2; auto.
  split; apply Rabs_le; lra.
Qed.
Lemma in_disc_xy q r x y : 0 < p_dx q -> 0 < p_dy q -> In (x, y) (disc_xy q r) -> 0 < r /\ x^2 + y^2 <= r^2.
Proof.
  intros Hx Hy H. unfold disc_xy in H. apply in_flat_map in H as (y' & H1 & H2).
  apply in_map_iff in H2 as (x' & E & H2). injection E as -> ->.
  apply in_midpoints in H1; auto. apply in_midpoints in H2; auto.
  assert (Hr : 0 <= r^2 - y^2) by nra.
  assert (Hs : sqrt (r^2 - y^2) * sqrt (r^2 - y^2) = r^2 - y^2) by (apply sqrt_sqrt; exact Hr).
  pose proof (sqrt_pos (r^2 - y^2)). split; [lra|nra].
Qed.

Lemma sag_sq Rc u : 0 <= u <= Rc^2 -> let z := Rabs Rc - sqrt (Rc^2 - u) in
  0 <= z <= Rabs Rc /\ u + (z - Rabs Rc)^2 = Rc^2.
Proof.
  intros Hu z. assert (Hs : sqrt (Rc^2 - u) * sqrt (Rc^2 - u) = Rc^2 - u) by (apply sqrt_sqrt; lra).
  pose proof (sqrt_pos (Rc^2 - u)). pose proof (Rabs_pos Rc).
  assert (HR : Rabs Rc * Rabs Rc = Rc^2) by (rewrite <- Rabs_mult; rewrite Rabs_pos_eq; [ring|nra]).
  unfold z. split; [split; nra|nra].
Qed.

(** The source points lie on the surface and carry its focusing delay. *)
Lemma source_on_surface q g s : par_ok q -> geom_ok q g -> In s (sources q g) ->
  on_surface g (spos s) /\ s_tau s = lens (p_cp q) g (spos s).
Proof.
  intros (Hx & Hy & _ & _) Hg H. destruct g; cbn [sources] in H; cbn [on_surface lens].
  - apply in_map_iff in H as ([x y] & <- & H). apply in_rect_xy in H as [H1 H2]; auto.
  - apply in_map_iff in H as ([x y] & <- & H). apply in_rect_xy in H as [H1 H2]; auto.
  - apply in_map_iff in H as ([x y] & <- & H). apply in_disc_xy in H as [Hr H]; auto.
  - apply in_map_iff in H as ([x y] & <- & H). apply in_disc_xy in H as [Hr H]; auto.
  - apply in_map_iff in H as (x & <- & H). apply in_midpoints in H; auto. cbn.
    split; [|reflexivity]. split; [apply Rabs_le; lra|auto].
  - apply in_map_iff in H as ([x y] & <- & H). apply in_disc_xy in H as [Hr H]; auto. cbn in Hg.
    cbn [spos s_x s_y s_z s_tau p_x p_y p_z]. split; [|reflexivity]. split; [exact H|].
    assert (HR : Rabs Rcurv * Rabs Rcurv = Rcurv^2) by (rewrite <- Rabs_mult; rewrite Rabs_pos_eq; [ring|nra]).
    assert (Hu : 0 <= x^2 + y^2 <= Rcurv^2) by (split; nra).
    pose proof (sag_sq Rcurv (x^2 + y^2) Hu) as [Hz1 Hz2]. cbv zeta in Hz1, Hz2.
    replace (Rcurv^2 - (x^2 + y^2)) with (Rcurv^2 - x^2 - y^2) in Hz1, Hz2 by ring.
    set (z := Rabs Rcurv - sqrt (Rcurv^2 - x^2 - y^2)) in *. clearbody z.
    unfold Rleb. destruct (Rle_dec 0 Rcurv) as [Hc|Hc].
    + rewrite (Rabs_pos_eq Rcurv) in * by lra. split; [exact Hz2|]. rewrite Rabs_pos_eq; lra.
    + rewrite (Rabs_left Rcurv) in * by lra. split; [nra|]. rewrite Rabs_Ropp, Rabs_pos_eq; lra.
  - destruct Hg as [Hb Hd]. apply in_flat_map in H as (ph & H1 & H2). apply in_map_iff in H2 as (x & <- & H2).
    apply in_midpoints in H2; auto.
    assert (HRc : 0 < Rabs Rcurv) by (pose proof (Rabs_pos (b / 2)); lra).
    assert (Hdp : 0 < asin (p_dy q / Rabs Rcurv)).
    { apply asin_pos. split; [apply Rdiv_lt_0_compat; lra|]. apply Rmult_le_reg_r with (Rabs Rcurv); auto. field_simplify; lra. }
    apply in_midpoints in H1; [|exact Hdp].
    cbn [spos s_x s_y s_z s_tau p_x p_y p_z]. split; [|reflexivity].
    split; [apply Rabs_le; lra|].
    assert (HR : Rabs Rcurv * Rabs Rcurv = Rcurv^2) by (rewrite <- Rabs_mult; rewrite Rabs_pos_eq; [ring|nra]).
    assert (Hu : -1 <= b / 2 / Rabs Rcurv <= 1).
    { apply Rabs_def2 in Hb as [Hb1 Hb2]. split; (apply Rmult_le_reg_r with (Rabs Rcurv); auto); unfold Rdiv at 1;
      rewrite ?Rmult_assoc, ?Rinv_l, ?Rmult_1_r by lra; try (unfold Rdiv; rewrite Rmult_assoc, Rinv_l by lra); lra. }
    pose proof (asin_bound (b / 2 / Rabs Rcurv)) as Hab. pose proof PI_RGT_0.
    assert (Hs : - (b / 2 / Rabs Rcurv) <= sin ph <= b / 2 / Rabs Rcurv).
    { rewrite <- (sin_asin (b / 2 / Rabs Rcurv)) by exact Hu. rewrite <- sin_neg. split; apply sin_incr_1; lra. }
    pose proof (COS_bound ph) as Hc. pose proof (sin2_cos2 ph) as H1sc. unfold Rsqr in H1sc.
    assert (Hc0 : 0 <= cos ph) by (apply cos_ge_0; lra).
    split.
    + rewrite Rabs_mult, Rabs_Rabsolu. apply Rmult_le_reg_r with (/ Rabs Rcurv); [apply Rinv_0_lt_compat; lra|].
      replace (Rabs Rcurv * Rabs (sin ph) * / Rabs Rcurv) with (Rabs (sin ph)) by (field; lra).
      apply Rabs_le. exact Hs.
    + assert (E : forall c s0, s0 * s0 + c * c = 1 -> (Rabs Rcurv * s0)^2 + (Rabs Rcurv * (1 - c) - Rabs Rcurv)^2 = Rcurv^2).
      { intros c s0 E. rewrite <- HR. transitivity (Rabs Rcurv * Rabs Rcurv * (s0 * s0 + c * c)); [ring|rewrite E; ring]. }
      specialize (E (cos ph) (sin ph) H1sc).
      assert (Hz : 0 <= Rabs Rcurv * (1 - cos ph) <= Rabs Rcurv) by (split; nra).
      set (yy := Rabs Rcurv * sin ph) in *. set (z := Rabs Rcurv * (1 - cos ph)) in *. clearbody yy z.
      unfold Rleb. destruct (Rle_dec 0 Rcurv) as [Hp|Hp].
      * rewrite (Rabs_pos_eq Rcurv) in * by lra. split; [exact E|]. rewrite Rabs_pos_eq; lra.
      * rewrite (Rabs_left Rcurv) in * by lra. split; [nra|]. rewrite Rabs_Ropp, Rabs_pos_eq; lra.
Qed.

Lemma arrival_time q g delay o s : par_ok q -> geom_ok q g -> In s (sources q g) ->
  arrival q delay o s = (travel_time (p_cp q) g o (spos s) - delay) / p_dt q.
Proof.
  intros Hq Hg Hs. destruct (source_on_surface q g s Hq Hg Hs) as [_ E]. unfold arrival, travel_time. rewrite E.
  change (distance o (spos s)) with (dist o s). f_equal. ring.
Qed.

(** ** Sums *)
Lemma Rsum_app l l' : Rsum (l ++ l') = Rsum l + Rsum l'.
Proof. unfold Rsum. induction l as [|x l IH]; cbn; [ring|]. rewrite IH. ring. Qed.
Lemma Rsum_ge0 {A} (f : A -> R) l : (forall a, In a l -> 0 <= f a) -> 0 <= Rsum (map f l).
Proof.
  induction l as [|a l IH]; intros H; cbn; [lra|].
  assert (0 <= f a) by (apply H; left; auto). assert (0 <= Rsum (map f l)) by (apply IH; intros; apply H; right; auto).
  unfold Rsum in *. lra.
Qed.
Lemma Rsum_0 {A} (f : A -> R) l : (forall a, In a l -> f a = 0) -> Rsum (map f l) = 0.
Proof.
  induction l as [|a l IH]; intros H; cbn; [reflexivity|].
  rewrite (H a) by (left; auto). rewrite Rplus_0_l. apply IH. intros; apply H; right; auto.
Qed.
Lemma Rsum_ext {A} (f f' : A -> R) l : (forall a, In a l -> f a = f' a) -> Rsum (map f l) = Rsum (map f' l).
Proof. intros H. f_equal. now apply map_ext_in. Qed.
Lemma Rsum_plus {A} (f f' : A -> R) l : Rsum (map (fun a => f a + f' a) l) = Rsum (map f l) + Rsum (map f' l).
Proof. induction l as [|a l IH]; cbn; [ring|]. unfold Rsum in *. rewrite IH. ring. Qed.
Lemma Rsum_scal {A} c (f : A -> R) l : Rsum (map (fun a => c * f a) l) = c * Rsum (map f l).
Proof. induction l as [|a l IH]; cbn; [ring|]. unfold Rsum in *. rewrite IH. ring. Qed.
Lemma Rsum_swap {A B} (f : A -> B -> R) l l' :
  Rsum (map (fun a => Rsum (map (f a) l')) l) = Rsum (map (fun b => Rsum (map (fun a => f a b) l)) l').
Proof.
  induction l as [|a l IH]; cbn [map].
  - cbn. symmetry. apply Rsum_0. reflexivity.
  - change (Rsum (map (f a) l') + Rsum (map (fun a0 => Rsum (map (f a0) l')) l) =
            Rsum (map (fun b => f a b + Rsum (map (fun a0 => f a0 b) l)) l')).
    rewrite IH, Rsum_plus. reflexivity.
Qed.
Lemma Rsum_le {A} (f f' : A -> R) l : (forall a, In a l -> f a <= f' a) -> Rsum (map f l) <= Rsum (map f' l).
Proof.
  intros H. apply Rminus_le.
  replace (Rsum (map f l) - Rsum (map f' l)) with (- Rsum (map (fun a => f' a + -1 * f a) l)).
  - assert (0 <= Rsum (map (fun a => f' a + -1 * f a) l)); [|lra]. apply Rsum_ge0. intros a Ha. specialize (H a Ha). lra.
  - rewrite Rsum_plus, Rsum_scal. ring.
Qed.
(** One term of a sum over 0..n-1. *)
Lemma Rsum_single (n : nat) (z : Z) x : (0 <= z < Z.of_nat n)%Z ->
  Rsum (map (fun k => if Z.eqb z (Z.of_nat k) then x else 0) (seq 0 n)) = x.
Proof.
  intros Hz. replace n with (Z.to_nat z + (1 + (n - Z.to_nat z - 1)))%nat by lia.
  rewrite !seq_app, !map_app, !Rsum_app. cbn [seq map].
  rewrite (Rsum_0 _ (seq 0 (Z.to_nat z))); [|intros k Hk; apply in_seq in Hk; replace (Z.eqb z (Z.of_nat k)) with false by lia; reflexivity].
  rewrite (Rsum_0 _ (seq (0 + Z.to_nat z + 1) _)); [|intros k Hk; apply in_seq in Hk; replace (Z.eqb z (Z.of_nat k)) with false by lia; reflexivity].
  cbn [Rsum fold_right]. replace (Z.eqb z (Z.of_nat (0 + Z.to_nat z))) with true by lia. ring.
Qed.

Lemma rayleigh_0 q w delay o src k : (forall s, In s src -> arrives_at q delay o s <> k) -> rayleigh q w delay o src k = 0.
Proof. intros H. apply Rsum_0. intros s Hs. specialize (H s Hs). now replace (Z.eqb (arrives_at q delay o s) k) with false by lia. Qed.

Lemma rayleigh_total q w delay o src ntz : (forall s, In s src -> (0 <= arrives_at q delay o s < ntz)%Z) ->
  Rsum (map (fun k => rayleigh q w delay o src (Z.of_nat k)) (seq 0 (Z.to_nat ntz))) = Rsum (map (strength q w o) src).
Proof.
  intros H. unfold rayleigh. rewrite Rsum_swap. apply Rsum_ext. intros s Hs. apply Rsum_single. specialize (H s Hs). lia.
Qed.

Lemma inside_arrives q ntz g delay o : par_ok q -> geom_ok q g -> 0 < p_dt q -> inside q ntz g delay o ->
  forall s, In s (sources q g) -> (0 <= arrives_at q delay o s < ntz)%Z.
Proof.
  intros Hq Hg Hdt (lo & hi & Ht & H1 & H2) s Hs.
  destruct (source_on_surface q g s Hq Hg Hs) as [Hon _]. specialize (Ht _ Hon).
  unfold arrives_at. rewrite (arrival_time q g) by auto.
  set (t := travel_time _ _ _ _) in *. clearbody t.
  assert (L : - (1 / 2) < (t - delay) / p_dt q).
  { apply Rmult_lt_reg_r with (p_dt q); auto. unfold Rdiv at 2. rewrite Rmult_assoc, Rinv_l by lra. lra. }
  assert (U : (t - delay) / p_dt q < IZR ntz - 1 / 2).
  { apply Rmult_lt_reg_r with (p_dt q); auto. unfold Rdiv at 1. rewrite Rmult_assoc, Rinv_l by lra. lra. }
  pose proof (Zrint_near ((t - delay) / p_dt q)) as Hn0.
  assert (Hn : - (1 / 2) <= (t - delay) / p_dt q - IZR (Zrint ((t - delay) / p_dt q)) <= 1 / 2)
    by (revert Hn0; unfold Rabs; destruct (Rcase_abs _); lra).
  split.
  - assert (IZR (-1) < IZR (Zrint ((t - delay) / p_dt q))) by lra. apply lt_IZR in H. lia.
  - apply lt_IZR. lra.
Qed.

(** ** Change of units *)
Definition scale_src (s : R) (c : source) : source :=
  {| s_x := s * s_x c; s_y := s * s_y c; s_z := s * s_z c; s_ds := s * s * s_ds c; s_tau := s * s_tau c |}.

Lemma midpoints_scale s lo hi d : 0 < s -> 0 < d -> midpoints (s * lo) (s * hi) (s * d) = map (Rmult s) (midpoints lo hi d).
Proof.
  intros Hs Hd. unfold midpoints. rewrite map_map.
  replace (count (s * lo + s * d / 2) (s * hi) (s * d)) with (count (lo + d / 2) hi d).
  - apply map_ext. intros i. unfold mid. field.
  - unfold count. do 3 f_equal. field. lra.
Qed.
Lemma sqrt_scale s x : 0 < s -> sqrt (s * s * x) = s * sqrt x.
Proof. intros Hs. rewrite sqrt_mult_alt by nra. rewrite sqrt_square by lra. reflexivity. Qed.

Lemma rect_xy_scale s q a b : 0 < s -> 0 < p_dx q -> 0 < p_dy q ->
  rect_xy (scale_par s q) (s * a) (s * b) = map (fun '(x, y) => (s * x, s * y)) (rect_xy q a b).
Proof.
  intros Hs Hx Hy. unfold rect_xy. cbn [scale_par p_dx p_dy].
  replace (- (s * a) / 2) with (s * (- a / 2)) by field. replace (s * a / 2) with (s * (a / 2)) by field.
  replace (- (s * b) / 2) with (s * (- b / 2)) by field. replace (s * b / 2) with (s * (b / 2)) by field.
  rewrite !midpoints_scale by auto. rewrite flat_map_map_l, flat_map_map. apply flat_map_ext_in. intros y _.
  rewrite !map_map. reflexivity.
Qed.
Lemma disc_xy_scale s q r : 0 < s -> 0 < p_dx q -> 0 < p_dy q ->
  disc_xy (scale_par s q) (s * r) = map (fun '(x, y) => (s * x, s * y)) (disc_xy q r).
Proof.
  intros Hs Hx Hy. unfold disc_xy. cbn [scale_par p_dx p_dy].
  replace (- (s * r)) with (s * - r) by ring.
  rewrite midpoints_scale by auto. rewrite flat_map_map_l, flat_map_map. apply flat_map_ext_in. intros y _.
  replace ((s * r)^2 - (s * y)^2) with (s * s * (r^2 - y^2)) by ring. rewrite sqrt_scale by auto.
  replace (- (s * sqrt (r^2 - y^2))) with (s * - sqrt (r^2 - y^2)) by ring.
  rewrite midpoints_scale by auto. rewrite !map_map. reflexivity.
Qed.
Lemma focus_tau_scale s cp f F X Y RR x y : 0 < s ->
  focus_tau cp f (s * F) (s * X) (s * Y) (s * s * RR) (s * x) (s * y) = s * focus_tau cp f F X Y RR x y.
Proof.
  intros Hs. unfold focus_tau.
  assert (E2 : forall u w, sqrt ((s * u)^2 + (s * w)^2) = s * sqrt (u^2 + w^2))
    by (intros u w; rewrite <- sqrt_scale by auto; f_equal; ring).
  assert (E3 : sqrt ((s * x)^2 + (s * y)^2 + (s * F)^2) = s * sqrt (x^2 + y^2 + F^2))
    by (rewrite <- sqrt_scale by auto; f_equal; ring).
  assert (ER : sqrt (s * s * RR + (s * F)^2) = s * sqrt (RR + F^2))
    by (rewrite <- sqrt_scale by auto; f_equal; ring).
  destruct f; rewrite ?E2, ?E3, ?ER; ring.
Qed.
Lemma source_eq x x' y y' z z' d d' t t' : x = x' -> y = y' -> z = z' -> d = d' -> t = t' ->
  {| s_x := x; s_y := y; s_z := z; s_ds := d; s_tau := t |} = {| s_x := x'; s_y := y'; s_z := z'; s_ds := d'; s_tau := t' |}.
Proof. intros -> -> -> -> ->. reflexivity. Qed.
Lemma Rleb_scale s x : 0 < s -> Rleb 0 (s * x) = Rleb 0 x.
Proof. intros Hs. unfold Rleb. destruct (Rle_dec 0 (s * x)), (Rle_dec 0 x); auto; nra. Qed.

Lemma sources_scaled s q g : 0 < s -> 0 < p_dx q -> 0 < p_dy q ->
  sources (scale_par s q) (scale_geom s g) = map (scale_src s) (sources q g).
Proof.
  intros Hs Hx Hy. assert (HA : forall c, Rabs (s * c) = s * Rabs c) by (intros c; rewrite Rabs_mult, (Rabs_pos_eq s) by lra; auto).
  destruct g; cbn [sources scale_geom].
  - rewrite rect_xy_scale by auto. rewrite !map_map. apply map_ext. intros [x y]. unfold flat, scale_src.
    cbn [s_x s_y s_z s_ds s_tau scale_par p_dx p_dy]. apply source_eq; ring.
  - rewrite rect_xy_scale by auto. rewrite !map_map. apply map_ext. intros [x y]. unfold scale_src.
    cbn [s_x s_y s_z s_ds s_tau scale_par p_dx p_dy p_cp]. apply source_eq; try ring.
    rewrite <- focus_tau_scale by auto. f_equal. ring.
  - rewrite disc_xy_scale by auto. rewrite !map_map. apply map_ext. intros [x y]. unfold flat, scale_src.
    cbn [s_x s_y s_z s_ds s_tau scale_par p_dx p_dy]. apply source_eq; ring.
  - rewrite disc_xy_scale by auto. rewrite !map_map. apply map_ext. intros [x y]. unfold scale_src.
    cbn [s_x s_y s_z s_ds s_tau scale_par p_dx p_dy p_cp]. apply source_eq; try ring.
    rewrite <- focus_tau_scale by auto. f_equal. ring.
  - cbn [scale_par p_dx p_dy].
    replace (- (s * a) / 2) with (s * (- a / 2)) by field. replace (s * a / 2) with (s * (a / 2)) by field.
    rewrite midpoints_scale by auto. rewrite !map_map. apply map_ext. intros x. unfold flat, scale_src.
    cbn [s_x s_y s_z s_ds s_tau]. apply source_eq; ring.
  - rewrite disc_xy_scale by auto. rewrite !map_map. apply map_ext. intros [x y]. unfold scale_src.
    cbn [s_x s_y s_z s_ds s_tau scale_par p_dx p_dy]. apply source_eq; try ring.
    rewrite Rleb_scale, HA by auto.
    replace ((s * Rcurv)^2 - (s * x)^2 - (s * y)^2) with (s * s * (Rcurv^2 - x^2 - y^2)) by ring.
    rewrite sqrt_scale by auto. destruct (Rleb 0 Rcurv); ring.
  - cbn [scale_par p_dx p_dy]. rewrite HA.
    replace (- (s * a) / 2) with (s * (- a / 2)) by field. replace (s * a / 2) with (s * (a / 2)) by field.
    destruct (Req_dec (Rabs Rcurv) 0) as [E|E].
    + rewrite E, !Rmult_0_r. unfold Rdiv. rewrite Rinv_0, !Rmult_0_r.
      rewrite flat_map_map. apply flat_map_ext_in. intros ph _.
      rewrite midpoints_scale by auto. rewrite !map_map. apply map_ext. intros x. unfold scale_src.
      cbn [s_x s_y s_z s_ds s_tau]. rewrite Rleb_scale by auto. apply source_eq; try ring. destruct (Rleb 0 Rcurv); ring.
    + replace (s * b / 2 / (s * Rabs Rcurv)) with (b / 2 / Rabs Rcurv) by (field; lra).
      replace (s * p_dy q / (s * Rabs Rcurv)) with (p_dy q / Rabs Rcurv) by (field; lra).
      rewrite flat_map_map. apply flat_map_ext_in. intros ph _.
      rewrite midpoints_scale by auto. rewrite !map_map. apply map_ext. intros x. unfold scale_src.
      cbn [s_x s_y s_z s_ds s_tau]. rewrite Rleb_scale by auto. apply source_eq; try ring. destruct (Rleb 0 Rcurv); ring.
Qed.

Lemma dist_scaled s o c : 0 < s -> dist (scale_pos s o) (scale_src s c) = s * dist o c.
Proof.
  intros Hs. unfold dist, scale_pos, scale_src. cbn [p_x p_y p_z s_x s_y s_z].
  rewrite <- sqrt_scale by auto. f_equal. ring.
Qed.
Lemma arrives_scaled s q delay o c : 0 < s -> p_dt q <> 0 ->
  arrives_at (scale_par s q) (s * delay) (scale_pos s o) (scale_src s c) = arrives_at q delay o c.
Proof.
  intros Hs Hdt. unfold arrives_at. f_equal. unfold arrival. rewrite dist_scaled by auto. cbn [scale_par p_cp p_dt scale_src s_tau].
  replace (1000 * (s * dist o c) / p_cp q - s * delay + s * s_tau c) with (s * (1000 * dist o c / p_cp q - delay + s_tau c)) by (unfold Rdiv; ring).
  generalize (1000 * dist o c / p_cp q - delay + s_tau c). intros X. field. lra.
Qed.
Lemma strength_scaled s q w o c : 0 < s -> p_dt q <> 0 -> dist o c <> 0 ->
  strength (scale_par s q) w (scale_pos s o) (scale_src s c) = strength q w o c.
Proof.
  intros Hs Hdt Hd. unfold strength. rewrite dist_scaled by auto. cbn [scale_par p_dt p_v scale_src s_ds].
  pose proof PI_RGT_0. field. repeat split; lra.
Qed.
Lemma rayleigh_scaled s q w delay o g k : 0 < s -> par_ok q -> off_source q g o ->
  rayleigh (scale_par s q) w (s * delay) (scale_pos s o) (sources (scale_par s q) (scale_geom s g)) k =
  rayleigh q w delay o (sources q g) k.
Proof.
  intros Hs (Hx & Hy & Hdt & _) Hoff. rewrite sources_scaled by auto. unfold rayleigh. rewrite map_map.
  apply Rsum_ext. intros c Hc. rewrite arrives_scaled, strength_scaled by auto. reflexivity.
Qed.

Lemma enough_scaled s fuel q g : 0 < s -> 0 < p_dx q -> 0 < p_dy q -> geom_ok q g -> enough fuel q g -> enough fuel (scale_par s q) (scale_geom s g).
Proof.
  intros Hs Hx Hy Hg. assert (HA : forall c, Rabs (s * c) = s * Rabs c) by (intros c; rewrite Rabs_mult, (Rabs_pos_eq s) by lra; auto).
  assert (C : forall lo lo' hi hi' d, 0 < d -> lo' = s * lo -> hi' = s * hi -> count (lo' + s * d / 2) hi' (s * d) = count (lo + d / 2) hi d).
  { intros lo lo' hi hi' d Hd -> ->. unfold count. do 3 f_equal. field. lra. }
  destruct g; cbn [enough scale_geom scale_par p_dx p_dy].
  1,2: rewrite (C (- a / 2) _ (a / 2)) by (auto; field); rewrite (C (- b / 2) _ (b / 2)) by (auto; field); auto.
  1,2,4: rewrite HA, (C (- Rabs rad) _ (Rabs rad)) by (auto; ring); rewrite (C (- rad) _ rad) by (auto; ring); auto.
  - rewrite (C (- a / 2) _ (a / 2)) by (auto; field); auto.
  - destruct Hg as [Hb _]. assert (0 < Rabs Rcurv) by (pose proof (Rabs_pos (b / 2)); lra).
    rewrite (C (- a / 2) _ (a / 2)) by (auto; field). rewrite HA.
    replace (s * b / 2 / (s * Rabs Rcurv)) with (b / 2 / Rabs Rcurv) by (field; lra).
    replace (s * p_dy q / (s * Rabs Rcurv)) with (p_dy q / Rabs Rcurv) by (field; lra). auto.
Qed.

Lemma defined_scaled s K fuel q ntz g delay o : 0 < s ->
  defined K fuel q ntz g delay o -> defined K fuel (scale_par s q) ntz (scale_geom s g) (s * delay) (scale_pos s o).
Proof.
  intros Hs [(Hx & Hy & Hdt & Hcp) Hg Hoff Hi He Hn].
  assert (HA : forall c, Rabs (s * c) = s * Rabs c) by (intros c; rewrite Rabs_mult, (Rabs_pos_eq s) by lra; auto).
  constructor; auto.
  - unfold par_ok, scale_par. cbn [p_dx p_dy p_dt p_cp]. repeat split; try nra; auto.
  - destruct g; cbn [geom_ok scale_geom] in *; auto; cbn [scale_par p_dy].
    + rewrite HA. nra.
    + rewrite HA. replace (s * b / 2) with (s * (b / 2)) by field. rewrite HA. nra.
  - intros c Hc. rewrite sources_scaled in Hc by auto. apply in_map_iff in Hc as (c' & <- & Hc').
    rewrite dist_scaled by auto. specialize (Hoff c' Hc'). intros E. apply Rmult_integral in E. lra.
  - intros c Hc. rewrite sources_scaled in Hc by auto. apply in_map_iff in Hc as (c' & <- & Hc').
    rewrite arrives_scaled by auto. exact (Hi c' Hc').
  - now apply enough_scaled.
Qed.
