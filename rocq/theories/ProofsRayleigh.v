(** ProofsRayleigh.v - the source points visited by the code, in exact
    arithmetic, are those of SpecRayleigh.v. *)
From Coq Require Import Reals Lra Lia ZArith List Bool.
From Coq Require Import ZifyBool ZifyNat.
From Verif Require Import Base BaseLemmas ModelSir ModelArr NumR SpecSir SpecRayleigh ProofsEnum ProofsR.
Import ListNotations.
Open Scope R_scope.

(** The loops of each transducer; [w]: element weight (1 for those without). *)
Definition scanner_of (at_ : bool) (q : samp EN) (g : geom) (w delay : R) (o : pos) : scanner EN :=
  match g with
  | GRect a b => rect_scanner (N:=EN) q (Some a) (Some b) (Some delay) (Some w) (Some (p_x o)) (Some (p_y o)) (Some (p_z o))
  | GRectF a b f F => rect_f_scanner (N:=EN) q (Some a) (Some b) f (Some F) at_ (Some delay) (Some (p_x o)) (Some (p_y o)) (Some (p_z o))
  | GCirc r => circ_scanner (N:=EN) q (Some r) (Some delay) (Some w) (Some (p_x o)) (Some (p_y o)) (Some (p_z o))
  | GCircF r f F => circ_f_scanner (N:=EN) q (Some r) f (Some F) (Some delay) (Some (p_x o)) (Some (p_y o)) (Some (p_z o))
  | GLine a => line_scanner (N:=EN) q (Some a) (Some delay) (Some (p_x o)) (Some (p_y o)) (Some (p_z o))
  | GSphere r Rc => sphere_scanner (N:=EN) q (Some r) (Some Rc) (Some delay) (Some (p_x o)) (Some (p_y o)) (Some (p_z o))
  | GCylind a b Rc => cylind_scanner (N:=EN) q (Some a) (Some b) (Some Rc) (Some delay) (Some w) (Some (p_x o)) (Some (p_y o)) (Some (p_z o))
  end.
Definition weighted (g : geom) : bool := match g with GRect _ _ | GCirc _ | GCylind _ _ _ => true | _ => false end.

Definition contrib_of (q : rpar) (w delay : R) (o : pos) (s : source) : contrib EN :=
  @Build_contrib EN (Some (dist o s)) (Some (strength q w o s)) (Some (arrival q delay o s)).

Lemma concat_opt_flat {A B} (f : A -> option (list B)) (g : A -> list B) l :
  (forall a, In a l -> f a = Some (g a)) -> concat_opt (map f l) = Some (flat_map g l).
Proof.
  induction l as [|a l IH]; intros H; cbn; auto.
  rewrite (H a) by (left; reflexivity). rewrite IH by (intros; apply H; right; auto). reflexivity.
Qed.

Lemma source_row_E fuel (Sc : scanner EN) y x0 xmax d xs (C : R -> contrib EN) :
  sc_row Sc y = @Build_row EN (Some x0) (Some xmax) (Some d) ->
  grid (N:=EN) fuel (Some x0) (Some xmax) (Some d) = Some (map Some xs) ->
  (forall x, In x xs -> sc_pt Sc y (Some x) = C x) ->
  source_row fuel Sc y = Some (map C xs).
Proof.
  intros Hr Hg Hp. unfold source_row. rewrite Hr. cbn [row_x0 row_xmax row_dx]. rewrite Hg.
  rewrite map_map. f_equal. apply map_ext_in. exact Hp.
Qed.

Lemma source_points_2 fuel (Sc : scanner EN) y0 ymax d ys (C : R -> list (contrib EN)) :
  sc_outer Sc = Some (@Build_row EN (Some y0) (Some ymax) (Some d)) ->
  grid (N:=EN) fuel (Some y0) (Some ymax) (Some d) = Some (map Some ys) ->
  (forall y, In y ys -> source_row fuel Sc (Some y) = Some (C y)) ->
  source_points fuel Sc = Some (flat_map C ys).
Proof.
  intros Ho Hg Hr. unfold source_points. rewrite Ho. cbn [row_x0 row_xmax row_dx]. rewrite Hg.
  rewrite map_map. apply concat_opt_flat. exact Hr.
Qed.

Lemma flat_map_map {A B C} (f : B -> C) (g : A -> list B) l :
  map f (flat_map g l) = flat_map (fun a => map f (g a)) l.
Proof. induction l as [|a l IH]; cbn; auto. now rewrite map_app, IH. Qed.

Lemma flat_map_ext_in {A B} (f g : A -> list B) l : (forall a, In a l -> f a = g a) -> flat_map f l = flat_map g l.
Proof.
  induction l as [|a l IH]; intros H; cbn; auto.
  rewrite (H a) by (left; reflexivity). rewrite IH by (intros; apply H; right; auto). reflexivity.
Qed.

(** The distance computation, with any way of writing the z difference. *)
Lemma sq3_nonneg x y z : 0 <= x * x + y * y + z * z.
Proof. pose proof (Rle_0_sqr x); pose proof (Rle_0_sqr y); pose proof (Rle_0_sqr z). unfold Rsqr in *. lra. Qed.
Lemma sq2_nonneg x y : 0 <= x * x + y * y.
Proof. pose proof (Rle_0_sqr x); pose proof (Rle_0_sqr y). unfold Rsqr in *. lra. Qed.

Lemma dist_E o s x y z :
  x * x + y * y + z * z = (p_x o - s_x s)^2 + (p_y o - s_y s)^2 + (p_z o - s_z s)^2 ->
  sqrt (x * x + y * y + z * z) = dist o s.
Proof. intros ->. reflexivity. Qed.

Lemma two_pi_r r : r <> 0 -> 2 * PI * r <> 0.
Proof.
  intros H. pose proof PI_RGT_0. apply Rmult_integral_contrapositive_currified; [|exact H]. lra.
Qed.

Lemma asin_pos x : 0 < x <= 1 -> 0 < asin x.
Proof.
  intros H. destruct (Rlt_dec 0 (asin x)); auto. exfalso.
  pose proof (asin_bound x) as Hb. pose proof PI_RGT_0.
  assert (Hs : 0 <= sin (- asin x)) by (apply sin_ge_0; lra).
  rewrite sin_neg, sin_asin in Hs; lra.
Qed.

Section Scanners.
  Context (q : rpar) (ntz : Z) (fuel : nat) (delay : R) (o : pos).
  Hypothesis Hq : par_ok q.

  Lemma amp_w_E w ds (s : source) : dist o s <> 0 -> s_ds s = ds ->
    amp_w (N:=EN) (emb_samp q ntz) (Some w) (Some ds) (Some (dist o s)) = Some (strength q w o s).
  Proof.
    intros Hd <-. destruct Hq as (H1 & H2 & H3 & H4). pose proof PI_neq0 as HPI.
    assert (Hr : 2 * PI * dist o s <> 0).
    { apply two_pi_r; exact Hd. }
    unfold amp_w, emb_samp. cbn [vel dt]. ered. rewrite e_div_ok by exact Hr. rewrite e_div_ok by exact H3.
    cbn [e2]. f_equal. unfold strength. field. auto.
  Qed.
  Lemma amp_E ds (s : source) : dist o s <> 0 -> s_ds s = ds ->
    amp (N:=EN) (emb_samp q ntz) (Some ds) (Some (dist o s)) = Some (strength q 1 o s).
  Proof.
    intros Hd <-. destruct Hq as (H1 & H2 & H3 & H4). pose proof PI_neq0 as HPI.
    assert (Hr : 2 * PI * dist o s <> 0).
    { apply two_pi_r; exact Hd. }
    unfold amp, emb_samp. cbn [vel dt]. ered. rewrite e_div_ok by exact Hr. rewrite e_div_ok by exact H3.
    cbn [e2]. f_equal. unfold strength. field. auto.
  Qed.
  Lemma tof_E r : tof (N:=EN) (emb_samp q ntz) (Some r) = Some (1000 * r / p_cp q).
  Proof.
    destruct Hq as (H1 & H2 & H3 & H4). unfold tof, emb_samp. cbn [cp]. ered.
    rewrite e_div_ok by exact H4. f_equal. field. auto.
  Qed.
  Lemma arg_E (s : source) : s_tau s = 0 ->
    e_div (e2 Rminus (tof (N:=EN) (emb_samp q ntz) (Some (dist o s))) (Some delay)) (dt (emb_samp q ntz)) = Some (arrival q delay o s).
  Proof.
    intros Ht. destruct Hq as (H1 & H2 & H3 & H4). rewrite tof_E. cbn [e2]. change (dt (emb_samp q ntz)) with (Some (p_dt q)). rewrite e_div_ok by exact H3.
    f_equal. unfold arrival. rewrite Ht. field. auto.
  Qed.
  Lemma arg_foc_E (s : source) t : s_tau s = t ->
    e_div (e2 Rplus (e2 Rminus (tof (N:=EN) (emb_samp q ntz) (Some (dist o s))) (Some delay)) (Some t)) (dt (emb_samp q ntz))
    = Some (arrival q delay o s).
  Proof.
    intros <-. destruct Hq as (H1 & H2 & H3 & H4). rewrite tof_E. cbn [e2]. change (dt (emb_samp q ntz)) with (Some (p_dt q)). rewrite e_div_ok by exact H3.
    f_equal.
  Qed.

  (** Focusing delays. *)
  Lemma focus_rect_E f F x y a b :
    focus_delay_rect (N:=EN) f (Some F) (Some x) (Some y) (Some a) (Some b) (Some (sqrt (a * a + b * b))) (Some (p_cp q))
    = Some (focus_tau (p_cp q) f F a b (a^2 + b^2) x y).
  Proof.
    destruct Hq as (_ & _ & _ & H4). pose proof (sq2_nonneg a F). pose proof (sq2_nonneg b F).
    pose proof (sq2_nonneg x F). pose proof (sq2_nonneg y F). pose proof (sq3_nonneg x y F).
    pose proof (sq2_nonneg (sqrt (a * a + b * b)) F).
    assert (E : sqrt (a * a + b * b) * sqrt (a * a + b * b) = a * a + b * b) by (apply sqrt_sqrt, sq2_nonneg).
    unfold focus_delay_rect, focus_tau.
    destruct f; ered; try (f_equal; ring); repeat rewrite e_sqrt_ok by assumption; cbn [e2];
      rewrite e_div_ok by assumption; f_equal; rewrite ?E; unfold Rdiv;
      repeat match goal with |- context [?z ^ 2] => replace (z ^ 2) with (z * z) by ring end; field; assumption.
  Qed.
  Lemma focus_circ_E f F x y r :
    focus_delay_circ (N:=EN) f (Some F) (Some x) (Some y) (Some r) (Some (p_cp q))
    = Some (focus_tau (p_cp q) f F r r (r^2) x y).
  Proof.
    destruct Hq as (_ & _ & _ & H4). pose proof (sq2_nonneg r F).
    pose proof (sq2_nonneg x F). pose proof (sq2_nonneg y F). pose proof (sq3_nonneg x y F).
    unfold focus_delay_circ, focus_tau.
    destruct f; ered; try (f_equal; ring); repeat rewrite e_sqrt_ok by assumption; cbn [e2];
      rewrite e_div_ok by assumption; f_equal; unfold Rdiv;
      repeat match goal with |- context [?z ^ 2] => replace (z ^ 2) with (z * z) by ring end; field; assumption.
  Qed.

  (** *** Rows of a rectangle and of a disc *)
  Lemma half_E a : e_div (Some a) (Some 2) = Some (a / 2).
  Proof. apply e_div_ok. lra. Qed.
  Lemma row_E lo d : e2 Rplus (Some lo) (e_div (Some d) (Some 2)) = Some (lo + d / 2).
  Proof. rewrite half_E. reflexivity. Qed.

  Lemma in_rect_xy a b x y : In y (midpoints (- b / 2) (b / 2) (p_dy q)) ->
    In x (midpoints (- a / 2) (a / 2) (p_dx q)) -> In (x, y) (rect_xy q a b).
  Proof.
    intros Hy Hx. unfold rect_xy. apply in_flat_map. exists y. split; auto. apply in_map_iff. eauto.
  Qed.
  Lemma in_disc_xy r x y : In y (midpoints (- r) r (p_dy q)) ->
    In x (midpoints (- sqrt (r^2 - y^2)) (sqrt (r^2 - y^2)) (p_dx q)) -> In (x, y) (disc_xy q r).
  Proof.
    intros Hy Hx. unfold disc_xy. apply in_flat_map. exists y. split; auto. apply in_map_iff. eauto.
  Qed.

  Lemma disc_y r y : In y (midpoints (- r) r (p_dy q)) -> 0 <= r^2 - y^2.
  Proof.
    destruct Hq as (_ & Hdy & _). intros H. apply in_midpoints in H; auto. destruct H as [H1 H2].
    replace (r^2 - y^2) with ((r - y) * (r + y)) by ring. apply Rmult_le_pos; lra.
  Qed.
  Lemma disc_half r y : In y (midpoints (- r) r (p_dy q)) -> sqrt (r^2 - y^2) <= Rabs r.
  Proof.
    intros H. rewrite <- sqrt_Rsqr_abs. apply sqrt_le_1_alt. unfold Rsqr. pose proof (pow2_ge_0 y). lra.
  Qed.
  Lemma disc_xy_in r x y : In y (midpoints (- r) r (p_dy q)) ->
    In x (midpoints (- sqrt (r^2 - y^2)) (sqrt (r^2 - y^2)) (p_dx q)) -> x^2 + y^2 <= r^2.
  Proof.
    intros Hy Hx. pose proof (disc_y r y Hy) as Hn. destruct Hq as (Hdx & _).
    apply in_midpoints in Hx; auto. destruct Hx as [H1 H2].
    assert (Hs : x * x <= sqrt (r^2 - y^2) * sqrt (r^2 - y^2)).
    { assert (Hab : Rabs x <= sqrt (r^2 - y^2)) by (apply Rabs_le; lra).
      assert (E : x * x = Rabs x * Rabs x) by (rewrite <- Rabs_mult; symmetry; apply Rabs_pos_eq; apply Rle_0_sqr).
      rewrite E. apply Rmult_le_compat; auto; apply Rabs_pos. }
    rewrite sqrt_sqrt in Hs by exact Hn. lra.
  Qed.

  Lemma points_rect at_ w a b : (forall s, In s (sources q (GRect a b)) -> dist o s <> 0) ->
    enough fuel q (GRect a b) ->
    source_points fuel (scanner_of at_ (emb_samp q ntz) (GRect a b) w delay o) =
    Some (map (contrib_of q w delay o) (sources q (GRect a b))).
  Proof.
    intros Hoff [Hfx Hfy]. destruct Hq as (Hdx & Hdy & Hdt & Hcp).
    cbn [sources] in *. unfold rect_xy in *. rewrite !flat_map_map.
    apply (source_points_2 fuel _ (- b / 2 + p_dy q / 2) (b / 2) (p_dy q)).
    - cbn [scanner_of rect_scanner sc_outer emb_samp dy]. ered. rewrite !half_E. reflexivity.
    - apply grid_mid; auto.
    - intros y Hy. rewrite !map_map. apply (source_row_E fuel _ _ (- a / 2 + p_dx q / 2) (a / 2) (p_dx q)).
      + cbn [scanner_of rect_scanner sc_row emb_samp dx]. ered. rewrite !half_E. reflexivity.
      + apply grid_mid; auto.
      + intros x Hx. cbn [scanner_of rect_scanner sc_pt]. ered.
        rewrite e_sqrt_ok by apply sq3_nonneg.
        pose (s := flat (p_dx q * p_dy q) x y).
        assert (Hd : dist o s <> 0).
        { apply Hoff. apply in_map_iff. exists (x, y). split; auto. apply in_rect_xy; auto. }
        rewrite (dist_E o s) by (cbn; ring).
        cbn [emb_samp dx dy]. cbn [e2]. rewrite (amp_w_E w (p_dx q * p_dy q) s Hd eq_refl).
        rewrite (arg_E s eq_refl). reflexivity.
  Qed.

  Lemma points_rect_f at_ a b f F : (forall s, In s (sources q (GRectF a b f F)) -> dist o s <> 0) ->
    enough fuel q (GRectF a b f F) ->
    source_points fuel (scanner_of at_ (emb_samp q ntz) (GRectF a b f F) 1 delay o) =
    Some (map (contrib_of q 1 delay o) (sources q (GRectF a b f F))).
  Proof.
    intros Hoff [Hfx Hfy]. destruct Hq as (Hdx & Hdy & Hdt & Hcp).
    cbn [sources] in *. unfold rect_xy in *. rewrite !flat_map_map.
    apply (source_points_2 fuel _ (- b / 2 + p_dy q / 2) (b / 2) (p_dy q)).
    - cbn [scanner_of rect_f_scanner sc_outer emb_samp dy]. ered. rewrite !half_E. reflexivity.
    - apply grid_mid; auto.
    - intros y Hy. rewrite !map_map. apply (source_row_E fuel _ _ (- a / 2 + p_dx q / 2) (a / 2) (p_dx q)).
      + cbn [scanner_of rect_f_scanner sc_row emb_samp dx]. ered. rewrite !half_E. reflexivity.
      + apply grid_mid; auto.
      + intros x Hx. cbn [scanner_of rect_f_scanner sc_pt]. ered.
        rewrite e_sqrt_ok by apply sq3_nonneg.
        pose (s := {| s_x := x; s_y := y; s_z := 0; s_ds := p_dx q * p_dy q;
                      s_tau := focus_tau (p_cp q) f F a b (a^2 + b^2) x y |}).
        assert (Hd : dist o s <> 0).
        { apply Hoff. apply in_map_iff. exists (x, y). split; auto. apply in_rect_xy; auto. }
        rewrite (dist_E o s) by (cbn; ring).
        cbn [emb_samp dx dy cp]. cbn [e2]. rewrite (amp_E (p_dx q * p_dy q) s Hd eq_refl).
        rewrite e_sqrt_ok by apply sq2_nonneg. change (cp (emb_samp q ntz)) with (Some (p_cp q)). rewrite focus_rect_E.
        rewrite (arg_foc_E s (focus_tau (p_cp q) f F a b (a^2 + b^2) x y) eq_refl). reflexivity.
  Qed.

  Lemma points_circ at_ w r : (forall s, In s (sources q (GCirc r)) -> dist o s <> 0) ->
    enough fuel q (GCirc r) ->
    source_points fuel (scanner_of at_ (emb_samp q ntz) (GCirc r) w delay o) =
    Some (map (contrib_of q w delay o) (sources q (GCirc r))).
  Proof.
    intros Hoff [Hfx Hfy]. destruct Hq as (Hdx & Hdy & Hdt & Hcp).
    cbn [sources] in *. unfold disc_xy in *. rewrite !flat_map_map.
    apply (source_points_2 fuel _ (- r + p_dy q / 2) r (p_dy q)).
    - cbn [scanner_of circ_scanner sc_outer emb_samp dy]. ered. rewrite !half_E. reflexivity.
    - apply grid_mid; auto.
    - intros y Hy. rewrite !map_map. pose proof (disc_y r y Hy) as Hn. pose proof (disc_half r y Hy) as Hh.
      apply (source_row_E fuel _ _ (- sqrt (r^2 - y^2) + p_dx q / 2) (sqrt (r^2 - y^2)) (p_dx q)).
      + cbn [scanner_of circ_scanner sc_row emb_samp dx]. ered. rewrite !half_E.
        replace (r * r - y * y) with (r^2 - y^2) by ring. rewrite e_sqrt_ok by exact Hn. reflexivity.
      + apply grid_mid; auto. eapply Nat.le_trans; [|exact Hfx]. apply count_mono; auto; lra.
      + intros x Hx. cbn [scanner_of circ_scanner sc_pt]. ered.
        rewrite e_sqrt_ok by apply sq3_nonneg.
        pose (s := flat (p_dx q * p_dy q) x y).
        assert (Hd : dist o s <> 0).
        { apply Hoff. apply in_map_iff. exists (x, y). split; auto. apply in_disc_xy; auto. }
        rewrite (dist_E o s) by (cbn; ring).
        cbn [emb_samp dx dy]. cbn [e2]. rewrite (amp_w_E w (p_dx q * p_dy q) s Hd eq_refl).
        rewrite (arg_E s eq_refl). reflexivity.
  Qed.

  Lemma points_circ_f at_ r f F : (forall s, In s (sources q (GCircF r f F)) -> dist o s <> 0) ->
    enough fuel q (GCircF r f F) ->
    source_points fuel (scanner_of at_ (emb_samp q ntz) (GCircF r f F) 1 delay o) =
    Some (map (contrib_of q 1 delay o) (sources q (GCircF r f F))).
  Proof.
    intros Hoff [Hfx Hfy]. destruct Hq as (Hdx & Hdy & Hdt & Hcp).
    cbn [sources] in *. unfold disc_xy in *. rewrite !flat_map_map.
    apply (source_points_2 fuel _ (- r + p_dy q / 2) r (p_dy q)).
    - cbn [scanner_of circ_f_scanner sc_outer emb_samp dy]. ered. rewrite !half_E. reflexivity.
    - apply grid_mid; auto.
    - intros y Hy. rewrite !map_map. pose proof (disc_y r y Hy) as Hn. pose proof (disc_half r y Hy) as Hh.
      apply (source_row_E fuel _ _ (- sqrt (r^2 - y^2) + p_dx q / 2) (sqrt (r^2 - y^2)) (p_dx q)).
      + cbn [scanner_of circ_f_scanner sc_row emb_samp dx]. ered. rewrite !half_E.
        replace (r * r - y * y) with (r^2 - y^2) by ring. rewrite e_sqrt_ok by exact Hn. reflexivity.
      + apply grid_mid; auto. eapply Nat.le_trans; [|exact Hfx]. apply count_mono; auto; lra.
      + intros x Hx. cbn [scanner_of circ_f_scanner sc_pt]. ered.
        rewrite e_sqrt_ok by apply sq3_nonneg.
        pose (s := {| s_x := x; s_y := y; s_z := 0; s_ds := p_dx q * p_dy q;
                      s_tau := focus_tau (p_cp q) f F r r (r^2) x y |}).
        assert (Hd : dist o s <> 0).
        { apply Hoff. apply in_map_iff. exists (x, y). split; auto. apply in_disc_xy; auto. }
        rewrite (dist_E o s) by (cbn; ring).
        cbn [emb_samp dx dy cp]. cbn [e2]. rewrite (amp_E (p_dx q * p_dy q) s Hd eq_refl).
        change (cp (emb_samp q ntz)) with (Some (p_cp q)). rewrite focus_circ_E. rewrite (arg_foc_E s (focus_tau (p_cp q) f F r r (r^2) x y) eq_refl). reflexivity.
  Qed.

  Lemma points_line at_ a : (forall s, In s (sources q (GLine a)) -> dist o s <> 0) ->
    enough fuel q (GLine a) ->
    source_points fuel (scanner_of at_ (emb_samp q ntz) (GLine a) 1 delay o) =
    Some (map (contrib_of q 1 delay o) (sources q (GLine a))).
  Proof.
    intros Hoff Hfx. destruct Hq as (Hdx & Hdy & Hdt & Hcp).
    cbn [sources enough] in *. rewrite map_map. unfold source_points. cbn [scanner_of line_scanner sc_outer].
    apply (source_row_E fuel _ _ (- a / 2 + p_dx q / 2) (a / 2) (p_dx q)).
    - cbn [scanner_of line_scanner sc_row emb_samp dx]. ered. rewrite !half_E. reflexivity.
    - apply grid_mid; auto.
    - intros x Hx. cbn [scanner_of line_scanner sc_pt]. ered. rewrite e_sqrt_ok by apply sq3_nonneg.
      pose (s := flat (p_dx q * p_dy q) x 0).
      assert (Hd : dist o s <> 0) by (apply Hoff, in_map_iff; exists x; split; auto).
      rewrite (dist_E o s) by (cbn; ring).
      cbn [emb_samp dx dy]. cbn [e2]. rewrite (amp_E (p_dx q * p_dy q) s Hd eq_refl).
      rewrite (arg_E s eq_refl). reflexivity.
  Qed.

  Lemma points_sphere at_ r Rc : (forall s, In s (sources q (GSphere r Rc)) -> dist o s <> 0) ->
    geom_ok q (GSphere r Rc) -> enough fuel q (GSphere r Rc) ->
    source_points fuel (scanner_of at_ (emb_samp q ntz) (GSphere r Rc) 1 delay o) =
    Some (map (contrib_of q 1 delay o) (sources q (GSphere r Rc))).
  Proof.
    intros Hoff HR [Hfx Hfy]. destruct Hq as (Hdx & Hdy & Hdt & Hcp). cbn [geom_ok] in HR.
    cbn [sources] in *. unfold disc_xy in *. rewrite !flat_map_map.
    apply (source_points_2 fuel _ (- r + p_dy q / 2) r (p_dy q)).
    - cbn [scanner_of sphere_scanner sc_outer emb_samp dy]. ered. rewrite !half_E. reflexivity.
    - apply grid_mid; auto.
    - intros y Hy. rewrite !map_map. pose proof (disc_y r y Hy) as Hn. pose proof (disc_half r y Hy) as Hh.
      apply (source_row_E fuel _ _ (- sqrt (r^2 - y^2) + p_dx q / 2) (sqrt (r^2 - y^2)) (p_dx q)).
      + cbn [scanner_of sphere_scanner sc_row emb_samp dx]. ered. rewrite !half_E.
        replace (r * r - y * y) with (r^2 - y^2) by ring. rewrite e_sqrt_ok by exact Hn. reflexivity.
      + apply grid_mid; auto. eapply Nat.le_trans; [|exact Hfx]. apply count_mono; auto; lra.
      + intros x Hx. cbn [scanner_of sphere_scanner sc_pt].
        pose proof (disc_xy_in r x y Hy Hx) as Hxy.
        assert (Hr0 : 0 <= r) by (apply in_midpoints in Hy; auto; lra).
        assert (Hs : 0 <= Rc * Rc - x * x - y * y).
        { assert (r * r <= Rabs Rc * Rabs Rc) by (apply Rmult_le_compat; lra).
          rewrite <- Rabs_mult, (Rabs_pos_eq (Rc * Rc)) in H by apply Rle_0_sqr. nra. }
        assert (Hs' : 0 <= (- Rc) * (- Rc) - x * x - y * y) by (replace (- Rc * - Rc) with (Rc * Rc) by ring; exact Hs).
        pose (sag := Rabs Rc - sqrt (Rc^2 - x^2 - y^2)).
        pose (s := {| s_x := x; s_y := y; s_z := (if Rleb 0 Rc then sag else - sag);
                           s_ds := p_dx q * p_dy q; s_tau := 0 |}).
        assert (Hd : dist o s <> 0).
        { apply Hoff. apply in_map_iff. exists (x, y). split; auto. apply in_disc_xy; auto. }
        assert (Hrr : (if nle (n:=EN) (nofZ 0) (Some Rc) then
                         sphere_f (N:=EN) (Some x) (Some y) (Some Rc) (Some (p_x o)) (Some (p_y o)) (Some (p_z o))
                       else sphere_d (N:=EN) (Some x) (Some y) (nopp (Some Rc : EN)) (Some (p_x o)) (Some (p_y o)) (Some (p_z o)))
                      = Some (dist o s)).
        { unfold sphere_f, sphere_d. ered. unfold s, dist, sag. cbn [s_x s_y s_z].
          unfold Rleb. destruct (Rle_dec 0 Rc) as [Hp|Hp].
          - rewrite e_sqrt_ok by exact Hs. cbn [e2]. rewrite e_sqrt_ok by apply sq3_nonneg. f_equal. f_equal.
            rewrite Rabs_pos_eq by exact Hp. replace (Rc^2 - x^2 - y^2) with (Rc * Rc - x * x - y * y) by ring. ring.
          - rewrite e_sqrt_ok by exact Hs'. cbn [e2]. rewrite e_sqrt_ok by apply sq3_nonneg. f_equal. f_equal.
            rewrite Rabs_left by lra. replace (Rc^2 - x^2 - y^2) with (- Rc * - Rc - x * x - y * y) by ring. ring. }
        cbv zeta. cbn [sc_pt]. rewrite Hrr. ered.
        cbn [emb_samp dx dy]. cbn [e2]. rewrite (amp_E (p_dx q * p_dy q) s Hd eq_refl).
        rewrite (arg_E s eq_refl). reflexivity.
  Qed.

  Lemma points_cylind at_ w a b Rc : (forall s, In s (sources q (GCylind a b Rc)) -> dist o s <> 0) ->
    geom_ok q (GCylind a b Rc) -> enough fuel q (GCylind a b Rc) ->
    source_points fuel (scanner_of at_ (emb_samp q ntz) (GCylind a b Rc) w delay o) =
    Some (map (contrib_of q w delay o) (sources q (GCylind a b Rc))).
  Proof.
    intros Hoff [Hb Hdr] [Hfx Hfy]. destruct Hq as (Hdx & Hdy & Hdt & Hcp).
    cbn [sources] in Hoff |- *.
    remember (Rabs Rc) as A eqn:HAe.
    assert (HA : 0 < A) by (pose proof (Rabs_pos (b / 2)); lra).
    assert (EA : Rc * Rc = A * A).
    { rewrite HAe. rewrite <- Rabs_mult. symmetry. apply Rabs_pos_eq, Rle_0_sqr. }
    assert (Hb2 : 0 < Rc * Rc - b / 2 * (b / 2)).
    { rewrite EA. apply Rabs_def2 in Hb. destruct Hb. nra. }
    set (half := asin (b / 2 / A)) in *. set (dphi := asin (p_dy q / A)) in *.
    assert (Hdphi : 0 < dphi).
    { unfold dphi.
      assert (0 < p_dy q / A) by (apply Rdiv_lt_0_compat; lra).
      assert (p_dy q / A <= 1) by (apply (Rmult_le_reg_r A); auto; unfold Rdiv; rewrite Rmult_assoc, Rinv_l by lra; lra).
      apply asin_pos; lra. }
    assert (Hu : -1 < b / 2 / A < 1).
    { apply Rabs_def2 in Hb. destruct Hb. split.
      - apply (Rmult_lt_reg_r A); auto. unfold Rdiv. rewrite Rmult_assoc, Rinv_l by lra. lra.
      - apply (Rmult_lt_reg_r A); auto. unfold Rdiv. rewrite Rmult_assoc, Rinv_l by lra. lra. }
    assert (Hatan : atan (b / 2 / sqrt (Rc * Rc - b / 2 * (b / 2))) = half).
    { unfold half, asin. destruct (Rle_dec (b / 2 / A) (-1)); [lra|]. destruct (Rle_dec 1 (b / 2 / A)); [lra|].
      f_equal. replace (Rc * Rc - b / 2 * (b / 2)) with (A * A * (1 - (b / 2 / A)²)) by (rewrite EA; unfold Rsqr; field; lra).
      assert (0 < 1 - (b / 2 / A)²) by (unfold Rsqr; nra).
      rewrite sqrt_mult by nra. rewrite sqrt_square by lra. field. split; [lra|].
      apply Rgt_not_eq, sqrt_lt_R0. exact H. }
    assert (Hphi : forall phi, In phi (midpoints (- half) half dphi) -> - (PI / 2) < phi < PI / 2).
    { intros phi Hphi. apply in_midpoints in Hphi; auto. pose proof (asin_bound_lt (b / 2 / A) Hu) as Hh.
      fold half in Hh. lra. }
    assert (Eout : sc_outer (scanner_of at_ (emb_samp q ntz) (GCylind a b Rc) w delay o) =
                   Some (@Build_row EN (Some (- half + dphi / 2)) (Some half) (Some dphi))).
    { cbn [scanner_of cylind_scanner sc_outer emb_samp dy]. ered. rewrite <- ?HAe. rewrite !half_E. cbn [e2].
      rewrite e_sqrt_ok by lra. cbn [e2].
      replace (A - (A - sqrt (Rc * Rc - b / 2 * (b / 2)))) with (sqrt (Rc * Rc - b / 2 * (b / 2))) by ring.
      rewrite e_div_ok by (apply Rgt_not_eq, sqrt_lt_R0; exact Hb2). cbn [e1 e2]. rewrite Hatan.
      rewrite (e_div_ok (p_dy q) A) by lra.
      rewrite e_unit_ok; [fold dphi|].
      - rewrite !half_E. cbn [e2]. do 4 f_equal; field.
      - assert (0 < p_dy q / A) by (apply Rdiv_lt_0_compat; lra). split; [lra|].
        apply (Rmult_le_reg_r A); auto; unfold Rdiv; rewrite Rmult_assoc, Rinv_l by lra; lra. }
    rewrite !flat_map_map.
    apply (source_points_2 fuel _ (- half + dphi / 2) half dphi); auto.
    - apply grid_mid; auto.
    - intros phi Hp. rewrite !map_map.
      apply (source_row_E fuel _ _ (- a / 2 + p_dx q / 2) (a / 2) (p_dx q)).
      + cbn [scanner_of cylind_scanner sc_row emb_samp dx]. ered. rewrite !half_E. reflexivity.
      + apply grid_mid; auto.
      + intros x Hx. cbn [scanner_of cylind_scanner sc_pt].
        pose proof (Hphi phi Hp) as Hpb.
        assert (Hcos : 0 <= cos phi) by (left; apply cos_gt_0; lra).
        pose (sag := A * (1 - cos phi)).
        pose (s := {| s_x := x; s_y := A * sin phi; s_z := (if Rleb 0 Rc then sag else - sag);
                      s_ds := A * p_dx q * dphi; s_tau := 0 |}).
        assert (Hd : dist o s <> 0).
        { apply Hoff. apply in_flat_map. exists phi. split; auto. apply in_map_iff. exists x. split; auto. }
        assert (Esq : A * A - A * sin phi * (A * sin phi) = (A * cos phi) * (A * cos phi)).
        { pose proof (sin2_cos2 phi) as Hsc. unfold Rsqr in Hsc.
          replace (A * A - A * sin phi * (A * sin phi)) with (A * A * (1 - sin phi * sin phi)) by ring.
          replace (1 - sin phi * sin phi) with (cos phi * cos phi) by lra. ring. }
        assert (Hsq : 0 <= A * cos phi) by (apply Rmult_le_pos; lra).
        assert (Hrr : (if nle (n:=EN) (nofZ 0) (Some Rc) then
                         cylind_f (N:=EN) (Some x) (nmul (n:=EN) (nabs (n:=EN) (Some Rc)) (nsin (n:=EN) (Some phi))) (Some Rc) (Some (p_x o)) (Some (p_y o)) (Some (p_z o))
                       else cylind_d (N:=EN) (Some x) (nmul (n:=EN) (nabs (n:=EN) (Some Rc)) (nsin (n:=EN) (Some phi))) (nabs (n:=EN) (Some Rc)) (Some (p_x o)) (Some (p_y o)) (Some (p_z o)))
                      = Some (dist o s)).
        { unfold cylind_f, cylind_d. ered. rewrite <- ?HAe. unfold s, dist, sag. cbn [s_x s_y s_z].
          unfold Rleb. destruct (Rle_dec 0 Rc) as [Hpz|Hpz].
          - rewrite EA, Esq. rewrite e_sqrt_ok by (apply Rle_0_sqr). cbn [e2]. rewrite sqrt_square by exact Hsq.
            rewrite e_sqrt_ok by apply sq3_nonneg. f_equal. f_equal.
            assert (Rc = A) by (rewrite HAe, Rabs_pos_eq; auto). rewrite H. ring.
          - rewrite Esq. rewrite e_sqrt_ok by (apply Rle_0_sqr). cbn [e2]. rewrite sqrt_square by exact Hsq.
            rewrite e_sqrt_ok by apply sq3_nonneg. f_equal. f_equal. ring. }
        cbv zeta. cbn [sc_pt]. rewrite Hrr. ered. rewrite <- ?HAe.
        cbn [emb_samp dx dy dt vel]. cbn [e2]. rewrite (e_div_ok (p_dy q) A) by lra.
        assert (Hdu : -1 <= p_dy q / A <= 1).
        { assert (0 < p_dy q / A) by (apply Rdiv_lt_0_compat; lra). split; [lra|].
          apply (Rmult_le_reg_r A); auto; unfold Rdiv; rewrite Rmult_assoc, Rinv_l by lra; lra. }
        rewrite e_unit_ok by exact Hdu. fold dphi. cbn [e2].
        pose proof PI_neq0 as HPI.
        assert (Hr2 : 2 * PI * dist o s <> 0).
        { apply two_pi_r; exact Hd. }
        rewrite e_div_ok by exact Hr2. rewrite e_div_ok by exact Hdt. cbn [e2].
        match goal with |- context [e_div ?a (Some (p_dt q))] => change (e_div a (Some (p_dt q))) with (e_div a (dt (emb_samp q ntz))) end.
        rewrite (arg_E s eq_refl).
        transitivity (contrib_of q w delay o s); [|reflexivity].
        unfold contrib_of. f_equal. f_equal. unfold strength. replace (s_ds s) with (A * p_dx q * dphi) by reflexivity. field. auto.
  Qed.
End Scanners.

Theorem points_E (q : rpar) ntz fuel delay o at_ g w :
  par_ok q -> geom_ok q g -> off_source q g o -> enough fuel q g -> (weighted g = false -> w = 1) ->
  source_points fuel (scanner_of at_ (emb_samp q ntz) g w delay o) =
  Some (map (contrib_of q w delay o) (sources q g)).
Proof.
  intros Hq Hg Hoff Hf Hw. destruct g; cbn [weighted] in Hw; try rewrite (Hw eq_refl).
  - apply points_rect; auto.
  - apply points_rect_f; auto.
  - apply points_circ; auto.
  - apply points_circ_f; auto.
  - apply points_line; auto.
  - apply points_sphere; auto.
  - apply points_cylind; auto.
Qed.
