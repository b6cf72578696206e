(** PropArr.v - property theorems about arrays (C17-C21, and C10). *)
From Coq Require Import Reals Lra Lia ZArith List Bool.
From Coq Require Floats.
From Verif Require Import Base BaseLemmas ModelSir ModelArr NumR NumF SpecSir SpecRayleigh SpecArr
  ProofsEnum ProofsErr ProofsR ProofsRayleigh ProofsSirR ProofsArr ExJob PropSir.
Import ListNotations.
Open Scope R_scope.

Definition array_shape (g : geom) : Prop :=
  match g with GRect _ _ | GCirc _ | GCylind _ _ _ => True | _ => False end.

Lemma shape_weighted g : array_shape g -> weighted g = true.
Proof. destruct g; cbn; tauto. Qed.

(** C17: the response of an array of rectangles, discs or cylinder segments is
    what the buffer held plus the superposition of the weighted and delayed
    element responses. *)
Theorem C17_superposition : forall K fuel q ntz g A lvl delay o h,
  array_shape g -> arr_defined K fuel q ntz g A delay o -> length h = Z.to_nat ntz ->
  lvl = lvl_ignore \/ lvl = lvl_warn ->
  exists out e,
    sir_arr K fuel q ntz g A lvl delay o h = Some (Ok (map (@Some R) out, e)) /\
    length out = Z.to_nat ntz /\
    forall k, (k < Z.to_nat ntz)%nat -> nth k out 0 = nth k h 0 + superposition q A g delay o (Z.of_nat k).
Proof.
  intros K fuel q ntz g A lvl delay o h S D Hh Hl. do 2 eexists. split; [|split].
  - rewrite sir_arr_R; auto using shape_weighted, lvl_no_bail.
  - apply length_tab.
  - intros k Hk. now rewrite nth_tab.
Qed.
Print Assumptions C17_superposition.

(** Focusing delay, steering delay and weight of every element are those of
    the specification. *)
Theorem C17_delays : forall cp A n, array_ok A -> cp <> 0 -> (n < length (ar_pos A))%nat ->
  code_delays cp A n = Ok (Some (focus_delay cp A n), Some (steer_delay cp A n), Some (weight A n)).
Proof.
  intros cp A n OK Hc Hn. unfold code_delays. rewrite (max_dim_E A OK). now apply delays_E.
Qed.
Print Assumptions C17_delays.

(** C10, what the code does: the status of an array call with levels 'ignore'
    and 'warn' is that of its last element alone. *)
Theorem C10_last_element_partial : forall K fuel q ntz g A lvl delay o h out e,
  array_shape g -> arr_defined K fuel q ntz g A delay o -> length h = Z.to_nat ntz ->
  lvl = lvl_ignore \/ lvl = lvl_warn ->
  sir_arr K fuel q ntz g A lvl delay o h = Some (Ok (out, e)) ->
  let n := (length (ar_pos A) - 1)%nat in
  (e = err_none <-> forall s, In s (sources q g) ->
     (0 <= arrives_at q (elem_delay q A delay n) (rel o (elem A n)) s < ntz)%Z).
Proof.
  intros K fuel q ntz g A lvl delay o h out e S D Hh Hl E n.
  rewrite sir_arr_R in E by auto using shape_weighted, lvl_no_bail. injection E as _ <-. fold n.
  unfold arr_status, rec_status. destruct (forallb _ _) eqn:F.
  - rewrite forallb_forall in F. split; [|reflexivity]. intros _ s Hs. specialize (F s Hs). unfold in_rec in F. lia.
  - split; [intros H; destruct Hl as [ -> | -> ]; discriminate|]. intros H.
    assert (T : forallb (in_rec q ntz (elem_delay q A delay n) (rel o (elem A n))) (sources q g) = true).
    { apply forallb_forall. intros s Hs. specialize (H s Hs). unfold in_rec. lia. }
    congruence.
Qed.
Print Assumptions C10_last_element_partial.

(** C18: one element at the origin without focusing, steering and apodization
    is the single transducer: any arithmetic with x - 0 = x (so IEEE doubles),
    any level, samples and status. *)
Definition one_element (N : Num) (f th ph : N) (am : ApodMet) (av : list N) (ap : N) : arr_par N :=
  {| num_elements := 1; G := [nofZ 0; nofZ 0; nofZ 0]; foc_met := foc_none; focal := [f];
     steer_met := steer_none; theta := th; phi := ph; do_apod := false; apod_met := am; apod := av; apod_par := ap |}.

Theorem C18_one_element : forall (N : Num) K fuel q att lvl xo yo zo delay base h f th ph am av ap,
  (forall x : N, nsub x (nofZ 0) = x) ->
  (att = None \/ clear_h base (nt q) h = Ok h) ->
  let p := one_element N f th ph am av ap in
  (forall a b, serial K fuel (TArrRect a b p) q att lvl xo yo zo delay base h =
               serial K fuel (TRect a b) q att lvl xo yo zo delay base h) /\
  (forall R, serial K fuel (TArrCirc R p) q att lvl xo yo zo delay base h =
             serial K fuel (TCirc R) q att lvl xo yo zo delay base h) /\
  (forall a b Rc, serial K fuel (TArrCylind a b Rc p) q att lvl xo yo zo delay base h =
                  serial K fuel (TCylind a b Rc) q att lvl xo yo zo delay base h).
Proof.
  intros N K fuel q att lvl xo yo zo delay base h f th ph am av ap H0 Hc p.
  assert (E : forall ef cf, (cf = false \/ clear_h base (nt q) h = Ok h) ->
    arr_serial cf (nt q) base p (cp q) xo yo zo delay ef h = ef xo yo zo delay (nofZ 1) h).
  { intros ef cf Hcf. unfold arr_serial.
    replace (if cf then clear_h base (nt q) h else Ok h) with (Ok h) by (destruct Hcf as [ -> | -> ]; [reflexivity|destruct cf; reflexivity]).
    cbn [bind]. assert (M : exists m, max_dim_arr p = Ok m) by (eexists; reflexivity). destruct M as ([[X Y] RR] & ->).
    cbn [bind]. change (Z.to_nat (num_elements p)) with 1%nat. cbn [arr_elems].
    assert (Gx : gx p 0 = Ok (nofZ 0)) by reflexivity. assert (Gy : gy p 0 = Ok (nofZ 0)) by reflexivity.
    assert (Gz : gz p 0 = Ok (nofZ 0)) by reflexivity.
    assert (Dl : elem_delays p (cp q) X Y RR 0 = Ok (nofZ 0, nofZ 0, nofZ 1)).
    { unfold elem_delays. rewrite Gx, Gy. reflexivity. }
    rewrite Dl, Gx, Gy, Gz. cbn [bind]. rewrite !H0. destruct (ef xo yo zo delay (nofZ 1) h) as [[h' e]|u|]; cbn; [|reflexivity|reflexivity].
    now destruct (SIRError_eqb e err_oob). }
  repeat split; intros; cbn [serial]; rewrite E; try reflexivity; auto.
  all: destruct Hc as [ -> | Hc]; auto.
Qed.
Print Assumptions C18_one_element.

Example C18_exact : forall x : EN, nsub x (nofZ 0) = x.
Proof. intros [x|]; [|reflexivity]. cbn. now rewrite Rminus_0_r. Qed.
Example C18_double : forall x : FI, nsub x (nofZ 0) = x.
Proof.
  intros x. change (Floats.PrimFloat.sub x Coq.Floats.PrimFloat.zero = x). apply Floats.FloatAxioms.Prim2SF_inj.
  rewrite Floats.FloatAxioms.sub_spec. change (Floats.FloatOps.Prim2SF Coq.Floats.PrimFloat.zero) with (Floats.SpecFloat.S754_zero false).
  destruct (Floats.FloatOps.Prim2SF x) as [[|]|[|]| |s m e]; try reflexivity.
Qed.

(** ** C19 focusing *)
Lemma maxabs_ge l x : In x l -> Rabs x <= maxabs l.
Proof.
  induction l as [|y l IH]; [intros []|]. unfold maxabs in *. cbn [map fold_right]. intros [ -> | H].
  - apply Rmax_l.
  - eapply Rle_trans; [apply IH; exact H|apply Rmax_r].
Qed.
Lemma maxabs_nonneg l : 0 <= maxabs l.
Proof. induction l; unfold maxabs in *; cbn [map fold_right]; [lra|]. eapply Rle_trans; [apply Rabs_pos|apply Rmax_l]. Qed.
Lemma elem_x_le A n : (n < length (ar_pos A))%nat -> Rabs (p_x (elem A n)) <= extx A.
Proof. intros H. apply maxabs_ge. apply in_map. now apply nth_In. Qed.
Lemma elem_y_le A n : (n < length (ar_pos A))%nat -> Rabs (p_y (elem A n)) <= exty A.
Proof. intros H. apply maxabs_ge. apply in_map. now apply nth_In. Qed.
Lemma sq_le a b : Rabs a <= b -> a^2 <= b^2.
Proof. intros H. pose proof (Rabs_pos a). replace (a^2) with ((Rabs a)^2) by (symmetry; rewrite <- !Rsqr_pow2; apply Rsqr_abs). nra. Qed.
Lemma extr_sq A : extr A ^2 = extx A ^2 + exty A ^2.
Proof. unfold extr. rewrite <- Rsqr_pow2. apply Rsqr_sqrt. nra. Qed.

(** Distance from element n (in the plane z = 0) to the focus: a point on the
    axis at distance F (xy), or seen in the xz / yz plane only (x, y). *)
Definition focal_path (A : array) (n : nat) : R :=
  let x := p_x (elem A n) in
  let y := p_y (elem A n) in
  match ar_focus A with
  | FX F => sqrt (x^2 + F^2) | FY F => sqrt (y^2 + F^2) | FXY F => sqrt (x^2 + y^2 + F^2) | _ => 0
  end.
(** Path from the corner of the array. *)
Definition corner_path (A : array) : R :=
  match ar_focus A with
  | FX F => sqrt (extx A ^2 + F^2) | FY F => sqrt (exty A ^2 + F^2) | FXY F => sqrt (extx A ^2 + exty A ^2 + F^2) | _ => 0
  end.
Definition focal_distance (A : array) : R :=
  match ar_focus A with FX F | FY F | FXY F => F | _ => 0 end.
Definition x_y_xy (A : array) : Prop := match ar_focus A with FX _ | FY _ | FXY _ => True | _ => False end.

(** For every element: delay + travel time to the focus is the same (the
    travel time from the corner), the delay is not negative and not larger
    than that of an element on the axis. *)
Theorem C19_focusing : forall cp A n, array_ok A -> 0 < cp -> (n < length (ar_pos A))%nat -> x_y_xy A ->
  exists f s w, code_delays cp A n = Ok (Some f, s, w) /\
    f + 1000 / cp * focal_path A n = 1000 / cp * corner_path A /\
    0 <= f <= 1000 / cp * (corner_path A - Rabs (focal_distance A)).
Proof.
  intros cp A n OK Hc Hn HF.
  exists (focus_delay cp A n), (Some (steer_delay cp A n)), (Some (weight A n)).
  split; [apply C17_delays; auto; lra|].
  assert (Hp : 0 < 1000 / cp) by (apply Rdiv_lt_0_compat; lra).
  pose proof (sq_le _ _ (elem_x_le A n Hn)) as Hx. pose proof (sq_le _ _ (elem_y_le A n Hn)) as Hy.
  assert (E : focus_delay cp A n = 1000 / cp * (corner_path A - focal_path A n)).
  { unfold focus_delay, corner_path, focal_path, x_y_xy in *. destruct (ar_focus A); try contradiction; try reflexivity.
    now rewrite extr_sq. }
  rewrite E.
  assert (L1 : focal_path A n <= corner_path A).
  { unfold corner_path, focal_path, x_y_xy in *. destruct (ar_focus A); try contradiction; apply sqrt_le_1; nra. }
  assert (L2 : Rabs (focal_distance A) <= focal_path A n).
  { unfold focal_distance, focal_path, x_y_xy in *. destruct (ar_focus A); try contradiction;
      rewrite <- sqrt_Rsqr_abs; apply sqrt_le_1; unfold Rsqr; nra. }
  split; [ring|]. split.
  - apply Rmult_le_pos; lra.
  - apply Rmult_le_compat_l; lra.
Qed.
Print Assumptions C19_focusing.

(** Elements at the same distance get the same delay (every method but user
    defined delays). *)
Theorem C19_symmetric : forall cp A n m, array_ok A -> cp <> 0 -> (n < length (ar_pos A))%nat -> (m < length (ar_pos A))%nat ->
  (forall tau, ar_focus A <> FUd tau) ->
  p_x (elem A n) ^2 = p_x (elem A m) ^2 -> p_y (elem A n) ^2 = p_y (elem A m) ^2 ->
  exists f s1 w1 s2 w2, code_delays cp A n = Ok (f, s1, w1) /\ code_delays cp A m = Ok (f, s2, w2).
Proof.
  intros cp A n m OK Hc Hn Hm Hud Ex Ey.
  rewrite !C17_delays by auto. exists (Some (focus_delay cp A n)). do 4 eexists. split; [reflexivity|].
  f_equal. f_equal. f_equal. f_equal. unfold focus_delay. rewrite Ex, Ey. destruct (ar_focus A); try reflexivity.
  now contradiction (Hud tau).
Qed.
Print Assumptions C19_symmetric.

(** False for the x+y method: the corner element's delay is negative for every
    array (focal distance not 0). *)
Theorem C19_xplusy_refuted : forall cp A n F, array_ok A -> 0 < cp -> (n < length (ar_pos A))%nat ->
  ar_focus A = FXplusY F -> F <> 0 -> Rabs (p_x (elem A n)) = extx A -> Rabs (p_y (elem A n)) = exty A ->
  exists f s w, code_delays cp A n = Ok (Some f, s, w) /\ f < 0.
Proof.
  intros cp A n F OK Hc Hn HF HF0 Ex Ey. rewrite C17_delays by (auto; lra). do 3 eexists. split; [reflexivity|].
  unfold focus_delay. rewrite HF.
  assert (Hp : 0 < 1000 / cp) by (apply Rdiv_lt_0_compat; lra).
  assert (Qx : p_x (elem A n) ^ 2 = extx A ^ 2) by (rewrite <- Ex, <- !Rsqr_pow2; apply Rsqr_abs).
  assert (Qy : p_y (elem A n) ^ 2 = exty A ^ 2) by (rewrite <- Ey, <- !Rsqr_pow2; apply Rsqr_abs).
  rewrite extr_sq, Qx, Qy.
  set (X := extx A). set (Y := exty A).
  assert (HF2 : 0 < F^2) by (rewrite <- Rsqr_pow2; apply Rsqr_pos_lt; exact HF0).
  assert (S1 : 0 < sqrt (X^2 + F^2)) by (apply sqrt_lt_R0; nra).
  assert (S2 : 0 < sqrt (Y^2 + F^2)) by (apply sqrt_lt_R0; nra).
  assert (L : sqrt (X^2 + Y^2 + F^2) < sqrt (X^2 + F^2) + sqrt (Y^2 + F^2)).
  { rewrite <- (sqrt_Rsqr (sqrt (X^2 + F^2) + sqrt (Y^2 + F^2))) by lra.
    apply sqrt_lt_1; [nra|apply Rle_0_sqr|]. unfold Rsqr.
    assert (Q1 : sqrt (X^2 + F^2) * sqrt (X^2 + F^2) = X^2 + F^2) by (apply sqrt_sqrt; nra).
    assert (Q2 : sqrt (Y^2 + F^2) * sqrt (Y^2 + F^2) = Y^2 + F^2) by (apply sqrt_sqrt; nra).
    nra. }
  nra.
Qed.
Print Assumptions C19_xplusy_refuted.

(** ** C20 steering *)
(** Non-negative for angles between 0 and 180 degrees; the difference between
    two elements is linear in their distance. *)
Theorem C20_steering_partial : forall cp A n m, array_ok A -> 0 < cp -> (n < length (ar_pos A))%nat -> (m < length (ar_pos A))%nat ->
  match ar_steer A with
  | SNone => True | SX th => 0 <= th <= 180 | SY ph => 0 <= ph <= 180 | SXY th ph => 0 <= th <= 180 /\ 0 <= ph <= 180
  end ->
  exists sn sm fn wn fm wm, code_delays cp A n = Ok (fn, Some sn, wn) /\ code_delays cp A m = Ok (fm, Some sm, wm) /\
    0 <= sn /\
    sn - sm = 1000 / cp *
      match ar_steer A with
      | SNone => 0
      | SX th => (p_x (elem A n) - p_x (elem A m)) * sin (rad th)
      | SY ph => (p_y (elem A n) - p_y (elem A m)) * sin (rad ph)
      | SXY th ph => (p_x (elem A n) - p_x (elem A m)) * sin (rad th) + (p_y (elem A n) - p_y (elem A m)) * sin (rad ph)
      end.
Proof.
  intros cp A n m OK Hc Hn Hm HS. rewrite !C17_delays by (auto; lra). do 6 eexists. split; [reflexivity|split; [reflexivity|]].
  assert (Hp : 0 < 1000 / cp) by (apply Rdiv_lt_0_compat; lra).
  pose proof (elem_x_le A n Hn) as Hx. pose proof (elem_y_le A n Hn) as Hy.
  pose proof (Rle_abs (- p_x (elem A n))) as Ax. rewrite Rabs_Ropp in Ax.
  pose proof (Rle_abs (- p_y (elem A n))) as Ay. rewrite Rabs_Ropp in Ay.
  assert (Sin : forall a, 0 <= a <= 180 -> 0 <= sin (rad a)).
  { intros a Ha. pose proof PI_RGT_0. apply sin_ge_0; unfold rad; nra. }
  assert (Dx : 0 <= 1000 / cp * (extx A + p_x (elem A n))) by (apply Rmult_le_pos; lra).
  assert (Dy : 0 <= 1000 / cp * (exty A + p_y (elem A n))) by (apply Rmult_le_pos; lra).
  unfold steer_delay. destruct (ar_steer A) as [|th|ph|th ph].
  - split; [lra|ring].
  - split; [apply Rmult_le_pos; auto|ring].
  - split; [apply Rmult_le_pos; auto|ring].
  - destruct HS as [HS1 HS2]. split; [|ring].
    apply Rplus_le_le_0_compat; apply Rmult_le_pos; auto.
Qed.
Print Assumptions C20_steering_partial.

(** For negative angles (the code subtracts nothing: r_max*sin is negative
    too) the delay of the element on the +x edge is negative: every array that
    is not a single column. *)
Theorem C20_negative_angle_refuted : forall cp A n th, array_ok A -> 0 < cp -> (n < length (ar_pos A))%nat ->
  ar_steer A = SX th -> -180 < th < 0 -> p_x (elem A n) = extx A -> extx A <> 0 ->
  exists f s w, code_delays cp A n = Ok (f, Some s, w) /\ s < 0.
Proof.
  intros cp A n th OK Hc Hn HS Ht Hx H0. rewrite C17_delays by (auto; lra). do 3 eexists. split; [reflexivity|].
  unfold steer_delay. rewrite HS, Hx. pose proof (maxabs_nonneg (map p_x (ar_pos A))) as P. fold (extx A) in P.
  assert (Hp : 0 < 1000 / cp) by (apply Rdiv_lt_0_compat; lra).
  assert (Hs : sin (rad th) < 0) by (pose proof PI_RGT_0; apply sin_lt_0_var; unfold rad; nra).
  assert (0 < 1000 / cp * (extx A + extx A)) by (apply Rmult_lt_0_compat; lra). nra.
Qed.
Print Assumptions C20_negative_angle_refuted.

(** ** C21 apodization *)
Lemma extr_pos A : extr A <> 0 -> 0 < extr A.
Proof. intros H. pose proof (sqrt_pos (extx A ^2 + exty A ^2)). unfold extr in *. lra. Qed.
Lemma rel_radius_bounds A n : (n < length (ar_pos A))%nat -> extr A <> 0 -> 0 <= rel_radius A n <= 1.
Proof.
  intros Hn H. pose proof (extr_pos A H) as P. unfold rel_radius.
  pose proof (sq_le _ _ (elem_x_le A n Hn)) as Hx. pose proof (sq_le _ _ (elem_y_le A n Hn)) as Hy.
  split.
  - apply Rmult_le_pos; [apply sqrt_pos|left; now apply Rinv_0_lt_compat].
  - apply (Rmult_le_reg_r (extr A)); [exact P|]. unfold Rdiv. rewrite Rmult_assoc, Rinv_l by exact H.
    rewrite Rmult_1_r, Rmult_1_l. unfold extr. apply sqrt_le_1; nra.
Qed.

(** The documented windows (not user defined) and their ranges. *)
Definition radial (w : apo) : Prop := match w with ANone | AUd _ => False | AGauss p => 0 <= p | _ => True end.
Definition in_apo_range (w : apo) (x : R) : Prop :=
  match w with
  | ATriangle | AHann | ASimply | AClamped => 0 <= x <= 1
  | AGauss p => exp (- p) <= x <= 1
  | ARaised p => p - 1 <= x <= p + 1
  | AHamming => 4 / 46 <= x <= 1
  | ANone | AUd _ => True
  end.

(** The weight of every element is in the range of its window; the element
    nearer to the axis has the larger weight, the same distance means the same
    weight, and an element on the axis has the window's maximum. *)
Theorem C21_apodization : forall cp A n, array_ok A -> cp <> 0 -> (n < length (ar_pos A))%nat -> radial (ar_apo A) ->
  exists f s w, code_delays cp A n = Ok (f, s, Some w) /\
    in_apo_range (ar_apo A) w /\
    (p_x (elem A n) = 0 -> p_y (elem A n) = 0 -> w = match ar_apo A with ARaised p => p + 1 | _ => 1 end) /\
    forall m, (m < length (ar_pos A))%nat ->
      p_x (elem A n) ^2 + p_y (elem A n) ^2 <= p_x (elem A m) ^2 + p_y (elem A m) ^2 ->
      exists f' s' w', code_delays cp A m = Ok (f', s', Some w') /\ w' <= w.
Proof.
  intros cp A n OK Hc Hn Hr. rewrite C17_delays by auto. do 3 eexists. split; [reflexivity|].
  assert (H0 : extr A <> 0) by (destruct OK as [_ _ H]; destruct (ar_apo A); cbn in Hr; tauto).
  pose proof (rel_radius_bounds A n Hn H0) as B.
  pose proof PI_RGT_0 as HPI.
  assert (CB : forall r, 0 <= r <= 1 -> -1 <= cos (PI * r) <= 1) by (intros; apply COS_bound).
  assert (Ran : in_apo_range (ar_apo A) (weight A n)).
  { unfold weight. revert Hr B. generalize (rel_radius A n). intros r Hr B. pose proof (CB r B) as C.
    destruct (ar_apo A); cbn [in_apo_range window radial] in *; try (split; nra); try tauto.
    - assert (r2 : 0 <= r^2 <= 1) by nra. assert (pr : 0 <= p * r^2 <= p) by (generalize (r^2), r2; intros; nra). split.
      + destruct (Req_dec (p * r^2) p) as [E|E]; [rewrite E; lra|left; apply exp_increasing; lra].
      + rewrite <- exp_0. destruct (Req_dec (p * r^2) 0) as [E|E]; [rewrite E, Ropp_0; lra|left; apply exp_increasing; lra].
    - assert (0 <= 1 - r^2 <= 1) by nra. split; nra. }
  split; [exact Ran|]. split.
  - intros X0 Y0. unfold weight, rel_radius. rewrite X0, Y0. replace (0^2 + 0^2) with 0 by ring. rewrite sqrt_0.
    unfold Rdiv. rewrite Rmult_0_l. destruct (ar_apo A); cbn [window radial] in *; try tauto.
    all: rewrite ?Rmult_0_r, ?cos_0; try field.
    replace (- (p * 0 ^ 2)) with 0 by ring. apply exp_0.
  - intros m Hm Hle. rewrite C17_delays by auto. do 3 eexists. split; [reflexivity|].
    pose proof (rel_radius_bounds A m Hm H0) as B'.
    assert (Hrr : rel_radius A n <= rel_radius A m).
    { unfold rel_radius, Rdiv. apply Rmult_le_compat_r.
      - left. apply Rinv_0_lt_compat. now apply extr_pos.
      - apply sqrt_le_1; nra. }
    unfold weight. revert Hr B B' Hrr. generalize (rel_radius A n), (rel_radius A m). intros r r' Hr B B' Hrr.
    assert (Cd : cos (PI * r') <= cos (PI * r)).
    { destruct (Req_dec r r') as [ -> |Ne]; [lra|]. left. apply cos_decreasing_1; nra. }
    assert (Q : r^2 <= r'^2 <= 1) by nra.
    destruct (ar_apo A); cbn [window radial] in *; try tauto; try nra.
    assert (pr : p * r^2 <= p * r'^2) by (apply Rmult_le_compat_l; tauto).
    destruct (Req_dec (p * r^2) (p * r'^2)) as [E|E]; [rewrite E; lra|left; apply exp_increasing; lra].
Qed.
Print Assumptions C21_apodization.

(** With all elements on the axis (a single element, say) every radial window
    divides by zero: the weight is undefined. *)
Theorem C21_on_axis_refuted : forall cp A n, (n < length (ar_pos A))%nat -> cp <> 0 ->
  (forall m, (m < length (ar_pos A))%nat -> p_x (elem A m) = 0 /\ p_y (elem A m) = 0) ->
  ar_focus A = FNone -> ar_steer A = SNone -> radial (ar_apo A) ->
  code_delays cp A n = Ok (Some 0, Some 0, None).
Proof.
  intros cp A n Hn Hc H0 HF HS Hr. unfold code_delays.
  assert (OK : array_ok {| ar_pos := ar_pos A; ar_focus := FNone; ar_steer := SNone; ar_apo := ANone |})
    by (constructor; cbn; auto; lia).
  change (max_dim_arr (N:=EN) (emb_arr A)) with
    (max_dim_arr (N:=EN) (emb_arr {| ar_pos := ar_pos A; ar_focus := FNone; ar_steer := SNone; ar_apo := ANone |})).
  rewrite (max_dim_E _ OK).
  assert (MZ : forall l, (forall x, In x l -> x = 0) -> maxabs l = 0).
  { induction l as [|x l IH]; intros Hl; [reflexivity|]. unfold maxabs in *. cbn [map fold_right].
    rewrite IH by (intros y Hy; apply Hl; now right). rewrite (Hl x) by now left. rewrite Rabs_R0. apply Rmax_left. lra. }
  assert (EX : forall e, In e (ar_pos A) -> p_x e = 0 /\ p_y e = 0).
  { intros e He. destruct (In_nth _ _ {| p_x := 0; p_y := 0; p_z := 0 |} He) as (m & Hm & <-). apply H0; exact Hm. }
  unfold extr, extx, exty. cbn [ar_pos].
  rewrite !MZ by (intros x Hx; apply in_map_iff in Hx as (e & <- & He); apply EX; exact He).
  replace (0^2 + 0^2) with 0 by ring. rewrite sqrt_0.
  unfold elem_delays. rewrite gx_E, gy_E by exact Hn. cbn [bind]. destruct (H0 n Hn) as [-> ->].
  cbn [emb_arr foc_met focal steer_met do_apod apod_met apod apod_par theta phi]. rewrite HF, HS.
  cbn [FocusMet_is_ud]. change (buf_get [Some 0] 0%Z) with (Ok (Some 0)). cbn [bind focusing beamsteering].
  assert (Z1 : forall x : option R, e_div x (Some 0) = None).
  { intros [x|]; [|reflexivity]. unfold e_div. destruct (Req_EM_T 0 0); [reflexivity|contradiction]. }
  assert (Z2 : forall x : option R, e_div x (Some (0 * 0)) = None) by (rewrite Rmult_0_l; exact Z1).
  destruct (ar_apo A); cbn [radial] in Hr; try tauto; cbn [apodization bind]; ered.
  all: rewrite ?Z1, ?Z2; cbn [e1 e2 bind]; try reflexivity.
  all: rewrite ?(e_div_ok 1 2), ?(e_div_ok 25 46) by lra; reflexivity.
Qed.
Print Assumptions C21_on_axis_refuted.

(** Over doubles: dream_arr_rect with one element and a triangle window
    returns not-a-number samples and status 0. *)
Theorem C21_nan_refuted : exists h,
  serial SignedIdx 10 (@TArrRect FI (Floats.PrimFloat.one) (Floats.PrimFloat.one)
    (@Build_arr_par FI 1 (repeat Floats.PrimFloat.zero 3) foc_none [Floats.PrimFloat.zero] steer_none
       Floats.PrimFloat.zero Floats.PrimFloat.zero true apod_triangle [] Floats.PrimFloat.zero))
    (ex_samp 25) None lvl_warn Floats.PrimFloat.zero Floats.PrimFloat.zero (f_ofZ 10) (f_ofZ 6) 0 (repeat Floats.PrimFloat.zero 25)
  = Ok (h, err_none) /\ existsb Floats.PrimFloat.is_nan h = true.
Proof. eexists. split; vm_compute; reflexivity. Qed.
Print Assumptions C21_nan_refuted.

(** ** Non-vacuity: two 2 x 1 mm elements at x = -1 and x = +1, focused in x at
    5 mm, Gauss window; and the arrays used in the refutations. *)
Definition exA (f : focus) (s : steer) (w : apo) : array :=
  {| ar_pos := [{| p_x := -1; p_y := 0; p_z := 0 |}; {| p_x := 1; p_y := 0; p_z := 0 |}];
     ar_focus := f; ar_steer := s; ar_apo := w |}.
Lemma exA_extx f s w : extx (exA f s w) = 1.
Proof.
  unfold extx, maxabs, exA. cbn. rewrite Rabs_R1, (Rabs_left (-1)) by lra. rewrite (Rmax_left 1 0), Rmax_left by lra. lra.
Qed.
Lemma exA_exty f s w : exty (exA f s w) = 0.
Proof. unfold exty, maxabs, exA. cbn. rewrite Rabs_R0. rewrite !Rmax_left by (rewrite ?Rmax_left; lra). reflexivity. Qed.
Lemma exA_extr f s w : extr (exA f s w) = 1.
Proof. unfold extr. rewrite exA_extx, exA_exty. replace (1^2 + 0^2) with 1 by ring. apply sqrt_1. Qed.
Example exA_ok : array_ok (exA (FX 5) (SX 30) (AGauss 1)).
Proof. constructor; cbn [exA ar_pos ar_focus ar_apo length]; [lia|exact I|rewrite exA_extr; lra]. Qed.
Example C17_ex : forall K, arr_defined K 10 exq 10 (GRect 2 1) (exA (FX 5) SNone (AGauss 1)) 0 exo.
Proof.
  intros K. constructor.
  - constructor; cbn [exA ar_pos ar_focus ar_apo length]; [lia|exact I|rewrite exA_extr; lra].
  - intros n Hn. cbn [exA ar_pos length] in Hn.
    assert (X2 : p_x (elem (exA (FX 5) SNone (AGauss 1)) n) ^2 = 1) by (destruct n as [|[|n]]; [cbn; ring|cbn; ring|lia]).
    assert (Ed : elem_delay exq (exA (FX 5) SNone (AGauss 1)) 0 n = 0).
    { unfold elem_delay, focus_delay, steer_delay. cbn [exA ar_focus ar_steer]. fold (exA (FX 5) SNone (AGauss 1)).
      rewrite exA_extx, X2. replace (1^2) with 1 by ring. ring. }
    rewrite Ed.
    assert (Db : forall s, In s (sources exq (GRect 2 1)) -> 5 < dist (rel exo (elem (exA (FX 5) SNone (AGauss 1)) n)) s < 54 / 10).
    { intros s. rewrite ex_sources. intros Hs.
      assert (exists r, dist (rel exo (elem (exA (FX 5) SNone (AGauss 1)) n)) s = sqrt r /\ 25 < r < 29) as (r & -> & Hr).
      { eexists. split; [reflexivity|].
        destruct n as [|[|n]]; [| |lia]; destruct Hs as [ <- | [ <- | [] ] ]; cbn; lra. }
      split.
      - rewrite <- (sqrt_square 5) by lra. apply sqrt_lt_1; lra.
      - rewrite <- (sqrt_square (54/10)) by lra. apply sqrt_lt_1; lra. }
    constructor.
    + unfold par_ok; cbn; repeat split; lra.
    + exact I.
    + intros s Hs. specialize (Db s Hs). lra.
    + intros s Hs. specialize (Db s Hs).
      replace (arrives_at exq 0 _ s) with 5%Z; [destruct K; lia|]. symmetry. unfold arrives_at. apply Zrint_unique.
      unfold arrival. cbn [exq p_cp p_dt].
      replace (s_tau s) with 0 by (rewrite ex_sources in Hs; destruct Hs as [ <- | [ <- | [] ] ]; reflexivity).
      apply Rabs_def1; lra.
    + cbn [enough exq p_dx p_dy]. rewrite (Rcount _ _ _ 2), (Rcount _ _ _ 1) by (cbn; lra). lia.
    + lia.
Qed.
(** C19 refuted, C20 refuted. *)
Example C19_C20_ex :
  array_ok (exA (FXplusY 5) (SX (-30)) ANone) /\
  Rabs (p_x (elem (exA (FXplusY 5) (SX (-30)) ANone) 1)) = extx (exA (FXplusY 5) (SX (-30)) ANone) /\
  Rabs (p_y (elem (exA (FXplusY 5) (SX (-30)) ANone) 1)) = exty (exA (FXplusY 5) (SX (-30)) ANone) /\
  p_x (elem (exA (FXplusY 5) (SX (-30)) ANone) 1) = extx (exA (FXplusY 5) (SX (-30)) ANone) /\
  extx (exA (FXplusY 5) (SX (-30)) ANone) <> 0.
Proof.
  split; [constructor; cbn; auto; lia|]. rewrite exA_extx, exA_exty. cbn. rewrite Rabs_R1, Rabs_R0. repeat split; lra.
Qed.
