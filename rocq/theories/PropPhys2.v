(** PropPhys2.v - property theorem C91: the time integral of the response of
    dreamrect converges to the Rayleigh surface integral. *)
From Coq Require Strings.String Strings.Ascii.
Import Coq.Strings.String.StringSyntax.
From Coq Require Import Reals List ZArith Lra Lia.
From Coquelicot Require Import Coquelicot.
From Verif Require Import Base BaseLemmas ModelSir ModelArr ModelSmp NumR SpecSmp SpecSir SpecRayleigh SpecArr
  ModelGw SpecGw SpecGwR ProofsR ProofsRayleigh ProofsSirR PropSir PropGwR SpecPhys ProofsPhys ProofsRiemann PropPhys.
Import ListNotations.
Open Scope R_scope.

(** The Rayleigh integral (velocity potential) over an a x b rectangle. *)
Definition surface_integral (v a b : R) (o : pos) : R :=
  RInt (fun y => RInt (fun x => 1000 * v / (2 * PI * sqrt ((p_x o - x)^2 + (p_y o - y)^2 + p_z o ^2)))
                      (- a / 2) (a / 2)) (- b / 2) (b / 2).

Lemma total_rect q ntz delay a b o : par_ok q -> 0 < p_dt q -> off_source q (GRect a b) o -> inside q ntz (GRect a b) delay o ->
  over_time q ntz (fun k => rayleigh q 1 delay o (sources q (GRect a b)) (Z.of_nat k)) =
  p_dx q * p_dy q * Rsum (map (fun y => Rsum (map (fun x => 1000 * p_v q / (2 * PI) * invr (p_z o) (p_x o - x) (p_y o - y))
     (midpoints (- a / 2) (a / 2) (p_dx q)))) (midpoints (- b / 2) (b / 2) (p_dy q))).
Proof.
  intros Hq Hdt Ho Hin. unfold over_time. rewrite rayleigh_total by (apply inside_arrives; auto; exact I).
  rewrite <- !Rsum_scal. cbn [sources] in *. unfold rect_xy.
  unfold off_source in Ho. cbn [sources] in Ho. unfold rect_xy in Ho.
  revert Ho. induction (midpoints (- b / 2) (b / 2) (p_dy q)) as [|y Y IH]; intros Ho; [reflexivity|].
  cbn [flat_map]. rewrite !map_app, Rsum_app. rewrite IH by (intros s Hs; apply Ho; cbn [flat_map]; rewrite map_app; apply in_or_app; right; exact Hs).
  cbn [map]. change (Rsum (?h :: ?t)) with (h + Rsum t). f_equal.
  rewrite <- Rsum_scal. rewrite !map_map. apply Rsum_ext. intros x Hx.
  assert (D : dist o (flat (p_dx q * p_dy q) x y) <> 0).
  { apply Ho. cbn [flat_map]. rewrite map_app. apply in_or_app. left. rewrite map_map. apply in_map_iff. exists x. auto. }
  unfold strength, invr. revert D. unfold dist, flat. cbn [s_x s_y s_z s_ds].
  replace (p_z o - 0) with (p_z o) by ring. intros D. pose proof PI_RGT_0. field. repeat split; lra.
Qed.

Lemma lipschitz_scal c L f : lipschitz L f -> lipschitz (Rabs c * L) (fun x => c * f x).
Proof.
  intros H x y. replace (c * f x - c * f y) with (c * (f x - f y)) by ring. rewrite Rabs_mult, Rmult_assoc.
  apply Rmult_le_compat_l; [apply Rabs_pos|apply H].
Qed.
Lemma lipschitz_refl p L f : lipschitz L f -> lipschitz L (fun x => f (p - x)).
Proof. intros H x y. eapply Rle_trans; [apply H|]. right. f_equal. replace (p - x - (p - y)) with (- (x - y)) by ring. apply Rabs_Ropp. Qed.

(** C91: for an aperture of a whole number of steps and a point in front of
    the plate, the time integral of the returned response differs from the
    Rayleigh integral over the plate by at most
    1000 |v| / (2 pi) * a b (dx + dy) / (2 z^2). *)
Theorem C91_rayleigh_integral : forall fuel c2r fe f nlhs hw env sch junk args a b q ntz ps dty dl,
  exact_call c2r fe f nlhs hw env sch args (GRect a b) q ntz ps dty dl -> all_defined fe fuel q ntz (GRect a b) ps dty dl ->
  0 < p_dt q -> whole_x q (GRect a b) -> whole_y q (GRect a b) ->
  exists V, returns (gateway fuel c2r fe f nlhs hw env sch junk args) ntz (length ps) V /\
  forall n, (n < length ps)%nat -> p_z (nth n ps origin) <> 0 ->
    inside q ntz (GRect a b) (start_delay dty dl n) (nth n ps origin) ->
    Rabs (over_time q ntz (V n) - surface_integral (p_v q) a b (nth n ps origin)) <=
    1000 * Rabs (p_v q) / (2 * PI) * (a * b * (p_dx q + p_dy q)) / (2 * p_z (nth n ps origin) ^2).
Proof.
  intros fuel c2r fe f nlhs hw env sch junk args a b q ntz ps dty dl HC HD Hdt [mx Ea] [my Eb].
  eexists. split; [apply call_returns; eassumption|]. cbv beta. intros n Hn Hz Hin.
  destruct (HD n Hn) as [Hq _ Ho _ _ _]. rewrite total_rect by auto.
  set (o := nth n ps origin) in *. clearbody o. destruct Hq as (Hx & Hy & _ & _).
  set (C := 1000 * p_v q / (2 * PI)).
  assert (L1 : forall y, lipschitz (Rabs C * / p_z o ^2) (fun x => C * invr (p_z o) (p_x o - x) (p_y o - y))).
  { intros y. apply lipschitz_scal. apply (lipschitz_refl (p_x o) _ (fun u => invr (p_z o) u (p_y o - y))). now apply invr_lip_x. }
  assert (L2 : forall x, lipschitz (Rabs C * / p_z o ^2) (fun y => C * invr (p_z o) (p_x o - x) (p_y o - y))).
  { intros x. apply lipschitz_scal. apply (lipschitz_refl (p_y o) _ (fun u => invr (p_z o) (p_x o - x) u)). now apply invr_lip_y. }
  pose proof (midpoint_rule2 _ (fun x y => C * invr (p_z o) (p_x o - x) (p_y o - y)) (- a / 2) (p_dx q) mx (- b / 2) (p_dy q) my Hx Hy L1 L2) as D.
  replace (- a / 2 + INR mx * p_dx q) with (a / 2) in D by lra.
  replace (- b / 2 + INR my * p_dy q) with (b / 2) in D by lra.
  unfold midpoints.
  assert (Cx : SpecRayleigh.count (- a / 2 + p_dx q / 2) (a / 2) (p_dx q) = mx).
  { replace (a / 2) with (- a / 2 + INR mx * p_dx q) by lra. now apply count_whole. }
  assert (Cy : SpecRayleigh.count (- b / 2 + p_dy q / 2) (b / 2) (p_dy q) = my).
  { replace (b / 2) with (- b / 2 + INR my * p_dy q) by lra. now apply count_whole. }
  rewrite Cx, Cy. rewrite map_map.
  assert (ES : surface_integral (p_v q) a b o =
    RInt (fun y => RInt (fun x => C * invr (p_z o) (p_x o - x) (p_y o - y)) (- a / 2) (a / 2)) (- b / 2) (b / 2)).
  { unfold surface_integral. apply RInt_ext. intros y _. apply RInt_ext. intros x _. unfold C, invr.
    assert (0 < sqrt ((p_x o - x)^2 + (p_y o - y)^2 + p_z o ^2)).
    { apply sqrt_lt_R0. pose proof (pow2_ge_0 (p_x o - x)). pose proof (pow2_ge_0 (p_y o - y)).
      assert (0 < p_z o ^ 2) by nra. lra. }
    pose proof PI_RGT_0. match goal with |- @eq _ ?A ?B => change (@eq R A B) end. field. split; lra. }
  rewrite ES, Rabs_minus_sym. 
  erewrite (map_ext (fun j => Rsum (map _ (map (mid (- a / 2) (p_dx q)) (seq 0 mx))))) by (intros j; rewrite map_map; reflexivity).
  eapply Rle_trans; [exact D|]. right.
  assert (EC : Rabs C = 1000 * Rabs (p_v q) / (2 * PI)).
  { unfold C, Rdiv. pose proof PI_RGT_0. rewrite !Rabs_mult. rewrite (Rabs_pos_eq 1000), (Rabs_pos_eq (/ (2 * PI))); [reflexivity| |lra].
    left. apply Rinv_0_lt_compat. lra. }
  rewrite EC, <- Ea, <- Eb. pose proof PI_RGT_0. field. split; [lra|exact Hz].
Qed.
Print Assumptions C91_rayleigh_integral.

(** ** Non-vacuity of C85-C91: calls of dreamrect in every front end. *)
Local Open Scope string_scope.
Definition rect_args (a b : R) (q : rpar) (nt : Z) (d : R) (o : pos) : list (value EN) :=
  [@VNum EN Full 1 3 (exact (coords [o])); erow [a; b]; erow [p_dx q; p_dy q; p_dt q; IZR nt]; erow [d];
   erow [p_v q; p_cp q; 0]; VStr "ignore"].
Lemma rect_exact_call fe a b q nt d o : (0 <= nt <= 1000)%Z ->
  exact_call (map fst) fe FRect 1 1 None (round_robin 4 1) (rect_args a b q nt d o) (GRect a b) q nt [o] delay_single [d].
Proof.
  intros Hnt. constructor; auto; try lia; try (intros xc; apply map_length).
  - exists lvl_ignore. split; [left; reflexivity|].
    apply (@doc_single EN fe FRect (exact [a; b]) (emb_geom (GRect a b)) (emb_samp q nt) (Some 0) lvl_ignore 1
             (exact (coords [o])) delay_single (exact [d]) _ _ _ _ _ [VStr "ignore"]).
    + reflexivity.
    + exists Full. split; [reflexivity|]. split; [left; reflexivity|]. split; [lia|reflexivity].
    + apply row_vec.
    + exists (Some (IZR nt)). split; [apply row_vec|]. change (ntrunc (n:=EN) (Some (IZR nt))) with (Some (Ztruncr (IZR nt))).
      rewrite trunc_IZR. destruct fe; cbn; destruct (_ && _)%bool eqn:E; try reflexivity;
        (apply Bool.andb_false_iff in E; destruct E as [E|E]; [apply Z.leb_gt in E|apply Z.ltb_ge in E]; lia).
    + left. exists (Some d). split; [apply row_vec|auto].
    + apply row_vec.
    + left. exists "ignore". cbn. auto.
  - constructor.
    + intros H. cbn in H. repeat destruct H as [H|H]; try discriminate H; exact H.
    + change (Z.of_nat (length [o])) with 1%Z. change (num_threads 1 None 1) with 1%Z. intros i Hi. assert (i = 0)%Z by lia. subst i. cbn. lia.
Qed.

(** The 2 x 1 mm plate seen from 5 mm, sampling period dt, nt samples. *)
Definition exqt (h : R) : rpar := {| p_dx := 1; p_dy := 1; p_dt := h; p_v := 1; p_cp := 1000 |}.
Lemma ex_times : times_within 1000 (GRect 2 1) exo 5 (26 / 5).
Proof.
  intros p (Hx & Hy & Hz). unfold travel_time, distance, lens. cbn [exo p_x p_y p_z]. rewrite Hz, Rplus_0_r.
  replace (1000 * sqrt ((0 - p_x p)^2 + (0 - p_y p)^2 + (5 - 0)^2) / 1000) with (sqrt ((p_x p)^2 + (p_y p)^2 + 25)).
  2: { replace ((0 - p_x p)^2 + (0 - p_y p)^2 + (5 - 0)^2) with ((p_x p)^2 + (p_y p)^2 + 25) by ring. field. }
  assert (Hx' : (p_x p)^2 <= 1).
  { rewrite <- (pow1 2). rewrite <- (pow2_abs (p_x p)). apply pow_incr. split; [apply Rabs_pos|lra]. }
  assert (Hy' : (p_y p)^2 <= (1/2)^2).
  { rewrite <- (pow2_abs (p_y p)). apply pow_incr. split; [apply Rabs_pos|lra]. }
  pose proof (pow2_ge_0 (p_x p)). pose proof (pow2_ge_0 (p_y p)). split.
  - rewrite <- (sqrt_square 5) at 1 by lra. apply sqrt_le_1_alt. lra.
  - rewrite <- (sqrt_square (26 / 5)) by lra. apply sqrt_le_1_alt. lra.
Qed.
Lemma ex_defined_t h nt fuel K : 1 / 4 <= h -> (0 <= nt)%Z -> (2 <= fuel)%nat -> defined K fuel (exqt h) nt (GRect 2 1) 0 exo.
Proof.
  intros Hh Hnt Hf. assert (Hq : par_ok (exqt h)) by (unfold par_ok; cbn; repeat split; lra).
  constructor; auto.
  - exact I.
  - intros s Hs. destruct (source_on_surface _ (GRect 2 1) s Hq I Hs) as [Hon _]. pose proof (ex_times _ Hon) as [H1 _].
    unfold travel_time in H1. change (distance exo (spos s)) with (SpecRayleigh.dist exo s) in H1. cbn [lens] in H1. lra.
  - intros s Hs. destruct (source_on_surface _ (GRect 2 1) s Hq I Hs) as [Hon _]. pose proof (ex_times _ Hon) as [H1 H2].
    unfold arrives_at. rewrite (arrival_time _ (GRect 2 1)) by (auto; exact I). cbn [exqt p_cp p_dt].
    set (t := travel_time _ _ _ _) in *. clearbody t.
    assert (P : 0 <= (t - 0) / h <= 24).
    { split; [apply Rmult_le_pos; [lra|left; apply Rinv_0_lt_compat; lra]|].
      apply Rmult_le_reg_r with h; [lra|]. unfold Rdiv. rewrite Rmult_assoc, Rinv_l by lra. lra. }
    pose proof (Zrint_mono _ _ (proj1 P)) as B1. pose proof (Zrint_mono _ _ (proj2 P)) as B2.
    rewrite Zrint_IZR in B1. rewrite Zrint_IZR in B2. destruct K; lia.
  - cbn [enough exqt p_dx p_dy]. rewrite (Rcount _ _ _ 2), (Rcount _ _ _ 1) by (cbn; lra). lia.
Qed.
Lemma ex_all h nt fe : 1 / 4 <= h -> (0 <= nt)%Z -> all_defined fe 10 (exqt h) nt (GRect 2 1) [exo] delay_single [0].
Proof. intros Hh Hnt n Hn. cbn in Hn. destruct n; [|lia]. apply ex_defined_t; auto; lia. Qed.
Lemma ex_inside h nt : 0 < h -> 26 / 5 < (IZR nt - 1 / 2) * h -> inside (exqt h) nt (GRect 2 1) 0 exo.
Proof. intros Hh Hnt. exists 5, (26 / 5). split; [exact ex_times|]. cbn [exqt p_dt]. split; lra. Qed.

(** C85-C87, C89, C91: record of 10 samples of 1 us and of 20 samples of 1/2 us. *)
Example phys_ex : forall fe,
  exact_call (map fst) fe FRect 1 1 None (round_robin 4 1) (rect_args 2 1 (exqt 1) 10 0 exo) (GRect 2 1) (exqt 1) 10 [exo] delay_single [0] /\
  all_defined fe 10 (exqt 1) 10 (GRect 2 1) [exo] delay_single [0] /\
  exact_call (map fst) fe FRect 1 1 None (round_robin 4 1) (rect_args 2 1 (exqt (1 / 2)) 20 0 exo) (GRect 2 1) (exqt (1 / 2)) 20 [exo] delay_single [0] /\
  all_defined fe 10 (exqt (1 / 2)) 20 (GRect 2 1) [exo] delay_single [0] /\
  times_within (p_cp (exqt 1)) (GRect 2 1) exo 5 (26 / 5) /\
  inside (exqt 1) 10 (GRect 2 1) 0 exo /\ inside (exqt (1 / 2)) 20 (GRect 2 1) 0 exo /\
  whole_x (exqt 1) (GRect 2 1) /\ whole_y (exqt 1) (GRect 2 1) /\ p_z exo <> 0.
Proof.
  intros fe. split; [apply rect_exact_call; lia|]. split; [apply ex_all; [lra|lia]|].
  split; [apply rect_exact_call; lia|]. split; [apply ex_all; [lra|lia]|]. split; [exact ex_times|].
  split; [apply ex_inside; lra|]. split; [apply ex_inside; lra|].
  split; [exists 2%nat; cbn; lra|]. split; [exists 1%nat; cbn; lra|]. cbn. lra.
Qed.
(** The sample at 3 us is silent, those at 5 us carry the wave. *)
Example C85_ex : forall fe junk, exists V,
  returns (gateway 10 (map fst) fe FRect 1 1 None (round_robin 4 1) junk (rect_args 2 1 (exqt 1) 10 0 exo)) 10 1 V /\ V O 3%nat = 0.
Proof.
  intros fe junk. destruct (phys_ex fe) as (E & D & _ & _ & T & _).
  destruct (C85_support 10 (map fst) fe FRect 1 1 None (round_robin 4 1) junk _ (GRect 2 1) (exqt 1) 10 [exo] delay_single [0] E D ltac:(cbn; lra)) as (V & HV & H).
  exists V. split; [exact HV|]. apply (H O 5 (26 / 5)); auto; try (cbn; lia). left. cbn. lra.
Qed.
(** C88: twice as large. *)
Example C88_ex : forall fe,
  exact_call (map fst) fe FRect 1 1 None (round_robin 4 1) (rect_args (2 * 2) (2 * 1) (scale_par 2 (exqt 1)) 10 (2 * 0) (scale_pos 2 exo))
    (scale_geom 2 (GRect 2 1)) (scale_par 2 (exqt 1)) 10 (map (scale_pos 2) [exo]) delay_single (map (Rmult 2) [0]).
Proof. intros fe. apply rect_exact_call. lia. Qed.

(** C90: the same plate focused at 5 mm in both directions, observed at the
    focus: only sample 5 can be different from 0. *)
Definition focus_args : list (value EN) :=
  [@VNum EN Full 1 3 (exact (coords [exo])); erow [2; 1]; erow [1; 1; 1; 10]; erow [0]; erow [1; 1000; 0];
   VStr "xy"; erow [5]; VStr "ignore"].
Lemma focus_arrival s : In s (sources (exqt 1) (GRectF 2 1 foc_xy 5)) -> arrives_at (exqt 1) 0 exo s = 5%Z.
Proof.
  intros Hs. assert (Hq : par_ok (exqt 1)) by (unfold par_ok; cbn; repeat split; lra).
  destruct (source_on_surface _ (GRectF 2 1 foc_xy 5) s Hq I Hs) as [Hon _].
  unfold arrives_at. rewrite (arrival_time _ (GRectF 2 1 foc_xy 5)) by (auto; exact I).
  destruct Hon as (_ & _ & Hz). cbn [spos p_z] in Hz.
  replace ((travel_time (p_cp (exqt 1)) (GRectF 2 1 foc_xy 5) exo (spos s) - 0) / p_dt (exqt 1)) with (sqrt 30).
  - apply Zrint_unique. rewrite Rabs_pos_eq.
    + apply Rlt_le_trans with (sqrt ((11/2)*(11/2)) - 5); [|rewrite sqrt_square by lra; lra].
      apply Rplus_lt_compat_r. apply sqrt_lt_1_alt. lra.
    + apply Rle_trans with (sqrt (5*5) - 5); [rewrite sqrt_square by lra; lra|].
      apply Rplus_le_compat_r. apply sqrt_le_1_alt. lra.
  - unfold travel_time, distance, lens, focus_tau. cbn [exqt p_cp p_dt exo spos p_x p_y p_z]. rewrite Hz.
    replace ((0 - s_x s)^2 + (0 - s_y s)^2 + (5 - 0)^2) with (s_x s ^2 + s_y s ^2 + 5^2) by ring.
    replace (2^2 + 1^2 + 5^2) with 30 by ring. field.
Qed.
Example C90_ex : forall fe,
  exact_call (map fst) fe FRectF 1 1 None (round_robin 4 1) focus_args (GRectF 2 1 foc_xy 5) (exqt 1) 10 [exo] delay_single [0] /\
  all_defined fe 10 (exqt 1) 10 (GRectF 2 1 foc_xy 5) [exo] delay_single [0] /\ focused_at (GRectF 2 1 foc_xy 5) 5.
Proof.
  intros fe. split; [|split; [|reflexivity]].
  - constructor; auto; try lia; try (intros xc; apply map_length).
    + exists lvl_ignore. split; [left; reflexivity|].
      apply (@doc_focused EN fe FRectF (exact [2; 1]) foc_xy (Some 5) (emb_geom (GRectF 2 1 foc_xy 5)) (emb_samp (exqt 1) 10) (Some 0) lvl_ignore 1
             (exact (coords [exo])) delay_single (exact [0]) _ _ _ _ _ _ _ [VStr "ignore"]).
      * reflexivity.
      * exists Full. split; [reflexivity|]. split; [left; reflexivity|]. split; [lia|reflexivity].
      * apply row_vec.
      * exists (Some 10). split; [apply row_vec|]. change (ntrunc (n:=EN) (Some 10)) with (Some (Ztruncr (IZR 10))).
        rewrite trunc_IZR. destruct fe; reflexivity.
      * left. exists (Some 0). split; [apply row_vec|auto].
      * apply row_vec.
      * left. exists "xy", (Some 5). split; [reflexivity|]. split; [cbn; auto|]. split; [discriminate|].
        split; [apply row_vec|reflexivity].
      * left. exists "ignore". cbn. auto.
    + destruct (rect_exact_call fe 2 1 (exqt 1) 10 0 exo ltac:(lia)) as [_ _ _ _ _ H]. exact H.
  - intros n Hn. cbn in Hn. destruct n; [|lia]. cbn [nth start_delay].
    assert (Hq : par_ok (exqt 1)) by (unfold par_ok; cbn; repeat split; lra).
    constructor; auto; try exact I; try lia.
    + intros s Hs. destruct (source_on_surface _ (GRectF 2 1 foc_xy 5) s Hq I Hs) as [(_ & _ & Hz) _]. cbn [spos p_z] in Hz.
      unfold SpecRayleigh.dist. rewrite Hz. cbn [exo p_x p_y p_z]. apply Rgt_not_eq. apply sqrt_lt_R0.
      pose proof (pow2_ge_0 (0 - s_x s)). pose proof (pow2_ge_0 (0 - s_y s)). lra.
    + intros s Hs. rewrite (focus_arrival s Hs). destruct (idx_of fe); lia.
    + cbn [enough exqt p_dx p_dy]. rewrite (Rcount _ _ _ 2), (Rcount _ _ _ 1) by (cbn; lra). lia.
Qed.
