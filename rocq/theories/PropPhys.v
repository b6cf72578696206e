(** PropPhys.v - physical properties of the returned responses, end to end:
    support (C85), sign (C86), integral over time (C87), change of units (C88),
    record length (C89), focusing of single elements (C90). *)
From Coq Require Strings.String Strings.Ascii.
Import Coq.Strings.String.StringSyntax.
From Coq Require Import Reals List ZArith Lra Lia.
From Verif Require Import Base BaseLemmas ModelSir ModelArr ModelSmp NumR SpecSmp SpecSir SpecRayleigh SpecArr
  ModelGw SpecGw SpecGwR ProofsR ProofsRayleigh ProofsSirR PropSir PropGwR SpecPhys ProofsPhys.
Import ListNotations.
Open Scope R_scope.

(** The returned matrix (C44) in the words of SpecPhys. *)
Lemma call_returns fuel c2r fe f nlhs hw env sch junk args g q ntz ps dty dl :
  exact_call c2r fe f nlhs hw env sch args g q ntz ps dty dl -> all_defined fe fuel q ntz g ps dty dl ->
  returns (gateway fuel c2r fe f nlhs hw env sch junk args) ntz (length ps)
    (fun n k => rayleigh q 1 (start_delay dty dl n) (nth n ps origin) (sources q g) (Z.of_nat k)).
Proof.
  intros [(l & Hl & D) ? ? ? ? ?] Hd. exact (C44_single fuel c2r fe f nlhs hw env sch junk args g q ntz l ps dty dl D Hl
    xc_lhs xc_nt xc_c2r xc_hw xc_sch Hd).
Qed.

(** C85: no sound before the first or after the last arrival. If every point
    of the surface is between lo and hi us away from observation point n
    (focusing delay included), then sample k is 0 whenever its rounding
    interval (k-1/2)dt .. (k+1/2)dt, counted from the start delay, lies before
    lo or after hi. *)
Theorem C85_support : forall fuel c2r fe f nlhs hw env sch junk args g q ntz ps dty dl,
  exact_call c2r fe f nlhs hw env sch args g q ntz ps dty dl -> all_defined fe fuel q ntz g ps dty dl -> 0 < p_dt q ->
  exists V, returns (gateway fuel c2r fe f nlhs hw env sch junk args) ntz (length ps) V /\
  forall n lo hi, (n < length ps)%nat -> times_within (p_cp q) g (nth n ps origin) lo hi ->
  forall k, (k < Z.to_nat ntz)%nat ->
    start_delay dty dl n + (INR k + 1 / 2) * p_dt q < lo \/ hi < start_delay dty dl n + (INR k - 1 / 2) * p_dt q ->
    V n k = 0.
Proof.
  intros fuel c2r fe f nlhs hw env sch junk args g q ntz ps dty dl HC HD Hdt.
  eexists. split; [apply call_returns; eassumption|]. cbv beta.
  intros n lo hi Hn Ht k Hk Hk'. destruct (HD n Hn) as [Hq Hg _ _ _ _].
  apply rayleigh_0. intros s Hs E.
  destruct (source_on_surface q g s Hq Hg Hs) as [Hon _]. specialize (Ht _ Hon).
  unfold arrives_at in E. rewrite (arrival_time q g) in E by auto.
  set (t := travel_time _ _ _ _) in *. clearbody t. set (d := start_delay dty dl n) in *. clearbody d.
  pose proof (Zrint_near ((t - d) / p_dt q)) as Hr. rewrite E, <- INR_IZR_INZ in Hr.
  assert (Hr' : INR k - 1 / 2 <= (t - d) / p_dt q <= INR k + 1 / 2)
    by (revert Hr; unfold Rabs; destruct (Rcase_abs _); lra).
  assert (T : t - d = (t - d) / p_dt q * p_dt q) by (field; lra).
  destruct Hr' as [R1 R2]. apply (Rmult_le_compat_r (p_dt q)) in R1; [|lra]. apply (Rmult_le_compat_r (p_dt q)) in R2; [|lra].
  lra.
Qed.
Print Assumptions C85_support.

(** ... for a plane transducer: nothing before the time |z|/c. *)
Theorem C85_plane : forall fuel c2r fe f nlhs hw env sch junk args g q ntz ps dty dl,
  exact_call c2r fe f nlhs hw env sch args g q ntz ps dty dl -> all_defined fe fuel q ntz g ps dty dl -> 0 < p_dt q ->
  planar g -> 0 < p_cp q ->
  exists V, returns (gateway fuel c2r fe f nlhs hw env sch junk args) ntz (length ps) V /\
  forall n k, (n < length ps)%nat -> (k < Z.to_nat ntz)%nat ->
    start_delay dty dl n + (INR k + 1 / 2) * p_dt q < 1000 * Rabs (p_z (nth n ps origin)) / p_cp q -> V n k = 0.
Proof.
  intros fuel c2r fe f nlhs hw env sch junk args g q ntz ps dty dl HC HD Hdt Hp Hcp.
  eexists. split; [apply call_returns; eassumption|]. cbv beta.
  intros n k Hn Hk Hlt. destruct (HD n Hn) as [Hq Hg _ _ _ _].
  apply rayleigh_0. intros s Hs E.
  destruct (source_on_surface q g s Hq Hg Hs) as [Hon _].
  unfold arrives_at in E. rewrite (arrival_time q g) in E by auto.
  assert (Ht : 1000 * Rabs (p_z (nth n ps origin)) / p_cp q <= travel_time (p_cp q) g (nth n ps origin) (spos s)).
  { unfold travel_time. replace (lens (p_cp q) g (spos s)) with 0 by (destruct g; try contradiction; reflexivity).
    rewrite Rplus_0_r. apply Rmult_le_compat_r; [left; apply Rinv_0_lt_compat; lra|]. apply Rmult_le_compat_l; [lra|].
    assert (Z0 : p_z (spos s) = 0) by (destruct g; try contradiction; cbn [on_surface] in Hon; tauto).
    unfold distance. rewrite Z0, <- sqrt_Rsqr_abs. apply sqrt_le_1_alt. unfold Rsqr.
    match goal with |- _ <= ?A^2 + ?B^2 + _ => pose proof (pow2_ge_0 A); pose proof (pow2_ge_0 B) end.
    replace ((p_z (nth n ps origin) - 0)^2) with (p_z (nth n ps origin) * p_z (nth n ps origin)) by ring. lra. }
  set (t := travel_time _ _ _ _) in *. clearbody t. set (d := start_delay dty dl n) in *. clearbody d.
  pose proof (Zrint_near ((t - d) / p_dt q)) as Hr. rewrite E, <- INR_IZR_INZ in Hr.
  assert (Hr' : (t - d) / p_dt q <= INR k + 1 / 2)
    by (revert Hr; unfold Rabs; destruct (Rcase_abs _); lra).
  assert (T : t - d = (t - d) / p_dt q * p_dt q) by (field; lra).
  apply (Rmult_le_compat_r (p_dt q)) in Hr'; [|lra]. lra.
Qed.
Print Assumptions C85_plane.

(** The area element of a source point is positive. *)
Lemma ds_pos q g s : par_ok q -> geom_ok q g -> In s (sources q g) -> 0 < s_ds s.
Proof.
  intros (Hx & Hy & _ & _) Hg H.
  assert (0 < p_dx q * p_dy q) by (apply Rmult_lt_0_compat; auto).
  destruct g; cbn [sources] in H; try (apply in_map_iff in H as ([x y] & <- & H)); try exact H0.
  - apply in_map_iff in H as (x & <- & H). exact H0.
  - apply in_flat_map in H as (ph & H1 & H2). apply in_map_iff in H2 as (x & <- & H2). cbn [s_ds].
    destruct Hg as [Hb Hd]. assert (HRc : 0 < Rabs Rcurv) by (pose proof (Rabs_pos (b / 2)); lra).
    apply Rmult_lt_0_compat; [nra|]. apply asin_pos. split; [apply Rdiv_lt_0_compat; lra|].
    apply Rmult_le_reg_r with (Rabs Rcurv); auto. field_simplify; lra.
Qed.
Lemma strength_ge0 q g w o s : par_ok q -> geom_ok q g -> off_source q g o -> In s (sources q g) ->
  0 < p_dt q -> 0 <= w * p_v q -> 0 <= strength q w o s.
Proof.
  intros Hq Hg Ho Hs Hdt Hw. unfold strength. pose proof (ds_pos q g s Hq Hg Hs) as Hds. specialize (Ho s Hs).
  assert (0 < dist o s) by (pose proof (sqrt_pos ((p_x o - s_x s)^2 + (p_y o - s_y s)^2 + (p_z o - s_z s)^2)); unfold dist in *; lra).
  pose proof PI_RGT_0. apply Rmult_le_pos.
  - replace (1000 * w * p_v q * s_ds s) with (1000 * s_ds s * (w * p_v q)) by ring. apply Rmult_le_pos; [lra|exact Hw].
  - left. apply Rinv_0_lt_compat. apply Rmult_lt_0_compat; [apply Rmult_lt_0_compat|]; lra.
Qed.

(** C86: the response to a positive velocity is nowhere negative. *)
Theorem C86_nonnegative : forall fuel c2r fe f nlhs hw env sch junk args g q ntz ps dty dl,
  exact_call c2r fe f nlhs hw env sch args g q ntz ps dty dl -> all_defined fe fuel q ntz g ps dty dl ->
  0 < p_dt q -> 0 <= p_v q ->
  exists V, returns (gateway fuel c2r fe f nlhs hw env sch junk args) ntz (length ps) V /\
  forall n k, (n < length ps)%nat -> (k < Z.to_nat ntz)%nat -> 0 <= V n k.
Proof.
  intros fuel c2r fe f nlhs hw env sch junk args g q ntz ps dty dl HC HD Hdt Hv.
  eexists. split; [apply call_returns; eassumption|]. cbv beta.
  intros n k Hn Hk. destruct (HD n Hn) as [Hq Hg Ho _ _ _]. apply Rsum_ge0. intros s Hs.
  destruct (Z.eqb _ _); [|lra]. eapply strength_ge0; eauto. lra.
Qed.
Print Assumptions C86_nonnegative.

(** C87: the integral of the response over time does not depend on the
    sampling period, the start delay or the record length, as long as all
    arrivals are in the record: two calls with the same transducer, spatial
    steps, velocity and sound speed. *)
Theorem C87_time_integral : forall fuel c2r fe f nlhs hw env sch junk args fuel' c2r' fe' f' nlhs' hw' env' sch' junk' args'
    g q dt' ntz ntz' ps dty dl dty' dl',
  let q' := {| p_dx := p_dx q; p_dy := p_dy q; p_dt := dt'; p_v := p_v q; p_cp := p_cp q |} in
  exact_call c2r fe f nlhs hw env sch args g q ntz ps dty dl -> all_defined fe fuel q ntz g ps dty dl -> 0 < p_dt q ->
  exact_call c2r' fe' f' nlhs' hw' env' sch' args' g q' ntz' ps dty' dl' -> all_defined fe' fuel' q' ntz' g ps dty' dl' -> 0 < dt' ->
  (forall n, (n < length ps)%nat -> inside q ntz g (start_delay dty dl n) (nth n ps origin)) ->
  (forall n, (n < length ps)%nat -> inside q' ntz' g (start_delay dty' dl' n) (nth n ps origin)) ->
  exists V V', returns (gateway fuel c2r fe f nlhs hw env sch junk args) ntz (length ps) V /\
    returns (gateway fuel' c2r' fe' f' nlhs' hw' env' sch' junk' args') ntz' (length ps) V' /\
    forall n, (n < length ps)%nat -> over_time q ntz (V n) = over_time q' ntz' (V' n).
Proof.
  intros fuel c2r fe f nlhs hw env sch junk args fuel' c2r' fe' f' nlhs' hw' env' sch' junk' args' g q dt' ntz ntz' ps dty dl dty' dl' q'
    HC HD Hdt HC' HD' Hdt' Hin Hin'.
  do 2 eexists. split; [apply call_returns; eassumption|]. split; [apply call_returns; eassumption|]. cbv beta.
  intros n Hn. destruct (HD n Hn) as [Hq Hg Ho _ _ _]. destruct (HD' n Hn) as [Hq' _ _ _ _ _].
  unfold over_time.
  rewrite (rayleigh_total q) by (apply inside_arrives; auto).
  rewrite (rayleigh_total q') by (apply inside_arrives; auto).
  change (sources q' g) with (sources q g).
  rewrite <- !Rsum_scal. apply Rsum_ext. intros s Hs. unfold strength. cbn [q' p_v p_dt]. specialize (Ho s Hs).
  pose proof PI_RGT_0. field. repeat split; lra.
Qed.
Print Assumptions C87_time_integral.

(** C88: similarity. A transducer s times as large, sampled with steps and
    periods s times as large, has the same response at s times the distance. *)
Theorem C88_similarity : forall s fuel c2r fe f nlhs hw env sch junk args c2r' f' nlhs' hw' env' sch' junk' args' g q ntz ps dty dl,
  0 < s ->
  exact_call c2r fe f nlhs hw env sch args g q ntz ps dty dl -> all_defined fe fuel q ntz g ps dty dl ->
  exact_call c2r' fe f' nlhs' hw' env' sch' args' (scale_geom s g) (scale_par s q) ntz (map (scale_pos s) ps) dty (map (Rmult s) dl) ->
  exists V V', returns (gateway fuel c2r fe f nlhs hw env sch junk args) ntz (length ps) V /\
    returns (gateway fuel c2r' fe f' nlhs' hw' env' sch' junk' args') ntz (length ps) V' /\
    forall n k, (n < length ps)%nat -> (k < Z.to_nat ntz)%nat -> V' n k = V n k.
Proof.
  intros s fuel c2r fe f nlhs hw env sch junk args c2r' f' nlhs' hw' env' sch' junk' args' g q ntz ps dty dl Hs HC HD HC'.
  assert (SP : forall n, (n < length ps)%nat -> nth n (map (scale_pos s) ps) origin = scale_pos s (nth n ps origin)).
  { intros n Hn. rewrite (nth_indep _ origin (scale_pos s origin)) by (rewrite map_length; exact Hn). apply map_nth. }
  assert (SD : forall n, start_delay dty (map (Rmult s) dl) n = s * start_delay dty dl n).
  { intros n. assert (E : forall m, nth m (map (Rmult s) dl) 0 = s * nth m dl 0).
    { intros m. rewrite <- (map_nth (Rmult s)). rewrite Rmult_0_r. reflexivity. }
    unfold start_delay. destruct dty; apply E. }
  assert (HD' : all_defined fe fuel (scale_par s q) ntz (scale_geom s g) (map (scale_pos s) ps) dty (map (Rmult s) dl)).
  { intros n Hn. rewrite map_length in Hn. rewrite SP, SD by exact Hn. apply defined_scaled; auto. }
  do 2 eexists. split; [apply call_returns; eassumption|]. split.
  - rewrite <- (map_length (scale_pos s)). apply call_returns; eassumption.
  - cbv beta. intros n k Hn Hk. rewrite SP, SD by exact Hn. destruct (HD n Hn). apply rayleigh_scaled; auto.
Qed.
Print Assumptions C88_similarity.

(** C89: a longer record has the same first samples. *)
Theorem C89_record_length : forall fuel c2r fe f nlhs hw env sch junk args fuel' c2r' fe' f' nlhs' hw' env' sch' junk' args'
    g q ntz ntz' ps dty dl dty' dl',
  exact_call c2r fe f nlhs hw env sch args g q ntz ps dty dl -> all_defined fe fuel q ntz g ps dty dl ->
  exact_call c2r' fe' f' nlhs' hw' env' sch' args' g q ntz' ps dty' dl' -> all_defined fe' fuel' q ntz' g ps dty' dl' ->
  (forall n, (n < length ps)%nat -> start_delay dty' dl' n = start_delay dty dl n) ->
  exists V V', returns (gateway fuel c2r fe f nlhs hw env sch junk args) ntz (length ps) V /\
    returns (gateway fuel' c2r' fe' f' nlhs' hw' env' sch' junk' args') ntz' (length ps) V' /\
    forall n k, (n < length ps)%nat -> (k < Z.to_nat ntz)%nat -> (k < Z.to_nat ntz')%nat -> V' n k = V n k.
Proof.
  intros fuel c2r fe f nlhs hw env sch junk args fuel' c2r' fe' f' nlhs' hw' env' sch' junk' args' g q ntz ntz' ps dty dl dty' dl'
    HC HD HC' HD' Hdl.
  do 2 eexists. split; [apply call_returns; eassumption|]. split; [apply call_returns; eassumption|]. cbv beta.
  intros n k Hn _ _. rewrite Hdl by exact Hn. reflexivity.
Qed.
Print Assumptions C89_record_length.

(** C90: a transducer focused in both directions concentrates the wave: at the
    focus every contribution falls into the same sample. *)
Definition focused_at (g : geom) (F : R) : Prop :=
  match g with GRectF _ _ foc_xy F' | GCircF _ foc_xy F' => F' = F | _ => False end.
(** Distance from the focus to the reference point of the focusing delays. *)
Definition focal_reference (g : geom) : R :=
  match g with
  | GRectF a b _ F => sqrt (a^2 + b^2 + F^2)
  | GCircF r _ F => sqrt (r^2 + F^2)
  | _ => 0
  end.
Theorem C90_focus : forall fuel c2r fe f nlhs hw env sch junk args g q ntz ps dty dl,
  exact_call c2r fe f nlhs hw env sch args g q ntz ps dty dl -> all_defined fe fuel q ntz g ps dty dl ->
  exists V, returns (gateway fuel c2r fe f nlhs hw env sch junk args) ntz (length ps) V /\
  forall n F, (n < length ps)%nat -> focused_at g F -> nth n ps origin = {| p_x := 0; p_y := 0; p_z := F |} ->
  forall k, (k < Z.to_nat ntz)%nat ->
    Z.of_nat k <> Zrint ((1000 * focal_reference g / p_cp q - start_delay dty dl n) / p_dt q) -> V n k = 0.
Proof.
  intros fuel c2r fe f nlhs hw env sch junk args g q ntz ps dty dl HC HD.
  eexists. split; [apply call_returns; eassumption|]. cbv beta.
  intros n F Hn HF Ho k Hk Hne. destruct (HD n Hn) as [Hq Hg _ _ _ _].
  apply rayleigh_0. intros s Hs E. apply Hne. rewrite <- E. unfold arrives_at. f_equal.
  rewrite (arrival_time q g) by auto. f_equal. f_equal. rewrite Ho.
  destruct Hq as (_ & _ & _ & Hcp).
  unfold travel_time, distance, lens, focal_reference, focused_at in *. destruct g; try contradiction;
    match goal with H : match ?f with _ => _ end |- _ => destruct f; try contradiction end; subst F0;
    cbn [p_x p_y p_z spos]; unfold focus_tau.
  - destruct (source_on_surface q _ s (proj1 (conj (df_par _ _ _ _ _ _ _ (HD n Hn)) I)) Hg Hs) as [Hon _]. cbn [on_surface spos p_x p_y p_z] in Hon.
    destruct Hon as (_ & _ & ->).
    replace ((0 - s_x s)^2 + (0 - s_y s)^2 + (F - 0)^2) with (s_x s ^2 + s_y s ^2 + F^2) by ring. field. exact Hcp.
  - destruct (source_on_surface q _ s (proj1 (conj (df_par _ _ _ _ _ _ _ (HD n Hn)) I)) Hg Hs) as [Hon _]. cbn [on_surface spos p_x p_y p_z] in Hon.
    destruct Hon as (_ & ->).
    replace ((0 - s_x s)^2 + (0 - s_y s)^2 + (F - 0)^2) with (s_x s ^2 + s_y s ^2 + F^2) by ring. field. exact Hcp.
Qed.
Print Assumptions C90_focus.
