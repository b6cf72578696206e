(** PropFieldEx.v - concrete calls that meet the hypotheses of C110 and C111. *)
From Coq Require Strings.String Strings.Ascii.
Import Coq.Strings.String.StringSyntax.
From Coq Require Import Reals List ZArith Lra Lia.
From Verif Require Import Base BaseLemmas ModelSir ModelArr ModelSmp NumR SpecSmp SpecSir SpecRayleigh SpecArr
  ModelGw SpecGw SpecGwR ProofsR ProofsRayleigh ProofsSirR PropSir PropGwR SpecPhys ProofsPhys PropPhys PropPhys2
  SpecField PropField SpecField3 PropField3 SpecField4 PropField4.
Import ListNotations.
Open Scope R_scope.

Local Open Scope string_scope.
Definition geom_args (gv : list R) (q : rpar) (nt : Z) (d : R) (o : pos) : list (value EN) :=
  [@VNum EN Full 1 3 (exact (coords [o])); erow gv; erow [p_dx q; p_dy q; p_dt q; IZR nt]; erow [d];
   erow [p_v q; p_cp q; 0]; VStr "ignore"].
Lemma geom_exact_call fe f gv g q nt d o : (0 <= nt <= 1000)%Z -> single_transducer (N:=EN) f (exact gv) = Some (emb_geom g) ->
  exact_call (map fst) fe f 1 1 None (round_robin 4 1) (geom_args gv q nt d o) g q nt [o] delay_single [d].
Proof.
  intros Hnt HT. constructor; auto; try lia; try (intros xc; apply map_length).
  - exists lvl_ignore. split; [left; reflexivity|].
    apply (@doc_single EN fe f (exact gv) (emb_geom g) (emb_samp q nt) (Some 0) lvl_ignore 1
             (exact (coords [o])) delay_single (exact [d]) _ _ _ _ _ [VStr "ignore"]).
    + exact HT.
    + exists Full. split; [reflexivity|]. split; [left; reflexivity|]. split; [lia|reflexivity].
    + apply row_vec.
    + exists (Some (IZR nt)). split; [apply row_vec|]. change (ntrunc (n:=EN) (Some (IZR nt))) with (Some (Ztruncr (IZR nt))).
      rewrite trunc_IZR. destruct fe; cbn; destruct (_ && _)%bool eqn:E; try reflexivity;
        (apply Bool.andb_false_iff in E; destruct E as [E|E]; [apply Z.leb_gt in E|apply Z.ltb_ge in E]; lia).
    + left. exists (Some d). split; [apply row_vec|auto].
    + apply row_vec.
    + left. exists "ignore". cbn. auto.
  - destruct (rect_exact_call fe 2 1 (exqt 1) 10 0 exo ltac:(lia)) as [_ _ _ _ _ H]. exact H.
Qed.

(** Unfocused transducer, sound speed 1000 m/s, sampling period 1 us. *)
Definition q1 (dx dy : R) : rpar := {| p_dx := dx; p_dy := dy; p_dt := 1; p_v := 1; p_cp := 1000 |}.
Lemma defined_of_times K fuel dx dy nt g o lo hi : 0 < dx -> 0 < dy -> (0 <= nt)%Z -> geom_ok (q1 dx dy) g ->
  (forall p, lens 1000 g p = 0) -> times_within 1000 g o lo hi -> 0 < lo -> hi <= 100 -> enough fuel (q1 dx dy) g ->
  defined K fuel (q1 dx dy) nt g 0 o.
Proof.
  intros Hx Hy Hnt Hg Hl HT Hlo Hhi Hf. assert (Hq : par_ok (q1 dx dy)) by (unfold par_ok; cbn; repeat split; lra).
  constructor; auto.
  - intros s Hs. destruct (source_on_surface _ g s Hq Hg Hs) as [Hon _]. pose proof (HT _ Hon) as [H1 _].
    unfold travel_time in H1. rewrite Hl in H1. change (distance o (spos s)) with (SpecRayleigh.dist o s) in H1. lra.
  - intros s Hs. destruct (source_on_surface _ g s Hq Hg Hs) as [Hon _]. pose proof (HT _ Hon) as [H1 H2].
    unfold arrives_at. rewrite (arrival_time _ g) by auto. cbn [q1 p_cp p_dt].
    set (t := travel_time _ _ _ _) in *. clearbody t.
    assert (P : 0 <= (t - 0) / 1 <= 100) by (unfold Rdiv; rewrite Rinv_1; lra).
    pose proof (Zrint_mono _ _ (proj1 P)) as B1. pose proof (Zrint_mono _ _ (proj2 P)) as B2.
    rewrite Zrint_IZR in B1. rewrite Zrint_IZR in B2. destruct K; lia.
Qed.

(** A cylinder of radius 10 mm, 2 mm wide, of chord 10 mm, seen from a point
    of its axis. *)
Lemma cyl_times : times_within 1000 (GCylind 2 10 10) (centre 10) 10 11.
Proof.
  intros p (Hx & _ & Hc & _). unfold travel_time, distance, lens, centre. cbn [p_x p_y p_z]. rewrite Rplus_0_r.
  replace ((0 - p_x p)^2 + (0 - p_y p)^2 + (10 - p_z p)^2) with (p_x p ^2 + 10^2) by (rewrite <- Hc; ring).
  assert (Hx' : (p_x p)^2 <= 1).
  { rewrite <- (pow1 2), <- (pow2_abs (p_x p)). apply pow_incr. split; [apply Rabs_pos|lra]. }
  pose proof (pow2_ge_0 (p_x p)).
  replace (1000 * sqrt (p_x p ^2 + 10^2) / 1000) with (sqrt (p_x p ^2 + 10^2)) by field. split.
  - rewrite <- (sqrt_square 10) at 1 by lra. apply sqrt_le_1_alt. lra.
  - rewrite <- (sqrt_square 11) by lra. apply sqrt_le_1_alt. lra.
Qed.
Lemma asin_half : asin (1 / 2) = PI / 6.
Proof. rewrite <- sin_PI6. pose proof PI_RGT_0. apply asin_sin. lra. Qed.
Example C110_ex : forall fe,
  exact_call (map fst) fe FCylind 1 1 None (round_robin 4 1) (geom_args [2; 10; 10] (q1 1 5) 20 0 (centre 10)) (GCylind 2 10 10) (q1 1 5) 20 [centre 10] delay_single [0] /\
  all_defined fe 10 (q1 1 5) 20 (GCylind 2 10 10) [centre 10] delay_single [0] /\ 0 < clearance 10 (centre 10) /\
  inside (q1 1 5) 20 (GCylind 2 10 10) 0 (centre 10).
Proof.
  intros fe. split; [apply geom_exact_call; [lia|reflexivity]|]. split; [|split].
  - intros n Hn. cbn in Hn. destruct n; [|lia]. cbn [nth start_delay].
    apply (defined_of_times _ _ _ _ _ _ _ 10 11); try lra; try lia; try exact cyl_times; try reflexivity.
    + cbn. rewrite (Rabs_pos_eq 10) by lra. rewrite Rabs_pos_eq by lra. lra.
    + cbn [enough q1 p_dx p_dy]. rewrite (Rabs_pos_eq 10) by lra. split.
      * rewrite (Rcount _ _ _ 2) by (cbn; lra). lia.
      * replace (10 / 2 / 10) with (1 / 2) by field. replace (5 / 10) with (1 / 2) by field. rewrite asin_half. pose proof PI_RGT_0.
        rewrite (Rcount _ _ _ 2) by (cbn; lra). lia.
  - unfold clearance, centre. cbn [p_y p_z]. replace (0^2 + (10 - 10)^2) with 0 by ring. rewrite sqrt_0.
    rewrite (Rabs_pos_eq 10) by lra. rewrite Rminus_0_l, Rabs_Ropp, Rabs_pos_eq; lra.
  - exists 10, 11. split; [exact cyl_times|]. cbn. lra.
Qed.

(** A line of 2 mm seen from 5 mm. *)
Lemma line_times : times_within 1000 (GLine 2) exo 5 (26 / 5).
Proof. intros p (Hx & Hy & Hz). apply (ex_times p). cbn. rewrite Hy, Rabs_R0. repeat split; auto; lra. Qed.
Example C110_line_ex : forall fe,
  exact_call (map fst) fe FLine 1 1 None (round_robin 4 1) (geom_args [2] (q1 1 1) 10 0 exo) (GLine 2) (q1 1 1) 10 [exo] delay_single [0] /\
  all_defined fe 10 (q1 1 1) 10 (GLine 2) [exo] delay_single [0] /\ 0 < off_axis exo /\
  inside (q1 1 1) 10 (GLine 2) 0 exo.
Proof.
  intros fe. split; [apply geom_exact_call; [lia|reflexivity]|]. split; [|split].
  - intros n Hn. cbn in Hn. destruct n; [|lia]. cbn [nth start_delay].
    apply (defined_of_times _ _ _ _ _ _ _ 5 (26 / 5)); try lra; try lia; try exact line_times; try reflexivity.
    + cbn [enough q1 p_dx p_dy]. rewrite (Rcount _ _ _ 2) by (cbn; lra). lia.
  - unfold off_axis, exo. cbn [p_y p_z]. apply sqrt_lt_R0. lra.
  - exists 5, (26 / 5). split; [exact line_times|]. cbn. lra.
Qed.

(** A hemisphere of radius 5 mm, steps of 1/20 mm. *)
Lemma bowl_times : times_within 1000 (GSphere 5 5) (centre 5) 5 5.
Proof.
  intros p (_ & Hc & _). unfold travel_time, distance, lens, centre. cbn [p_x p_y p_z]. rewrite Rplus_0_r.
  replace ((0 - p_x p)^2 + (0 - p_y p)^2 + (5 - p_z p)^2) with (5^2) by (rewrite <- Hc; ring).
  rewrite sqrt_pow2 by lra. lra.
Qed.
Example C111_ex : forall fe,
  exact_call (map fst) fe FSphere 1 1 None (round_robin 4 1) (geom_args [5; 5] (q1 (1/20) (1/20)) 10 0 (centre 5)) (GSphere 5 5) (q1 (1/20) (1/20)) 10 [centre 5] delay_single [0] /\
  all_defined fe 300 (q1 (1/20) (1/20)) 10 (GSphere 5 5) [centre 5] delay_single [0] /\
  inside (q1 (1/20) (1/20)) 10 (GSphere 5 5) 0 (centre 5) /\ 1 / 20 <= 5 / 100.
Proof.
  intros fe. split; [apply geom_exact_call; [lia|reflexivity]|]. split; [|split].
  - intros n Hn. cbn in Hn. destruct n; [|lia]. cbn [nth start_delay].
    apply (defined_of_times _ _ _ _ _ _ _ 5 5); try lra; try lia; try exact bowl_times; try reflexivity.
    + cbn. rewrite Rabs_pos_eq by lra. lra.
    + cbn [enough q1 p_dx p_dy]. rewrite (Rabs_pos_eq 5) by lra.
      assert (E : SpecRayleigh.count (- (5) + 1 / 20 / 2) 5 (1 / 20) = 200%nat).
      { apply Rcount; [lra|]. rewrite INR_IZR_INZ. replace (Z.of_nat 200) with 200%Z by reflexivity. lra. }
      rewrite E. lia.
  - exists 5, 5. split; [exact bowl_times|]. cbn. lra.
  - lra.
Qed.
