(** PropSymEx.v - non-vacuity of C119, C120 and C121: two rectangular elements
    with user defined weights, steered or not, seen from points off the axes;
    every front end. *)
From Coq Require Strings.String Strings.Ascii.
Import Coq.Strings.String.StringSyntax.
From Coq Require Import Reals List ZArith Lra Lia Permutation.
From Verif Require Import Base BaseLemmas ModelSir ModelArr ModelSmp NumR SpecSmp SpecSir SpecRayleigh SpecArr
  ModelGw SpecGw SpecGwR ProofsR ProofsRayleigh ProofsSirR PropSir PropArr PropGwR SpecPhys ProofsPhys PropPhys PropPhys2 SpecPhysA PropPhys3 PropPhys3ex SpecSym PropSym.
Import ListNotations.
Local Open Scope string_scope.
Open Scope R_scope.

(** Elements of a x b mm at e1 and e2, steered in x by th degrees or not. *)
Definition tw (e1 e2 : pos) (st : option R) (w1 w2 : R) : array :=
  {| ar_pos := [e1; e2]; ar_focus := FNone; ar_steer := match st with None => SNone | Some th => SX th end; ar_apo := AUd [w1; w2] |}.
Definition tw_args (a b : R) (e1 e2 : pos) (st : option R) (w1 w2 : R) (o : pos) (d : R) : list (value EN) :=
  [@VNum EN Full 1 3 (exact (coords [o])); erow [a; b]; @VNum EN Full 2 3 (exact (coords [e1; e2]));
   erow [1; 1; 1; 10]; erow [d]; erow [1; 1000; 0];
   VStr "off"; erow [0]; VStr (match st with None => "off" | Some _ => "x" end);
   erow [match st with None => 0 | Some th => th end; 0]; VStr "ud"; erow [w1; w2]; erow [0]; VStr "ignore"].
Lemma tw_call fe a b e1 e2 st w1 w2 o d :
  exact_array_call (map fst) fe FArrRect 1 1 None (round_robin 4 1) (tw_args a b e1 e2 st w1 w2 o d) (GRect a b) (tw e1 e2 st w1 w2) exq 10 [o] delay_single [d].
Proof.
  constructor; auto; try lia; try (intros xc; apply map_length).
  - set (p := @Build_arr_par EN 2 (exact (coords [e1; e2])) foc_none [Some 0; Some 0] (match st with None => steer_none | Some _ => steer_x end)
              (Some (match st with None => 0 | Some th => th end)) (Some 0) true apod_ud [Some w1; Some w2] (Some 0)).
    exists lvl_ignore, p, (@TArrRect EN (Some a) (Some b) p). split; [left; reflexivity|]. split; [reflexivity|]. split.
    { destruct st; repeat split; cbn; lia. }
    apply (@doc_array EN fe FArrRect (exact [a; b]) p (Some 0) _ (emb_samp exq 10) (Some 0) lvl_ignore 1
             (exact (coords [o])) delay_single (exact [d]) _ _ _ _ _ _ _ _ _ _ _ _ _ [VStr "ignore"]).
    + reflexivity.
    + cbn. lia.
    + destruct fe; reflexivity.
    + exists Full. split; [reflexivity|]. split; [left; reflexivity|]. split; [lia|reflexivity].
    + apply row_vec.
    + exists Full. split; [reflexivity|]. split; [left; reflexivity|]. split; [cbn; lia|reflexivity].
    + exists (Some 10). split; [apply row_vec|]. change (ntrunc (n:=EN) (Some 10)) with (Some (Ztruncr (IZR 10))).
      rewrite trunc_IZR. destruct fe; reflexivity.
    + left. exists (Some d). split; [apply row_vec|auto].
    + apply row_vec.
    + left. exists "off", (Some 0). split; [reflexivity|]. split; [cbn; auto|]. split; [discriminate|].
      split; [apply row_vec|reflexivity].
    + destruct st.
      * exists "x". split; [reflexivity|]. split; [cbn; auto|apply row_vec].
      * exists "off". split; [reflexivity|]. split; [cbn; auto|apply row_vec].
    + split; [apply row_vec|]. right. right. split; [reflexivity|]. split; [reflexivity|]. split; [reflexivity|].
      split; [apply row_vec|]. split; [reflexivity|]. intros [_ H]. discriminate H.
    + left. exists "ignore". cbn. auto.
  - constructor.
    + intros H. cbn in H. repeat destruct H as [H|H]; try discriminate H; exact H.
    + change (Z.of_nat (length [o])) with 1%Z. change (num_threads 1 None 1) with 1%Z. intros i Hi. assert (i = 0)%Z by lia. subst i. cbn. lia.
Qed.

(** A 2 x 1 mm plate seen from 5 mm height and at most 3 mm aside. *)
Definition near (o : pos) : Prop := Rabs (p_x o) <= 3 /\ Rabs (p_y o) <= 3 /\ p_z o = 5.
Lemma Rabs_box x a : Rabs x <= a -> - a <= x <= a.
Proof. unfold Rabs. destruct (Rcase_abs x); lra. Qed.
Lemma near_times o p : near o -> on_surface (GRect 2 1) p -> 5 <= distance o p <= 8.
Proof.
  intros (Ox & Oy & Oz) (Hx & Hy & Hz). apply Rabs_box in Ox, Oy, Hx, Hy. unfold distance. rewrite Oz, Hz.
  assert (0 <= (p_x o - p_x p)^2 <= 4^2) by (split; [apply pow2_ge_0|nra]).
  assert (0 <= (p_y o - p_y p)^2 <= 4^2) by (split; [apply pow2_ge_0|nra]). split.
  - rewrite <- (sqrt_square 5) at 1 by lra. apply sqrt_le_1_alt. lra.
  - rewrite <- (sqrt_square 8) by lra. apply sqrt_le_1_alt. lra.
Qed.
Lemma near_defined K d o : near o -> -10 <= d <= 5 -> defined K 10 exq 10 (GRect 2 1) d o.
Proof.
  intros Ho Hd. assert (Hq : par_ok exq) by (unfold par_ok; cbn; repeat split; lra). constructor; auto.
  - exact I.
  - intros s Hs. destruct (source_on_surface _ (GRect 2 1) s Hq I Hs) as [Hon _]. pose proof (near_times o _ Ho Hon) as [H1 _].
    change (distance o (spos s)) with (SpecRayleigh.dist o s) in H1. lra.
  - intros s Hs. destruct (source_on_surface _ (GRect 2 1) s Hq I Hs) as [Hon _]. pose proof (near_times o _ Ho Hon) as [H1 H2].
    unfold arrives_at. rewrite (arrival_time _ (GRect 2 1)) by (auto; exact I). unfold travel_time. cbn [exq p_cp p_dt lens].
    set (t := distance _ _) in *. clearbody t.
    assert (P : IZR 0 <= (1000 * t / 1000 + 0 - d) / 1 <= IZR 18) by (unfold Rdiv; rewrite Rinv_1; lra).
    pose proof (Zrint_mono _ _ (proj1 P)) as B1. pose proof (Zrint_mono _ _ (proj2 P)) as B2.
    rewrite Zrint_IZR in B1. rewrite Zrint_IZR in B2. destruct K; lia.
  - cbn [enough exq p_dx p_dy]. rewrite (Rcount _ _ _ 2), (Rcount _ _ _ 1) by (cbn; lra). lia.
  - lia.
Qed.
Lemma sin30 : sin (rad 30) = 1 / 2.
Proof. unfold rad. replace (30 * (PI / 180)) with (PI / 6) by field. apply sin_PI6. Qed.
Lemma tw_extx st w1 w2 : extx (tw left_pos right_pos st w1 w2) = 1.
Proof. unfold extx, maxabs. cbn. rewrite (Rabs_left (-1)), (Rabs_pos_eq 1) by lra. rewrite (Rmax_left 1 0) by lra. rewrite Rmax_left; lra. Qed.
Definition aside : pos := {| p_x := 1; p_y := 2; p_z := 5 |}.
Lemma tw_defined fe st w1 w2 d : 0 <= d <= 5 -> st = None \/ st = Some 30 ->
  all_arr_defined fe 10 exq 10 (GRect 2 1) (tw left_pos right_pos st w1 w2) [aside] delay_single [d].
Proof.
  intros Hd Hst n Hn. cbn in Hn. destruct n; [|lia]. cbn [nth start_delay]. constructor.
  - constructor; cbn [tw ar_pos ar_focus ar_apo length]; auto.
  - intros i Hi. apply near_defined.
    + assert (E : elem (tw left_pos right_pos st w1 w2) i = left_pos \/ elem (tw left_pos right_pos st w1 w2) i = right_pos).
      { cbn [tw ar_pos length] in Hi. destruct i as [|[|i]]; [now left|now right|lia]. }
      destruct E as [-> | ->]; unfold near, rel; cbn [p_x p_y p_z aside left_pos right_pos].
      * split; [apply Rabs_le; lra|split; [apply Rabs_le; lra|lra]].
      * split; [apply Rabs_le; lra|split; [apply Rabs_le; lra|lra]].
    + unfold elem_delay, focus_delay, steer_delay. rewrite tw_extx. cbn [tw ar_focus ar_steer exq p_cp].
      destruct Hst as [-> | ->]; [lra|]. rewrite sin30.
      cbn [tw ar_pos length] in Hi. destruct i as [|[|i]]; [cbn; lra|cbn; lra|lia].
Qed.

(** C119: mirrored in x, unsteered and steered by 30 degrees (tilt 1 us); mirrored
    in y. *)
Example C119_ex : forall fe,
  let A := tw left_pos right_pos (Some 30) 1 2 in
  whole Along_x exq (GRect 2 1) /\ whole Along_y exq (GRect 2 1) /\
  tilt Along_x (p_cp exq) A = 1 /\
  exact_array_call (map fst) fe FArrRect 1 1 None (round_robin 4 1) (tw_args 2 1 left_pos right_pos (Some 30) 1 2 aside 1) (GRect 2 1) A exq 10 [aside] delay_single [1] /\
  all_arr_defined fe 10 exq 10 (GRect 2 1) A [aside] delay_single [1] /\
  exists args', exact_array_call (map fst) fe FArrRect 1 1 None (round_robin 4 1) args' (GRect 2 1) (mirror_array Along_x A) exq 10 (map (mirror Along_x) [aside]) delay_single [0].
Proof.
  intros fe A. destruct ex_whole as [Wx Wy]. split; [exact Wx|]. split; [exact Wy|]. split; [|split; [apply tw_call|split; [apply tw_defined; [lra|auto]|]]].
  - unfold tilt. cbn [A tw ar_steer]. fold A. unfold A. rewrite tw_extx, sin30. cbn. lra.
  - exists (tw_args 2 1 (mirror Along_x left_pos) (mirror Along_x right_pos) (Some (- (30))) 1 2 (mirror Along_x aside) 0).
    change (mirror_array Along_x A) with (tw (mirror Along_x left_pos) (mirror Along_x right_pos) (Some (- (30))) 1 2). apply tw_call.
Qed.
Example C119_symmetric_ex : forall fe,
  let A := tw left_pos right_pos None 3 3 in
  unsteered Along_x A /\ Permutation [1; 0]%nat (seq 0 (length (ar_pos A))) /\ mirror_array Along_x A = reorder [1; 0]%nat A /\
  exact_array_call (map fst) fe FArrRect 1 1 None (round_robin 4 1) (tw_args 2 1 left_pos right_pos None 3 3 aside 0) (GRect 2 1) A exq 10 [aside] delay_single [0] /\
  all_arr_defined fe 10 exq 10 (GRect 2 1) A [aside] delay_single [0] /\
  exact_array_call (map fst) fe FArrRect 1 1 None (round_robin 4 1) (tw_args 2 1 left_pos right_pos None 3 3 (mirror Along_x aside) 0) (GRect 2 1) A exq 10 (map (mirror Along_x) [aside]) delay_single [0].
Proof.
  intros fe A. split; [exact I|]. split; [apply perm_swap|]. split; [|split; [apply tw_call|split; [apply tw_defined; [lra|auto]|apply tw_call]]].
  assert (E1 : mirror Along_x left_pos = right_pos) by (unfold mirror, mirror_x, left_pos, right_pos; cbn; f_equal; lra).
  assert (E2 : mirror Along_x right_pos = left_pos) by (unfold mirror, mirror_x, left_pos, right_pos; cbn; f_equal; lra).
  unfold A, mirror_array, reorder. cbn [tw ar_pos ar_focus ar_steer ar_apo map]. rewrite E1, E2. reflexivity.
Qed.
(** C120: the 2 x 1 mm elements along x become 1 x 2 mm elements along y. *)
Example C120_ex : forall fe,
  let A := tw left_pos right_pos None 1 2 in
  swap_geom (GRect 2 1) = Some (GRect 1 2) /\
  exact_array_call (map fst) fe FArrRect 1 1 None (round_robin 4 1) (tw_args 2 1 left_pos right_pos None 1 2 aside 0) (GRect 2 1) A exq 10 [aside] delay_single [0] /\
  all_arr_defined fe 10 exq 10 (GRect 2 1) A [aside] delay_single [0] /\
  exact_array_call (map fst) fe FArrRect 1 1 None (round_robin 4 1) (tw_args 1 2 (swap left_pos) (swap right_pos) None 1 2 (swap aside) 0)
    (GRect 1 2) (swap_array A) (swap_par exq) 10 (map swap [aside]) delay_single [0].
Proof. intros fe A. split; [reflexivity|]. split; [apply tw_call|]. split; [apply tw_defined; [lra|auto]|apply tw_call]. Qed.
(** C121: two samples more start delay. *)
Example C121_ex : forall fe,
  let A := tw left_pos right_pos None 1 2 in
  (forall n, (n < length [aside])%nat -> start_delay delay_single [2] n = start_delay delay_single [0] n + IZR 2 * p_dt exq) /\
  exact_array_call (map fst) fe FArrRect 1 1 None (round_robin 4 1) (tw_args 2 1 left_pos right_pos None 1 2 aside 0) (GRect 2 1) A exq 10 [aside] delay_single [0] /\
  all_arr_defined fe 10 exq 10 (GRect 2 1) A [aside] delay_single [0] /\
  exact_array_call (map fst) fe FArrRect 1 1 None (round_robin 4 1) (tw_args 2 1 left_pos right_pos None 1 2 aside 2) (GRect 2 1) A exq 10 [aside] delay_single [2] /\
  all_arr_defined fe 10 exq 10 (GRect 2 1) A [aside] delay_single [2].
Proof.
  intros fe A. split; [intros n _; cbn; lra|]. split; [apply tw_call|]. split; [apply tw_defined; [lra|auto]|].
  split; [apply tw_call|apply tw_defined; [lra|auto]].
Qed.
(** The same for single elements: the 2 x 1 mm plate. *)
Example C119_single_ex : forall fe,
  exact_call (map fst) fe FRect 1 1 None (round_robin 4 1) (rect_args 2 1 exq 10 0 aside) (GRect 2 1) exq 10 [aside] delay_single [0] /\
  all_defined fe 10 exq 10 (GRect 2 1) [aside] delay_single [0] /\ all_defined fe 10 exq 10 (GRect 2 1) [aside] delay_single [2] /\
  exact_call (map fst) fe FRect 1 1 None (round_robin 4 1) (rect_args 2 1 exq 10 2 aside) (GRect 2 1) exq 10 [aside] delay_single [2] /\
  exact_call (map fst) fe FRect 1 1 None (round_robin 4 1) (rect_args 2 1 exq 10 0 (mirror Along_y aside)) (GRect 2 1) exq 10 (map (mirror Along_y) [aside]) delay_single [0] /\
  exact_call (map fst) fe FRect 1 1 None (round_robin 4 1) (rect_args 1 2 (swap_par exq) 10 0 (swap aside)) (GRect 1 2) (swap_par exq) 10 (map swap [aside]) delay_single [0].
Proof.
  intros fe. assert (N : near aside) by (unfold near, aside; cbn; repeat split; try lra; apply Rabs_le; lra).
  split; [apply rect_exact_call; lia|]. split; [|split].
  1,2: intros n Hn; cbn in Hn; destruct n; [|lia]; apply near_defined; [exact N|cbn; lra].
  split; [apply rect_exact_call; lia|]. split; apply rect_exact_call; lia.
Qed.

(** C121 refuted for odd shifts with ties: one source point 10.5 samples away
    arrives at sample 10 with start delay 0 and with a start delay of one
    sampling period (std::rint rounds halves to even). *)
From Verif Require Import PropFieldEx.
Theorem C121_odd_refuted : forall fe, exists V V',
  exact_call (map fst) fe FLine 1 1 None (round_robin 4 1) (geom_args [1] exq 20 0 tieo) (GLine 1) exq 20 [tieo] delay_single [0] /\
  exact_call (map fst) fe FLine 1 1 None (round_robin 4 1) (geom_args [1] exq 20 1 tieo) (GLine 1) exq 20 [tieo] delay_single [1] /\
  p_dt exq = 1 /\
  returns (gateway 10 (map fst) fe FLine 1 1 None (round_robin 4 1) [] (geom_args [1] exq 20 0 tieo)) 20 1 V /\
  returns (gateway 10 (map fst) fe FLine 1 1 None (round_robin 4 1) [] (geom_args [1] exq 20 1 tieo)) 20 1 V' /\
  V' 0%nat 9%nat = 0 /\ V 0%nat 10%nat = 1000 / (21 * PI).
Proof.
  intros fe.
  assert (C : forall d, exact_call (map fst) fe FLine 1 1 None (round_robin 4 1) (geom_args [1] exq 20 d tieo) (GLine 1) exq 20 [tieo] delay_single [d])
    by (intros d; apply geom_exact_call; [lia|reflexivity]).
  assert (D : forall d, d = 0 \/ d = 1 -> all_defined fe 10 exq 20 (GLine 1) [tieo] delay_single [d]).
  { intros d Hd n Hn. cbn in Hn. destruct n; [|lia]. cbn [nth start_delay]. now apply tie_defined. }
  do 2 eexists. split; [apply C|]. split; [apply C|]. split; [reflexivity|].
  split; [exact (call_returns _ _ _ _ _ _ _ _ _ _ _ _ _ _ _ _ (C 0) (D 0 (or_introl eq_refl)))|].
  split; [exact (call_returns _ _ _ _ _ _ _ _ _ _ _ _ _ _ _ _ (C 1) (D 1 (or_intror eq_refl)))|].
  cbn [nth start_delay]. rewrite !tie_sources. unfold rayleigh. cbn [map Rsum fold_right].
  rewrite tie_at_0, tie_at_1. change (Z.eqb 10 (Z.of_nat 9)) with false. change (Z.eqb 10 (Z.of_nat 10)) with true. cbn iota.
  unfold strength. rewrite tie_dist. cbn [exq p_v p_dt flat s_ds]. split; [ring|]. pose proof PI_RGT_0. field. lra.
Qed.
Print Assumptions C121_odd_refuted.
