(** PropPhys4ex.v - non-vacuity of C103, C104 and of the array versions of C85,
    C87, C88 and C89: a two element array focused at 5 mm, every front end. *)
From Coq Require Strings.String Strings.Ascii.
Import Coq.Strings.String.StringSyntax.
From Coq Require Import Reals List ZArith Lra Lia Permutation.
From Verif Require Import Base BaseLemmas ModelSir ModelArr ModelSmp NumR SpecSmp SpecSir SpecRayleigh SpecArr
  ModelGw SpecGw SpecGwR ProofsR ProofsRayleigh ProofsSirR PropSir PropArr PropGwR SpecPhys ProofsPhys PropPhys SpecPhysA PropPhys3 PropPhys3ex
  ModelMf SpecMf PropMf SpecPhysB PropPhys4.
Import ListNotations.
Local Open Scope string_scope.
Open Scope R_scope.

Definition foc2 (e1 e2 : pos) (F : R) : array :=
  {| ar_pos := [e1; e2]; ar_focus := FXY F; ar_steer := SNone; ar_apo := ANone |}.
Definition foc2_args (a b : R) (q : rpar) (e1 e2 : pos) (F : R) (o : pos) (d : R) : list (value EN) :=
  [@VNum EN Full 1 3 (exact (coords [o])); erow [a; b]; @VNum EN Full 2 3 (exact (coords [e1; e2]));
   erow [p_dx q; p_dy q; p_dt q; 10]; erow [d]; erow [p_v q; p_cp q; 0];
   VStr "xy"; erow [F]; VStr "off"; erow [0; 0]; VStr "off"; erow [0]; erow [0]; VStr "ignore"].
Lemma foc2_call fe a b q e1 e2 F o d :
  exact_array_call (map fst) fe FArrRect 1 1 None (round_robin 4 1) (foc2_args a b q e1 e2 F o d) (GRect a b) (foc2 e1 e2 F) q 10 [o] delay_single [d].
Proof.
  constructor; auto; try lia; try (intros xc; apply map_length).
  - set (p := @Build_arr_par EN 2 (exact (coords [e1; e2])) foc_xy [Some F; Some 0] steer_none
              (Some 0) (Some 0) false apod_gauss [Some 0; Some 0] (Some 0)).
    exists lvl_ignore, p, (@TArrRect EN (Some a) (Some b) p). split; [left; reflexivity|]. split; [reflexivity|]. split.
    { repeat split. }
    apply (@doc_array EN fe FArrRect (exact [a; b]) p (Some 0) _ (emb_samp q 10) (Some 0) lvl_ignore 1
             (exact (coords [o])) delay_single (exact [d]) _ _ _ _ _ _ _ _ _ _ _ _ _ [VStr "ignore"]).
    + reflexivity.
    + cbn. lia.
    + destruct fe; reflexivity.
    + exists Full. split; [reflexivity|]. split; [left; reflexivity|]. split; [lia|reflexivity].
    + apply row_vec.
    + exists Full. split; [reflexivity|]. split; [left; reflexivity|]. split; [cbn; lia|reflexivity].
    + exists (Some 10). split; [apply row_vec|]. change (ntrunc (n:=EN) (Some 10)) with (Some (Ztruncr (IZR 10))).
      rewrite trunc_IZR. destruct fe; reflexivity.
    + left. exists (Some d). split; [apply row_vec|auto].
    + apply row_vec.
    + left. exists "xy", (Some F). split; [reflexivity|]. split; [cbn; auto 10|]. split; [discriminate|]. split; [apply row_vec|reflexivity].
    + exists "off". split; [reflexivity|]. split; [cbn; auto|apply row_vec].
    + split; [apply row_vec|]. left. split; [reflexivity|]. split; [left; reflexivity|]. auto.
    + left. exists "ignore". cbn. auto.
  - constructor.
    + intros H. cbn in H. repeat destruct H as [H|H]; try discriminate H; exact H.
    + change (Z.of_nat (length [o])) with 1%Z. change (num_threads 1 None 1) with 1%Z. intros i Hi. assert (i = 0)%Z by lia. subst i. cbn. lia.
Qed.

Lemma Rabs_le_inv' x a : Rabs x <= a -> - a <= x <= a.
Proof. unfold Rabs. destruct (Rcase_abs x); lra. Qed.
Definition mk (x y z : R) : pos := {| p_x := x; p_y := y; p_z := z |}.
Definition A5 : array := foc2 (mk (-1) 0 0) (mk 1 0 0) 5.
Lemma A5_defined fe : all_arr_defined fe 10 exq 10 (GRect 2 1) A5 [exo] delay_single [0].
Proof.
  intros n Hn. cbn in Hn. destruct n; [|lia]. cbn [nth start_delay].
  destruct (C17_ex (idx_of fe)) as [_ He]. constructor.
  - constructor; cbn [A5 foc2 ar_pos ar_focus ar_apo length]; auto.
  - intros n Hn'. specialize (He n Hn').
    assert (X2 : p_x (elem A5 n) ^2 = 1 /\ p_y (elem A5 n) = 0).
    { cbn [A5 foc2 ar_pos length] in Hn'. destruct n as [|[|n]]; [cbn; split; ring|cbn; split; ring|lia]. }
    destruct X2 as [X2 Y2].
    assert (Ex : extr A5 = 1) by exact (exA_extr (FXY 5) SNone ANone).
    assert (Ed : elem_delay exq (exA (FX 5) SNone (AGauss 1)) 0 n = elem_delay exq A5 0 n).
    { unfold elem_delay, focus_delay, steer_delay. cbn [exA A5 foc2 ar_focus ar_steer]. fold (exA (FX 5) SNone (AGauss 1)).
      fold (foc2 (mk (-1) 0 0) (mk 1 0 0) 5). fold A5.
      rewrite exA_extx, Ex, X2, Y2. change (p_x (elem (exA (FX 5) SNone (AGauss 1)) n)) with (p_x (elem A5 n)). rewrite X2.
      replace (1^2) with 1 by ring. replace (1 + 0^2 + 5^2) with (1 + 5^2) by ring. ring. }
    rewrite Ed in He. exact He.
Qed.

(** C103 with s = 2. *)
Example C103_ex : forall fe,
  exact_array_call (map fst) fe FArrRect 1 1 None (round_robin 4 1) (foc2_args 2 1 exq (mk (-1) 0 0) (mk 1 0 0) 5 exo 0) (GRect 2 1) A5 exq 10 [exo] delay_single [0] /\
  all_arr_defined fe 10 exq 10 (GRect 2 1) A5 [exo] delay_single [0] /\
  exact_array_call (map fst) fe FArrRect 1 1 None (round_robin 4 1) (foc2_args 2 1 (faster 2 exq) (mk (-1) 0 0) (mk 1 0 0) 5 exo (0 / 2))
    (GRect 2 1) (faster_array 2 A5) (faster 2 exq) 10 [exo] delay_single (map (fun t => t / 2) [0]) /\
  exact_array_call (map fst) fe FArrRect 1 1 None (round_robin 4 1)
    (foc2_args (2 * 2) (2 * 1) (scale_par 2 exq) (mk (2 * -1) (2 * 0) (2 * 0)) (mk (2 * 1) (2 * 0) (2 * 0)) (2 * 5) (scale_pos 2 exo) (2 * 0))
    (scale_geom 2 (GRect 2 1)) (scale_array 2 A5) (scale_par 2 exq) 10 (map (scale_pos 2) [exo]) delay_single (map (Rmult 2) [0]).
Proof.
  intros fe. split; [apply foc2_call|]. split; [apply A5_defined|]. split; apply foc2_call.
Qed.

(** C104 (and C85 for arrays): the two elements meet at (0,0,5) after sqrt 26 us,
    no point of an element is more than 1.2 mm from its centre, so samples 0 to
    3 and 7 to 9 are 0. *)
Example C104_ex : forall fe,
  element_radius (GRect 2 1) (6 / 5) /\ focal_point (p_cp exq) A5 exo (1000 / 1000 * sqrt (extr A5 ^2 + 5^2)) /\
  exists V, returns (gateway 10 (map fst) fe FArrRect 1 1 None (round_robin 4 1) [] (foc2_args 2 1 exq (mk (-1) 0 0) (mk 1 0 0) 5 exo 0)) 10 1 V /\
    forall k, (k <= 3 \/ 7 <= k < 10)%nat -> V O k = 0.
Proof.
  intros fe. assert (HR : element_radius (GRect 2 1) (6 / 5)).
  { split; [lra|]. intros p (Hx & Hy & Hz). rewrite Hz. apply Rabs_le_inv' in Hx. apply Rabs_le_inv' in Hy. nra. }
  assert (HF : focal_point (p_cp exq) A5 exo (1000 / 1000 * sqrt (extr A5 ^2 + 5^2))).
  { apply C104_xy; try reflexivity; [cbn; lra|]. intros [|[|i]] Hi; [reflexivity|reflexivity|cbn in Hi; lia]. }
  split; [exact HR|]. split; [exact HF|].
  destruct (C104_focal_point 10 (map fst) fe FArrRect 1 1 None (round_robin 4 1) [] _ (GRect 2 1) A5 exq 10 [exo] delay_single [0]
    (foc2_call fe 2 1 exq (mk (-1) 0 0) (mk 1 0 0) 5 exo 0) (A5_defined fe)) as (V & HV & H); [cbn; lra|cbn; lra|].
  exists V. split; [exact HV|]. intros k Hk.
  assert (Ex : extr A5 = 1) by exact (exA_extr (FXY 5) SNone ANone). rewrite Ex in HF.
  assert (S : 5 < sqrt (1^2 + 5^2) < 51 / 10).
  { replace (1^2 + 5^2) with 26 by ring. split.
    - rewrite <- (sqrt_square 5) by lra. apply sqrt_lt_1; lra.
    - rewrite <- (sqrt_square (51/10)) by lra. apply sqrt_lt_1; lra. }
  apply (H 0%nat (6 / 5) (1000 / 1000 * sqrt (1^2 + 5^2)) k); [cbn; lia|change (Z.to_nat 10) with 10%nat; lia|exact HR|exact HF|].
  cbn [start_delay nth exq p_cp p_dt]. set (r := sqrt (1^2 + 5^2)) in *. clearbody r. destruct Hk as [Hk|[Hk _]]; apply le_INR in Hk; cbn [INR] in Hk.
  - rewrite Rabs_left1; lra.
  - rewrite Rabs_pos_eq; lra.
Qed.

(** C87 for arrays: the array call sampled at half the period. *)
Example C87_array_ex : forall fe,
  let q' := {| p_dx := 1; p_dy := 1; p_dt := 2; p_v := 1; p_cp := 1000 |} in
  array_inside exq 10 (GRect 2 1) A5 0 exo /\ array_inside q' 10 (GRect 2 1) A5 0 exo /\
  exact_array_call (map fst) fe FArrRect 1 1 None (round_robin 4 1) (foc2_args 2 1 q' (mk (-1) 0 0) (mk 1 0 0) 5 exo 0) (GRect 2 1) A5 q' 10 [exo] delay_single [0].
Proof.
  intros fe q'.
  assert (HT : array_times_within 1000 (GRect 2 1) A5 exo 3 7).
  { intros i p Hi Hp. assert (HR : p_x p ^2 + p_y p ^2 + p_z p ^2 <= (6 / 5)^2).
    { destruct Hp as (Hx & Hy & Hz). rewrite Hz. apply Rabs_le_inv' in Hx. apply Rabs_le_inv' in Hy. nra. }
    assert (HF : focal_point 1000 A5 exo (1000 / 1000 * sqrt (extr A5 ^2 + 5^2))).
    { apply C104_xy; try reflexivity; [lra|]. intros [|[|j]] Hj; [reflexivity|reflexivity|cbn in Hj; lia]. }
    specialize (HF i Hi). assert (Ex : extr A5 = 1) by exact (exA_extr (FXY 5) SNone ANone). rewrite Ex in HF.
    assert (S : 5 < sqrt (1^2 + 5^2) < 51 / 10).
    { replace (1^2 + 5^2) with 26 by ring. split.
      - rewrite <- (sqrt_square 5) by lra. apply sqrt_lt_1; lra.
      - rewrite <- (sqrt_square (51/10)) by lra. apply sqrt_lt_1; lra. }
    unfold array_time, travel_time. cbn [lens]. destruct (distance_rel exo (elem A5 i) p (6 / 5) ltac:(lra) HR) as [D1 D2]. lra. }
  split; [exists 3, 7; split; [exact HT|cbn; lra]|]. split; [exists 3, 7; split; [exact HT|cbn; lra]|]. apply foc2_call.
Qed.
