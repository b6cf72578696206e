(** PropAttSymEx.v - concrete calls that meet the hypotheses of C124 and C125: a
    2 x 1 mm plate and two of them with user defined weights, steered or not, in a
    medium of 0.5 dB/(cm MHz); every front end. *)
From Coq Require Strings.String Strings.Ascii.
Import Coq.Strings.String.StringSyntax.
From Coq Require Import Reals List ZArith Lra Lia Permutation.
From Verif Require Import Base BaseLemmas ModelSir ModelArr ModelSmp NumR SpecSmp SpecSir SpecRayleigh SpecArr
  ModelGw SpecGw SpecGwR ProofsR ProofsRayleigh ProofsSirR PropSir PropArr PropGwR SpecPhys ProofsPhys PropPhys PropPhys2 SpecPhysA SpecPhysB PropPhys3 PropPhys3ex SpecSym PropSym PropSymEx
  SpecAtt SpecAtt2 PropAtt2 PropAtt2ex PropAttSym.
Import ListNotations.
Local Open Scope string_scope.
Open Scope R_scope.

(** a x b mm plate. *)
Definition pl_args (a b : R) (q : rpar) (d alpha : R) (o : pos) : list (value EN) :=
  [@VNum EN Full 1 3 (exact (coords [o])); erow [a; b]; erow [p_dx q; p_dy q; p_dt q; IZR 10]; erow [d];
   erow [p_v q; p_cp q; alpha]; VStr "ignore"].
Lemma pl_call fe a b q d alpha o : / 2^52 < alpha ->
  absorbing_call fe FRect 1 1 None (round_robin 4 1) (pl_args a b q d alpha o) alpha (GRect a b) q 10 [o] delay_single [d].
Proof.
  intros Ha. constructor; auto; try lia.
  - exists lvl_ignore. split; [left; reflexivity|].
    apply (@doc_single EN fe FRect (exact [a; b]) (emb_geom (GRect a b)) (emb_samp q 10) (Some alpha) lvl_ignore 1
             (exact (coords [o])) delay_single (exact [d]) _ _ _ _ _ [VStr "ignore"]).
    + reflexivity.
    + exists Full. split; [reflexivity|]. split; [left; reflexivity|]. split; [lia|reflexivity].
    + apply row_vec.
    + exists (Some (IZR 10)). split; [apply row_vec|]. change (ntrunc (n:=EN) (Some (IZR 10))) with (Some (Ztruncr (IZR 10))).
      rewrite trunc_IZR. destruct fe; reflexivity.
    + left. exists (Some d). split; [apply row_vec|auto].
    + apply row_vec.
    + left. exists "ignore". cbn. auto.
  - destruct (rect_exact_call fe 2 1 (exqt 1) 10 0 exo ltac:(lia)) as [_ _ _ _ _ H]. exact H.
Qed.
Example C124_single_ex : forall fe,
  whole Along_x exq (GRect 2 1) /\ whole Along_y exq (GRect 2 1) /\
  absorbing_call fe FRect 1 1 None (round_robin 4 1) (pl_args 2 1 exq 0 (1/2) aside) (1/2) (GRect 2 1) exq 10 [aside] delay_single [0] /\
  all_defined fe 10 exq 10 (GRect 2 1) [aside] delay_single [0] /\
  absorbing_call fe FRect 1 1 None (round_robin 4 1) (pl_args 2 1 exq 0 (1/2) (mirror Along_y aside)) (1/2) (GRect 2 1) exq 10 (map (mirror Along_y) [aside]) delay_single [0] /\
  absorbing_call fe FRect 1 1 None (round_robin 4 1) (pl_args 1 2 (swap_par exq) 0 (1/2) (swap aside)) (1/2) (GRect 1 2) (swap_par exq) 10 (map swap [aside]) delay_single [0] /\
  absorbing_call fe FRect 1 1 None (round_robin 4 1) (pl_args (2 * 2) (2 * 1) (scale_par 2 exq) (2 * 0) (1/2) (scale_pos 2 aside)) (1/2)
    (scale_geom 2 (GRect 2 1)) (scale_par 2 exq) 10 (map (scale_pos 2) [aside]) delay_single (map (Rmult 2) [0]).
Proof.
  intros fe. destruct ex_whole as [Wx Wy]. assert (N : near aside) by (unfold near, aside; cbn; repeat split; try lra; apply Rabs_le; lra).
  split; [exact Wx|]. split; [exact Wy|]. split; [apply pl_call; exact half_absorbs|]. split.
  { intros n Hn; cbn in Hn; destruct n; [|lia]; apply near_defined; [exact N|cbn; lra]. }
  split; [apply pl_call; exact half_absorbs|]. split; apply pl_call; exact half_absorbs.
Qed.

(** Two elements of a x b mm, sampled as q says. *)
Definition aw_args (a b : R) (q : rpar) (e1 e2 : pos) (st : option R) (w1 w2 : R) (o : pos) (d alpha : R) : list (value EN) :=
  [@VNum EN Full 1 3 (exact (coords [o])); erow [a; b]; @VNum EN Full 2 3 (exact (coords [e1; e2]));
   erow [p_dx q; p_dy q; p_dt q; 10]; erow [d]; erow [p_v q; p_cp q; alpha];
   VStr "off"; erow [0]; VStr (match st with None => "off" | Some _ => "x" end);
   erow [match st with None => 0 | Some th => th end; 0]; VStr "ud"; erow [w1; w2]; erow [0]; VStr "ignore"].
Lemma aw_call fe a b q e1 e2 st w1 w2 o d alpha : / 2^52 < alpha ->
  absorbing_array_call fe FArrRect 1 1 None (round_robin 4 1) (aw_args a b q e1 e2 st w1 w2 o d alpha) alpha (GRect a b) (tw e1 e2 st w1 w2) q 10 [o] delay_single [d].
Proof.
  intros Ha. constructor; auto; try lia.
  - set (p := @Build_arr_par EN 2 (exact (coords [e1; e2])) foc_none [Some 0; Some 0] (match st with None => steer_none | Some _ => steer_x end)
              (Some (match st with None => 0 | Some th => th end)) (Some 0) true apod_ud [Some w1; Some w2] (Some 0)).
    exists lvl_ignore, p, (@TArrRect EN (Some a) (Some b) p). split; [left; reflexivity|]. split; [reflexivity|]. split.
    { destruct st; repeat split; cbn; lia. }
    apply (@doc_array EN fe FArrRect (exact [a; b]) p (Some 0) _ (emb_samp q 10) (Some alpha) lvl_ignore 1
             (exact (coords [o])) delay_single (exact [d]) _ _ _ _ _ _ _ _ _ _ _ _ _ [VStr "ignore"]).
    + reflexivity.
    + cbn. lia.
    + destruct fe; reflexivity.
    + exists Full. split; [reflexivity|]. split; [left; reflexivity|]. split; [lia|reflexivity].
    + apply row_vec.
    + exists Full. split; [reflexivity|]. split; [left; reflexivity|]. split; [cbn; lia|reflexivity].
    + exists (Some 10). split; [apply row_vec|]. change (ntrunc (n:=EN) (Some 10)) with (Some (Ztruncr (IZR 10))).
      rewrite trunc_IZR. destruct fe; reflexivity.
    + left. exists (Some d). split; [apply row_vec|auto].
    + apply row_vec.
    + left. exists "off", (Some 0). split; [reflexivity|]. split; [cbn; auto|]. split; [discriminate|].
      split; [apply row_vec|reflexivity].
    + destruct st.
      * exists "x". split; [reflexivity|]. split; [cbn; auto|apply row_vec].
      * exists "off". split; [reflexivity|]. split; [cbn; auto|apply row_vec].
    + split; [apply row_vec|]. right. right. split; [reflexivity|]. split; [reflexivity|]. split; [reflexivity|].
      split; [apply row_vec|]. split; [reflexivity|]. intros [_ H]. discriminate H.
    + left. exists "ignore". cbn. auto.
  - destruct (rect_exact_call fe 2 1 (exqt 1) 10 0 exo ltac:(lia)) as [_ _ _ _ _ H]. exact H.
Qed.
Definition aw (fe : front) (a b : R) (q : rpar) (e1 e2 : pos) (st : option R) (w1 w2 : R) (o : pos) (d : R) : Prop :=
  absorbing_array_call fe FArrRect 1 1 None (round_robin 4 1) (aw_args a b q e1 e2 st w1 w2 o d (1/2)) (1/2) (GRect a b) (tw e1 e2 st w1 w2) q 10 [o] delay_single [d].
(** Steered by 30 degrees and mirrored (tilt 1 us); unsteered: exchanged axes,
    exchanged elements, moved by t, weights 1, 2 = 1 (1, 0) + 2 (0, 1), twice as
    large. *)
Example C124_array_ex : forall fe t,
  let A := tw left_pos right_pos None 1 2 in
  aw fe 2 1 exq left_pos right_pos (Some 30) 1 2 aside 1 /\
  all_arr_defined fe 10 exq 10 (GRect 2 1) (tw left_pos right_pos (Some 30) 1 2) [aside] delay_single [1] /\
  tilt Along_x (p_cp exq) (tw left_pos right_pos (Some 30) 1 2) = 1 /\
  aw fe 2 1 exq (mirror Along_x left_pos) (mirror Along_x right_pos) (Some (- (30))) 1 2 (mirror Along_x aside) 0 /\
  mirror_array Along_x (tw left_pos right_pos (Some 30) 1 2) = tw (mirror Along_x left_pos) (mirror Along_x right_pos) (Some (- (30))) 1 2 /\
  aw fe 2 1 exq left_pos right_pos None 1 2 aside 0 /\ all_arr_defined fe 10 exq 10 (GRect 2 1) A [aside] delay_single [0] /\
  aw fe 1 2 (swap_par exq) (swap left_pos) (swap right_pos) None 1 2 (swap aside) 0 /\ swap_array A = tw (swap left_pos) (swap right_pos) None 1 2 /\
  aw fe 2 1 exq right_pos left_pos None 2 1 aside 0 /\ reorder [1; 0]%nat A = tw right_pos left_pos None 2 1 /\ Permutation [1; 0]%nat (seq 0 2) /\
  aw fe 2 1 exq (move t left_pos) (move t right_pos) None 1 2 (move t aside) 0 /\ move_array t A = tw (move t left_pos) (move t right_pos) None 1 2 /\ element_wise A /\
  aw fe 2 1 exq left_pos right_pos None 1 0 aside 0 /\ with_weights [1; 0] A = tw left_pos right_pos None 1 0 /\
  aw fe 2 1 exq left_pos right_pos None 0 1 aside 0 /\ with_weights [0; 1] A = tw left_pos right_pos None 0 1.
Proof.
  intros fe t A. unfold aw.
  split; [apply aw_call; exact half_absorbs|]. split; [apply tw_defined; [lra|auto]|]. split.
  { unfold tilt. cbn [tw ar_steer]. change ({| ar_pos := _; ar_focus := _; ar_steer := _; ar_apo := _ |}) with (tw left_pos right_pos (Some 30) 1 2). rewrite tw_extx, sin30. cbn. lra. }
  split; [apply aw_call; exact half_absorbs|]. split; [reflexivity|]. split; [apply aw_call; exact half_absorbs|]. split; [apply tw_defined; [lra|auto]|].
  split; [apply aw_call; exact half_absorbs|]. split; [reflexivity|]. split; [apply aw_call; exact half_absorbs|]. split; [reflexivity|]. split; [apply perm_swap|].
  split; [apply aw_call; exact half_absorbs|]. split; [reflexivity|]. split.
  { unfold element_wise. cbn [A tw ar_focus ar_steer ar_apo]. split; [left; reflexivity|]. split; [reflexivity|]. right. eexists. reflexivity. }
  split; [apply aw_call; exact half_absorbs|]. split; [reflexivity|]. split; [apply aw_call; exact half_absorbs|reflexivity].
Qed.
Example C125_array_ex : forall fe,
  aw fe (2 * 2) (2 * 1) (scale_par 2 exq) (scale_pos 2 left_pos) (scale_pos 2 right_pos) None 1 2 (scale_pos 2 aside) (2 * 0) /\
  scale_array 2 (tw left_pos right_pos None 1 2) = tw (scale_pos 2 left_pos) (scale_pos 2 right_pos) None 1 2.
Proof. intros fe. split; [apply aw_call; exact half_absorbs|reflexivity]. Qed.
