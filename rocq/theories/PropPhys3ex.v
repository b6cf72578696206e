(** PropPhys3ex.v - non-vacuity of C86 (arrays), C92, C93 and C94: a two
    element array with user defined weights, every front end. *)
From Coq Require Strings.String Strings.Ascii.
Import Coq.Strings.String.StringSyntax.
From Coq Require Import Reals List ZArith Lra Lia Permutation.
From Verif Require Import Base BaseLemmas ModelSir ModelArr ModelSmp NumR SpecSmp SpecSir SpecRayleigh SpecArr
  ModelGw SpecGw SpecGwR ProofsR ProofsRayleigh ProofsSirR PropSir PropArr PropGwR SpecPhys ProofsPhys PropPhys SpecPhysA PropPhys3.
Import ListNotations.
Local Open Scope string_scope.
Open Scope R_scope.

Definition two (e1 e2 : pos) (w1 w2 : R) : array :=
  {| ar_pos := [e1; e2]; ar_focus := FNone; ar_steer := SNone; ar_apo := AUd [w1; w2] |}.
Definition two_args (e1 e2 : pos) (w1 w2 : R) (o : pos) : list (value EN) :=
  [@VNum EN Full 1 3 (exact (coords [o])); erow [2; 1]; @VNum EN Full 2 3 (exact (coords [e1; e2]));
   erow [1; 1; 1; 10]; erow [0]; erow [1; 1000; 0];
   VStr "off"; erow [0]; VStr "off"; erow [0; 0]; VStr "ud"; erow [w1; w2]; erow [0]; VStr "ignore"].
Lemma two_call fe e1 e2 w1 w2 o :
  exact_array_call (map fst) fe FArrRect 1 1 None (round_robin 4 1) (two_args e1 e2 w1 w2 o) (GRect 2 1) (two e1 e2 w1 w2) exq 10 [o] delay_single [0].
Proof.
  constructor; auto; try lia; try (intros xc; apply map_length).
  - set (p := @Build_arr_par EN 2 (exact (coords [e1; e2])) foc_none [Some 0; Some 0] steer_none
              (Some 0) (Some 0) true apod_ud [Some w1; Some w2] (Some 0)).
    exists lvl_ignore, p, (@TArrRect EN (Some 2) (Some 1) p). split; [left; reflexivity|]. split; [reflexivity|]. split.
    { repeat split. cbn. lia. }
    apply (@doc_array EN fe FArrRect (exact [2; 1]) p (Some 0) _ (emb_samp exq 10) (Some 0) lvl_ignore 1
             (exact (coords [o])) delay_single (exact [0]) _ _ _ _ _ _ _ _ _ _ _ _ _ [VStr "ignore"]).
    + reflexivity.
    + cbn. lia.
    + destruct fe; reflexivity.
    + exists Full. split; [reflexivity|]. split; [left; reflexivity|]. split; [lia|reflexivity].
    + apply row_vec.
    + exists Full. split; [reflexivity|]. split; [left; reflexivity|]. split; [cbn; lia|reflexivity].
    + exists (Some 10). split; [apply row_vec|]. change (ntrunc (n:=EN) (Some 10)) with (Some (Ztruncr (IZR 10))).
      rewrite trunc_IZR. destruct fe; reflexivity.
    + left. exists (Some 0). split; [apply row_vec|auto].
    + apply row_vec.
    + left. exists "off", (Some 0). split; [reflexivity|]. split; [cbn; auto|]. split; [discriminate|].
      split; [apply row_vec|reflexivity].
    + exists "off". split; [reflexivity|]. split; [cbn; auto|apply row_vec].
    + split; [apply row_vec|]. right. right. split; [reflexivity|]. split; [reflexivity|]. split; [reflexivity|].
      split; [apply row_vec|]. split; [reflexivity|]. intros [_ H]. discriminate H.
    + left. exists "ignore". cbn. auto.
  - constructor.
    + intros H. cbn in H. repeat destruct H as [H|H]; try discriminate H; exact H.
    + change (Z.of_nat (length [o])) with 1%Z. change (num_threads 1 None 1) with 1%Z. intros i Hi. assert (i = 0)%Z by lia. subst i. cbn. lia.
Qed.

Definition left_pos : pos := {| p_x := -1; p_y := 0; p_z := 0 |}.
Definition right_pos : pos := {| p_x := 1; p_y := 0; p_z := 0 |}.
Lemma two_defined fe w1 w2 : all_arr_defined fe 10 exq 10 (GRect 2 1) (two left_pos right_pos w1 w2) [exo] delay_single [0].
Proof.
  intros n Hn. cbn in Hn. destruct n; [|lia]. cbn [nth start_delay].
  destruct (C17_ex (idx_of fe)) as [_ He]. constructor.
  - constructor; cbn [two ar_pos ar_focus ar_apo length]; auto.
  - intros n Hn'. specialize (He n Hn').
    assert (X2 : p_x (elem (exA (FX 5) SNone (AGauss 1)) n) ^2 = 1)
      by (cbn [two ar_pos length] in Hn'; destruct n as [|[|n]]; [cbn; ring|cbn; ring|lia]).
    assert (Ed : elem_delay exq (exA (FX 5) SNone (AGauss 1)) 0 n = elem_delay exq (two left_pos right_pos w1 w2) 0 n).
    { unfold elem_delay, focus_delay, steer_delay. cbn [exA two ar_focus ar_steer]. fold (exA (FX 5) SNone (AGauss 1)).
      rewrite exA_extx, X2. replace (1^2) with 1 by ring. ring. }
    rewrite Ed in He. exact He.
Qed.

(** C86, C92: the two elements in either order. *)
Example C92_ex : forall fe,
  let A := two left_pos right_pos 1 2 in
  Permutation [1; 0]%nat (seq 0 (length (ar_pos A))) /\
  exact_array_call (map fst) fe FArrRect 1 1 None (round_robin 4 1) (two_args left_pos right_pos 1 2 exo) (GRect 2 1) A exq 10 [exo] delay_single [0] /\
  all_arr_defined fe 10 exq 10 (GRect 2 1) A [exo] delay_single [0] /\
  exact_array_call (map fst) fe FArrRect 1 1 None (round_robin 4 1) (two_args right_pos left_pos 2 1 exo) (GRect 2 1) (reorder [1; 0]%nat A) exq 10 [exo] delay_single [0] /\
  (forall n, (n < length (ar_pos A))%nat -> 0 <= weight A n).
Proof.
  intros fe A. split; [apply perm_swap|]. split; [apply two_call|]. split; [apply two_defined|]. split; [apply two_call|].
  intros n Hn. cbn in Hn. destruct n as [|[|n]]; [cbn; lra|cbn; lra|lia].
Qed.
(** C93: moved 3 mm to the right and 1 mm up. *)
Example C93_ex : forall fe,
  let A := two left_pos right_pos 1 2 in
  let t := {| p_x := 3; p_y := 1; p_z := 0 |} in
  element_wise A /\
  exact_array_call (map fst) fe FArrRect 1 1 None (round_robin 4 1) (two_args (move t left_pos) (move t right_pos) 1 2 (move t exo))
    (GRect 2 1) (move_array t A) exq 10 (map (move t) [exo]) delay_single [0].
Proof.
  intros fe A t. split; [|apply two_call]. split; [left; reflexivity|]. split; [reflexivity|]. right. exists [1; 2]. reflexivity.
Qed.
(** C94: [3; 5] = 1 [1; 1] + 2 [1; 2]. *)
Example C94_ex : forall fe,
  let A := two left_pos right_pos 3 5 in
  (forall i, (i < 2)%nat -> nth i [3; 5] 0 = 1 * nth i [1; 1] 0 + 2 * nth i [1; 2] 0) /\
  (forall w1 w2, exact_array_call (map fst) fe FArrRect 1 1 None (round_robin 4 1) (two_args left_pos right_pos w1 w2 exo)
    (GRect 2 1) (with_weights [w1; w2] A) exq 10 [exo] delay_single [0]) /\
  all_arr_defined fe 10 exq 10 (GRect 2 1) (with_weights [3; 5] A) [exo] delay_single [0].
Proof.
  intros fe A. split; [|split].
  - intros i Hi. destruct i as [|[|i]]; [cbn; lra|cbn; lra|lia].
  - intros w1 w2. apply two_call.
  - apply two_defined.
Qed.
