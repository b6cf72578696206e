(** PropPhys3.v - physical properties of array responses, end to end: order of
    the elements (C92), position of the array (C93), linearity in the weights
    (C94), sign (C86). *)
From Coq Require Strings.String Strings.Ascii.
Import Coq.Strings.String.StringSyntax.
From Coq Require Import Reals List ZArith Lra Lia Permutation.
From Verif Require Import Base BaseLemmas ModelSir ModelArr ModelSmp NumR SpecSmp SpecSir SpecRayleigh SpecArr
  ModelGw SpecGw SpecGwR ProofsR ProofsRayleigh ProofsSirR PropSir PropArr PropGwR SpecPhys ProofsPhys PropPhys SpecPhysA.
Import ListNotations.
Open Scope R_scope.

Lemma array_call_returns fuel c2r fe f nlhs hw env sch junk args g A q ntz ps dty dl :
  exact_array_call c2r fe f nlhs hw env sch args g A q ntz ps dty dl -> all_arr_defined fe fuel q ntz g A ps dty dl ->
  returns (gateway fuel c2r fe f nlhs hw env sch junk args) ntz (length ps)
    (fun n k => superposition q A g (start_delay dty dl n) (nth n ps origin) (Z.of_nat k)).
Proof.
  intros [(l & p & T & Hl & HT & HN & D) ? ? ? ? ?] Hd.
  exact (C44_array fuel c2r fe f nlhs hw env sch junk args g A p T q ntz l ps dty dl D HT HN Hl xa_lhs xa_nt xa_c2r xa_hw xa_sch Hd).
Qed.

(** C86, arrays: weights and velocity not negative. *)
Theorem C86_nonnegative_array : forall fuel c2r fe f nlhs hw env sch junk args g A q ntz ps dty dl,
  exact_array_call c2r fe f nlhs hw env sch args g A q ntz ps dty dl -> all_arr_defined fe fuel q ntz g A ps dty dl ->
  0 < p_dt q -> 0 <= p_v q -> (forall n, (n < length (ar_pos A))%nat -> 0 <= weight A n) ->
  exists V, returns (gateway fuel c2r fe f nlhs hw env sch junk args) ntz (length ps) V /\
  forall n k, (n < length ps)%nat -> (k < Z.to_nat ntz)%nat -> 0 <= V n k.
Proof.
  intros fuel c2r fe f nlhs hw env sch junk args g A q ntz ps dty dl HC HD Hdt Hv Hw.
  eexists. split; [apply array_call_returns; eassumption|]. cbv beta.
  intros n k Hn Hk. apply Rsum_ge0. intros m Hm. apply in_seq in Hm. destruct (HD n Hn) as [_ He].
  destruct (He m) as [Hq Hg Ho _ _ _]; [lia|]. apply Rsum_ge0. intros s Hs.
  destruct (Z.eqb _ _); [|lra]. eapply strength_ge0; eauto. apply Rmult_le_pos; auto. apply Hw. lia.
Qed.
Print Assumptions C86_nonnegative_array.

(** The windows other than 'raised' and user defined have no negative weight. *)
Theorem C86_windows : forall A n, array_ok A -> (n < length (ar_pos A))%nat ->
  match ar_apo A with ARaised _ | AUd _ => True | _ => 0 <= weight A n end.
Proof.
  intros A n HA Hn. destruct HA as [_ _ HX].
  assert (HR : match ar_apo A with ANone | AUd _ => True | _ => 0 <= rel_radius A n <= 1 end).
  { destruct (ar_apo A); auto; unfold rel_radius.
    all: pose proof (sq_le _ _ (elem_x_le A n Hn)); pose proof (sq_le _ _ (elem_y_le A n Hn)).
    all: assert (L : sqrt (p_x (elem A n) ^2 + p_y (elem A n) ^2) <= extr A)
           by (unfold extr; apply sqrt_le_1_alt; nra).
    all: assert (P : 0 < extr A) by (pose proof (sqrt_pos (extx A ^2 + exty A ^2)); unfold extr in *; lra).
    all: pose proof (sqrt_pos (p_x (elem A n) ^2 + p_y (elem A n) ^2)).
    all: split; [apply Rmult_le_pos; [auto|left; apply Rinv_0_lt_compat; auto]|].
    all: apply Rmult_le_reg_r with (extr A); auto; unfold Rdiv; rewrite Rmult_assoc, Rinv_l by lra; lra. }
  unfold weight. destruct (ar_apo A); auto; cbn [window]; set (rho := rel_radius A n) in *; clearbody rho.
  - lra.
  - lra.
  - left. apply exp_pos.
  - pose proof (COS_bound (PI * rho)). lra.
  - pose proof (COS_bound (PI * rho)). lra.
  - nra.
  - apply pow2_ge_0.
Qed.
Print Assumptions C86_windows.

(** ** C92 *)
Lemma fold_Rmax_perm l l' : Permutation l l' -> fold_right Rmax 0 l = fold_right Rmax 0 l'.
Proof.
  induction 1; cbn; auto; try congruence.
  rewrite !Rmax_assoc. f_equal. apply Rmax_comm.
Qed.
Lemma perm_elems A idx : Permutation idx (seq 0 (length (ar_pos A))) -> Permutation (map (elem A) idx) (ar_pos A).
Proof.
  intros H. etransitivity; [apply Permutation_map, H|].
  replace (map (elem A) (seq 0 (length (ar_pos A)))) with (ar_pos A); [reflexivity|].
  unfold elem. generalize (ar_pos A). intros l. symmetry.
  apply nth_error_ext. intros i. rewrite nth_error_map. destruct (Nat.lt_ge_cases i (length l)) as [Hi|Hi].
  - rewrite (nth_error_nth' (seq 0 (length l)) O) by (rewrite seq_length; lia). cbn.
    rewrite seq_nth by lia. symmetry. apply nth_error_nth'. exact Hi.
  - rewrite (proj2 (nth_error_None (seq 0 (length l)) i)) by (rewrite seq_length; lia). cbn.
    symmetry. apply nth_error_None. exact Hi.
Qed.
Section Reorder.
  Context (idx : list nat) (A : array) (HP : Permutation idx (seq 0 (length (ar_pos A)))).
  Local Lemma len_idx : length idx = length (ar_pos A).
  Proof. rewrite (Permutation_length HP). apply seq_length. Qed.
  Local Lemma extx_re : extx (reorder idx A) = extx A.
  Proof. unfold extx, maxabs. apply fold_Rmax_perm. do 2 apply Permutation_map. now apply perm_elems. Qed.
  Local Lemma exty_re : exty (reorder idx A) = exty A.
  Proof. unfold exty, maxabs. apply fold_Rmax_perm. do 2 apply Permutation_map. now apply perm_elems. Qed.
  Local Lemma extr_re : extr (reorder idx A) = extr A.
  Proof. unfold extr. now rewrite extx_re, exty_re. Qed.
  Local Lemma elem_re i : (i < length idx)%nat -> elem (reorder idx A) i = elem A (nth i idx O).
  Proof.
    intros Hi. unfold elem at 1. cbn [reorder ar_pos].
    rewrite (nth_indep _ _ (elem A O)) by (rewrite map_length; exact Hi). apply map_nth.
  Qed.
  Local Lemma nth_idx (f : nat -> R) i : (i < length idx)%nat -> nth i (map f idx) 0 = f (nth i idx O).
  Proof. intros Hi. rewrite (nth_indep _ _ (f O)) by (rewrite map_length; exact Hi). apply map_nth. Qed.
  Local Lemma delay_re q d i : (i < length idx)%nat -> elem_delay q (reorder idx A) d i = elem_delay q A d (nth i idx O).
  Proof.
    intros Hi. unfold elem_delay, focus_delay, steer_delay. rewrite elem_re, extx_re, exty_re, extr_re by exact Hi.
    cbn [reorder ar_focus ar_steer]. destruct (ar_focus A); try reflexivity. rewrite nth_idx by exact Hi. reflexivity.
  Qed.
  Local Lemma weight_re i : (i < length idx)%nat -> weight (reorder idx A) i = weight A (nth i idx O).
  Proof.
    intros Hi. unfold weight, rel_radius. rewrite elem_re, extr_re by exact Hi.
    cbn [reorder ar_apo]. destruct (ar_apo A); try reflexivity. cbn [window]. now rewrite nth_idx.
  Qed.
  Lemma superposition_re q g d o k : superposition q (reorder idx A) g d o k = superposition q A g d o k.
  Proof.
    unfold superposition. cbn [reorder ar_pos]. rewrite map_length.
    transitivity (Rsum (map (fun i => rayleigh q (weight A i) (elem_delay q A d i) (rel o (elem A i)) (sources q g) k) idx)).
    - transitivity (Rsum (map (fun i => rayleigh q (weight A i) (elem_delay q A d i) (rel o (elem A i)) (sources q g) k)
                              (map (fun j => nth j idx O) (seq 0 (length idx))))).
      + rewrite map_map. apply Rsum_ext. intros i Hi. apply in_seq in Hi.
        change ({| ar_pos := map (elem A) idx; ar_focus := _; ar_steer := _; ar_apo := _ |}) with (reorder idx A).
        now rewrite weight_re, delay_re, elem_re by lia.
      + assert (E : map (fun j => nth j idx O) (seq 0 (length idx)) = idx); [|now rewrite E].
        apply nth_error_ext. intros i. rewrite nth_error_map.
        destruct (Nat.lt_ge_cases i (length idx)) as [Hi|Hi].
        * rewrite (nth_error_nth' (seq 0 (length idx)) O) by (rewrite seq_length; lia). cbn.
          rewrite seq_nth by lia. symmetry. now apply nth_error_nth'.
        * rewrite (proj2 (nth_error_None (seq 0 (length idx)) i)) by (rewrite seq_length; lia). cbn.
          symmetry. now apply nth_error_None.
    - apply Rsum_perm. apply Permutation_map. exact HP.
  Qed.
  Lemma arr_defined_re K fuel q ntz g d o : arr_defined K fuel q ntz g A d o -> arr_defined K fuel q ntz g (reorder idx A) d o.
  Proof.
    intros [[H1 H2 H3] He]. pose proof len_idx as HL. constructor.
    - constructor; cbn [reorder ar_pos ar_focus ar_apo]; rewrite ?map_length.
      + lia.
      + destruct (ar_focus A); auto. now rewrite map_length.
      + pose proof extr_re as ER. revert ER. unfold reorder. revert H3. destruct (ar_apo A); intros H3 ER; auto; try (rewrite ER; exact H3).
        now rewrite map_length.
    - intros n Hn. assert (Hn' : (n < length idx)%nat) by (cbn [reorder ar_pos] in Hn; now rewrite map_length in Hn).
      rewrite delay_re, elem_re by exact Hn'. apply He.
      assert (In (nth n idx O) (seq 0 (length (ar_pos A)))) by (eapply Permutation_in; [exact HP|]; apply nth_In; exact Hn').
      apply in_seq in H. lia.
  Qed.
End Reorder.

(** C92: the order in which the elements are listed does not matter (each
    keeping its user defined delay and weight). *)
Theorem C92_element_order : forall idx fuel c2r fe f nlhs hw env sch junk args c2r' f' nlhs' hw' env' sch' junk' args' g A q ntz ps dty dl,
  Permutation idx (seq 0 (length (ar_pos A))) ->
  exact_array_call c2r fe f nlhs hw env sch args g A q ntz ps dty dl -> all_arr_defined fe fuel q ntz g A ps dty dl ->
  exact_array_call c2r' fe f' nlhs' hw' env' sch' args' g (reorder idx A) q ntz ps dty dl ->
  exists V V', returns (gateway fuel c2r fe f nlhs hw env sch junk args) ntz (length ps) V /\
    returns (gateway fuel c2r' fe f' nlhs' hw' env' sch' junk' args') ntz (length ps) V' /\
    forall n k, (n < length ps)%nat -> (k < Z.to_nat ntz)%nat -> V' n k = V n k.
Proof.
  intros idx fuel c2r fe f nlhs hw env sch junk args c2r' f' nlhs' hw' env' sch' junk' args' g A q ntz ps dty dl HP HC HD HC'.
  do 2 eexists. split; [apply array_call_returns; eassumption|]. split.
  - apply array_call_returns; [eassumption|]. intros n Hn. apply arr_defined_re; auto.
  - cbv beta. intros n k Hn Hk. now apply superposition_re.
Qed.
Print Assumptions C92_element_order.

(** ** C93 *)
Lemma elem_move t A n : (n < length (ar_pos A))%nat -> elem (move_array t A) n = move t (elem A n).
Proof.
  intros Hn. unfold elem. cbn [move_array ar_pos].
  rewrite (nth_indep _ _ (move t {| p_x := 0; p_y := 0; p_z := 0 |})) by (rewrite map_length; exact Hn). apply map_nth.
Qed.
Lemma rel_move t o e : rel (move t o) (move t e) = rel o e.
Proof. unfold rel, move. cbn. f_equal; ring. Qed.
Lemma delay_move t A q d n : element_wise A -> elem_delay q (move_array t A) d n = elem_delay q A d n.
Proof.
  intros (HF & HS & _). unfold elem_delay, focus_delay, steer_delay. cbn [move_array ar_focus ar_steer].
  rewrite HS. destruct HF as [-> | [tau ->]]; reflexivity.
Qed.
Lemma weight_move t A n : element_wise A -> weight (move_array t A) n = weight A n.
Proof. intros (_ & _ & HW). unfold weight. cbn [move_array ar_apo]. destruct HW as [-> | [w ->]]; reflexivity. Qed.
Lemma superposition_move t A q g d o k : element_wise A ->
  superposition q (move_array t A) g d (move t o) k = superposition q A g d o k.
Proof.
  intros HE. unfold superposition. cbn [move_array ar_pos]. rewrite map_length. apply Rsum_ext. intros i Hi. apply in_seq in Hi.
  change ({| ar_pos := map (move t) (ar_pos A); ar_focus := _; ar_steer := _; ar_apo := _ |}) with (move_array t A).
  now rewrite weight_move, delay_move, elem_move, rel_move by (auto; lia).
Qed.
Lemma arr_defined_move t A K fuel q ntz g d o : element_wise A ->
  arr_defined K fuel q ntz g A d o -> arr_defined K fuel q ntz g (move_array t A) d (move t o).
Proof.
  intros HE [[H1 H2 H3] He]. constructor.
  - constructor; cbn [move_array ar_pos ar_focus ar_apo]; rewrite ?map_length; auto.
    destruct HE as (_ & _ & [E | [w E]]); rewrite E in *; auto.
  - intros n Hn. cbn [move_array ar_pos] in Hn. rewrite map_length in Hn.
    rewrite delay_move, elem_move, rel_move by auto. now apply He.
Qed.

(** C93: without position dependent delays and weights, moving the array and
    the observation points together changes nothing. *)
Theorem C93_translation : forall t fuel c2r fe f nlhs hw env sch junk args c2r' f' nlhs' hw' env' sch' junk' args' g A q ntz ps dty dl,
  element_wise A ->
  exact_array_call c2r fe f nlhs hw env sch args g A q ntz ps dty dl -> all_arr_defined fe fuel q ntz g A ps dty dl ->
  exact_array_call c2r' fe f' nlhs' hw' env' sch' args' g (move_array t A) q ntz (map (move t) ps) dty dl ->
  exists V V', returns (gateway fuel c2r fe f nlhs hw env sch junk args) ntz (length ps) V /\
    returns (gateway fuel c2r' fe f' nlhs' hw' env' sch' junk' args') ntz (length ps) V' /\
    forall n k, (n < length ps)%nat -> (k < Z.to_nat ntz)%nat -> V' n k = V n k.
Proof.
  intros t fuel c2r fe f nlhs hw env sch junk args c2r' f' nlhs' hw' env' sch' junk' args' g A q ntz ps dty dl HE HC HD HC'.
  assert (SP : forall n, (n < length ps)%nat -> nth n (map (move t) ps) origin = move t (nth n ps origin)).
  { intros n Hn. rewrite (nth_indep _ origin (move t origin)) by (rewrite map_length; exact Hn). apply map_nth. }
  do 2 eexists. split; [apply array_call_returns; eassumption|]. split.
  - rewrite <- (map_length (move t)). apply array_call_returns; [eassumption|].
    intros n Hn. rewrite map_length in Hn. rewrite SP by exact Hn. apply arr_defined_move; auto.
  - cbv beta. intros n k Hn Hk. rewrite SP by exact Hn. now apply superposition_move.
Qed.
Print Assumptions C93_translation.

(** ** C94 *)
Lemma rayleigh_lin q w1 w2 al be d o src k :
  rayleigh q (al * w1 + be * w2) d o src k = al * rayleigh q w1 d o src k + be * rayleigh q w2 d o src k.
Proof.
  unfold rayleigh. rewrite <- !Rsum_scal, <- Rsum_plus. apply Rsum_ext. intros s _. destruct (Z.eqb _ _); [|ring].
  unfold strength, Rdiv. ring.
Qed.

(** C94: the response is linear in user defined apodization weights. *)
Theorem C94_weights_linear : forall al be w1 w2 w fuel c2r fe f nlhs hw env sch junk args
    c2r1 f1 nlhs1 hw1 env1 sch1 junk1 args1 c2r2 f2 nlhs2 hw2 env2 sch2 junk2 args2 g A q ntz ps dty dl,
  length w1 = length (ar_pos A) -> length w2 = length (ar_pos A) -> length w = length (ar_pos A) ->
  (forall i, (i < length w)%nat -> nth i w 0 = al * nth i w1 0 + be * nth i w2 0) ->
  exact_array_call c2r fe f nlhs hw env sch args g (with_weights w A) q ntz ps dty dl ->
  all_arr_defined fe fuel q ntz g (with_weights w A) ps dty dl ->
  exact_array_call c2r1 fe f1 nlhs1 hw1 env1 sch1 args1 g (with_weights w1 A) q ntz ps dty dl ->
  exact_array_call c2r2 fe f2 nlhs2 hw2 env2 sch2 args2 g (with_weights w2 A) q ntz ps dty dl ->
  exists V V1 V2, returns (gateway fuel c2r fe f nlhs hw env sch junk args) ntz (length ps) V /\
    returns (gateway fuel c2r1 fe f1 nlhs1 hw1 env1 sch1 junk1 args1) ntz (length ps) V1 /\
    returns (gateway fuel c2r2 fe f2 nlhs2 hw2 env2 sch2 junk2 args2) ntz (length ps) V2 /\
    forall n k, (n < length ps)%nat -> (k < Z.to_nat ntz)%nat -> V n k = al * V1 n k + be * V2 n k.
Proof.
  intros al be w1 w2 w fuel c2r fe f nlhs hw env sch junk args c2r1 f1 nlhs1 hw1 env1 sch1 junk1 args1
    c2r2 f2 nlhs2 hw2 env2 sch2 junk2 args2 g A q ntz ps dty dl L1 L2 L HW HC HD HC1 HC2.
  assert (D' : forall w', length w' = length (ar_pos A) -> all_arr_defined fe fuel q ntz g (with_weights w' A) ps dty dl).
  { intros w' Hw' n Hn. destruct (HD n Hn) as [[H1 H2 H3] He]. constructor; [constructor; auto|]. exact He. }
  do 3 eexists. split; [apply array_call_returns; eassumption|].
  split; [apply array_call_returns; eauto|]. split; [apply array_call_returns; eauto|]. cbv beta.
  intros n k Hn Hk. unfold superposition. rewrite <- !Rsum_scal, <- Rsum_plus. cbn [with_weights ar_pos].
  apply Rsum_ext. intros i Hi. apply in_seq in Hi.
  change ({| ar_pos := ar_pos A; ar_focus := ar_focus A; ar_steer := ar_steer A; ar_apo := AUd w |}) with (with_weights w A).
  assert (EW : forall w', weight (with_weights w' A) i = nth i w' 0) by reflexivity.
  assert (ED : forall w', elem_delay q (with_weights w' A) (start_delay dty dl n) i = elem_delay q A (start_delay dty dl n) i) by reflexivity.
  assert (EE : forall w', elem (with_weights w' A) i = elem A i) by reflexivity.
  rewrite !EW, !ED, !EE. rewrite HW by lia. apply rayleigh_lin.
Qed.
Print Assumptions C94_weights_linear.
