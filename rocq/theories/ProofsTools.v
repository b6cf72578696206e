(** ProofsTools.v - lemmas about dream_apodwin and dream_att. *)
From Coq Require Strings.String.
Import Coq.Strings.String.StringSyntax.
From Coq Require Import Reals Lra Lia ZArith List Bool.
From Coq Require Import ZifyBool ZifyNat.
From Verif Require Import Base BaseLemmas ModelSir ModelArr ModelSmp NumR SpecSir SpecRayleigh SpecArr SpecDft SpecConv SpecAtt SpecSmp
  ProofsLoop ProofsR ProofsRayleigh ProofsSirR ProofsArr ProofsDft ProofsConvR ProofsAtt ModelGw SpecGwR ModelTools SpecTools ProofsCgw.
Import ListNotations.
Local Open Scope string_scope.
Open Scope R_scope.

(** ** The line array *)
Lemma apos_le num n : (n < num)%nat -> -1 <= apos num n <= 1.
Proof.
  intros H. unfold apos. assert (0 < INR num) by (apply lt_0_INR; lia).
  assert (0 <= INR n) by apply pos_INR. assert (INR n < INR num) by (apply lt_INR; lia).
  assert (H3 : INR n / INR num * INR num = INR n) by (field; lra).
  replace (2 * INR n / INR num) with (2 * (INR n / INR num)) by (field; lra).
  assert (0 <= INR n / INR num) by (apply Rle_mult_inv_pos; lra).
  assert (INR n / INR num < 1) by nra. lra.
Qed.
Lemma maxabs_le l b : 0 <= b -> (forall x, In x l -> Rabs x <= b) -> maxabs l <= b.
Proof.
  intros Hb H. unfold maxabs. induction l as [|a l IH]; cbn; [lra|].
  apply Rmax_lub; [apply H; now left|apply IH; intros x Hx; apply H; now right].
Qed.
Lemma maxabs_in l x : In x l -> Rabs x <= maxabs l.
Proof.
  unfold maxabs. induction l as [|a l IH]; cbn; [contradiction|]. intros [->|H]; [apply Rmax_l|].
  eapply Rle_trans; [apply IH, H|apply Rmax_r].
Qed.
Lemma extx_line num w : (1 <= num)%nat -> extx (line_array num w) = 1.
Proof.
  intros H. unfold extx. cbn [line_array ar_pos]. rewrite map_map. cbn [p_x]. apply Rle_antisym.
  - apply maxabs_le; [lra|]. intros x Hx. apply in_map_iff in Hx as (n & <- & Hn). apply in_seq in Hn.
    apply Rabs_le. pose proof (apos_le num n). lia || (split; apply H0; lia).
  - replace 1 with (Rabs (apos num 0)) at 1.
    + apply maxabs_in. apply in_map_iff. exists O. split; [reflexivity|]. apply in_seq. lia.
    + unfold apos. assert (0 < INR num) by (apply lt_0_INR; lia). replace (1 - 2 * INR 0 / INR num) with 1 by (cbn; field; lra).
      apply Rabs_R1.
Qed.
Lemma exty_line num w : exty (line_array num w) = 0.
Proof.
  unfold exty, maxabs. cbn [line_array ar_pos]. rewrite map_map. cbn [p_y]. rewrite map_map.
  induction (seq 0 num) as [|a l IH]; [reflexivity|]. cbn [map fold_right p_y]. etransitivity; [apply (f_equal (Rmax _)); exact IH|].
  rewrite Rabs_R0. apply Rmax_left. lra.
Qed.
Lemma extr_line num w : (1 <= num)%nat -> extr (line_array num w) = 1.
Proof. intros H. unfold extr. rewrite extx_line, exty_line by exact H. replace (1^2 + 0^2) with 1 by ring. apply sqrt_1. Qed.
Lemma elem_line num w n : (n < num)%nat -> elem (line_array num w) n = {| p_x := apos num n; p_y := 0; p_z := 0 |}.
Proof.
  intros H. unfold elem. cbn [line_array ar_pos].
  rewrite (nth_indep _ _ ((fun n => {| p_x := apos num n; p_y := 0; p_z := 0 |}) O)) by (rewrite map_length, seq_length; lia).
  rewrite (map_nth (fun n => {| p_x := apos num n; p_y := 0; p_z := 0 |})), seq_nth by lia. reflexivity.
Qed.
Lemma weight_line num w n : (n < num)%nat -> weight (line_array num w) n = window w n (Rabs (apos num n)).
Proof.
  intros H. unfold weight, rel_radius. rewrite extr_line by lia. rewrite elem_line by exact H. cbn [p_x p_y line_array ar_apo].
  replace (apos num n ^ 2 + 0 ^ 2) with (Rsqr (apos num n)) by (unfold Rsqr; ring). rewrite sqrt_Rsqr_abs.
  f_equal. field.
Qed.

(** ** dream_apodwin *)
Definition met_of (w : apo) : ApodMet :=
  match w with ANone | AUd _ => apod_ud | ATriangle => apod_triangle | AGauss _ => apod_gauss
             | ARaised _ => apod_raised | AHann => apod_hann | AHamming => apod_hamming
             | ASimply => apod_simply | AClamped => apod_clamped end.
Definition par_of (w : apo) (p : R) : R := match w with AGauss p | ARaised p => p | _ => p end.

Lemma apodization_line num w par n apod : (n < num)%nat -> (match w with ANone | AUd _ => False | AGauss p | ARaised p => p = par | _ => True end) ->
  apodization (N:=EN) (met_of w) (Z.of_nat n) apod (Some (apos num n)) (Some 0) (Some 1) (Some par) = Ok (Some (weight (line_array num w) n)).
Proof.
  intros Hn Hw.
  assert (OK : array_ok (line_array num w)).
  { split; cbn [line_array ar_pos ar_focus ar_apo]; [rewrite map_length, seq_length; lia|exact I|].
    destruct w; try contradiction; rewrite extr_line by lia; lra. }
  pose proof (weight_E (line_array num w) OK n) as H. cbn [line_array ar_pos] in H. rewrite map_length, seq_length in H. specialize (H Hn).
  fold (line_array num w) in H. rewrite elem_line in H by exact Hn. rewrite extr_line in H by lia. cbn [p_x p_y] in H.
  rewrite <- H. destruct w; try contradiction; try (subst par); reflexivity.
Qed.
Lemma exact_tab (f : nat -> R) num (h' : list EN) : length h' = num ->
  (forall n, (n < num)%nat -> nth n h' (Some 0) = Some (f n)) -> h' = exact (map f (seq 0 num)).
Proof.
  intros L H. apply (nth_ext_len (Some 0 : EN)).
  - unfold exact. now rewrite !map_length, seq_length.
  - intros n Hn. rewrite H by lia. unfold exact. rewrite map_map.
    rewrite (nth_indep _ (Some 0) ((fun x => Some (f x)) O)) by (rewrite map_length, seq_length; lia).
    rewrite (map_nth (fun x => Some (f x))), seq_nth by lia. reflexivity.
Qed.
Lemma xs_E num n : (n < num)%nat ->
  nmul (n:=EN) (nmul (n:=EN) (nofZ (n:=EN) 2) (nofZ (n:=EN) 1)) (nsub (n:=EN) (ndiv (n:=EN) (nofZ (n:=EN) 1) (nofZ (n:=EN) 2)) (ndiv (n:=EN) (nofZ (n:=EN) (Z.of_nat n)) (nofZ (n:=EN) (Z.of_nat num)))) = Some (apos num n).
Proof.
  intros H. assert (0 < INR num) by (apply lt_0_INR; lia).
  change (nofZ (n:=EN) (Z.of_nat n)) with (Some (IZR (Z.of_nat n))). change (nofZ (n:=EN) (Z.of_nat num)) with (Some (IZR (Z.of_nat num))).
  rewrite <- !INR_IZR_INZ. cbn [ndiv EN nofZ]. rewrite !e_div_ok by lra. cbn. f_equal. unfold apos. field. lra.
Qed.
Lemma apodwin_loop_E num w par apod (h : list EN) : length h = num ->
  (match w with ANone | AUd _ => False | AGauss p | ARaised p => p = par | _ => True end) ->
  apodwin_loop (N:=EN) (met_of w) (Z.of_nat num) apod (Some par) h = Ok (exact (map (weight (line_array num w)) (seq 0 num))).
Proof.
  intros Hh Hw. unfold apodwin_loop.
  destruct (for_upd (Some 0 : EN) O (Z.of_nat num) (fun n (h : list EN) =>
      let xs := nmul (n:=EN) (nmul (n:=EN) (nofZ (n:=EN) 2) (nofZ (n:=EN) 1)) (nsub (n:=EN) (ndiv (n:=EN) (nofZ (n:=EN) 1) (nofZ (n:=EN) 2)) (ndiv (n:=EN) (nofZ (n:=EN) n) (nofZ (n:=EN) (Z.of_nat num)))) in
      do w0 <- apodization (N:=EN) (met_of w) n apod xs (nofZ (n:=EN) 0) (nofZ (n:=EN) 1) (Some par);
      buf_upd h n (fun _ => w0)) (fun n _ => Some (weight (line_array num w) n)) h) as (h' & E & L & H).
  { lia. }
  { intros j h0 Hj Hh0. cbv zeta. rewrite xs_E by lia.
    change (nofZ (n:=EN) 0) with (Some 0). change (nofZ (n:=EN) 1) with (Some 1). rewrite apodization_line by (auto; lia).
    cbn [bind]. rewrite buf_upd_ok by lia. do 2 f_equal. lia. }
  etransitivity; [exact E|]. f_equal. apply exact_tab; [lia|]. intros n Hn. rewrite H.
  replace ((0 <=? n)%nat && (n <? 0 + Z.to_nat (Z.of_nat num))%nat)%bool with true by lia.
  rewrite Nat.sub_0_r. reflexivity.
Qed.

(** ** dream_att *)
Open Scope Z_scope.
Lemma emit_att_base ntz dt alpha it r (h : list EN) n : dt <> 0%R -> 0 < ntz -> 0 <= n -> (n + 1) * ntz <= Z.of_nat (length h) ->
  exists h', emit_att (N:=EN) (exact_att ntz dt alpha) (n * ntz) it (Some r) (Some 1%R) h = Ok h' /\ length h' = length h /\
    forall j, nth j h' (Some 0%R) =
      if ((Z.to_nat (n * ntz) <=? j) && (j <? Z.to_nat (n * ntz) + Z.to_nat ntz))%nat
      then e2 Rplus (nth j h (Some 0%R)) (Some (green (Z.to_nat ntz) dt alpha r it (j - Z.to_nat (n * ntz))))
      else nth j h (Some 0%R).
Proof.
  intros Hdt Hn Hn0 Hh. unfold emit_att. change (att_len (exact_att ntz dt alpha)) with ntz.
  rewrite (att_spectrum_eq (N:=EN)) by (cbn [exact_att att_len]; try (etransitivity; [apply repeat_length|reflexivity]); auto).
  cbn [bind]. rewrite (att_c2r_E ntz dt alpha r it Hdt Hn).
  set (g := green (Z.to_nat ntz) dt alpha r it).
  destruct (for_upd (Some 0%R : EN) (Z.to_nat (n * ntz)) ntz (fun i (h : list EN) =>
      do xi <- buf_get (map (fun n => Some (g n)) (seq 0 (Z.to_nat ntz))) i;
      buf_upd h (n * ntz + i) (fun y => nadd (n:=EN) y (nmul (n:=EN) (Some 1%R) xi)))
      (fun j y => e2 Rplus y (Some (g j))) h) as (h' & E & L & H).
  - nia.
  - intros j h0 Hj Hh0. rewrite (buf_get_nth _ j (Some (g O))) by (rewrite map_length, seq_length; exact Hj).
    rewrite (map_nth (fun n => Some (g n))), seq_nth by exact Hj. cbn [bind plus].
    rewrite buf_upd_ok by nia. replace (Z.to_nat (n * ntz + Z.of_nat j)) with (Z.to_nat (n * ntz) + j)%nat by nia.
    apply f_equal. apply (nth_ext_len (Some 0%R : EN)); [now rewrite !length_upd|]. intros k Hk. rewrite length_upd in Hk.
    rewrite !nth_updg by nia. destruct (Nat.eqb _ _); [|reflexivity]. destruct (nth _ h0 _); cbn; [f_equal; lra|reflexivity].
  - exists h'. split; [exact E|]. split; [exact L|]. intros j. rewrite H. reflexivity.
Qed.

Lemma att_cast_ok fe z : fe = Octave \/ fe = Matlab -> att_fits fe z -> att_cast fe (Some z) = Ok z.
Proof.
  intros [->| ->] H; unfold att_fits in H; cbn [att_cast to_idx].
  - replace ((_ <=? z) && (z <? _)) with true by lia. reflexivity.
  - replace ((_ <=? z) && (z <? _)) with true by lia. reflexivity.
Qed.

(** The response of a delta wraps around. *)
Lemma green_period L dt alpha r it m n : dt <> 0%R -> (0 < L)%nat ->
  green L dt alpha r (it + m * Z.of_nat L) n = green L dt alpha r it n.
Proof.
  intros Hdt HL. assert (HL' : INR L <> 0%R) by (apply not_0_INR; lia).
  assert (HP : forall k, exists j : Z, green_ph L dt alpha r (it + m * Z.of_nat L) k = (green_ph L dt alpha r it k + 2 * IZR j * PI)%R).
  { intros k. exists (- (m * Z.of_nat k)). unfold green_ph, omega. rewrite plus_IZR, mult_IZR, opp_IZR, mult_IZR, <- !INR_IZR_INZ.
    match goal with |- context [ln ?a] => generalize (ln a) end. intros l. field. pose proof PI_RGT_0. repeat split; lra. }
  assert (HC : forall x j, cos (x + 2 * IZR j * PI) = cos x /\ sin (x + 2 * IZR j * PI) = sin x).
  { intros x j. destruct (Z.le_ge_cases 0 j) as [Hj|Hj].
    - replace (IZR j) with (INR (Z.to_nat j)) by (rewrite INR_IZR_INZ; f_equal; lia). split; [apply cos_period|apply sin_period].
    - set (y := (x + 2 * IZR j * PI)%R).
      replace x with (y + 2 * INR (Z.to_nat (- j)) * PI)%R.
      + split; [now rewrite cos_period|now rewrite sin_period].
      + unfold y. rewrite INR_IZR_INZ. replace (Z.of_nat (Z.to_nat (- j))) with (- j) by lia. rewrite opp_IZR. ring. }
  unfold green. f_equal. apply idft_ext.
  - intros k _. destruct k as [|k]; cbn [green_re]; [reflexivity|]. destruct (HP (S k)) as (j & ->). now rewrite (proj1 (HC _ j)).
  - intros k _. destruct k as [|k]; cbn [green_im]; [reflexivity|]. destruct (HP (S k)) as (j & ->). now rewrite (proj2 (HC _ j)).
Qed.
