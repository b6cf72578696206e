(** PropClF.v - property theorems: das images from the GPU in double precision
    (C134). *)
From Coq Require Import Floats.
From Coq Require Import Reals Lra Lia ZArith List Bool.
From Verif Require Import Base ModelSir ModelArr ModelSmp ModelDas NumF NumR SpecDft SpecDas SpecRound SpecRoundSir SpecRoundDas PropRoundDas ProofsClF.
Import ListNotations.
Open Scope R_scope.

(** TFM: with one delay and a multiple of 64 image points, each image value
    read back is a double within (transmitters x receivers) eps of the exact
    delay-and-sum value, relative to the image of the absolute values, whatever
    the device memory contained.  The square root of the kernel is taken to be
    rounded correctly. *)
Theorem C134_tfm : forall fsin fcos fatan fasin facos fexp flog (J : das_job (FN fsin fcos fatan fasin facos fexp flog)) junk,
  ordinary_das _ _ _ _ _ _ _ J -> let Q := val_das _ _ _ _ _ _ _ J in
  rjob_ok Q -> q_type Q = das_tfm -> d_delay_type J = delay_single -> (d_No J mod 64 = 0)%Z ->
  (q_nt Q * q_nr Q * q_len Q <= length (q_Y Q))%nat -> tfm_clear Q ->
  (forall n t r, (n < q_No Q)%nat -> (t < q_nt Q)%nat -> (r < q_nr Q)%nat ->
     fits32 (pair_sample (q_dt Q) (q_cp Q) (SpecDas.delay_of Q n) (tx_dist Q n t) (rx_dist Q n r))) ->
  length junk = q_No Q ->
  let image Y n := das_sum Y (Z.of_nat (q_len Q)) (q_nt Q) (q_nr Q) (tx_dist Q n) (rx_dist Q n) (q_dt Q) (q_cp Q) (SpecDas.delay_of Q n) in
  exists Im, cl_das J junk = Ok Im /\ length Im = q_No Q /\
    forall n, (n < q_No Q)%nat -> near_image (q_nt Q * q_nr Q) (image (map Rabs (q_Y Q)) n) (image (q_Y Q) n) (nth n Im 0%float).
Proof.
  intros fsin fcos fatan fasin facos fexp flog J junk OJ Q OK Ht Hd Hm HY Hc Hf HJ image.
  apply (cl_image fsin fcos fatan fasin facos fexp flog J OJ
    (fun n v => near_image (q_nt Q * q_nr Q) (image (map Rabs (q_Y Q)) n) (image (q_Y Q) n) v) junk Hm HJ).
  intros n Hn. destruct (Hc n Hn) as [C1 C2].
  exact (cl_tfm_F fsin fcos fatan fasin facos fexp flog J OJ OK Hd n Hn Ht HY (fun t r H1 H2 => conj (C1 t r H1 H2) (Hf n t r Hn H1 H2)) C2).
Qed.
Print Assumptions C134_tfm.

(** SAFT: the same, with the delay counted twice. *)
Theorem C134_saft_partial : forall fsin fcos fatan fasin facos fexp flog (J : das_job (FN fsin fcos fatan fasin facos fexp flog)) junk,
  ordinary_das _ _ _ _ _ _ _ J -> let Q := val_das _ _ _ _ _ _ _ J in
  rjob_ok Q -> q_type Q = das_saft -> d_delay_type J = delay_single -> (d_No J mod 64 = 0)%Z ->
  (q_nt Q * q_len Q <= length (q_Y Q))%nat -> saft_clear Q ->
  (forall n t, (n < q_No Q)%nat -> (t < q_nt Q)%nat ->
     fits32 (pair_sample (q_dt Q) (q_cp Q) (2 * SpecDas.delay_of Q n) (tx_dist Q n t) (tx_dist Q n t))) ->
  length junk = q_No Q ->
  let image Y n := saft_sum Y (Z.of_nat (q_len Q)) (q_nt Q) (tx_dist Q n) (q_dt Q) (q_cp Q) (2 * SpecDas.delay_of Q n) in
  exists Im, cl_das J junk = Ok Im /\ length Im = q_No Q /\
    forall n, (n < q_No Q)%nat -> near_image (q_nt Q) (image (map Rabs (q_Y Q)) n) (image (q_Y Q) n) (nth n Im 0%float).
Proof.
  intros fsin fcos fatan fasin facos fexp flog J junk OJ Q OK Ht Hd Hm HY Hc Hf HJ image.
  apply (cl_image fsin fcos fatan fasin facos fexp flog J OJ
    (fun n v => near_image (q_nt Q) (image (map Rabs (q_Y Q)) n) (image (q_Y Q) n) v) junk Hm HJ).
  intros n Hn. destruct (Hc n Hn) as [C1 C2].
  exact (cl_saft_F fsin fcos fatan fasin facos fexp flog J OJ OK Hd n Hn Ht HY (fun t H1 => conj (C1 t H1) (Hf n t Hn H1)) C2).
Qed.
Print Assumptions C134_saft_partial.
