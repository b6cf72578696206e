(** PropClF2.v - C134: row-column images of the GPU in double precision. *)
From Coq Require Import Floats.
From Coq Require Import Reals Lra Lia ZArith List Bool.
From Verif Require Import Base ModelSir ModelArr ModelSmp ModelDas NumF NumR SpecDft SpecDas SpecRound SpecRoundSir SpecRoundDas
  PropDas PropDas2 PropRoundDas ProofsClF ProofsClF2.
Import ListNotations.
Open Scope R_scope.

(** Row-column arrays, either side transmitting: with one delay and a multiple
    of 64 image points, each image value is a double within (columns x rows)
    eps of the exact delay-and-sum over the true distances to the line
    elements.  Missing, as on the CPU (C26): different numbers of rows and
    columns, and elements in decreasing order. *)
Theorem C134_rca_partial : forall fsin fcos fatan fasin facos fexp flog (J : das_job (FN fsin fcos fatan fasin facos fexp flog)) junk dcol drow,
  ordinary_das _ _ _ _ _ _ _ J -> let Q := val_das _ _ _ _ _ _ _ J in
  rjob_ok Q -> q_type Q = das_rca_coltx \/ q_type Q = das_rca_rowtx -> d_delay_type J = delay_single -> (d_No J mod 64 = 0)%Z ->
  q_nt Q = q_nr Q -> (1 <= q_nr Q)%nat ->
  vy (row3 (q_Gr Q) (q_nr Q) 0) <= vy (row3 (q_Gr Q) (q_nr Q) (q_nr Q - 1)) ->
  vx (row3 (q_Gt Q) (q_nt Q) 0) <= vx (row3 (q_Gt Q) (q_nt Q) (q_nt Q - 1)) ->
  (q_nt Q * q_nr Q * q_len Q <= length (q_Y Q))%nat -> rca_dists Q dcol drow -> rca_clear Q dcol drow ->
  (forall n c r, (n < q_No Q)%nat -> (c < q_nt Q)%nat -> (r < q_nr Q)%nat ->
     fits32 (pair_sample (q_dt Q) (q_cp Q) (SpecDas.delay_of Q n) (dcol n c) (drow n r))) ->
  length junk = q_No Q ->
  exists Im, cl_das J junk = Ok Im /\ length Im = q_No Q /\
    forall n, (n < q_No Q)%nat ->
      near_image (q_nt Q * q_nr Q) (rca_sum Q (map Rabs (q_Y Q)) dcol drow n) (rca_sum Q (q_Y Q) dcol drow n) (nth n Im 0%float).
Proof.
  intros fsin fcos fatan fasin facos fexp flog J junk dcol drow OJ Q OK Ht Hd Hm Hsq Hr Hy Hx HY HD Hc Hf HJ.
  apply (cl_image fsin fcos fatan fasin facos fexp flog J OJ
    (fun n v => near_image (q_nt Q * q_nr Q) (rca_sum Q (map Rabs (q_Y Q)) dcol drow n) (rca_sum Q (q_Y Q) dcol drow n) v) junk Hm HJ).
  intros n Hn. destruct (Hc n Hn) as [C1 C2].
  exact (cl_rca_F fsin fcos fatan fasin facos fexp flog J OJ OK Hd Hsq Hr Hy Hx dcol drow HD n Hn Ht HY (fun c r H1 H2 => conj (C1 c r H1 H2) (Hf n c r Hn H1 H2)) C2).
Qed.
Print Assumptions C134_rca_partial.
