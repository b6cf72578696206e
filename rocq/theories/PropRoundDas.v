(** PropRoundDas.v - property theorems: delay-and-sum in doubles (C105). *)
From Coq Require Strings.String Strings.Ascii.
Import Coq.Strings.String.StringSyntax.
From Coq Require Import Floats Uint63.
From Coq Require Import Reals Lra Lia ZArith List Bool.
From Verif Require Import Base BaseLemmas NumF NumR SpecRound SpecRoundSir ModelSir ModelArr ModelSmp ModelDas SpecSmp SpecDft SpecDas
  ProofsSmp ProofsLoop ProofsSmp2 ProofsR ProofsDft ProofsDas ProofsDasR ProofsRca ProofsDasJ PropDas PropDas2
  ModelGw SpecGw ProofsGw ProofsGw2 ModelDgw SpecDgw ProofsDgw ProofsDgw2 PropDgw
  SpecRoundDas ProofsRoundDas2 ProofsRoundDas3 ProofsTermF ProofsRoundSir PropRoundSir ExJob.
From Coq Require Import ZifyBool ZifyNat.
Import ListNotations.
Local Open Scope string_scope.
Open Scope R_scope.
Local Notation val := SpecRound.val.

(** Every pair's travel time is clear of the sampling instants, and the image
    of the absolute values does not overflow. *)
Definition tfm_clear (J : rjob) : Prop := forall n, (n < q_No J)%nat ->
  (forall t r, (t < q_nt J)%nat -> (r < q_nr J)%nat ->
     safe_pair (q_dt J) (q_cp J) (SpecDas.delay_of J n) (tx_dist J n t) (rx_dist J n r)) /\
  image_range (q_nt J * q_nr J)
    (das_sum (map Rabs (q_Y J)) (Z.of_nat (q_len J)) (q_nt J) (q_nr J) (tx_dist J n) (rx_dist J n) (q_dt J) (q_cp J) (SpecDas.delay_of J n)).
Definition saft_clear (J : rjob) : Prop := forall n, (n < q_No J)%nat ->
  (forall t, (t < q_nt J)%nat ->
     safe_pair (q_dt J) (q_cp J) (2 * SpecDas.delay_of J n) (tx_dist J n t) (tx_dist J n t)) /\
  image_range (q_nt J)
    (saft_sum (map Rabs (q_Y J)) (Z.of_nat (q_len J)) (q_nt J) (tx_dist J n) (q_dt J) (q_cp J) (2 * SpecDas.delay_of J n)).
(** The value at point n of a row-column image. *)
Definition rca_sum (J : rjob) (Y : list R) (dcol drow : nat -> nat -> R) (n : nat) : R :=
  if DASType_eqb (q_type J) das_rca_coltx
  then das_sum Y (Z.of_nat (q_len J)) (q_nt J) (q_nr J) (dcol n) (drow n) (q_dt J) (q_cp J) (SpecDas.delay_of J n)
  else das_sum Y (Z.of_nat (q_len J)) (q_nr J) (q_nt J) (drow n) (dcol n) (q_dt J) (q_cp J) (SpecDas.delay_of J n).
Definition rca_clear (J : rjob) (dcol drow : nat -> nat -> R) : Prop := forall n, (n < q_No J)%nat ->
  (forall c r, (c < q_nt J)%nat -> (r < q_nr J)%nat ->
     safe_pair (q_dt J) (q_cp J) (SpecDas.delay_of J n) (dcol n c) (drow n r)) /\
  image_range (q_nt J * q_nr J) (rca_sum J (map Rabs (q_Y J)) dcol drow n).

Section C105.
  Context (fsin fcos fatan fasin facos fexp flog : PrimFloat.float -> PrimFloat.float).
  Local Notation F := (FN fsin fcos fatan fasin facos fexp flog).
  Local Notation val_das := (val_das fsin fcos fatan fasin facos fexp flog).
  Local Notation ordinary_das := (ordinary_das fsin fcos fatan fasin facos fexp flog).
  Local Notation sim := (call_sim fsin fcos fatan fasin facos fexp flog).

  (** ** Simulations *)
  Lemma data_len (J : das_job F) : length (q_Y (val_das J)) = length (d_Y J).
  Proof. exact (map_length _ _). Qed.
  Lemma tfm_sim K (J : das_job F) nthreads sch Im0 : ordinary_das J -> let Q := val_das J in
    rjob_ok Q -> q_type Q = das_tfm -> (1 <= q_nr Q)%nat ->
    (q_nt Q * q_nr Q * q_len Q <= length (q_Y Q))%nat -> tfm_fits K Q -> tfm_clear Q ->
    (1 <= nthreads)%Z -> length Im0 = q_No Q ->
    exists r r', das_call (N:=F) K J nthreads sch Im0 = Ok r /\
      das_call (N:=EN) K (emb_das Q) nthreads sch (repeat (None : EN) (q_No Q)) = Ok r' /\
      match r, r' with
      | None, None => True
      | Some (Im, e, run), Some (Im', e', run') => e = e' /\ run = run' /\
          length Im = q_No Q /\ forall n x, (n < q_No Q)%nat -> nth n Im' None = Some x ->
            near_image (q_nt Q * q_nr Q) (das_sum (map Rabs (q_Y Q)) (Z.of_nat (q_len Q)) (q_nt Q) (q_nr Q) (tx_dist Q n) (rx_dist Q n) (q_dt Q) (q_cp Q) (SpecDas.delay_of Q n)) x (nth n Im (0%float : F))
      | _, _ => False
      end.
  Proof.
    intros OJ Q OK Ht Hr HY Hf Hc Hth HI.
    assert (Ps : forall n, psum (map Rabs (q_Y Q)) (Z.of_nat (q_len Q)) (pairs_tfm fsin fcos fatan fasin facos fexp flog J n) =
      das_sum (map Rabs (q_Y Q)) (Z.of_nat (q_len Q)) (q_nt Q) (q_nr Q) (tx_dist Q n) (rx_dist Q n) (q_dt Q) (q_cp Q) (SpecDas.delay_of Q n)).
    { intros n. unfold pairs_tfm. rewrite psum_rpairs by lia. reflexivity. }
    destruct (sim K J OJ (pairs_tfm _ _ _ _ _ _ _ J) (args_tfm _ _ _ _ _ _ _ J) (q_nt Q * q_nr Q)%nat) with (nthreads := nthreads) (sch := sch) (Im0 := Im0)
      as (r & r' & E1 & E2 & M); auto.
    - intros n Hn. exact (value_tfm K Q OK n Hn Ht Hr HY (fun t r => Hf n t r Hn)).
    - intros n Hn. unfold pairs_tfm. apply pok_rpairs; [lia|fold Q; nia|]. intros t r. exact (Hf n t r Hn).
    - intros n Hn. exact (tfm_value _ _ _ _ _ _ _ K J OJ OK n Hn Ht Hr).
    - intros n Hn. exact (tfm_args_ok _ _ _ _ _ _ _ K J OJ OK n Hn (proj1 (Hc n Hn))).
    - intros n Hn. apply rpairs_len.
    - intros n Hn. fold Q. rewrite Ps. exact (proj2 (Hc n Hn)).
    - exists r, r'. split; [exact E1|]. split; [exact E2|]. destruct r as [[[Im e] run]|], r' as [[[Im' e'] run']|]; auto.
      destruct M as (M1 & M2 & L1 & L2 & M3). repeat split; auto; destruct (M3 n H x H0) as [A1 A2]; [exact A1|]. rewrite <- Ps. exact A2.
  Qed.
  Lemma saft_len (f : nat -> nat * R) k : length (map f (seq 0 k)) = k.
  Proof. rewrite map_length. apply seq_length. Qed.
  Lemma saft_sim K (J : das_job F) nthreads sch Im0 : ordinary_das J -> let Q := val_das J in
    rjob_ok Q -> q_type Q = das_saft \/ q_nr Q = 0%nat ->
    (q_nt Q * q_len Q <= length (q_Y Q))%nat -> saft_fits K Q -> saft_clear Q ->
    (1 <= nthreads)%Z -> length Im0 = q_No Q ->
    exists r r', das_call (N:=F) K J nthreads sch Im0 = Ok r /\
      das_call (N:=EN) K (emb_das Q) nthreads sch (repeat (None : EN) (q_No Q)) = Ok r' /\
      match r, r' with
      | None, None => True
      | Some (Im, e, run), Some (Im', e', run') => e = e' /\ run = run' /\
          length Im = q_No Q /\ forall n x, (n < q_No Q)%nat -> nth n Im' None = Some x ->
            near_image (q_nt Q) (saft_sum (map Rabs (q_Y Q)) (Z.of_nat (q_len Q)) (q_nt Q) (tx_dist Q n) (q_dt Q) (q_cp Q) (2 * SpecDas.delay_of Q n)) x (nth n Im (0%float : F))
      | _, _ => False
      end.
  Proof.
    intros OJ Q OK Ht HY Hf Hc Hth HI.
    assert (Ps : forall n, psum (map Rabs (q_Y Q)) (Z.of_nat (q_len Q)) (pairs_saft fsin fcos fatan fasin facos fexp flog J n) =
      saft_sum (map Rabs (q_Y Q)) (Z.of_nat (q_len Q)) (q_nt Q) (tx_dist Q n) (q_dt Q) (q_cp Q) (2 * SpecDas.delay_of Q n)).
    { intros n. unfold pairs_saft. apply psum_saft. }
    destruct (sim K J OJ (pairs_saft _ _ _ _ _ _ _ J) (args_saft _ _ _ _ _ _ _ J) (q_nt Q)) with (nthreads := nthreads) (sch := sch) (Im0 := Im0)
      as (r & r' & E1 & E2 & M); auto.
    - intros n Hn. exact (value_saft K Q OK n Hn Ht HY (fun t => Hf n t Hn)).
    - intros n Hn. unfold pairs_saft. apply Forall_forall. intros [c x] Hin. apply in_map_iff in Hin as (i & Hi & Hs). injection Hi as <- <-.
      apply in_seq in Hs. fold Q in Hs |- *. split; cbn [fst snd]; [apply (Hf n i Hn); lia|]. nia.
    - intros n Hn. exact (saft_value _ _ _ _ _ _ _ K J OJ OK n Hn Ht).
    - intros n Hn. exact (saft_args_ok _ _ _ _ _ _ _ K J OJ OK n Hn (proj1 (Hc n Hn))).
    - intros n Hn. apply saft_len.
    - intros n Hn. fold Q. rewrite Ps. exact (proj2 (Hc n Hn)).
    - exists r, r'. split; [exact E1|]. split; [exact E2|]. destruct r as [[[Im e] run]|], r' as [[[Im' e'] run']|]; auto.
      destruct M as (M1 & M2 & L1 & L2 & M3). repeat split; auto; destruct (M3 n H x H0) as [A1 A2]; [exact A1|]. rewrite <- Ps. exact A2.
  Qed.
  Lemma rca_sim K (J : das_job F) nthreads sch Im0 dcol drow : ordinary_das J -> let Q := val_das J in
    rjob_ok Q -> q_type Q = das_rca_coltx \/ q_type Q = das_rca_rowtx -> q_nt Q = q_nr Q -> (1 <= q_nr Q)%nat ->
    vy (row3 (q_Gr Q) (q_nr Q) 0) <= vy (row3 (q_Gr Q) (q_nr Q) (q_nr Q - 1)) ->
    vx (row3 (q_Gt Q) (q_nt Q) 0) <= vx (row3 (q_Gt Q) (q_nt Q) (q_nt Q - 1)) ->
    (q_nt Q * q_nr Q * q_len Q <= length (q_Y Q))%nat -> rca_dists Q dcol drow -> rca_fits K Q dcol drow -> rca_clear Q dcol drow ->
    (1 <= nthreads)%Z -> length Im0 = q_No Q ->
    exists r r', das_call (N:=F) K J nthreads sch Im0 = Ok r /\
      das_call (N:=EN) K (emb_das Q) nthreads sch (repeat (None : EN) (q_No Q)) = Ok r' /\
      match r, r' with
      | None, None => True
      | Some (Im, e, run), Some (Im', e', run') => e = e' /\ run = run' /\
          length Im = q_No Q /\ forall n x, (n < q_No Q)%nat -> nth n Im' None = Some x ->
            near_image (q_nt Q * q_nr Q) (rca_sum Q (map Rabs (q_Y Q)) dcol drow n) x (nth n Im (0%float : F))
      | _, _ => False
      end.
  Proof.
    intros OJ Q OK Ht Hsq Hr Hy Hx HY Hd Hf Hc Hth HI.
    assert (Ps : forall n, psum (map Rabs (q_Y Q)) (Z.of_nat (q_len Q)) (pairs_rca fsin fcos fatan fasin facos fexp flog J dcol drow n) =
      rca_sum Q (map Rabs (q_Y Q)) dcol drow n).
    { intros n. unfold pairs_rca, rca_sum. fold Q. destruct (DASType_eqb _ _); rewrite psum_rpairs by lia; reflexivity. }
    assert (Hdc : forall n c, (n < q_No Q)%nat -> (c < q_nt Q)%nat ->
      segment_dist (fst (column_stripe (q_Gt Q) (q_Gr Q) (q_nt Q) (q_nr Q) c)) (snd (column_stripe (q_Gt Q) (q_Gr Q) (q_nt Q) (q_nr Q) c)) (point_of Q n) (dcol n c))
      by (intros n c Hn; exact (proj1 (Hd n Hn) c)).
    assert (Hdr : forall n c, (n < q_No Q)%nat -> (c < q_nr Q)%nat ->
      segment_dist (fst (row_stripe (q_Gt Q) (q_Gr Q) (q_nt Q) (q_nr Q) c)) (snd (row_stripe (q_Gt Q) (q_Gr Q) (q_nt Q) (q_nr Q) c)) (point_of Q n) (drow n c))
      by (intros n c Hn; exact (proj2 (Hd n Hn) c)).
    destruct (sim K J OJ (pairs_rca _ _ _ _ _ _ _ J dcol drow) (args_rca _ _ _ _ _ _ _ J) (q_nt Q * q_nr Q)%nat) with (nthreads := nthreads) (sch := sch) (Im0 := Im0)
      as (r & r' & E1 & E2 & M); auto.
    - intros n Hn. exact (value_rca K Q OK n (dcol n) (drow n) Hn Ht Hsq Hr HY Hy Hx (fun c => Hdc n c Hn) (fun r => Hdr n r Hn) (fun c r => Hf n c r Hn)).
    - intros n Hn. unfold pairs_rca. fold Q. destruct (DASType_eqb _ _); (apply pok_rpairs; [lia|nia|]); intros t r Ht' Hr'.
      + exact (Hf n t r Hn Ht' Hr').
      + pose proof (Hf n r t Hn Hr' Ht') as X. unfold pair_sample, sample_no, travel_ms in X.
        unfold g_pair. replace (drow n t / q_cp Q + dcol n r / q_cp Q) with (dcol n r / q_cp Q + drow n t / q_cp Q) by ring. exact X.
    - intros n Hn. exact (rca_value _ _ _ _ _ _ _ K J OJ OK Hsq Hr dcol drow Hdc Hdr n Hn Ht).
    - intros n Hn. exact (rca_args_ok _ _ _ _ _ _ _ K J OJ OK Hsq Hr Hy Hx dcol drow Hdc Hdr n Hn Ht (proj1 (Hc n Hn))).
    - intros n Hn. unfold pairs_rca. fold Q. destruct (DASType_eqb _ _); rewrite rpairs_len; [reflexivity|apply Nat.mul_comm].
    - intros n Hn. fold Q. rewrite Ps. exact (proj2 (Hc n Hn)).
    - exists r, r'. split; [exact E1|]. split; [exact E2|]. destruct r as [[[Im e] run]|], r' as [[[Im' e'] run']|]; auto.
      destruct M as (M1 & M2 & L1 & L2 & M3). repeat split; auto; destruct (M3 n H x H0) as [A1 A2]; [exact A1|]. rewrite <- Ps. exact A2.
  Qed.
End C105.

(** ** TFM *)

(** Every call that was not stopped: each image value is a double within
    (transmitters x receivers) eps of the exact delay-and-sum value, relative
    to the image of the absolute values; the status and the stop decision are
    those of exact arithmetic.  Any number of workers, any schedule, any
    previous content of the image. *)
Theorem C105_tfm : forall fsin fcos fatan fasin facos fexp flog K (J : das_job (FN fsin fcos fatan fasin facos fexp flog)) nthreads Im0 sch Im stt,
  ordinary_das _ _ _ _ _ _ _ J -> let Q := val_das _ _ _ _ _ _ _ J in
  rjob_ok Q -> q_type Q = das_tfm -> (1 <= q_nr Q)%nat ->
  (q_nt Q * q_nr Q * q_len Q <= length (q_Y Q))%nat -> tfm_fits K Q -> tfm_clear Q ->
  (1 <= nthreads)%Z -> length Im0 = q_No Q ->
  das_call K J nthreads sch Im0 = Ok (Some (Im, stt, true)) ->
  let image Y n := das_sum Y (Z.of_nat (q_len Q)) (q_nt Q) (q_nr Q) (tx_dist Q n) (rx_dist Q n) (q_dt Q) (q_cp Q) (SpecDas.delay_of Q n) in
  let all_in := forall n, (n < q_No Q)%nat ->
    das_all_inside (Z.of_nat (q_len Q)) (q_nt Q) (q_nr Q) (tx_dist Q n) (rx_dist Q n) (q_dt Q) (q_cp Q) (SpecDas.delay_of Q n) in
  length Im = q_No Q /\
  (forall n, (n < q_No Q)%nat -> near_image (q_nt Q * q_nr Q) (image (map Rabs (q_Y Q)) n) (image (q_Y Q) n) (nth n Im 0%float)) /\
  ((1 < nthreads)%Z -> q_lvl Q <> lvl_none -> (stt = err_none <-> all_in)) /\
  (is_stop (q_lvl Q) -> all_in).
Proof.
  intros fsin fcos fatan fasin facos fexp flog K J nthreads Im0 sch Im stt OJ Q OK Ht Hr HY Hf Hc Hth HI E image all_in.
  destruct (tfm_sim _ _ _ _ _ _ _ K J nthreads sch Im0 OJ OK Ht Hr HY Hf Hc Hth HI) as (r & r' & E1 & E2 & M).
  rewrite E in E1. injection E1 as <-. destruct r' as [[[Im' e'] run']|]; [|contradiction]. destruct M as (<- & <- & L & M).
  destruct (C24_tfm K Q nthreads (repeat None (q_No Q)) sch Im' stt OK Ht Hr HY Hf Hth (repeat_length _ _) E2) as (L' & V & S & P).
  split; [exact L|]. split; [|split; [exact S|exact P]]. intros n Hn. exact (M n _ Hn (V n Hn)).
Qed.
Print Assumptions C105_tfm.

(** The call as the user makes it, in each of the four front ends: with level
    ignore or warn, or whenever every sample lies inside the record, the image
    comes back; with level stop and a sample outside, an error and no image. *)
Theorem C105_tfm_call : forall fsin fcos fatan fasin facos fexp flog fe opencl nlhs hw env sch
    (junk : list (FN fsin fcos fatan fasin facos fexp flog)) old J ny args,
  das_args fe opencl J ny args -> (0 <= nlhs <= 2)%Z -> (0 <= hw)%Z ->
  ordinary_das _ _ _ _ _ _ _ J -> let Q := val_das _ _ _ _ _ _ _ J in
  rjob_ok Q -> q_type Q = das_tfm -> (1 <= q_nr Q)%nat ->
  (q_nt Q * q_nr Q * q_len Q <= length (q_Y Q))%nat -> tfm_fits (idx_of fe) Q -> tfm_clear Q ->
  fair (Z.of_nat (q_No Q)) (num_threads hw env (Z.of_nat (q_No Q))) sch ->
  let image Y n := das_sum Y (Z.of_nat (q_len Q)) (q_nt Q) (q_nr Q) (tx_dist Q n) (rx_dist Q n) (q_dt Q) (q_cp Q) (SpecDas.delay_of Q n) in
  let all_in := forall n, (n < q_No Q)%nat ->
    das_all_inside (Z.of_nat (q_len Q)) (q_nt Q) (q_nr Q) (tx_dist Q n) (rx_dist Q n) (q_dt Q) (q_cp Q) (SpecDas.delay_of Q n) in
  (~ is_stop (q_lvl Q) \/ all_in ->
   exists Im w e, seen (das_gateway fe opencl nlhs hw env sch junk old args) = Ok (Some (DReturned Im w e)) /\
    length Im = q_No Q /\
    forall n, (n < q_No Q)%nat -> near_image (q_nt Q * q_nr Q) (image (map Rabs (q_Y Q)) n) (image (q_Y Q) n) (nth n Im 0%float)) /\
  (is_stop (q_lvl Q) -> ~ all_in ->
   seen (das_gateway fe opencl nlhs hw env sch junk old args) =
     Ok (Some (if (1 <? num_threads hw env (Z.of_nat (q_No Q)))%Z then DErrOutOfBounds else DErrCtrlC))).
Proof.
  intros fsin fcos fatan fasin facos fexp flog fe opencl nlhs hw env sch junk old J ny args D Hn Hhw OJ Q OK Ht Hr HY Hf Hc Hs image all_in.
  assert (ENo : d_No J = Z.of_nat (q_No Q)). { destruct (od_sizes _ _ _ _ _ _ _ _ OJ) as (_ & S2 & _). cbn. lia. }
  pose proof (num_threads_ok hw env (Z.of_nat (q_No Q)) Hhw ltac:(lia)) as (Hw & _).
  assert (HL : length (alloc junk (Z.to_nat (d_No J))) = q_No Q) by (rewrite alloc_length; lia).
  destruct (tfm_sim _ _ _ _ _ _ _ (idx_of fe) J _ sch _ OJ OK Ht Hr HY Hf Hc Hw HL) as (r & r' & E1 & E2 & M).
  destruct (C24_tfm_ends (idx_of fe) Q _ (repeat None (q_No Q)) sch OK Ht Hr HY Hf Hw (repeat_length _ _) Hs) as (Im' & stt & run & E3 & Hrun).
  pose proof (eq_trans (eq_sym E2) E3) as X. injection X as ->. destruct r as [[[Im e] run']|]; [|contradiction].
  destruct M as (-> & -> & L & M).
  pose proof (C64_call _ fe opencl nlhs hw env sch junk old J ny args D Hn) as G. rewrite ENo in *. rewrite Nat2Z.id in G. rewrite Nat2Z.id in E1. rewrite E1 in G. cbn [bind] in G.
  rewrite G. split.
  - intros Ha. rewrite (Hrun Ha) in *.
    destruct (C24_tfm (idx_of fe) Q _ (repeat None (q_No Q)) sch Im' stt OK Ht Hr HY Hf Hw (repeat_length _ _) E3) as (L' & V & _).
    eexists Im, _, _. split; [reflexivity|]. split; [exact L|]. intros n Hlt. exact (M n _ Hlt (V n Hlt)).
  - intros Hst Hna. destruct run.
    { exfalso. apply Hna. exact (proj2 (proj2 (proj2 (C24_tfm (idx_of fe) Q _ (repeat None (q_No Q)) sch Im' stt OK Ht Hr HY Hf Hw (repeat_length _ _) E3))) Hst). }
    unfold user_sees. do 2 f_equal. destruct (1 <? num_threads hw env (Z.of_nat (q_No Q)))%Z eqn:E4.
    + assert (Y : stt = err_oob); [|rewrite Y; reflexivity].
      refine (das_call_stopped (idx_of fe) J _ _ sch Im stt (wf_F _ _ _ _ _ _ _ J OJ OK) (proj1 (Z.ltb_lt _ _) E4) _ (proj1 Hs) E1).
      rewrite ENo. rewrite Nat2Z.id in HL. now rewrite HL.
    + replace (num_threads hw env (Z.of_nat (q_No Q))) with 1%Z in E1 by lia. rewrite (das_call_one _ _ _ _ _ _ _ E1). reflexivity.
Qed.
Print Assumptions C105_tfm_call.

(** ** SAFT: the image for twice the user's delay (see C24; for delay 0 the
    image asked for).  Missing: other delays. *)
Theorem C105_saft_partial : forall fsin fcos fatan fasin facos fexp flog fe opencl nlhs hw env sch
    (junk : list (FN fsin fcos fatan fasin facos fexp flog)) old J ny args,
  das_args fe opencl J ny args -> (0 <= nlhs <= 2)%Z -> (0 <= hw)%Z ->
  ordinary_das _ _ _ _ _ _ _ J -> let Q := val_das _ _ _ _ _ _ _ J in
  rjob_ok Q -> q_type Q = das_saft ->
  (q_nt Q * q_len Q <= length (q_Y Q))%nat -> saft_fits (idx_of fe) Q -> saft_clear Q -> ~ is_stop (q_lvl Q) ->
  fair (Z.of_nat (q_No Q)) (num_threads hw env (Z.of_nat (q_No Q))) sch ->
  let image Y d n := saft_sum Y (Z.of_nat (q_len Q)) (q_nt Q) (tx_dist Q n) (q_dt Q) (q_cp Q) d in
  exists Im w e, seen (das_gateway fe opencl nlhs hw env sch junk old args) = Ok (Some (DReturned Im w e)) /\
    length Im = q_No Q /\
    (forall n, (n < q_No Q)%nat -> let d := 2 * SpecDas.delay_of Q n in
       near_image (q_nt Q) (image (map Rabs (q_Y Q)) d n) (image (q_Y Q) d n) (nth n Im 0%float)) /\
    (forall n, (n < q_No Q)%nat -> SpecDas.delay_of Q n = 0 -> let d := SpecDas.delay_of Q n in
       near_image (q_nt Q) (image (map Rabs (q_Y Q)) d n) (image (q_Y Q) d n) (nth n Im 0%float)).
Proof.
  intros fsin fcos fatan fasin facos fexp flog fe opencl nlhs hw env sch junk old J ny args D Hn Hhw OJ Q OK Ht HY Hf Hc Hl [Hs1 Hs2] image.
  assert (ENo : d_No J = Z.of_nat (q_No Q)). { destruct (od_sizes _ _ _ _ _ _ _ _ OJ) as (_ & S2 & _). cbn. lia. }
  pose proof (num_threads_ok hw env (Z.of_nat (q_No Q)) Hhw ltac:(lia)) as (Hw & _).
  assert (HL : length (alloc junk (Z.to_nat (d_No J))) = q_No Q) by (rewrite alloc_length; lia).
  destruct (saft_sim _ _ _ _ _ _ _ (idx_of fe) J _ sch _ OJ OK (or_introl Ht) HY Hf Hc Hw HL) as (r & r' & E1 & E2 & M).
  destruct (call_ends (idx_of fe) Q _ (repeat None (q_No Q)) _ OK Hw (repeat_length _ _)
    (fun n Hn => value_saft (idx_of fe) Q OK n Hn (or_introl Ht) HY (fun t => Hf n t Hn)) sch Hs1 Hs2) as (Im' & stt & run & E3 & Hrun).
  assert (run = true) as -> by (apply Hrun; left; unfold is_stop in Hl; tauto).
  pose proof (eq_trans (eq_sym E2) E3) as X. injection X as ->. destruct r as [[[Im e] run']|]; [|contradiction].
  destruct M as (-> & -> & L & M).
  pose proof (C64_call _ fe opencl nlhs hw env sch junk old J ny args D Hn) as G. rewrite ENo in *. rewrite Nat2Z.id in G. rewrite Nat2Z.id in E1. rewrite E1 in G. cbn [bind] in G.
  destruct (C24_saft_partial (idx_of fe) Q _ (repeat None (q_No Q)) sch Im' stt OK (or_introl Ht) HY Hf Hw (repeat_length _ _) E3) as (L' & V & _).
  eexists Im, _, _. split; [exact G|]. split; [exact L|].
  assert (A : forall n, (n < q_No Q)%nat -> let d := 2 * SpecDas.delay_of Q n in
       near_image (q_nt Q) (image (map Rabs (q_Y Q)) d n) (image (q_Y Q) d n) (nth n Im 0%float)).
  { intros n Hlt. exact (M n _ Hlt (V n Hlt)). }
  split; [exact A|]. intros n Hlt Hd. specialize (A n Hlt). cbv zeta in A |- *. rewrite Hd in A |- *. rewrite Rmult_0_r in A. exact A.
Qed.
Print Assumptions C105_saft_partial.

(** ** Row-column arrays with as many rows as columns, in increasing order.
    Missing: other arrays (C26 is false there). *)
Theorem C105_rca_partial : forall fsin fcos fatan fasin facos fexp flog fe opencl nlhs hw env sch
    (junk : list (FN fsin fcos fatan fasin facos fexp flog)) old J ny args dcol drow,
  das_args fe opencl J ny args -> (0 <= nlhs <= 2)%Z -> (0 <= hw)%Z ->
  ordinary_das _ _ _ _ _ _ _ J -> let Q := val_das _ _ _ _ _ _ _ J in
  rjob_ok Q -> q_type Q = das_rca_coltx \/ q_type Q = das_rca_rowtx ->
  q_nt Q = q_nr Q -> (1 <= q_nr Q)%nat ->
  vy (row3 (q_Gr Q) (q_nr Q) 0) <= vy (row3 (q_Gr Q) (q_nr Q) (q_nr Q - 1)) ->
  vx (row3 (q_Gt Q) (q_nt Q) 0) <= vx (row3 (q_Gt Q) (q_nt Q) (q_nt Q - 1)) ->
  (q_nt Q * q_nr Q * q_len Q <= length (q_Y Q))%nat -> rca_dists Q dcol drow -> rca_fits (idx_of fe) Q dcol drow ->
  rca_clear Q dcol drow -> ~ is_stop (q_lvl Q) ->
  fair (Z.of_nat (q_No Q)) (num_threads hw env (Z.of_nat (q_No Q))) sch ->
  exists Im w e, seen (das_gateway fe opencl nlhs hw env sch junk old args) = Ok (Some (DReturned Im w e)) /\
    length Im = q_No Q /\
    forall n, (n < q_No Q)%nat ->
      near_image (q_nt Q * q_nr Q) (rca_sum Q (map Rabs (q_Y Q)) dcol drow n) (rca_sum Q (q_Y Q) dcol drow n) (nth n Im 0%float).
Proof.
  intros fsin fcos fatan fasin facos fexp flog fe opencl nlhs hw env sch junk old J ny args dcol drow D Hn Hhw OJ Q OK Ht Hsq Hr Hy Hx HY Hd Hf Hc Hl Hs.
  assert (ENo : d_No J = Z.of_nat (q_No Q)). { destruct (od_sizes _ _ _ _ _ _ _ _ OJ) as (_ & S2 & _). cbn. lia. }
  pose proof (num_threads_ok hw env (Z.of_nat (q_No Q)) Hhw ltac:(lia)) as (Hw & _).
  assert (HL : length (alloc junk (Z.to_nat (d_No J))) = q_No Q) by (rewrite alloc_length; lia).
  destruct (rca_sim _ _ _ _ _ _ _ (idx_of fe) J _ sch _ dcol drow OJ OK Ht Hsq Hr Hy Hx HY Hd Hf Hc Hw HL) as (r & r' & E1 & E2 & M).
  destruct (C26_square_ends_partial (idx_of fe) Q _ (repeat None (q_No Q)) sch dcol drow OK Ht Hsq Hr Hy Hx HY Hd Hf Hw (repeat_length _ _) Hs) as (Im' & stt & run & E3 & Hrun).
  rewrite (Hrun Hl) in E3. clear Hrun.
  pose proof (eq_trans (eq_sym E2) E3) as X. injection X as ->. destruct r as [[[Im e] run']|]; [|contradiction].
  destruct M as (-> & -> & L & M).
  pose proof (C64_call _ fe opencl nlhs hw env sch junk old J ny args D Hn) as G. rewrite ENo in *. rewrite Nat2Z.id in G. rewrite Nat2Z.id in E1. rewrite E1 in G. cbn [bind] in G.
  destruct (C26_square_partial (idx_of fe) Q _ (repeat None (q_No Q)) sch Im' stt dcol drow OK Ht Hsq Hr Hy Hx HY Hd Hf Hw (repeat_length _ _) E3) as (L' & V).
  eexists Im, _, _. split; [exact G|]. split; [exact L|]. intros n Hlt. apply (M n _ Hlt). destruct (V n Hlt) as [V1 V2]. unfold rca_sum.
  destruct Ht as [Ht|Ht]; rewrite Ht; cbn [DASType_eqb]; [exact (V1 Ht)|exact (V2 Ht)].
Qed.
Print Assumptions C105_rca_partial.

(** ** Hypotheses are satisfiable *)
(** TFM with elements at 0 and 3 mm, image point at (0,4,0), 1500 m/s, 1 us
    sampling, delay 0.25 us: travel times of 5.58, 6.25 and 6.92 samples. *)
Local Notation id := (fun x : PrimFloat.float => x).
Local Notation FIdas := (val_das id id id id id id id).
Definition ex_fdas : das_job FI :=
  @Build_das_job FI das_tfm 10 1 2 2 (repeat 1%float 40) [0; 4; 0]%float [0; 3; 0; 0; 0; 0]%float [0; 3; 0; 0; 0; 0]%float
    1%float delay_single [0.25]%float 1500%float lvl_ignore.
Definition ex_rdas : rjob :=
  {| q_type := das_tfm; q_len := 10; q_No := 1; q_nt := 2; q_nr := 2; q_Y := repeat 1 40;
     q_Ro := [0; 4; 0]; q_Gt := [0; 3; 0; 0; 0; 0]; q_Gr := [0; 3; 0; 0; 0; 0]; q_dt := 1; q_dty := delay_single; q_delay := [/ 4];
     q_cp := 1500; q_lvl := lvl_ignore |}.
Lemma val_3 : val 3%float = 3.
Proof. rewrite (val_lit 3%float 6755399441055744%positive 51%nat) by (vm_compute; reflexivity). change (2 ^ Z.of_nat 51)%Z with 2251799813685248%Z. lra. Qed.
Lemma val_4 : val 4%float = 4.
Proof. rewrite (val_lit 4%float 4503599627370496%positive 50%nat) by (vm_compute; reflexivity). change (2 ^ Z.of_nat 50)%Z with 1125899906842624%Z. lra. Qed.
Lemma vals_rep x n : vals (repeat x n) = repeat (val x) n.
Proof. unfold vals. induction n as [|n IH]; cbn [repeat map]; [reflexivity|]. now rewrite IH. Qed.
Lemma ex_val : FIdas ex_fdas = ex_rdas.
Proof.
  unfold val_das, ex_rdas, ex_fdas. cbn [d_type d_len d_No d_num_t d_num_r d_Y d_Ro d_Gt d_Gr d_dt d_delay_type d_delay d_cp d_lvl].
  rewrite vals_rep. unfold vals. cbn [map]. rewrite val_1, val_3, val_4, val_1500, val_q. change (val 0%float) with 0. reflexivity.
Qed.
Lemma ex_dist105 n t : (n < 1)%nat -> (t < 2)%nat ->
  tx_dist ex_rdas n t = (if Nat.eqb t 0 then 4 else 5) /\ rx_dist ex_rdas n t = (if Nat.eqb t 0 then 4 else 5).
Proof.
  intros Hn Ht. destruct n as [|]; [|lia].
  assert (E4 : sqrt 16 = 4) by (replace 16 with (4 * 4) by ring; apply sqrt_square; lra).
  assert (E5 : sqrt 25 = 5) by (replace 25 with (5 * 5) by ring; apply sqrt_square; lra).
  destruct t as [|[|]]; [| |lia]; cbn; unfold vx, vy, vz; cbn; split;
    (etransitivity; [apply f_equal|first [exact E4|exact E5]]; ring).
Qed.
Lemma eps_small : eps <= / 1000.
Proof. pose proof ProofsRel.u_small as H. rewrite ProofsRound.u_eps. lra. Qed.
Lemma eps_pos : 0 < eps.
Proof. unfold eps. apply powerRZ_lt. lra. Qed.
Lemma ex_time (a b : R) : pair_time 1 1500 (/ 4) a b = (a + b) * (2 / 3) + / 4.
Proof. unfold pair_time, travel_ms. field. Qed.
Lemma ex_safe a b : a = 4 \/ a = 5 -> b = 4 \/ b = 5 -> safe_pair 1 1500 (/ 4) a b.
Proof.
  intros Ha Hb. rewrite ?small2. split; [rewrite small2; lra|]. split; [rewrite small2; lra|]. intros z.
  rewrite (Rabs_pos_eq (/ 4)), ex_time by lra.
  assert (exists k, IZR k + 5/100 <= (a + b) * (2 / 3) + / 4 <= IZR k + 95/100 /\ (0 <= k <= 6)%Z) as (k & Hk & Hk2).
  { destruct Ha as [->| ->], Hb as [->| ->]; [exists 5%Z|exists 6%Z|exists 6%Z|exists 6%Z]; split; try lia; lra. }
  apply Rlt_le_trans with (5/100).
  - pose proof eps_small as E1. pose proof eps_pos as E2.
    assert ((a + b) * (2 / 3) + / 4 <= 7). { destruct Ha as [->| ->], Hb as [->| ->]; lra. }
    assert (eps <= / 1000000). { rewrite ProofsRound.u_eps. unfold Flocq.Core.Raux.bpow. cbn -[Z.pow_pos]. change (Z.pow_pos 2 53) with 9007199254740992%Z. lra. }
    apply Rle_lt_trans with (8 * / 1000000 * 7); [|lra]. apply Rmult_le_compat; try lra.
  - destruct (Z_le_dec z k) as [L|L].
    + apply IZR_le in L. rewrite Rabs_pos_eq; lra.
    + assert (L' : (k + 1 <= z)%Z) by lia. apply IZR_le in L'. rewrite plus_IZR in L'. rewrite Rabs_left; lra.
Qed.
Lemma four : 4 = powerRZ 2 2.
Proof. change 2%Z with (Z.of_nat 2). rewrite <- pow_powerRZ. ring. Qed.
Lemma INR4 : INR 4 = 4. Proof. cbn [INR]. lra. Qed.
Example C105_ex : forall fe opencl, exists args,
  das_args fe opencl ex_fdas 4 args /\ ordinary_das id id id id id id id ex_fdas /\
  let Q := FIdas ex_fdas in rjob_ok Q /\ tfm_fits (idx_of fe) Q /\ tfm_clear Q /\
  fair (Z.of_nat (q_No Q)) (num_threads 1 None (Z.of_nat (q_No Q))) one_round /\
  das_sum (q_Y Q) (Z.of_nat (q_len Q)) (q_nt Q) (q_nr Q) (tx_dist Q 0) (rx_dist Q 0) (q_dt Q) (q_cp Q) (SpecDas.delay_of Q 0) = 4.
Proof.
  intros fe opencl.
  exists [dmat Full 10 4 (d_Y ex_fdas); dmat Full 2 3 (d_Gt ex_fdas); dmat Full 2 3 (d_Gr ex_fdas);
   dmat Full 1 3 (d_Ro ex_fdas); dmat Full 1 1 [d_dt ex_fdas]; dmat Full 1 1 (d_delay ex_fdas); dmat Full 1 1 [d_cp ex_fdas];
   dtext "tfm"; dtext "ignore"; dtext "cpu"; dtext ""].
  split.
  { exists "tfm", 3%Z, Full, Full, Full, 1%Z, 1%Z, [dtext "ignore"; dtext "cpu"; dtext ""]. split; [reflexivity|].
    split; [cbn; auto|]. split.
    { right; right; right. exists "ignore", "cpu", "". split; [reflexivity|]. split; [cbn; auto|]. left; reflexivity. }
    split; [left; reflexivity|]. split; [discriminate|]. split; [discriminate|]. split; [reflexivity|]. split; [reflexivity|].
    split; [left; reflexivity|]. destruct fe; try exact I; try reflexivity; discriminate. }
  split.
  { split; cbn [ex_fdas d_type d_len d_No d_num_t d_num_r d_Y d_Ro d_Gt d_Gr d_dt d_delay_type d_delay d_cp d_lvl].
    - lia.
    - apply Forall_forall. intros x Hx. apply repeat_spec in Hx. subst x. reflexivity.
    - repeat (apply Forall_cons; [first [exact ord0|apply ord_pos; [reflexivity|rewrite ?val_3, ?val_4; lra]]|]); apply Forall_nil.
    - repeat (apply Forall_cons; [first [exact ord0|apply ord_pos; [reflexivity|rewrite ?val_3, ?val_4; lra]]|]); apply Forall_nil.
    - repeat (apply Forall_cons; [first [exact ord0|apply ord_pos; [reflexivity|rewrite ?val_3, ?val_4; lra]]|]); apply Forall_nil.
    - repeat (apply Forall_cons; [first [exact ord0|apply ord_pos; [reflexivity|rewrite ?val_q; lra]]|]); apply Forall_nil.
    - apply ord_pp; [reflexivity|rewrite val_1; lra].
    - apply ord_pp; [reflexivity|rewrite val_1500; lra]. }
  cbv zeta. rewrite ex_val.
  assert (D : forall n t, (n < 1)%nat -> (t < 2)%nat -> (tx_dist ex_rdas n t = 4 \/ tx_dist ex_rdas n t = 5) /\ (rx_dist ex_rdas n t = 4 \/ rx_dist ex_rdas n t = 5)).
  { intros n t Hn Ht. destruct (ex_dist105 n t Hn Ht) as [-> ->]. destruct (Nat.eqb t 0); auto. }
  assert (S : forall t r, (t < 2)%nat -> (r < 2)%nat -> exists k, (5 <= k <= 6)%Z /\ pair_sample 1 1500 (/ 4) (tx_dist ex_rdas 0 t) (rx_dist ex_rdas 0 r) = k).
  { intros t r Ht Hr. destruct (D 0%nat t ltac:(lia) Ht) as [Ha _]. destruct (D 0%nat r ltac:(lia) Hr) as [_ Hb].
    unfold pair_sample, sample_no. change (1000 * (travel_ms 1500 (tx_dist ex_rdas 0 t) + travel_ms 1500 (rx_dist ex_rdas 0 r) + / 4 / 1000) / 1) with
      (pair_time 1 1500 (/ 4) (tx_dist ex_rdas 0 t) (rx_dist ex_rdas 0 r)). rewrite ex_time.
    destruct Ha as [->| ->], Hb as [->| ->].
    - exists 5%Z. split; [lia|]. apply trunc_at; [lra|lia].
    - exists 6%Z. split; [lia|]. apply trunc_at; [lra|lia].
    - exists 6%Z. split; [lia|]. apply trunc_at; [lra|lia].
    - exists 6%Z. split; [lia|]. apply trunc_at; [lra|lia]. }
  assert (A : forall c k, (c < 4)%nat -> (5 <= k <= 6)%Z -> ascan (repeat 1 40) 10 c k = 1).
  { intros c k Hc Hk. unfold ascan. replace (inside 10 k) with true by (unfold inside; lia). apply nth_repeat_lt. change (Z.to_nat 10) with 10%nat. lia. }
  assert (V4 : forall Y, (forall k, nth k Y 0 = nth k (repeat 1 40) 0) ->
    das_sum Y (Z.of_nat (q_len ex_rdas)) (q_nt ex_rdas) (q_nr ex_rdas) (tx_dist ex_rdas 0) (rx_dist ex_rdas 0) (q_dt ex_rdas) (q_cp ex_rdas) (SpecDas.delay_of ex_rdas 0) = 4).
  { intros Y HY. unfold das_sum. change (q_nt ex_rdas) with 2%nat. change (q_nr ex_rdas) with 2%nat. cbn [rsum].
    change (q_dt ex_rdas) with 1. change (q_cp ex_rdas) with 1500. change (SpecDas.delay_of ex_rdas 0) with (/ 4). change (Z.of_nat (q_len ex_rdas)) with 10%Z.
    assert (AY : forall t r, (t < 2)%nat -> (r < 2)%nat -> ascan Y 10 (t * 2 + r) (pair_sample 1 1500 (/ 4) (tx_dist ex_rdas 0 t) (rx_dist ex_rdas 0 r)) = 1).
    { intros t r Ht Hr. destruct (S t r Ht Hr) as (k & Hk & ->). rewrite <- (A (t * 2 + r)%nat k) by lia. unfold ascan. destruct (inside 10 k); [apply HY|reflexivity]. }
    rewrite !AY by lia. ring. }
  split. { split; cbn; try lia; lra. }
  split. { intros n t r Hn Ht Hr. change (q_No ex_rdas) with 1%nat in Hn. destruct n; [|lia]. destruct (S t r Ht Hr) as (k & Hk & E).
    change (SpecDas.delay_of ex_rdas 0) with (/ 4). change (q_dt ex_rdas) with 1. change (q_cp ex_rdas) with 1500. rewrite E. destruct fe; cbn; lia. }
  split.
  { intros n Hn. change (q_No ex_rdas) with 1%nat in Hn. destruct n; [|lia]. split.
    - intros t r Ht Hr. apply ex_safe; [exact (proj1 (D 0%nat t Hn Ht))|exact (proj2 (D 0%nat r Hn Hr))].
    - rewrite V4.
      + split; [unfold large; rewrite four|change (INR (q_nt ex_rdas * q_nr ex_rdas)) with (INR 4); rewrite INR4, four];
          rewrite <- !(ProofsRoundSir.bpow_val); apply Flocq.Core.Raux.bpow_le; lia.
      + intros k. rewrite <- (Rabs_pos_eq (nth k (repeat 1 40) 0)).
        * change (q_Y ex_rdas) with (repeat 1 40). rewrite <- (map_nth Rabs). now rewrite Rabs_R0.
        * destruct (Nat.lt_ge_cases k 40) as [L|L]; [rewrite (nth_repeat_lt 1 0 40 k L); lra|rewrite nth_overflow; [lra|rewrite repeat_length; lia]]. }
  split; [exact one_round_fair|]. apply V4. reflexivity.
Qed.

(** ** Echoes exactly on a sampling instant *)
(** Without the condition that the travel times are clear of the sampling
    instants the claim is false: one element, image point 51 mm away in steel
    (6000 m/s), 1 us sampling.  The echo is due at sample 17 exactly; the
    program truncates 16.999999999999996 and reads sample 16. *)
Definition ex_instant : das_job FI :=
  @Build_das_job FI das_tfm 18 1 1 1 (repeat 0%float 17 ++ [1%float]) [0; 0; 51]%float [0; 0; 0]%float [0; 0; 0]%float
    1%float delay_single [0%float] 6000%float lvl_ignore.
Lemma val_51 : val 51%float = 51.
Proof. rewrite (val_lit 51%float 7177611906121728%positive 47%nat) by (vm_compute; reflexivity). change (2 ^ Z.of_nat 47)%Z with 140737488355328%Z. lra. Qed.
Lemma val_6000 : val 6000%float = 6000.
Proof. rewrite (val_lit 6000%float 6597069766656000%positive 40%nat) by (vm_compute; reflexivity). change (2 ^ Z.of_nat 40)%Z with 1099511627776%Z. lra. Qed.
Theorem C105_instant_refuted : exists (J : das_job FI) sch Im stt,
  ordinary_das id id id id id id id J /\ let Q := FIdas J in
  rjob_ok Q /\ q_type Q = das_tfm /\ (1 <= q_nr Q)%nat /\ (q_nt Q * q_nr Q * q_len Q <= length (q_Y Q))%nat /\ tfm_fits SignedIdx Q /\
  das_call SignedIdx J 1 sch [0%float : FI] = Ok (Some (Im, stt, true)) /\
  das_sum (q_Y Q) (Z.of_nat (q_len Q)) (q_nt Q) (q_nr Q) (tx_dist Q 0) (rx_dist Q 0) (q_dt Q) (q_cp Q) (SpecDas.delay_of Q 0) = 1 /\
  nth 0 Im 0%float = 0%float.
Proof.
  exists ex_instant, one_round, [0%float], err_none.
  assert (EV : FIdas ex_instant = {| q_type := das_tfm; q_len := 18; q_No := 1; q_nt := 1; q_nr := 1; q_Y := repeat 0 17 ++ [1];
     q_Ro := [0; 0; 51]; q_Gt := [0; 0; 0]; q_Gr := [0; 0; 0]; q_dt := 1; q_dty := delay_single; q_delay := [0]; q_cp := 6000; q_lvl := lvl_ignore |}).
  { unfold val_das, ex_instant. cbn [d_type d_len d_No d_num_t d_num_r d_Y d_Ro d_Gt d_Gr d_dt d_delay_type d_delay d_cp d_lvl].
    unfold vals. cbn [map repeat app]. rewrite val_1, val_51, val_6000. change (val 0%float) with 0. reflexivity. }
  split.
  { split; cbn [ex_instant d_type d_len d_No d_num_t d_num_r d_Y d_Ro d_Gt d_Gr d_dt d_delay_type d_delay d_cp d_lvl].
    - lia.
    - cbn [repeat app]. repeat (apply Forall_cons; [reflexivity|]). apply Forall_nil.
    - repeat (apply Forall_cons; [first [exact ord0|apply ord_pos; [reflexivity|rewrite ?val_51; lra]]|]); apply Forall_nil.
    - repeat (apply Forall_cons; [exact ord0|]); apply Forall_nil.
    - repeat (apply Forall_cons; [exact ord0|]); apply Forall_nil.
    - repeat (apply Forall_cons; [exact ord0|]); apply Forall_nil.
    - apply ord_pp; [reflexivity|rewrite val_1; lra].
    - split; [reflexivity|]. rewrite val_6000, big2, small2. lra. }
  cbv zeta. rewrite EV. set (Q := Build_rjob _ _ _ _ _ _ _ _ _ _ _ _ _ _).
  assert (E51 : sqrt 2601 = 51) by (replace 2601 with (51 * 51) by ring; apply sqrt_square; lra).
  assert (T : tx_dist Q 0 0 = 51 /\ rx_dist Q 0 0 = 51).
  { cbn; unfold vx, vy, vz; cbn; split; (etransitivity; [apply f_equal|exact E51]; ring). }
  destruct T as [T1 T2].
  assert (P : pair_sample 1 6000 0 51 51 = 17%Z). { unfold pair_sample, sample_no, travel_ms. apply trunc_at; [lra|lia]. }
  split. { split; cbn; try lia; lra. }
  split; [reflexivity|]. split; [cbn; lia|]. split; [cbn; lia|]. split.
  { intros n t r Hn Ht Hr. cbn in Hn, Ht, Hr. destruct n; [|lia]. destruct t; [|lia]. destruct r; [|lia]. rewrite T1, T2.
    change (fits SignedIdx (pair_sample 1 6000 0 51 51)). rewrite P. cbn. lia. }
  split; [vm_compute; reflexivity|]. split; [|reflexivity].
  unfold das_sum. change (q_nt Q) with 1%nat. change (q_nr Q) with 1%nat. cbn [rsum]. rewrite T1, T2.
  change (q_dt Q) with 1. change (q_cp Q) with 6000. change (SpecDas.delay_of Q 0) with 0. rewrite P. unfold ascan. cbn -[Pos.to_nat]. change (Pos.to_nat 17) with 17%nat. cbn. lra.
Qed.
Print Assumptions C105_instant_refuted.
