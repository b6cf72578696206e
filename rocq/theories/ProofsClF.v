(** ProofsClF.v - the GPU delay-and-sum kernels in double precision. *)
From Coq Require Import Floats.
From Coq Require Import Reals Lra Lia ZArith List Bool.
From Verif Require Import Base BaseLemmas NumF NumR ProofsTermF SpecRound ProofsRound ProofsRel SpecRoundSir ProofsRoundSir ProofsRoundDas
  ModelSir ModelArr ModelSmp ModelDas SpecSmp SpecDft SpecDas ProofsLoop ProofsDas ProofsDasR ProofsUni SpecRoundDas
  ProofsRoundDas2 ProofsRoundDas3 ProofsUniF2.
From Coq Require Import ZifyBool ZifyNat.
Import ListNotations.
Open Scope R_scope.
Local Notation val := SpecRound.val.

Lemma items_total {N : Num} (f : Z -> res N) n : forall i (Im : list N),
  (i + n <= length Im)%nat -> (forall j, (i <= j < i + n)%nat -> exists v, f (Z.of_nat j) = Ok v) ->
  exists Im', for_from (Z.of_nat i) n (fun no Im => do im <- f no; buf_upd Im no (fun _ => im)) Im = Ok Im'.
Proof.
  induction n as [|n IH]; intros i Im HL Hf; cbn [for_from]; [eexists; reflexivity|].
  destruct (Hf i ltac:(lia)) as (v & ->). cbn [bind].
  assert (E : buf_upd Im (Z.of_nat i) (fun _ => v) = Ok (upd Im i (fun _ => v))).
  { rewrite buf_upd_ok by lia. rewrite Nat2Z.id. reflexivity. }
  rewrite E. cbn [bind]. replace (Z.of_nat i + 1)%Z with (Z.of_nat (S i)) by lia. apply IH; [rewrite length_upd; lia|].
  intros j Hj. apply Hf. lia.
Qed.

Section M.
  Context (fsin fcos fatan fasin facos fexp flog : PrimFloat.float -> PrimFloat.float).
  Local Notation F := (FN fsin fcos fatan fasin facos fexp flog).
  Variable J : das_job F.
  Local Notation J' := (val_das fsin fcos fatan fasin facos fexp flog J).
  Hypothesis OJ : ordinary_das fsin fcos fatan fasin facos fexp flog J.
  Hypothesis OK : rjob_ok J'.
  Hypothesis Hs1 : d_delay_type J = delay_single.
  Local Notation px := (px fsin fcos fatan fasin facos fexp flog J).
  Local Notation py := (py fsin fcos fatan fasin facos fexp flog J).
  Local Notation pz := (pz fsin fcos fatan fasin facos fexp flog J).
  Local Notation pd := (pd fsin fcos fatan fasin facos fexp flog J).

  Lemma cl_args n : (n < q_No J')%nat ->
    buf_get (d_Ro J) (Z.of_nat n) = Ok (px n) /\ buf_get (d_Ro J) (Z.of_nat n + 1 * d_No J)%Z = Ok (py n) /\
    buf_get (d_Ro J) (Z.of_nat n + 2 * d_No J)%Z = Ok (pz n) /\ buf_get (d_delay J) 0%Z = Ok (pd n).
  Proof.
    intros Hn. pose proof (wf_F _ _ _ _ _ _ _ J OJ OK) as W. destruct OJ as [(S1 & S2 & S3 & S4) _ _ _ _ _ _ _].
    change (q_No J') with (Z.to_nat (d_No J)) in Hn. pose proof (dw_Ro _ W) as LRo. pose proof (dw_delay _ W) as Ldl. rewrite Hs1 in Ldl. cbn iota in Ldl.
    unfold ProofsRoundDas3.px, ProofsRoundDas3.py, ProofsRoundDas3.pz, ProofsRoundDas3.pd. rewrite Hs1.
    rewrite !get_F by lia. replace (Z.to_nat (Z.of_nat n)) with n by lia.
    replace (Z.to_nat (Z.of_nat n + 1 * d_No J)) with (n + Z.to_nat (d_No J))%nat by lia.
    replace (Z.to_nat (Z.of_nat n + 2 * d_No J)) with (n + 2 * Z.to_nat (d_No J))%nat by lia. auto.
  Qed.

  Lemma cl_tfm_F n : (n < q_No J')%nat -> q_type J' = das_tfm -> (q_nt J' * q_nr J' * q_len J' <= length (q_Y J'))%nat ->
    (forall t r, (t < q_nt J')%nat -> (r < q_nr J')%nat ->
       safe_pair (q_dt J') (q_cp J') (delay_of J' n) (tx_dist J' n t) (rx_dist J' n r) /\
       fits32 (pair_sample (q_dt J') (q_cp J') (delay_of J' n) (tx_dist J' n t) (rx_dist J' n r))) ->
    let image W := das_sum W (Z.of_nat (q_len J')) (q_nt J') (q_nr J') (tx_dist J' n) (rx_dist J' n) (q_dt J') (q_cp J') (delay_of J' n) in
    image_range (q_nt J' * q_nr J') (image (map Rabs (q_Y J'))) ->
    exists v, cl_value (N:=F) J (Z.of_nat n) = Ok v /\ near_image (q_nt J' * q_nr J') (image (map Rabs (q_Y J'))) (image (q_Y J')) v.
  Proof.
    intros Hn Ht HY Hs image HR. destruct (cl_args n Hn) as (Ex & Ey & Ez & Ed).
    destruct (args_F _ _ _ _ _ _ _ SignedIdx J OJ OK n Hn) as ([Ox Oy Oz Od Ep Edl] & _). pose proof (wf_F _ _ _ _ _ _ _ J OJ OK) as W.
    pose proof (dw_Gt _ W) as LGt. pose proof (dw_Gr _ W) as LGr.
    unfold cl_value. rewrite Ex, Ey, Ez, Ed. cbn [bind]. change (q_type J') with (d_type J) in Ht. rewrite Ht.
    destruct OJ as [(S1 & S2 & S3 & S4) OY _ OGt OGr _ Odt Ocp].
    assert (HL : (Z.of_nat (q_nt J' * q_nr J') * d_len J <= Z.of_nat (length (d_Y J)))%Z).
    { revert HY. change (q_len J') with (Z.to_nat (d_len J)). change (q_Y J') with (vals (d_Y J)). unfold vals. rewrite map_length. intros HY.
      rewrite <- (Z2Nat.id (d_len J) S1), <- Nat2Z.inj_mul. apply (proj1 (Nat2Z.inj_le _ _)). exact HY. }
    destruct (double_F fsin fcos fatan fasin facos fexp flog (d_Y J) (d_len J) S1 OY (q_nt J') (q_nr J')
      (fun i j => nmul (n:=F) (nadd (n:=F) (nadd (n:=F) (etime (N:=F) (d_Gt J) (d_num_t J) i (px n) (py n) (pz n) (d_cp J)) (delay_ms (N:=F) (pd n)))
         (etime (N:=F) (d_Gr J) (d_num_r J) j (px n) (py n) (pz n) (d_cp J))) (Fs_khz (N:=F) (d_dt J)))
      (fun i j => pair_sample (q_dt J') (q_cp J') (delay_of J' n) (tx_dist J' n i) (rx_dist J' n j))) as (v & Ev & Nv); [|exact HL| |].
    - intros i j Hi Hj. destruct (Hs i j Hi Hj) as [(D1 & D2 & Hc) Hf]. split; [|exact Hf].
      unfold pair_sample, sample_no, travel_ms, tx_dist, rx_dist in *. rewrite Ep, Edl in *.
      rewrite (val_dt fsin fcos fatan fasin facos fexp flog J), (val_cp fsin fcos fatan fasin facos fexp flog J) in *.
      change (q_Gt J') with (vals (d_Gt J)) in *. change (q_Gr J') with (vals (d_Gr J)) in *.
      change (q_nt J') with (Z.to_nat (d_num_t J)) in *. change (q_nr J') with (Z.to_nat (d_num_r J)) in *.
      pose proof (etime_F fsin fcos fatan fasin facos fexp flog (d_Gt J) (d_num_t J) (Z.of_nat i) (px n) (py n) (pz n) (d_cp J) ltac:(lia) LGt OGt Ox Oy Oz Ocp) as R1.
      pose proof (etime_F fsin fcos fatan fasin facos fexp flog (d_Gr J) (d_num_r J) (Z.of_nat j) (px n) (py n) (pz n) (d_cp J) ltac:(lia) LGr OGr Ox Oy Oz Ocp) as R2.
      cbv zeta in R1, R2. rewrite Nat2Z.id in R1, R2. specialize (R1 D1). specialize (R2 D2).
      exact (pair_trunc _ _ _ _ _ _ _ _ _ _ _ _ _ _ R1 R2 Od Odt Hc).
    - revert HR. unfold image, das_sum. change (q_len J') with (Z.to_nat (d_len J)). rewrite Z2Nat.id by exact S1. auto.
    - exists v. split.
      + rewrite <- Ev. change (q_nt J') with (Z.to_nat (d_num_t J)). change (q_nr J') with (Z.to_nat (d_num_r J)). rewrite !Z2Nat.id by lia.
        unfold cl_tfm, for_loop. apply for_from_ext. intros i s Hi. rewrite elem_rel_E by lia. cbn [bind].
        unfold etime at 1. destruct (erel (d_Gt J) (d_num_t J) i (px n) (py n) (pz n)) as [[gx gy] gz].
        apply for_from_ext. intros j s' Hj. rewrite elem_rel_E by lia. cbn [bind].
        unfold etime. destruct (erel (d_Gr J) (d_num_r J) j (px n) (py n) (pz n)) as [[hx hy] hz]. reflexivity.
      + revert Nv. unfold image, das_sum. change (q_len J') with (Z.to_nat (d_len J)). rewrite Z2Nat.id by exact S1. auto.
  Qed.

  Lemma cl_saft_F n : (n < q_No J')%nat -> q_type J' = das_saft -> (q_nt J' * q_len J' <= length (q_Y J'))%nat ->
    (forall t, (t < q_nt J')%nat ->
       safe_pair (q_dt J') (q_cp J') (2 * delay_of J' n) (tx_dist J' n t) (tx_dist J' n t) /\
       fits32 (pair_sample (q_dt J') (q_cp J') (2 * delay_of J' n) (tx_dist J' n t) (tx_dist J' n t))) ->
    let image W := saft_sum W (Z.of_nat (q_len J')) (q_nt J') (tx_dist J' n) (q_dt J') (q_cp J') (2 * delay_of J' n) in
    image_range (q_nt J') (image (map Rabs (q_Y J'))) ->
    exists v, cl_value (N:=F) J (Z.of_nat n) = Ok v /\ near_image (q_nt J') (image (map Rabs (q_Y J'))) (image (q_Y J')) v.
  Proof.
    intros Hn Ht HY Hs image HR. destruct (cl_args n Hn) as (Ex & Ey & Ez & Ed).
    destruct (args_F _ _ _ _ _ _ _ SignedIdx J OJ OK n Hn) as ([Ox Oy Oz Od Ep Edl] & _). pose proof (wf_F _ _ _ _ _ _ _ J OJ OK) as W.
    pose proof (dw_Gt _ W) as LGt.
    unfold cl_value. rewrite Ex, Ey, Ez, Ed. cbn [bind]. change (q_type J') with (d_type J) in Ht. rewrite Ht.
    destruct OJ as [(S1 & S2 & S3 & S4) OY _ OGt OGr _ Odt Ocp].
    assert (HL : (Z.of_nat (q_nt J') * d_len J <= Z.of_nat (length (d_Y J)))%Z).
    { revert HY. change (q_len J') with (Z.to_nat (d_len J)). change (q_Y J') with (vals (d_Y J)). unfold vals. rewrite map_length. intros HY.
      rewrite <- (Z2Nat.id (d_len J) S1), <- Nat2Z.inj_mul. apply (proj1 (Nat2Z.inj_le _ _)). exact HY. }
    destruct (single_F fsin fcos fatan fasin facos fexp flog (d_Y J) (d_len J) S1 OY (q_nt J')
      (fun i => nmul (n:=F) (nmul (n:=F) (nofZ (n:=F) 2) (nadd (n:=F) (etime (N:=F) (d_Gt J) (d_num_t J) i (px n) (py n) (pz n) (d_cp J)) (delay_ms (N:=F) (pd n)))) (Fs_khz (N:=F) (d_dt J)))
      (fun i => pair_sample (q_dt J') (q_cp J') (2 * delay_of J' n) (tx_dist J' n i) (tx_dist J' n i))) as (v & Ev & Nv); [|exact HL| |].
    - intros i Hi. destruct (Hs i Hi) as [(D1 & D2 & Hc) Hf]. split; [|exact Hf].
      unfold pair_sample, sample_no, travel_ms, tx_dist in *. rewrite Ep, Edl in *.
      rewrite (val_dt fsin fcos fatan fasin facos fexp flog J), (val_cp fsin fcos fatan fasin facos fexp flog J) in *.
      change (q_Gt J') with (vals (d_Gt J)) in *. change (q_nt J') with (Z.to_nat (d_num_t J)) in *.
      pose proof (etime_F fsin fcos fatan fasin facos fexp flog (d_Gt J) (d_num_t J) (Z.of_nat i) (px n) (py n) (pz n) (d_cp J) ltac:(lia) LGt OGt Ox Oy Oz Ocp) as R1.
      cbv zeta in R1. rewrite Nat2Z.id in R1. specialize (R1 D1).
      exact (saft_trunc _ _ _ _ _ _ _ _ _ _ _ _ R1 Od Odt Hc).
    - revert HR. unfold image, saft_sum. change (q_len J') with (Z.to_nat (d_len J)). rewrite Z2Nat.id by exact S1. auto.
    - exists v. split.
      + rewrite <- Ev. change (q_nt J') with (Z.to_nat (d_num_t J)). rewrite !Z2Nat.id by lia.
        unfold cl_saft, for_loop. apply for_from_ext. intros i s Hi. rewrite elem_rel_E by lia. cbn [bind].
        unfold etime. destruct (erel (d_Gt J) (d_num_t J) i (px n) (py n) (pz n)) as [[gx gy] gz]. reflexivity.
      + revert Nv. unfold image, saft_sum. change (q_len J') with (Z.to_nat (d_len J)). rewrite Z2Nat.id by exact S1. auto.
  Qed.

  (** The whole image from its points. *)
  Lemma cl_image (P : nat -> PrimFloat.float -> Prop) junk : (d_No J mod 64 = 0)%Z -> length junk = q_No J' ->
    (forall n, (n < q_No J')%nat -> exists v, cl_value (N:=F) J (Z.of_nat n) = Ok v /\ P n v) ->
    exists Im, cl_das (N:=F) J junk = Ok Im /\ length Im = q_No J' /\ forall n, (n < q_No J')%nat -> P n (nth n Im (0%float : F)).
  Proof.
    intros Hm HJ Hv. destruct OJ as [(S1 & S2 & S3 & S4) _ _ _ _ _ _ _].
    assert (E : exists Im, cl_das (N:=F) J junk = Ok Im).
    { unfold cl_das. rewrite Hm. cbn [Z.eqb]. unfold for_loop. change 0%Z with (Z.of_nat 0). apply items_total.
      - rewrite HJ. apply Nat.le_refl.
      - intros j Hj. destruct (Hv j) as (v & Ev & _); [exact (proj2 Hj)|]. exists v. exact Ev. }
    destruct E as (Im & E). exists Im. split; [exact E|]. destruct (cl_das_items J junk Im (0%float : F) E Hm) as [L A].
    split; [rewrite L; exact HJ|]. intros n Hn. destruct (Hv n Hn) as (v & Ev & Pv).
    change (q_No J') with (Z.to_nat (d_No J)) in Hn. specialize (A (Z.of_nat n) ltac:(lia)). rewrite Nat2Z.id, Ev in A. exact (eq_ind v (P n) Pv _ (Ok_eq _ _ A)).
  Qed.
End M.
