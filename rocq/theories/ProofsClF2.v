(** ProofsClF2.v - the GPU row-column kernels in double precision. *)
From Coq Require Import Floats.
From Coq Require Import Reals Lra Lia ZArith List Bool.
From Verif Require Import Base BaseLemmas NumF NumR ProofsTermF SpecRound ProofsRound ProofsRel SpecRoundSir ProofsRoundSir ProofsRoundDas
  ModelSir ModelArr ModelSmp ModelDas SpecSmp SpecDft SpecDas ProofsLoop ProofsDas ProofsDasR ProofsRca ProofsUni SpecRoundDas
  ProofsRoundDas2 ProofsGridF ProofsRoundDas3 ProofsUniF2 PropDas PropDas2 PropRoundDas ProofsClF.
From Coq Require Import ZifyBool ZifyNat.
Import ListNotations.
Open Scope R_scope.
Local Notation val := SpecRound.val.

Section M.
  Context (fsin fcos fatan fasin facos fexp flog : PrimFloat.float -> PrimFloat.float).
  Local Notation F := (FN fsin fcos fatan fasin facos fexp flog).
  Variable J : das_job F.
  Local Notation J' := (val_das fsin fcos fatan fasin facos fexp flog J).
  Hypothesis OJ : ordinary_das fsin fcos fatan fasin facos fexp flog J.
  Hypothesis OK : rjob_ok J'.
  Hypothesis Hs1 : d_delay_type J = delay_single.
  Local Notation px := (px fsin fcos fatan fasin facos fexp flog J).
  Local Notation py := (py fsin fcos fatan fasin facos fexp flog J).
  Local Notation pz := (pz fsin fcos fatan fasin facos fexp flog J).
  Local Notation pd := (pd fsin fcos fatan fasin facos fexp flog J).
  Local Notation ey1 := (ey1 fsin fcos fatan fasin facos fexp flog J).
  Local Notation ey2 := (ey2 fsin fcos fatan fasin facos fexp flog J).
  Local Notation ex1 := (ex1 fsin fcos fatan fasin facos fexp flog J).
  Local Notation ex2 := (ex2 fsin fcos fatan fasin facos fexp flog J).
  Hypothesis Hsq : q_nt J' = q_nr J'.
  Hypothesis Hnr : (1 <= q_nr J')%nat.
  Hypothesis Hy : vy (row3 (q_Gr J') (q_nr J') 0) <= vy (row3 (q_Gr J') (q_nr J') (q_nr J' - 1)).
  Hypothesis Hx : vx (row3 (q_Gt J') (q_nt J') 0) <= vx (row3 (q_Gt J') (q_nt J') (q_nt J' - 1)).
  Variables (dcol drow : nat -> nat -> R).
  Hypothesis Hd : rca_dists J' dcol drow.

  Lemma total3_F (lo hi o : F) : ordinary lo -> ordinary hi -> ordinary o -> total3 (N:=F) lo hi o.
  Proof.
    intros Hl Hh Ho. apply ordinary_V in Hl, Hh, Ho. destruct Hl as [Fl _], Hh as [Fh _], Ho as [Fo _].
    split; change (nle (n:=F)) with PrimFloat.leb; change (nlt (n:=F)) with PrimFloat.ltb.
    - destruct (Rle_dec (V lo) (V o)) as [L|L].
      + rewrite (leb_true lo o Fl Fo L), (ltb_false o lo Fo Fl L). reflexivity.
      + rewrite (leb_false lo o Fl Fo ltac:(lra)), (ltb_true o lo Fo Fl ltac:(lra)). reflexivity.
    - destruct (Rle_dec (V o) (V hi)) as [L|L].
      + rewrite (leb_true o hi Fo Fh L), (ltb_false hi o Fh Fo L). reflexivity.
      + rewrite (leb_false o hi Fo Fh ltac:(lra)), (ltb_true hi o Fh Fo ltac:(lra)). reflexivity.
  Qed.
  Lemma row_cl n r : (n < q_No J')%nat -> (0 <= r < d_num_r J)%Z ->
    row_travel_cl (N:=F) (d_Gr J) (d_num_r J) r ex1 ex2 (px n) (py n) (pz n) (d_cp J) =
    Ok (rtime (N:=F) (d_Gr J) (d_num_r J) r ex1 ex2 (px n) (py n) (pz n) (d_cp J)).
  Proof.
    intros Hn Hr. destruct (args_F _ _ _ _ _ _ _ SignedIdx J OJ OK n Hn) as ([Ox Oy Oz Od Ep Edl] & _). pose proof (wf_F _ _ _ _ _ _ _ J OJ OK) as W.
    destruct (edges_F _ _ _ _ _ _ _ J OJ OK Hsq Hnr) as (_ & (_ & _ & Ox1 & Ox2) & _).
    rewrite <- (row_travel_E (d_Gr J) (d_num_r J) r ex1 ex2 (px n) (py n) (pz n) (d_cp J)); [|exact Hr|exact (dw_Gr _ W)].
    unfold row_travel_cl, row_travel. rewrite (stripe_same _ _ _ (total3_F _ _ _ Ox1 Ox2 Ox)). reflexivity.
  Qed.

  Lemma cl_rca_F n : (n < q_No J')%nat -> q_type J' = das_rca_coltx \/ q_type J' = das_rca_rowtx ->
    (q_nt J' * q_nr J' * q_len J' <= length (q_Y J'))%nat ->
    (forall c r, (c < q_nt J')%nat -> (r < q_nr J')%nat ->
       safe_pair (q_dt J') (q_cp J') (delay_of J' n) (dcol n c) (drow n r) /\
       fits32 (pair_sample (q_dt J') (q_cp J') (delay_of J' n) (dcol n c) (drow n r))) ->
    image_range (q_nt J' * q_nr J') (rca_sum J' (map Rabs (q_Y J')) dcol drow n) ->
    exists v, cl_value (N:=F) J (Z.of_nat n) = Ok v /\
      near_image (q_nt J' * q_nr J') (rca_sum J' (map Rabs (q_Y J')) dcol drow n) (rca_sum J' (q_Y J') dcol drow n) v.
  Proof.
    intros Hn Ht HY Hs HR. destruct (cl_args _ _ _ _ _ _ _ J OJ OK Hs1 n Hn) as (Ex & Ey & Ez & Ed).
    destruct (args_F _ _ _ _ _ _ _ SignedIdx J OJ OK n Hn) as ([Ox Oy Oz Od Ep Edl] & _). pose proof (wf_F _ _ _ _ _ _ _ J OJ OK) as W.
    pose proof (dw_Gt _ W) as LGt. pose proof (dw_Gr _ W) as LGr.
    destruct (edges_F _ _ _ _ _ _ _ J OJ OK Hsq Hnr) as (Ee & _).
    assert (HT : forall c r, (c < q_nt J')%nat -> (r < q_nr J')%nat ->
      f_trunc (nmul (n:=F) (nadd (n:=F) (nadd (n:=F) (ctime (N:=F) (d_Gt J) (d_num_t J) (Z.of_nat c) ey1 ey2 (px n) (py n) (pz n) (d_cp J)) (delay_ms (N:=F) (pd n)))
        (rtime (N:=F) (d_Gr J) (d_num_r J) (Z.of_nat r) ex1 ex2 (px n) (py n) (pz n) (d_cp J))) (Fs_khz (N:=F) (d_dt J))) =
      Some (pair_sample (q_dt J') (q_cp J') (delay_of J' n) (dcol n c) (drow n r)) /\
      fits32 (pair_sample (q_dt J') (q_cp J') (delay_of J' n) (dcol n c) (drow n r))).
    { intros c r Hc Hr. destruct (Hs c r Hc Hr) as [(D1 & D2 & Hcl) Hf]. split; [|exact Hf].
      unfold pair_sample, sample_no, travel_ms. rewrite Edl in *.
      rewrite (val_dt fsin fcos fatan fasin facos fexp flog J), (val_cp fsin fcos fatan fasin facos fexp flog J) in *.
      destruct (Hd n Hn) as [Hdc Hdr].
      pose proof (ctime_F fsin fcos fatan fasin facos fexp flog SignedIdx J OJ OK Hsq Hnr Hy Hx n c _ Hn Hc (Hdc c Hc) D1) as R1.
      pose proof (rtime_F fsin fcos fatan fasin facos fexp flog SignedIdx J OJ OK Hsq Hnr Hy Hx n r _ Hn Hr (Hdr r Hr) D2) as R2.
      exact (pair_trunc _ _ _ _ _ _ _ _ _ _ _ _ _ _ R1 R2 Od (od_dt _ _ _ _ _ _ _ _ OJ) Hcl). }
    destruct OJ as [(S1 & S2 & S3 & S4) OY _ OGt OGr _ Odt Ocp].
    assert (HL : (Z.of_nat (q_nt J' * q_nr J') * d_len J <= Z.of_nat (length (d_Y J)))%Z).
    { revert HY. change (q_len J') with (Z.to_nat (d_len J)). change (q_Y J') with (vals (d_Y J)). unfold vals. rewrite map_length. intros HY.
      rewrite <- (Z2Nat.id (d_len J) S1), <- Nat2Z.inj_mul. apply (proj1 (Nat2Z.inj_le _ _)). exact HY. }
    unfold cl_value. rewrite Ex, Ey, Ez, Ed. cbn [bind]. unfold rca_sum in *.
    destruct Ht as [Ht|Ht]; rewrite Ht in HR |- *; change (q_type J') with (d_type J) in Ht; rewrite Ht; cbn [DASType_eqb] in *.
    - destruct (double_F fsin fcos fatan fasin facos fexp flog (d_Y J) (d_len J) S1 OY (q_nt J') (q_nr J')
        (fun c r => nmul (n:=F) (nadd (n:=F) (nadd (n:=F) (ctime (N:=F) (d_Gt J) (d_num_t J) c ey1 ey2 (px n) (py n) (pz n) (d_cp J)) (delay_ms (N:=F) (pd n)))
          (rtime (N:=F) (d_Gr J) (d_num_r J) r ex1 ex2 (px n) (py n) (pz n) (d_cp J))) (Fs_khz (N:=F) (d_dt J)))
        (fun c r => pair_sample (q_dt J') (q_cp J') (delay_of J' n) (dcol n c) (drow n r))) as (v & Ev & Nv); [exact HT|exact HL| |].
      + revert HR. unfold das_sum. change (q_len J') with (Z.to_nat (d_len J)). rewrite Z2Nat.id by exact S1. auto.
      + exists v. split.
        * rewrite <- Ev. change (q_nt J') with (Z.to_nat (d_num_t J)). change (q_nr J') with (Z.to_nat (d_num_r J)). rewrite !Z2Nat.id by lia.
          unfold cl_rca_coltx, for_loop. rewrite Ee. cbn [bind]. apply for_from_ext. intros i s Hi. rewrite col_travel_E by lia. cbn [bind].
          apply for_from_ext. intros j s' Hj. rewrite row_cl by (auto; lia). reflexivity.
        * revert Nv. unfold das_sum. change (q_len J') with (Z.to_nat (d_len J)). rewrite Z2Nat.id by exact S1. auto.
    - destruct (double_F fsin fcos fatan fasin facos fexp flog (d_Y J) (d_len J) S1 OY (q_nr J') (q_nt J')
        (fun r c => nmul (n:=F) (nadd (n:=F) (nadd (n:=F) (ctime (N:=F) (d_Gt J) (d_num_t J) c ey1 ey2 (px n) (py n) (pz n) (d_cp J)) (delay_ms (N:=F) (pd n)))
          (rtime (N:=F) (d_Gr J) (d_num_r J) r ex1 ex2 (px n) (py n) (pz n) (d_cp J))) (Fs_khz (N:=F) (d_dt J)))
        (fun r c => pair_sample (q_dt J') (q_cp J') (delay_of J' n) (drow n r) (dcol n c))) as (v & Ev & Nv).
      + intros r c Hr Hc. destruct (HT c r Hc Hr) as [T1 T2].
        assert (X : pair_sample (q_dt J') (q_cp J') (delay_of J' n) (drow n r) (dcol n c) = pair_sample (q_dt J') (q_cp J') (delay_of J' n) (dcol n c) (drow n r)).
        { unfold pair_sample. f_equal. unfold travel_ms. ring. }
        rewrite X. auto.
      + rewrite Nat.mul_comm. exact HL.
      + revert HR. rewrite (Nat.mul_comm (q_nt J')). unfold das_sum. change (q_len J') with (Z.to_nat (d_len J)). rewrite Z2Nat.id by exact S1. auto.
      + exists v. split.
        * rewrite <- Ev. change (q_nt J') with (Z.to_nat (d_num_t J)). change (q_nr J') with (Z.to_nat (d_num_r J)). rewrite !Z2Nat.id by lia.
          unfold cl_rca_rowtx, for_loop. rewrite Ee. cbn [bind]. apply for_from_ext. intros i s Hi. rewrite row_cl by (auto; lia). cbn [bind].
          apply for_from_ext. intros j s' Hj. rewrite col_travel_E by lia. reflexivity.
        * revert Nv. rewrite (Nat.mul_comm (q_nt J')). unfold das_sum. change (q_len J') with (Z.to_nat (d_len J)). rewrite Z2Nat.id by exact S1. auto.
  Qed.
End M.
