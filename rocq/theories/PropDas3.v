(** PropDas3.v - delay-and-sum over IEEE doubles: counterexamples (C26, C27,
    C38, C39) and non-vacuity of C26_square_partial, C27_linear,
    C27_safe_partial and C40_gpu_cpu_partial. *)
From Coq Require Import Floats Lia ZArith List.
From Verif Require Import Base ModelSir ModelArr ModelSmp ModelDas NumF ExJob ProofsDas.
Import ListNotations.
Open Scope Z_scope.

(** [No] image points on the axis, 1 mm from the array; elements as given. *)
Definition fjob (t : DASType) (len : Z) (No : nat) (nt nr : Z) (Y Gt Gr : list float) (lvl : ErrorLevel) : das_job FI :=
  {| d_type := t; d_len := len; d_No := Z.of_nat No; d_num_t := nt; d_num_r := nr;
     d_Y := (Y : list FI); d_Ro := (repeat 0 No ++ repeat 0 No ++ repeat 1 No)%float;
     d_Gt := (Gt : list FI); d_Gr := (Gr : list FI); d_dt := (1%float : FI); d_delay_type := delay_single; d_delay := [0%float];
     d_cp := (1000%float : FI); d_lvl := lvl |}.

(** A call completed, and its flag is still up. *)
Definition completed (r : res (option (list FI * SIRError * bool))) : bool :=
  match r with Ok (Some (_, _, true)) => true | _ => false end.
Lemma completes r : completed r = true -> exists Im stt, r = Ok (Some (Im, stt, true)).
Proof. destruct r as [[[[Im stt] []]|]| |]; try discriminate. intros _. exists Im, stt. reflexivity. Qed.

(** C27 is false without the matrix sizes the gateways never check: TFM with
    two transmitters and two receivers, but two A-scans instead of four. *)
Definition f_short : das_job FI :=
  fjob das_tfm 4 1 2 2 (repeat 1 8)%float [0; 0; 0; 0; 0; 0]%float [0; 0; 0; 0; 0; 0]%float lvl_stop.
Theorem C27_scans_refuted : exists (J : das_job FI) Im0 sch,
  das_wf J /\ das_edges_ok J /\ Z.of_nat (length Im0) = d_No J /\
  d_len J * d_num_t J <= Z.of_nat (length (d_Y J)) /\
  das_call SignedIdx J 1 sch Im0 = UB UB_oob_read.
Proof.
  exists f_short, [0%float], (repeat (Run 0) 5).
  split; [split; cbn; lia|]. split; [exact I|]. split; [reflexivity|]. split; [cbn; lia|]. vm_compute. reflexivity.
Qed.
Print Assumptions C27_scans_refuted.

(** C26, C27: three columns and one row, all arguments of the right shape:
    the edges of the stripes are read outside the row matrix. *)
Definition f_rca : das_job FI :=
  fjob das_rca_coltx 4 1 3 1 (repeat 1 12)%float [0; 1; 2; 0; 0; 0; 0; 0; 0]%float [0; 0; 0]%float lvl_stop.
Theorem C26_oob_refuted : exists (J : das_job FI) Im0 sch,
  das_wf J /\ das_data_ok J /\ 1 <= d_num_t J /\ 1 <= d_num_r J /\ d_type J = das_rca_coltx /\
  Z.of_nat (length Im0) = d_No J /\ das_call SignedIdx J 1 sch Im0 = UB UB_oob_read.
Proof.
  exists f_rca, [0%float], (repeat (Run 0) 5).
  split; [split; cbn; lia|]. split; [unfold das_data_ok; cbn; lia|]. split; [cbn; lia|]. split; [cbn; lia|].
  split; [reflexivity|]. split; [reflexivity|]. vm_compute. reflexivity.
Qed.
Print Assumptions C26_oob_refuted.

(** C27_safe_partial's hypotheses hold of a row-column job with 3 columns and
    2 rows, two workers; the call completes. *)
Definition f_rca32 : das_job FI :=
  fjob das_rca_rowtx 4 2 3 2 (repeat 1 24)%float [0; 1; 2; 0; 0; 0; 0; 0; 0]%float [0; 0; 0; 1; 0; 0]%float lvl_warn.
Example C27_safe_ex : das_wf f_rca32 /\ das_data_ok f_rca32 /\ das_edges_ok f_rca32 /\
  exists Im stt, das_call SignedIdx f_rca32 2 (concat (repeat [Run 0; Run 1] 5)) [0; 0]%float = Ok (Some (Im, stt, true)).
Proof.
  split; [split; cbn; lia|]. split; [unfold das_data_ok; cbn; lia|]. split; [cbn; lia|].
  apply completes. vm_compute. reflexivity.
Qed.

(** C38 is false of IEEE doubles, both ways: 0:0.1:1.7 has a point beyond
    1.7 ... *)
Theorem C38_beyond_refuted : exists (lo p hi : FI) n,
  nlt (n:=FI) (nofZ 0) p = true /\ nle (n:=FI) lo hi = true /\ uni_count SignedIdx lo p hi = Ok n /\
  nlt (n:=FI) hi (uni_pos lo p (n - 1)) = true.
Proof. exists 0%float, 0x1.999999999999ap-4%float, 0x1.b333333333333p+0%float, 18. split; [|split; [|split]]; vm_compute; reflexivity. Qed.
Print Assumptions C38_beyond_refuted.
(** ... and 0:0.1:4.3 misses its last point, 0 + 43 * 0.1 <= 4.3. *)
Theorem C38_missing_refuted : exists (lo p hi : FI) n,
  nlt (n:=FI) (nofZ 0) p = true /\ nle (n:=FI) lo hi = true /\ uni_count SignedIdx lo p hi = Ok n /\
  nle (n:=FI) (uni_pos lo p n) hi = true.
Proof. exists 0%float, 0x1.999999999999ap-4%float, 0x1.1333333333333p+2%float, 43. split; [|split; [|split]]; vm_compute; reflexivity. Qed.
Print Assumptions C38_missing_refuted.

(** SAFT is called with an empty receive grid, for which the gateways pass
    zeros: the receive count is 0/0 converted to an integer. *)
Theorem C39_saft_cast_refuted : exists (gt gr rx ry rz : FI * FI * FI),
  gr = (nofZ (n:=FI) 0, nofZ (n:=FI) 0, nofZ (n:=FI) 0) /\
  uni_sizes SignedIdx gt gr rx ry rz = UB UB_cast.
Proof. exists (0%float, 1%float, 3%float), (0%float, 0%float, 0%float), (0%float, 1%float, 1%float), (0%float, 1%float, 1%float), (0%float, 1%float, 1%float). split; reflexivity. Qed.
Print Assumptions C39_saft_cast_refuted.

(** C40_gpu_cpu_partial's hypotheses hold: 64 image points, TFM, and the GPU
    call is defined. *)
Definition f_gpu : das_job FI :=
  fjob das_tfm 4 64 2 2 (repeat 1 16)%float [0; 1; 0; 0; 0; 0]%float [0; 1; 0; 0; 0; 0]%float lvl_ignore.
Example C40_ex : das_wf f_gpu /\ d_No f_gpu mod 64 = 0 /\
  (exists Im, cl_das f_gpu (repeat 0 64)%float = Ok Im) /\
  (exists Im stt, das_call SignedIdx f_gpu 4 (concat (repeat [Run 0; Run 1; Run 2; Run 3] 50)) (repeat 0 64)%float = Ok (Some (Im, stt, true))).
Proof.
  split; [split; cbn; lia|]. split; [reflexivity|]. split; [|apply completes; vm_compute; reflexivity].
  assert (X : match cl_das f_gpu (repeat 0 64)%float with Ok _ => true | _ => false end = true) by (vm_compute; reflexivity).
  destruct (cl_das f_gpu (repeat 0 64)%float) as [Im| |]; [exists Im; reflexivity|discriminate..].
Qed.
