(** PropGpu.v - property theorems: dreamrect and dreamcirc on the GPU (C45). *)
From Coq Require Import Floats Permutation.
From Verif Require Import Base BaseLemmas ModelSir ModelArr ModelSmp ModelDas ModelGpu NumF SpecSir SpecSmp
  ProofsLocal ProofsLocalArr ProofsSmp ProofsCall ProofsSmp2 ProofsEnum ProofsErr ProofsGpu ExJob.
From Coq Require Import ZifyBool ZifyNat.

(** The observation points 0 .. No-1. *)
Definition all_points (No : Z) : list Z := map Z.of_nat (seq 0 (Z.to_nat No)).

(** In [J] the kernel's assumptions hold: a transducer with a kernel, no
    attenuation, a single start delay, and a multiple of 64 observation
    points. *)
Definition gpu_job {N : Num} (J : job N) : Prop :=
  match j_T J with TRect _ _ | TCirc _ => True | _ => False end /\
  j_att J = None /\ j_delay_type J = delay_single /\ j_No J mod 64 = 0.

Lemma in_all_points No n : In n (all_points No) <-> 0 <= n < No.
Proof.
  unfold all_points. rewrite in_map_iff. split.
  - intros (k & <- & Hk). apply in_seq in Hk. lia.
  - intros H. exists (Z.to_nat n). split; [lia|]. apply in_seq. lia.
Qed.
Lemma skipn_repeat' {A} (x : A) : forall a b, skipn a (repeat x b) = repeat x (b - a).
Proof. induction a as [|a IH]; intros [|b]; cbn; auto. Qed.
Lemma firstn_repeat' {A} (x : A) : forall a b, firstn a (repeat x b) = repeat x (Nat.min a b).
Proof. induction a as [|a IH]; intros [|b]; cbn; auto. now rewrite IH. Qed.
Lemma col_zeros {N : Num} nt No n : 0 <= nt -> 0 <= n < No -> col nt n (zeros (N:=N) (No * nt)) = zeros nt.
Proof.
  intros H1 H2. unfold col, zeros. rewrite skipn_repeat', firstn_repeat'. f_equal.
  assert (0 <= n * nt) by nia. assert (n * nt + nt <= No * nt) by nia. lia.
Qed.

(** C45: under these assumptions and for the levels that do not stop, the
    matrix computed on the GPU (work items in any order, whatever the device
    memory held before) is the one computed by the CPU (any number of workers,
    any schedule).  Any arithmetic in which 1*v = v. *)
Theorem C45_gpu_cpu_partial : forall (N : Num) (J : job N) items junk Hg eg nthreads sch Hc stt,
  wf_job SignedIdx J -> gpu_job J -> nmul (nofZ 1) (vel (j_q J)) = vel (j_q J) ->
  (j_lvl J = lvl_none \/ j_lvl J = lvl_ignore \/ j_lvl J = lvl_warn) ->
  Permutation items (all_points (j_No J)) -> length junk = Z.to_nat (j_No J * nt (j_q J)) -> 1 <= nthreads ->
  oct_gpu J items junk = Ok (Hg, eg) ->
  call SignedIdx J nthreads sch (zeros (j_No J * nt (j_q J))) = Ok (Some (Hc, stt, true)) ->
  Hg = Hc.
Proof.
  intros N J items junk Hg eg n sch Hc stt W (HT & Ha & Hd & Hm) Hv Hl HP HL Hn Eg Ec.
  unfold oct_gpu, cl_sir in Eg. rewrite Hm in Eg. cbn [Z.eqb] in Eg.
  destruct (cl_items J items junk) as [H1|u|] eqn:E1; cbn [bind] in Eg; try discriminate. injection Eg as -> _.
  assert (Hin : forall k, In k items -> 0 <= k < j_No J).
  { intros k Hk. apply in_all_points. exact (Permutation_in _ HP Hk). }
  destruct (cl_items_cols J W HT Ha Hd Hv items Hl Hin junk Hg HL E1) as (LL & B & _).
  assert (HZ : length (zeros (N:=N) (j_No J * nt (j_q J))) = Z.to_nat (j_No J * nt (j_q J))) by (unfold zeros; apply repeat_length).
  destruct (call_columns SignedIdx J W n _ Hn HZ sch Hc stt Ec) as (L2 & C).
  pose proof (wj_nt _ _ W) as Hnt.
  apply (cols_ext (nt (j_q J)) (j_No J)); auto; [lia|lia|].
  intros k Hk. assert (Ik : In k items) by (apply (Permutation_in _ (Permutation_sym HP)), in_all_points, Hk).
  destruct (B k Ik) as (e1 & A1). destruct (C k Hk) as (e2 & A2).
  rewrite col_zeros in A2 by auto. congruence.
Qed.
Print Assumptions C45_gpu_cpu_partial.

(** The GPU call returns whenever every source point's sample index fits in
    32 bits, and column n then holds the in-window contributions of the source
    points of observation point n. *)
Theorem C45_completes : forall (N : Num) (J : job N) items junk,
  wf_job SignedIdx J -> gpu_job J -> nmul (nofZ 1) (vel (j_q J)) = vel (j_q J) ->
  Permutation items (all_points (j_No J)) -> length junk = Z.to_nat (j_No J * nt (j_q J)) ->
  (forall n xo yo zo dl, 0 <= n < j_No J ->
     buf_get (j_Ro J) n = Ok xo -> buf_get (j_Ro J) (n + 1 * j_No J) = Ok yo ->
     buf_get (j_Ro J) (n + 2 * j_No J) = Ok zo -> buf_get (j_delay J) 0 = Ok dl ->
     exists pts, visited (j_fuel J) (j_T J) (j_q J) xo yo zo dl = Some pts /\
       Forall (fun c => exists z, sample_of c = Some z /\ -2^31 <= z < 2^31) pts) ->
  exists Hg, oct_gpu J items junk = Ok (Hg, err_none).
Proof.
  intros N J items junk W (HT & Ha & Hd & Hm) Hv HP HL Hp. unfold oct_gpu, cl_sir. rewrite Hm. cbn [Z.eqb].
  destruct (cl_items_points J W HT Ha Hd Hv items
    (fun k Hk => proj1 (in_all_points _ _) (Permutation_in _ HP Hk)) Hp junk HL) as (H' & ->). cbn [bind]. eauto.
Qed.
Print Assumptions C45_completes.

(** A job with 64 observation points. *)
Definition gpu_ex (lvl : ErrorLevel) (dt_ : DelayType) (del : list FI) : job FI :=
  {| j_fuel := 10; j_T := ex_rect; j_q := ex_samp 25; j_att := None; j_lvl := lvl;
     j_No := 64; j_Ro := (repeat 0 64 ++ repeat 0 64 ++ repeat 10 64)%float;
     j_delay_type := dt_; j_delay := del |}.
Definition feqb (l1 l2 : list FI) : bool :=
  Nat.eqb (length l1) (length l2) && forallb (fun p => PrimFloat.eqb (fst p) (snd p)) (combine l1 l2).
Definition ok_out {A} (P : A -> bool) (r : res A) : bool := match r with Ok a => P a | _ => false end.

Definition gpu_ex_agrees : bool :=
  let J := gpu_ex lvl_warn delay_single [6%float] in
  ok_out (fun gp => ok_out (fun c => match c with
                                      | Some (Hc, st, run) => feqb (fst gp) Hc && run && SIRError_eqb st err_none &&
                                                              negb (feqb Hc (repeat 0%float 1600))
                                      | None => false end)
    (call SignedIdx J 2 (round_robin 100 2) (zeros (N:=FI) 1600)))
    (oct_gpu J (rev (all_points 64)) (repeat 7%float 1600)).
Example C45_ex : wf_job SignedIdx (gpu_ex lvl_warn delay_single [6%float]) /\
  gpu_job (gpu_ex lvl_warn delay_single [6%float]) /\
  nmul (nofZ 1) (vel (j_q (gpu_ex lvl_warn delay_single [6%float]))) = vel (j_q (gpu_ex lvl_warn delay_single [6%float])) /\
  Permutation (rev (all_points 64)) (all_points 64) /\ gpu_ex_agrees = true.
Proof.
  split; [split; cbn; try lia; exact I|]. split; [repeat split|]. split; [vm_compute; reflexivity|].
  split; [symmetry; apply Permutation_rev|vm_compute; reflexivity].
Qed.

(** If 64 does not divide the number of observation points the user gets the
    uninitialised device memory with status 0. *)
Theorem C45_workgroup_refuted : forall (N : Num) (J : job N) items junk,
  j_No J mod 64 <> 0 -> oct_gpu J items junk = Ok (junk, err_none).
Proof.
  intros N J items junk H. unfold oct_gpu, cl_sir. destruct (Z.eqb_spec (j_No J mod 64) 0); [contradiction|reflexivity].
Qed.
Print Assumptions C45_workgroup_refuted.
Example C45_workgroup_ex : j_No (ex_job ex_rect lvl_stop 25) mod 64 <> 0.
Proof. vm_compute. discriminate. Qed.

(** Absorption, the error level and all delays but the first have no effect on
    the GPU. *)
Theorem C45_ignored_refuted : forall (N : Num) (J1 J2 : job N) items junk,
  j_fuel J1 = j_fuel J2 -> j_T J1 = j_T J2 -> j_q J1 = j_q J2 -> j_No J1 = j_No J2 -> j_Ro J1 = j_Ro J2 ->
  buf_get (j_delay J1) 0 = buf_get (j_delay J2) 0 ->
  oct_gpu J1 items junk = oct_gpu J2 items junk.
Proof.
  intros N J1 J2 items junk E1 E2 E3 E4 E5 E6.
  assert (Hi : forall n H, cl_item J1 n H = cl_item J2 n H).
  { intros n H. unfold cl_item. rewrite E1, E2, E3, E4, E5, E6. reflexivity. }
  unfold oct_gpu, cl_sir. rewrite E4. destruct (_ =? _); [|reflexivity].
  assert (G : forall H, cl_items J1 items H = cl_items J2 items H); [|now rewrite G].
  induction items as [|n items IH]; intros H; cbn [cl_items]; [reflexivity|]. rewrite Hi.
  apply bind_ext. intros a _. apply IH.
Qed.
Print Assumptions C45_ignored_refuted.

(** Lists of floats that differ (none of them NaN). *)
Definition differ (l1 l2 : list FI) : bool := feqb l1 l1 && negb (feqb l1 l2).
Lemma differ_neq l1 l2 : differ l1 l2 = true -> l1 <> l2.
Proof. unfold differ. intros H ->. destruct (feqb l2 l2); discriminate. Qed.

(** With one start delay per observation point the GPU matrix differs from the
    CPU's. *)
Definition gpu_differs (J : job FI) : bool :=
  ok_out (fun gp => ok_out (fun c => match c with
                                      | Some (Hc, st, run) => differ (fst gp) Hc && run && SIRError_eqb st err_none
                                      | None => false end)
    (call SignedIdx J 2 (round_robin 100 2) (zeros (N:=FI) 1600)))
    (oct_gpu J (all_points 64) (zeros (N:=FI) 1600)).
Lemma gpu_differs_spec (J : job FI) : gpu_differs J = true -> exists Hg Hc,
  oct_gpu J (all_points 64) (zeros (N:=FI) 1600) = Ok (Hg, err_none) /\
  call SignedIdx J 2 (round_robin 100 2) (zeros (N:=FI) 1600) = Ok (Some (Hc, err_none, true)) /\ Hg <> Hc.
Proof.
  unfold gpu_differs, oct_gpu. destruct (cl_sir J (all_points 64) (zeros (N:=FI) 1600)) as [Hg| |]; cbn [bind ok_out fst]; try discriminate.
  destruct (call SignedIdx J 2 (round_robin 100 2) (zeros (N:=FI) 1600)) as [[[[Hc st] run]|]| |]; cbn [ok_out]; try discriminate.
  intros X. apply andb_prop in X as [X X2]. apply andb_prop in X as [X0 X1].
  exists Hg, Hc. split; [reflexivity|]. split; [destruct run, st; try discriminate; reflexivity|].
  apply differ_neq. exact X0.
Qed.
Definition two_delays : list FI := (6 :: repeat 0x1.8cccccccccccdp+2 63)%float.
Lemma delays_run : gpu_differs (gpu_ex lvl_warn delay_multiple two_delays) = true.
Proof. vm_compute. reflexivity. Qed.
Theorem C45_delays_refuted : exists (J : job FI) Hg Hc,
  wf_job SignedIdx J /\ j_att J = None /\ j_No J = 64 /\
  oct_gpu J (all_points 64) (zeros (N:=FI) 1600) = Ok (Hg, err_none) /\
  call SignedIdx J 2 (round_robin 100 2) (zeros (N:=FI) 1600) = Ok (Some (Hc, err_none, true)) /\ Hg <> Hc.
Proof.
  destruct (gpu_differs_spec _ delays_run) as (Hg & Hc & A & B & C).
  exists (gpu_ex lvl_warn delay_multiple two_delays), Hg, Hc.
  split; [|split; [reflexivity|split; [reflexivity|exact (conj A (conj B C))]]].
  constructor; [cbn; lia|cbn; lia|reflexivity| |exact I|exact I].
  apply Z.leb_le. vm_compute. reflexivity.
Qed.
Print Assumptions C45_delays_refuted.

(** Error level 'stop': where the CPU call stops with the out-of-bounds error,
    the GPU call returns a matrix and status 0. *)
Definition gpu_no_stop (J : job FI) : bool :=
  ok_out (fun gp => ok_out (fun c => match c with
                                      | Some (Hc, st, run) => negb run && SIRError_eqb st err_oob
                                      | None => false end)
    (call SignedIdx J 2 (round_robin 100 2) (zeros (N:=FI) 1600)))
    (oct_gpu J (all_points 64) (zeros (N:=FI) 1600)).
Lemma gpu_no_stop_spec (J : job FI) : gpu_no_stop J = true -> exists Hg Hc,
  oct_gpu J (all_points 64) (zeros (N:=FI) 1600) = Ok (Hg, err_none) /\
  call SignedIdx J 2 (round_robin 100 2) (zeros (N:=FI) 1600) = Ok (Some (Hc, err_oob, false)).
Proof.
  unfold gpu_no_stop, oct_gpu. destruct (cl_sir J (all_points 64) (zeros (N:=FI) 1600)) as [Hg| |]; cbn [bind ok_out]; try discriminate.
  destruct (call SignedIdx J 2 (round_robin 100 2) (zeros (N:=FI) 1600)) as [[[[Hc st] run]|]| |]; cbn [ok_out]; try discriminate.
  intros X. exists Hg, Hc. split; [reflexivity|]. destruct run, st; try discriminate; reflexivity.
Qed.
Lemma no_stop_run : gpu_no_stop (gpu_ex lvl_stop delay_single [0%float]) = true.
Proof. vm_compute. reflexivity. Qed.
Theorem C45_stop_refuted : exists (J : job FI) Hg Hc,
  wf_job SignedIdx J /\ gpu_job J /\ j_lvl J = lvl_stop /\
  oct_gpu J (all_points 64) (zeros (N:=FI) 1600) = Ok (Hg, err_none) /\
  call SignedIdx J 2 (round_robin 100 2) (zeros (N:=FI) 1600) = Ok (Some (Hc, err_oob, false)).
Proof.
  destruct (gpu_no_stop_spec _ no_stop_run) as (Hg & Hc & A & B).
  exists (gpu_ex lvl_stop delay_single [0%float]), Hg, Hc.
  split; [|split; [repeat split|split; [reflexivity|exact (conj A B)]]].
  constructor; [cbn; lia|cbn; lia|reflexivity| |exact I|exact I].
  apply Z.leb_le. vm_compute. reflexivity.
Qed.
Print Assumptions C45_stop_refuted.
