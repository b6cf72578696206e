(** PropDgw2.v - property theorems: das with a scalar delay in Octave (C66), the
    device argument (C67). *)
From Coq Require Strings.String Strings.Ascii.
Import Coq.Strings.String.StringSyntax.
From Coq Require Import Lia ZArith List Bool ZifyBool ZifyNat.
From Verif Require Import Base BaseLemmas ModelSir ModelArr ModelSmp ModelDas SpecSmp
  ProofsLocal ProofsLocalArr ProofsSmp ProofsCallG ProofsSmp2 ProofsDas
  ModelGw SpecGw ProofsGw ModelDgw SpecDgw ProofsDgw ProofsDgw2 PropDgw.
Import ListNotations.
Local Open Scope string_scope.
Local Open Scope Z_scope.
Ltac Zify.zify_post_hook ::= Z.div_mod_to_equations.

(** ** C66 *)

(** A step of one of the workers. *)
Definition is_work (nthreads : Z) (e : event) : bool :=
  match e with Run i => Z.of_nat i <? nthreads | CtrlC => false end.

Lemma gsteps_dead {N : Num} (pt : Z -> list N -> res (list N * SIRError)) u No nthreads : 1 <= nthreads <= No ->
  (forall n H, 0 <= n < No -> pt n H = UB u) ->
  forall sch s, g_threads s = g_threads (init No nthreads (g_H s)) ->
  if existsb (is_work nthreads) sch then gsteps pt s sch = UB u
  else exists s', gsteps pt s sch = Ok s' /\ g_threads s' = g_threads s.
Proof.
  intros Hn Hp. induction sch as [|e sch IH]; intros s Hs; cbn [existsb gsteps]; [eauto|].
  destruct e as [i|]; cbn [is_work gstep].
  - cbn [init g_threads] in Hs.
    destruct (Z.ltb_spec (Z.of_nat i) nthreads); cbn [orb].
    + rewrite Hs, nth_error_map, (nth_error_nth' _ 0%nat) by (rewrite seq_length; lia). rewrite seq_nth by lia. cbn [option_map Nat.add].
      unfold thread_step, init_thread. cbn [t_pc t_n t_stop].
      assert (part_start (Z.of_nat i) No nthreads < part_stop (Z.of_nat i) No nthreads /\ 0 <= part_start (Z.of_nat i) No nthreads /\
        part_stop (Z.of_nat i) No nthreads <= No) as (A & B & C).
      { unfold part_start, part_stop. split; [|split].
        - apply Z.div_lt_upper_bound; [lia|]. pose proof (Z.mul_div_le ((Z.of_nat i + 1) * No) nthreads ltac:(lia)).
          pose proof (Z.mod_pos_bound ((Z.of_nat i + 1) * No) nthreads ltac:(lia)).
          pose proof (Z.div_mod ((Z.of_nat i + 1) * No) nthreads ltac:(lia)). nia.
        - apply Z.div_pos; nia.
        - apply Z.div_le_upper_bound; nia. }
      replace (_ <? _) with true by lia. rewrite Hp by lia. reflexivity.
    + replace (nth_error (g_threads s) i) with (@None thread).
      2:{ symmetry. apply nth_error_None. rewrite Hs, map_length, seq_length. lia. }
      cbn [bind]. apply IH. exact Hs.
  - cbn [orb bind]. specialize (IH {| g_H := g_H s; g_running := false; g_threads := g_threads s |} Hs).
    destruct (existsb _ sch); [exact IH|]. destruct IH as (s' & E & T). eauto.
Qed.
Lemma das_call_dead {N : Num} K (J : das_job N) nthreads sch Im0 u : 1 <= nthreads <= d_No J ->
  (forall n, 0 <= n < d_No J -> das_value K J n = UB u) ->
  das_call K J nthreads sch Im0 = if existsb (is_work nthreads) sch then UB u else Ok None.
Proof.
  intros Hn Hv. unfold das_call.
  pose proof (gsteps_dead (das_point K J) u (d_No J) nthreads Hn) as X.
  specialize (X (fun n H Hn' => ltac:(unfold das_point; rewrite (Hv n Hn'); reflexivity)) sch (init (d_No J) nthreads Im0) eq_refl).
  destruct (existsb _ sch).
  - rewrite X. reflexivity.
  - destruct X as (s' & E & T). rewrite E. cbn [bind].
    assert (Ed : all_done s' = false); [|rewrite Ed; reflexivity].
    unfold all_done. rewrite T. cbn [init g_threads]. replace (Z.to_nat nthreads) with (S (Z.to_nat (nthreads - 1))) by lia.
    reflexivity.
Qed.

Definition no_delay {N : Num} (c : dcall (N:=N)) : dcall (N:=N) :=
  let J := c_job c in
  {| c_job := {| d_type := d_type J; d_len := d_len J; d_No := d_No J; d_num_t := d_num_t J; d_num_r := d_num_r J;
       d_Y := d_Y J; d_Ro := d_Ro J; d_Gt := d_Gt J; d_Gr := d_Gr J; d_dt := d_dt J;
       d_delay_type := d_delay_type J; d_delay := []; d_cp := d_cp J; d_lvl := d_lvl J |}; c_gpu := c_gpu c |}.
Definition no_delay_p {N : Num} (p : dparse (N:=N)) : dparse (N:=N) :=
  match p with PCall c => PCall (no_delay c) | _ => p end.

Lemma rmap_dreq {N : Num} b (k : res (dparse (N:=N))) : rmap no_delay_p (dreq b k) = dreq b (rmap no_delay_p k).
Proof. destruct b; reflexivity. Qed.
Lemma rmap_bind {A B C} (g : B -> C) (m : res A) (f : A -> res B) : rmap g (bind m f) = bind m (fun a => rmap g (f a)).
Proof. destruct m; reflexivity. Qed.
Lemma bind_eq {A B} (m : res A) (f g : A -> res B) : (forall a, f a = g a) -> bind m f = bind m g.
Proof. intros H. destruct m; cbn; auto. Qed.

Lemma parse_temp {N : Num} nlhs (a0 a1 a2 a3 a4 a6 a7 : darg N) d opts :
  parse_das Octave nlhs ([a0; a1; a2; a3; a4; dmat Temp 1 1 [d]; a6; a7] ++ opts)%list =
  rmap no_delay_p (parse_das Octave nlhs ([a0; a1; a2; a3; a4; dmat Full 1 1 [d]; a6; a7] ++ opts)%list).
Proof.
  unfold parse_das, parse_das_om. cbn [app length darg_at nth_error bind].
  set (len := Z.of_nat _). clearbody len.
  rewrite !rmap_dreq. f_equal. f_equal.
  destruct (is_single a0).
  { rewrite rmap_dreq. reflexivity. }
  change (is_double (dmat (N:=N) Temp 1 1 [d])) with true. change (is_double (dmat (N:=N) Full 1 1 [d])) with true.
  rewrite !rmap_dreq. do 5 f_equal. rewrite rmap_bind. apply bind_eq. intros dt. rewrite !rmap_dreq.
  change (check_delay (g_val (dmat (N:=N) Temp 1 1 [d]))) with (check_delay (g_val (dmat (N:=N) Full 1 1 [d]))). do 2 f_equal.
  rewrite rmap_bind. apply bind_eq. intros cp. unfold dthen.
  destruct (goes_on Octave (parse_das_arg Octave (g_val a7))); [|reflexivity].
  destruct (9 <=? len).
  - rewrite rmap_bind. apply bind_eq. intros a8. destruct (goes_on Octave (parse_error_arg Octave (g_val a8))); [|reflexivity].
    rewrite rmap_bind. apply bind_eq. intros dev. rewrite rmap_dreq. f_equal. rewrite rmap_bind. apply bind_eq. intros verb. rewrite rmap_dreq. reflexivity.
  - rewrite rmap_bind. apply bind_eq. intros dev. rewrite rmap_dreq. f_equal. rewrite rmap_bind. apply bind_eq. intros verb. rewrite rmap_dreq. reflexivity.
Qed.

(** Octave, any documented call whose delay is an ordinary scalar: as soon as a
    worker takes its first step, freed memory is read.  So no such call is
    ever answered, for any data, method, level, device setting (CPU), number
    of workers and schedule. *)
Theorem C66_scalar_delay_refuted : forall (N : Num) opencl nlhs hw env sch (junk : list N) old (J : das_job N) ny a0 a1 a2 a3 a4 d a6 a7 opts,
  das_args Octave opencl J ny ([a0; a1; a2; a3; a4; dmat Full 1 1 [d]; a6; a7] ++ opts) ->
  das_wf J -> 1 <= d_No J -> 0 <= nlhs <= 2 -> 0 <= hw ->
  seen (das_gateway Octave opencl nlhs hw env sch junk old ([a0; a1; a2; a3; a4; dmat Temp 1 1 [d]; a6; a7] ++ opts)) =
  if existsb (is_work (num_threads hw env (d_No J))) sch then UB UB_oob_read else Ok None.
Proof.
  intros N opencl nlhs hw env sch junk old J ny a0 a1 a2 a3 a4 d a6 a7 opts D W HNo Hn Hhw.
  destruct (parse_das_doc Octave opencl nlhs J ny _ D Hn) as (c & Ep & Ec & Eg).
  assert (Hs : d_delay_type J = delay_single).
  { destruct D as (s & nr & st4 & st6 & sd & md & nd & o & Ea & _ & _ & _ & _ & _ & _ & Hty & _). injection Ea as _ _ _ _ _ _ <- <- _ _ _ _. rewrite Hty. reflexivity. }
  pose proof (parse_temp nlhs a0 a1 a2 a3 a4 a6 a7 d opts) as Et. rewrite Ep in Et. cbn [rmap no_delay_p] in Et.
  unfold das_gateway. rewrite Et. cbn [bind rmap no_delay_p]. unfold run_das.
  change (c_gpu (no_delay c)) with (c_gpu c). rewrite Eg, with_object_new.
  assert (Q : d_No (c_job (no_delay c)) = d_No J) by (cbn; now rewrite Ec). rewrite Q.
  destruct (num_threads_ok hw env (d_No J)) as (N1 & N2 & _); [lia..|]. specialize (N2 HNo).
  rewrite (das_call_dead (idx_of Octave) (c_job (no_delay c)) (num_threads hw env (d_No J)) sch _ UB_oob_read).
  - destruct (existsb _ sch); reflexivity.
  - rewrite Q. lia.
  - rewrite Q. intros n Hnn. unfold das_value. cbn [no_delay c_job d_Ro d_No d_delay_type d_delay]. rewrite Ec, Hs.
    pose proof (dw_Ro J W) as HR.
    assert (X : forall k, 0 <= k < 3 * d_No J -> exists x, buf_get (d_Ro J) k = Ok x).
    { intros k Hk. destruct (buf_get_ok (d_Ro J) k ltac:(lia)) as (x & _ & E). eauto. }
    destruct (X n) as (x & ->); [lia|]. destruct (X (n + 1 * d_No J)) as (y & ->); [lia|].
    destruct (X (n + 2 * d_No J)) as (z & ->); [lia|]. reflexivity.
Qed.
Print Assumptions C66_scalar_delay_refuted.
(** A fair schedule of a call with image points contains such a step. *)
Lemma fair_works No nthreads sch : 1 <= nthreads <= No ->
  (forall i, 0 <= i < nthreads -> 3 * (part_stop i No nthreads - part_start i No nthreads) + 1 <= steps_of (Z.to_nat i) sch) ->
  existsb (is_work nthreads) sch = true.
Proof.
  intros Hn H. specialize (H 0 ltac:(lia)).
  assert (A : 0 <= part_stop 0 No nthreads - part_start 0 No nthreads).
  { unfold part_start, part_stop. rewrite Z.mul_0_l, Z.div_0_l by lia. pose proof (Z.div_pos ((0 + 1) * No) nthreads). lia. }
  apply not_false_is_true. intros F.
  assert (Z : steps_of (Z.to_nat 0) sch = 0); [|lia].
  clear H A. induction sch as [|e sch IH]; [reflexivity|]. cbn [existsb] in F. apply orb_false_iff in F as [F1 F2]. specialize (IH F2).
  unfold steps_of in *. cbn [filter]. destruct e as [i|]; cbn [is_work] in F1; [|exact IH].
  replace (Nat.eqb (Z.to_nat 0) i) with false by lia. exact IH.
Qed.

(** A concrete call: one element, one image point, SAFT (hypotheses met). *)
Definition ex_saft_job (N : Num) (d : N) : das_job N :=
  {| d_type := das_saft; d_len := 2; d_No := 1; d_num_t := 1; d_num_r := 0; d_Y := [nofZ 1; nofZ 1];
     d_Ro := [nofZ 0; nofZ 0; nofZ 1]; d_Gt := [nofZ 0; nofZ 0; nofZ 0]; d_Gr := []; d_dt := nofZ 1;
     d_delay_type := delay_single; d_delay := [d]; d_cp := nofZ 1000; d_lvl := lvl_stop |}.
Example C66_ex : forall (N : Num) opencl (d : N),
  das_args Octave opencl (ex_saft_job N d) 1
    ([dmat Full 2 1 [nofZ 1; nofZ 1]; dmat Full 1 3 [nofZ 0; nofZ 0; nofZ 0]; dmat Full 0 0 []; dmat Full 1 3 [nofZ 0; nofZ 0; nofZ 1];
      dmat Temp 1 1 [nofZ 1]; dmat Full 1 1 [d]; dmat Temp 1 1 [nofZ 1000]; dtext "saft"] ++ []) /\
  das_wf (ex_saft_job N d) /\
  seen (das_gateway Octave opencl 1 4 None [Run 0] [] None
    ([dmat Full 2 1 [nofZ 1; nofZ 1]; dmat Full 1 3 [nofZ 0; nofZ 0; nofZ 0]; dmat Full 0 0 []; dmat Full 1 3 [nofZ 0; nofZ 0; nofZ 1];
      dmat Temp 1 1 [nofZ 1]; dmat Temp 1 1 [d]; dmat Temp 1 1 [nofZ 1000]; dtext "saft"] ++ [])) = UB UB_oob_read.
Proof.
  intros N opencl d.
  assert (D : das_args Octave opencl (ex_saft_job N d) 1
    ([dmat Full 2 1 [nofZ 1; nofZ 1]; dmat Full 1 3 [nofZ 0; nofZ 0; nofZ 0]; dmat Full 0 0 []; dmat Full 1 3 [nofZ 0; nofZ 0; nofZ 1];
      dmat Temp 1 1 [nofZ 1]; dmat Full 1 1 [d]; dmat Temp 1 1 [nofZ 1000]; dtext "saft"] ++ [])).
  { exists "saft", 0, Temp, Temp, Full, 1, 1, []. split; [reflexivity|]. split; [cbn; auto|]. split; [left; auto|].
    split; [right; auto|]. repeat split. left; reflexivity. }
  assert (W : das_wf (ex_saft_job N d)) by (split; cbn; lia).
  split; [exact D|]. split; [exact W|].
  rewrite (C66_scalar_delay_refuted N opencl 1 4 None [Run 0] [] None _ _ _ _ _ _ _ _ _ _ _ D W); try (cbn; lia). reflexivity.
Qed.

(** ** C67: the compute device *)

(** Octave and MATLAB, all eleven arguments: the device string has no effect. *)
Theorem C67_device_ignored_refuted : forall (N : Num) fe opencl nlhs hw env sch (junk : list N) old args dev dev' v,
  fe = Octave \/ fe = Matlab -> length args = 9%nat ->
  das_gateway fe opencl nlhs hw env sch junk old (args ++ [dev; v]) =
  das_gateway fe opencl nlhs hw env sch junk old (args ++ [dev'; v]).
Proof.
  intros N fe opencl nlhs hw env sch junk old args dev dev' v Hf HL.
  do 9 (destruct args as [|? args]; [discriminate HL|]). destruct args; [|discriminate HL].
  unfold das_gateway. apply (f_equal (fun r => bind r _)). destruct Hf as [-> | ->]; reflexivity.
Qed.
Print Assumptions C67_device_ignored_refuted.

(** Python and Julia: 'gpu' is refused whatever the other arguments, and every
    other string means the CPU. *)
Theorem C67_gpu_refused_refuted : forall (N : Num) fe nlhs args v c,
  fe = Python \/ fe = Julia -> length args = 9%nat ->
  parse_das (N:=N) fe nlhs (args ++ [dtext "gpu"; v]) <> Ok (PCall c).
Proof.
  intros N fe nlhs args v c Hf HL E.
  do 9 (destruct args as [|? args]; [discriminate HL|]). destruct args; [|discriminate HL].
  destruct Hf as [-> | ->]; unfold parse_das, parse_das_pj in E; apply dreq_call in E as (_ & E); apply bind_Ok_inv in E as (a0 & _ & E);
    apply bind_Ok_inv in E as (a1 & _ & E); apply dreq_call in E as (_ & E); apply bind_Ok_inv in E as (a7 & _ & E);
    apply dthen_call in E as (_ & E); cbv beta zeta in E;
    (destruct (p_val _); [|apply bind_Ok_inv in E as (a2 & _ & E); apply dreq_call in E as (_ & E)..]);
    apply bind_Ok_inv in E as (a3 & _ & E); apply dreq_call in E as (_ & E);
    apply bind_Ok_inv in E as (a5 & _ & E); apply dreq_call in E as (_ & E);
    apply bind_Ok_inv in E as (a4 & _ & E); apply bind_Ok_inv in E as (dt & _ & E); apply bind_Ok_inv in E as (a6 & _ & E);
    apply bind_Ok_inv in E as (cp & _ & E); apply bind_Ok_inv in E as (a8 & _ & E); apply dthen_call in E as (_ & E); discriminate E.
Qed.
Print Assumptions C67_gpu_refused_refuted.
Theorem C67_cpu_partial : forall (N : Num) fe nlhs args s v,
  fe = Python \/ fe = Julia -> length args = 9%nat -> s <> "gpu" ->
  parse_das (N:=N) fe nlhs (args ++ [dtext s; v]) = parse_das fe nlhs (args ++ [dtext "cpu"; v]).
Proof.
  intros N fe nlhs args s v Hf HL Hs.
  do 9 (destruct args as [|? args]; [discriminate HL|]). destruct args; [|discriminate HL].
  assert (E1 : String.eqb s "gpu" = false) by (now apply String.eqb_neq).
  destruct Hf as [-> | ->]; unfold parse_das, parse_das_pj; cbn [app length darg_at nth_error bind dtext g_val str_of get_string_arg dnum]; rewrite E1, andb_false_r; reflexivity.
Qed.
Print Assumptions C67_cpu_partial.

(** Octave and MATLAB with exactly ten arguments, OpenCL build: 'gpu' runs the
    kernels on the user's job and the user gets their image (C40 says what
    they compute), every other string runs on the CPU. *)
Theorem C67_ten_arguments_partial : forall (N : Num) fe opencl nlhs hw env sch (junk : list N) old (J : das_job N) ny args l s,
  fe = Octave \/ fe = Matlab ->
  das_args fe opencl J ny (args ++ [dtext l; dtext "cpu"]) -> length args = 8%nat -> 0 <= nlhs <= 2 -> printable fe s ->
  seen (das_gateway fe opencl nlhs hw env sch junk old (args ++ [dtext l; dtext s])) =
  if opencl && String.eqb s "gpu" then
    do _ <- buf_get (d_delay J) 0;
    do Im <- cl_das J (alloc junk (Z.to_nat (d_No J)));
    Ok (Some (DReturned Im false (if nlhs =? 2 then Some err_none else None)))
  else seen (das_gateway fe opencl nlhs hw env sch junk old (args ++ [dtext l; dtext "cpu"])).
Proof.
  intros N fe opencl nlhs hw env sch junk old J ny args l s Hf D HL Hn Hs.
  destruct (parse_das_doc fe opencl nlhs J ny _ D Hn) as (c & Ep & Ec & Eg).
  assert (HJ : d_type J = das_saft -> d_num_r J = 0).
  { destruct D as (? & ? & ? & ? & ? & ? & ? & ? & _ & _ & _ & _ & H & _). exact H. }
  assert (Es : String.eqb (get_string_arg fe s) "gpu" = String.eqb s "gpu").
  { destruct (string_arg_id fe s Hs) as [-> | [-> Hl]]; [reflexivity|]. symmetry. apply String.eqb_neq. intros ->. cbn in Hl. lia. }
  assert (Q : parse_das fe nlhs (args ++ [dtext l; dtext s])%list = Ok (PCall {| c_job := J; c_gpu := String.eqb s "gpu" |})).
  { clear D. do 8 (destruct args as [|? args]; [discriminate HL|]). destruct args; [|discriminate HL].
    revert Ep. destruct Hf as [-> | ->]; unfold parse_das, parse_das_om; cbn [app length darg_at nth_error bind];
    change (Z.of_nat 10 =? 10) with true; change (Z.of_nat 10 =? 11) with false; change (9 <=? Z.of_nat 10) with true;
    cbv beta zeta; intros Ep;
    apply dreq_call in Ep as (B1 & Ep); apply dreq_call in Ep as (B2 & Ep); rewrite B1, B2; unfold dreq at 1 2;
    (destruct (is_single d); [apply dreq_call in Ep as (_ & Ep); discriminate Ep|]);
    (apply dreq_call in Ep as (B3 & Ep); rewrite B3; unfold dreq at 1); (apply dreq_call in Ep as (B4 & Ep); rewrite B4; unfold dreq at 1);
    (apply dreq_call in Ep as (B5 & Ep); rewrite B5; unfold dreq at 1); (apply dreq_call in Ep as (B6 & Ep); rewrite B6; unfold dreq at 1);
    (apply dreq_call in Ep as (B7 & Ep); rewrite B7; unfold dreq at 1);
    (apply bind_Ok_inv in Ep as (dt & B8 & Ep); rewrite B8; cbn [bind]);
    (apply dreq_call in Ep as (B9 & Ep); rewrite B9; unfold dreq at 1); (apply dreq_call in Ep as (B10 & Ep); rewrite B10; unfold dreq at 1);
    (apply bind_Ok_inv in Ep as (cp & B11 & Ep); rewrite B11; cbn [bind]);
    (apply dthen_call in Ep as (B12 & Ep); unfold dthen at 1; rewrite B12);
    (apply dthen_call in Ep as (B13 & Ep); unfold dthen at 1; rewrite B13);
    cbn [bind dtext g_val is_string] in Ep |- *; unfold dreq in Ep |- *; injection Ep as <-; cbn [str_of]; rewrite Es, <- Ec; reflexivity. }
  destruct (opencl && String.eqb s "gpu") eqn:Eo.
  - apply andb_true_iff in Eo as [-> Eo]. unfold das_gateway. rewrite Q. cbn [bind]. unfold run_das. cbn [c_job c_gpu]. rewrite Eo. cbn [andb].
    pose proof (object_fields true old (d_type J) (d_len J) (d_No J) (d_num_t J) (d_num_r J) true) as (A1 & A2 & A3 & A4).
    assert (A5 : o_num_r (das_object true old (d_type J) (d_len J) (d_No J) (d_num_t J) (d_num_r J) true) = d_num_r J).
    { assert (New : o_num_r (das_new true (d_type J) (d_len J) (d_No J) (d_num_t J) (d_num_r J) true) = d_num_r J).
      { cbn. destruct (DASType_eqb (d_type J) das_saft) eqn:Et; [|reflexivity]. symmetry. apply HJ. destruct (d_type J); congruence || discriminate. }
      unfold das_object. destruct old as [o|]; [|exact New].
      destruct (das_setup_has_changed o (d_type J) (d_len J) (d_No J) (d_num_t J) (d_num_r J) true) eqn:E; [exact New|].
      unfold das_setup_has_changed in E. rewrite !orb_false_iff, !negb_false_iff, !Z.eqb_eq in E. intuition. }
    assert (EJ : with_object (das_object true old (d_type J) (d_len J) (d_No J) (d_num_t J) (d_num_r J) true) J = J).
    { unfold with_object. rewrite A1, A2, A3, A4, A5. destruct J; reflexivity. }
    rewrite EJ. unfold seen. destruct (buf_get (d_delay J) 0); try reflexivity. cbn [bind].
    destruct (cl_das J _); try reflexivity. cbn [bind]. destruct Hf as [-> | ->]; reflexivity.
  - unfold das_gateway. rewrite Q, Ep. cbn [bind]. unfold run_das. cbn [c_job c_gpu]. rewrite Ec, Eo, Eg. reflexivity.
Qed.
Print Assumptions C67_ten_arguments_partial.
