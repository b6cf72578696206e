(** PropCgw3.v - property theorems about complete calls of the convolution
    functions: memory safety (C56), the output being an input (C57), CTRL-C
    (C58). *)
From Coq Require Strings.String Strings.Ascii.
Import Coq.Strings.String.StringSyntax.
From Coq Require Import Reals Lra.
From Verif Require Import Base BaseLemmas ModelSir ModelArr ModelSmp ModelConv NumR SpecDft SpecSir SpecSmp SpecConv
  ProofsLoop ProofsSmp ProofsSmp2 ProofsDft ProofsConv ProofsConvR ProofsCols ProofsOla PropConv ModelGw ProofsGw SpecGwR ModelCgw SpecCgw
  ProofsCgw ProofsCgw2 PropCgw2 ProofsCgw3 ProofsR.
From Coq Require Import ZifyBool ZifyNat.
Ltac Zify.zify_post_hook ::= Z.div_mod_to_equations.
Local Open Scope string_scope.
Open Scope Z_scope.

Local Ltac by_vm := match goal with |- @eq ?A ?x ?y => vm_cast_no_check (@eq_refl A y) end.

(** ** C56: memory safety *)

(** A full matrix of consistent size (any arithmetic). *)
Definition full {N : Num} (v : value N) : Prop := exists m n d, v = VNum Full m n d /\ 0 <= m /\ 0 <= n /\ Z.of_nat (length d) = m * n.

(** conv_p: full matrices A, B (and Y) of any sizes, also empty, any further
    argument, any schedule: the call returns - a result or a refusal - without
    an access outside the matrices (Octave: unless the result is a new 1 x 1
    matrix, see C55_scalar_refuted). *)
Theorem C56_conv_p_partial : forall (N : Num) (mc : machine N) fe nlhs va vb rest,
  0 <= mc_hw mc -> mc_ax mc = false -> mc_ay mc = false ->
  full va -> full vb -> (forall vy rest', rest = vy :: rest' -> full vy) ->
  (fe = Octave -> rest = [] -> ~ (get_n va = 1 /\ get_m va + get_m vb * get_n vb - 1 = 1)) ->
  exists out, conv_gateway mc fe KConv nlhs (va :: vb :: rest) = Ok out.
Proof.
  intros N mc fe nlhs va vb rest Hhw Hax Hay (am & an & A & -> & Ha1 & Ha2 & LA) (bm & bn & B & -> & Hb1 & Hb2 & LB) Hy H11. cbn [get_m get_n] in H11.
  unfold conv_gateway. destruct (has_fun fe KConv); cbn [negb]; [|eauto].
  destruct (parse_cargs _ fe KConv nlhs _) as [m|] eqn:Hp; [|eauto]. cbn [arg nth_error bind].
  assert (Hd : forall fe st m n (d : list N), gw_data fe (VNum st m n d) = Ok d) by (intros []; reflexivity). rewrite !Hd. cbn [bind get_m cols_of get_n].
  destruct (check_B an bm bn) as [[BM BN]|] eqn:Hc; [|eauto]. cbn [block_arg bind].
  destruct (am + BM - 1 <? 0) eqn:Er; [eauto|]. set (rows := am + BM - 1) in *.
  assert (HY : (exists Y, out_array fe KConv m rows an (mc_junk mc) (VNum Full am an A :: VNum Full bm bn B :: rest) = Ok (Some Y) /\ length Y = Z.to_nat (an * rows)) \/
               out_array fe KConv m rows an (mc_junk mc) (VNum Full am an A :: VNum Full bm bn B :: rest) = Ok None).
  { unfold out_array. destruct (c_inplace m) eqn:Ei.
    - cbn [y_pos]. destruct rest as [|vy rest'].
      { exfalso. destruct fe; cbn in Hp; try (destruct (nlhs <=? 1)); try discriminate; injection Hp as <-; discriminate. }
      destruct (Hy vy rest' eq_refl) as (ym & yn & y & -> & Hy1 & Hy2 & Ly). cbn [arg nth_error bind get_m get_n].
      destruct (negb (ym =? rows) || negb (yn =? an)) eqn:E; [now right|]. left. exists y. split; [destruct fe; reflexivity|]. 
      assert (ym = rows /\ yn = an) as [-> ->] by lia. lia.
    - left. assert (L : length (alloc (mc_junk mc) (Z.to_nat (rows * an))) = Z.to_nat (an * rows)) by (rewrite alloc_length; f_equal; lia).
      assert (E11 : fe = Octave -> (rows * an =? 1) = false).
      { intros ->. assert (Er' : rest = []).
        { destruct rest as [|v1 [|v2 [|v3 rest]]]; auto; exfalso; cbn [parse_cargs parse_conv] in Hp.
          - destruct (0 <? nlhs); [discriminate|]. injection Hp as <-. discriminate.
          - destruct (is_string v2); [destruct (mode_of_string _)|]; try discriminate; injection Hp as <-; discriminate.
          - discriminate. }
        specialize (H11 eq_refl Er'). apply Z.eqb_neq. intros X. apply H11.
        assert (rows = 1) by (apply Z.eq_mul_1_nonneg with an; lia). assert (an = 1) by nia. subst an.
        unfold check_B in Hc. destruct (negb (bm =? 1) && negb (bn =? 1) && negb (bn =? 1)) eqn:E1; [discriminate|].
        destruct ((bm =? 1) || (bn =? 1)) eqn:E2; injection Hc as <- <-; lia. }
      destruct fe; [rewrite E11 by reflexivity|..]; eexists; (split; [reflexivity|]); auto. rewrite repeat_length. f_equal. lia. }
  destruct HY as [(Y & -> & LY)| ->]; cbn [bind]; [|eauto].
  rewrite Hax, Hay, !andb_false_r.
  destruct (num_threads_ok (mc_hw mc) (mc_env mc) an Hhw Ha2) as (Hth & _).
  destruct (conv_any_size A B am an bm bn BM BN (c_mode m) (num_threads (mc_hw mc) (mc_env mc) an) (mc_sch mc) Y) as (r & ->); auto; try lia.
  cbn [bind]. destruct r as [[? ?]|]; eauto.
Qed.
Print Assumptions C56_conv_p_partial.

(** Refuted for fftconv_p: operands with columns but no rows are accepted; the
    other operand is copied into scratch arrays one element too short.  No
    call gets to its end, and an uninterrupted one makes the bad access. *)
Theorem C56_refuted_fftconv_empty : forall (N : Num) (mc : machine N) fe nlhs am an (a : list N) bm bn b BM BN,
  0 <= mc_hw mc -> 0 <= nlhs <= 2 -> 1 <= an ->
  check_B an bm bn = Some (BM, BN) -> (am = 0 /\ 1 <= BM) \/ (1 <= am /\ BM = 0) ->
  (forall n, scratch_ok (am + BM - 1) (mc_scr mc n)) ->
  let c := conv_gateway mc fe KFft nlhs [VNum Full am an a; VNum Full bm bn b] in
  (no_ctrlc (mc_sch mc) -> forall r k Y, c <> Ok (Some (CReturned r k Y))) /\
  (runs_to_end (mc_hw mc) (mc_env mc) an (mc_sch mc) -> exists u, c = UB u \/ c = Diverge).
Proof.
  intros N mc fe nlhs am an a bm bn b BM BN Hhw Hn Han Hc He Hs c. assert (Hh : has_fun fe KFft = true) by (destruct fe; reflexivity).
  assert (Ec : c = do y <- out_array fe KFft normal (am + BM - 1) an (mc_junk mc) [VNum Full am an a; VNum Full bm bn b];
    match y with
    | None => Ok (Some CRejected)
    | Some Y =>
      do r <- cols_call (fftconv_point (mc_plan mc (am + BM - 1)) {| m_A := a; m_AM := am; m_AN := an; m_B := b; m_BM := BM; m_BN := BN |} cm_equ (mc_scr mc))
        an (num_threads (mc_hw mc) (mc_env mc) an) (mc_sch mc) Y;
      match r with
      | None => Ok None
      | Some (Y', running) => Ok (Some (finish_call fe KFft normal (am + BM - 1) an Y' running))
      end
    end).
  { unfold c, conv_gateway. rewrite Hh. cbn [negb].
    assert (Hp : parse_cargs (mc_import mc) fe KFft nlhs [VNum Full am an a; VNum Full bm bn b] = Some normal).
    { destruct fe; cbn [parse_cargs]; unfold parse_fft; try (replace (2 <? nlhs) with false by lia); reflexivity. }
    rewrite Hp. cbn [arg nth_error bind].
    assert (Hd : forall fe st m n (d : list N), gw_data fe (VNum st m n d) = Ok d) by (intros []; reflexivity). rewrite !Hd. cbn [bind get_m cols_of get_n].
    rewrite Hc. cbn [block_arg bind]. replace (am + BM - 1 <? 0) with false by lia. reflexivity. }
  assert (HY : (exists Y, out_array fe KFft normal (am + BM - 1) an (mc_junk mc) [VNum Full am an a; VNum Full bm bn b] = Ok (Some Y)) \/
               out_array fe KFft normal (am + BM - 1) an (mc_junk mc) [VNum Full am an a; VNum Full bm bn b] = UB UB_oob_write).
  { unfold out_array. cbn [normal c_inplace]. destruct fe; eauto. rewrite sir_clear_alloc by lia. cbn [bind].
    destruct ((am + BM - 1) * an =? 1); eauto. }
  destruct HY as [(Y & HY)|HY]; [|rewrite HY in Ec; cbn [bind] in Ec; rewrite Ec; split; [discriminate|eauto]]. rewrite HY in Ec. cbn [bind] in Ec. rewrite Ec. clear Ec c.
  destruct (num_threads_ok (mc_hw mc) (mc_env mc) an Hhw ltac:(lia)) as (Hth & _).
  destruct (gen_bad (fftconv_point (mc_plan mc (am + BM - 1)) {| m_A := a; m_AM := am; m_AN := an; m_B := b; m_BM := BM; m_BN := BN |} cm_equ (mc_scr mc))
      an (num_threads (mc_hw mc) (mc_env mc) an) 0 (fftconv_point_none _ _ _ _)) with (Y0 := Y) (sch := mc_sch mc) as (_ & G); auto; try lia.
  { intros Y1 s. apply fftconv_point_empty; auto. }
  split.
  - intros Hcc r k Y'. destruct (G Hcc) as (G1 & _).
    destruct (cols_call _ _ _ _ _) as [[[Y1 r1]|]|?|]; cbn [bind]; try discriminate. exfalso. exact (G1 Y1 r1 eq_refl).
  - intros [Hcc Hf]. destruct (G Hcc) as (_ & G2). specialize (G2 Hf).
    destruct (cols_call _ _ _ _ _) as [x|u|]; cbn [bind].
    + destruct (G2 x eq_refl).
    + exists u. now left.
    + exists UB_cast. now right.
Qed.
Print Assumptions C56_refuted_fftconv_empty.

(** Refuted for in-place calls in Octave: an output that is not held as a full
    matrix of doubles (a scalar, a range, a single matrix) is written after it
    was freed. *)
Theorem C56_refuted_octave_output : forall mc f va vb s mode am an a bm bn b y,
  f <> KOla -> documented_mode s mode -> operand va am an a -> operand vb bm bn b -> conformable am an bm bn ->
  conv_gateway mc Octave f 0 [va; vb; VNum Temp (am + b_rows bm bn - 1) an y; VStr s] = UB UB_oob_write.
Proof.
  intros mc f va vb s mode am an a bm bn b y Hf Hs Ha Hb Hc.
  pose proof (b_rows_pos _ _ _ _ Hc) as Hbr. pose proof Hc as (H1 & H2 & _).
  assert (Hh : has_fun Octave f = true) by (destruct f; reflexivity).
  set (vy := VNum Temp (am + b_rows bm bn - 1) an y : value EN).
  assert (Hp : parse_cargs (mc_import mc) Octave f 0 [va; vb; vy; VStr s] = Some {| c_mode := mode; c_inplace := true |}).
  { apply mode_of_string_doc in Hs. destruct f; try congruence; cbn [parse_cargs parse_conv is_string str_of conv_str];
      unfold parse_fft; change (2 <? 0) with false; cbn [is_string str_of conv_str]; rewrite Hs; reflexivity. }
  rewrite (conv_gw_unfold mc Octave f 0 va vb [vy; VStr s] am an a bm bn b _ Hh Hf Hp Ha Hb Hc).
  unfold out_array. cbn [c_inplace]. replace (y_pos f) with 2%nat by (destruct f; [reflexivity|reflexivity|congruence]).
  cbn [arg nth_error bind vy get_m get_n]. rewrite !Z.eqb_refl. cbn [negb orb].
  replace ((am + b_rows bm bn - 1) * an =? 0) with false by nia. reflexivity.
Qed.
Print Assumptions C56_refuted_octave_output.

Example C56_ex : exists out, conv_gateway (N:=EN) (ex_mc (round_robin 4 2)) Octave KConv 1 [mat 0 2 []; mat 3 1 [1; 2; 3]%R] = Ok out.
Proof.
  apply C56_conv_p_partial; auto; try (cbn; lia).
  - exists 0, 2, []. split; [reflexivity|]. cbn. lia.
  - exists 3, 1, (exact [1; 2; 3]%R). split; [reflexivity|]. cbn. lia.
  - discriminate.
Qed.

(** ** C57: the output is the input A *)

(** One column of the aliased call. *)
Lemma alias_conv_col mode am an (b : R) n (Y : list EN) : 1 <= am -> 0 <= n < an -> length Y = Z.to_nat (an * am) ->
  exists Y', conv_mem_point (N:=EN) true false {| m_A := []; m_AM := am; m_AN := an; m_B := exact [b]; m_BM := 1; m_BN := 1 |} mode n Y = Ok (Y', err_none) /\
    length Y' = length Y /\
    forall j, nth j Y' (nofZ (n:=EN) 0) =
      if ((Z.to_nat (n * am) <=? j) && (j <? Z.to_nat (n * am) + Z.to_nat am))%nat
      then (match mode with
            | cm_equ => nadd (n:=EN) (Some 0%R) (nmul (n:=EN) (Some 0%R) (Some b))
            | cm_sum => nadd (n:=EN) (nth j Y (nofZ (n:=EN) 0)) (nmul (n:=EN) (nth j Y (nofZ (n:=EN) 0)) (Some b))
            | cm_neg => nsub (n:=EN) (nth j Y (nofZ (n:=EN) 0)) (nmul (n:=EN) (nth j Y (nofZ (n:=EN) 0)) (Some b))
            end)
      else nth j Y (nofZ (n:=EN) 0).
Proof.
  intros Ham Hn LY. unfold conv_mem_point, conv_mem. cbn [m_AM m_BM m_BN m_A m_B]. change (1 <? 1) with false. cbv iota.
  replace (am + 1 - 1) with am by lia.
  set (inr := fun j => ((Z.to_nat (n * am) <=? j) && (j <? Z.to_nat (n * am) + Z.to_nat am))%nat).
  assert (HC : exists z1, (match mode with
             | cm_equ => for_loop am (fun i (z : list EN) => buf_upd z (n * am + i)%Z (fun _ => nofZ (n:=EN) 0)) Y
             | _ => Ok Y end) = Ok z1 /\ length z1 = length Y /\
             forall j, nth j z1 (nofZ (n:=EN) 0) = if inr j then (match mode with cm_equ => nofZ (n:=EN) 0 | _ => nth j Y (nofZ (n:=EN) 0) end) else nth j Y (nofZ (n:=EN) 0)).
  { destruct mode.
    - destruct (for_upd (nofZ (n:=EN) 0) (Z.to_nat (n * am)) am (fun i (z : list EN) => buf_upd z (n * am + i)%Z (fun _ => nofZ (n:=EN) 0)) (fun _ _ => nofZ (n:=EN) 0) Y) as (z1 & E & L & H).
      + nia.
      + intros j h Hj Hh. rewrite buf_upd_ok by nia. do 2 f_equal. nia.
      + exists z1. split; [exact E|]. split; [exact L|]. exact H.
    - exists Y. split; [reflexivity|]. split; [reflexivity|]. intros j. destruct (inr j); reflexivity.
    - exists Y. split; [reflexivity|]. split; [reflexivity|]. intros j. destruct (inr j); reflexivity. }
  destruct HC as (z1 & -> & L1 & H1). cbn [bind].
  set (op := fun v : EN => match mode with cm_neg => nsub (n:=EN) v (nmul (n:=EN) v (Some b)) | _ => nadd (n:=EN) v (nmul (n:=EN) v (Some b)) end).
  destruct (for_upd (nofZ (n:=EN) 0) (Z.to_nat (n * am)) am
     (fun i z => for_loop 1 (fun j z => do xi <- buf_get z (n * am + i)%Z; do yj <- buf_get (exact [b]) (0 + j)%Z;
        buf_upd z (n * am + (i + j))%Z (fun v => match mode with cm_neg => nsub (n:=EN) v (nmul (n:=EN) xi yj) | _ => nadd (n:=EN) v (nmul (n:=EN) xi yj) end)) z)
     (fun _ v => op v) z1) as (z' & E & L & H).
  { nia. }
  { intros i h Hi Hh. change (for_loop 1 ?f h) with (bind (f 0 h) (fun s => Ok s)).
    unfold for_loop. change (Z.to_nat 1) with 1%nat. cbn [for_from].
    rewrite (get_nth h (n * am + Z.of_nat i) (nofZ (n:=EN) 0)) by nia. cbn [bind].
    rewrite (get_nth (exact [b]) (0 + 0) (nofZ (n:=EN) 0)) by (cbn; lia). cbn [bind].
    rewrite buf_upd_ok by nia. cbn [bind].
    replace (Z.to_nat (n * am + (Z.of_nat i + 0))) with (Z.to_nat (n * am) + i)%nat by nia.
    replace (Z.to_nat (n * am + Z.of_nat i)) with (Z.to_nat (n * am) + i)%nat by nia.
    change (nth (Z.to_nat (0 + 0)) (exact [b]) (nofZ (n:=EN) 0)) with (Some b).
    apply (f_equal (@Ok (list EN))). 
    apply (nth_ext_len (nofZ (n:=EN) 0)); [now rewrite !length_upd|]. intros k Hk.
    rewrite length_upd in Hk. rewrite !nth_updg by nia.
    destruct (Nat.eqb_spec (Z.to_nat (n * am) + i) k) as [<-|_]; [|reflexivity]. unfold op. destruct mode; reflexivity. }
  change (for_loop am
      (fun i z => for_loop 1 (fun j z0 => do xi <- buf_get (if true then z0 else []) (n * am + i);
         do yj <- buf_get (if false then z0 else exact [b]) (0 + j);
         buf_upd z0 (n * am + (i + j)) (fun v => match mode with cm_neg => nsub (n:=EN) v (nmul (n:=EN) xi yj) | _ => nadd (n:=EN) v (nmul (n:=EN) xi yj) end)) z) z1)
   with (for_loop am
      (fun i z => for_loop 1 (fun j z => do xi <- buf_get z (n * am + i)%Z; do yj <- buf_get (exact [b]) (0 + j)%Z;
        buf_upd z (n * am + (i + j))%Z (fun v => match mode with cm_neg => nsub (n:=EN) v (nmul (n:=EN) xi yj) | _ => nadd (n:=EN) v (nmul (n:=EN) xi yj) end)) z) z1).
  rewrite E. cbn [bind]. exists z'. split; [reflexivity|]. split; [lia|]. intros j. rewrite H. fold (inr j).
  rewrite (H1 j). destruct (inr j); [|reflexivity]. unfold op. destruct mode; reflexivity.
Qed.

Lemma cauchy_scalar x b k : cauchy x [b] k = (nth k x 0 * b)%R.
Proof.
  unfold cauchy. cbn [rsum]. rewrite Nat.sub_diag. cbn [nth].
  assert (E : forall m, (m <= k)%nat -> rsum m (fun i => nth i x 0 * nth (k - i) [b] 0)%R = 0%R).
  { induction m as [|m IH]; intros Hm; [reflexivity|]. cbn [rsum]. rewrite IH by lia.
    replace (k - m)%nat with (S (k - m - 1)) by lia. cbn [nth]. destruct (k - m - 1)%nat; lra. }
  rewrite E by lia. lra.
Qed.
Lemma scalar_ok am an : 1 <= am -> 1 <= an -> conformable am an 1 1 /\ b_rows 1 1 = 1 /\ b_cols 1 1 = 1.
Proof. intros. unfold conformable, b_rows, b_cols. cbn. lia. Qed.

(** The call conv_p(A, b, A, mode) up to the workers. *)
Lemma alias_unfold mc fe f s mode am an a (b : R) :
  fe = Octave \/ fe = Matlab -> f <> KOla -> documented_mode s mode -> mc_ax mc = true -> mc_ay mc = false ->
  1 <= am -> 1 <= an -> has_size am an a ->
  conv_gateway mc fe f 0 [mat am an a; mat 1 1 [b]; mat am an a; VStr s] =
    do r <- cols_call (conv_pt f mc true false am
        {| m_A := exact a; m_AM := am; m_AN := an; m_B := exact [b]; m_BM := 1; m_BN := 1 |} mode)
        an (num_threads (mc_hw mc) (mc_env mc) an) (mc_sch mc) (exact a);
    match r with
    | None => Ok None
    | Some (Y', running) => Ok (Some (finish_call fe f {| c_mode := mode; c_inplace := true |} am an Y' running))
    end.
Proof.
  intros Hfe Hf Hs Hax Hay H1 H2 (_ & _ & La). destruct (scalar_ok am an H1 H2) as (Hc & Eb & Ec).
  assert (Hh : has_fun fe f = true) by (destruct Hfe as [->| ->], f; reflexivity).
  assert (Es : conv_str fe s = s).
  { destruct Hfe as [->| ->]; [reflexivity|]. destruct Hs as [[-> _]|[[-> _]|[-> _]]]; reflexivity. }
  assert (Hp : parse_cargs (mc_import mc) fe f 0 [mat am an a; mat 1 1 [b]; mat am an a; VStr s] = Some {| c_mode := mode; c_inplace := true |}).
  { apply mode_of_string_doc in Hs. destruct Hfe as [->| ->], f; try congruence; cbn [parse_cargs parse_conv parse_fft is_string str_of];
      unfold parse_fft; change (2 <? 0) with false; cbn [is_string str_of]; rewrite Es, Hs; reflexivity. }
  rewrite (conv_gw_unfold mc fe f 0 _ _ _ am an a 1 1 [b] _ Hh Hf Hp (ex_operand am an a La) (ex_operand 1 1 [b] eq_refl) Hc).
  rewrite Eb, Ec. replace (am + 1 - 1) with am by lia.
  unfold out_array. cbn [c_inplace]. replace (y_pos f) with 2%nat by (destruct f; [reflexivity|reflexivity|congruence]).
  cbn [arg nth_error bind mat get_m get_n]. rewrite !Z.eqb_refl. cbn [negb orb].
  destruct Hfe as [->| ->]; cbn [bind c_mode andb]; rewrite Hax, Hay; reflexivity.
Qed.

(** conv_p(A, b, A, '+=') and '-=' give A + b*A and A - b*A. *)
Theorem C57_conv_p_partial : forall mc fe s mode am an a b,
  fe = Octave \/ fe = Matlab -> 0 <= mc_hw mc -> documented_mode s mode -> mode <> cm_equ ->
  mc_ax mc = true -> mc_ay mc = false -> 1 <= am -> 1 <= an -> has_size am an a ->
  runs_to_end (mc_hw mc) (mc_env mc) an (mc_sch mc) ->
  exists Y, conv_gateway mc fe KConv 0 [mat am an a; mat 1 1 [b]; mat am an a; VStr s] = Ok (Some (CInPlace Y)) /\
    matrix_is Y (Z.to_nat am) (Z.to_nat an)
      (fun n k => let v := nth (n * Z.to_nat am + k) a 0%R in combr mode v (v * b)%R).
Proof.
  intros mc fe s mode am an a b Hfe Hhw Hs Hm Hax Hay H1 H2 Ha [Hcc Hfair].
  rewrite (alias_unfold mc fe KConv s mode am an a b) by (auto; discriminate). destruct Ha as (_ & _ & La). cbn [conv_pt].
  destruct (num_threads_ok (mc_hw mc) (mc_env mc) an Hhw ltac:(lia)) as (Hth & _).
  destruct (cols_call_spec (N:=EN) am an (num_threads (mc_hw mc) (mc_env mc) an)
    (conv_mem_point (N:=EN) true false {| m_A := exact a; m_AM := am; m_AN := an; m_B := exact [b]; m_BM := 1; m_BN := 1 |} mode)
    (fun _ _ v => match mode with
            | cm_equ => nadd (n:=EN) (Some 0%R) (nmul (n:=EN) (Some 0%R) (Some b))
            | cm_sum => nadd (n:=EN) v (nmul (n:=EN) v (Some b))
            | cm_neg => nsub (n:=EN) v (nmul (n:=EN) v (Some b))
            end) ltac:(lia) ltac:(lia) Hth
    (fun n Y Hn HY => alias_conv_col mode am an b n Y H1 Hn HY) (exact a)
    ltac:(unfold exact; rewrite map_length; lia) (mc_sch mc)) as (r & Er & Hfa & Hr).
  rewrite Er. cbn [bind]. destruct r as [[Y' running]|]; [|destruct (Hfa Hfair eq_refl)].
  destruct (Hr Y' running eq_refl) as (L & Hrun & Hall & _). specialize (Hrun Hcc). subst running.
  exists Y'. split; [destruct Hfe as [->| ->]; reflexivity|]. apply matrix_from_columns; try lia.
  { rewrite L. unfold exact. rewrite map_length. lia. }
  intros n k Hn' Hk. rewrite (Hall eq_refl n k Hn' Hk).
  replace (Z.to_nat n * Z.to_nat am + k)%nat with (Z.to_nat (n * am) + k)%nat by nia.
  change (exact a) with (reals a). rewrite (nth_reals a (Z.to_nat (n * am) + k)). destruct mode; [congruence|reflexivity|reflexivity].
Qed.
Print Assumptions C57_conv_p_partial.

(** Refuted for '=': conv_p(A, b, A) and conv_p(A, b, A, '=') destroy A: the
    result is cleared before A is read, so A becomes zero. *)
Theorem C57_refuted_conv_p : forall mc fe am an a b,
  fe = Octave \/ fe = Matlab -> 0 <= mc_hw mc -> mc_ax mc = true -> mc_ay mc = false -> 1 <= am -> 1 <= an -> has_size am an a ->
  runs_to_end (mc_hw mc) (mc_env mc) an (mc_sch mc) ->
  exists Y, conv_gateway mc fe KConv 0 [mat am an a; mat 1 1 [b]; mat am an a; VStr "="] = Ok (Some (CInPlace Y)) /\
    matrix_is Y (Z.to_nat am) (Z.to_nat an) (fun _ _ => 0%R).
Proof.
  intros mc fe am an a b Hfe Hhw Hax Hay H1 H2 Ha [Hcc Hfair].
  rewrite (alias_unfold mc fe KConv "=" cm_equ am an a b) by (auto; try discriminate; unfold documented_mode; auto).
  destruct Ha as (_ & _ & La). cbn [conv_pt].
  destruct (num_threads_ok (mc_hw mc) (mc_env mc) an Hhw ltac:(lia)) as (Hth & _).
  destruct (cols_call_spec (N:=EN) am an (num_threads (mc_hw mc) (mc_env mc) an)
    (conv_mem_point (N:=EN) true false {| m_A := exact a; m_AM := am; m_AN := an; m_B := exact [b]; m_BM := 1; m_BN := 1 |} cm_equ)
    (fun _ _ v => nadd (n:=EN) (Some 0%R) (nmul (n:=EN) (Some 0%R) (Some b))) ltac:(lia) ltac:(lia) Hth
    (fun n Y Hn HY => alias_conv_col cm_equ am an b n Y H1 Hn HY) (exact a)
    ltac:(unfold exact; rewrite map_length; lia) (mc_sch mc)) as (r & Er & Hfa & Hr).
  rewrite Er. cbn [bind]. destruct r as [[Y' running]|]; [|destruct (Hfa Hfair eq_refl)].
  destruct (Hr Y' running eq_refl) as (L & Hrun & Hall & _). specialize (Hrun Hcc). subst running.
  exists Y'. split; [destruct Hfe as [->| ->]; reflexivity|]. apply matrix_from_columns; try lia.
  { rewrite L. unfold exact. rewrite map_length. lia. }
  intros n k Hn' Hk. rewrite (Hall eq_refl n k Hn' Hk). cbn. apply f_equal. lra.
Qed.
Print Assumptions C57_refuted_conv_p.

(** fftconv_p reads a column completely before writing it: all modes are
    right. *)
Theorem C57_fftconv_p : forall mc fe s mode am an a b,
  fe = Octave \/ fe = Matlab -> 0 <= mc_hw mc -> documented_mode s mode ->
  mc_ax mc = true -> mc_ay mc = false -> 1 <= am -> 1 <= an -> has_size am an a -> exact_fft mc am ->
  runs_to_end (mc_hw mc) (mc_env mc) an (mc_sch mc) ->
  exists Y, conv_gateway mc fe KFft 0 [mat am an a; mat 1 1 [b]; mat am an a; VStr s] = Ok (Some (CInPlace Y)) /\
    matrix_is Y (Z.to_nat am) (Z.to_nat an)
      (fun n k => let v := nth (n * Z.to_nat am + k) a 0%R in combr mode v (v * b)%R).
Proof.
  intros mc fe s mode am an a b Hfe Hhw Hs Hax Hay H1 H2 Ha ((trash & Ht & Ep) & Hsc) [Hcc Hfair].
  rewrite (alias_unfold mc fe KFft s mode am an a b) by (auto; discriminate). destruct Ha as (_ & _ & La). cbn [conv_pt].
  destruct (num_threads_ok (mc_hw mc) (mc_env mc) an Hhw ltac:(lia)) as (Hth & _).
  set (p := mc_plan mc am) in *.
  set (G := fun (n : Z) (c : list EN) => newcol (N:=EN) am (fun _ k v => comb (N:=EN) mode v
     (nth k (fft_product p c (exact [b])) (nofZ (n:=EN) 0))) n c).
  destruct (colg_call_spec (N:=EN) am an (num_threads (mc_hw mc) (mc_env mc) an)
    (fftconv_mem_point true false p {| m_A := exact a; m_AM := am; m_AN := an; m_B := exact [b]; m_BM := 1; m_BN := 1 |} mode (mc_scr mc))
    G ltac:(lia) ltac:(lia) Hth) with (Y0 := exact a) (sch := mc_sch mc) as (r & Er & Hfa & Hr).
  { intros n c _. apply length_newcol. }
  { intros n Y Hn HY. unfold fftconv_mem_point, fftconv_point. cbn [m_AM m_BM m_BN m_A m_B]. change (1 <? 1) with false. cbv iota.
    replace (n * (am + 1 - 1)) with (n * am) by lia.
    destruct (fftconv_spec (N:=EN) p Y (n * am) am (exact [b]) 0 1 mode (n * am) (mc_scr mc n) Y) as (s' & z' & E & _ & L & Hj).
    - rewrite Ep. apply dft_plan_ok; [lia|exact Ht].
    - rewrite Ep. cbn [dft_plan fp_len]. lia.
    - replace (fp_len p) with am by (rewrite Ep; cbn [dft_plan fp_len]; lia). apply Hsc.
    - lia.
    - lia.
    - nia.
    - lia.
    - nia.
    - nia.
    - cbn. lia.
    - nia.
    - rewrite E. cbn [bind snd fst]. exists z'. split; [reflexivity|]. split; [exact L|]. intros j. rewrite Hj.
      replace (am + 1 - 1) with am by lia.
      destruct (_ && _)%nat eqn:Ej; [|reflexivity]. unfold G.
      rewrite nth_newcol by lia.
      rewrite nth_col. replace (_ <? Z.to_nat am)%nat with true by lia.
      replace (Z.to_nat (n * am) + (j - Z.to_nat (n * am)))%nat with j by lia. reflexivity. }
  { unfold exact. rewrite map_length. lia. }
  rewrite Er. cbn [bind]. destruct r as [[Y' running]|]; [|destruct (Hfa Hfair eq_refl)].
  destruct (Hr Y' running eq_refl) as (L & Hrun & Hall). specialize (Hrun Hcc). subst running.
  exists Y'. split; [destruct Hfe as [->| ->]; reflexivity|]. apply matrix_from_columns; try lia.
  { rewrite L. unfold exact. rewrite map_length. lia. }
  intros n k Hn' Hk. pose proof (nth_col am Y' n k) as HG. replace (k <? Z.to_nat am)%nat with true in HG by lia. rewrite <- HG, (Hall eq_refl n Hn'). unfold G.
  rewrite nth_newcol by exact Hk.
  replace (Z.to_nat n * Z.to_nat am + k)%nat with (Z.to_nat (n * am) + k)%nat by nia.
  assert (Ec : col am n (exact a) = reals (slice (n * am) am a)) by (change (col am n (exact a)) with (slice (n * am) am (reals a)); apply slice_reals).
  assert (Ls : length (slice (n * am) am a) = Z.to_nat am).
  { unfold slice. rewrite firstn_length, skipn_length. nia. }
  rewrite Ec, Ep. change (exact [b]) with (reals [b]). rewrite fft_product_E by (cbn [length]; lia).
  rewrite !nth_reals.
  assert (Ek : nth k (slice (n * am) am a) 0%R = nth (Z.to_nat (n * am) + k) a 0%R).
  { unfold slice. rewrite !nth_nth_nth_error, nth_error_firstn', nth_error_skipn'. replace (k <? Z.to_nat am)%nat with true by lia. reflexivity. }
  assert (Ev : nth k (convolution (slice (n * am) am a) [b]) 0%R = (nth (Z.to_nat (n * am) + k) a 0 * b)%R).
  { rewrite <- Ek, nth_convolution by (cbn [length]; lia). apply cauchy_scalar. }
  rewrite Ev, Ek. destruct mode; reflexivity.
Qed.
Print Assumptions C57_fftconv_p.

Example C57_ex : exists Y, conv_gateway {| mc_hw := 2; mc_env := None; mc_sch := round_robin 4 2; mc_junk := [];
     mc_plan := fun L => dft_plan (Z.to_nat L) junk_trash; mc_import := fun _ => false;
     mc_scr := fun _ => junk_scratch 3; mc_loc := fun _ => (junk_scratch 3, [], []); mc_fuel := 0; mc_ax := true; mc_ay := false |}
    Matlab KFft 0 [mat 3 2 [1; 2; 3; 4; 5; 6]%R; mat 1 1 [10]%R; mat 3 2 [1; 2; 3; 4; 5; 6]%R; VStr "+="]
    = Ok (Some (CInPlace Y)) /\ nth_error Y 4 = Some (Some 55%R).
Proof.
  destruct (C57_fftconv_p {| mc_hw := 2; mc_env := None; mc_sch := round_robin 4 2; mc_junk := [];
     mc_plan := fun L => dft_plan (Z.to_nat L) junk_trash; mc_import := fun _ => false;
     mc_scr := fun _ => junk_scratch 3; mc_loc := fun _ => (junk_scratch 3, [], []); mc_fuel := 0; mc_ax := true; mc_ay := false |}
    Matlab "+=" cm_sum 3 2 [1; 2; 3; 4; 5; 6]%R 10%R) as (Y & E & _ & H); auto; try (cbn; lia); try exact ex_runs; try exact (ex_fft []).
  { unfold documented_mode. auto. }
  { unfold has_size. cbn. lia. }
  exists Y. split; [exact E|]. etransitivity; [apply (H 1%nat 1%nat); cbn; lia|]. cbv beta zeta. change (nth (1 * Z.to_nat 3 + 1) [1; 2; 3; 4; 5; 6]%R 0%R) with 5%R. unfold combr. do 2 f_equal. lra.
Qed.

(** ** C58: CTRL-C *)

(** MATLAB, and in Octave fftconv_p and fftconv_ola: a call during which CTRL-C
    is pressed does not return a matrix and does not end as if nothing had
    happened; any arguments, any schedule. *)
Theorem C58_error_partial : forall (N : Num) (mc : machine N) fe f nlhs args out,
  fe = Octave \/ fe = Matlab -> In CtrlC (mc_sch mc) ->
  conv_gateway mc fe f nlhs args = Ok (Some out) ->
  match out with
  | CReturned _ _ _ | CInPlace _ => False
  | CPrinted _ _ => fe = Octave /\ f = KConv
  | _ => True
  end.
Proof.
  intros N mc fe f nlhs args out Hfe Hin. unfold conv_gateway.
  destruct (has_fun fe f); cbn [negb]; [|now intros [= <-]].
  destruct (parse_cargs _ _ _ _ _) as [m|]; [|now intros [= <-]].
  destruct (arg args 0) as [va|?|]; cbn [bind]; try discriminate.
  destruct (arg args 1) as [vb|?|]; cbn [bind]; try discriminate.
  destruct (gw_data fe va) as [A|?|]; cbn [bind]; try discriminate.
  destruct (gw_data fe vb) as [B|?|]; cbn [bind]; try discriminate.
  destruct (check_B _ _ _) as [[BM BN]|]; [|now intros [= <-]].
  destruct (block_arg _ _ _ _) as [[bl|]|?|]; cbn [bind]; try discriminate; [|now intros [= <-]].
  destruct (_ <? 0); [now intros [= <-]|].
  destruct (out_array _ _ _ _ _ _ _) as [[Y|]|?|]; cbn [bind]; try discriminate; [|now intros [= <-]].
  match goal with |- context [cols_call ?pt ?No ?nt ?sch ?Y] => destruct (cols_call pt No nt sch Y) as [[[Y' r]|]|?|] eqn:E end;
    cbn [bind]; try discriminate.
  pose proof (cols_call_stopped _ _ _ _ _ _ _ E Hin) as ->. intros [= <-].
  destruct Hfe as [->| ->]; [destruct f|]; cbn; auto.
Qed.
Print Assumptions C58_error_partial.

(** Every in-place call with a long enough schedule ends that way: the error is
    reported (Octave conv_p: printed, not raised), and each column of the output is either untouched or complete. *)
Definition after_ctrlc {N : Num} (fe : front) (f : cfun) (Y : list N) : coutcome N :=
  match fe, f with Octave, KConv => CPrinted None Y | _, _ => CtrlCStop Y end.
Theorem C58_stops : forall mc fe f va vb s mode am an a bm bn b y,
  fe = Octave \/ fe = Matlab -> f <> KOla -> 0 <= mc_hw mc -> documented_mode s mode ->
  operand va am an a -> operand vb bm bn b -> conformable am an bm bn -> mc_ax mc = false -> mc_ay mc = false ->
  (f = KFft -> exact_fft mc (am + b_rows bm bn - 1)) ->
  In CtrlC (mc_sch mc) ->
  (forall i, (0 <= i < num_threads (mc_hw mc) (mc_env mc) an)%Z ->
    (3 * (part_stop i an (num_threads (mc_hw mc) (mc_env mc) an) - part_start i an (num_threads (mc_hw mc) (mc_env mc) an)) + 1
     <= steps_of (Z.to_nat i) (mc_sch mc))%Z) ->
  let rows := am + b_rows bm bn - 1 in
  has_size rows an y ->
  exists Y, conv_gateway mc fe f 0 [va; vb; mat rows an y; VStr s] = Ok (Some (after_ctrlc fe f Y)) /\ length Y = length y /\
    forall n, 0 <= n < an ->
      (forall k, (k < Z.to_nat rows)%nat -> nth (Z.to_nat (n * rows) + k) Y (Some 0%R) = Some (nth (Z.to_nat (n * rows) + k) y 0%R)) \/
      (forall k, (k < Z.to_nat rows)%nat -> nth (Z.to_nat (n * rows) + k) Y (Some 0%R) =
        Some (combr mode (nth (Z.to_nat (n * rows) + k) y 0%R) (product am a bm bn b (Z.to_nat n) k))).
Proof.
  intros mc fe f va vb s mode am an a bm bn b y Hfe Hf Hhw Hs Ha Hb Hc Hax Hay Hfft Hin Hfair rows (_ & _ & Ly).
  pose proof (b_rows_pos _ _ _ _ Hc) as Hbr. pose proof Hc as (H1 & H2 & H3 & H4 & H5).
  assert (La : Z.of_nat (length a) = am * an) by (destruct Ha as (? & ? & ? & ?); assumption).
  assert (Lb : Z.of_nat (length b) = bm * bn) by (destruct Hb as (? & ? & ? & ?); assumption).
  assert (Hh : has_fun fe f = true) by (destruct Hfe as [->| ->], f; reflexivity).
  assert (Es : conv_str fe s = s).
  { destruct Hfe as [->| ->]; [reflexivity|]. destruct Hs as [[-> _]|[[-> _]|[-> _]]]; reflexivity. }
  assert (Hp : parse_cargs (mc_import mc) fe f 0 [va; vb; mat rows an y; VStr s] = Some {| c_mode := mode; c_inplace := true |}).
  { apply mode_of_string_doc in Hs. destruct Hfe as [->| ->], f; try congruence; cbn [parse_cargs parse_conv parse_fft is_string str_of];
      unfold parse_fft; change (2 <? 0) with false; cbn [is_string str_of]; rewrite Es, Hs; reflexivity. }
  rewrite (conv_gw_unfold mc fe f 0 va vb [mat rows an y; VStr s] am an a bm bn b _ Hh Hf Hp Ha Hb Hc).
  fold rows.
  assert (HY : out_array fe f {| c_mode := mode; c_inplace := true |} rows an (mc_junk mc) [va; vb; mat rows an y; VStr s] = Ok (Some (exact y))).
  { unfold out_array. cbn [c_inplace]. replace (y_pos f) with 2%nat by (destruct f; [reflexivity|reflexivity|congruence]).
    cbn [arg nth_error bind mat get_m get_n]. rewrite !Z.eqb_refl. cbn [negb orb]. destruct Hfe as [->| ->]; reflexivity. }
  rewrite HY. cbn [bind c_inplace c_mode andb]. rewrite Hax, Hay.
  destruct (num_threads_ok (mc_hw mc) (mc_env mc) an Hhw ltac:(lia)) as (Hth & _).
  assert (LY : length (exact y) = Z.to_nat (an * rows)) by (unfold exact; rewrite map_length; lia).
  destruct (conv_core mc f am an a bm bn b mode (num_threads (mc_hw mc) (mc_env mc) an) (mc_sch mc) (exact y) Hf Hc La Lb Hfft Hth LY)
    as (r & Er & Hfa & Hr). fold rows in Er, Hfa, Hr.
  destruct r as [[Y' running]|]; [|destruct (Hfa Hfair eq_refl)].
  pose proof (cols_call_stopped _ _ _ _ _ _ _ Er Hin) as ->. rewrite Er. cbn [bind].
  destruct (Hr Y' false eq_refl) as (L & _ & _ & Hsome).
  exists Y'. split; [destruct Hfe as [->| ->], f; reflexivity|]. split; [rewrite L; apply map_length|].
  change (exact y) with (reals y) in Hsome. change (nofZ (n:=EN) 0) with (Some 0%R) in Hsome.
  intros n Hn. destruct (Hsome n Hn) as [H|H]; [left|right]; intros k Hk; (etransitivity; [exact (H k Hk)|]).
  - exact (nth_reals y _).
  - etransitivity; [apply (f_equal (fun v => comb (N:=EN) mode v (Some (product am a bm bn b (Z.to_nat n) k)))); exact (nth_reals y (Z.to_nat (n * rows) + k))|].
    destruct mode; reflexivity.
Qed.
Print Assumptions C58_stops.

(** Refuted for Julia: CTRL-C at the start of a call with two columns and one
    worker; the call returns a matrix as if it were complete, the second column
    is what the memory held before. *)
Theorem C58_refuted_julia : forall (v w : R), exists Y,
  conv_gateway (N:=EN) {| mc_hw := 1; mc_env := None; mc_sch := CtrlC :: round_robin 7 1; mc_junk := exact [v; w];
     mc_plan := fun L => dft_plan (Z.to_nat L) junk_trash; mc_import := fun _ => false;
     mc_scr := fun _ => junk_scratch 3; mc_loc := fun _ => (junk_scratch 3, [], []); mc_fuel := 0; mc_ax := false; mc_ay := false |}
    Julia KConv 1 [mat 1 2 [5; 7]%R; mat 1 1 [2]%R] = Ok (Some (CReturned 1 2 Y)) /\ nth_error Y 1 = Some (Some w).
Proof. intros v w. exists [Some (0 + 5 * 2)%R; Some w]. split; by_vm. Qed.
Print Assumptions C58_refuted_julia.

(** Refuted for conv_p in Octave: the message is only printed, the call returns
    its matrix although the second column was never computed: it is what the
    memory held before. *)
Theorem C58_refuted_octave_conv_p : forall (v w : R), exists Y,
  conv_gateway (N:=EN) {| mc_hw := 1; mc_env := None; mc_sch := CtrlC :: round_robin 7 1; mc_junk := exact [v; w];
     mc_plan := fun L => dft_plan (Z.to_nat L) junk_trash; mc_import := fun _ => false;
     mc_scr := fun _ => junk_scratch 3; mc_loc := fun _ => (junk_scratch 3, [], []); mc_fuel := 0; mc_ax := false; mc_ay := false |}
    Octave KConv 1 [mat 1 2 [5; 7]%R; mat 1 1 [2]%R] = Ok (Some (CPrinted (Some (1, 2)) Y)) /\ nth_error Y 1 = Some (Some w).
Proof. intros v w. exists [Some (0 + 5 * 2)%R; Some w]. split; by_vm. Qed.
Print Assumptions C58_refuted_octave_conv_p.
