(** PropCgw5.v - property theorems about complete calls of fftconv_ola (C84). *)
From Coq Require Strings.String Strings.Ascii.
Import Coq.Strings.String.StringSyntax.
From Coq Require Import Reals Lra.
From Verif Require Import Base BaseLemmas ModelSir ModelArr ModelSmp ModelConv NumR SpecDft SpecSir SpecSmp SpecConv
  ProofsLoop ProofsSmp ProofsSmp2 ProofsDft ProofsConv ProofsConvR ProofsCols ProofsOla PropConv ModelGw ProofsGw SpecGwR ModelCgw SpecCgw ProofsCgw
  ProofsCgw2 ProofsCgw5 PropCgw2 ProofsR.
From Coq Require Import ZifyBool ZifyNat.
Ltac Zify.zify_post_hook ::= Z.div_mod_to_equations.
Local Open Scope string_scope.
Open Scope Z_scope.

(** fftconv_ola(A, B, n): for every block length n from 1 to the number of rows
    of A, whatever the number of workers, the interleaving and the contents of
    fresh memory, an uninterrupted call returns the same matrix as conv_p:
    when B is a matrix; for a vector B only when n is the number of rows of A
    or every worker has at most one column. *)
Theorem C84_new_matrix_partial : forall mc fe nlhs va vb vn am an a bm bn b n,
  fe = Octave \/ fe = Matlab -> 0 <= mc_hw mc -> 0 <= nlhs <= 1 ->
  operand va am an a -> operand vb bm bn b -> conformable am an bm bn ->
  number_is vn (IZR n) -> fits n -> 1 <= n <= am ->
  exact_fft_ola mc (n + b_rows bm bn - 1) -> am <= Z.of_nat (mc_fuel mc) ->
  runs_to_end (mc_hw mc) (mc_env mc) an (mc_sch mc) ->
  (bm <> 1 /\ bn <> 1) \/ n = am \/ an <= num_threads (mc_hw mc) (mc_env mc) an ->
  (fe = Octave -> ~ (am + b_rows bm bn - 1 = 1 /\ an = 1)) ->
  exists Y, conv_gateway mc fe KOla nlhs [va; vb; vn] = Ok (Some (CReturned (am + b_rows bm bn - 1) an Y)) /\
    matrix_is Y (Z.to_nat (am + b_rows bm bn - 1)) (Z.to_nat an) (product am a bm bn b).
Proof.
  intros mc fe nlhs va vb vn am an a bm bn b n Hfe Hhw Hn Ha Hb Hc Hv Hfit Hbl Hfft Hfuel [Hcc Hfair] Hright H11.
  pose proof (b_rows_pos _ _ _ _ Hc) as Hbr. pose proof Hc as (H1 & H2 & H3 & H4 & H5).
  assert (La : Z.of_nat (length a) = am * an) by (destruct Ha as (? & ? & ? & ?); assumption).
  assert (Lb : Z.of_nat (length b) = bm * bn) by (destruct Hb as (? & ? & ? & ?); assumption).
  assert (Hp : parse_fft (N:=EN) (mc_import mc) fe nlhs [] = Some normal) by (unfold parse_fft; replace (2 <? nlhs) with false by lia; reflexivity).
  rewrite (ola_gw_unfold mc fe nlhs va vb vn [] am an a bm bn b n normal Hfe Hp Ha Hb Hc Hv Hfit) by lia.
  replace (check_block n am) with true by (unfold check_block; lia). cbn [negb].
  set (rows := am + b_rows bm bn - 1) in *.
  assert (HY : out_array fe KOla normal rows an (mc_junk mc) [va; vb; vn] = Ok (Some (zeros (N:=EN) (rows * an)))).
  { unfold out_array. cbn [normal c_inplace]. destruct Hfe as [->| ->]; [|reflexivity].
    rewrite sir_clear_alloc by lia. cbn [bind].
    replace (rows * an =? 1) with false; [reflexivity|]. symmetry. apply Z.eqb_neq. intros X. apply H11; [reflexivity|].
    assert (rows = 1) by (apply Z.eq_mul_1_nonneg with an; lia). fold rows. nia. }
  rewrite HY. cbn [bind normal c_mode].
  destruct (num_threads_ok (mc_hw mc) (mc_env mc) an Hhw ltac:(lia)) as (Hth & _).
  assert (LY : length (zeros (N:=EN) (rows * an)) = Z.to_nat (an * rows)) by (unfold zeros; rewrite repeat_length; f_equal; lia).
  destruct (ola_core mc am an a bm bn b n (num_threads (mc_hw mc) (mc_env mc) an) (mc_sch mc) (zeros (N:=EN) (rows * an))
     Hc La Lb Hbl Hfft Hfuel Hth Hright LY) as (r & Er & Hfa & Hr). fold rows in Er, Hfa, Hr. rewrite Er. cbn [bind].
  destruct r as [[Y' running]|]; [|destruct (Hfa Hfair eq_refl)].
  destruct (Hr Y' running eq_refl) as (L & Hrun & Hall & _). specialize (Hrun Hcc). subst running.
  exists Y'. split; [destruct Hfe as [->| ->]; reflexivity|].
  apply matrix_from_columns; try lia. intros j k Hj Hk. rewrite (Hall eq_refl j k Hj Hk).
  replace (nth (Z.to_nat (j * rows) + k) (zeros (N:=EN) (rows * an)) (nofZ 0)) with (Some 0%R : car EN).
  - generalize (product am a bm bn b (Z.to_nat j) k). intros x. cbn. f_equal. lra.
  - unfold zeros. symmetry. assert (Hlt : (Z.to_nat (j * rows) + k < Z.to_nat (rows * an))%nat) by nia.
    revert Hlt. generalize (Z.to_nat (j * rows) + k)%nat, (Z.to_nat (rows * an)). clear.
    intros i m. revert i. induction m as [|m IH]; intros [|i] H; cbn; auto; try lia. apply IH. lia.
Qed.
Print Assumptions C84_new_matrix_partial.

(** Refuted for a vector B: every uninterrupted call with a block shorter than a
    column in which some worker has two columns reads outside A. *)
Theorem C84_vector_refuted : forall mc fe nlhs va vb vn am an a bm bn b n,
  fe = Octave \/ fe = Matlab -> 0 <= mc_hw mc -> 0 <= nlhs <= 1 ->
  operand va am an a -> operand vb bm bn b -> conformable am an bm bn ->
  number_is vn (IZR n) -> fits n -> 1 <= n < am ->
  exact_fft_ola mc (n + b_rows bm bn - 1) -> am <= Z.of_nat (mc_fuel mc) ->
  runs_to_end (mc_hw mc) (mc_env mc) an (mc_sch mc) ->
  bm = 1 \/ bn = 1 -> num_threads (mc_hw mc) (mc_env mc) an < an ->
  exists u, conv_gateway mc fe KOla nlhs [va; vb; vn] = UB u.
Proof.
  intros mc fe nlhs va vb vn am an a bm bn b n Hfe Hhw Hn Ha Hb Hc Hv Hfit Hbl Hfft Hfuel [Hcc Hfair] Hvec Hfew.
  pose proof (b_rows_pos _ _ _ _ Hc) as Hbr. pose proof Hc as (H1 & H2 & H3 & H4 & H5).
  assert (La : Z.of_nat (length a) = am * an) by (destruct Ha as (? & ? & ? & ?); assumption).
  assert (Lb : Z.of_nat (length b) = bm * bn) by (destruct Hb as (? & ? & ? & ?); assumption).
  assert (Hp : parse_fft (N:=EN) (mc_import mc) fe nlhs [] = Some normal) by (unfold parse_fft; replace (2 <? nlhs) with false by lia; reflexivity).
  rewrite (ola_gw_unfold mc fe nlhs va vb vn [] am an a bm bn b n normal Hfe Hp Ha Hb Hc Hv Hfit) by lia.
  replace (check_block n am) with true by (unfold check_block; lia). cbn [negb].
  destruct (num_threads_ok (mc_hw mc) (mc_env mc) an Hhw ltac:(lia)) as (Hth & _).
  set (rows := am + b_rows bm bn - 1) in *. set (nt := num_threads (mc_hw mc) (mc_env mc) an) in *.
  assert (HY : out_array fe KOla normal rows an (mc_junk mc) [va; vb; vn] = Ok (Some (zeros (N:=EN) (rows * an)))).
  { unfold out_array. cbn [normal c_inplace]. destruct Hfe as [->| ->]; [|reflexivity].
    rewrite sir_clear_alloc by lia. cbn [bind].
    replace (rows * an =? 1) with false; [reflexivity|]. symmetry. apply Z.eqb_neq. intros X. nia. }
  rewrite HY. cbn [bind normal c_mode].
  assert (LY : length (zeros (N:=EN) (rows * an)) = Z.to_nat (an * rows)) by (unfold zeros; rewrite repeat_length; f_equal; lia).
  set (Y0 := zeros (N:=EN) (rows * an)) in *. clearbody Y0.
  assert (EBN : b_cols bm bn = 1) by (unfold b_cols; replace ((bm =? 1) || (bn =? 1)) with true by lia; reflexivity).
  assert (EBM : b_rows bm bn = bm * bn) by (unfold b_rows; replace ((bm =? 1) || (bn =? 1)) with true by lia; reflexivity).
  destruct Hfft as ((trash & Ht & Ep) & Hloc).
  set (M := ola_mats am an a bm bn b).
  assert (P : forall i Y, 0 <= i < an -> length Y = length Y0 ->
    if an <=? own_start an nt i + 2 * (i - own_start an nt i)
    then ola_point (mc_fuel mc) (mc_plan mc (n + b_rows bm bn - 1)) M n cm_equ (own_start an nt) (mc_loc mc) i Y = UB UB_oob_read
    else exists Y', ola_point (mc_fuel mc) (mc_plan mc (n + b_rows bm bn - 1)) M n cm_equ (own_start an nt) (mc_loc mc) i Y = Ok (Y', err_none) /\ length Y' = length Y).
  { intros i Y Hi HYl.
    refine (ola_point_vec (mc_fuel mc) (mc_plan mc (n + b_rows bm bn - 1)) M n cm_equ (own_start an nt) (mc_loc mc) i Y _ _ _ _ _ _ _ _ _ _ _ _ _).
    - rewrite Ep. apply dft_plan_ok; [lia|exact Ht].
    - rewrite Ep. cbn [dft_plan fp_len M ola_mats m_BM]. lia.
    - lia.
    - cbn. lia.
    - cbn [M ola_mats m_BM]. lia.
    - exact EBN.
    - cbn [M ola_mats m_B m_BM]. unfold exact. rewrite map_length. lia.
    - exact Hi.
    - cbn [M ola_mats m_A m_AN m_AM]. unfold exact. rewrite map_length. lia.
    - apply own_start_range; lia.
    - specialize (Hloc i). destruct (mc_loc mc i) as ((s & y) & ab). rewrite Ep. unfold arrays_ok. cbn [dft_plan fp_len].
      rewrite Z2Nat.id by lia. exact Hloc.
    - cbn. lia.
    - cbn [M ola_mats m_BM m_AN m_AM]. rewrite HYl, LY. unfold rows. nia. }
  set (pt := ola_point (mc_fuel mc) (mc_plan mc (n + b_rows bm bn - 1)) M n cm_equ (own_start an nt) (mc_loc mc)) in *.
  assert (ND : cols_call pt an nt (mc_sch mc) Y0 <> Diverge).
  { apply cols_nodiv; try lia.
    - intros i Y Hi HL. specialize (P i Y Hi HL). destruct (an <=? _); [congruence|]. destruct P as (? & -> & _). discriminate.
    - intros i Y Y' e Hi HL E. specialize (P i Y Hi HL). destruct (an <=? _); [congruence|]. destruct P as (? & E' & ?). congruence. }
  assert (Z0 : forall Y s, pt (an - 1) Y <> Ok s).
  { intros Y s. unfold pt, ola_point. destruct (mc_loc mc (an - 1)) as ((s1 & y) & ab).
    pose proof (own_start_last an nt ltac:(lia)) as Hl. pose proof (own_start_range an nt (an - 1) Hth ltac:(lia)).
    erewrite ola_column_oob; [discriminate|..]; try (cbn [M ola_mats m_AM]; lia).
    unfold ola_ap. cbn [M ola_mats m_BN m_AM m_A]. rewrite EBN. change (1 <? 1) with false. cbv iota.
    unfold exact. rewrite map_length. nia. }
  assert (NO : forall i Y Y' e, pt i Y = Ok (Y', e) -> e = err_none).
  { intros i Y Y' e. unfold pt, ola_point. destruct (mc_loc mc i) as ((s1 & y) & ab).
    destruct (ola_column _ _ _ _ _ _ _ _ _ _ _) as [r|?|]; cbn [bind]; try discriminate. now intros [= _ <-]. }
  destruct (gen_bad pt an nt (an - 1) NO Z0 ltac:(lia) Hth Y0 (mc_sch mc)) as (_ & G).
  destruct (G Hcc) as (_ & G2). specialize (G2 Hfair).
  destruct (cols_call pt an nt (mc_sch mc) Y0) as [r|u|]; cbn [bind]; [destruct (G2 r eq_refl)|eauto|congruence].
Qed.
Print Assumptions C84_vector_refuted.

(** A block length below 0 (Octave) or above the number of rows of A is
    refused. *)
Theorem C84_block_refused : forall mc fe nlhs va vb vn am an a bm bn b n,
  fe = Octave \/ fe = Matlab -> 0 <= nlhs <= 1 ->
  operand va am an a -> operand vb bm bn b -> conformable am an bm bn ->
  number_is vn (IZR n) -> fits n -> (n < 0 /\ fe = Octave) \/ am < n ->
  conv_gateway mc fe KOla nlhs [va; vb; vn] = Ok (Some CRejected).
Proof.
  intros mc fe nlhs va vb vn am an a bm bn b n Hfe Hn Ha Hb Hc Hv Hfit Hbad. pose proof Hc as (H1 & _).
  assert (Hp : parse_fft (N:=EN) (mc_import mc) fe nlhs [] = Some normal) by (unfold parse_fft; replace (2 <? nlhs) with false by lia; reflexivity).
  rewrite (ola_gw_unfold mc fe nlhs va vb vn [] am an a bm bn b n normal Hfe Hp Ha Hb Hc Hv Hfit).
  - replace (check_block n am) with false by (unfold check_block; lia). reflexivity.
  - intros ->. destruct Hbad as [[_ H]|H]; [discriminate|lia].
Qed.
Print Assumptions C84_block_refused.

(** Refuted: block length 0 is accepted, and every uninterrupted call writes
    outside a scratch array. *)
Theorem C84_zero_refuted : forall mc fe nlhs va vb vn am an a bm bn b,
  fe = Octave \/ fe = Matlab -> 0 <= mc_hw mc -> 0 <= nlhs <= 1 ->
  operand va am an a -> operand vb bm bn b -> conformable am an bm bn ->
  number_is vn 0 -> exact_fft_ola mc (b_rows bm bn - 1) -> 1 <= Z.of_nat (mc_fuel mc) ->
  runs_to_end (mc_hw mc) (mc_env mc) an (mc_sch mc) ->
  conv_gateway mc fe KOla nlhs [va; vb; vn] = UB UB_oob_write.
Proof.
  intros mc fe nlhs va vb vn am an a bm bn b Hfe Hhw Hn Ha Hb Hc Hv (Hpl & Hloc) Hfuel [Hcc Hfair].
  pose proof (b_rows_pos _ _ _ _ Hc) as Hbr. pose proof Hc as (H1 & H2 & H3 & H4 & H5).
  assert (Lb : Z.of_nat (length b) = bm * bn) by (destruct Hb as (? & ? & ? & ?); assumption).
  assert (Hp : parse_fft (N:=EN) (mc_import mc) fe nlhs [] = Some normal) by (unfold parse_fft; replace (2 <? nlhs) with false by lia; reflexivity).
  rewrite (ola_gw_unfold mc fe nlhs va vb vn [] am an a bm bn b 0 normal Hfe Hp Ha Hb Hc Hv) by (unfold fits; lia).
  replace (check_block 0 am) with true by (unfold check_block; lia). cbn [negb].
  destruct (num_threads_ok (mc_hw mc) (mc_env mc) an Hhw ltac:(lia)) as (Hth & _).
  set (rows := am + b_rows bm bn - 1) in *. set (nt := num_threads (mc_hw mc) (mc_env mc) an) in *.
  assert (HY : out_array fe KOla normal rows an (mc_junk mc) [va; vb; vn] = Ok (Some (zeros (N:=EN) (rows * an))) \/
               out_array fe KOla normal rows an (mc_junk mc) [va; vb; vn] = UB UB_oob_write).
  { unfold out_array. cbn [normal c_inplace]. destruct Hfe as [->| ->]; [|left; reflexivity].
    rewrite sir_clear_alloc by lia. cbn [bind]. destruct (rows * an =? 1); auto. }
  destruct HY as [HY|HY]; rewrite HY; [|reflexivity]. cbn [bind normal c_mode].
  set (Y0 := zeros (N:=EN) (rows * an)) in *. clearbody Y0.
  set (M := ola_mats am an a bm bn b).
  set (pt := ola_point (mc_fuel mc) (mc_plan mc (0 + b_rows bm bn - 1)) M 0 cm_equ (own_start an nt) (mc_loc mc)) in *.
  assert (P : forall i Y, 0 <= i < an -> pt i Y = UB UB_oob_write).
  { intros i Y Hi. unfold pt, ola_point. specialize (Hloc i). destruct (mc_loc mc i) as ((s & y) & ab).
    rewrite ola_block0; [reflexivity|..]; cbn [M ola_mats m_AM m_BM m_B]; try lia.
    - replace (0 + b_rows bm bn - 1) with (b_rows bm bn - 1) by lia. apply Hloc.
    - unfold exact at 1. rewrite map_length. apply (b_off_ok am an a bm bn b i Hc Lb Hi). }
  assert (A : forall sch s s', (forall k t, nth_error (g_threads s) k = Some t -> 0 <= t_n t /\ t_stop t <= an) ->
     gsteps pt s sch = s' -> s' = UB UB_oob_write \/ exists g, s' = Ok g).
  { induction sch as [|e sch IH]; intros s s' Hr E; cbn [gsteps] in E; [eauto|].
    destruct e as [i|]; cbn [gstep] in E; [|cbn [bind] in E; eapply IH; [|exact E]; auto].
    destruct (nth_error (g_threads s) i) as [t|] eqn:Et; [|cbn [bind] in E; eapply IH; [|exact E]; auto].
    destruct (Hr i t Et) as [R0 R1].
    assert (W : forall pc' d er H' r', 0 <= d ->
      gsteps pt {| g_H := H'; g_running := r'; g_threads := upd (g_threads s) i (fun _ => {| t_pc := pc'; t_n := t_n t + d; t_stop := t_stop t; t_err := er |}) |} sch = s' ->
      s' = UB UB_oob_write \/ exists g, s' = Ok g).
    { intros pc' d er H' r' Hd E'. eapply IH; [|exact E']. cbn [g_threads]. intros k u Hk.
      destruct (Nat.eq_dec i k) as [<-|Hne]; [rewrite (upd_at _ _ _ _ Et) in Hk; injection Hk as <-; cbn; lia|].
      rewrite upd_away in Hk by auto. apply (Hr k u Hk). }
    unfold thread_step in E. destruct (t_pc t).
    - destruct (t_n t <? t_stop t) eqn:El.
      + rewrite P in E by lia. cbn [bind] in E. auto.
      + cbn [bind] in E. refine (W PDone 0 (t_err t) (g_H s) (g_running s) _ _); [lia|]. rewrite Z.add_0_r. exact E.
    - cbn [bind] in E. eapply (W PCheck 0 (t_err t)); [lia|]. rewrite Z.add_0_r. exact E.
    - destruct (g_running s); cbn [bind] in E; [eapply (W PHead 1); [lia|exact E]|eapply (W PDone 0); [lia|rewrite Z.add_0_r; exact E]].
    - cbn [bind] in E. eapply IH; [|exact E]. cbn [g_threads]. intros k u Hk.
      destruct (Nat.eq_dec i k) as [<-|Hne]; [rewrite (upd_at _ _ _ _ Et) in Hk; injection Hk as <-; auto|].
      rewrite upd_away in Hk by auto. apply (Hr k u Hk). }
  assert (NO : forall i Y Y' e, pt i Y = Ok (Y', e) -> e = err_none).
  { intros i Y Y' e. unfold pt, ola_point. destruct (mc_loc mc i) as ((s1 & y) & ab).
    destruct (ola_column _ _ _ _ _ _ _ _ _ _ _) as [r|?|]; cbn [bind]; try discriminate. now intros [= _ <-]. }
  destruct (gen_bad pt an nt 0 NO) with (Y0 := Y0) (sch := mc_sch mc) as (_ & G); try lia.
  { intros Y s. rewrite P by lia. discriminate. }
  destruct (G Hcc) as (_ & G2). specialize (G2 Hfair).
  assert (Q : cols_call pt an nt (mc_sch mc) Y0 = UB UB_oob_write); [|rewrite Q; reflexivity].
  unfold cols_call in *. destruct (A (mc_sch mc) (init an nt Y0) (gsteps pt (init an nt Y0) (mc_sch mc))) as [E|(g & E)]; [|reflexivity|..].
  - intros k t Hk. cbn [init g_threads] in Hk. rewrite nth_error_map in Hk.
    destruct (nth_error (seq 0 (Z.to_nat nt)) k) as [j|] eqn:Ej; [|discriminate]. injection Hk as <-. cbn [init_thread t_n t_stop].
    assert (Hj : (k < Z.to_nat nt)%nat) by (rewrite <- (seq_length (Z.to_nat nt) 0); apply nth_error_Some; congruence).
    rewrite (nth_error_nth' _ O) in Ej by (rewrite seq_length; exact Hj). rewrite seq_nth in Ej by exact Hj. injection Ej as <-.
    apply part_range; lia.
  - rewrite E. reflexivity.
  - rewrite E in G2. cbn [bind] in G2. destruct (all_done g); edestruct G2; reflexivity.
Qed.
Print Assumptions C84_zero_refuted.

(** Refuted for the in-place mode '=' (also when no mode is given): the
    convolution is added to the old contents. *)
Theorem C84_in_place_refuted : forall mc fe va vb vn am an a bm bn b n y rest,
  fe = Octave \/ fe = Matlab -> 0 <= mc_hw mc -> rest = [] \/ rest = [VStr "="] ->
  operand va am an a -> operand vb bm bn b -> conformable am an bm bn ->
  number_is vn (IZR n) -> fits n -> 1 <= n <= am ->
  exact_fft_ola mc (n + b_rows bm bn - 1) -> am <= Z.of_nat (mc_fuel mc) ->
  runs_to_end (mc_hw mc) (mc_env mc) an (mc_sch mc) ->
  (bm <> 1 /\ bn <> 1) \/ n = am \/ an <= num_threads (mc_hw mc) (mc_env mc) an ->
  let rows := am + b_rows bm bn - 1 in
  has_size rows an y ->
  exists Y, conv_gateway mc fe KOla 0 (va :: vb :: vn :: mat rows an y :: rest) = Ok (Some (CInPlace Y)) /\
    matrix_is Y (Z.to_nat rows) (Z.to_nat an)
      (fun i k => (nth (i * Z.to_nat rows + k) y 0 + product am a bm bn b i k)%R).
Proof.
  intros mc fe va vb vn am an a bm bn b n y rest Hfe Hhw Hrest Ha Hb Hc Hv Hfit Hbl Hfft Hfuel [Hcc Hfair] Hright rows (_ & _ & Ly).
  pose proof (b_rows_pos _ _ _ _ Hc) as Hbr. pose proof Hc as (H1 & H2 & H3 & H4 & H5).
  assert (La : Z.of_nat (length a) = am * an) by (destruct Ha as (? & ? & ? & ?); assumption).
  assert (Lb : Z.of_nat (length b) = bm * bn) by (destruct Hb as (? & ? & ? & ?); assumption).
  assert (Hp : parse_fft (N:=EN) (mc_import mc) fe 0 (mat rows an y :: rest) = Some {| c_mode := cm_equ; c_inplace := true |}).
  { destruct Hrest as [->| ->], Hfe as [->| ->]; reflexivity. }
  rewrite (ola_gw_unfold mc fe 0 va vb vn (mat rows an y :: rest) am an a bm bn b n _ Hfe Hp Ha Hb Hc Hv Hfit) by lia.
  replace (check_block n am) with true by (unfold check_block; lia). cbn [negb]. fold rows.
  assert (HY : out_array fe KOla {| c_mode := cm_equ; c_inplace := true |} rows an (mc_junk mc) (va :: vb :: vn :: mat rows an y :: rest) = Ok (Some (exact y))).
  { unfold out_array. cbn [c_inplace y_pos arg nth_error bind mat get_m get_n]. rewrite !Z.eqb_refl. cbn [negb orb].
    destruct Hfe as [->| ->]; reflexivity. }
  rewrite HY. cbn [bind c_mode].
  destruct (num_threads_ok (mc_hw mc) (mc_env mc) an Hhw ltac:(lia)) as (Hth & _).
  assert (LY : length (exact y) = Z.to_nat (an * rows)) by (unfold exact; rewrite map_length; lia).
  destruct (ola_core mc am an a bm bn b n (num_threads (mc_hw mc) (mc_env mc) an) (mc_sch mc) (exact y)
     Hc La Lb Hbl Hfft Hfuel Hth Hright LY) as (r & Er & Hfa & Hr). fold rows in Er, Hfa, Hr. rewrite Er. cbn [bind].
  destruct r as [[Y' running]|]; [|destruct (Hfa Hfair eq_refl)].
  destruct (Hr Y' running eq_refl) as (L & Hrun & Hall & _). specialize (Hrun Hcc). subst running.
  exists Y'. split; [destruct Hfe as [->| ->]; reflexivity|].
  apply matrix_from_columns; try lia. intros j k Hj Hk. rewrite (Hall eq_refl j k Hj Hk).
  replace (Z.to_nat j * Z.to_nat rows + k)%nat with (Z.to_nat (j * rows) + k)%nat by nia.
  assert (Q : nth (Z.to_nat (j * rows) + k) (exact y) (nofZ (n:=EN) 0) = Some (nth (Z.to_nat (j * rows) + k) y 0%R)).
  { unfold exact. change (nofZ (n:=EN) 0) with (Some 0%R). apply map_nth. }
  etransitivity; [apply (f_equal (fun v => nadd (n:=EN) v _)); exact Q|]. reflexivity.
Qed.
Print Assumptions C84_in_place_refuted.

(** Refuted for '+=': the result of adding 1 * 1 to 0 contains whatever the
    fresh block array held. *)
Definition one_worker (n : nat) : list event := repeat (Run 0) n.
Theorem C84_sum_refuted : forall y0 : R, exists mc : machine EN,
  (forall n, mc_loc mc n = (junk_scratch 1, exact [y0], exact [0%R])) /\ exact_fft_ola mc 1 /\
  runs_to_end (mc_hw mc) (mc_env mc) 1 (mc_sch mc) /\
  conv_gateway mc Matlab KOla 0 [mat 1 1 [1]%R; mat 1 1 [1]%R; mat 1 1 [1]%R; mat 1 1 [0]%R; VStr "+="] =
    Ok (Some (CInPlace (exact [(y0 + 1)%R]))).
Proof.
  intros y0.
  exists {| mc_hw := 1; mc_env := None; mc_sch := one_worker 4; mc_junk := [];
     mc_plan := fun L => dft_plan (Z.to_nat L) junk_trash; mc_import := fun _ => false;
     mc_scr := fun _ => junk_scratch 3; mc_loc := fun _ => (junk_scratch 1, exact [y0], exact [0%R]); mc_fuel := 1; mc_ax := false; mc_ay := false |}.
  split; [reflexivity|]. split.
  { split; [exists junk_trash; split; [intros X; unfold junk_trash; apply map_length|reflexivity]|].
    intros n. split; [exact (junk_ok 1)|]. split; reflexivity. }
  split.
  { split; [intros Hin; cbn in Hin; repeat (destruct Hin as [Hin|Hin]; [discriminate|]); exact Hin|].
    cbn [mc_hw mc_env mc_sch]. change (num_threads 1 None 1) with 1. intros i Hi. assert (i = 0) as -> by lia. vm_compute; discriminate. }
  rewrite (ola_gw_unfold _ Matlab 0 _ _ _ [mat 1 1 [0]%R; VStr "+="] 1 1 [1%R] 1 1 [1%R] 1 {| c_mode := cm_sum; c_inplace := true |});
    [|auto|reflexivity|exists Full; split; [reflexivity|split; [discriminate|reflexivity]]|exists Full; split; [reflexivity|split; [discriminate|reflexivity]]
     |unfold conformable; lia|exists Full, 1, 1; split; reflexivity|unfold fits; lia|lia].
  change (check_block 1 1) with true. cbn [negb]. change (b_rows 1 1) with 1. change (1 + 1 - 1) with 1.
  unfold out_array. cbn [c_inplace y_pos arg nth_error bind mat get_m get_n mc_hw mc_env mc_sch]. rewrite !Z.eqb_refl. cbn [negb orb bind c_mode].
  change (num_threads 1 None 1) with 1.
  assert (G : forall (pt : Z -> list EN -> res (list EN * SIRError)) Y Y', pt 0 Y = Ok (Y', err_none) -> cols_call pt 1 1 (one_worker 4) Y = Ok (Some (Y', true))).
  { intros pt Y Y' E. unfold cols_call. set (N := EN) in *. clearbody N. cbv. rewrite E. reflexivity. }
  match goal with |- context [cols_call ?p _ _ _ ?Y] => rewrite (G p Y (exact [(y0 + 1)%R])) end; [reflexivity|].
  unfold ola_point. cbn [mc_loc mc_fuel mc_plan].
  change (own_start 1 1 0) with 0. change (ola_ap (ola_mats 1 1 [1%R] 1 1 [1%R]) 0 0) with 0.
  destruct (C31_refuted_inplace_sum y0) as (s' & y' & ab' & Y' & E & EY).
  (* the block array is overwritten before it is read *)
  set (M := {| m_A := reals [1%R] : list EN; m_AM := 1; m_AN := 1; m_B := reals [1%R]; m_BM := 1; m_BN := 1 |}) in *.
  change (ola_mats 1 1 [1%R] 1 1 [1%R]) with M. change (Z.to_nat 1) with 1%nat.
  assert (X : forall s y Y, ola_column (N:=EN) 1 (dft_plan 1 junk_trash) M 1 cm_sum 0 0 s y (exact [0%R]) Y =
                            ola_column (N:=EN) 1 (dft_plan 1 junk_trash) M 1 cm_sum 0 0 s y (repeat None 1) Y) by (intros; reflexivity).
  rewrite X. change (exact [0%R]) with (reals [0%R]). change (exact [y0]) with (reals [y0]). rewrite E. cbn [bind snd]. rewrite EY. reflexivity.
Qed.
Print Assumptions C84_sum_refuted.

(** ** Non-vacuity *)
Definition ex_ola (hw : Z) (sch : list event) (L : nat) : machine EN :=
  {| mc_hw := hw; mc_env := None; mc_sch := sch; mc_junk := [];
     mc_plan := fun L => dft_plan (Z.to_nat L) junk_trash; mc_import := fun _ => false;
     mc_scr := fun _ => junk_scratch 3; mc_loc := junk_loc L; mc_fuel := 5; mc_ax := false; mc_ay := false |}.
Lemma ex_ola_fft hw sch L : exact_fft_ola (ex_ola hw sch L) (Z.of_nat L).
Proof.
  split; [exists junk_trash; split; [intros X; unfold junk_trash; apply map_length|reflexivity]|].
  intros n. cbn. rewrite !repeat_length, Nat2Z.id. split; [apply (junk_ok L)|]. split; reflexivity.
Qed.
Lemma ex_number x : number_is (mat 1 1 [x]) x.
Proof. exists Full, 1, 1. split; reflexivity. Qed.
Lemma ex_one_runs : runs_to_end 1 None 2 (one_worker 7).
Proof.
  split; [intros Hin; vm_compute in Hin; repeat (destruct Hin as [Hin|Hin]; [discriminate|]); exact Hin|].
  change (num_threads 1 None 2) with 1. intros i Hi. assert (i = 0) as -> by lia. vm_compute; discriminate.
Qed.
(** Two columns of A with two columns of B, blocks of one sample. *)
Example C84_ex : exists Y, conv_gateway (ex_ola 2 (round_robin 4 2) 2) Octave KOla 1
     [mat 2 2 [1; 2; 3; 4]%R; mat 2 2 [1; -1; 0; 1]%R; mat 1 1 [1]%R]
    = Ok (Some (CReturned 3 2 Y)) /\ nth_error Y 1 = Some (Some 1%R) /\ nth_error Y 5 = Some (Some 4%R).
Proof.
  destruct (C84_new_matrix_partial (ex_ola 2 (round_robin 4 2) 2) Octave 1 (mat 2 2 [1; 2; 3; 4]%R) (mat 2 2 [1; -1; 0; 1]%R) (mat 1 1 [1]%R)
     2 2 [1; 2; 3; 4]%R 2 2 [1; -1; 0; 1]%R 1) as (Y & E & _ & H);
    [left; reflexivity|cbn; lia|lia|apply ex_operand; reflexivity|apply ex_operand; reflexivity|unfold conformable; lia|apply ex_number|unfold fits; lia|lia
    |exact (ex_ola_fft 2 _ 2)|cbn; lia|exact ex_runs|left; lia|intros _ [X _]; discriminate X|].
  exists Y. split; [exact E|]. split.
  - etransitivity; [apply (H 0%nat 1%nat); cbn; lia|]. unfold product, cauchy, a_col, b_col. pnat. do 2 f_equal. lra.
  - etransitivity; [apply (H 1%nat 2%nat); cbn; lia|]. unfold product, cauchy, a_col, b_col. pnat. do 2 f_equal. lra.
Qed.
Example C84_vector_ex : exists u, conv_gateway (ex_ola 1 (one_worker 7) 2) Matlab KOla 1
     [mat 2 2 [1; 2; 3; 4]%R; mat 2 1 [1; -1]%R; mat 1 1 [1]%R] = UB u.
Proof.
  apply (C84_vector_refuted (ex_ola 1 (one_worker 7) 2) Matlab 1 (mat 2 2 [1; 2; 3; 4]%R) (mat 2 1 [1; -1]%R) (mat 1 1 [1]%R)
     2 2 [1; 2; 3; 4]%R 2 1 [1; -1]%R 1);
    [right; reflexivity|cbn; lia|lia|apply ex_operand; reflexivity|apply ex_operand; reflexivity|unfold conformable; lia|apply ex_number|unfold fits; lia|lia
    |exact (ex_ola_fft 1 _ 2)|cbn; lia|exact ex_one_runs|right; reflexivity|reflexivity].
Qed.
Example C84_zero_ex : conv_gateway (ex_ola 1 (one_worker 7) 1) Octave KOla 1
     [mat 2 2 [1; 2; 3; 4]%R; mat 2 1 [1; -1]%R; mat 1 1 [0]%R] = UB UB_oob_write.
Proof.
  apply (C84_zero_refuted (ex_ola 1 (one_worker 7) 1) Octave 1 (mat 2 2 [1; 2; 3; 4]%R) (mat 2 1 [1; -1]%R) (mat 1 1 [0]%R)
     2 2 [1; 2; 3; 4]%R 2 1 [1; -1]%R);
    [left; reflexivity|cbn; lia|lia|apply ex_operand; reflexivity|apply ex_operand; reflexivity|unfold conformable; lia|apply ex_number
    |exact (ex_ola_fft 1 _ 1)|cbn; lia|exact ex_one_runs].
Qed.
Example C84_in_place_ex : exists Y, conv_gateway (ex_ola 2 (round_robin 4 2) 2) Matlab KOla 0
     [mat 2 2 [1; 2; 3; 4]%R; mat 2 2 [1; -1; 0; 1]%R; mat 1 1 [1]%R; mat 3 2 [10; 0; 0; 0; 0; 0]%R; VStr "="]
    = Ok (Some (CInPlace Y)) /\ nth_error Y 0 = Some (Some 11%R).
Proof.
  destruct (C84_in_place_refuted (ex_ola 2 (round_robin 4 2) 2) Matlab (mat 2 2 [1; 2; 3; 4]%R) (mat 2 2 [1; -1; 0; 1]%R) (mat 1 1 [1]%R)
     2 2 [1; 2; 3; 4]%R 2 2 [1; -1; 0; 1]%R 1 [10; 0; 0; 0; 0; 0]%R [VStr "="]) as (Y & E & _ & H);
    [right; reflexivity|cbn; lia|right; reflexivity|apply ex_operand; reflexivity|apply ex_operand; reflexivity|unfold conformable; lia|apply ex_number|unfold fits; lia|lia
    |exact (ex_ola_fft 2 _ 2)|cbn; lia|exact ex_runs|left; lia|unfold has_size; cbn; lia|].
  exists Y. split; [exact E|].
  etransitivity; [apply (H 0%nat 0%nat); cbn; lia|]. unfold product, cauchy, a_col, b_col. pnat. do 2 f_equal. lra.
Qed.
