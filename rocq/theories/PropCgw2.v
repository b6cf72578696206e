(** PropCgw2.v - property theorems about complete calls of the convolution
    functions: the mode argument (C54), the result (C55), memory safety (C56),
    the output being an input (C57), CTRL-C (C58). *)
From Coq Require Strings.String Strings.Ascii.
Import Coq.Strings.String.StringSyntax.
From Coq Require Import Reals Lra.
From Verif Require Import Base BaseLemmas ModelSir ModelArr ModelSmp ModelConv NumR SpecDft SpecSir SpecSmp SpecConv
  ProofsLoop ProofsSmp ProofsSmp2 ProofsDft ProofsConv ProofsConvR ProofsCols ProofsOla PropConv ModelGw ProofsGw SpecGwR ModelCgw SpecCgw ProofsCgw ProofsCgw2 ProofsR.
From Coq Require Import ZifyBool ZifyNat.
Ltac Zify.zify_post_hook ::= Z.div_mod_to_equations.
Local Open Scope string_scope.
Open Scope Z_scope.

(** ** C54: the mode argument *)

Lemma mode_of_string_doc s m : mode_of_string s = Some m <-> documented_mode s m.
Proof.
  unfold mode_of_string, documented_mode.
  destruct (String.eqb_spec s "=") as [->|H1]; [split; [intros [= <-]; auto|intros [[_ ->]|[[E _]|[E _]]]; auto; discriminate]|].
  destruct (String.eqb_spec s "+=") as [->|H2]; [split; [intros [= <-]; auto|intros [[E _]|[[_ ->]|[E _]]]; auto; discriminate]|].
  destruct (String.eqb_spec s "-=") as [->|H3]; [split; [intros [= <-]; auto|intros [[E _]|[[E _]|[_ ->]]]; auto; discriminate]|].
  split; [discriminate|]. intros [[E _]|[[E _]|[E _]]]; contradiction.
Qed.
Lemma mode_none s : (forall m, ~ documented_mode s m) -> mode_of_string s = None.
Proof. intros H. destruct (mode_of_string s) as [m|] eqn:E; auto. apply mode_of_string_doc in E. destruct (H m E). Qed.

(** Octave or MATLAB, the mode given as last argument: every string other
    than '=', '+=' and '-=' is refused (fftconv_p and fftconv_ola: unless FFTW
    accepts it as wisdom).  MATLAB strings without NUL characters. *)
Theorem C54_unknown_rejected : forall (N : Num) (mc : machine N) fe f nlhs va vb vn vy s,
  fe = Octave \/ (fe = Matlab /\ c_str s = s) ->
  (forall m, ~ documented_mode s m) -> (f = KConv \/ mc_import mc s = false) ->
  conv_gateway mc fe f nlhs (match f with KOla => [va; vb; vn; vy; VStr s] | _ => [va; vb; vy; VStr s] end) = Ok (Some CRejected).
Proof.
  intros N mc fe f nlhs va vb vn vy s Hfe Hs Hw.
  assert (Hh : has_fun fe f = true) by (destruct Hfe as [->|[-> _]]; destruct f; reflexivity). unfold conv_gateway. rewrite Hh. cbn [negb].
  assert (Es : conv_str fe s = s) by (destruct Hfe as [->|[-> E]]; auto).
  assert (Hp : parse_cargs (mc_import mc) fe f nlhs (match f with KOla => [va; vb; vn; vy; VStr s] | _ => [va; vb; vy; VStr s] end) = None).
  { assert (HO : fe = Octave \/ fe = Matlab) by (destruct Hfe as [->|[-> _]]; auto).
    assert (Hc : parse_conv fe nlhs [va; vb; vy; VStr s] = None).
    { cbn [parse_conv is_string str_of]. now rewrite Es, mode_none. }
    assert (Hf : mc_import mc s = false -> parse_fft (mc_import mc) fe nlhs [vy; VStr s] = None).
    { intros Hi. unfold parse_fft. destruct (2 <? nlhs); [reflexivity|]. cbn [is_string str_of]. rewrite Es, mode_none by exact Hs.
      unfold load. rewrite Hi. destruct (is_wisdom s); reflexivity. }
    destruct f, HO as [->| ->]; cbn [parse_cargs]; auto; destruct Hw as [Hw|Hw]; auto; discriminate. }
  rewrite Hp. reflexivity.
Qed.
Print Assumptions C54_unknown_rejected.

(** Refuted for conv_p: a mode argument that is not a string is not refused:
    the call is the same as with '='. *)
Theorem C54_refuted_not_a_string : forall (N : Num) (mc : machine N) fe nlhs va vb vy st m n d,
  fe = Octave \/ fe = Matlab ->
  conv_gateway mc fe KConv nlhs [va; vb; vy; VNum st m n d] = conv_gateway mc fe KConv nlhs [va; vb; vy; VStr "="].
Proof. intros N mc fe nlhs va vb vy st m n d [-> | ->]; reflexivity. Qed.
Print Assumptions C54_refuted_not_a_string.

(** Refuted for fftconv_p and fftconv_ola: when a wisdom string follows, the
    mode is not looked at: '=', '+=', '-=' and any other value give the same
    call, the one of '='. *)
Theorem C54_refuted_mode_ignored : forall (N : Num) (mc : machine N) fe f nlhs va vb vn vy m1 m2 w,
  f <> KConv ->
  let args m := match f with KOla => [va; vb; vn; vy; m; w] | _ => [va; vb; vy; m; w] end in
  conv_gateway mc fe f nlhs (args m1) = conv_gateway mc fe f nlhs (args m2).
Proof.
  intros N mc fe f nlhs va vb vn vy m1 m2 w Hf args. unfold args.
  destruct f; [congruence| |]; unfold conv_gateway; destruct fe; cbn [has_fun negb parse_cargs]; reflexivity.
Qed.
Print Assumptions C54_refuted_mode_ignored.

(** ** C55: complete calls return the convolution *)

(** The result is a new matrix.  conv_p in Octave, MATLAB and Julia,
    fftconv_p also in Python (exact transforms): whatever the matrices, the
    number of workers, the interleaving and the contents of fresh memory, a
    call that is not interrupted returns the (M+K-1) x N matrix of the
    convolutions of A's columns with B's - in Octave: unless that is 1 x 1. *)
Theorem C55_new_matrix_partial : forall mc fe f nlhs va vb am an a bm bn b,
  available fe f -> f <> KOla -> 0 <= mc_hw mc -> 0 <= nlhs <= 1 ->
  operand va am an a -> operand vb bm bn b -> conformable am an bm bn ->
  (f = KFft -> exact_fft mc (am + b_rows bm bn - 1)) ->
  runs_to_end (mc_hw mc) (mc_env mc) an (mc_sch mc) ->
  (fe = Octave -> ~ (am + b_rows bm bn - 1 = 1 /\ an = 1)) ->
  exists Y, conv_gateway mc fe f nlhs [va; vb] = Ok (Some (CReturned (am + b_rows bm bn - 1) an Y)) /\
    matrix_is Y (Z.to_nat (am + b_rows bm bn - 1)) (Z.to_nat an) (product am a bm bn b).
Proof.
  intros mc fe f nlhs va vb am an a bm bn b Hav Hf Hhw Hn Ha Hb Hc Hfft [Hcc Hfair] H11.
  pose proof (proj1 (available_has fe f) Hav) as Hh.
  pose proof (b_rows_pos _ _ _ _ Hc) as Hbr. pose proof Hc as (H1 & H2 & H3 & H4 & H5).
  assert (La : Z.of_nat (length a) = am * an) by (destruct Ha as (? & ? & ? & ?); assumption).
  assert (Lb : Z.of_nat (length b) = bm * bn) by (destruct Hb as (? & ? & ? & ?); assumption).
  assert (Hp : parse_cargs (mc_import mc) fe f nlhs [va; vb] = Some normal).
  { destruct fe, f; try congruence; try discriminate Hh; cbn [parse_cargs parse_conv parse_fft];
      try (replace (nlhs <=? 1) with true by lia); try (unfold parse_fft; replace (2 <? nlhs) with false by lia); reflexivity. }
  rewrite (conv_gw_unfold mc fe f nlhs va vb [] am an a bm bn b normal Hh Hf Hp Ha Hb Hc).
  set (rows := am + b_rows bm bn - 1) in *.
  assert (HY : exists Y, out_array fe f normal rows an (mc_junk mc) [va; vb] = Ok (Some Y) /\ length Y = Z.to_nat (an * rows)).
  { unfold out_array. cbn [normal c_inplace].
    assert (La' : length (alloc (mc_junk mc) (Z.to_nat (rows * an))) = Z.to_nat (an * rows)) by (rewrite alloc_length; f_equal; lia).
    assert (E11 : fe = Octave -> (rows * an =? 1) = false).
    { intros E. specialize (H11 E). fold rows in H11. apply Z.eqb_neq. intros X. apply H11.
      assert (rows = 1) by (apply Z.eq_mul_1_nonneg with an; lia). nia. }
    destruct fe, f; try congruence; try discriminate Hh; try (rewrite E11 by reflexivity); eauto.
    - rewrite sir_clear_alloc by lia. cbn [bind]. eexists. split; [reflexivity|]. unfold zeros. rewrite repeat_length. f_equal. lia.
    - eexists. split; [reflexivity|]. rewrite repeat_length. f_equal. lia.
    - eexists. split; [reflexivity|]. rewrite repeat_length. f_equal. lia. }
  destruct HY as (Y & -> & LY). cbn [bind normal c_inplace c_mode andb].
  destruct (num_threads_ok (mc_hw mc) (mc_env mc) an Hhw ltac:(lia)) as (Hth & _).
  destruct (conv_core mc f am an a bm bn b cm_equ (num_threads (mc_hw mc) (mc_env mc) an) (mc_sch mc) Y Hf Hc La Lb Hfft Hth LY)
    as (r & Er & Hfa & Hr). fold rows in Er, Hfa, Hr. rewrite Er. cbn [bind].
  destruct r as [[Y' running]|]; [|destruct (Hfa Hfair eq_refl)].
  destruct (Hr Y' running eq_refl) as (L & Hrun & Hall & _). specialize (Hrun Hcc). subst running.
  exists Y'. split; [destruct fe; reflexivity|].
  apply matrix_from_columns; try lia. intros n k Hn' Hk. rewrite (Hall eq_refl n k Hn' Hk). reflexivity.
Qed.
Print Assumptions C55_new_matrix_partial.

(** Refuted: in Octave the product of two numbers, conv_p(a, b) or
    fftconv_p(a, b), is written to memory that was freed. *)
Theorem C55_scalar_refuted : forall (N : Num) (mc : machine N) f nlhs st1 st2 (a b : N),
  f <> KOla -> 0 <= nlhs <= 1 ->
  conv_gateway mc Octave f nlhs [VNum st1 1 1 [a]; VNum st2 1 1 [b]] = UB UB_oob_write.
Proof.
  intros N mc f nlhs st1 st2 a b Hf Hn. unfold conv_gateway.
  assert (Hp : parse_cargs (mc_import mc) Octave f nlhs [VNum st1 1 1 [a]; VNum st2 1 1 [b]] = Some normal).
  { destruct f; try congruence; cbn [parse_cargs parse_conv]; [replace (nlhs <=? 1) with true by lia; reflexivity|].
    unfold parse_fft. replace (2 <? nlhs) with false by lia. reflexivity. }
  rewrite Hp. destruct f; [| |congruence].
  - destruct st1, st2; reflexivity.
  - assert (E : sir_clear 1 1 (alloc (mc_junk mc) (Z.to_nat (1 * 1))) = Ok (zeros (N:=N) (1 * 1))) by (apply sir_clear_alloc; lia).
    destruct st1, st2; cbn [has_fun negb arg nth_error bind gw_data get_m get_n cols_of check_B block_arg Z.eqb Pos.eqb andb orb];
      change (1 + 1 * 1 - 1) with 1; change (1 <? 0) with false; cbv iota; unfold out_array; cbn [normal c_inplace];
      rewrite E; reflexivity.
Qed.
Print Assumptions C55_scalar_refuted.

(** In-place calls (Octave, MATLAB), the output a full matrix different from
    the inputs: it is replaced by, increased by or decreased by the
    convolution, as the mode says. *)
Theorem C55_in_place : forall mc fe f va vb s mode am an a bm bn b y,
  fe = Octave \/ fe = Matlab -> f <> KOla -> 0 <= mc_hw mc -> documented_mode s mode ->
  operand va am an a -> operand vb bm bn b -> conformable am an bm bn -> mc_ax mc = false -> mc_ay mc = false ->
  (f = KFft -> exact_fft mc (am + b_rows bm bn - 1)) ->
  runs_to_end (mc_hw mc) (mc_env mc) an (mc_sch mc) ->
  let rows := am + b_rows bm bn - 1 in
  has_size rows an y ->
  exists Y, conv_gateway mc fe f 0 [va; vb; mat rows an y; VStr s] = Ok (Some (CInPlace Y)) /\
    matrix_is Y (Z.to_nat rows) (Z.to_nat an)
      (fun n k => combr mode (nth (n * Z.to_nat rows + k) y 0%R) (product am a bm bn b n k)).
Proof.
  intros mc fe f va vb s mode am an a bm bn b y Hfe Hf Hhw Hs Ha Hb Hc Hax Hay Hfft [Hcc Hfair] rows (_ & _ & Ly).
  pose proof (b_rows_pos _ _ _ _ Hc) as Hbr. pose proof Hc as (H1 & H2 & H3 & H4 & H5).
  assert (La : Z.of_nat (length a) = am * an) by (destruct Ha as (? & ? & ? & ?); assumption).
  assert (Lb : Z.of_nat (length b) = bm * bn) by (destruct Hb as (? & ? & ? & ?); assumption).
  assert (Hh : has_fun fe f = true) by (destruct Hfe as [->| ->], f; reflexivity).
  assert (Es : conv_str fe s = s).
  { destruct Hfe as [->| ->]; [reflexivity|]. destruct Hs as [[-> _]|[[-> _]|[-> _]]]; reflexivity. }
  assert (Hp : parse_cargs (mc_import mc) fe f 0 [va; vb; mat rows an y; VStr s] = Some {| c_mode := mode; c_inplace := true |}).
  { apply mode_of_string_doc in Hs. destruct Hfe as [->| ->], f; try congruence; cbn [parse_cargs parse_conv parse_fft is_string str_of];
      unfold parse_fft; change (2 <? 0) with false; cbn [is_string str_of]; rewrite Es, Hs; reflexivity. }
  rewrite (conv_gw_unfold mc fe f 0 va vb [mat rows an y; VStr s] am an a bm bn b _ Hh Hf Hp Ha Hb Hc).
  fold rows.
  assert (HY : out_array fe f {| c_mode := mode; c_inplace := true |} rows an (mc_junk mc) [va; vb; mat rows an y; VStr s] = Ok (Some (exact y))).
  { unfold out_array. cbn [c_inplace]. replace (y_pos f) with 2%nat by (destruct f; [reflexivity|reflexivity|congruence]).
    cbn [arg nth_error bind mat get_m get_n]. rewrite !Z.eqb_refl. cbn [negb orb]. destruct Hfe as [->| ->]; reflexivity. }
  rewrite HY. cbn [bind c_inplace c_mode andb]. rewrite Hax, Hay.
  destruct (num_threads_ok (mc_hw mc) (mc_env mc) an Hhw ltac:(lia)) as (Hth & _).
  assert (LY : length (exact y) = Z.to_nat (an * rows)) by (unfold exact; rewrite map_length; lia).
  destruct (conv_core mc f am an a bm bn b mode (num_threads (mc_hw mc) (mc_env mc) an) (mc_sch mc) (exact y) Hf Hc La Lb Hfft Hth LY)
    as (r & Er & Hfa & Hr). fold rows in Er, Hfa, Hr. rewrite Er. cbn [bind].
  destruct r as [[Y' running]|]; [|destruct (Hfa Hfair eq_refl)].
  destruct (Hr Y' running eq_refl) as (L & Hrun & Hall & _). specialize (Hrun Hcc). subst running.
  exists Y'. split; [destruct Hfe as [->| ->]; reflexivity|].
  apply matrix_from_columns; try lia.
  intros n k Hn' Hk. rewrite (Hall eq_refl n k Hn' Hk).
  replace (Z.to_nat n * Z.to_nat rows + k)%nat with (Z.to_nat (n * rows) + k)%nat by nia.
  etransitivity; [apply (f_equal (fun v => comb (N:=EN) mode v (Some (product am a bm bn b (Z.to_nat n) k)))); exact (nth_reals y (Z.to_nat (n * rows) + k))|].
  destruct mode; reflexivity.
Qed.
Print Assumptions C55_in_place.

(** An output matrix of the wrong size is refused. *)
Theorem C55_output_size : forall mc fe f va vb s mode am an a bm bn b st ym yn y,
  fe = Octave \/ fe = Matlab -> f <> KOla -> documented_mode s mode ->
  operand va am an a -> operand vb bm bn b -> conformable am an bm bn ->
  ym <> am + b_rows bm bn - 1 \/ yn <> an ->
  conv_gateway mc fe f 0 [va; vb; VNum st ym yn y; VStr s] = Ok (Some CRejected).
Proof.
  intros mc fe f va vb s mode am an a bm bn b st ym yn y Hfe Hf Hs Ha Hb Hc Hy.
  assert (Hh : has_fun fe f = true) by (destruct Hfe as [->| ->], f; reflexivity).
  assert (Es : conv_str fe s = s).
  { destruct Hfe as [->| ->]; [reflexivity|]. destruct Hs as [[-> _]|[[-> _]|[-> _]]]; reflexivity. }
  assert (Hp : parse_cargs (mc_import mc) fe f 0 [va; vb; VNum st ym yn y; VStr s] = Some {| c_mode := mode; c_inplace := true |}).
  { apply mode_of_string_doc in Hs. destruct Hfe as [->| ->], f; try congruence; cbn [parse_cargs parse_conv parse_fft is_string str_of];
      unfold parse_fft; change (2 <? 0) with false; cbn [is_string str_of]; rewrite Es, Hs; reflexivity. }
  rewrite (conv_gw_unfold mc fe f 0 va vb [VNum st ym yn y; VStr s] am an a bm bn b _ Hh Hf Hp Ha Hb Hc).
  unfold out_array. cbn [c_inplace]. replace (y_pos f) with 2%nat by (destruct f; [reflexivity|reflexivity|congruence]).
  cbn [arg nth_error bind get_m get_n]. replace (_ || _)%bool with true by lia. reflexivity.
Qed.
Print Assumptions C55_output_size.

(** Operands whose sizes do not fit are refused. *)
Theorem C55_sizes : forall (N : Num) mc fe f nlhs (va vb : value N) rest,
  (exists A, gw_data fe va = Ok A) -> (exists B, gw_data fe vb = Ok B) ->
  get_m vb <> 1 -> cols_of vb <> 1 -> cols_of vb <> cols_of va ->
  conv_gateway mc fe f nlhs (va :: vb :: rest) = Ok (Some CRejected).
Proof.
  intros N mc fe f nlhs va vb rest (A & HA) (B & HB) H1 H2 H3. unfold conv_gateway. destruct (has_fun fe f); [|reflexivity].
  cbn [negb]. destruct (parse_cargs _ _ _ _ _); [|reflexivity]. cbn [arg nth_error bind]. rewrite HA, HB. cbn [bind].
  unfold check_B. replace (_ && _)%bool with true by lia. reflexivity.
Qed.
Print Assumptions C55_sizes.

(** Witnesses: a 2 x 2 matrix and a row vector, Julia; the same in place with
    '-=' in MATLAB. *)
Definition ex_mc (sch : list event) : machine EN :=
  {| mc_hw := 2; mc_env := None; mc_sch := sch; mc_junk := [];
     mc_plan := fun L => dft_plan (Z.to_nat L) junk_trash; mc_import := fun _ => false;
     mc_scr := fun _ => junk_scratch 3; mc_loc := fun _ => (junk_scratch 3, [], []); mc_fuel := 0; mc_ax := false; mc_ay := false |}.
Lemma ex_runs : runs_to_end 2 None 2 (round_robin 4 2).
Proof.
  split. { intros Hin. vm_compute in Hin. repeat (destruct Hin as [Hin|Hin]; [discriminate|]). exact Hin. }
  change (num_threads 2 None 2) with 2. intros i Hi. assert (i = 0 \/ i = 1) as [->| ->] by lia; vm_compute; discriminate.
Qed.
Lemma ex_operand m n d : Z.of_nat (length d) = m * n -> operand (mat m n d) m n d.
Proof. intros H. exists Full. split; [reflexivity|]. split; [discriminate|exact H]. Qed.
Lemma ex_fft sch : exact_fft (ex_mc sch) 3.
Proof.
  split; [exists junk_trash; split; [intros X; unfold junk_trash; apply map_length|reflexivity]|].
  intros n. exact (junk_ok 3).
Qed.
Ltac ex_dis := first [ unfold available; (left; reflexivity) || (right; left; reflexivity) || (right; right; left; split; [reflexivity|discriminate]) || (right; right; right; split; reflexivity) | exact ex_runs | apply ex_operand; reflexivity | intros _; apply ex_fft | discriminate | reflexivity
  | unfold conformable; lia | unfold has_size; cbn; lia | unfold documented_mode; tauto | left; reflexivity | right; reflexivity | cbn; lia ].
Example C55_ex : exists Y, conv_gateway (ex_mc (round_robin 4 2)) Julia KConv 1 [mat 2 2 [1; 2; 3; 4]%R; mat 1 2 [1; -1]%R]
    = Ok (Some (CReturned 3 2 Y)) /\ nth_error Y 2 = Some (Some (-2)%R) /\ nth_error Y 4 = Some (Some 1%R).
Proof.
  destruct (C55_new_matrix_partial (ex_mc (round_robin 4 2)) Julia KConv 1 (mat 2 2 [1; 2; 3; 4]%R) (mat 1 2 [1; -1]%R) 2 2 [1; 2; 3; 4]%R 1 2 [1; -1]%R)
    as (Y & E & _ & H); [ex_dis ..|].
  exists Y. split; [exact E|]. split.
  - etransitivity; [apply (H 0%nat 2%nat); cbn; lia|]. unfold product, cauchy, a_col, b_col. pnat. do 2 f_equal. lra.
  - etransitivity; [apply (H 1%nat 1%nat); cbn; lia|]. unfold product, cauchy, a_col, b_col. pnat. do 2 f_equal. lra.
Qed.
Example C55_ex_inplace : exists Y, conv_gateway (ex_mc (round_robin 4 2)) Matlab KFft 0
     [mat 2 2 [1; 2; 3; 4]%R; mat 1 2 [1; -1]%R; mat 3 2 [0; 0; 10; 0; 20; 0]%R; VStr "-="]
    = Ok (Some (CInPlace Y)) /\ nth_error Y 2 = Some (Some 12%R) /\ nth_error Y 4 = Some (Some 19%R).
Proof.
  destruct (C55_in_place (ex_mc (round_robin 4 2)) Matlab KFft (mat 2 2 [1; 2; 3; 4]%R) (mat 1 2 [1; -1]%R) "-=" cm_neg 2 2 [1; 2; 3; 4]%R 1 2 [1; -1]%R
    [0; 0; 10; 0; 20; 0]%R)
    as (Y & E & _ & H); [ex_dis ..|].
  exists Y. split; [exact E|]. split.
  - etransitivity; [apply (H 0%nat 2%nat); cbn; lia|]. unfold product, cauchy, a_col, b_col. pnat. do 2 f_equal. lra.
  - etransitivity; [apply (H 1%nat 1%nat); cbn; lia|]. unfold product, cauchy, a_col, b_col. pnat. do 2 f_equal. lra.
Qed.
