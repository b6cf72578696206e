(** PropSgw.v - property theorems about complete calls of sum_fftconv: the
    result (C77), in-place calls (C78), CTRL-C (C79), refused arguments and
    wisdom strings (C80). *)
From Coq Require Strings.String Strings.Ascii.
Import Coq.Strings.String.StringSyntax.
From Coq Require Import Reals Lra.
From Verif Require Import Base BaseLemmas ModelSir ModelArr ModelSmp ModelConv NumR SpecDft SpecSir SpecSmp SpecConv
  ProofsLoop ProofsSmp ProofsSmp2 ProofsDft ProofsConv ProofsConvR ProofsCols ProofsOla ProofsEnum PropConv ModelGw ProofsGw SpecGwR ModelCgw SpecCgw
  ProofsCgw ProofsCgw2 PropCgw2 ProofsCgw3 PropCgw4 ProofsR ModelSgw SpecSgw ProofsSgw.
From Coq Require Import ZifyBool ZifyNat.
Ltac Zify.zify_post_hook ::= Z.div_mod_to_equations.
Local Open Scope string_scope.
Open Scope Z_scope.

(** ** C77: Y = sum_fftconv(H, U) *)

(** H an M x N x L array, U a K x L matrix held in any way, M >= 1, K >= 2:
    whatever the numbers, the workers, the interleaving and the contents of
    fresh memory, a call that is not interrupted returns the (M+K-1) x N matrix
    of the help text. *)
Theorem C77_new_matrix_partial : forall mc fe nlhs hm hn hl h vu um u,
  fe = Octave \/ fe = Matlab -> 0 <= nlhs <= 2 -> 0 <= mc_hw mc ->
  1 <= hm -> has_size3 hm hn hl h -> operand vu um hl u -> 2 <= um ->
  exact_fft mc (hm + um - 1) -> runs_to_end (mc_hw mc) (mc_env mc) hn (mc_sch mc) ->
  exists Y, sum_gateway mc fe nlhs (arr3 hm hn hl h) [vu] = Ok (Some (CReturned (hm + um - 1) hn Y)) /\
    matrix_is Y (Z.to_nat (hm + um - 1)) (Z.to_nat hn) (documented_sum hm hn hl h um u).
Proof.
  intros mc fe nlhs hm hn hl h vu um u Hfe Hn Hhw Hhm Hh Hu Hum Hfft [Hcc Hfair].
  pose proof Hh as (_ & Hhn & Hhl & Hl1 & Lh).
  assert (Lu : Z.of_nat (length u) = um * hl) by (destruct Hu as (? & ? & ? & ?); assumption).
  rewrite (sum_unfold mc fe nlhs hm hn hl h vu [] um u normal Hfe Hn Hu Hum Hl1 Hhm eq_refl).
  set (rows := hm + um - 1) in *.
  assert (HY : sum_out fe normal rows hn (mc_junk mc) [] = Ok (Some (zeros (N:=EN) (rows * hn)))).
  { unfold sum_out. cbn [normal c_inplace].
    assert (E11 : (rows * hn =? 1) = false).
    { apply Z.eqb_neq. intros X. assert (rows = 1) by (apply Z.eq_mul_1_nonneg with hn; lia). lia. }
    destruct Hfe as [->| ->].
    - rewrite sir_clear_alloc by lia. cbn [bind]. now rewrite E11.
    - unfold sir_clear. rewrite clear_zeros by (now rewrite repeat_length). reflexivity. }
  rewrite HY. cbn [bind normal c_mode].
  destruct (num_threads_ok (mc_hw mc) (mc_env mc) hn Hhw Hhn) as (Hth & _).
  assert (LY : length (zeros (N:=EN) (rows * hn)) = Z.to_nat (hn * rows)) by (unfold zeros; rewrite repeat_length; f_equal; lia).
  destruct (sum_core mc hm hn hl h um u cm_equ (num_threads (mc_hw mc) (mc_env mc) hn) (mc_sch mc) _ Hhm Hh ltac:(lia) Lu Hth Hfft LY)
    as (r & Er & Hfa & Hr). fold rows in Er, Hfa, Hr. rewrite Er. cbn [bind].
  destruct r as [[Y' running]|]; [|destruct (Hfa Hfair eq_refl)].
  destruct (Hr Y' running eq_refl) as (L & Hrun & Hall & _). specialize (Hrun Hcc). subst running.
  exists Y'. split; [reflexivity|].
  apply matrix_from_columns; try lia. intros n k Hn' Hk. rewrite (Hall eq_refl n k Hn' Hk). reflexivity.
Qed.
Print Assumptions C77_new_matrix_partial.

(** Refuted: U one row (K = 1, one sample for each of L >= 2 inputs) is taken
    as one signal of L samples.  No call gets to its end, and an uninterrupted
    one reads outside U. *)
Theorem C77_row_refuted : forall (N : Num) (mc : machine N) fe nlhs hm hn hl h st u,
  fe = Octave \/ fe = Matlab -> 0 <= nlhs <= 2 -> 0 <= mc_hw mc ->
  1 <= hm -> 1 <= hn -> 2 <= hl -> Z.of_nat (length h) = hm * hn * hl -> Z.of_nat (length u) = hl ->
  plan_ok (mc_plan mc (hm + hl - 1)) -> fp_len (mc_plan mc (hm + hl - 1)) = hm + hl - 1 ->
  (forall n, scratch_ok (hm + hl - 1) (mc_scr mc n)) ->
  let c := sum_gateway mc fe nlhs (H3 hm hn hl h) [VNum st 1 hl u] in
  (no_ctrlc (mc_sch mc) -> forall r k Y, c <> Ok (Some (CReturned r k Y))) /\
  (runs_to_end (mc_hw mc) (mc_env mc) hn (mc_sch mc) -> exists b, c = UB b \/ c = Diverge).
Proof.
  intros N mc fe nlhs hm hn hl h st u Hfe Hn Hhw Hhm Hhn Hhl Lh Lu Hp Hpl Hs c.
  set (rows := hm + hl - 1) in *.
  assert (Ec : c = do r <- cols_call (sum_fftconv_point (mc_plan mc rows) (pages hm hn hl h) hl hm u hl cm_equ (mc_scr mc))
        hn (num_threads (mc_hw mc) (mc_env mc) hn) (mc_sch mc) (zeros (rows * hn));
      match r with
      | None => Ok None
      | Some (Y', running) => Ok (Some (sum_finish fe normal rows hn Y' running))
      end).
  { unfold c, sum_gateway. cbn [parse_sum].
    assert (Hd : gw_data fe (VNum st 1 hl u) = Ok u) by (destruct fe, st; reflexivity).
    rewrite Hd. cbn [bind get_m get_n]. unfold check_U. rewrite Z.eqb_refl. change (1 =? 1) with true. cbn [negb orb].
    replace (2 <? nlhs) with false by lia.
    replace (hm + 1 * hl - 1) with rows by (unfold rows; lia). replace (rows <? 0) with false by lia.
    replace (1 * hl) with hl by lia.
    assert (E11 : (rows * hn =? 1) = false).
    { apply Z.eqb_neq. intros X. assert (rows = 1) by (apply Z.eq_mul_1_nonneg with hn; lia). lia. }
    unfold sum_out. cbn [normal c_inplace].
    destruct Hfe as [->| ->].
    - rewrite sir_clear_alloc by lia. cbn [bind]. rewrite E11. reflexivity.
    - unfold sir_clear. rewrite clear_zeros by (now rewrite repeat_length). reflexivity. }
  rewrite Ec. clear Ec c.
  destruct (num_threads_ok (mc_hw mc) (mc_env mc) hn Hhw ltac:(lia)) as (Hth & _).
  assert (Hlp : length (pages hm hn hl h) = Z.to_nat hl) by (unfold pages; now rewrite map_length, seq_length).
  destruct (gen_bad (sum_fftconv_point (mc_plan mc rows) (pages hm hn hl h) hl hm u hl cm_equ (mc_scr mc))
      hn (num_threads (mc_hw mc) (mc_env mc) hn) 0) with (Y0 := zeros (N:=N) (rows * hn)) (sch := mc_sch mc) as (_ & G); auto; try lia.
  { intros n Y Y' e. unfold sum_fftconv_point. destruct (add_fftconv _ _ _ _ _ _ _ _ _ _ _) as [[? ?]|?|]; cbn [bind]; try discriminate. now intros [= _ <-]. }
  { intros Y1 s. rewrite (sum_point_row (mc_plan mc rows) u (pages hm hn hl h) hm hn hl cm_equ (mc_scr mc) 0 Y1); auto; try lia; try discriminate.
    intros g Hg. unfold pages in Hg. apply in_map_iff in Hg as (k & <- & Hk). apply in_seq in Hk. rewrite skipn_length.
    assert (0 <= hm * hn) by nia. assert (hm * hn * (Z.of_nat k + 1) <= hm * hn * hl) by nia. nia. }
  split.
  - intros Hcc r k Y'. destruct (G Hcc) as (G1 & _).
    destruct (cols_call _ _ _ _ _) as [[[Y1 r1]|]|?|]; cbn [bind]; try discriminate. exfalso. exact (G1 Y1 r1 eq_refl).
  - intros [Hcc Hf]. destruct (G Hcc) as (_ & G2). specialize (G2 Hf).
    destruct (cols_call _ _ _ _ _) as [x|b|]; cbn [bind].
    + destruct (G2 x eq_refl).
    + exists b. now left.
    + exists UB_cast. now right.
Qed.
Print Assumptions C77_row_refuted.

(** ** C78: sum_fftconv(H, U, Y) *)

(** In place: MATLAB stores the result in Y, Octave adds it. *)
Lemma in_place mc fe hm hn hl h vu um u y :
  fe = Octave \/ fe = Matlab -> 0 <= mc_hw mc ->
  1 <= hm -> has_size3 hm hn hl h -> operand vu um hl u -> 2 <= um ->
  exact_fft mc (hm + um - 1) -> runs_to_end (mc_hw mc) (mc_env mc) hn (mc_sch mc) ->
  has_size (hm + um - 1) hn y ->
  exists Y, sum_gateway mc fe 0 (arr3 hm hn hl h) [vu; mat (hm + um - 1) hn y] = Ok (Some (CInPlace Y)) /\
    matrix_is Y (Z.to_nat (hm + um - 1)) (Z.to_nat hn)
      (fun n k => combr (match fe with Octave => cm_sum | _ => cm_equ end) (nth (n * Z.to_nat (hm + um - 1) + k) y 0%R)
                    (documented_sum hm hn hl h um u n k)).
Proof.
  intros Hfe Hhw Hhm Hh Hu Hum Hfft [Hcc Hfair] (_ & _ & Ly).
  pose proof Hh as (_ & Hhn & Hhl & Hl1 & Lh).
  assert (Lu : Z.of_nat (length u) = um * hl) by (destruct Hu as (? & ? & ? & ?); assumption).
  set (m := {| c_mode := match fe with Octave => cm_sum | _ => cm_equ end; c_inplace := true |}).
  set (rows := hm + um - 1) in *.
  rewrite (sum_unfold mc fe 0 hm hn hl h vu [mat rows hn y] um u m Hfe ltac:(lia) Hu Hum Hl1 Hhm) by (destruct Hfe as [->| ->]; reflexivity).
  fold rows.
  assert (HY : sum_out fe m rows hn (mc_junk mc) [mat rows hn y] = Ok (Some (exact y))).
  { unfold sum_out, m. cbn [c_inplace arg nth_error bind mat get_m get_n]. rewrite !Z.eqb_refl. cbn [negb orb].
    destruct Hfe as [->| ->]; reflexivity. }
  rewrite HY. cbn [bind].
  destruct (num_threads_ok (mc_hw mc) (mc_env mc) hn Hhw Hhn) as (Hth & _).
  assert (LY : length (exact y) = Z.to_nat (hn * rows)) by (unfold exact; rewrite map_length; lia).
  destruct (sum_core mc hm hn hl h um u (c_mode m) (num_threads (mc_hw mc) (mc_env mc) hn) (mc_sch mc) _ Hhm Hh ltac:(lia) Lu Hth Hfft LY)
    as (r & Er & Hfa & Hr). fold rows in Er, Hfa, Hr. rewrite Er. cbn [bind].
  destruct r as [[Y' running]|]; [|destruct (Hfa Hfair eq_refl)].
  destruct (Hr Y' running eq_refl) as (L & Hrun & Hall & _). specialize (Hrun Hcc). subst running.
  exists Y'. split; [reflexivity|].
  apply matrix_from_columns; try lia.
  intros n k Hn' Hk. rewrite (Hall eq_refl n k Hn' Hk).
  replace (Z.to_nat n * Z.to_nat rows + k)%nat with (Z.to_nat (n * rows) + k)%nat by nia.
  etransitivity; [apply (f_equal (fun v => comb (N:=EN) (match c_mode m with cm_sum => cm_sum | _ => cm_equ end) v
     (Some (documented_sum hm hn hl h um u (Z.to_nat n) k)))); exact (nth_reals y (Z.to_nat (n * rows) + k))|].
  destruct Hfe as [->| ->]; reflexivity.
Qed.

(** MATLAB: the output argument, whatever it held, holds the result. *)
Theorem C78_matlab_partial : forall mc hm hn hl h vu um u y,
  0 <= mc_hw mc -> 1 <= hm -> has_size3 hm hn hl h -> operand vu um hl u -> 2 <= um ->
  exact_fft mc (hm + um - 1) -> runs_to_end (mc_hw mc) (mc_env mc) hn (mc_sch mc) ->
  has_size (hm + um - 1) hn y ->
  exists Y, sum_gateway mc Matlab 0 (arr3 hm hn hl h) [vu; mat (hm + um - 1) hn y] = Ok (Some (CInPlace Y)) /\
    matrix_is Y (Z.to_nat (hm + um - 1)) (Z.to_nat hn) (documented_sum hm hn hl h um u).
Proof.
  intros mc hm hn hl h vu um u y H1 H2 H3 H4 H5 H6 H7 H8.
  exact (in_place mc Matlab hm hn hl h vu um u y (or_intror eq_refl) H1 H2 H3 H4 H5 H6 H7 H8).
Qed.
Print Assumptions C78_matlab_partial.

(** Refuted for Octave: the result is added to what the argument held, so the
    loop of the help text (the same Y in every pass) accumulates. *)
Theorem C78_octave_refuted : forall mc hm hn hl h vu um u y,
  0 <= mc_hw mc -> 1 <= hm -> has_size3 hm hn hl h -> operand vu um hl u -> 2 <= um ->
  exact_fft mc (hm + um - 1) -> runs_to_end (mc_hw mc) (mc_env mc) hn (mc_sch mc) ->
  has_size (hm + um - 1) hn y ->
  exists Y, sum_gateway mc Octave 0 (arr3 hm hn hl h) [vu; mat (hm + um - 1) hn y] = Ok (Some (CInPlace Y)) /\
    matrix_is Y (Z.to_nat (hm + um - 1)) (Z.to_nat hn)
      (fun n k => nth (n * Z.to_nat (hm + um - 1) + k) y 0 + documented_sum hm hn hl h um u n k)%R.
Proof.
  intros mc hm hn hl h vu um u y H1 H2 H3 H4 H5 H6 H7 H8.
  exact (in_place mc Octave hm hn hl h vu um u y (or_introl eq_refl) H1 H2 H3 H4 H5 H6 H7 H8).
Qed.
Print Assumptions C78_octave_refuted.

(** ** C79: CTRL-C *)

(** MATLAB: a call during which CTRL-C is pressed returns no matrix and does
    not end as if nothing had happened; any arguments, any schedule. *)
Theorem C79_matlab_partial : forall (N : Num) (mc : machine N) nlhs h args out,
  In CtrlC (mc_sch mc) -> sum_gateway mc Matlab nlhs h args = Ok (Some out) ->
  out = CRejected \/ out = CNoMemory \/ exists Y, out = CtrlCStop Y.
Proof.
  intros N mc nlhs h args out Hin. unfold sum_gateway.
  destruct (2 <? nlhs); [intros [= <-]; auto|].
  destruct h as [hm hn hl d|v]; [|intros [= <-]; auto]. destruct args as [|vu rest]; [intros [= <-]; auto|].
  destruct (parse_sum _ _ _ _) as [m|]; [|intros [= <-]; auto].
  destruct (gw_data _ vu) as [U|?|]; cbn [bind]; try discriminate.
  destruct (check_U _ _ _) as [[UM UN]|]; [|intros [= <-]; auto].
  destruct (_ <? 0); [intros [= <-]; auto|].
  destruct (sum_out _ _ _ _ _ _) as [[Y|]|?|]; cbn [bind]; try discriminate; [|intros [= <-]; auto].
  match goal with |- context [cols_call ?pt ?No ?nt ?sch ?Y] => destruct (cols_call pt No nt sch Y) as [[[Y' r]|]|?|] eqn:E end;
    cbn [bind]; try discriminate.
  pose proof (cols_call_stopped _ _ _ _ _ _ _ E Hin) as ->. intros [= <-]. right; right. exists Y'. reflexivity.
Qed.
Print Assumptions C79_matlab_partial.

(** Refuted for Octave: the message is printed and the call returns its
    matrix, in which every column is either complete or still zero. *)
Theorem C79_octave_refuted : forall mc nlhs hm hn hl h vu um u,
  0 <= nlhs <= 2 -> 0 <= mc_hw mc ->
  1 <= hm -> has_size3 hm hn hl h -> operand vu um hl u -> 2 <= um -> exact_fft mc (hm + um - 1) ->
  In CtrlC (mc_sch mc) ->
  (forall i, (0 <= i < num_threads (mc_hw mc) (mc_env mc) hn)%Z ->
    (3 * (part_stop i hn (num_threads (mc_hw mc) (mc_env mc) hn) - part_start i hn (num_threads (mc_hw mc) (mc_env mc) hn)) + 1
     <= steps_of (Z.to_nat i) (mc_sch mc))%Z) ->
  let rows := hm + um - 1 in
  exists Y, sum_gateway mc Octave nlhs (arr3 hm hn hl h) [vu] = Ok (Some (CPrinted (Some (rows, hn)) Y)) /\
    length Y = Z.to_nat (rows * hn) /\
    forall n, 0 <= n < hn ->
      (forall k, (k < Z.to_nat rows)%nat -> nth (Z.to_nat (n * rows) + k) Y (Some 0%R) = Some 0%R) \/
      (forall k, (k < Z.to_nat rows)%nat -> nth (Z.to_nat (n * rows) + k) Y (Some 0%R) = Some (documented_sum hm hn hl h um u (Z.to_nat n) k)).
Proof.
  intros mc nlhs hm hn hl h vu um u Hn Hhw Hhm Hh Hu Hum Hfft Hin Hfair rows.
  pose proof Hh as (_ & Hhn & Hhl & Hl1 & Lh).
  assert (Lu : Z.of_nat (length u) = um * hl) by (destruct Hu as (? & ? & ? & ?); assumption).
  rewrite (sum_unfold mc Octave nlhs hm hn hl h vu [] um u normal (or_introl eq_refl) Hn Hu Hum Hl1 Hhm eq_refl).
  fold rows.
  assert (E11 : (rows * hn =? 1) = false).
  { apply Z.eqb_neq. intros X. assert (rows = 1) by (apply Z.eq_mul_1_nonneg with hn; lia). lia. }
  unfold sum_out. cbn [normal c_inplace]. rewrite sir_clear_alloc by lia. cbn [bind]. rewrite E11. cbn [bind normal c_mode].
  destruct (num_threads_ok (mc_hw mc) (mc_env mc) hn Hhw Hhn) as (Hth & _).
  assert (LY : length (zeros (N:=EN) (rows * hn)) = Z.to_nat (hn * rows)) by (unfold zeros; rewrite repeat_length; f_equal; lia).
  destruct (sum_core mc hm hn hl h um u cm_equ (num_threads (mc_hw mc) (mc_env mc) hn) (mc_sch mc) _ Hhm Hh ltac:(lia) Lu Hth Hfft LY)
    as (r & Er & Hfa & Hr). fold rows in Er, Hfa, Hr. rewrite Er. cbn [bind].
  destruct r as [[Y' running]|]; [|destruct (Hfa Hfair eq_refl)].
  pose proof (cols_call_stopped _ _ _ _ _ _ _ Er Hin) as ->.
  destruct (Hr Y' false eq_refl) as (L & _ & _ & Hsome).
  exists Y'. split; [reflexivity|]. split; [rewrite L, LY; f_equal; lia|].
  intros n Hn'. destruct (Hsome n Hn') as [H|H]; [left|right]; intros k Hk; (etransitivity; [exact (H k Hk)|]); [|reflexivity].
  unfold zeros. rewrite nth_repeat. reflexivity.
Qed.
Print Assumptions C79_octave_refuted.

(** ** C80: refused arguments, wisdom strings *)

(** What is refused: a first argument that is not three dimensional, a number
    of columns of U other than L, an output argument of the wrong size or
    together with output variables, a fourth argument that is not a string,
    fewer than two or more than four arguments, more than two outputs. *)
Theorem C80_refused : forall (N : Num) (mc : machine N) fe nlhs hm hn hl h st um un u,
  fe = Octave \/ fe = Matlab ->
  (forall v args, sum_gateway mc fe nlhs (HOther v) args = Ok (Some CRejected)) /\
  (forall rest, un <> hl -> sum_gateway mc fe nlhs (H3 hm hn hl h) (VNum st um un u :: rest) = Ok (Some CRejected)) /\
  (forall vu sy ym yn y, 0 < nlhs -> sum_gateway mc fe nlhs (H3 hm hn hl h) [vu; VNum sy ym yn y] = Ok (Some CRejected)) /\
  (forall sy ym yn y rest, 2 <= um -> 2 <= hl -> un = hl -> 1 <= hm -> ym <> hm + um - 1 \/ yn <> hn ->
     (length rest <= 1)%nat -> sum_gateway mc fe nlhs (H3 hm hn hl h) (VNum st um un u :: VNum sy ym yn y :: rest) = Ok (Some CRejected)) /\
  (forall vu vy sw wm wn w, sum_gateway mc fe nlhs (H3 hm hn hl h) [vu; vy; VNum sw wm wn w] = Ok (Some CRejected)) /\
  (forall a, sum_gateway mc fe nlhs a [] = Ok (Some CRejected)) /\
  (forall a v1 v2 v3 v4 rest, sum_gateway mc fe nlhs a (v1 :: v2 :: v3 :: v4 :: rest) = Ok (Some CRejected)) /\
  (forall a args, 2 < nlhs -> sum_gateway mc fe nlhs a args = Ok (Some CRejected)).
Proof.
  intros N mc fe nlhs hm hn hl h st um un u Hfe.
  assert (Hd : forall fe st m n (d : list N), gw_data fe (VNum st m n d) = Ok d) by (intros []; reflexivity).
  assert (X : forall o, (if 2 <? nlhs then Ok (Some CRejected) else o) = o \/ (if 2 <? nlhs then Ok (Some (@CRejected N)) else o) = Ok (Some CRejected)).
  { intros o. destruct (2 <? nlhs); auto. }
  repeat split.
  - intros v args. unfold sum_gateway. destruct (2 <? nlhs); destruct Hfe as [->| ->]; reflexivity.
  - intros rest Hun. unfold sum_gateway. rewrite Hd. cbn [bind get_m get_n].
    replace (check_U hl um un) with (@None (Z * Z)) by (unfold check_U; replace (hl =? un) with false by lia; reflexivity).
    destruct (2 <? nlhs), Hfe as [->| ->]; try reflexivity; destruct (parse_sum _ _ _ _); reflexivity.
  - intros vu sy ym yn y Hn. unfold sum_gateway. cbn [parse_sum is_string]. replace (0 <? nlhs) with true by lia.
    destruct (2 <? nlhs); destruct Hfe as [->| ->]; reflexivity.
  - intros sy ym yn y rest Hum Hl Hun Hhm Hy Hr. unfold sum_gateway. rewrite Hd. cbn [bind get_m get_n].
    replace (check_U hl um un) with (Some (um, un)).
    2:{ unfold check_U. replace (hl =? un) with true by lia. cbn [negb]. replace (_ || _)%bool with false by lia. reflexivity. }
    replace (hm + um - 1 <? 0) with false by lia.
    assert (Ho : forall m, c_inplace m = true -> sum_out fe m (hm + um - 1) hn (mc_junk mc) (VNum sy ym yn y :: rest) = Ok None).
    { intros m Hm. unfold sum_out. rewrite Hm. cbn [arg nth_error bind get_m get_n].
      replace (_ || _)%bool with true by lia. reflexivity. }
    assert (Hp : forall m, parse_sum (mc_import mc) fe nlhs (VNum sy ym yn y :: rest) = Some m -> c_inplace m = true).
    { intros m. destruct rest as [|w [|? ?]]; cbn [parse_sum is_string]; try discriminate.
      - destruct (0 <? nlhs); [discriminate|]. now intros [= <-].
      - destruct (is_string w); [|discriminate]. unfold load. destruct (is_wisdom _); [|discriminate]. destruct (mc_import _ _); [|discriminate]. now intros [= <-]. }
    destruct (2 <? nlhs); [destruct Hfe as [->| ->]; reflexivity|].
    destruct (parse_sum _ _ _ _) as [m|] eqn:Em; [|destruct Hfe as [->| ->]; reflexivity].
    rewrite (Ho m (Hp m eq_refl)). destruct Hfe as [->| ->]; reflexivity.
  - intros vu vy sw wm wn w. unfold sum_gateway. destruct (2 <? nlhs); destruct Hfe as [->| ->]; reflexivity.
  - intros a. unfold sum_gateway. destruct (2 <? nlhs), a; destruct Hfe as [->| ->]; reflexivity.
  - intros a v1 v2 v3 v4 rest. unfold sum_gateway. destruct (2 <? nlhs), a; destruct Hfe as [->| ->]; reflexivity.
  - intros a args Hn. unfold sum_gateway. replace (2 <? nlhs) with true by lia. destruct Hfe as [->| ->]; reflexivity.
Qed.
Print Assumptions C80_refused.

(** A wisdom string: when FFTW accepts it the call is the call without it
    (in place: the call with no outputs), otherwise it is refused.  The literal
    "fftw_wisdom" is always refused. *)
Theorem C80_wisdom : forall (N : Num) (mc : machine N) fe nlhs h vu s,
  plain_string fe s -> c_str s = s -> s <> "fftw_wisdom" ->
  sum_gateway mc fe nlhs h [vu; VStr s] =
    (if mc_import mc s then sum_gateway mc fe nlhs h [vu] else Ok (Some CRejected)) /\
  forall sy ym yn y, 0 <= nlhs <= 2 ->
  sum_gateway mc fe nlhs h [vu; VNum sy ym yn y; VStr s] =
    (if mc_import mc s then sum_gateway mc fe 0 h [vu; VNum sy ym yn y] else Ok (Some CRejected)).
Proof.
  intros N mc fe nlhs h vu s Hp Hc Hs.
  assert (Hfe : fe = Octave \/ fe = Matlab) by (destruct Hp as [->|[-> _]]; auto).
  assert (Es : conv_str fe s = s) by (destruct Hp as [->|[-> E]]; auto).
  assert (Hw : is_wisdom s = true) by (unfold is_wisdom; rewrite Hc; destruct (String.eqb_spec s "fftw_wisdom"); [contradiction|reflexivity]).
  split.
  - unfold sum_gateway. cbn [parse_sum is_string str_of]. rewrite Es. unfold load. rewrite Hw.
    destruct (mc_import mc s); [|destruct (2 <? nlhs), h, Hfe as [->| ->]; reflexivity].
    destruct (2 <? nlhs), h as [hm hn hl d|v], Hfe as [->| ->]; try reflexivity.
  - intros sy ym yn y Hn. unfold sum_gateway. cbn [parse_sum is_string str_of]. rewrite Es. unfold load. rewrite Hw.
    replace (2 <? nlhs) with false by lia. change (2 <? 0) with false. change (0 <? 0) with false.
    destruct (mc_import mc s); [|destruct h, Hfe as [->| ->]; reflexivity].
    destruct h as [hm hn hl d|v], Hfe as [->| ->]; reflexivity.
Qed.
Print Assumptions C80_wisdom.

(** Such calls exist: 2 x 2 x 2 responses, 2 x 2 inputs, two workers. *)
Example C77_ex : exists Y, sum_gateway (ex_mc (round_robin 4 2)) Octave 1 (arr3 2 2 2 [1; 0; 0; 1; 1; 1; 2; 0]%R) [mat 2 2 [1; 2; 3; 6]%R]
    = Ok (Some (CReturned 3 2 Y)) /\ nth_error Y 1 = Some (Some (11 / 3)%R).
Proof.
  destruct (C77_new_matrix_partial (ex_mc (round_robin 4 2)) Octave 1 2 2 2 [1; 0; 0; 1; 1; 1; 2; 0]%R (mat 2 2 [1; 2; 3; 6]%R) 2 [1; 2; 3; 6]%R)
    as (Y & E & _ & H); auto; try (cbn; lia); try exact ex_runs; try exact (ex_fft _).
  { unfold has_size3. cbn. lia. }
  { exact (ex_operand 2 2 [1; 2; 3; 6]%R eq_refl). }
  exists Y. split; [exact E|]. etransitivity; [apply (H 0%nat 1%nat); cbn; lia|].
  unfold documented_sum, response, signal, cauchy. pnat. do 2 f_equal. cbn. lra.
Qed.
