(** ProofsCgw2.v - complete calls of conv_p and fftconv_p. *)
From Coq Require Strings.String.
Import Coq.Strings.String.StringSyntax.
From Coq Require Import Reals Lra.
From Verif Require Import Base BaseLemmas ModelSir ModelArr ModelSmp ModelConv NumR SpecDft SpecSmp SpecConv
  ProofsLoop ProofsSmp ProofsSmp2 ProofsDft ProofsConv ProofsConvR ProofsCols ProofsOla PropConv ModelGw ProofsGw SpecGwR ModelCgw SpecCgw ProofsCgw ProofsR.
From Coq Require Import ZifyBool ZifyNat.
Ltac Zify.zify_post_hook ::= Z.div_mod_to_equations.
Open Scope Z_scope.

Definition b_cols (bm bn : Z) : Z := if ((bm =? 1) || (bn =? 1))%bool then 1 else bn.
Lemma check_B_ok am an bm bn : conformable am an bm bn -> check_B an bm bn = Some (b_rows bm bn, b_cols bm bn).
Proof.
  intros (H1 & H2 & H3 & H4 & H5). unfold check_B, b_rows, b_cols.
  replace (negb (bm =? 1) && negb (bn =? 1) && negb (bn =? an)) with false by lia. destruct ((bm =? 1) || (bn =? 1)); reflexivity.
Qed.
Lemma b_rows_pos am an bm bn : conformable am an bm bn -> 1 <= b_rows bm bn.
Proof. intros (H1 & H2 & H3 & H4 & H5). unfold b_rows. destruct (_ || _); nia. Qed.
Lemma slice_all {A} (l : list A) n : n = Z.of_nat (length l) -> slice 0 n l = l.
Proof. intros ->. unfold slice. cbn [Z.to_nat skipn]. rewrite Nat2Z.id. apply firstn_all. Qed.
Lemma rcolB_col bm bn b n : 1 <= bm -> 1 <= bn -> Z.of_nat (length b) = bm * bn ->
  rcolB b (b_rows bm bn) (b_cols bm bn) (Z.of_nat n) = b_col bm bn b n.
Proof.
  intros H1 H2 L. unfold rcolB, b_rows, b_cols, b_col. destruct ((bm =? 1) || (bn =? 1)) eqn:E.
  - cbn. apply slice_all. lia.
  - replace (bn =? 1) with false by lia. reflexivity.
Qed.

Lemma operand_cols v m n d : operand v m n d -> cols_of v = n /\ get_m v = m /\ get_data v = exact d /\ forall fe, gw_data fe v = Ok (exact d).
Proof.
  intros (st & -> & H & _). split; [destruct st; cbn; auto; now rewrite H|].
  split; [reflexivity|]. split; [reflexivity|]. intros []; reflexivity.
Qed.

(** The core of the call. *)
Definition conv_pt (f : cfun) (mc : machine EN) (ax ay : bool) rows M mode :=
  match f with
  | KConv => conv_mem_point (N:=EN) ax ay M mode
  | _ => fftconv_mem_point ax ay (mc_plan mc rows) M mode (mc_scr mc)
  end.
Lemma conv_core mc f am an a bm bn b mode nthreads sch (Y0 : list EN) : f <> KOla ->
  conformable am an bm bn -> Z.of_nat (length a) = am * an -> Z.of_nat (length b) = bm * bn ->
  (f = KFft -> exact_fft mc (am + b_rows bm bn - 1)) -> 1 <= nthreads ->
  length Y0 = Z.to_nat (an * (am + b_rows bm bn - 1)) ->
  every_column (N:=EN) (am + b_rows bm bn - 1) an nthreads sch Y0
    (fun n k v => comb (N:=EN) mode v (Some (product am a bm bn b (Z.to_nat n) k)))
    (cols_call (conv_pt f mc false false (am + b_rows bm bn - 1)
       {| m_A := exact a; m_AM := am; m_AN := an; m_B := exact b; m_BM := b_rows bm bn; m_BN := b_cols bm bn |} mode) an nthreads sch Y0).
Proof.
  intros Hf Hc La Lb Hfft Hth LY. pose proof Hc as (H1 & H2 & H3 & H4 & H5).
  assert (Hg : given (N:=EN) (exact a) am an (exact b) bm bn).
  { unfold given, exact. rewrite !map_length. repeat split; lia. }
  assert (EE : forall c, every_column (N:=EN) (am + b_rows bm bn - 1) an nthreads sch Y0
      (fun n k v => comb (N:=EN) mode v (Some (cauchy (rcolA a am n) (rcolB b (b_rows bm bn) (b_cols bm bn) n) k))) c ->
    every_column (N:=EN) (am + b_rows bm bn - 1) an nthreads sch Y0
      (fun n k v => comb (N:=EN) mode v (Some (product am a bm bn b (Z.to_nat n) k))) c).
  { intros c (r & Er & Hfa & Hr). exists r. split; [exact Er|]. split; [exact Hfa|]. intros Y' running Hrr.
    destruct (Hr Y' running Hrr) as (L & Hcc & Hall & Hsome). split; [exact L|]. split; [exact Hcc|].
    assert (Q : forall n k, 0 <= n -> product am a bm bn b (Z.to_nat n) k = cauchy (rcolA a am n) (rcolB b (b_rows bm bn) (b_cols bm bn) n) k).
    { intros n k Hn. unfold product, a_col, rcolA. rewrite <- (rcolB_col bm bn b (Z.to_nat n) H3 H4 Lb), Z2Nat.id by lia. reflexivity. }
    split.
    - intros Hrun n k Hn Hk. rewrite Q by lia. apply Hall; auto.
    - intros n Hn. destruct (Hsome n Hn) as [H|H]; [now left|right]. intros k Hk. rewrite Q by lia. auto. }
  destruct f; [| |congruence]; cbn [conv_pt]; apply EE.
  - pose proof (C30_conv_p EN (exact a) (exact b) am an bm bn (b_rows bm bn) (b_cols bm bn) mode nthreads sch Y0 Hg (check_B_ok am an bm bn Hc) Hth LY) as HE.
    cbv zeta in HE. destruct HE as (r & Er & Hfa & Hr). exists r. split; [exact Er|]. split; [exact Hfa|]. intros Y' running Hrr.
    destruct (Hr Y' running Hrr) as (L & Hcc & Hall & Hsome). split; [exact L|]. split; [exact Hcc|].
    set (M := {| m_A := exact a; m_AM := am; m_AN := an; m_B := exact b; m_BM := b_rows bm bn; m_BN := b_cols bm bn |}) in *.
    assert (Q : forall n k v, conv_sample (N:=EN) mode (colA M n) (colB M n) v k =
       comb (N:=EN) mode v (Some (cauchy (rcolA a am n) (rcolB b (b_rows bm bn) (b_cols bm bn) n) k))).
    { intros n k v. unfold colA, colB, rcolA, rcolB. cbn [M m_A m_AM m_B m_BM m_BN]. 
      rewrite <- conv_sample_E. f_equal; [apply slice_reals|]. destruct (b_cols bm bn =? 1); apply slice_reals. }
    split.
    + intros Hrun n k Hn Hk. rewrite <- Q. apply Hall; auto.
    + intros n Hn. destruct (Hsome n Hn) as [H|H]; [now left|right]. intros k Hk. rewrite <- Q. auto.
  - destruct (Hfft eq_refl) as ((trash & Ht & Ep) & Hs). rewrite Ep.
    exact (C30_fftconv_p a b am an bm bn (b_rows bm bn) (b_cols bm bn) mode nthreads sch Y0 trash (mc_scr mc) Hg (check_B_ok am an bm bn Hc) Hth LY Ht Hs).
Qed.

(** The gateway up to the core. *)
Lemma conv_gw_unfold mc fe f nlhs va vb rest am an a bm bn b m :
  has_fun fe f = true -> f <> KOla -> parse_cargs (mc_import mc) fe f nlhs (va :: vb :: rest) = Some m ->
  operand va am an a -> operand vb bm bn b -> conformable am an bm bn ->
  let rows := am + b_rows bm bn - 1 in
  conv_gateway mc fe f nlhs (va :: vb :: rest) =
    do y <- out_array fe f m rows an (mc_junk mc) (va :: vb :: rest);
    match y with
    | None => Ok (Some CRejected)
    | Some Y =>
      do r <- cols_call (conv_pt f mc (c_inplace m && mc_ax mc) (c_inplace m && mc_ay mc) rows
        {| m_A := exact a; m_AM := am; m_AN := an; m_B := exact b; m_BM := b_rows bm bn; m_BN := b_cols bm bn |} (c_mode m))
        an (num_threads (mc_hw mc) (mc_env mc) an) (mc_sch mc) Y;
      match r with
      | None => Ok None
      | Some (Y', running) => Ok (Some (finish_call fe f m rows an Y' running))
      end
    end.
Proof.
  intros Hh Hf Hp Ha Hb Hc rows. pose proof (b_rows_pos _ _ _ _ Hc) as Hbr. pose proof Hc as (H1 & _).
  destruct (operand_cols _ _ _ _ Ha) as (A1 & A2 & A3 & A4). destruct (operand_cols _ _ _ _ Hb) as (B1 & B2 & B3 & B4).
  unfold conv_gateway. rewrite Hh, Hp. cbn [negb arg nth_error bind].
  rewrite A1, A2, A4, B1, B2, B4. cbn [bind]. rewrite (check_B_ok am an bm bn Hc).
  replace (block_arg fe f am (va :: vb :: rest)) with (@Ok (option Z) (Some 0)) by (destruct f; [reflexivity|reflexivity|congruence]).
  cbn [bind]. fold rows. replace (rows <? 0) with false by lia.
  destruct (out_array _ _ _ _ _ _ _) as [[Y|]|?|]; cbn [bind]; auto.
  destruct f; [reflexivity|reflexivity|congruence].
Qed.

(** From [every_column] to the returned matrix. *)
Lemma nth_error_of_nth {A} (l : list A) i d x : (i < length l)%nat -> nth i l d = x -> nth_error l i = Some x.
Proof. intros H <-. now apply nth_error_nth'. Qed.
Lemma matrix_from_columns (rows an : Z) (Y' : list EN) (V : nat -> nat -> R) : 0 <= rows -> 0 <= an ->
  length Y' = Z.to_nat (an * rows) ->
  (forall n k, 0 <= n < an -> (k < Z.to_nat rows)%nat -> nth (Z.to_nat (n * rows) + k) Y' (nofZ (n:=EN) 0) = Some (V (Z.to_nat n) k)) ->
  matrix_is Y' (Z.to_nat rows) (Z.to_nat an) V.
Proof.
  intros Hr Ha L H. split; [rewrite L; nia|]. intros n k Hn Hk.
  apply (nth_error_of_nth _ _ (nofZ (n:=EN) 0)); [rewrite L; nia|].
  specialize (H (Z.of_nat n) k ltac:(lia) Hk). rewrite Nat2Z.id in H. rewrite <- H. f_equal. nia.
Qed.
