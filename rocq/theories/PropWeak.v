(** PropWeak.v - C130: calls on a machine that delays and reorders stores and
    whose workers may read the stop flag late. *)
From Coq Require Import Reals Lra Floats.
From Verif Require Import Base BaseLemmas ModelSir ModelArr ModelSmp ModelDas ModelConv ModelAna ModelCgw ModelFine ModelFine2 ModelFine3 ModelWeak NumR SpecDft SpecSmp SpecConv SpecCgw SpecFine SpecFine3 SpecWeak
  ProofsLoop ProofsLocal ProofsSmp ProofsSmp2 ProofsDft ProofsConv ProofsConvR ProofsCols ProofsOla ProofsCgw ProofsDas SpecDas PropConv
  ProofsFine ProofsFine2 ProofsFine3 ProofsFine4 ProofsFine5 ProofsFine6 PropFine PropFine2 PropFine3 PropAna SpecAna ProofsCallG ProofsAna ExJob ProofsCall ProofsWeak PropSmp.
From Coq Require Import ZifyBool ZifyNat.
Ltac Zify.zify_post_hook ::= Z.div_mod_to_equations.
Open Scope Z_scope.

Local Lemma dims AN bm bn BM BN : 1 <= bm -> 1 <= bn -> check_B AN bm bn = Some (BM, BN) -> 1 <= BM.
Proof. intros H1 H2 H. apply (check_B_dims _ _ _ _ _ H1 H2 H). Qed.

(** conv_p, in any arithmetic. *)
Theorem C130_conv_p : forall (N : Num) (A B : list N) AM AN bm bn BM BN mode nthreads (Y0 : list N),
  given A AM AN B bm bn -> check_B AN bm bn = Some (BM, BN) -> 1 <= nthreads ->
  length Y0 = Z.to_nat (AN * (AM + BM - 1)) ->
  let M := {| m_A := A; m_AM := AM; m_AN := AN; m_B := B; m_BM := BM; m_BN := BN |} in
  weak_every_column (AM + BM - 1) AN nthreads Y0 (fun n k v => conv_sample mode (colA M n) (colB M n) v k)
    (fun sch => weak_cols_call (AM + BM - 1) (p_conv_point M mode) AN nthreads sch Y0).
Proof.
  intros N A B AM AN bm bn BM BN mode nth Y0 Hg Hc Hn HL M. pose proof Hg as (HAM & HAN & LA & Hbm & Hbn & LB).
  pose proof (dims _ _ _ _ _ Hbm Hbn Hc) as HBM.
  apply (weak_from_columns (AM + BM - 1) AN nth (conv_point M mode)); auto; try lia.
  - intros n _. exact (in_conv_point M mode n).
  - intros n H Hn' HL'. apply (x_conv_point M mode n H AN); auto. cbn; lia.
  - intros n. unfold p_conv_point. apply quiet_bind. intros; cbn; discriminate.
  - intros sch'. exact (C30_conv_p N A B AM AN bm bn BM BN mode nth sch' Y0 Hg Hc Hn HL).
Qed.
Print Assumptions C130_conv_p.

(** fftconv_p with the exact transform. *)
Theorem C130_fftconv_p : forall (a b : list R) AM AN bm bn BM BN mode nthreads (Y0 : list EN) trash scr,
  given (N:=EN) (reals a) AM AN (reals b) bm bn -> check_B AN bm bn = Some (BM, BN) -> 1 <= nthreads ->
  length Y0 = Z.to_nat (AN * (AM + BM - 1)) ->
  (forall X, length (trash X) = length X) -> (forall n, scratch_ok (AM + BM - 1) (scr n)) ->
  weak_every_column (N:=EN) (AM + BM - 1) AN nthreads Y0
    (fun n k v => comb (N:=EN) mode v (Some (cauchy (rcolA a AM n) (rcolB b BM BN n) k)))
    (fun sch => weak_cols_call (AM + BM - 1) (p_fftconv_point (dft_plan (Z.to_nat (AM + BM - 1)) trash)
       {| m_A := reals a; m_AM := AM; m_AN := AN; m_B := reals b; m_BM := BM; m_BN := BN |} mode scr) AN nthreads sch Y0).
Proof.
  intros a b AM AN bm bn BM BN mode nth Y0 trash scr Hg Hc Hn HL Ht Hs. pose proof Hg as (HAM & HAN & LA & Hbm & Hbn & LB).
  pose proof (dims _ _ _ _ _ Hbm Hbn Hc) as HBM. set (M := {| m_A := reals a; m_AM := AM; m_AN := AN; m_B := reals b; m_BM := BM; m_BN := BN |}).
  apply (weak_from_columns (N:=EN) (AM + BM - 1) AN nth (fftconv_point (dft_plan (Z.to_nat (AM + BM - 1)) trash) M mode scr)); auto; try lia.
  - intros n _. exact (in_fftconv_point (N:=EN) _ M mode scr n).
  - intros n H Hn' HL'. apply (x_fftconv_point (N:=EN) _ M mode scr n H AN); auto. cbn; lia.
  - intros n. unfold p_fftconv_point. apply quiet_bind. intros; cbn; discriminate.
  - intros sch'. exact (C30_fftconv_p a b AM AN bm bn BM BN mode nth sch' Y0 trash scr Hg Hc Hn HL Ht Hs).
Qed.
Print Assumptions C130_fftconv_p.

(** fftconv_ola, B a matrix; B a vector in the cases of C31. *)
Theorem C130_ola_matrix_partial : forall (a b : list R) AM AN bm bn BM BN bl nthreads (Y0 : list EN) trash cs loc fuel,
  given (N:=EN) (reals a) AM AN (reals b) bm bn -> check_B AN bm bn = Some (BM, BN) -> 1 < BN ->
  check_block bl AM = true -> bl <> 0 -> 1 <= nthreads ->
  length Y0 = Z.to_nat (AN * (AM + BM - 1)) -> AM <= Z.of_nat fuel ->
  (forall X, length (trash X) = length X) ->
  (forall n, let '(s, y, ab) := loc n in arrays_ok (dft_plan (Z.to_nat (bl + BM - 1)) trash) s y ab) ->
  (forall n, 0 <= n -> 0 <= cs n <= n) ->
  weak_every_column (N:=EN) (AM + BM - 1) AN nthreads Y0
    (fun n k v => nadd (n:=EN) v (Some (cauchy (rcolA a AM n) (rcolB b BM BN n) k)))
    (fun sch => weak_cols_call (AM + BM - 1) (p_ola_point fuel (dft_plan (Z.to_nat (bl + BM - 1)) trash)
       {| m_A := reals a; m_AM := AM; m_AN := AN; m_B := reals b; m_BM := BM; m_BN := BN |} bl cm_equ cs loc) AN nthreads sch Y0).
Proof.
  intros a b AM AN bm bn BM BN bl nth Y0 trash cs loc fuel Hg Hc HBN Hck Hbl Hn HL Hf Ht Hloc Hcs. pose proof Hg as (HAM & HAN & LA & Hbm & Hbn & LB).
  pose proof (dims _ _ _ _ _ Hbm Hbn Hc) as HBM. set (M := {| m_A := reals a; m_AM := AM; m_AN := AN; m_B := reals b; m_BM := BM; m_BN := BN |}).
  assert (Hbl0 : 0 <= bl) by (unfold check_block in Hck; lia).
  apply (weak_from_columns (N:=EN) (AM + BM - 1) AN nth (ola_point fuel (dft_plan (Z.to_nat (bl + BM - 1)) trash) M bl cm_equ cs loc)); auto; try lia.
  - intros n _. refine (in_ola_point (N:=EN) fuel _ M bl cm_equ _ cs loc n). exact Hbl0.
  - intros n Y Hn' HL'. apply (x_ola_point (N:=EN) fuel _ M bl cm_equ Hbl0 cs loc n Y AN); auto. cbn; lia.
  - intros n. unfold p_ola_point. destruct (loc n) as [[s y] ab]. apply quiet_bind. intros; cbn; discriminate.
  - intros sch'. exact (C31_ola_matrix_partial a b AM AN bm bn BM BN bl nth sch' Y0 trash cs loc fuel Hg Hc HBN Hck Hbl Hn HL Hf Ht Hloc Hcs).
Qed.
Print Assumptions C130_ola_matrix_partial.

Theorem C130_ola_vector_partial : forall (a b : list R) AM AN bm bn BM bl nthreads (Y0 : list EN) trash cs loc fuel,
  given (N:=EN) (reals a) AM AN (reals b) bm bn -> check_B AN bm bn = Some (BM, 1) ->
  check_block bl AM = true -> bl <> 0 -> 1 <= nthreads ->
  length Y0 = Z.to_nat (AN * (AM + BM - 1)) -> AM <= Z.of_nat fuel ->
  (forall X, length (trash X) = length X) ->
  (forall n, let '(s, y, ab) := loc n in arrays_ok (dft_plan (Z.to_nat (bl + BM - 1)) trash) s y ab) ->
  (forall n, 0 <= n -> 0 <= cs n <= n) ->
  bl = AM \/ (forall n, 0 <= n < AN -> cs n = n) ->
  weak_every_column (N:=EN) (AM + BM - 1) AN nthreads Y0
    (fun n k v => nadd (n:=EN) v (Some (cauchy (rcolA a AM n) b k)))
    (fun sch => weak_cols_call (AM + BM - 1) (p_ola_point fuel (dft_plan (Z.to_nat (bl + BM - 1)) trash)
       {| m_A := reals a; m_AM := AM; m_AN := AN; m_B := reals b; m_BM := BM; m_BN := 1 |} bl cm_equ cs loc) AN nthreads sch Y0).
Proof.
  intros a b AM AN bm bn BM bl nth Y0 trash cs loc fuel Hg Hc Hck Hbl Hn HL Hf Ht Hloc Hcs Hcase. pose proof Hg as (HAM & HAN & LA & Hbm & Hbn & LB).
  pose proof (dims _ _ _ _ _ Hbm Hbn Hc) as HBM. set (M := {| m_A := reals a; m_AM := AM; m_AN := AN; m_B := reals b; m_BM := BM; m_BN := 1 |}).
  assert (Hbl0 : 0 <= bl) by (unfold check_block in Hck; lia).
  apply (weak_from_columns (N:=EN) (AM + BM - 1) AN nth (ola_point fuel (dft_plan (Z.to_nat (bl + BM - 1)) trash) M bl cm_equ cs loc)); auto; try lia.
  - intros n _. refine (in_ola_point (N:=EN) fuel _ M bl cm_equ _ cs loc n). exact Hbl0.
  - intros n Y Hn' HL'. apply (x_ola_point (N:=EN) fuel _ M bl cm_equ Hbl0 cs loc n Y AN); auto. cbn; lia.
  - intros n. unfold p_ola_point. destruct (loc n) as [[s y] ab]. apply quiet_bind. intros; cbn; discriminate.
  - intros sch'. exact (C31_ola_vector_partial a b AM AN bm bn BM bl nth sch' Y0 trash cs loc fuel Hg Hc Hck Hbl Hn HL Hf Ht Hloc Hcs Hcase).
Qed.
Print Assumptions C130_ola_vector_partial.

(** sum_fftconv computes what C32 says it computes. *)
Theorem C130_sum_fftconv_partial : forall (hs : list (list R)) (u : list R) hM hN uM mode nthreads (Y0 : list EN) trash scr,
  1 <= hM -> 0 <= hN -> 1 <= uM -> (forall h, In h hs -> Z.of_nat (length h) = hM * hN) ->
  Z.of_nat (length u) = uM * Z.of_nat (length hs) -> 1 <= nthreads ->
  length Y0 = Z.to_nat (hN * (hM + uM - 1)) -> (forall X, length (trash X) = length X) ->
  (forall n, scratch_ok (hM + uM - 1) (scr n)) ->
  weak_every_column (N:=EN) (hM + uM - 1) hN nthreads Y0
    (fun n k v => comb (N:=EN) (match mode with cm_sum => cm_sum | _ => cm_equ end) v
       (Some (rsum (length hs) (fun l => cauchy (rcolA (nth l hs []) hM n) (slice (Z.of_nat l * uM) uM u) k) / IZR (hM + uM - 1))%R))
    (fun sch => weak_cols_call (hM + uM - 1) (p_sum_fftconv_point (dft_plan (Z.to_nat (hM + uM - 1)) trash) (map reals hs) (Z.of_nat (length hs)) hM (reals u) uM mode scr)
       hN nthreads sch Y0).
Proof.
  intros hs u hM hN uM mode nth Y0 trash scr H1 H2 H3 H4 H5 Hn HL Ht Hs.
  apply (weak_from_columns (N:=EN) (hM + uM - 1) hN nth (sum_fftconv_point (dft_plan (Z.to_nat (hM + uM - 1)) trash) (map reals hs) (Z.of_nat (length hs)) hM (reals u) uM mode scr)); auto; try lia.
  - intros n _. apply (in_sum_fftconv_point (N:=EN)).
  - intros n Y Hn' HL'. apply (x_sum_fftconv_point (N:=EN) _ (map reals hs) (Z.of_nat (length hs)) hM (reals u) uM mode scr n Y hN); auto. lia.
  - intros n. unfold p_sum_fftconv_point. apply quiet_bind. intros; cbn; discriminate.
  - intros sch'. exact (C32_sum_fftconv_partial hs u hM hN uM mode nth sch' Y0 trash scr H1 H2 H3 H4 H5 Hn HL Ht Hs).
Qed.
Print Assumptions C130_sum_fftconv_partial.

(** copy_p and add_p, rows r+1..r+len of A (col_idx = [1 A_N]), in any
    arithmetic. *)
Theorem C130_copy_p : forall (N : Num) f AM AN BM r len (A0 B : list N) nthreads,
  0 <= r -> 0 <= len -> r + len <= AM -> len <= BM -> 0 <= AN -> Z.of_nat (length B) = BM * AN -> 1 <= nthreads ->
  length A0 = Z.to_nat (AN * AM) ->
  weak_every_column AM AN nthreads A0
    (fun n k v => if (r <=? Z.of_nat k) && (Z.of_nat k <? r + len)
       then let b := nth (Z.to_nat (n * BM + (Z.of_nat k - r))) B (nofZ 0) in match f with PCopy => b | PAdd => nadd v b end
       else v)
    (fun sch => weak_cols_call AM (p_copy_point f AM BM r 0 len B) AN nthreads sch A0).
Proof.
  intros N f AM AN BM r len A0 B nth Hr Hl Hrl Hlb HAN LB Hn HL.
  apply (weak_from_columns AM AN nth (copy_point f AM BM r 0 len B)); auto; try lia.
  - intros n _; apply in_copy_point; auto.
  - intros n H Hn' HL'; apply (x_copy_point f AM BM r len B n H AN); auto.
  - intros n. unfold p_copy_point. apply quiet_bind. intros; cbn; discriminate.
  - intros sch'. apply cols_call_spec; auto; try lia.
    intros n Y Hn' LY. destruct (copy_point_ok f AM AN BM r len B n Y) as (Y' & E & L & H); try lia.
    exists Y'. split; [exact E|]. split; [exact L|]. intros j. rewrite (H j). destruct f; reflexivity.
Qed.
Print Assumptions C130_copy_p.

(** The analytic responses: what such a call returns, a call that executes
    every store at once can return. *)
Theorem C130_analytic : forall (N : Num) (J : ajob N) nthreads H0,
  wf_ajob J -> 1 <= nthreads -> length H0 = Z.to_nat (a_No J * a_nt J) ->
  (forall sch, no_oob (weak_cols_call (a_nt J) (p_ana_point J) (a_No J) nthreads sch H0)) /\
  (forall sch r, weak_cols_call (a_nt J) (p_ana_point J) (a_No J) nthreads sch H0 = Ok (Some r) ->
     exists sch', fine_cols_call (a_nt J) (p_ana_point J) (a_No J) nthreads sch' H0 = Ok (Some r) /\ (no_wctrlc sch -> no_ctrlc sch')) /\
  exists B, forall sch, (forall i, 0 <= i < nthreads -> B <= wsteps_of (Z.to_nat i) sch) ->
    exists reach r, (forall e, In e reach -> exists i k, e = WReach i k) /\
      weak_cols_call (a_nt J) (p_ana_point J) (a_No J) nthreads (sch ++ reach) H0 = Ok (Some r).
Proof.
  intros N J nth H0 W Hn HL. pose proof (wa_nt J W) as Hl. pose proof (wa_No J W) as HNo.
  assert (I1 : forall n, 0 <= n < a_No J -> inside (a_nt J) (p_ana_point J n)) by (intros n _; apply in_ana_point).
  assert (I2 : forall n H, 0 <= n < a_No J -> length H = Z.to_nat (a_No J * a_nt J) -> ana_point J n H = exec (p_ana_point J n) (n * a_nt J) H)
    by (intros n H Hn' HL'; apply x_ana_point; auto).
  assert (Hok : forall sch', exists cs, gsteps (ana_point J) (init (a_No J) nth H0) sch' = Ok cs).
  { intros sch'. destruct (C46_completes N J nth sch' H0 W Hn HL) as (r & E & _). unfold ana_call in E. apply bind_Ok_inv in E as (cs & E & _). eauto. }
  destruct (weak_completes (a_nt J) (a_No J) nth (p_ana_point J) Hl HNo Hn I1 (ana_point J) I2 H0 HL Hok) as (B & HB).
  split; [|split].
  - intros sch. destruct (HB sch) as (w & E & _). unfold weak_cols_call. rewrite E. cbn [bind]. destruct (w_all_joined w); split; discriminate.
  - intros sch r E. exact (weak_cols (a_nt J) (a_No J) nth (p_ana_point J) Hl HNo Hn I1 sch H0 r HL E).
  - exists B. intros sch Hs. destruct (HB sch) as (w & _ & R). destruct (R Hs) as (reach & w' & Rr & E & Hj).
    exists reach. eexists. split; [exact Rr|]. unfold weak_cols_call. rewrite E. cbn [bind]. rewrite Hj. reflexivity.
Qed.
Print Assumptions C130_analytic.

(** Delay-and-sum. *)
Theorem C130_das : forall (N : Num) K (J : das_job N) nthreads Im0,
  das_wf J -> 1 <= nthreads -> Z.of_nat (length Im0) = d_No J ->
  (forall n, 0 <= n < d_No J -> exists s, das_value K J n = Ok s) ->
  (forall sch, exists r, weak_das_call K J nthreads sch Im0 = Ok r /\
     (forall x, r = Some x -> exists sch', fine_das_call K J nthreads sch' Im0 = Ok (Some x) /\ (no_wctrlc sch -> no_ctrlc sch')) /\
     forall Im stt d, r = Some (Im, stt, true) -> length Im = length Im0 /\
       forall n, 0 <= n < d_No J -> exists e, das_value K J n = Ok (nth (Z.to_nat n) Im d, e)) /\
  exists B, forall sch, (forall i, 0 <= i < nthreads -> B <= wsteps_of (Z.to_nat i) sch) ->
    exists reach r, (forall e, In e reach -> exists i k, e = WReach i k) /\
      weak_das_call K J nthreads (sch ++ reach) Im0 = Ok (Some r).
Proof.
  intros N K J nth Im0 W Hn HL Hv. pose proof (dw_No J W) as HNo.
  assert (HL' : length Im0 = Z.to_nat (d_No J)) by lia. assert (HL1 : length Im0 = Z.to_nat (d_No J * 1)) by lia.
  assert (I1 : forall n, 0 <= n < d_No J -> inside 1 (p_das_point K J n)) by (intros n _; apply in_das_point).
  assert (I2 : forall n H, 0 <= n < d_No J -> length H = Z.to_nat (d_No J * 1) -> das_point K J n H = exec (p_das_point K J n) (n * 1) H)
    by (intros n H Hn' HH; apply x_das_point; auto).
  assert (Hok : forall sch', exists cs, gsteps (das_point K J) (init (d_No J) nth Im0) sch' = Ok cs).
  { intros sch'. destruct (das_call_completes K J nth Im0 W Hn HL sch' Hv) as (r & E & _). unfold das_call in E. apply bind_Ok_inv in E as (cs & E & _). eauto. }
  destruct (weak_completes 1 (d_No J) nth (p_das_point K J) ltac:(lia) HNo Hn I1 (das_point K J) I2 Im0 HL1 Hok) as (B & HB).
  split.
  - intros sch. destruct (HB sch) as (w & E & _).
    set (r := if w_all_joined w then Some (w_H w, if 1 <? nth then join_any (map f_result (map w_t (w_threads w))) else err_none, w_running w) else None).
    assert (Er : weak_das_call K J nth sch Im0 = Ok r).
    { unfold weak_das_call. rewrite E. cbn [bind]. subst r. destruct (w_all_joined w); reflexivity. }
    assert (G : forall x, r = Some x -> exists sch', fine_das_call K J nth sch' Im0 = Ok (Some x) /\ (no_wctrlc sch -> no_ctrlc sch')).
    { intros x Ex. subst r. destruct (w_all_joined w) eqn:Hj; [|discriminate]. injection Ex as <-.
      destruct (weak_done 1 (d_No J) nth (p_das_point K J) ltac:(lia) HNo Hn I1 sch Im0 w HL1 E Hj) as (sch' & s & Es & D & EH & ER & ET & Nc).
      exists sch'. split; [|exact Nc]. unfold fine_das_call. rewrite Es. cbn [bind]. rewrite D, EH, ER, ET. reflexivity. }
    exists r. split; [exact Er|]. split; [exact G|]. intros Im stt d Ex. destruct (G _ Ex) as (sch' & Ef & _).
    destruct (C129_das N K J nth Im0 W Hn HL Hv) as (B' & HB'). destruct (HB' sch') as (r' & Er' & _ & _ & H). rewrite Ef in Er'. injection Er' as <-.
    exact (H Im stt d eq_refl).
  - exists B. intros sch Hs. destruct (HB sch) as (w & _ & R). destruct (R Hs) as (reach & w' & Rr & E & Hj).
    exists reach. eexists. split; [exact Rr|]. unfold weak_das_call. rewrite E. cbn [bind]. rewrite Hj. reflexivity.
Qed.
Print Assumptions C130_das.

(** ** The transducers *)
Theorem C130_calls : forall (N : Num) K (J : job N) nthreads H0 sch,
  wf_job K J -> 1 <= nthreads -> length H0 = Z.to_nat (j_No J * nt (j_q J)) ->
  no_oob (weak_call K J nthreads sch H0) /\
  forall r, weak_call K J nthreads sch H0 = Ok (Some r) ->
    exists sch', fine_call K J nthreads sch' H0 = Ok (Some r) /\ (no_wctrlc sch -> no_ctrlc sch').
Proof.
  intros N K J nth H0 sch W Hn HL. pose proof (wj_nt K J W) as Hnt. pose proof (wj_No K J W) as HNo. split.
  - assert (F : forall u, weak_call K J nth sch H0 = UB u -> exists sch', fine_call K J nth sch' H0 = UB u).
    { intros u E. unfold weak_call in E. destruct (wsteps _ _ _ _) as [w|u'|] eqn:Ew; cbn [bind] in E; try discriminate.
      { destruct (w_all_joined w); discriminate. }
      injection E as ->. destruct (proj1 (weak_fails (nt (j_q J)) (j_No J) nth (p_point K J) Hnt HNo Hn (fine_in K J W) sch H0 HL) u Ew) as (sch' & E').
      exists sch'. unfold fine_call. rewrite E'. reflexivity. }
    split; intros C; destruct (F _ C) as (sch' & E); destruct (C106_safe N K J nth H0 sch' W Hn HL); auto.
  - intros r E. unfold weak_call in E. apply bind_Ok_inv in E as (w & Ew & E). destruct (w_all_joined w) eqn:Hj; [|discriminate]. injection E as <-.
    destruct (weak_done (nt (j_q J)) (j_No J) nth (p_point K J) Hnt HNo Hn (fine_in K J W) sch H0 w HL Ew Hj) as (sch' & s & Es & D & EH & ER & ET & Nc).
    exists sch'. split; [|exact Nc]. unfold fine_call. rewrite Es. cbn [bind]. rewrite D, EH, ER, ET. reflexivity.
Qed.
Print Assumptions C130_calls.

(** A call that was not aborted returns in each column what the observation
    point gives computed alone; any call leaves each column as it was or
    complete. *)
Theorem C130_columns : forall (N : Num) K (J : job N) nthreads H0 sch H' stt run,
  wf_job K J -> 1 <= nthreads -> length H0 = Z.to_nat (j_No J * nt (j_q J)) ->
  weak_call K J nthreads sch H0 = Ok (Some (H', stt, run)) ->
  length H' = length H0 /\
  forall n, 0 <= n < j_No J ->
    (run = false /\ col (nt (j_q J)) n H' = col (nt (j_q J)) n H0) \/
    exists e, alone K J n (col (nt (j_q J)) n H0) = Ok (col (nt (j_q J)) n H', e).
Proof.
  intros N K J nth H0 sch H' stt run W Hn HL E.
  destruct (proj2 (C130_calls N K J nth H0 sch W Hn HL) _ E) as (sch' & E' & _). destruct run.
  - destruct (C106_columns N K J nth H0 sch' H' stt W Hn HL E') as [L C]. split; [exact L|]. intros n Hn'. right. auto.
  - destruct (C106_prefix N K J nth H0 sch' H' stt false W Hn HL E') as [L C]. split; [exact L|]. intros n Hn'. destruct (C n Hn'); auto.
Qed.
Print Assumptions C130_columns.

Theorem C130_completes : forall (N : Num) K (J : job N) nthreads H0,
  wf_job K J -> 1 <= nthreads -> length H0 = Z.to_nat (j_No J * nt (j_q J)) ->
  (forall n, 0 <= n < j_No J -> exists c e, alone K J n (col (nt (j_q J)) n H0) = Ok (c, e)) ->
  exists B, forall sch, (forall i, 0 <= i < nthreads -> B <= wsteps_of (Z.to_nat i) sch) ->
    exists reach r, (forall e, In e reach -> exists i k, e = WReach i k) /\ weak_call K J nthreads (sch ++ reach) H0 = Ok (Some r).
Proof.
  intros N K J nth H0 W Hn HL Hal. pose proof (wj_nt K J W) as Hnt. pose proof (wj_No K J W) as HNo.
  assert (Hok : forall sch', exists cs, gsteps (point K J) (init (j_No J) nth H0) sch' = Ok cs).
  { intros sch'. destruct (C04_completes N K J nth H0 sch' W Hn HL Hal) as (r & E & _).
    unfold call in E. apply bind_Ok_inv in E as (cs & E & _). eauto. }
  destruct (weak_completes (nt (j_q J)) (j_No J) nth (p_point K J) Hnt HNo Hn (fine_in K J W) (point K J) (fine_pt K J W) H0 HL Hok) as (B & HB).
  exists B. intros sch Hs. destruct (HB sch) as (w & _ & R). destruct (R Hs) as (reach & w' & Rr & E & Hj).
  exists reach. eexists. split; [exact Rr|]. unfold weak_call. rewrite E. cbn [bind]. rewrite Hj. reflexivity.
Qed.
Print Assumptions C130_completes.

(** Two workers; all stores stay under way until the end, when they reach the
    memory in an odd order: the memory is as before until then, and the result
    is right.  With CTRL-C in the middle a worker that sees the flag late
    computes one more column. *)
Example C130_ex :
  let M := Build_mats (N:=FI) [1; 2; 3; 4; 5; 6; 7; 8]%float 2 4 [5; 6]%float 2 1 in
  let P := p_conv_point M cm_equ in
  let run late k := concat (repeat [WRun 0%nat late; WRun 1%nat late] k) in
  let reach := concat (repeat [WReach 0%nat 4%nat; WReach 1%nat 2%nat; WReach 0%nat 3%nat; WReach 1%nat 0%nat; WReach 0%nat 0%nat; WReach 1%nat 1%nat] 20%nat) in
  let Y0 := [0; 0; 0; 0; 0; 0; 0; 0; 0; 0; 0; 0]%float in
  match wsteps (N:=FI) 3 P (winit (N:=FI) 4 2 Y0) (run false 60%nat) with
  | Ok w => w_H (N:=FI) w = Y0 /\ forallb (fun x => f_is_done (w_t x)) (w_threads w) = true
  | _ => False
  end /\
  weak_cols_call (N:=FI) 3 P 4 2 (run false 60%nat ++ reach) Y0 = Ok (Some ([5; 16; 12; 15; 38; 24; 25; 60; 36; 35; 82; 48]%float, true)) /\
  weak_cols_call (N:=FI) 3 P 4 2 (run false 3%nat ++ [WCtrlC] ++ run false 60%nat ++ reach) Y0 = Ok (Some ([5; 16; 12; 0; 0; 0; 25; 60; 36; 0; 0; 0]%float, false)) /\
  weak_cols_call (N:=FI) 3 P 4 2 (run false 3%nat ++ [WCtrlC] ++ run true 60%nat ++ reach) Y0 = Ok (Some ([5; 16; 12; 15; 38; 24; 25; 60; 36; 35; 82; 48]%float, false)) /\
  weak_call (N:=FI) SignedIdx (ex_job ex_rect lvl_warn 25) 2 (run false 200%nat ++ concat (repeat [WReach 0%nat 0%nat; WReach 1%nat 0%nat] 100%nat)) (ex_H 25)
  = fine_call (N:=FI) SignedIdx (ex_job ex_rect lvl_warn 25) 2 (round_robin 200 2) (ex_H 25).
Proof.
  cbv zeta. split; [vm_compute; split; reflexivity|].
  split; [vm_compute; reflexivity|]. split; [vm_compute; reflexivity|]. split; [vm_compute; reflexivity|]. vm_compute. reflexivity.
Qed.
