(** PropFine3.v - C129: the convolution and copy functions, delay-and-sum and
    the analytic responses, executed one memory access at a time, finish with
    the right result. *)
From Coq Require Import Reals Lra Floats.
From Verif Require Import Base BaseLemmas ModelSir ModelArr ModelSmp ModelDas ModelConv ModelAna ModelCgw ModelFine ModelFine2 ModelFine3 NumR SpecDft SpecSmp SpecConv SpecCgw SpecFine SpecFine3
  ProofsLoop ProofsLocal ProofsSmp ProofsSmp2 ProofsDft ProofsConv ProofsConvR ProofsCols ProofsOla ProofsCgw ProofsDas SpecDas PropConv
  ProofsFine ProofsFine2 ProofsFine3 ProofsFine4 ProofsFine5 ProofsFine6 PropFine PropFine2 PropAna SpecAna ProofsCallG ProofsAna ExJob.
From Coq Require Import ZifyBool ZifyNat.
Ltac Zify.zify_post_hook ::= Z.div_mod_to_equations.
Open Scope Z_scope.

Local Lemma dims AN bm bn BM BN : 1 <= bm -> 1 <= bn -> check_B AN bm bn = Some (BM, BN) -> 1 <= BM.
Proof. intros H1 H2 H. apply (check_B_dims _ _ _ _ _ H1 H2 H). Qed.

(** conv_p, in any arithmetic. *)
Theorem C129_conv_p : forall (N : Num) (A B : list N) AM AN bm bn BM BN mode nthreads (Y0 : list N),
  given A AM AN B bm bn -> check_B AN bm bn = Some (BM, BN) -> 1 <= nthreads ->
  length Y0 = Z.to_nat (AN * (AM + BM - 1)) ->
  let M := {| m_A := A; m_AM := AM; m_AN := AN; m_B := B; m_BM := BM; m_BN := BN |} in
  fine_every_column (AM + BM - 1) AN nthreads Y0 (fun n k v => conv_sample mode (colA M n) (colB M n) v k)
    (fun sch => fine_cols_call (AM + BM - 1) (p_conv_point M mode) AN nthreads sch Y0).
Proof.
  intros N A B AM AN bm bn BM BN mode nth Y0 Hg Hc Hn HL M. pose proof Hg as (HAM & HAN & LA & Hbm & Hbn & LB).
  pose proof (dims _ _ _ _ _ Hbm Hbn Hc) as HBM.
  apply (fine_all (AM + BM - 1) AN nth (conv_point M mode)); auto; try lia.
  - intros n _. exact (in_conv_point M mode n).
  - intros n H Hn' HL'. apply (x_conv_point M mode n H AN); auto. cbn; lia.
  - intros n. unfold p_conv_point. apply quiet_bind. intros; cbn; discriminate.
  - intros sch'. exact (C30_conv_p N A B AM AN bm bn BM BN mode nth sch' Y0 Hg Hc Hn HL).
Qed.
Print Assumptions C129_conv_p.

(** fftconv_p with the exact transform. *)
Theorem C129_fftconv_p : forall (a b : list R) AM AN bm bn BM BN mode nthreads (Y0 : list EN) trash scr,
  given (N:=EN) (reals a) AM AN (reals b) bm bn -> check_B AN bm bn = Some (BM, BN) -> 1 <= nthreads ->
  length Y0 = Z.to_nat (AN * (AM + BM - 1)) ->
  (forall X, length (trash X) = length X) -> (forall n, scratch_ok (AM + BM - 1) (scr n)) ->
  fine_every_column (N:=EN) (AM + BM - 1) AN nthreads Y0
    (fun n k v => comb (N:=EN) mode v (Some (cauchy (rcolA a AM n) (rcolB b BM BN n) k)))
    (fun sch => fine_cols_call (AM + BM - 1) (p_fftconv_point (dft_plan (Z.to_nat (AM + BM - 1)) trash)
       {| m_A := reals a; m_AM := AM; m_AN := AN; m_B := reals b; m_BM := BM; m_BN := BN |} mode scr) AN nthreads sch Y0).
Proof.
  intros a b AM AN bm bn BM BN mode nth Y0 trash scr Hg Hc Hn HL Ht Hs. pose proof Hg as (HAM & HAN & LA & Hbm & Hbn & LB).
  pose proof (dims _ _ _ _ _ Hbm Hbn Hc) as HBM. set (M := {| m_A := reals a; m_AM := AM; m_AN := AN; m_B := reals b; m_BM := BM; m_BN := BN |}).
  apply (fine_all (N:=EN) (AM + BM - 1) AN nth (fftconv_point (dft_plan (Z.to_nat (AM + BM - 1)) trash) M mode scr)); auto; try lia.
  - intros n _. exact (in_fftconv_point (N:=EN) _ M mode scr n).
  - intros n H Hn' HL'. apply (x_fftconv_point (N:=EN) _ M mode scr n H AN); auto. cbn; lia.
  - intros n. unfold p_fftconv_point. apply quiet_bind. intros; cbn; discriminate.
  - intros sch'. exact (C30_fftconv_p a b AM AN bm bn BM BN mode nth sch' Y0 trash scr Hg Hc Hn HL Ht Hs).
Qed.
Print Assumptions C129_fftconv_p.

(** fftconv_ola, B a matrix; B a vector in the cases of C31. *)
Theorem C129_ola_matrix_partial : forall (a b : list R) AM AN bm bn BM BN bl nthreads (Y0 : list EN) trash cs loc fuel,
  given (N:=EN) (reals a) AM AN (reals b) bm bn -> check_B AN bm bn = Some (BM, BN) -> 1 < BN ->
  check_block bl AM = true -> bl <> 0 -> 1 <= nthreads ->
  length Y0 = Z.to_nat (AN * (AM + BM - 1)) -> AM <= Z.of_nat fuel ->
  (forall X, length (trash X) = length X) ->
  (forall n, let '(s, y, ab) := loc n in arrays_ok (dft_plan (Z.to_nat (bl + BM - 1)) trash) s y ab) ->
  (forall n, 0 <= n -> 0 <= cs n <= n) ->
  fine_every_column (N:=EN) (AM + BM - 1) AN nthreads Y0
    (fun n k v => nadd (n:=EN) v (Some (cauchy (rcolA a AM n) (rcolB b BM BN n) k)))
    (fun sch => fine_cols_call (AM + BM - 1) (p_ola_point fuel (dft_plan (Z.to_nat (bl + BM - 1)) trash)
       {| m_A := reals a; m_AM := AM; m_AN := AN; m_B := reals b; m_BM := BM; m_BN := BN |} bl cm_equ cs loc) AN nthreads sch Y0).
Proof.
  intros a b AM AN bm bn BM BN bl nth Y0 trash cs loc fuel Hg Hc HBN Hck Hbl Hn HL Hf Ht Hloc Hcs. pose proof Hg as (HAM & HAN & LA & Hbm & Hbn & LB).
  pose proof (dims _ _ _ _ _ Hbm Hbn Hc) as HBM. set (M := {| m_A := reals a; m_AM := AM; m_AN := AN; m_B := reals b; m_BM := BM; m_BN := BN |}).
  assert (Hbl0 : 0 <= bl) by (unfold check_block in Hck; lia).
  apply (fine_all (N:=EN) (AM + BM - 1) AN nth (ola_point fuel (dft_plan (Z.to_nat (bl + BM - 1)) trash) M bl cm_equ cs loc)); auto; try lia.
  - intros n _. refine (in_ola_point (N:=EN) fuel _ M bl cm_equ _ cs loc n). exact Hbl0.
  - intros n Y Hn' HL'. apply (x_ola_point (N:=EN) fuel _ M bl cm_equ Hbl0 cs loc n Y AN); auto. cbn; lia.
  - intros n. unfold p_ola_point. destruct (loc n) as [[s y] ab]. apply quiet_bind. intros; cbn; discriminate.
  - intros sch'. exact (C31_ola_matrix_partial a b AM AN bm bn BM BN bl nth sch' Y0 trash cs loc fuel Hg Hc HBN Hck Hbl Hn HL Hf Ht Hloc Hcs).
Qed.
Print Assumptions C129_ola_matrix_partial.

Theorem C129_ola_vector_partial : forall (a b : list R) AM AN bm bn BM bl nthreads (Y0 : list EN) trash cs loc fuel,
  given (N:=EN) (reals a) AM AN (reals b) bm bn -> check_B AN bm bn = Some (BM, 1) ->
  check_block bl AM = true -> bl <> 0 -> 1 <= nthreads ->
  length Y0 = Z.to_nat (AN * (AM + BM - 1)) -> AM <= Z.of_nat fuel ->
  (forall X, length (trash X) = length X) ->
  (forall n, let '(s, y, ab) := loc n in arrays_ok (dft_plan (Z.to_nat (bl + BM - 1)) trash) s y ab) ->
  (forall n, 0 <= n -> 0 <= cs n <= n) ->
  bl = AM \/ (forall n, 0 <= n < AN -> cs n = n) ->
  fine_every_column (N:=EN) (AM + BM - 1) AN nthreads Y0
    (fun n k v => nadd (n:=EN) v (Some (cauchy (rcolA a AM n) b k)))
    (fun sch => fine_cols_call (AM + BM - 1) (p_ola_point fuel (dft_plan (Z.to_nat (bl + BM - 1)) trash)
       {| m_A := reals a; m_AM := AM; m_AN := AN; m_B := reals b; m_BM := BM; m_BN := 1 |} bl cm_equ cs loc) AN nthreads sch Y0).
Proof.
  intros a b AM AN bm bn BM bl nth Y0 trash cs loc fuel Hg Hc Hck Hbl Hn HL Hf Ht Hloc Hcs Hcase. pose proof Hg as (HAM & HAN & LA & Hbm & Hbn & LB).
  pose proof (dims _ _ _ _ _ Hbm Hbn Hc) as HBM. set (M := {| m_A := reals a; m_AM := AM; m_AN := AN; m_B := reals b; m_BM := BM; m_BN := 1 |}).
  assert (Hbl0 : 0 <= bl) by (unfold check_block in Hck; lia).
  apply (fine_all (N:=EN) (AM + BM - 1) AN nth (ola_point fuel (dft_plan (Z.to_nat (bl + BM - 1)) trash) M bl cm_equ cs loc)); auto; try lia.
  - intros n _. refine (in_ola_point (N:=EN) fuel _ M bl cm_equ _ cs loc n). exact Hbl0.
  - intros n Y Hn' HL'. apply (x_ola_point (N:=EN) fuel _ M bl cm_equ Hbl0 cs loc n Y AN); auto. cbn; lia.
  - intros n. unfold p_ola_point. destruct (loc n) as [[s y] ab]. apply quiet_bind. intros; cbn; discriminate.
  - intros sch'. exact (C31_ola_vector_partial a b AM AN bm bn BM bl nth sch' Y0 trash cs loc fuel Hg Hc Hck Hbl Hn HL Hf Ht Hloc Hcs Hcase).
Qed.
Print Assumptions C129_ola_vector_partial.

(** sum_fftconv computes what C32 says it computes. *)
Theorem C129_sum_fftconv_partial : forall (hs : list (list R)) (u : list R) hM hN uM mode nthreads (Y0 : list EN) trash scr,
  1 <= hM -> 0 <= hN -> 1 <= uM -> (forall h, In h hs -> Z.of_nat (length h) = hM * hN) ->
  Z.of_nat (length u) = uM * Z.of_nat (length hs) -> 1 <= nthreads ->
  length Y0 = Z.to_nat (hN * (hM + uM - 1)) -> (forall X, length (trash X) = length X) ->
  (forall n, scratch_ok (hM + uM - 1) (scr n)) ->
  fine_every_column (N:=EN) (hM + uM - 1) hN nthreads Y0
    (fun n k v => comb (N:=EN) (match mode with cm_sum => cm_sum | _ => cm_equ end) v
       (Some (rsum (length hs) (fun l => cauchy (rcolA (nth l hs []) hM n) (slice (Z.of_nat l * uM) uM u) k) / IZR (hM + uM - 1))%R))
    (fun sch => fine_cols_call (hM + uM - 1) (p_sum_fftconv_point (dft_plan (Z.to_nat (hM + uM - 1)) trash) (map reals hs) (Z.of_nat (length hs)) hM (reals u) uM mode scr)
       hN nthreads sch Y0).
Proof.
  intros hs u hM hN uM mode nth Y0 trash scr H1 H2 H3 H4 H5 Hn HL Ht Hs.
  apply (fine_all (N:=EN) (hM + uM - 1) hN nth (sum_fftconv_point (dft_plan (Z.to_nat (hM + uM - 1)) trash) (map reals hs) (Z.of_nat (length hs)) hM (reals u) uM mode scr)); auto; try lia.
  - intros n _. apply (in_sum_fftconv_point (N:=EN)).
  - intros n Y Hn' HL'. apply (x_sum_fftconv_point (N:=EN) _ (map reals hs) (Z.of_nat (length hs)) hM (reals u) uM mode scr n Y hN); auto. lia.
  - intros n. unfold p_sum_fftconv_point. apply quiet_bind. intros; cbn; discriminate.
  - intros sch'. exact (C32_sum_fftconv_partial hs u hM hN uM mode nth sch' Y0 trash scr H1 H2 H3 H4 H5 Hn HL Ht Hs).
Qed.
Print Assumptions C129_sum_fftconv_partial.

(** copy_p and add_p, rows r+1..r+len of A (col_idx = [1 A_N]), in any
    arithmetic; no two workers access the same element. *)
Theorem C129_copy_p : forall (N : Num) f AM AN BM r len (A0 B : list N) nthreads,
  0 <= r -> 0 <= len -> r + len <= AM -> len <= BM -> 0 <= AN -> Z.of_nat (length B) = BM * AN -> 1 <= nthreads ->
  length A0 = Z.to_nat (AN * AM) ->
  fine_every_column AM AN nthreads A0
    (fun n k v => if (r <=? Z.of_nat k) && (Z.of_nat k <? r + len)
       then let b := nth (Z.to_nat (n * BM + (Z.of_nat k - r))) B (nofZ 0) in match f with PCopy => b | PAdd => nadd v b end
       else v)
    (fun sch => fine_cols_call AM (p_copy_point f AM BM r 0 len B) AN nthreads sch A0) /\
  (forall sch s, fsteps AM (p_copy_point f AM BM r 0 len B) (finit AN nthreads A0) sch = Ok s -> ~ conflict AM s).
Proof.
  intros N f AM AN BM r len A0 B nth Hr Hl Hrl Hlb HAN LB Hn HL.
  assert (I1 : forall n, 0 <= n < AN -> inside AM (p_copy_point f AM BM r 0 len B n)) by (intros n _; apply in_copy_point; auto).
  assert (I2 : forall n H, 0 <= n < AN -> length H = Z.to_nat (AN * AM) ->
    copy_point f AM BM r 0 len B n H = exec (p_copy_point f AM BM r 0 len B n) (n * AM) H) by (intros n H Hn' HL'; apply (x_copy_point f AM BM r len B n H AN); auto).
  split.
  - apply (fine_all AM AN nth (copy_point f AM BM r 0 len B)); auto; try lia.
    + intros n. unfold p_copy_point. apply quiet_bind. intros; cbn; discriminate.
    + intros sch'. apply cols_call_spec; auto; try lia.
      intros n Y Hn' LY. destruct (copy_point_ok f AM AN BM r len B n Y) as (Y' & E & L & H); try lia.
      exists Y'. split; [exact E|]. split; [exact L|]. intros j. rewrite (H j). destruct f; reflexivity.
  - intros sch s E. exact (fine_race AM AN nth (copy_point f AM BM r 0 len B) _ ltac:(lia) HAN Hn I1 I2 sch A0 s HL E).
Qed.
Print Assumptions C129_copy_p.

(** The analytic responses: the result is that of any complete call. *)
Theorem C129_analytic : forall (N : Num) (J : ajob N) nthreads H0,
  wf_ajob J -> 1 <= nthreads -> length H0 = Z.to_nat (a_No J * a_nt J) ->
  exists B, forall sch, exists r, fine_cols_call (a_nt J) (p_ana_point J) (a_No J) nthreads sch H0 = Ok r /\
    ((forall i, 0 <= i < nthreads -> B <= steps_of (Z.to_nat i) sch) -> r <> None) /\
    forall H' b, r = Some (H', b) -> length H' = length H0 /\ (no_ctrlc sch -> b = true) /\
      forall n2 s2 H2 Hfull, 1 <= n2 -> length H2 = Z.to_nat (a_No J * a_nt J) -> ana_call J n2 s2 H2 = Ok (Some (Hfull, true)) ->
        (b = true -> H' = Hfull) /\
        forall k, 0 <= k < a_No J -> col (a_nt J) k H' = col (a_nt J) k H0 \/ col (a_nt J) k H' = col (a_nt J) k Hfull.
Proof.
  intros N J nth H0 W Hn HL. pose proof (wa_nt J W) as Hl. pose proof (wa_No J W) as HNo.
  assert (I1 : forall n, 0 <= n < a_No J -> inside (a_nt J) (p_ana_point J n)) by (intros n _; apply in_ana_point).
  assert (I2 : forall n H, 0 <= n < a_No J -> length H = Z.to_nat (a_No J * a_nt J) -> ana_point J n H = exec (p_ana_point J n) (n * a_nt J) H)
    by (intros n H Hn' HL'; apply x_ana_point; auto).
  exists (fine_bound (a_nt J) (a_No J) nth (p_ana_point J) H0). intros sch.
  assert (Hok : forall sch', exists cs, gsteps (ana_point J) (init (a_No J) nth H0) sch' = Ok cs).
  { intros sch'. destruct (C46_completes N J nth sch' H0 W Hn HL) as (r & E & _). unfold ana_call in E. apply bind_Ok_inv in E as (cs & E & _). eauto. }
  destruct (fine_completes (a_nt J) (a_No J) nth (ana_point J) (p_ana_point J) Hl HNo Hn I1 I2 sch H0 HL Hok) as (fs & E & D).
  assert (Ef : fine_cols_call (a_nt J) (p_ana_point J) (a_No J) nth sch H0 = Ok (if f_all_done fs then Some (f_H fs, f_running fs) else None)).
  { unfold fine_cols_call. rewrite E. cbn [bind]. destruct (f_all_done fs); reflexivity. }
  eexists. split; [exact Ef|]. split.
  - intros Hs. rewrite (D Hs). discriminate.
  - intros H' b Er. destruct (f_all_done fs) eqn:Ed; [|discriminate]. injection Er as <- <-.
    destruct (proj1 (C106_analytic N J nth H0 sch Hl HNo Hn HL) _ Ef) as (sch' & Ec).
    split; [|split].
    + unfold ana_call in Ec. apply bind_Ok_inv in Ec as (cs & Es & Ec). destruct (all_done cs) eqn:Ad; [|discriminate]. injection Ec as <- _.
      destruct (fine_done (a_nt J) (a_No J) nth (ana_point J) (p_ana_point J) Hl HNo Hn I1 I2 sch H0 fs HL E Ed) as (s1 & c1 & E1 & D1 & H1 & R1 & _).
      assert (Ec1 : ana_call J nth sch' H0 = Ok (Some (g_H cs, g_running cs))) by (unfold ana_call; rewrite Es; cbn [bind]; rewrite Ad; reflexivity).
      destruct (Z.eq_dec (a_No J) 0) as [Z0|Z0].
      * destruct (g_running cs) eqn:Rb.
        -- exact (proj1 (ana_columns J W nth H0 Hn HL sch' _ Ec1)).
        -- pose proof (gcall_prefix (a_nt J) (a_No J) nth (ana_point J) (colf J) H0 Hl HNo Hn HL (ana_pt J W) (ana_len J) sch' cs Es) as [L _]. exact L.
      * exact (proj1 (ana_partial J W nth H0 Hn HL sch' _ _ 0 Ec1 ltac:(lia))).
    + intros Hc. refine (fine_running (a_nt J) (p_ana_point J) _ sch (finit (a_No J) nth H0) fs Hc eq_refl _ E).
      * intros n. unfold p_ana_point. do 5 (apply quiet_bind; intros ?). cbn. discriminate.
      * cbn [finit f_threads]. apply Forall_forall. intros t Ht. apply in_map_iff in Ht as (i & <- & _). exact I.
    + intros n2 s2 H2 Hfull Hn2 L2 E2. split.
      * intros Hb. rewrite Hb in Ec. exact (C46_schedule_independent N J nth n2 sch' s2 H0 H2 _ _ W Hn Hn2 HL L2 Ec E2).
      * intros k Hk. exact (proj2 (C46_interrupted N J nth n2 sch' s2 H0 H2 _ _ _ k W Hn Hn2 HL L2 Ec E2 Hk)).
Qed.
Print Assumptions C129_analytic.

(** Delay-and-sum: the call finishes, and what it returns is what a call that
    computes whole points returns. *)
Theorem C129_das : forall (N : Num) K (J : das_job N) nthreads Im0,
  das_wf J -> 1 <= nthreads -> Z.of_nat (length Im0) = d_No J ->
  (forall n, 0 <= n < d_No J -> exists s, das_value K J n = Ok s) ->
  exists B, forall sch, exists r, fine_das_call K J nthreads sch Im0 = Ok r /\
    ((forall i, 0 <= i < nthreads -> B <= steps_of (Z.to_nat i) sch) -> r <> None) /\
    (forall x, r = Some x -> exists sch', das_call K J nthreads sch' Im0 = Ok (Some x)) /\
    forall Im stt d, r = Some (Im, stt, true) -> length Im = length Im0 /\
      forall n, 0 <= n < d_No J -> exists e, das_value K J n = Ok (nth (Z.to_nat n) Im d, e).
Proof.
  intros N K J nth Im0 W Hn HL Hv. pose proof (dw_No J W) as HNo.
  assert (HL' : length Im0 = Z.to_nat (d_No J)) by lia. assert (HL1 : length Im0 = Z.to_nat (d_No J * 1)) by lia.
  assert (I1 : forall n, 0 <= n < d_No J -> inside 1 (p_das_point K J n)) by (intros n _; apply in_das_point).
  assert (I2 : forall n H, 0 <= n < d_No J -> length H = Z.to_nat (d_No J * 1) -> das_point K J n H = exec (p_das_point K J n) (n * 1) H)
    by (intros n H Hn' HH; apply x_das_point; auto).
  exists (fine_bound 1 (d_No J) nth (p_das_point K J) Im0). intros sch.
  assert (Hok : forall sch', exists cs, gsteps (das_point K J) (init (d_No J) nth Im0) sch' = Ok cs).
  { intros sch'. destruct (das_call_completes K J nth Im0 W Hn HL sch' Hv) as (r & E & _). unfold das_call in E. apply bind_Ok_inv in E as (cs & E & _). eauto. }
  destruct (fine_completes 1 (d_No J) nth (das_point K J) (p_das_point K J) ltac:(lia) HNo Hn I1 I2 sch Im0 HL1 Hok) as (fs & E & D).
  destruct (C106_das N K J nth Im0 sch HNo Hn HL') as (C1 & _ & _).
  destruct (fine_das_call K J nth sch Im0) as [r|u|] eqn:Ef.
  2,3: unfold fine_das_call in Ef; rewrite E in Ef; cbn [bind] in Ef; destruct (f_all_done fs); discriminate.
  exists r. split; [reflexivity|]. split; [|split].
  - intros Hs. unfold fine_das_call in Ef. rewrite E in Ef. cbn [bind] in Ef. rewrite (D Hs) in Ef. injection Ef as <-. discriminate.
  - intros x ->. apply C1. reflexivity.
  - intros Im stt d ->. destruct (C1 _ eq_refl) as (sch' & Ec). exact (das_call_columns K J nth Im0 W Hn HL sch' Im stt d Ec).
Qed.
Print Assumptions C129_das.

(** Two workers, two columns, accesses alternating; one column interrupted. *)
Example C129_ex :
  let M := Build_mats (N:=FI) [1; 2; 3; 4]%float 2 2 [5; 6]%float 2 1 in
  given (N:=FI) [1; 2; 3; 4]%float 2 2 [5; 6]%float 2 1 /\ check_B 2 2 1 = Some (2, 1) /\
  fine_cols_call (N:=FI) 3 (p_conv_point M cm_equ) 2 2 (round_robin 40 2) [0; 0; 0; 0; 0; 0]%float = Ok (Some ([5; 16; 12; 15; 38; 24]%float, true)) /\
  fine_cols_call (N:=FI) 2 (p_copy_point (N:=FI) PAdd 2 1 1 0 1 [5; 6]%float) 2 2 (round_robin 10 2) [1; 2; 3; 4]%float = Ok (Some ([1; 7; 3; 10]%float, true)).
Proof. cbv zeta. split; [repeat split; cbn; lia|]. split; [reflexivity|]. split; vm_compute; reflexivity. Qed.
