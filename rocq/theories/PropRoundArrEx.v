(** PropRoundArrEx.v - the hypotheses of C127 hold for a concrete call: two
    rectangular elements with user defined delays (0 and 1 us) and weights (1
    and 2), three observation points, every front end. *)
From Coq Require Strings.String Strings.Ascii.
Import Coq.Strings.String.StringSyntax.
From Coq Require Import Floats.
From Coq Require Import Reals List ZArith Lra Lia.
From Verif Require Import Base BaseLemmas ModelSir ModelArr ModelSmp NumF NumR SpecSmp SpecSir SpecRayleigh SpecArr
  ModelGw SpecGw SpecGwR PropGw ExJob ProofsR SpecRound SpecRoundSir PropRoundSir SpecRoundArr.
Import ListNotations.
Local Open Scope string_scope.
Open Scope R_scope.
Local Notation id := (fun x : PrimFloat.float => x).

Definition arr_p : arr_par FI :=
  @Build_arr_par FI 2 [0; 1; 0; 0; 0; 0]%float foc_ud [0; 1]%float steer_none 0%float 0%float true apod_ud [1; 2]%float 0%float.
Definition arr_call : list (value FI) :=
  [ex_Ro; row [1; 1]%float; @VNum FI Full 2 3 [0; 1; 0; 0; 0; 0]%float; ex_s; num1 6%float; ex_m;
   VStr "ud"; row [0; 1]%float; VStr "off"; row [0; 0]%float; VStr "ud"; row [1; 2]%float; num1 0%float; VStr "warn"].

Lemma arr_arrival (r c d D m : R) (z y : Z) : 1 <= IZR z -> 0.0399 <= d <= 0.0401 -> c = 1500 -> 1 <= r <= 100 -> D = m -> 0 <= m <= 6 ->
  (IZR z - 0.45) * 0.0401 + m <= 1000 * r / 1500 <= (IZR z + 0.45) * 0.0399 + m ->
  Rabs ((1000 * r / c - D + 0) / d - IZR z) < 1 / 2 /\
  9 * eps * ((1000 * r / c + Rabs D) / d) < Rabs ((1000 * r / c - D + 0) / d - (IZR y + / 2)).
Proof.
  intros Hz Hd -> Hr -> Hm [H1 H2]. rewrite (Rabs_pos_eq m) by lra.
  set (t := 1000 * r / 1500) in *. assert (Ht : 0 <= t <= 70) by (unfold t; lra). clearbody t.
  assert (A : IZR z - 0.45 <= (t - m + 0) / d <= IZR z + 0.45).
  { split; apply Rmult_le_reg_r with d; try lra; unfold Rdiv; rewrite Rmult_assoc, Rinv_l, Rmult_1_r by lra; nra. }
  set (v := (t - m + 0) / d) in *. clearbody v. split.
  - apply Rabs_def1; lra.
  - apply Rlt_le_trans with 0.05.
    + assert (E : (t + m) / d <= 2000).
      { apply Rmult_le_reg_r with d; [lra|]. unfold Rdiv. rewrite Rmult_assoc, Rinv_l, Rmult_1_r by lra. lra. }
      assert (E0 : 0 <= (t + m) / d). { apply Rmult_le_reg_r with d; [lra|]. unfold Rdiv. rewrite Rmult_assoc, Rinv_l, Rmult_1_r by lra. lra. }
      assert (Ee : 0 < eps <= 0.000001).
      { unfold eps. replace (powerRZ 2 (-52)) with (/ powerRZ 2 (Z.of_nat 52)) by (symmetry; exact (powerRZ_neg' 2 (Z.of_nat 52))). rewrite <- pow_powerRZ, pow_IZR.
        change (2 ^ Z.of_nat 52)%Z with 4503599627370496%Z. lra. }
      set (w := (t + m) / d) in *. clearbody w. nra.
    + destruct (Z_le_gt_dec y (z - 1)) as [Hy|Hy].
      * assert (IZR y <= IZR z - 1) by (rewrite <- minus_IZR; now apply IZR_le). rewrite Rabs_pos_eq; lra.
      * assert (IZR z <= IZR y) by (apply IZR_le; lia). rewrite Rabs_left1; lra.
Qed.
Lemma arr_source (o : pos) (s : source) (D m S lo hi : R) (z : Z) : (p_x o - s_x s)^2 + (p_y o - s_y s)^2 + (p_z o - s_z s)^2 = S -> s_tau s = 0 ->
  D = m -> 0 <= m <= 6 -> 1 <= lo -> hi <= 100 -> 0 <= hi -> lo * lo <= S <= hi * hi -> (1 <= z < 1000)%Z ->
  (IZR z - 0.45) * 0.0401 + m <= 1000 * lo / 1500 -> 1000 * hi / 1500 <= (IZR z + 0.45) * 0.0399 + m ->
  lo <= SpecRayleigh.dist o s /\ (0 <= arrives_at (FIpar ex_q) D o s < 1000)%Z /\
  forall y : Z, 9 * eps * ((1000 * SpecRayleigh.dist o s / p_cp (FIpar ex_q) + Rabs D) / p_dt (FIpar ex_q))
    < Rabs (arrival (FIpar ex_q) D o s - (IZR y + / 2)).
Proof.
  intros HS Ht HD Hm Hlo Hhi Hh [H1 H2] Hz A1 A2.
  assert (E : lo <= SpecRayleigh.dist o s <= hi).
  { unfold SpecRayleigh.dist. rewrite HS. split.
    - rewrite <- (sqrt_square lo) by lra. now apply sqrt_le_1_alt.
    - rewrite <- (sqrt_square hi) by lra. now apply sqrt_le_1_alt. }
  unfold arrives_at, arrival. rewrite Ht. set (r := SpecRayleigh.dist o s) in *. clearbody r.
  assert (Hz1 : 1 <= IZR z) by (apply IZR_le; lia).
  assert (P : forall y, Rabs ((1000 * r / p_cp (FIpar ex_q) - D + 0) / p_dt (FIpar ex_q) - IZR z) < 1 / 2 /\
    9 * eps * ((1000 * r / p_cp (FIpar ex_q) + Rabs D) / p_dt (FIpar ex_q))
    < Rabs ((1000 * r / p_cp (FIpar ex_q) - D + 0) / p_dt (FIpar ex_q) - (IZR y + / 2))).
  { intros y. apply (arr_arrival _ _ _ _ m); [exact Hz1|exact val_dt|exact val_1500|lra|exact HD|exact Hm|lra]. }
  split; [lra|]. split; [|intros y; apply P].
  rewrite (Zrint_unique _ z (proj1 (P 0%Z))). lia.
Qed.
Lemma small99 : powerRZ 2 (-99) <= 1.
Proof. replace (powerRZ 2 (-99)) with (/ powerRZ 2 (Z.of_nat 99)) by (symmetry; exact (powerRZ_neg' 2 (Z.of_nat 99))). rewrite <- pow_powerRZ, pow_IZR. 
  change (2 ^ Z.of_nat 99)%Z with 633825300114114700748351602688%Z. lra. Qed.
Lemma arr_elem_ok K (o : pos) (D m : R) : D = m -> (m = 6 /\ (p_x o = 0 \/ p_x o = 1 \/ p_x o = 2)) \/ (m = 5 /\ (p_x o = 0 \/ p_x o = 1 \/ p_x o = -1)) ->
  p_y o = 0 -> p_z o = 10 -> ordinary_elem K (FIpar ex_q) D o (map (FIsrc ex_q) ex_pts).
Proof.
  intros HD Hx Hy Hz.
  assert (P : forall s, In s (map (FIsrc ex_q) ex_pts) ->
    10 <= SpecRayleigh.dist o s /\ Rabs (s_x s) <= 1 /\ Rabs (s_y s) <= 1 /\ (0 <= arrives_at (FIpar ex_q) D o s < 1000)%Z /\
    forall y : Z, 9 * eps * ((1000 * SpecRayleigh.dist o s / p_cp (FIpar ex_q) + Rabs D) / p_dt (FIpar ex_q)) < Rabs (arrival (FIpar ex_q) D o s - (IZR y + / 2))).
  { intros s Hs. cbn [map ex_pts In] in Hs.
    assert (E : exists X Y, (X = / 4 \/ X = - / 4) /\ (Y = / 4 \/ Y = - / 4) /\ s = flat (val (dx ex_q) * val (dy ex_q)) X Y).
    { destruct Hs as [<-|[<-|[<-|[<-|[]]]]]; unfold FIsrc, val_source; cbn [fst snd]; rewrite ?val_q, ?val_mq; eexists _, _; (split; [|split; [|reflexivity]]); auto. }
    destruct E as (X & Y & HX & HY & ->).
    assert (HY2 : Y * Y = / 16) by (destruct HY; subst Y; lra).
    assert (DD : forall S, (p_x o - X) * (p_x o - X) + / 16 + 100 = S ->
      (p_x o - s_x (flat (val (dx ex_q) * val (dy ex_q)) X Y))^2 + (p_y o - s_y (flat (val (dx ex_q) * val (dy ex_q)) X Y))^2
      + (p_z o - s_z (flat (val (dx ex_q) * val (dy ex_q)) X Y))^2 = S).
    { intros S HS. unfold flat. cbn [s_x s_y s_z]. rewrite Hy, Hz, <- HS. cbn [pow]. nra. }
    set (s := flat (val (dx ex_q) * val (dy ex_q)) X Y) in *.
    assert (AX : Rabs (s_x s) <= 1 /\ Rabs (s_y s) <= 1).
    { unfold s, flat. cbn [s_x s_y]. split; [destruct HX as [-> | ->]|destruct HY as [-> | ->]]; apply Rabs_le; lra. }
    assert (Fin : forall lo hi z, 10 <= lo -> hi <= 11 -> lo * lo <= (p_x o - X) * (p_x o - X) + / 16 + 100 <= hi * hi -> (1 <= z < 1000)%Z ->
      (IZR z - 0.45) * 0.0401 + m <= 1000 * lo / 1500 -> 1000 * hi / 1500 <= (IZR z + 0.45) * 0.0399 + m -> 0 <= hi -> 0 <= m <= 6 ->
      10 <= SpecRayleigh.dist o s /\ Rabs (s_x s) <= 1 /\ Rabs (s_y s) <= 1 /\ (0 <= arrives_at (FIpar ex_q) D o s < 1000)%Z /\
      forall y : Z, 9 * eps * ((1000 * SpecRayleigh.dist o s / p_cp (FIpar ex_q) + Rabs D) / p_dt (FIpar ex_q)) < Rabs (arrival (FIpar ex_q) D o s - (IZR y + / 2))).
    { intros lo hi z L1 L2 L3 L4 L5 L6 L7 L8.
      destruct (arr_source o s D m _ lo hi z (DD _ eq_refl) eq_refl HD L8 ltac:(lra) ltac:(lra) L7 L3 L4 L5 L6) as (A1 & A2 & A3).
      repeat split; try tauto; lra. }
    destruct Hx as [[Hm Hx]|[Hm Hx]]; destruct Hx as [Hx|[Hx|Hx]]; destruct HX as [-> | ->]; rewrite Hx, Hm in Fin.
    - apply (Fin 10.006 10.007 17%Z); lra || lia.
    - apply (Fin 10.006 10.007 17%Z); lra || lia.
    - apply (Fin 10.031 10.032 17%Z); lra || lia.
    - apply (Fin 10.0809 10.081 18%Z); lra || lia.
    - apply (Fin 10.155 10.156 19%Z); lra || lia.
    - apply (Fin 10.253 10.2531 21%Z); lra || lia.
    - apply (Fin 10.006 10.007 42%Z); lra || lia.
    - apply (Fin 10.006 10.007 42%Z); lra || lia.
    - apply (Fin 10.031 10.032 42%Z); lra || lia.
    - apply (Fin 10.0809 10.081 43%Z); lra || lia.
    - apply (Fin 10.0809 10.081 43%Z); lra || lia.
    - apply (Fin 10.031 10.032 42%Z); lra || lia. }
  pose proof small99. split.
  - intros s Hs. destruct (P s Hs) as (A & B & C & _). lra.
  - intros s Hs. apply P, Hs.
  - intros s Hs. destruct (P s Hs) as (_ & _ & _ & A & _). destruct K; lia.
Qed.

Example C127_ex : forall fe,
  documented fe FArrRect arr_call (@TArrRect FI 1%float 1%float arr_p) ex_q 0%float lvl_warn 3
    ([0; 1; 2] ++ [0; 0; 0] ++ [10; 10; 10])%float delay_single [6%float] /\
  runs_to_end 2 None 3 (round_robin 10 2) /\
  elements id id id id id id id (@TArrRect FI 1%float 1%float arr_p) = Some (@TRect FI 1%float 1%float, arr_p) /\
  simple_array id id id id id id id arr_p /\ ordinary_array id id id id id id id arr_p /\
  double_points id id id id id id id 10 (@TRect FI 1%float 1%float) ex_q = Some ex_pts /\
  INR (Z.to_nat (num_elements arr_p) * length ex_pts) <= powerRZ 2 50 /\
  forall n i, (n < 3)%nat -> (i < 2)%nat -> ordinary_elem (idx_of fe) (FIpar ex_q) (val 6%float - elem_late id id id id id id id arr_p i)
    (SpecArr.rel (FIpos (nth n [0; 1; 2]%float 0%float) 0%float 10%float) (elem_place id id id id id id id arr_p i)) (map (FIsrc ex_q) ex_pts).
Proof.
  intros fe. pose proof ord0. pose proof val_1. pose proof val_2. pose proof val_6. pose proof val_10. pose proof val_zero.
  split.
  { apply (@doc_array FI fe FArrRect [1; 1]%float arr_p 0%float _ ex_q 0%float lvl_warn 3 _ _ _ _ _ _ _ _ _ _ _ _ _ _ _ _ [VStr "warn"]).
    - reflexivity.
    - cbn. lia.
    - destruct fe; reflexivity.
    - exists Full. repeat split; auto; try (cbn; lia). left; reflexivity.
    - apply ex_row_vec.
    - exists Full. repeat split; auto; try (cbn; lia). left; reflexivity.
    - exists 25%float. split; [apply ex_row_vec|destruct fe; vm_compute; reflexivity].
    - left. exists 6%float. split; [apply (ex_row_vec fe [6%float])|auto].
    - apply ex_row_vec.
    - right. split; [reflexivity|]. split; [reflexivity|]. split; [apply ex_row_vec|]. split; [reflexivity|]. intros [_ X]. discriminate X.
    - exists "off". split; [reflexivity|]. split; [cbn; auto|apply ex_row_vec].
    - split; [apply (ex_row_vec fe [0%float])|]. right; right. split; [reflexivity|]. split; [reflexivity|]. split; [reflexivity|]. split; [apply ex_row_vec|]. split; [reflexivity|]. intros [_ X]. discriminate X.
    - left. exists "warn". split; [reflexivity|cbn; auto]. }
  split.
  { split; [intros H9; vm_compute in H9; intuition discriminate|].
    change (num_threads 2 None 3) with 2%Z. intros i Hi. assert (C : (i = 0 \/ i = 1)%Z) by lia.
    destruct C as [-> | ->]; vm_compute; discriminate. }
  split; [reflexivity|]. split; [split; [reflexivity|split; [right; reflexivity|reflexivity]]|].
  split.
  { split; [|split]; intros; repeat (apply Forall_cons; [first [exact ord0|apply ord_pos; [reflexivity|lra]|apply ord_pp; [reflexivity|lra]]|]); apply Forall_nil. }
  split; [vm_compute; reflexivity|]. split.
  { change (Z.to_nat (num_elements arr_p) * length ex_pts)%nat with 8%nat. rewrite INR_IZR_INZ. change 50%Z with (Z.of_nat 50). rewrite <- pow_powerRZ, pow_IZR.
    change (2 ^ Z.of_nat 50)%Z with 1125899906842624%Z. change (Z.of_nat 8) with 8%Z. lra. }
  intros n i Hn Hi.
  assert (EL : elem_late id id id id id id id arr_p i = (if (i =? 0)%nat then 0 else 1)).
  { unfold elem_late. cbn [foc_met arr_p focal]. destruct i as [|[|i]]; [exact val_zero|exact val_1|lia]. }
  assert (EP : elem_place id id id id id id id arr_p i = {| p_x := if (i =? 0)%nat then 0 else 1; p_y := 0; p_z := 0 |}).
  { unfold elem_place. change (Z.to_nat (num_elements arr_p)) with 2%nat. destruct i as [|[|i]]; [| |lia]; cbn [Nat.mul Nat.add nth G arr_p Nat.eqb]; rewrite ?val_zero, ?val_1; reflexivity. }
  apply (arr_elem_ok _ _ _ (if (i =? 0)%nat then 6 else 5)).
  - rewrite EL. destruct i; cbn [Nat.eqb]; lra.
  - rewrite EP. unfold SpecArr.rel, FIpos, val_pos. cbn [p_x].
    destruct i as [|[|i]]; [left|right|lia]; cbn [Nat.eqb]; (split; [reflexivity|]); destruct n as [|[|[|n]]]; try lia; cbn [nth]; rewrite ?val_zero, ?val_1, ?val_2; lra.
  - rewrite EP. unfold SpecArr.rel, FIpos, val_pos. cbn [p_y]. rewrite val_zero. lra.
  - rewrite EP. unfold SpecArr.rel, FIpos, val_pos. cbn [p_z]. lra.
Qed.
