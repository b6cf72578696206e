(** ProofsRoundDas3.v - the four delay-and-sum methods in doubles. *)
From Coq Require Import Floats Uint63.
From Coq Require Import Reals Lra Lia ZArith List Bool.
From Flocq Require Import Core Plus_error Relative BinarySingleNaN PrimFloat.
From Verif Require Import Base BaseLemmas NumF NumR ProofsTermF SpecRound ProofsRound ProofsRel SpecRoundSir ProofsRoundSir ProofsRoundDas
  ModelSir ModelArr ModelSmp ModelDas SpecSmp SpecDft SpecDas ProofsSmp ProofsLoop ProofsR ProofsDft ProofsDas ProofsDasR ProofsRca ProofsDasJ SpecRoundDas
  ProofsRoundDas2 ProofsGridF.
From Coq Require Import ZifyBool ZifyNat.
Import ListNotations.
Open Scope R_scope.
Ltac Zify.zify_post_hook ::= Z.div_mod_to_equations.
Local Notation val := SpecRound.val.

Lemma ltb_true x y : fin x = true -> fin y = true -> V x < V y -> PrimFloat.ltb x y = true.
Proof. intros Hx Hy H. rewrite ltb_equiv, (Bltb_correct _ _ _ _ Hx Hy). apply Rlt_bool_true. exact H. Qed.
Lemma ltb_false x y : fin x = true -> fin y = true -> V y <= V x -> PrimFloat.ltb x y = false.
Proof. intros Hx Hy H. rewrite ltb_equiv, (Bltb_correct _ _ _ _ Hx Hy). apply Rlt_bool_false. exact H. Qed.

Section M.
  Context (fsin fcos fatan fasin facos fexp flog : PrimFloat.float -> PrimFloat.float).
  Local Notation F := (FN fsin fcos fatan fasin facos fexp flog).
  Local Notation val_das := (val_das fsin fcos fatan fasin facos fexp flog).
  Local Notation ordinary_das := (ordinary_das fsin fcos fatan fasin facos fexp flog).

  Lemma get_F (l : list F) z : (0 <= z < Z.of_nat (length l))%Z -> buf_get l z = Ok (nth (Z.to_nat z) l (0%float : F)).
  Proof. intros H. exact (get_nth l z (0%float : F) H). Qed.
  Lemma ord_nth (l : list F) i : Forall ordinary l -> (i < length l)%nat -> ordinary (nth i l (0%float : F)).
  Proof. intros H Hi. rewrite Forall_forall in H. apply H, nth_In, Hi. Qed.
  Lemma Ok_eq {A} (x y : A) : Ok x = Ok y -> x = y.
  Proof. congruence. Qed.
  Lemma B1000 t : Rabs t <= bpow radix2 104 -> Rabs t <= bpow radix2 1000.
  Proof. intros Ht; apply Rle_trans with (1 := Ht); apply bpow_le; lia. Qed.
  Lemma diff104 a b : Rabs a <= bpow radix2 100 -> Rabs b <= bpow radix2 100 -> Rabs (a - b) <= bpow radix2 104.
  Proof. intros H1 H2. apply diff_small; [exact H1|]. apply Rle_trans with (1 := H2). apply bpow_le. lia. Qed.
  Lemma near_diff x y : ordinary x -> ordinary y -> near1 (x - y)%float (V x - V y) /\ Rabs (V x - V y) <= bpow radix2 104.
  Proof.
    intros Hx Hy. apply ordinary_V in Hx, Hy. destruct Hx as [Fx Bx], Hy as [Fy By].
    pose proof (diff104 _ _ Bx By). split; [|assumption]. apply near1_sub; auto using B1000.
  Qed.

  (** The travel time from three offsets. *)
  Lemma travel_F cp x y z X Y Z : ordinary_pos cp -> near1 x X -> near1 y Y -> near1 z Z ->
    Rabs X <= bpow radix2 104 -> Rabs Y <= bpow radix2 104 -> Rabs Z <= bpow radix2 104 ->
    powerRZ 2 (-100) <= sqrt (X ^ 2 + Y ^ 2 + Z ^ 2) ->
    rel 6 (-200) 205 (travel (N:=F) cp x y z) (sqrt (X ^ 2 + Y ^ 2 + Z ^ 2) / V cp).
  Proof.
    intros Hc Hx Hy Hz Bx By Bz HD. apply travel_rel; [exact Hc|]. apply dist_rel; auto. rewrite bpow_val. exact HD.
  Qed.

  Lemma etime_F (G : list F) num n (xo yo zo cp : F) : (0 <= n < num)%Z -> Z.of_nat (length G) = (3 * num)%Z ->
    Forall ordinary G -> ordinary xo -> ordinary yo -> ordinary zo -> ordinary_pos cp ->
    let d := edist (row3 (vals G) (Z.to_nat num) (Z.to_nat n)) (V xo, V yo, V zo) in
    powerRZ 2 (-100) <= d -> rel 6 (-200) 205 (etime (N:=F) G num n xo yo zo cp) (d / V cp).
  Proof.
    intros Hn HG OG Hx Hy Hz Hc d Hd. unfold etime, erel. rewrite !get_F by lia. cbn [ProofsDas.val].
    unfold d in *. unfold row3, edist in *. rewrite <- !nth_vals in *.
    replace (Z.to_nat (n + 1 * num)) with (Z.to_nat n + Z.to_nat num)%nat by lia.
    replace (Z.to_nat (n + 2 * num)) with (Z.to_nat n + 2 * Z.to_nat num)%nat by lia.
    pose proof (ord_nth G (Z.to_nat n) OG ltac:(lia)) as O1. pose proof (ord_nth G (Z.to_nat n + Z.to_nat num) OG ltac:(lia)) as O2.
    pose proof (ord_nth G (Z.to_nat n + 2 * Z.to_nat num) OG ltac:(lia)) as O3.
    destruct (near_diff _ _ O1 Hx) as [N1 B1]. destruct (near_diff _ _ O2 Hy) as [N2 B2]. destruct (near_diff _ _ O3 Hz) as [N3 B3].
    apply travel_F; auto.
  Qed.

  (** From a close index to the same sample. *)
  Lemma clear_trunc x X M : within 16 M x X -> (forall z : Z, 8 * eps * M < Rabs (X - IZR z)) -> f_trunc x = Some (Ztruncr X).
  Proof.
    intros (Fx & Ex) Hc. rewrite (f_trunc_V x Fx). f_equal. apply (same_trunc _ _ _ Ex). intros z.
    eapply Rle_lt_trans; [|exact (Hc z)]. rewrite u_eps. right. ring.
  Qed.
  Lemma Rabs_1000 d : Rabs (d / 1000) = Rabs d / 1000.
  Proof. unfold Rdiv. rewrite Rabs_mult, (Rabs_pos_eq (/ 1000)) by lra. reflexivity. Qed.

  Lemma pair_trunc (t r dl dt cp : F) a b : rel 6 (-200) 205 t (a / V cp) -> rel 6 (-200) 205 r (b / V cp) ->
    ordinary dl -> ordinary_pos dt ->
    (forall z : Z, 8 * eps * pair_time (V dt) (V cp) (Rabs (V dl)) a b < Rabs (pair_time (V dt) (V cp) (V dl) a b - IZR z)) ->
    f_trunc (nmul (n:=F) (nadd (n:=F) (nadd (n:=F) t (delay_ms (N:=F) dl)) r) (Fs_khz (N:=F) dt)) =
      Some (Ztruncr (1000 * (a / V cp + b / V cp + V dl / 1000) / V dt)).
  Proof.
    intros Ht Hr Hd Hdt Hc. pose proof (pair_arg dt dl Hdt Hd t r _ _ Ht Hr) as W.
    assert (Pdt : V dt <> 0). { apply ordinary_pos_rel in Hdt. destruct (rel_pos _ _ _ _ _ Hdt). lra. }
    unfold pair_time, travel_ms in Hc.
    replace ((a / V cp + V dl / 1000 + b / V cp) * (1 / V dt * 1000)) with (1000 * (a / V cp + b / V cp + V dl / 1000) / V dt) in W
      by (unfold Rdiv; ring).
    rewrite Rabs_1000 in W.
    replace ((a / V cp + Rabs (V dl) / 1000 + b / V cp) * (1 / V dt * 1000)) with (1000 * (a / V cp + b / V cp + Rabs (V dl) / 1000) / V dt) in W
      by (unfold Rdiv; ring).
    exact (clear_trunc _ _ _ W Hc).
  Qed.
  Lemma saft_trunc (t dl dt cp : F) a : rel 6 (-200) 205 t (a / V cp) ->
    ordinary dl -> ordinary_pos dt ->
    (forall z : Z, 8 * eps * pair_time (V dt) (V cp) (Rabs (2 * V dl)) a a < Rabs (pair_time (V dt) (V cp) (2 * V dl) a a - IZR z)) ->
    f_trunc (nmul (n:=F) (nmul (n:=F) (nofZ 2 : F) (nadd (n:=F) t (delay_ms (N:=F) dl))) (Fs_khz (N:=F) dt)) =
      Some (Ztruncr (1000 * (a / V cp + a / V cp + (2 * V dl) / 1000) / V dt)).
  Proof.
    intros Ht Hd Hdt Hc. pose proof (saft_arg dt dl Hdt Hd t _ Ht) as W.
    unfold pair_time, travel_ms in Hc. rewrite Rabs_mult, (Rabs_pos_eq 2) in Hc by lra.
    replace (2 * (a / V cp + V dl / 1000) * (1 / V dt * 1000)) with (1000 * (a / V cp + a / V cp + (2 * V dl) / 1000) / V dt) in W
      by (unfold Rdiv; ring).
    rewrite Rabs_1000 in W.
    replace (2 * (a / V cp + Rabs (V dl) / 1000) * (1 / V dt * 1000)) with (1000 * (a / V cp + a / V cp + (2 * Rabs (V dl)) / 1000) / V dt) in W
      by (unfold Rdiv; ring).
    exact (clear_trunc _ _ _ W Hc).
  Qed.

  Local Notation arg_ok := (arg_ok fsin fcos fatan fasin facos fexp flog).
  Lemma F2_flat {A B} (P : A -> B -> Prop) (f : nat -> list A) (g : nat -> list B) s :
    (forall i, In i s -> Forall2 P (f i) (g i)) -> Forall2 P (flat_map f s) (flat_map g s).
  Proof.
    induction s as [|i s IH]; intros H; cbn [flat_map]; [constructor|]. apply Forall2_app; [apply H; now left|]. apply IH. intros; apply H; now right.
  Qed.
  Lemma pairs_ok len n1 n2 (f : nat -> nat -> F) g : (0 <= n2)%Z ->
    (forall i j, (i < Z.to_nat n1)%nat -> (j < Z.to_nat n2)%nat -> f_trunc (f i j) = Some (Ztruncr (g i j))) ->
    Forall2 (arg_ok len) (pairs (N:=F) len n1 n2 f) (rpairs (Z.to_nat n1) (Z.to_nat n2) g).
  Proof.
    intros Hn Hf. unfold pairs, rpairs. apply F2_flat. intros i Hi. apply in_seq in Hi. apply F2_flat. intros j Hj. apply in_seq in Hj.
    constructor; [|constructor]. split; cbn [fst snd]; [lia|]. apply Hf; lia.
  Qed.
  Lemma rpairs_len n1 n2 g : length (rpairs n1 n2 g) = (n1 * n2)%nat.
  Proof.
    unfold rpairs. assert (X : forall s, length (flat_map (fun i => flat_map (fun j => [((i * n2 + j)%nat, g i j)]) (seq 0 n2)) s) = (length s * n2)%nat).
    { induction s as [|i s IH]; [reflexivity|]. cbn [flat_map length]. rewrite app_length, IH.
      assert (Y : forall l, length (flat_map (fun j => [((i * n2 + j)%nat, g i j)]) l) = length l) by (induction l; cbn; congruence).
      rewrite Y, seq_length. lia. }
    rewrite X, seq_length. reflexivity.
  Qed.

  Variables (K : idx_kind) (J : das_job F).
  Hypothesis OJ : ordinary_das J.
  Local Notation J' := (val_das J).
  Hypothesis OK : rjob_ok J'.

  (** The arguments of point n. *)
  Record point_args (n : nat) (xo yo zo dl : F) : Prop := {
    pa_x : ordinary xo; pa_y : ordinary yo; pa_z : ordinary zo; pa_d : ordinary dl;
    pa_o : point_of J' n = (V xo, V yo, V zo); pa_dl : delay_of J' n = V dl }.
  Definition px (n : nat) : F := nth n (d_Ro J) (0%float : F).
  Definition py (n : nat) : F := nth (n + Z.to_nat (d_No J)) (d_Ro J) (0%float : F).
  Definition pz (n : nat) : F := nth (n + 2 * Z.to_nat (d_No J)) (d_Ro J) (0%float : F).
  Definition pd (n : nat) : F := nth (match d_delay_type J with delay_single => 0 | delay_multiple => n end) (d_delay J) (0%float : F).
  Lemma args_F n : (n < q_No J')%nat -> point_args n (px n) (py n) (pz n) (pd n) /\
    das_value (N:=F) K J (Z.of_nat n) = match das_method J with
    | das_saft => das_saft_serial K (d_Y J) (d_len J) (d_Gt J) (d_num_t J) (px n) (py n) (pz n) (d_dt J) (pd n) (d_cp J) (d_lvl J)
    | das_tfm => das_tfm_serial K (d_Y J) (d_len J) (d_Gt J) (d_num_t J) (d_Gr J) (d_num_r J) (px n) (py n) (pz n) (d_dt J) (pd n) (d_cp J) (d_lvl J)
    | das_rca_coltx => das_rca_serial_coltx K (d_Y J) (d_len J) (d_Gt J) (d_num_t J) (d_Gr J) (d_num_r J) (px n) (py n) (pz n) (d_dt J) (pd n) (d_cp J) (d_lvl J)
    | das_rca_rowtx => das_rca_serial_rowtx K (d_Y J) (d_len J) (d_Gt J) (d_num_t J) (d_Gr J) (d_num_r J) (px n) (py n) (pz n) (d_dt J) (pd n) (d_cp J) (d_lvl J)
    end.
  Proof.
    intros Hn. pose proof (wf_F _ _ _ _ _ _ _ J OJ OK) as W. destruct OJ as [(S1 & S2 & S3 & S4) _ ORo _ _ Odl _ _].
    change (q_No J') with (Z.to_nat (d_No J)) in Hn.
    destruct (das_args K J (Z.of_nat n) W ltac:(lia)) as (xo & yo & zo & dl & Ex & Ey & Ez & Ed & E).
    pose proof (dw_Ro _ W) as LRo. pose proof (dw_delay _ W) as Ldl.
    rewrite get_F in Ex, Ey, Ez by lia. rewrite get_F in Ed by (destruct (d_delay_type J); lia).
    apply Ok_eq in Ex, Ey, Ez, Ed.
    replace (Z.to_nat (Z.of_nat n)) with n in * by lia.
    replace (Z.to_nat (Z.of_nat n + 1 * d_No J)) with (n + Z.to_nat (d_No J))%nat in * by lia.
    replace (Z.to_nat (Z.of_nat n + 2 * d_No J)) with (n + 2 * Z.to_nat (d_No J))%nat in * by lia.
    assert (Edl : pd n = dl). { rewrite <- Ed. unfold pd. destruct (d_delay_type J); [reflexivity|]. now rewrite Nat2Z.id. }
    unfold px, py, pz. rewrite Ex, Ey, Ez, Edl. split; [|exact E].
    split.
    - rewrite <- Ex. apply ord_nth; auto; lia.
    - rewrite <- Ey. apply ord_nth; auto; lia.
    - rewrite <- Ez. apply ord_nth; auto; lia.
    - rewrite <- Edl. apply ord_nth; auto. revert Ldl. destruct (d_delay_type J); lia.
    - unfold point_of, row3. change (q_Ro J') with (vals (d_Ro J)). change (q_No J') with (Z.to_nat (d_No J)). rewrite <- !nth_vals. rewrite <- Ex, <- Ey, <- Ez.
      reflexivity.
    - unfold delay_of. change (q_delay J') with (vals (d_delay J)). change (q_dty J') with (d_delay_type J). rewrite <- nth_vals, <- Edl. reflexivity.
  Qed.

  Lemma method_F : das_method J = das_method (emb_das J').
  Proof.
    destruct OJ as [(S1 & S2 & S3 & S4) _ _ _ _ _ _ _]. unfold das_method.
    change (d_num_r (emb_das J')) with (Z.of_nat (Z.to_nat (d_num_r J))). rewrite Z2Nat.id by lia. reflexivity.
  Qed.
  Lemma val_dt : q_dt J' = V (d_dt J).
  Proof. exact (val_V (d_dt J)). Qed.
  Lemma val_cp : q_cp J' = V (d_cp J).
  Proof. exact (val_V (d_cp J)). Qed.

  (** ** TFM *)
  Definition args_tfm (n : nat) : list (Z * F) :=
    tfm_args (N:=F) (d_len J) (d_Gt J) (d_num_t J) (d_Gr J) (d_num_r J) (px n) (py n) (pz n) (d_dt J) (pd n) (d_cp J).
  Definition pairs_tfm (n : nat) : list (nat * R) :=
    rpairs (q_nt J') (q_nr J') (g_pair (q_dt J') (q_cp J') (delay_of J' n) (tx_dist J' n) (rx_dist J' n)).
  Lemma tfm_value n : (n < q_No J')%nat -> q_type J' = das_tfm -> (1 <= q_nr J')%nat ->
    das_value (N:=F) K J (Z.of_nat n) = do c <- das_fold (N:=F) K (d_Y J) (d_len J) (d_lvl J) (args_tfm n) (nofZ 0 : F, err_none); Ok (finish c).
  Proof.
    intros Hn Ht Hr. destruct (args_F n Hn) as (_ & E). rewrite E, method_F, (method_tfm J' Ht Hr).
    pose proof (wf_F _ _ _ _ _ _ _ J OJ OK) as W. rewrite tfm_fold; [reflexivity|exact (dw_Gt _ W)|exact (dw_Gr _ W)].
  Qed.
  Lemma tfm_args_ok n : (n < q_No J')%nat ->
    (forall t r, (t < q_nt J')%nat -> (r < q_nr J')%nat -> safe_pair (q_dt J') (q_cp J') (delay_of J' n) (tx_dist J' n t) (rx_dist J' n r)) ->
    Forall2 (arg_ok (d_len J)) (args_tfm n) (pairs_tfm n).
  Proof.
    intros Hn Hs. destruct (args_F n Hn) as ([Ox Oy Oz Od Ep Edl] & _). pose proof (wf_F _ _ _ _ _ _ _ J OJ OK) as W.
    destruct OJ as [(S1 & S2 & S3 & S4) _ _ OGt OGr _ Odt Ocp].
    unfold args_tfm, tfm_args, pairs_tfm. change (q_nt J') with (Z.to_nat (d_num_t J)). change (q_nr J') with (Z.to_nat (d_num_r J)).
    apply pairs_ok; [exact S4|]. intros i j Hi Hj. destruct (Hs i j Hi Hj) as (D1 & D2 & Hc).
    unfold g_pair, tx_dist, rx_dist in *. rewrite Ep, Edl, val_dt, val_cp in *.
    change (q_Gt J') with (vals (d_Gt J)) in *. change (q_Gr J') with (vals (d_Gr J)) in *.
    change (q_nt J') with (Z.to_nat (d_num_t J)) in *. change (q_nr J') with (Z.to_nat (d_num_r J)) in *.
    pose proof (etime_F (d_Gt J) (d_num_t J) (Z.of_nat i) (px n) (py n) (pz n) (d_cp J) ltac:(lia) (dw_Gt _ W) OGt Ox Oy Oz Ocp) as R1.
    pose proof (etime_F (d_Gr J) (d_num_r J) (Z.of_nat j) (px n) (py n) (pz n) (d_cp J) ltac:(lia) (dw_Gr _ W) OGr Ox Oy Oz Ocp) as R2.
    cbv zeta in R1, R2. rewrite Nat2Z.id in R1, R2. specialize (R1 D1). specialize (R2 D2).
    exact (pair_trunc _ _ _ _ _ _ _ R1 R2 Od Odt Hc).
  Qed.

  (** ** SAFT *)
  Definition args_saft (n : nat) : list (Z * F) :=
    saft_args (N:=F) (d_len J) (d_Gt J) (d_num_t J) (px n) (py n) (pz n) (d_dt J) (pd n) (d_cp J).
  Definition pairs_saft (n : nat) : list (nat * R) :=
    map (fun i => (i, g_saft (q_dt J') (q_cp J') (delay_of J' n) (tx_dist J' n) i)) (seq 0 (q_nt J')).
  Lemma saft_value n : (n < q_No J')%nat -> q_type J' = das_saft \/ q_nr J' = 0%nat ->
    das_value (N:=F) K J (Z.of_nat n) = do c <- das_fold (N:=F) K (d_Y J) (d_len J) (d_lvl J) (args_saft n) (nofZ 0 : F, err_none); Ok (finish c).
  Proof.
    intros Hn Ht. destruct (args_F n Hn) as (_ & E). rewrite E, method_F, (method_saft J' Ht).
    pose proof (wf_F _ _ _ _ _ _ _ J OJ OK) as W. rewrite saft_fold; [reflexivity|exact (dw_Gt _ W)].
  Qed.
  Lemma saft_args_ok n : (n < q_No J')%nat ->
    (forall t, (t < q_nt J')%nat -> safe_pair (q_dt J') (q_cp J') (2 * delay_of J' n) (tx_dist J' n t) (tx_dist J' n t)) ->
    Forall2 (arg_ok (d_len J)) (args_saft n) (pairs_saft n).
  Proof.
    intros Hn Hs. destruct (args_F n Hn) as ([Ox Oy Oz Od Ep Edl] & _). pose proof (wf_F _ _ _ _ _ _ _ J OJ OK) as W.
    destruct OJ as [(S1 & S2 & S3 & S4) _ _ OGt OGr _ Odt Ocp].
    unfold args_saft, saft_args, pairs_saft. change (q_nt J') with (Z.to_nat (d_num_t J)).
    assert (X : forall s, (forall i, In i s -> (i < Z.to_nat (d_num_t J))%nat) ->
      Forall2 (arg_ok (d_len J)) (flat_map (fun j => [((Z.of_nat j * d_len J)%Z, nmul (n:=F) (nmul (n:=F) (nofZ 2 : F) (nadd (n:=F) (etime (N:=F) (d_Gt J) (d_num_t J) (Z.of_nat j) (px n) (py n) (pz n) (d_cp J)) (delay_ms (N:=F) (pd n)))) (Fs_khz (N:=F) (d_dt J)))]) s)
        (map (fun i => (i, g_saft (q_dt J') (q_cp J') (delay_of J' n) (tx_dist J' n) i)) s)).
    { induction s as [|i s IH]; intros Hin; [constructor|]. cbn [flat_map map app]. constructor; [|apply IH; intros; apply Hin; now right].
      pose proof (Hin i (or_introl eq_refl)) as Hi. split; cbn [fst snd]; [reflexivity|].
      destruct (Hs i Hi) as (D1 & D2 & Hc).
      unfold g_saft, tx_dist in *. rewrite Ep, Edl, val_dt, val_cp in *.
      change (q_Gt J') with (vals (d_Gt J)) in *. change (q_nt J') with (Z.to_nat (d_num_t J)) in *.
      pose proof (etime_F (d_Gt J) (d_num_t J) (Z.of_nat i) (px n) (py n) (pz n) (d_cp J) ltac:(lia) (dw_Gt _ W) OGt Ox Oy Oz Ocp) as R1.
      cbv zeta in R1. rewrite Nat2Z.id in R1. specialize (R1 D1).
      exact (saft_trunc _ _ _ _ _ R1 Od Odt Hc). }
    apply X. intros i Hi. apply in_seq in Hi. lia.
  Qed.

  (** ** Row-column arrays *)
  Hypothesis Hsq : q_nt J' = q_nr J'.
  Hypothesis Hnr : (1 <= q_nr J')%nat.
  Hypothesis Hy : vy (row3 (q_Gr J') (q_nr J') 0) <= vy (row3 (q_Gr J') (q_nr J') (q_nr J' - 1)).
  Hypothesis Hx : vx (row3 (q_Gt J') (q_nt J') 0) <= vx (row3 (q_Gt J') (q_nt J') (q_nt J' - 1)).
  Definition ey1 : F := nth (Z.to_nat (d_num_r J)) (d_Gr J) (0%float : F).
  Definition ey2 : F := nth (Z.to_nat (d_num_r J) - 1 + Z.to_nat (d_num_r J)) (d_Gr J) (0%float : F).
  Definition ex1 : F := nth 0 (d_Gt J) (0%float : F).
  Definition ex2 : F := nth (Z.to_nat (d_num_t J) - 1) (d_Gt J) (0%float : F).
  Lemma edges_F : rca_edges (N:=F) (d_Gt J) (d_num_t J) (d_Gr J) (d_num_r J) = Ok (ey1, ey2, ex1, ex2) /\
    (ordinary ey1 /\ ordinary ey2 /\ ordinary ex1 /\ ordinary ex2) /\
    vy (row3 (q_Gr J') (q_nr J') 0) = V ey1 /\ vy (row3 (q_Gr J') (q_nr J') (q_nr J' - 1)) = V ey2 /\
    vx (row3 (q_Gt J') (q_nt J') 0) = V ex1 /\ vx (row3 (q_Gt J') (q_nt J') (q_nt J' - 1)) = V ex2.
  Proof.
    pose proof (wf_F _ _ _ _ _ _ _ J OJ OK) as W. destruct OJ as [(S1 & S2 & S3 & S4) _ _ OGt OGr _ Odt Ocp].
    pose proof (dw_Gt _ W) as LGt. pose proof (dw_Gr _ W) as LGr.
    pose proof Hsq as Hq. pose proof Hnr as Hn1.
    change (q_nt J') with (Z.to_nat (d_num_t J)) in *. change (q_nr J') with (Z.to_nat (d_num_r J)) in *.
    change (q_Gt J') with (vals (d_Gt J)) in *. change (q_Gr J') with (vals (d_Gr J)) in *.
    assert (Eq : d_num_t J = d_num_r J) by lia.
    split; [|split; [|split; [|split; [|split]]]].
    - unfold rca_edges. rewrite !get_F by lia. cbn [bind]. unfold ey1, ey2, ex1, ex2.
      replace (Z.to_nat (0 + 1 * d_num_t J)) with (Z.to_nat (d_num_r J)) by lia.
      replace (Z.to_nat (d_num_t J - 1 + 1 * d_num_t J)) with (Z.to_nat (d_num_r J) - 1 + Z.to_nat (d_num_r J))%nat by lia.
      replace (Z.to_nat (d_num_r J - 1)) with (Z.to_nat (d_num_t J) - 1)%nat by lia. reflexivity.
    - unfold ey1, ey2, ex1, ex2. split; [|split; [|split]]; apply ord_nth; auto; lia.
    - unfold row3, vy, ey1. cbn [fst snd]. now rewrite nth_vals.
    - unfold row3, vy, ey2. cbn [fst snd]. now rewrite nth_vals.
    - unfold row3, vx, ex1. cbn [fst snd]. now rewrite nth_vals.
    - unfold row3, vx, ex2. cbn [fst snd]. now rewrite nth_vals.
  Qed.
  Lemma stripe_F (lo hi o : F) : ordinary lo -> ordinary hi -> ordinary o ->
    near1 (stripe (N:=F) lo hi o) (rstripe (V lo) (V hi) (V o)) /\ Rabs (rstripe (V lo) (V hi) (V o)) <= bpow radix2 104.
  Proof.
    intros Hl Hh Ho. destruct (near_diff _ _ Hl Ho) as [N1 B1]. destruct (near_diff _ _ Hh Ho) as [N2 B2].
    apply ordinary_V in Hl, Hh, Ho. destruct Hl as [Fl _], Hh as [Fh _], Ho as [Fo _].
    assert (Z0 : near1 (0%float) 0 /\ Rabs 0 <= bpow radix2 104).
    { split; [rewrite <- V0; apply near1_exact; reflexivity|]. rewrite Rabs_R0. apply bpow_ge_0. }
    unfold stripe, rstripe. change (nle (n:=F)) with PrimFloat.leb. change (nlt (n:=F)) with PrimFloat.ltb.
    destruct (Rle_dec (V lo) (V o)) as [L1|L1].
    - rewrite (leb_true lo o Fl Fo L1). destruct (Rle_dec (V o) (V hi)) as [L2|L2].
      + rewrite (leb_true o hi Fo Fh L2). exact Z0.
      + rewrite (leb_false o hi Fo Fh ltac:(lra)). cbn [andb]. rewrite (ltb_false o lo Fo Fl L1). destruct (Rlt_dec (V o) (V lo)); [lra|]. auto.
    - rewrite (leb_false lo o Fl Fo ltac:(lra)). cbn [andb]. rewrite (ltb_true o lo Fo Fl ltac:(lra)). destruct (Rlt_dec (V o) (V lo)); [|lra]. auto.
  Qed.

  Lemma sq3 a b c : a * a + b * b + c * c = a ^ 2 + b ^ 2 + c ^ 2. Proof. ring. Qed.
  Lemma ctime_F n c d : (n < q_No J')%nat -> (c < q_nt J')%nat ->
    segment_dist (fst (column_stripe (q_Gt J') (q_Gr J') (q_nt J') (q_nr J') c)) (snd (column_stripe (q_Gt J') (q_Gr J') (q_nt J') (q_nr J') c)) (point_of J' n) d ->
    powerRZ 2 (-100) <= d ->
    rel 6 (-200) 205 (ctime (N:=F) (d_Gt J) (d_num_t J) (Z.of_nat c) ey1 ey2 (px n) (py n) (pz n) (d_cp J)) (d / V (d_cp J)).
  Proof.
    intros Hn Hc Hd HD. destruct (args_F n Hn) as ([Ox Oy Oz Od Ep Edl] & _). pose proof (wf_F _ _ _ _ _ _ _ J OJ OK) as W.
    destruct edges_F as (_ & (Oy1 & Oy2 & _) & Ey1 & Ey2 & _).
    destruct OJ as [(S1 & S2 & S3 & S4) _ _ OGt OGr _ Odt Ocp]. pose proof (dw_Gt _ W) as LGt.
    unfold column_stripe in Hd. cbn [fst snd] in Hd. pose proof Hy as Hy'. rewrite Ey1, Ey2 in *. rewrite Ep in Hd.
    rewrite (segment_unique _ _ _ _ _ Hd (segment_y _ _ _ _ _ _ _ Hy')) in *. clear Hd.
    change (q_nt J') with (Z.to_nat (d_num_t J)) in *. change (q_Gt J') with (vals (d_Gt J)) in *.
    unfold row3, vx, vz in *. cbn [fst snd] in *. rewrite <- !nth_vals in *.
    unfold ctime, col_travel. rewrite !get_F by lia. cbn [bind ProofsDas.val].
    replace (Z.to_nat (Z.of_nat c)) with c by lia. replace (Z.to_nat (Z.of_nat c + 2 * d_num_t J)) with (c + 2 * Z.to_nat (d_num_t J))%nat by lia.
    pose proof (ord_nth (d_Gt J) c OGt ltac:(lia)) as O1. pose proof (ord_nth (d_Gt J) (c + 2 * Z.to_nat (d_num_t J)) OGt ltac:(lia)) as O3.
    destruct (near_diff _ _ O1 Ox) as [N1 B1]. destruct (near_diff _ _ O3 Oz) as [N3 B3]. destruct (stripe_F _ _ _ Oy1 Oy2 Oy) as [N2 B2].
    rewrite sq3 in *. apply travel_F; auto.
  Qed.
  Lemma rtime_F n r d : (n < q_No J')%nat -> (r < q_nr J')%nat ->
    segment_dist (fst (row_stripe (q_Gt J') (q_Gr J') (q_nt J') (q_nr J') r)) (snd (row_stripe (q_Gt J') (q_Gr J') (q_nt J') (q_nr J') r)) (point_of J' n) d ->
    powerRZ 2 (-100) <= d ->
    rel 6 (-200) 205 (rtime (N:=F) (d_Gr J) (d_num_r J) (Z.of_nat r) ex1 ex2 (px n) (py n) (pz n) (d_cp J)) (d / V (d_cp J)).
  Proof.
    intros Hn Hc Hd HD. destruct (args_F n Hn) as ([Ox Oy Oz Od Ep Edl] & _). pose proof (wf_F _ _ _ _ _ _ _ J OJ OK) as W.
    destruct edges_F as (_ & (_ & _ & Ox1 & Ox2) & _ & _ & Ex1 & Ex2).
    destruct OJ as [(S1 & S2 & S3 & S4) _ _ OGt OGr _ Odt Ocp]. pose proof (dw_Gr _ W) as LGr.
    unfold row_stripe in Hd. cbn [fst snd] in Hd. pose proof Hx as Hx'. rewrite Ex1, Ex2 in *. rewrite Ep in Hd.
    rewrite (segment_unique _ _ _ _ _ Hd (segment_x _ _ _ _ _ _ _ Hx')) in *. clear Hd.
    change (q_nr J') with (Z.to_nat (d_num_r J)) in *. change (q_Gr J') with (vals (d_Gr J)) in *.
    unfold row3, vy, vz in *. cbn [fst snd] in *. rewrite <- !nth_vals in *.
    unfold rtime, row_travel. rewrite !get_F by lia. cbn [bind ProofsDas.val].
    replace (Z.to_nat (Z.of_nat r + 1 * d_num_r J)) with (r + Z.to_nat (d_num_r J))%nat by lia. replace (Z.to_nat (Z.of_nat r + 2 * d_num_r J)) with (r + 2 * Z.to_nat (d_num_r J))%nat by lia.
    pose proof (ord_nth (d_Gr J) (r + Z.to_nat (d_num_r J)) OGr ltac:(lia)) as O2. pose proof (ord_nth (d_Gr J) (r + 2 * Z.to_nat (d_num_r J)) OGr ltac:(lia)) as O3.
    destruct (near_diff _ _ O2 Oy) as [N2 B2]. destruct (near_diff _ _ O3 Oz) as [N3 B3]. destruct (stripe_F _ _ _ Ox1 Ox2 Ox) as [N1 B1].
    rewrite sq3 in *. apply travel_F; auto.
  Qed.

  Variables (dcol drow : nat -> nat -> R).
  Hypothesis Hdc : forall n c, (n < q_No J')%nat -> (c < q_nt J')%nat ->
    segment_dist (fst (column_stripe (q_Gt J') (q_Gr J') (q_nt J') (q_nr J') c)) (snd (column_stripe (q_Gt J') (q_Gr J') (q_nt J') (q_nr J') c)) (point_of J' n) (dcol n c).
  Hypothesis Hdr : forall n r, (n < q_No J')%nat -> (r < q_nr J')%nat ->
    segment_dist (fst (row_stripe (q_Gt J') (q_Gr J') (q_nt J') (q_nr J') r)) (snd (row_stripe (q_Gt J') (q_Gr J') (q_nt J') (q_nr J') r)) (point_of J' n) (drow n r).
  Definition args_rca (n : nat) : list (Z * F) :=
    if DASType_eqb (q_type J') das_rca_coltx
    then coltx_args (N:=F) (ey1, ey2, ex1, ex2) (d_len J) (d_Gt J) (d_num_t J) (d_Gr J) (d_num_r J) (px n) (py n) (pz n) (d_dt J) (pd n) (d_cp J)
    else rowtx_args (N:=F) (ey1, ey2, ex1, ex2) (d_len J) (d_Gt J) (d_num_t J) (d_Gr J) (d_num_r J) (px n) (py n) (pz n) (d_dt J) (pd n) (d_cp J).
  Definition pairs_rca (n : nat) : list (nat * R) :=
    if DASType_eqb (q_type J') das_rca_coltx
    then rpairs (q_nt J') (q_nr J') (g_pair (q_dt J') (q_cp J') (delay_of J' n) (dcol n) (drow n))
    else rpairs (q_nr J') (q_nt J') (g_pair (q_dt J') (q_cp J') (delay_of J' n) (drow n) (dcol n)).
  Lemma rca_value n : (n < q_No J')%nat -> q_type J' = das_rca_coltx \/ q_type J' = das_rca_rowtx ->
    das_value (N:=F) K J (Z.of_nat n) = do c <- das_fold (N:=F) K (d_Y J) (d_len J) (d_lvl J) (args_rca n) (nofZ 0 : F, err_none); Ok (finish c).
  Proof.
    intros Hn Ht. destruct (args_F n Hn) as (_ & E). rewrite E, method_F.
    assert (Em : das_method (emb_das J') = q_type J').
    { unfold das_method. change (d_num_r (emb_das J')) with (Z.of_nat (q_nr J')). pose proof Hnr. replace (Z.of_nat (q_nr J') =? 0)%Z with false by lia. reflexivity. }
    rewrite Em. pose proof (wf_F _ _ _ _ _ _ _ J OJ OK) as W. pose proof (dw_Gt _ W) as LGt. pose proof (dw_Gr _ W) as LGr.
    destruct edges_F as (Ee & _). unfold args_rca.
    destruct Ht as [Ht|Ht]; rewrite Ht; cbn [DASType_eqb].
    - rewrite coltx_fold by assumption. rewrite Ee. reflexivity.
    - rewrite rowtx_fold by assumption. rewrite Ee. reflexivity.
  Qed.
  Lemma rca_args_ok n : (n < q_No J')%nat -> q_type J' = das_rca_coltx \/ q_type J' = das_rca_rowtx ->
    (forall c r, (c < q_nt J')%nat -> (r < q_nr J')%nat -> safe_pair (q_dt J') (q_cp J') (delay_of J' n) (dcol n c) (drow n r)) ->
    Forall2 (arg_ok (d_len J)) (args_rca n) (pairs_rca n).
  Proof.
    intros Hn Ht Hs. destruct (args_F n Hn) as ([Ox Oy Oz Od Ep Edl] & _).
    assert (X : forall c r, (c < q_nt J')%nat -> (r < q_nr J')%nat ->
      f_trunc (nmul (n:=F) (nadd (n:=F) (nadd (n:=F) (ctime (N:=F) (d_Gt J) (d_num_t J) (Z.of_nat c) ey1 ey2 (px n) (py n) (pz n) (d_cp J)) (delay_ms (N:=F) (pd n)))
        (rtime (N:=F) (d_Gr J) (d_num_r J) (Z.of_nat r) ex1 ex2 (px n) (py n) (pz n) (d_cp J))) (Fs_khz (N:=F) (d_dt J))) =
      Some (Ztruncr (1000 * (dcol n c / V (d_cp J) + drow n r / V (d_cp J) + V (pd n) / 1000) / V (d_dt J)))).
    { intros c r Hc Hr. destruct (Hs c r Hc Hr) as (D1 & D2 & Hcl). rewrite Edl, val_dt, val_cp in Hcl.
      exact (pair_trunc _ _ _ _ _ _ _ (ctime_F n c _ Hn Hc (Hdc n c Hn Hc) D1) (rtime_F n r _ Hn Hr (Hdr n r Hn Hr) D2) Od (od_dt _ _ _ _ _ _ _ _ OJ) Hcl). }
    destruct (od_sizes _ _ _ _ _ _ _ _ OJ) as (S1 & S2 & S3 & S4).
    unfold args_rca, pairs_rca. rewrite Edl, val_dt, val_cp.
    destruct Ht as [Ht|Ht]; rewrite Ht; cbn [DASType_eqb].
    - unfold coltx_args. apply (pairs_ok (d_len J) (d_num_t J) (d_num_r J)); [exact S4|]. intros i j Hi Hj. exact (X i j Hi Hj).
    - unfold rowtx_args. apply (pairs_ok (d_len J) (d_num_r J) (d_num_t J)); [exact S3|]. intros i j Hi Hj. unfold g_pair.
      replace (drow n i / V (d_cp J) + dcol n j / V (d_cp J)) with (dcol n j / V (d_cp J) + drow n i / V (d_cp J)) by ring. exact (X j i Hj Hi).
  Qed.
End M.
