(** PropClFEx.v - a case that meets the hypotheses of C134: the elements of
    C105_ex and 64 image points, all at (0, 4, 0) mm. *)
From Coq Require Import Floats.
From Coq Require Import Reals Lra Lia ZArith List Bool.
From Verif Require Import Base BaseLemmas ModelSir ModelArr ModelSmp ModelDas NumF NumR ExJob SpecDft SpecDas SpecRound SpecRoundSir SpecRoundDas
  PropDas PropRoundSir PropRoundDas PropUniF2Ex PropClF.
From Coq Require Import ZifyBool ZifyNat.
Import ListNotations.
Open Scope R_scope.
Local Notation val := SpecRound.val.
Local Notation id := (fun x : PrimFloat.float => x).

Definition g_job : das_job FI :=
  @Build_das_job FI das_tfm 10 64 2 2 (repeat 1%float 40) (repeat 0%float 64 ++ repeat 4%float 64 ++ repeat 0%float 64) [0; 3; 0; 0; 0; 0]%float
    [0; 3; 0; 0; 0; 0]%float 1%float delay_single [0.25]%float 1500%float lvl_ignore.
Definition g_rjob : rjob :=
  {| q_type := das_tfm; q_len := 10; q_No := 64; q_nt := 2; q_nr := 2; q_Y := repeat 1 40;
     q_Ro := repeat 0 64 ++ repeat 4 64 ++ repeat 0 64; q_Gt := [0; 3; 0; 0; 0; 0]; q_Gr := [0; 3; 0; 0; 0; 0]; q_dt := 1; q_dty := delay_single;
     q_delay := [/ 4]; q_cp := 1500; q_lvl := lvl_ignore |}.
Lemma g_val : val_das id id id id id id id g_job = g_rjob.
Proof.
  unfold val_das, g_rjob, g_job. cbn [d_type d_len d_No d_num_t d_num_r d_Y d_Ro d_Gt d_Gr d_dt d_delay_type d_delay d_cp d_lvl].
  assert (E : vals (repeat 0%float 64 ++ repeat 4%float 64 ++ repeat 0%float 64) = repeat 0 64 ++ repeat 4 64 ++ repeat 0 64).
  { unfold vals. rewrite !map_app. change (map SpecRound.val) with vals. rewrite !vals_rep, val_4. change (val 0%float) with 0. reflexivity. }
  etransitivity; [apply f_equal with (f := fun l => Build_rjob das_tfm 10 64 2 2 (vals (repeat 1%float 40)) l _ _ _ delay_single _ _ lvl_ignore); exact E|].
  rewrite vals_rep. unfold vals. cbn [map]. rewrite val_1, val_3, val_1500, val_q. change (val 0%float) with 0. reflexivity.
Qed.
Lemma g_point n : (n < 64)%nat -> point_of g_rjob n = (0, 4, 0).
Proof.
  intros Hn. unfold point_of, row3, g_rjob. cbn [q_Ro q_No].
  assert (E1 : nth n (repeat 0 64 ++ repeat 4 64 ++ repeat 0 64) 0 = 0) by (rewrite app_nth1 by (rewrite repeat_length; lia); now apply nth_repeat_lt).
  assert (E2 : nth (n + 64) (repeat 0 64 ++ repeat 4 64 ++ repeat 0 64) 0 = 4).
  { rewrite app_nth2 by (rewrite repeat_length; lia). rewrite repeat_length, Nat.add_sub. rewrite app_nth1 by (rewrite repeat_length; lia). now apply nth_repeat_lt. }
  assert (E3 : nth (n + 2 * 64) (repeat 0 64 ++ repeat 4 64 ++ repeat 0 64) 0 = 0).
  { rewrite app_nth2 by (rewrite repeat_length; lia). rewrite repeat_length. replace (n + 2 * 64 - 64)%nat with (n + 64)%nat by lia.
    rewrite app_nth2 by (rewrite repeat_length; lia). rewrite repeat_length, Nat.add_sub. now apply nth_repeat_lt. }
  rewrite E1, E2, E3. reflexivity.
Qed.
Lemma g_dist n t : (n < 64)%nat -> (t < 2)%nat -> tx_dist g_rjob n t = u_d t /\ rx_dist g_rjob n t = u_d t.
Proof.
  intros Hn Ht. unfold tx_dist, rx_dist. rewrite (g_point n Hn). unfold u_d.
  destruct t as [|[|]]; [| |lia]; cbn; split; first [apply sqrt_4|apply sqrt_5]; ring.
Qed.

Example C134_ex :
  ordinary_das id id id id id id id g_job /\ d_delay_type g_job = delay_single /\ (d_No g_job mod 64 = 0)%Z /\
  let Q := val_das id id id id id id id g_job in
  rjob_ok Q /\ q_type Q = das_tfm /\ (q_nt Q * q_nr Q * q_len Q <= length (q_Y Q))%nat /\ tfm_clear Q /\
  (forall n t r, (n < q_No Q)%nat -> (t < q_nt Q)%nat -> (r < q_nr Q)%nat ->
     fits32 (pair_sample (q_dt Q) (q_cp Q) (SpecDas.delay_of Q n) (tx_dist Q n t) (rx_dist Q n r))) /\
  cl_das (N:=FI) g_job (repeat (7%float : FI) 64) = Ok (repeat (4%float : FI) 64).
Proof.
  split.
  { split; cbn [g_job d_type d_len d_No d_num_t d_num_r d_Y d_Ro d_Gt d_Gr d_dt d_delay_type d_delay d_cp d_lvl].
    - lia.
    - apply Forall_forall. intros x Hx. apply repeat_spec in Hx. subst x. reflexivity.
    - assert (O4 : ordinary 4%float) by (apply ord_pos; [reflexivity|rewrite val_4; lra]).
      apply Forall_forall. intros x Hx. apply in_app_or in Hx. destruct Hx as [Hx|Hx]; [apply repeat_spec in Hx; subst x; exact ord0|].
      apply in_app_or in Hx. destruct Hx as [Hx|Hx]; apply repeat_spec in Hx; subst x; [exact O4|exact ord0].
    - repeat (apply Forall_cons; [first [exact ord0|apply ord_pos; [reflexivity|rewrite ?val_3; lra]]|]); apply Forall_nil.
    - repeat (apply Forall_cons; [first [exact ord0|apply ord_pos; [reflexivity|rewrite ?val_3; lra]]|]); apply Forall_nil.
    - repeat (apply Forall_cons; [first [exact ord0|apply ord_pos; [reflexivity|rewrite ?val_q; lra]]|]); apply Forall_nil.
    - apply ord_pp; [reflexivity|rewrite val_1; lra].
    - apply ord_pp; [reflexivity|rewrite val_1500; lra]. }
  split; [reflexivity|]. split; [reflexivity|]. cbv zeta. rewrite g_val.
  assert (A : forall n, (n < 64)%nat -> das_sum (repeat 1 40) 10 2 2 (tx_dist g_rjob n) (rx_dist g_rjob n) 1 1500 (/ 4) = 4).
  { intros n Hn. unfold das_sum. cbn [rsum].
    assert (AY : forall t r, (t < 2)%nat -> (r < 2)%nat -> ascan (repeat 1 40) 10 (t * 2 + r) (pair_sample 1 1500 (/ 4) (tx_dist g_rjob n t) (rx_dist g_rjob n r)) = 1).
    { intros t r Ht Hr. rewrite (proj1 (g_dist n t Hn Ht)), (proj2 (g_dist n r Hn Hr)).
      destruct (u_pair _ _ (u_d45 t) (u_d45 r)) as (k & Hk & ->). unfold ascan.
      replace (inside 10 k) with true by (unfold inside; lia). apply nth_repeat_lt. change (Z.to_nat 10) with 10%nat. lia. }
    rewrite !AY by lia. ring. }
  split. { split; cbn -[repeat]; try lia; try lra. rewrite !app_length, !repeat_length. lia. }
  split; [reflexivity|]. split; [change (40 <= length (repeat 1 40))%nat; rewrite repeat_length; lia|].
  split.
  { intros n Hn. change (n < 64)%nat in Hn. split.
    - intros t r Ht Hr. change (safe_pair 1 1500 (/ 4) (tx_dist g_rjob n t) (rx_dist g_rjob n r)).
      rewrite (proj1 (g_dist n t Hn Ht)), (proj2 (g_dist n r Hn Hr)). exact (ex_safe _ _ (u_d45 t) (u_d45 r)).
    - change (image_range (2 * 2) (das_sum (map Rabs (repeat 1 40)) 10 2 2 (tx_dist g_rjob n) (rx_dist g_rjob n) 1 1500 (/ 4))).
      replace (map Rabs (repeat 1 40)) with (repeat 1 40) by (cbn [repeat map]; rewrite Rabs_R1; reflexivity).
      rewrite (A n Hn). split; [unfold large; rewrite four|change (INR (2 * 2)) with (INR 4); rewrite INR4, four];
      rewrite <- !(ProofsRoundSir.bpow_val); apply Flocq.Core.Raux.bpow_le; lia. }
  split.
  { intros n t r Hn Ht Hr. change (n < 64)%nat in Hn. change (fits32 (pair_sample 1 1500 (/ 4) (tx_dist g_rjob n t) (rx_dist g_rjob n r))).
    rewrite (proj1 (g_dist n t Hn Ht)), (proj2 (g_dist n r Hn Hr)). destruct (u_pair _ _ (u_d45 t) (u_d45 r)) as (k & Hk & ->). unfold fits32. lia. }
  vm_compute. reflexivity.
Qed.
