(** PropClF2Ex.v - a case that meets the hypotheses of C134_rca_partial: two
    columns (x = 0 and 3 mm), two rows (y = 0 and 3 mm) and 64 image points, all
    at (0, 0, 4) mm. *)
From Coq Require Import Floats.
From Coq Require Import Reals Lra Lia ZArith List Bool.
From Verif Require Import Base BaseLemmas ModelSir ModelArr ModelSmp ModelDas NumF NumR ExJob SpecDft SpecDas SpecRound SpecRoundSir SpecRoundDas
  ProofsRca PropDas PropDas2 PropRoundSir PropRoundDas PropUniF2Ex PropClF PropClF2.
From Coq Require Import ZifyBool ZifyNat.
Import ListNotations.
Open Scope R_scope.
Local Notation val := SpecRound.val.
Local Notation id := (fun x : PrimFloat.float => x).

Definition h_job : das_job FI :=
  @Build_das_job FI das_rca_rowtx 10 64 2 2 (repeat 1%float 40) (repeat 0%float 64 ++ repeat 0%float 64 ++ repeat 4%float 64) [0; 3; 0; 0; 0; 0]%float
    [0; 0; 0; 3; 0; 0]%float 1%float delay_single [0.25]%float 1500%float lvl_ignore.
Definition h_rjob : rjob :=
  {| q_type := das_rca_rowtx; q_len := 10; q_No := 64; q_nt := 2; q_nr := 2; q_Y := repeat 1 40;
     q_Ro := repeat 0 64 ++ repeat 0 64 ++ repeat 4 64; q_Gt := [0; 3; 0; 0; 0; 0]; q_Gr := [0; 0; 0; 3; 0; 0]; q_dt := 1; q_dty := delay_single;
     q_delay := [/ 4]; q_cp := 1500; q_lvl := lvl_ignore |}.
Lemma h_val : val_das id id id id id id id h_job = h_rjob.
Proof.
  unfold val_das, h_rjob, h_job. cbn [d_type d_len d_No d_num_t d_num_r d_Y d_Ro d_Gt d_Gr d_dt d_delay_type d_delay d_cp d_lvl].
  assert (E : vals (repeat 0%float 64 ++ repeat 0%float 64 ++ repeat 4%float 64) = repeat 0 64 ++ repeat 0 64 ++ repeat 4 64).
  { unfold vals. rewrite !map_app. change (map SpecRound.val) with vals. rewrite !vals_rep, val_4. change (val 0%float) with 0. reflexivity. }
  etransitivity; [apply f_equal with (f := fun l => Build_rjob das_rca_rowtx 10 64 2 2 (vals (repeat 1%float 40)) l _ _ _ delay_single _ _ lvl_ignore); exact E|].
  rewrite vals_rep. unfold vals. cbn [map]. rewrite val_1, val_3, val_1500, val_q. change (val 0%float) with 0. reflexivity.
Qed.
Lemma h_point n : (n < 64)%nat -> point_of h_rjob n = (0, 0, 4).
Proof.
  intros Hn. unfold point_of, row3, h_rjob. cbn [q_Ro q_No].
  assert (E1 : nth n (repeat 0 64 ++ repeat 0 64 ++ repeat 4 64) 0 = 0) by (rewrite app_nth1 by (rewrite repeat_length; lia); now apply nth_repeat_lt).
  assert (E2 : nth (n + 64) (repeat 0 64 ++ repeat 0 64 ++ repeat 4 64) 0 = 0).
  { rewrite app_nth2 by (rewrite repeat_length; lia). rewrite repeat_length, Nat.add_sub. rewrite app_nth1 by (rewrite repeat_length; lia). now apply nth_repeat_lt. }
  assert (E3 : nth (n + 2 * 64) (repeat 0 64 ++ repeat 0 64 ++ repeat 4 64) 0 = 4).
  { rewrite app_nth2 by (rewrite repeat_length; lia). rewrite repeat_length. replace (n + 2 * 64 - 64)%nat with (n + 64)%nat by lia.
    rewrite app_nth2 by (rewrite repeat_length; lia). rewrite repeat_length, Nat.add_sub. now apply nth_repeat_lt. }
  rewrite E1, E2, E3. reflexivity.
Qed.
Lemma h_stripe : rstripe 0 3 0 = 0.
Proof. unfold rstripe. destruct (Rle_dec 0 0); [|lra]. destruct (Rle_dec 0 3); [|lra]. reflexivity. Qed.
Definition h_d (n i : nat) : R := u_d i.
Lemma h_dists : rca_dists h_rjob h_d h_d.
Proof.
  intros n Hn. change (n < 64)%nat in Hn. rewrite (h_point n Hn). unfold h_d. split; intros i Hi.
  - assert (E : column_stripe (q_Gt h_rjob) (q_Gr h_rjob) (q_nt h_rjob) (q_nr h_rjob) i = (((if Nat.eqb i 0 then 0 else 3), 0, 0), ((if Nat.eqb i 0 then 0 else 3), 3, 0))).
    { change (i < 2)%nat in Hi. destruct i as [|[|]]; [reflexivity|reflexivity|lia]. }
    rewrite E. cbv zeta. cbn [fst snd]. pose proof (segment_y (if Nat.eqb i 0 then 0 else 3) 0 3 0 0 0 4 ltac:(lra)) as S. rewrite h_stripe in S.
    match type of S with segment_dist _ _ _ ?e => replace (u_d i) with e; [exact S|] end.
    unfold u_d. destruct (Nat.eqb i 0); first [apply sqrt_4|apply sqrt_5]; ring.
  - assert (E : row_stripe (q_Gt h_rjob) (q_Gr h_rjob) (q_nt h_rjob) (q_nr h_rjob) i = ((0, (if Nat.eqb i 0 then 0 else 3), 0), (3, (if Nat.eqb i 0 then 0 else 3), 0))).
    { change (i < 2)%nat in Hi. destruct i as [|[|]]; [reflexivity|reflexivity|lia]. }
    rewrite E. cbv zeta. cbn [fst snd]. pose proof (segment_x (if Nat.eqb i 0 then 0 else 3) 0 3 0 0 0 4 ltac:(lra)) as S. rewrite h_stripe in S.
    match type of S with segment_dist _ _ _ ?e => replace (u_d i) with e; [exact S|] end.
    unfold u_d. destruct (Nat.eqb i 0); first [apply sqrt_4|apply sqrt_5]; ring.
Qed.

Example C134_rca_ex :
  ordinary_das id id id id id id id h_job /\ d_delay_type h_job = delay_single /\ (d_No h_job mod 64 = 0)%Z /\
  let Q := val_das id id id id id id id h_job in
  rjob_ok Q /\ q_type Q = das_rca_rowtx /\ q_nt Q = q_nr Q /\ (1 <= q_nr Q)%nat /\
  vy (row3 (q_Gr Q) (q_nr Q) 0) <= vy (row3 (q_Gr Q) (q_nr Q) (q_nr Q - 1)) /\
  vx (row3 (q_Gt Q) (q_nt Q) 0) <= vx (row3 (q_Gt Q) (q_nt Q) (q_nt Q - 1)) /\
  (q_nt Q * q_nr Q * q_len Q <= length (q_Y Q))%nat /\ rca_dists Q h_d h_d /\ rca_clear Q h_d h_d /\
  (forall n c r, (n < q_No Q)%nat -> (c < q_nt Q)%nat -> (r < q_nr Q)%nat ->
     fits32 (pair_sample (q_dt Q) (q_cp Q) (SpecDas.delay_of Q n) (h_d n c) (h_d n r))) /\
  cl_das (N:=FI) h_job (repeat (7%float : FI) 64) = Ok (repeat (4%float : FI) 64).
Proof.
  split.
  { split; cbn [h_job d_type d_len d_No d_num_t d_num_r d_Y d_Ro d_Gt d_Gr d_dt d_delay_type d_delay d_cp d_lvl].
    - lia.
    - apply Forall_forall. intros x Hx. apply repeat_spec in Hx. subst x. reflexivity.
    - assert (O4 : ordinary 4%float) by (apply ord_pos; [reflexivity|rewrite val_4; lra]).
      apply Forall_forall. intros x Hx. apply in_app_or in Hx. destruct Hx as [Hx|Hx]; [apply repeat_spec in Hx; subst x; exact ord0|].
      apply in_app_or in Hx. destruct Hx as [Hx|Hx]; apply repeat_spec in Hx; subst x; [exact ord0|exact O4].
    - repeat (apply Forall_cons; [first [exact ord0|apply ord_pos; [reflexivity|rewrite ?val_3; lra]]|]); apply Forall_nil.
    - repeat (apply Forall_cons; [first [exact ord0|apply ord_pos; [reflexivity|rewrite ?val_3; lra]]|]); apply Forall_nil.
    - repeat (apply Forall_cons; [first [exact ord0|apply ord_pos; [reflexivity|rewrite ?val_q; lra]]|]); apply Forall_nil.
    - apply ord_pp; [reflexivity|rewrite val_1; lra].
    - apply ord_pp; [reflexivity|rewrite val_1500; lra]. }
  split; [reflexivity|]. split; [reflexivity|]. cbv zeta. rewrite h_val.
  assert (A : das_sum (repeat 1 40) 10 2 2 u_d u_d 1 1500 (/ 4) = 4).
  { unfold das_sum. cbn [rsum].
    assert (AY : forall t r, (t < 2)%nat -> (r < 2)%nat -> ascan (repeat 1 40) 10 (t * 2 + r) (pair_sample 1 1500 (/ 4) (u_d t) (u_d r)) = 1).
    { intros t r Ht Hr. destruct (u_pair _ _ (u_d45 t) (u_d45 r)) as (k & Hk & ->). unfold ascan.
      replace (inside 10 k) with true by (unfold inside; lia). apply nth_repeat_lt. change (Z.to_nat 10) with 10%nat. lia. }
    rewrite !AY by lia. ring. }
  split. { split; cbn -[repeat]; try lia; try lra. rewrite !app_length, !repeat_length. lia. }
  split; [reflexivity|]. split; [reflexivity|]. split; [cbn; lia|]. split; [cbn; lra|]. split; [cbn; lra|].
  split; [change (40 <= length (repeat 1 40))%nat; rewrite repeat_length; lia|].
  split; [exact h_dists|]. split.
  { intros n Hn. change (n < 64)%nat in Hn. split.
    - intros c r Hc Hr. exact (ex_safe _ _ (u_d45 c) (u_d45 r)).
    - change (image_range (2 * 2) (das_sum (map Rabs (repeat 1 40)) 10 2 2 u_d u_d 1 1500 (/ 4))).
      replace (map Rabs (repeat 1 40)) with (repeat 1 40) by (cbn [repeat map]; rewrite Rabs_R1; reflexivity).
      rewrite A. split; [unfold large; rewrite four|change (INR (2 * 2)) with (INR 4); rewrite INR4, four];
      rewrite <- !(ProofsRoundSir.bpow_val); apply Flocq.Core.Raux.bpow_le; lia. }
  split.
  { intros n c r Hn Hc Hr. change (fits32 (pair_sample 1 1500 (/ 4) (u_d c) (u_d r))).
    destruct (u_pair _ _ (u_d45 c) (u_d45 r)) as (k & Hk & ->). unfold fits32. lia. }
  vm_compute. reflexivity.
Qed.
