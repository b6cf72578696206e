(** PropUniF2Ex.v - a case that meets the hypotheses of C133: elements at
    0 : 3 : 3 in both directions, image point (0, 0, 4) mm, 1500 m/s, 1 us
    sampling, delay 0.25 us, four A-scans of ten ones. *)
From Coq Require Import Floats.
From Coq Require Import Reals Lra Lia ZArith List Bool.
From Verif Require Import Base BaseLemmas ModelSir ModelDas NumF NumR ExJob SpecDft SpecDas SpecRound SpecRoundSir SpecRoundDas SpecUniF
  PropDas PropRoundSir PropRoundDas PropUniF2.
Import ListNotations.
Open Scope R_scope.
Local Notation val := SpecRound.val.
Local Notation id := (fun x : PrimFloat.float => x).
Local Notation pos := (grid_pos id id id id id id id).

Definition u_Y : list FI := repeat (1%float : FI) 40.
Definition u_g : FI * FI * FI := ((0%float, 3%float, 3%float) : PrimFloat.float * PrimFloat.float * PrimFloat.float).
Definition u_rx : FI * FI * FI := ((0%float, 1%float, 0%float) : PrimFloat.float * PrimFloat.float * PrimFloat.float).
Definition u_rz : FI * FI * FI := ((4%float, 1%float, 4%float) : PrimFloat.float * PrimFloat.float * PrimFloat.float).
Definition u_o : FI * FI * FI := ((0%float, 0%float, 4%float) : PrimFloat.float * PrimFloat.float * PrimFloat.float).
(** Distances of the two elements. *)
Definition u_d (i : nat) : R := if Nat.eqb i 0 then 4 else 5.

Lemma u_pos i : (i < 2)%nat -> val (pos u_g i) = if Nat.eqb i 0 then 0 else 3.
Proof.
  intros Hi. destruct i as [|[|]]; [| |lia].
  - replace (pos u_g 0) with (0%float : PrimFloat.float) by (vm_compute; reflexivity). reflexivity.
  - replace (pos u_g 1) with (3%float : PrimFloat.float) by (vm_compute; reflexivity). exact val_3.
Qed.
Lemma u_o_val : val3 id id id id id id id u_o = (0, 0, 4).
Proof. unfold val3, u_o. rewrite val_4. change (val 0%float) with 0. reflexivity. Qed.
Lemma u_first : val (first_of id id id id id id id u_g) = 0.
Proof. reflexivity. Qed.
Lemma u_last : val (last_of id id id id id id id u_g) = 3.
Proof. exact val_3. Qed.
Lemma sqrt_4 x : x = 16 -> sqrt x = 4.
Proof. intros ->. replace 16 with (4 * 4) by ring. apply sqrt_square. lra. Qed.
Lemma sqrt_5 x : x = 25 -> sqrt x = 5.
Proof. intros ->. replace 25 with (5 * 5) by ring. apply sqrt_square. lra. Qed.
Lemma u_dist i : (i < 2)%nat -> edist (val (pos u_g i), 0, 0) (val3 id id id id id id id u_o) = u_d i.
Proof.
  intros Hi. rewrite u_o_val, (u_pos i Hi). unfold edist, u_d. destruct (Nat.eqb i 0); [apply sqrt_4|apply sqrt_5]; ring.
Qed.
Lemma u_seg x : (x = 0 \/ x = 3) -> forall d, d = (if Req_EM_T x 0 then 4 else 5) ->
  segment_dist (x, 0, 0) (x, 3, 0) (0, 0, 4) d /\ segment_dist (0, x, 0) (3, x, 0) (0, 0, 4) d.
Proof.
  intros Hx d ->.
  assert (E : forall z, 0 <= z -> (if Req_EM_T x 0 then 4 else 5) <= sqrt (x ^ 2 + z + 16)).
  { intros z Hz. destruct (Req_EM_T x 0) as [E|E].
    - rewrite <- (sqrt_4 16) by ring. apply sqrt_le_1_alt. rewrite E. lra.
    - destruct Hx as [Hx|Hx]; [lra|]. rewrite <- (sqrt_5 25) by ring. apply sqrt_le_1_alt. rewrite Hx. lra. }
  assert (E0 : sqrt (x ^ 2 + 0 + 16) = if Req_EM_T x 0 then 4 else 5).
  { destruct (Req_EM_T x 0) as [->|E1]; [apply sqrt_4; ring|]. destruct Hx as [Hx|Hx]; [lra|]. rewrite Hx. apply sqrt_5. ring. }
  split; (split; [|intros s (l & Hl & ->); unfold edist;
    eapply Rle_trans; [exact (E ((l * 3) ^ 2) (pow2_ge_0 _))|apply Req_le; f_equal; ring]]).
  - exists (x, 0, 0). split; [exists 0; split; [lra|]; f_equal; [f_equal|]; ring|]. unfold edist. rewrite <- E0. f_equal. ring.
  - exists (0, x, 0). split; [exists 0; split; [lra|]; f_equal; [f_equal|]; ring|]. unfold edist. rewrite <- E0. f_equal. ring.
Qed.
Lemma u_segs i : (i < 2)%nat ->
  segment_dist (val (pos u_g i), 0, 0) (val (pos u_g i), 3, 0) (0, 0, 4) (u_d i) /\
  segment_dist (0, val (pos u_g i), 0) (3, val (pos u_g i), 0) (0, 0, 4) (u_d i).
Proof.
  intros Hi. rewrite (u_pos i Hi). apply u_seg; unfold u_d; destruct (Nat.eqb i 0).
  - left. reflexivity.
  - right. reflexivity.
  - destruct (Req_EM_T 0 0); lra.
  - destruct (Req_EM_T 3 0); lra.
Qed.
Lemma u_vals : map Rabs (vals u_Y) = repeat 1 40 /\ vals u_Y = repeat 1 40.
Proof.
  assert (E : vals u_Y = repeat 1 40) by (unfold u_Y; rewrite <- val_1; exact (vals_rep 1%float 40)).
  rewrite E. split; [|reflexivity]. cbn [repeat map]. rewrite Rabs_R1. reflexivity.
Qed.
Lemma u_pair a b : a = 4 \/ a = 5 -> b = 4 \/ b = 5 -> exists k, (5 <= k <= 6)%Z /\ pair_sample 1 1500 (/ 4) a b = k.
Proof.
  intros Ha Hb. unfold pair_sample, sample_no. change (1000 * (travel_ms 1500 a + travel_ms 1500 b + / 4 / 1000) / 1) with (pair_time 1 1500 (/ 4) a b).
  rewrite ex_time. destruct Ha as [->| ->], Hb as [->| ->].
  - exists 5%Z. split; [lia|]. apply trunc_at; [lra|lia].
  - exists 6%Z. split; [lia|]. apply trunc_at; [lra|lia].
  - exists 6%Z. split; [lia|]. apply trunc_at; [lra|lia].
  - exists 6%Z. split; [lia|]. apply trunc_at; [lra|lia].
Qed.
Lemma u_d45 i : u_d i = 4 \/ u_d i = 5.
Proof. unfold u_d. destruct (Nat.eqb i 0); auto. Qed.

Example C133_ex :
  data_ok id id id id id id id u_Y 10 4 1%float 0.25%float 1500%float /\
  grid_of id id id id id id id u_g 2 /\ ends_ok id id id id id id id u_g /\
  image_at id id id id id id id u_rx u_rx u_rz 0 u_o /\
  (forall i, (i < 2)%nat -> edist (val (pos u_g i), 0, 0) (val3 id id id id id id id u_o) = u_d i /\
     segment_dist (val (pos u_g i), val (first_of id id id id id id id u_g), 0) (val (pos u_g i), val (last_of id id id id id id id u_g), 0) (val3 id id id id id id id u_o) (u_d i) /\
     segment_dist (val (first_of id id id id id id id u_g), val (pos u_g i), 0) (val (last_of id id id id id id id u_g), val (pos u_g i), 0) (val3 id id id id id id id u_o) (u_d i)) /\
  (forall i j, safe_pair (val 1%float) (val 1500%float) (val 0.25%float) (u_d i) (u_d j) /\
     fits32 (pair_sample (val 1%float) (val 1500%float) (val 0.25%float) (u_d i) (u_d j))) /\
  (let image W := das_sum W 10 2 2 u_d u_d (val 1%float) (val 1500%float) (val 0.25%float) in
   image_range (2 * 2) (image (map Rabs (vals u_Y))) /\ image (vals u_Y) = 4) /\
  (forall t, uni_value (N:=FI) t u_Y 10 u_g u_g u_rx u_rx u_rz 1%float 0.25%float 1500%float 0 =
     Ok (if DASType_eqb t das_saft then 2%float else 4%float)).
Proof.
  split.
  { split; [lia|]. split.
    { apply Forall_forall. intros x Hx. apply repeat_spec in Hx. subst x. reflexivity. }
    split; [cbn; lia|]. split; [apply ord_pp; [reflexivity|rewrite val_1; lra]|]. split; [apply ord_pp; [reflexivity|rewrite val_1500; lra]|].
    apply ord_pos; [reflexivity|rewrite val_q; lra]. }
  split.
  { split; [vm_compute; reflexivity|]. intros i Hi. apply ord_pos; [destruct i as [|[|]]; [vm_compute; reflexivity|vm_compute; reflexivity|lia]|].
    rewrite (u_pos i Hi). destruct (Nat.eqb i 0); lra. }
  split.
  { split; [exact ord0|]. split; [apply ord_pos; [reflexivity|rewrite u_last; lra]|]. rewrite u_first, u_last. lra. }
  split.
  { split; [vm_compute; reflexivity|]. split; [exact ord0|]. split; [exact ord0|]. apply ord_pos; [reflexivity|cbn [u_o snd]; rewrite val_4; lra]. }
  split.
  { intros i Hi. split; [exact (u_dist i Hi)|]. rewrite u_first, u_last, u_o_val. exact (u_segs i Hi). }
  rewrite val_1, val_1500, val_q.
  split.
  { intros i j. split; [exact (ex_safe _ _ (u_d45 i) (u_d45 j))|]. destruct (u_pair _ _ (u_d45 i) (u_d45 j)) as (k & Hk & ->). unfold fits32. lia. }
  split.
  { destruct u_vals as [-> ->]. cbv zeta.
    assert (A : das_sum (repeat 1 40) 10 2 2 u_d u_d 1 1500 (/ 4) = 4).
    { unfold das_sum. cbn [rsum].
      assert (AY : forall t r, (t < 2)%nat -> (r < 2)%nat -> ascan (repeat 1 40) 10 (t * 2 + r) (pair_sample 1 1500 (/ 4) (u_d t) (u_d r)) = 1).
      { intros t r Ht Hr. destruct (u_pair _ _ (u_d45 t) (u_d45 r)) as (k & Hk & ->). unfold ascan.
        replace (inside 10 k) with true by (unfold inside; lia). apply nth_repeat_lt. change (Z.to_nat 10) with 10%nat. lia. }
      rewrite !AY by lia. ring. }
    cbv beta. rewrite A. split; [|reflexivity].
    split; [unfold large; rewrite four|change (INR (2 * 2)) with (INR 4); rewrite INR4, four];
      rewrite <- !(ProofsRoundSir.bpow_val); apply Flocq.Core.Raux.bpow_le; lia. }
  intros t. destruct t; vm_compute; reflexivity.
Qed.
