(** PropDas2.v - property theorems: row-column arrays (C26), linearity and
    memory safety (C27) of delay-and-sum. *)
From Coq Require Import Reals Lra Lia ZArith List Bool ZifyBool ZifyNat.
From Verif Require Import Base BaseLemmas ModelSir ModelArr ModelSmp ModelDas NumR SpecSmp SpecDft SpecDas
  ProofsLocal ProofsLocalArr ProofsSmp ProofsLoop ProofsCallG ProofsSmp2 ProofsR ProofsDft ProofsDas ProofsDasR ProofsRca ProofsDasJ
  PropDas.
Import ListNotations.
Open Scope R_scope.

(** ** C26 *)

(** dcol n c (drow n r) is the distance from image point n to the line element
    of column c (row r). *)
Definition rca_dists (J : rjob) (dcol drow : nat -> nat -> R) : Prop := forall n, (n < q_No J)%nat ->
  (forall c, (c < q_nt J)%nat ->
     let s := column_stripe (q_Gt J) (q_Gr J) (q_nt J) (q_nr J) c in segment_dist (fst s) (snd s) (point_of J n) (dcol n c)) /\
  (forall r, (r < q_nr J)%nat ->
     let s := row_stripe (q_Gt J) (q_Gr J) (q_nt J) (q_nr J) r in segment_dist (fst s) (snd s) (point_of J n) (drow n r)).
Definition rca_fits (K : idx_kind) (J : rjob) (dcol drow : nat -> nat -> R) : Prop := forall n c r,
  (n < q_No J)%nat -> (c < q_nt J)%nat -> (r < q_nr J)%nat ->
  fits K (pair_sample (q_dt J) (q_cp J) (delay_of J n) (dcol n c) (drow n r)).

(** Equal numbers of rows and columns, given in increasing order: the image is
    the delay-and-sum over the true distances to the line elements.  Missing:
    different numbers of rows and columns (refuted below) and decreasing
    order. *)
Theorem C26_square_partial : forall K J nthreads Im0 sch Im stt dcol drow,
  rjob_ok J -> q_type J = das_rca_coltx \/ q_type J = das_rca_rowtx ->
  q_nt J = q_nr J -> (1 <= q_nr J)%nat ->
  vy (row3 (q_Gr J) (q_nr J) 0) <= vy (row3 (q_Gr J) (q_nr J) (q_nr J - 1)) ->
  vx (row3 (q_Gt J) (q_nt J) 0) <= vx (row3 (q_Gt J) (q_nt J) (q_nt J - 1)) ->
  (q_nt J * q_nr J * q_len J <= length (q_Y J))%nat -> rca_dists J dcol drow -> rca_fits K J dcol drow ->
  (1 <= nthreads)%Z -> length Im0 = q_No J ->
  das_call (N:=EN) K (emb_das J) nthreads sch Im0 = Ok (Some (Im, stt, true)) ->
  length Im = q_No J /\
  forall n, (n < q_No J)%nat ->
   (q_type J = das_rca_coltx -> nth n Im None =
     Some (das_sum (q_Y J) (Z.of_nat (q_len J)) (q_nt J) (q_nr J) (dcol n) (drow n) (q_dt J) (q_cp J) (delay_of J n))) /\
   (q_type J = das_rca_rowtx -> nth n Im None =
     Some (das_sum (q_Y J) (Z.of_nat (q_len J)) (q_nr J) (q_nt J) (drow n) (dcol n) (q_dt J) (q_cp J) (delay_of J n))).
Proof.
  intros K J nthreads Im0 sch Im stt dcol drow OK Ht Hsq Hr Hy Hx HY Hd Hf Hth HI E.
  destruct (call_image K J nthreads Im0
    (fun n => if DASType_eqb (q_type J) das_rca_coltx
       then rpairs (q_nt J) (q_nr J) (g_pair (q_dt J) (q_cp J) (delay_of J n) (dcol n) (drow n))
       else rpairs (q_nr J) (q_nt J) (g_pair (q_dt J) (q_cp J) (delay_of J n) (drow n) (dcol n)))
    OK Hth HI (fun n Hn => value_rca K J OK n (dcol n) (drow n) Hn Ht Hsq Hr HY Hy Hx (proj1 (Hd n Hn)) (proj2 (Hd n Hn)) (fun c r => Hf n c r Hn))
    sch Im stt E) as (L & C & _).
  split; [exact L|]. intros n Hn. specialize (C n Hn). split; intros Et; rewrite Et in C; cbn [DASType_eqb] in C;
    rewrite C; f_equal; rewrite psum_rpairs by lia; reflexivity.
Qed.
Print Assumptions C26_square_partial.

(** ... and under those hypotheses every fair schedule completes; the call is
    not stopped unless the level says so. *)
Theorem C26_square_ends_partial : forall K J nthreads Im0 sch dcol drow,
  rjob_ok J -> q_type J = das_rca_coltx \/ q_type J = das_rca_rowtx ->
  q_nt J = q_nr J -> (1 <= q_nr J)%nat ->
  vy (row3 (q_Gr J) (q_nr J) 0) <= vy (row3 (q_Gr J) (q_nr J) (q_nr J - 1)) ->
  vx (row3 (q_Gt J) (q_nt J) 0) <= vx (row3 (q_Gt J) (q_nt J) (q_nt J - 1)) ->
  (q_nt J * q_nr J * q_len J <= length (q_Y J))%nat -> rca_dists J dcol drow -> rca_fits K J dcol drow ->
  (1 <= nthreads)%Z -> length Im0 = q_No J -> fair (Z.of_nat (q_No J)) nthreads sch ->
  exists Im stt r, das_call (N:=EN) K (emb_das J) nthreads sch Im0 = Ok (Some (Im, stt, r)) /\
    (~ is_stop (q_lvl J) -> r = true).
Proof.
  intros K J nthreads Im0 sch dcol drow OK Ht Hsq Hr Hy Hx HY Hd Hf Hth HI [Hc Hs].
  destruct (call_ends K J nthreads Im0
    (fun n => if DASType_eqb (q_type J) das_rca_coltx
       then rpairs (q_nt J) (q_nr J) (g_pair (q_dt J) (q_cp J) (delay_of J n) (dcol n) (drow n))
       else rpairs (q_nr J) (q_nt J) (g_pair (q_dt J) (q_cp J) (delay_of J n) (drow n) (dcol n)))
    OK Hth HI (fun n Hn => value_rca K J OK n (dcol n) (drow n) Hn Ht Hsq Hr HY Hy Hx (proj1 (Hd n Hn)) (proj2 (Hd n Hn)) (fun c r => Hf n c r Hn))
    sch Hc Hs) as (Im & stt & r & E & H).
  exists Im, stt, r. split; [exact E|]. intros Hl. apply H. left. unfold is_stop in Hl. tauto.
Qed.
Print Assumptions C26_square_ends_partial.
(** Distances satisfying the hypothesis always exist. *)
Lemma rca_dists_exist J : vy (row3 (q_Gr J) (q_nr J) 0) <= vy (row3 (q_Gr J) (q_nr J) (q_nr J - 1)) ->
  vx (row3 (q_Gt J) (q_nt J) 0) <= vx (row3 (q_Gt J) (q_nt J) (q_nt J - 1)) -> exists dcol drow, rca_dists J dcol drow.
Proof.
  intros Hy Hx. eexists (fun n c => _), (fun n r => _). intros n _. rewrite point_eta. split.
  - intros c _. cbv zeta. unfold column_stripe. cbn [fst snd]. exact (segment_y _ _ _ _ _ _ _ Hy).
  - intros r _. cbv zeta. unfold row_stripe. cbn [fst snd]. exact (segment_x _ _ _ _ _ _ _ Hx).
Qed.

(** Hypotheses are satisfiable: columns at x = 0, 1, rows at y = 0, 1, image
    point (0,0,0); the call completes. *)
Definition ex_sq : rjob :=
  ex_das das_rca_coltx 4 2 2 (repeat 1 16) [0; 1; 0; 0; 0; 0] [0; 0; 0; 1; 0; 0] (0, 0, 0) 0 lvl_ignore.
Lemma segment_bound p q o d s : segment_dist p q o d -> on_segment p q s -> 0 <= d <= edist s o.
Proof.
  intros [(s' & _ & <-) Hm] Hs. split; [|exact (Hm s Hs)].
  destruct s' as [[a b] c], o as [[x y] z]. apply sqrt_pos.
Qed.
Example C26_square_ex : exists dcol drow Im stt,
  rjob_ok ex_sq /\ rca_dists ex_sq dcol drow /\ rca_fits SignedIdx ex_sq dcol drow /\
  das_call (N:=EN) SignedIdx (emb_das ex_sq) 1 one_round [None : EN] = Ok (Some (Im, stt, true)).
Proof.
  assert (OK : rjob_ok ex_sq) by (apply ex_das_ok; reflexivity).
  assert (Hy : vy (row3 (q_Gr ex_sq) (q_nr ex_sq) 0) <= vy (row3 (q_Gr ex_sq) (q_nr ex_sq) (q_nr ex_sq - 1))) by (unfold row3, vy; cbn; lra).
  assert (Hx : vx (row3 (q_Gt ex_sq) (q_nt ex_sq) 0) <= vx (row3 (q_Gt ex_sq) (q_nt ex_sq) (q_nt ex_sq - 1))) by (unfold row3, vx; cbn; lra).
  destruct (rca_dists_exist ex_sq Hy Hx) as (dcol & drow & Hd).
  assert (E01 : forall x y, 0 <= x <= 1 -> 0 <= y <= 1 -> edist (x, y, 0) (0, 0, 0) <= 2).
  { intros x y A B. unfold edist. replace 2 with (sqrt (2 * 2)) by (apply sqrt_square; lra). apply sqrt_le_1_alt. nra. }
  assert (B : forall n c r, (n < 1)%nat -> (c < 2)%nat -> (r < 2)%nat -> 0 <= dcol n c <= 2 /\ 0 <= drow n r <= 2).
  { intros n c r Hn Hc Hr. destruct n; [|lia]. destruct (Hd 0%nat ltac:(cbn; lia)) as [Dc Dr].
    specialize (Dc c ltac:(cbn; lia)). specialize (Dr r ltac:(cbn; lia)). cbv zeta in Dc, Dr. split.
    - destruct (segment_bound _ _ _ _ (vx (row3 (q_Gt ex_sq) 2 c), 0, 0) Dc) as [H1 H2].
      + exists 0. split; [lra|]. unfold column_stripe, row3, vx, vy, vz. destruct c as [|[|]]; [| |lia]; cbn; f_equal; try f_equal; ring.
      + split; [exact H1|]. apply (Rle_trans _ _ _ H2). apply E01; unfold row3, vx; destruct c as [|[|]]; try lia; cbn; lra.
    - destruct (segment_bound _ _ _ _ (0, vy (row3 (q_Gr ex_sq) 2 r), 0) Dr) as [H1 H2].
      + exists 0. split; [lra|]. unfold row_stripe, row3, vx, vy, vz. destruct r as [|[|]]; [| |lia]; cbn; f_equal; try f_equal; ring.
      + split; [exact H1|]. apply (Rle_trans _ _ _ H2). apply E01; unfold row3, vy; destruct r as [|[|]]; try lia; cbn; lra. }
  assert (F : rca_fits SignedIdx ex_sq dcol drow).
  { intros n c r Hn Hc Hr. destruct (B n c r Hn Hc Hr) as [B1 B2].
    change (q_dt ex_sq) with 1. change (q_cp ex_sq) with 1000. rewrite ex_sample. apply fits_small.
    change (delay_of ex_sq n) with 0. lra. }
  destruct (C26_square_ends_partial SignedIdx ex_sq 1 [None : EN] one_round dcol drow OK (or_introl eq_refl) eq_refl ltac:(cbn; lia)
    Hy Hx ltac:(cbn; lia) Hd F ltac:(lia) eq_refl one_round_fair) as (Im & stt & r & E & Hr).
  rewrite (Hr ltac:(intros [|]; discriminate)) in E.
  exists dcol, drow, Im, stt. auto.
Qed.

(** C26 is false when the numbers differ: two columns at x = 0, 1, three rows
    at y = 0, 1, 2 (so the columns run from y = 0 to y = 2), image point
    (0,2,0), one-sample A-scans of 1.  The pair (column 0, row 2) is at
    distance 0 and its sample belongs to the image, but the code finds every
    sample outside the record. *)
Definition ex_rca : rjob :=
  ex_das das_rca_coltx 1 2 3 [1; 1; 1; 1; 1; 1] [0; 1; 0; 0; 0; 0] [0; 0; 0; 0; 1; 2; 0; 0; 0] (0, 2, 0) 0 lvl_ignore.
Lemma sqrt_ge2 x : 4 <= x -> 2 <= sqrt x.
Proof. intros H. replace 2 with (sqrt (2 * 2)) by (apply sqrt_square; lra). apply sqrt_le_1_alt. lra. Qed.
Lemma sqrt_le3 x : 0 <= x <= 9 -> 0 <= sqrt x <= 3.
Proof. intros H. split; [apply sqrt_pos|]. replace 3 with (sqrt (3 * 3)) by (apply sqrt_square; lra). apply sqrt_le_1_alt. lra. Qed.
Lemma ex_rca_value : das_value (N:=EN) SignedIdx (emb_das ex_rca) 0 = Ok (Some 0, err_ignore_oob).
Proof.
  assert (OK : rjob_ok ex_rca) by (apply ex_das_ok; reflexivity).
  etransitivity; [exact (emb_args SignedIdx ex_rca OK 0%nat ltac:(cbn; lia))|].
  change (das_method (emb_das ex_rca)) with das_rca_coltx. cbv beta iota zeta.
  set (dcol := fun c => let e := row3 (q_Gt ex_rca) 2 c in sqrt ((vx e - 0) * (vx e - 0) + rstripe 0 0 2 * rstripe 0 0 2 + (vz e - 0) * (vz e - 0))).
  set (drow := fun r => let e := row3 (q_Gr ex_rca) 3 r in sqrt (rstripe 0 0 0 * rstripe 0 0 0 + (vy e - 2) * (vy e - 2) + (vz e - 0) * (vz e - 0))).
  assert (S2 : rstripe 0 0 2 = -2).
  { unfold rstripe. destruct (Rle_dec 0 2); [|lra]. destruct (Rle_dec 2 0); [lra|]. destruct (Rlt_dec 2 0); lra. }
  assert (S0 : rstripe 0 0 0 = 0).
  { unfold rstripe. destruct (Rle_dec 0 0); [|lra]. reflexivity. }
  assert (Bc : forall c, (c < 2)%nat -> 2 <= dcol c <= 3).
  { intros c Hc. unfold dcol. rewrite S2. destruct c as [|[|]]; [| |lia]; unfold row3, vx, vz; cbn;
      (split; [apply sqrt_ge2|apply sqrt_le3]; lra). }
  assert (Br : forall r, (r < 3)%nat -> 0 <= drow r <= 3).
  { intros r Hr. unfold drow. rewrite S0. destruct r as [|[|[|]]]; [| | |lia]; unfold row3, vy, vz; cbn; apply sqrt_le3; lra. }
  assert (Hg : forall i j, (i < 2)%nat -> (j < 3)%nat -> (1 <= Ztruncr (g_pair 1 1000 0 dcol drow i j))%Z /\ fits SignedIdx (Ztruncr (g_pair 1 1000 0 dcol drow i j))).
  { intros i j Hi Hj. specialize (Bc i Hi). specialize (Br j Hj).
    replace (g_pair 1 1000 0 dcol drow i j) with (dcol i + drow j) by (unfold g_pair; field). split.
    - rewrite Ztruncr_nonneg by lra. apply Zfloor_ge. lra.
    - apply fits_small. lra. }
  etransitivity; [refine (coltx_any SignedIdx (q_Y ex_rca) (Z.of_nat (q_len ex_rca)) _ _ _ _ _ _ (q_lvl ex_rca) _ _ _ (q_Gt ex_rca) (q_Gr ex_rca) _ _ _ _ 0 0 0 0 dcol drow _ _ _ _ _)|].
  - lia.
  - change (q_dt ex_rca) with 1. lra.
  - change (q_cp ex_rca) with 1000. lra.
  - reflexivity.
  - reflexivity.
  - reflexivity.
  - reflexivity.
  - reflexivity.
  - reflexivity.
  - intros i j Hi Hj. apply (Hg i j Hi Hj).
  - change (Z.to_nat (Z.of_nat (q_nt ex_rca))) with 2%nat. change (Z.to_nat (Z.of_nat (q_nr ex_rca))) with 3%nat.
    change (q_dt ex_rca) with 1. change (q_cp ex_rca) with 1000. change (delay_of ex_rca 0) with 0.
    change (q_lvl ex_rca) with lvl_ignore. change (Z.of_nat (q_len ex_rca)) with 1%Z.
    unfold das_result. cbn [dream_out_of_bounds_err SIRError_eqb].
    replace (forallb (pin 1) (rpairs 2 3 (g_pair 1 1000 0 dcol drow))) with false.
    + f_equal. f_equal. f_equal. rewrite psum_rpairs by lia. cbn [rsum].
      assert (A : forall i j, (i < 2)%nat -> (j < 3)%nat -> ascan (q_Y ex_rca) 1 (i * 3 + j) (Ztruncr (g_pair 1 1000 0 dcol drow i j)) = 0).
      { intros i j Hi Hj. destruct (Hg i j Hi Hj) as [Hk _]. unfold ascan.
        replace (inside 1 _) with false by (unfold inside; lia). reflexivity. }
      rewrite !A by lia. ring.
    + symmetry. apply not_true_iff_false. rewrite forallb_rpairs. intros H.
      specialize (H 0%nat 0%nat ltac:(lia) ltac:(lia)). destruct (Hg 0%nat 0%nat ltac:(lia) ltac:(lia)) as [Hk _].
      unfold inside in H. lia.
Qed.
Lemma ex_rca_true dcol drow : rca_dists ex_rca dcol drow -> dcol 0%nat 0%nat = 0 /\ drow 0%nat 2%nat = 0 /\
  (forall c, (c < 2)%nat -> 0 <= dcol 0%nat c) /\ (forall r, (r < 3)%nat -> 0 <= drow 0%nat r).
Proof.
  intros H. destruct (H 0%nat ltac:(cbn; lia)) as [Hc Hr].
  assert (P : forall p q o d, segment_dist p q o d -> 0 <= d).
  { intros p q o d [(s & _ & <-) _]. destruct s as [[a b] c], o as [[x y] z]. apply sqrt_pos. }
  assert (E : edist (0, 2, 0) (0, 2, 0) = 0) by (unfold edist; etransitivity; [apply f_equal|exact sqrt_0]; ring).
  split; [|split; [|split]].
  - specialize (Hc 0%nat ltac:(cbn; lia)). cbv zeta in Hc. apply Rle_antisym; [|exact (P _ _ _ _ Hc)].
    destruct Hc as [_ Hmin]. rewrite <- E. apply (Hmin (0, 2, 0)). exists 1. split; [lra|].
    unfold column_stripe, row3, vx, vy, vz. cbn. f_equal; [f_equal|]; ring.
  - specialize (Hr 2%nat ltac:(cbn; lia)). cbv zeta in Hr. apply Rle_antisym; [|exact (P _ _ _ _ Hr)].
    destruct Hr as [_ Hmin]. rewrite <- E. apply (Hmin (0, 2, 0)). exists 0. split; [lra|].
    unfold row_stripe, row3, vx, vy, vz. cbn. f_equal; [f_equal|]; ring.
  - intros c Hlt. specialize (Hc c Hlt). exact (P _ _ _ _ Hc).
  - intros r Hlt. specialize (Hr r Hlt). exact (P _ _ _ _ Hr).
Qed.
Lemma ascan_nonneg Y len c k : Forall (fun y => 0 <= y) Y -> 0 <= ascan Y len c k.
Proof.
  intros H. unfold ascan. destruct (inside len k); [|lra].
  destruct (Nat.lt_ge_cases (c * Z.to_nat len + Z.to_nat k) (length Y)) as [Hl|Hl].
  - rewrite Forall_forall in H. apply H, nth_In, Hl.
  - rewrite nth_overflow by exact Hl. lra.
Qed.
Theorem C26_refuted : exists J Im0 sch Im stt,
  rjob_ok J /\ q_type J = das_rca_coltx /\ (1 <= q_nr J)%nat /\
  vy (row3 (q_Gr J) (q_nr J) 0) <= vy (row3 (q_Gr J) (q_nr J) (q_nr J - 1)) /\
  vx (row3 (q_Gt J) (q_nt J) 0) <= vx (row3 (q_Gt J) (q_nt J) (q_nt J - 1)) /\
  (q_nt J * q_nr J * q_len J <= length (q_Y J))%nat /\ length Im0 = q_No J /\ (0 < q_No J)%nat /\
  das_call (N:=EN) SignedIdx (emb_das J) 1 sch Im0 = Ok (Some (Im, stt, true)) /\
  forall dcol drow, rca_dists J dcol drow -> nth 0 Im None <>
     Some (das_sum (q_Y J) (Z.of_nat (q_len J)) (q_nt J) (q_nr J) (dcol 0%nat) (drow 0%nat) (q_dt J) (q_cp J) (delay_of J 0)).
Proof.
  assert (OK : rjob_ok ex_rca) by (apply ex_das_ok; reflexivity).
  destruct one_round_fair as [Hc Hf].
  assert (Hz : forall z, (0 <= z < d_No (emb_das ex_rca))%Z -> z = 0%Z) by (intros z Hz; cbn in Hz; lia).
  destruct (das_call_completes SignedIdx (emb_das ex_rca) 1 [None : EN] (emb_wf ex_rca OK) ltac:(lia) eq_refl one_round) as (r & Er & Hr).
  { intros z H. rewrite (Hz z H). rewrite ex_rca_value. eauto. }
  destruct r as [[[Im stt] r]|]; [|exfalso; apply (Hr Hf); reflexivity].
  assert (Et : r = true).
  { apply (das_call_running SignedIdx (emb_das ex_rca) 1 [None : EN] (emb_wf ex_rca OK) ltac:(lia) eq_refl one_round Im stt r Hc); [|exact Er].
    intros z im H. rewrite (Hz z H), ex_rca_value. discriminate. }
  subst r.
  exists ex_rca, [None : EN], one_round, Im, stt.
  split; [exact OK|]. split; [reflexivity|]. split; [cbn; lia|].
  split; [unfold row3, vy; cbn; lra|]. split; [unfold row3, vx; cbn; lra|]. split; [cbn; lia|]. split; [reflexivity|]. split; [cbn; lia|].
  split; [exact Er|]. intros dcol drow Hd.
  destruct (das_call_columns SignedIdx (emb_das ex_rca) 1 [None : EN] (emb_wf ex_rca OK) ltac:(lia) eq_refl one_round Im stt None Er) as [_ C].
  destruct (C 0%Z ltac:(cbn; lia)) as (e & Ev). rewrite ex_rca_value in Ev. injection Ev as Ev _.
  change (Z.to_nat 0) with 0%nat in Ev. intros X. pose proof (eq_trans Ev X) as Ev'. clear Ev X. injection Ev' as Ev.
  destruct (ex_rca_true dcol drow Hd) as (E0 & E2 & _ & _).
  assert (Hpos : forall c k, 0 <= ascan [1; 1; 1; 1; 1; 1] 1 c k) by (intros c k; apply ascan_nonneg; repeat constructor; lra).
  unfold das_sum in Ev. change (q_nt ex_rca) with 2%nat in Ev. change (q_nr ex_rca) with 3%nat in Ev.
  change (Z.of_nat (q_len ex_rca)) with 1%Z in Ev. cbn [rsum] in Ev.
  assert (A : ascan [1; 1; 1; 1; 1; 1] 1 (0 * 3 + 2) (pair_sample 1 1000 (delay_of ex_rca 0) (dcol 0%nat 0%nat) (drow 0%nat 2%nat)) = 1).
  { rewrite E0, E2. rewrite ex_sample. change (delay_of ex_rca 0) with 0.
    rewrite (trunc_at (0 + 0 + 0) 0) by (try lra; lia). unfold ascan, inside. cbn. reflexivity. }
  rewrite A in Ev.
  repeat match type of Ev with context [ascan ?Y ?l ?c ?k] =>
    let v := fresh "v" in pose proof (Hpos c k); set (v := ascan Y l c k) in * end.
  lra.
Qed.
Print Assumptions C26_refuted.

(** ** C27 *)

(** Linearity: data Y3 = a Y1 + b Y2 gives the image a Im1 + b Im2, for every
    method, level, number of workers and schedule; the three calls also have
    the same per-point status. *)
Theorem C27_linear : forall K J a b Y1 Y2 Y3 n1 n2 n3 s1 s2 s3 Im0 Im1 Im2 Im3 st1 st2 st3,
  rjob_ok J -> length Y2 = length Y1 -> length Y3 = length Y1 ->
  (forall k, nth k Y3 0 = a * nth k Y1 0 + b * nth k Y2 0) ->
  (1 <= n1)%Z -> (1 <= n2)%Z -> (1 <= n3)%Z -> length Im0 = q_No J ->
  das_call (N:=EN) K (emb_das (with_data J Y1)) n1 s1 Im0 = Ok (Some (Im1, st1, true)) ->
  das_call (N:=EN) K (emb_das (with_data J Y2)) n2 s2 Im0 = Ok (Some (Im2, st2, true)) ->
  das_call (N:=EN) K (emb_das (with_data J Y3)) n3 s3 Im0 = Ok (Some (Im3, st3, true)) ->
  forall n, (n < q_No J)%nat -> exists x y,
    nth n Im1 None = Some x /\ nth n Im2 None = Some y /\ nth n Im3 None = Some (a * x + b * y).
Proof.
  intros K J a b Y1 Y2 Y3 n1 n2 n3 s1 s2 s3 Im0 Im1 Im2 Im3 st1 st2 st3 OK L2 L3 HY H1 H2 H3 HI E1 E2 E3 n Hn.
  assert (OKY : forall Y, rjob_ok (with_data J Y)) by (intros Y; destruct OK; split; assumption).
  assert (HIz : forall Y, Z.of_nat (length Im0) = d_No (emb_das (with_data J Y))) by (intros Y; exact (f_equal Z.of_nat HI)).
  destruct (das_call_columns K _ n1 Im0 (emb_wf _ (OKY Y1)) H1 (HIz Y1) s1 Im1 st1 None E1) as [_ C1].
  destruct (das_call_columns K _ n2 Im0 (emb_wf _ (OKY Y2)) H2 (HIz Y2) s2 Im2 st2 None E2) as [_ C2].
  destruct (das_call_columns K _ n3 Im0 (emb_wf _ (OKY Y3)) H3 (HIz Y3) s3 Im3 st3 None E3) as [_ C3].
  destruct (C1 (Z.of_nat n) ltac:(cbn; lia)) as (e1 & V1).
  destruct (C2 (Z.of_nat n) ltac:(cbn; lia)) as (e2 & V2).
  destruct (C3 (Z.of_nat n) ltac:(cbn; lia)) as (e3 & V3).
  rewrite Nat2Z.id in V1, V2, V3.
  pose proof (value_lin K J a b Y1 Y2 Y3 n OK Hn L2 L3 HY) as X.
  rewrite V1, V2, V3 in X. destruct X as (x & y & e & X1 & X2 & X3).
  injection X1 as X1 _. injection X2 as X2 _. injection X3 as X3 _. exists x, y. auto.
Qed.
Print Assumptions C27_linear.

(** Non-vacuity: the TFM job of PropDas with any data of 40 samples. *)
Example C27_linear_ex : forall Y, length Y = 40%nat -> exists Im stt,
  das_call (N:=EN) SignedIdx (emb_das (with_data (ex_tfm lvl_ignore) Y)) 1 one_round [None : EN] = Ok (Some (Im, stt, true)).
Proof.
  intros Y HY. set (J := with_data (ex_tfm lvl_ignore) Y).
  assert (OK : rjob_ok J) by (split; cbn; try lia; lra).
  assert (F : tfm_fits SignedIdx J) by exact (match C24_tfm_ex with ex_intro _ _ (ex_intro _ _ (conj _ (conj F _))) => F end).
  destruct (C24_tfm_ends SignedIdx J 1 [None : EN] one_round OK eq_refl ltac:(cbn; lia) ltac:(cbn; lia) F
    ltac:(lia) eq_refl one_round_fair) as (Im & stt & r & E & Hr).
  rewrite (Hr ltac:(left; intros [|]; discriminate)) in E. exists Im, stt. exact E.
Qed.

(** Memory safety, in any arithmetic: if the data holds as many A-scans as the
    method uses, and for row-column arrays 1 <= columns, columns <= 3/2 rows
    and rows <= 3 columns, no call reads or writes outside its arrays, under
    any schedule.  Missing: the gateway enforces neither (refuted below). *)
Theorem C27_safe_partial : forall (N : Num) K (J : das_job N) nthreads sch Im0,
  das_wf J -> das_data_ok J -> das_edges_ok J -> (1 <= nthreads)%Z -> Z.of_nat (length Im0) = d_No J ->
  das_call K J nthreads sch Im0 <> UB UB_oob_read /\ das_call K J nthreads sch Im0 <> UB UB_oob_write.
Proof.
  intros N K J nthreads sch Im0 W Hy He Hth HI.
  pose proof (das_call_good K J nthreads Im0 W Hth HI sch Hy He) as G.
  destruct (das_call K J nthreads sch Im0) as [r|[]|]; cbn in G; split; congruence.
Qed.
Print Assumptions C27_safe_partial.
