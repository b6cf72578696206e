(** PropDas.v - property theorems: delay-and-sum (C24-C27). *)
From Coq Require Import Reals Lra Lia ZArith List Bool ZifyBool ZifyNat.
From Verif Require Import Base BaseLemmas ModelSir ModelArr ModelSmp ModelDas NumR SpecSmp SpecDft SpecDas
  ProofsLocal ProofsLocalArr ProofsSmp ProofsLoop ProofsCallG ProofsSmp2 ProofsR ProofsDft ProofsDas ProofsDasR ProofsRca ProofsDasJ.
Import ListNotations.
Open Scope R_scope.

(** Every sample number of point n can be held by the index type. *)
Definition tfm_fits (K : idx_kind) (J : rjob) : Prop := forall n t r,
  (n < q_No J)%nat -> (t < q_nt J)%nat -> (r < q_nr J)%nat ->
  fits K (pair_sample (q_dt J) (q_cp J) (delay_of J n) (tx_dist J n t) (rx_dist J n r)).
Definition is_stop (lvl : ErrorLevel) : Prop := lvl = lvl_stop \/ lvl = lvl_parallel_stop.
(** The schedule gives every worker enough steps and CTRL-C is not pressed. *)
Definition fair (No nthreads : Z) (sch : list event) : Prop :=
  no_ctrlc sch /\ forall i, (0 <= i < nthreads)%Z ->
    (3 * (part_stop i No nthreads - part_start i No nthreads) + 1 <= steps_of (Z.to_nat i) sch)%Z.

(** ** C24, TFM *)

(** Every call with at least one receiver that was not stopped has computed
    the delay-and-sum value of every image point, for any number of workers,
    any schedule and any previous content of the image; with more than one
    worker the status is 0 iff no sample fell outside the record; with level
    'stop' it cannot have ended unstopped if one did. *)
Theorem C24_tfm : forall K J nthreads Im0 sch Im stt,
  rjob_ok J -> q_type J = das_tfm -> (1 <= q_nr J)%nat ->
  (q_nt J * q_nr J * q_len J <= length (q_Y J))%nat -> tfm_fits K J ->
  (1 <= nthreads)%Z -> length Im0 = q_No J ->
  das_call (N:=EN) K (emb_das J) nthreads sch Im0 = Ok (Some (Im, stt, true)) ->
  length Im = q_No J /\
  (forall n, (n < q_No J)%nat -> nth n Im None =
     Some (das_sum (q_Y J) (Z.of_nat (q_len J)) (q_nt J) (q_nr J) (tx_dist J n) (rx_dist J n) (q_dt J) (q_cp J) (delay_of J n))) /\
  ((1 < nthreads)%Z -> q_lvl J <> lvl_none ->
    (stt = err_none <-> forall n, (n < q_No J)%nat ->
       das_all_inside (Z.of_nat (q_len J)) (q_nt J) (q_nr J) (tx_dist J n) (rx_dist J n) (q_dt J) (q_cp J) (delay_of J n))) /\
  (is_stop (q_lvl J) -> forall n, (n < q_No J)%nat ->
       das_all_inside (Z.of_nat (q_len J)) (q_nt J) (q_nr J) (tx_dist J n) (rx_dist J n) (q_dt J) (q_cp J) (delay_of J n)).
Proof.
  intros K J nthreads Im0 sch Im stt OK Ht Hr HY Hf Hth HI E.
  destruct (call_image K J nthreads Im0
    (fun n => rpairs (q_nt J) (q_nr J) (g_pair (q_dt J) (q_cp J) (delay_of J n) (tx_dist J n) (rx_dist J n)))
    OK Hth HI (fun n Hn => value_tfm K J OK n Hn Ht Hr HY (fun t r => Hf n t r Hn)) sch Im stt E) as (L & C & S & P).
  assert (X : forall n, forallb (pin (Z.of_nat (q_len J))) (rpairs (q_nt J) (q_nr J) (g_pair (q_dt J) (q_cp J) (delay_of J n) (tx_dist J n) (rx_dist J n))) = true <->
    das_all_inside (Z.of_nat (q_len J)) (q_nt J) (q_nr J) (tx_dist J n) (rx_dist J n) (q_dt J) (q_cp J) (delay_of J n)).
  { intros n. rewrite forallb_rpairs. reflexivity. }
  split; [exact L|]. split; [|split].
  - intros n Hn. rewrite (C n Hn). f_equal. rewrite psum_rpairs by lia. reflexivity.
  - intros H1 H2. rewrite (S H1 H2). split; intros H n Hn; apply X, H, Hn.
  - intros H n Hn. apply X, P; assumption.
Qed.
Print Assumptions C24_tfm.

(** A fair schedule brings the call to its end; unless the level is 'stop' and
    a sample is outside the record, it ends unstopped. *)
Theorem C24_tfm_ends : forall K J nthreads Im0 sch,
  rjob_ok J -> q_type J = das_tfm -> (1 <= q_nr J)%nat ->
  (q_nt J * q_nr J * q_len J <= length (q_Y J))%nat -> tfm_fits K J ->
  (1 <= nthreads)%Z -> length Im0 = q_No J -> fair (Z.of_nat (q_No J)) nthreads sch ->
  exists Im stt r, das_call (N:=EN) K (emb_das J) nthreads sch Im0 = Ok (Some (Im, stt, r)) /\
    (~ is_stop (q_lvl J) \/ (forall n, (n < q_No J)%nat ->
       das_all_inside (Z.of_nat (q_len J)) (q_nt J) (q_nr J) (tx_dist J n) (rx_dist J n) (q_dt J) (q_cp J) (delay_of J n)) -> r = true).
Proof.
  intros K J nthreads Im0 sch OK Ht Hr HY Hf Hth HI [Hc Hs].
  destruct (call_ends K J nthreads Im0
    (fun n => rpairs (q_nt J) (q_nr J) (g_pair (q_dt J) (q_cp J) (delay_of J n) (tx_dist J n) (rx_dist J n)))
    OK Hth HI (fun n Hn => value_tfm K J OK n Hn Ht Hr HY (fun t r => Hf n t r Hn)) sch Hc Hs) as (Im & stt & r & E & H).
  exists Im, stt, r. split; [exact E|]. intros [Hl|Ha]; apply H.
  - left. unfold is_stop in Hl. tauto.
  - right. intros n Hn. apply forallb_rpairs. apply Ha; exact Hn.
Qed.
Print Assumptions C24_tfm_ends.

(** Level 'stop': the point whose pair p (in transmitter-major order) is the
    first one outside the record has summed exactly the pairs before it. *)
Lemma flat_map_single {A B} (f : A -> B) l : flat_map (fun x => [f x]) l = map f l.
Proof. induction l; cbn; congruence. Qed.
Lemma rpairs_seq n2 g : (1 <= n2)%nat -> forall n1,
  rpairs n1 n2 g = map (fun p => (p, g (p / n2)%nat (p mod n2)%nat)) (seq 0 (n1 * n2)).
Proof.
  intros H2. induction n1 as [|n1 IH]; [reflexivity|].
  unfold rpairs in *. rewrite seq_S, flat_map_app, IH.
  replace (S n1 * n2)%nat with (n1 * n2 + n2)%nat by lia. rewrite seq_app, map_app. f_equal.
  cbn [flat_map Nat.add]. rewrite app_nil_r, flat_map_single.
  assert (G : forall s m, (s + m <= n2)%nat ->
    map (fun x => ((n1 * n2 + x)%nat, g n1 x)) (seq s m) =
    map (fun p => (p, g (p / n2)%nat (p mod n2)%nat)) (seq (n1 * n2 + s) m)).
  { intros s m; revert s; induction m as [|m IHm]; intros s Hs; [reflexivity|]. cbn [seq map]. f_equal.
    - rewrite (Nat.add_comm (n1 * n2)), Nat.div_add, Nat.mod_add, Nat.div_small, Nat.mod_small by lia. reflexivity.
    - rewrite IHm by lia. do 2 f_equal. lia. }
  specialize (G 0%nat n2 ltac:(lia)). rewrite Nat.add_0_r in G. exact G.
Qed.
Lemma upto_first len h n p : (p < n)%nat -> inside len (Ztruncr (h p)) = false ->
  (forall q, (q < p)%nat -> inside len (Ztruncr (h q)) = true) ->
  upto_out len (map (fun p => (p, h p)) (seq 0 n)) = map (fun p => (p, h p)) (seq 0 p).
Proof.
  intros Hp Ho Hi.
  assert (G : forall m s, (s <= p < s + m)%nat ->
    upto_out len (map (fun p => (p, h p)) (seq s m)) = map (fun p => (p, h p)) (seq s (p - s))).
  { induction m as [|m IH]; intros s Hs; [lia|]. cbn [seq map upto_out]. unfold pin. cbn [snd].
    destruct (Nat.eq_dec s p) as [->|Hne].
    - rewrite Ho, Nat.sub_diag. reflexivity.
    - rewrite Hi by lia. rewrite IH by lia. replace (p - s)%nat with (S (p - S s)) by lia. reflexivity. }
  rewrite (G n 0%nat) by lia. now rewrite Nat.sub_0_r.
Qed.
Theorem C24_tfm_stop : forall K J n p,
  rjob_ok J -> q_type J = das_tfm -> (1 <= q_nr J)%nat ->
  (q_nt J * q_nr J * q_len J <= length (q_Y J))%nat -> tfm_fits K J ->
  is_stop (q_lvl J) -> (n < q_No J)%nat -> (p < q_nt J * q_nr J)%nat ->
  let k q := pair_sample (q_dt J) (q_cp J) (delay_of J n) (tx_dist J n (q / q_nr J)) (rx_dist J n (q mod q_nr J)) in
  inside (Z.of_nat (q_len J)) (k p) = false ->
  (forall q, (q < p)%nat -> inside (Z.of_nat (q_len J)) (k q) = true) ->
  das_value (N:=EN) K (emb_das J) (Z.of_nat n) =
    Ok (Some (rsum p (fun q => ascan (q_Y J) (Z.of_nat (q_len J)) q (k q))), err_oob).
Proof.
  intros K J n p OK Ht Hr HY Hf Hs Hn Hp k Ho Hi.
  rewrite (value_tfm K J OK n Hn Ht Hr HY (fun t r => Hf n t r Hn)). f_equal.
  set (h := fun q => g_pair (q_dt J) (q_cp J) (delay_of J n) (tx_dist J n) (rx_dist J n) (q / q_nr J) (q mod q_nr J)).
  rewrite (rpairs_seq _ _ Hr). fold h.
  change (map _ (seq 0 (q_nt J * q_nr J))) with (map (fun p => (p, h p)) (seq 0 (q_nt J * q_nr J))).
  assert (Ef : forallb (pin (Z.of_nat (q_len J))) (map (fun p => (p, h p)) (seq 0 (q_nt J * q_nr J))) = false).
  { apply not_true_iff_false. rewrite forallb_forall. intros H. specialize (H (p, h p)).
    assert (X : In (p, h p) (map (fun p => (p, h p)) (seq 0 (q_nt J * q_nr J)))).
    { apply in_map_iff. exists p. split; [reflexivity|]. apply in_seq. lia. }
    apply H in X. unfold pin in X. cbn [snd] in X. unfold k, pair_sample, sample_no, travel_ms in Ho. unfold h, g_pair in X.
    congruence. }
  unfold das_result. rewrite Ef.
  rewrite (upto_first (Z.of_nat (q_len J)) h (q_nt J * q_nr J) p Hp Ho Hi).
  replace (dream_out_of_bounds_err (q_lvl J)) with err_oob by (destruct Hs as [Hs|Hs]; rewrite Hs; reflexivity).
  cbn [SIRError_eqb]. f_equal. f_equal.
  assert (G : forall m, psum (q_Y J) (Z.of_nat (q_len J)) (map (fun p => (p, h p)) (seq 0 m)) =
     rsum m (fun q => ascan (q_Y J) (Z.of_nat (q_len J)) q (k q))).
  { induction m as [|m IH]; [reflexivity|]. rewrite seq_S, map_app, psum_app by lia. rewrite IH. cbn [map Nat.add rsum].
    rewrite psum_1. reflexivity. }
  apply G.
Qed.
Print Assumptions C24_tfm_stop.

(** ** C24, SAFT *)

(** SAFT counts the delay twice: the image is the SAFT sum for twice the
    delay; with delay 0 it is the SAFT sum.  Missing: other delays (refuted
    below). *)
Definition saft_fits (K : idx_kind) (J : rjob) : Prop := forall n t,
  (n < q_No J)%nat -> (t < q_nt J)%nat ->
  fits K (pair_sample (q_dt J) (q_cp J) (2 * delay_of J n) (tx_dist J n t) (tx_dist J n t)).
Theorem C24_saft_partial : forall K J nthreads Im0 sch Im stt,
  rjob_ok J -> q_type J = das_saft \/ q_nr J = 0%nat ->
  (q_nt J * q_len J <= length (q_Y J))%nat -> saft_fits K J ->
  (1 <= nthreads)%Z -> length Im0 = q_No J ->
  das_call (N:=EN) K (emb_das J) nthreads sch Im0 = Ok (Some (Im, stt, true)) ->
  length Im = q_No J /\
  (forall n, (n < q_No J)%nat -> nth n Im None =
     Some (saft_sum (q_Y J) (Z.of_nat (q_len J)) (q_nt J) (tx_dist J n) (q_dt J) (q_cp J) (2 * delay_of J n))) /\
  (forall n, (n < q_No J)%nat -> delay_of J n = 0 -> nth n Im None =
     Some (saft_sum (q_Y J) (Z.of_nat (q_len J)) (q_nt J) (tx_dist J n) (q_dt J) (q_cp J) (delay_of J n))) /\
  ((1 < nthreads)%Z -> q_lvl J <> lvl_none ->
    (stt = err_none <-> forall n, (n < q_No J)%nat ->
       saft_all_inside (Z.of_nat (q_len J)) (q_nt J) (tx_dist J n) (q_dt J) (q_cp J) (2 * delay_of J n))).
Proof.
  intros K J nthreads Im0 sch Im stt OK Ht HY Hf Hth HI E.
  destruct (call_image K J nthreads Im0
    (fun n => map (fun i => (i, g_saft (q_dt J) (q_cp J) (delay_of J n) (tx_dist J n) i)) (seq 0 (q_nt J)))
    OK Hth HI (fun n Hn => value_saft K J OK n Hn Ht HY (fun t => Hf n t Hn)) sch Im stt E) as (L & C & S & P).
  assert (V : forall n, (n < q_No J)%nat -> nth n Im None =
     Some (saft_sum (q_Y J) (Z.of_nat (q_len J)) (q_nt J) (tx_dist J n) (q_dt J) (q_cp J) (2 * delay_of J n))).
  { intros n Hn. rewrite (C n Hn). f_equal. apply psum_saft; lia. }
  split; [exact L|]. split; [exact V|]. split.
  - intros n Hn Hd. rewrite (V n Hn), Hd, Rmult_0_r. reflexivity.
  - intros H1 H2. rewrite (S H1 H2).
    assert (X : forall n, forallb (pin (Z.of_nat (q_len J))) (map (fun i => (i, g_saft (q_dt J) (q_cp J) (delay_of J n) (tx_dist J n) i)) (seq 0 (q_nt J))) = true <->
      saft_all_inside (Z.of_nat (q_len J)) (q_nt J) (tx_dist J n) (q_dt J) (q_cp J) (2 * delay_of J n)).
    { intros n. rewrite forallb_forall. split.
      - intros H t Hlt. apply (H (t, _)). apply in_map_iff. exists t. split; [reflexivity|]. apply in_seq. lia.
      - intros H [c x] Hin. apply in_map_iff in Hin as (t & Et & Hin). injection Et as <- <-. apply in_seq in Hin.
        apply H. lia. }
    split; intros H n Hn; apply X, H, Hn.
Qed.
Print Assumptions C24_saft_partial.

(** A concrete family of jobs: one or more elements on the x axis, one image
    point, 1 us sampling, 1000 m/s, so that a distance of 1 mm is one sample. *)
Definition ex_das (t : DASType) (len nt nr : nat) (Y Gt Gr : list R) (o : vec) (d : R) (lvl : ErrorLevel) : rjob :=
  {| q_type := t; q_len := len; q_No := 1; q_nt := nt; q_nr := nr; q_Y := Y;
     q_Ro := [vx o; vy o; vz o]; q_Gt := Gt; q_Gr := Gr; q_dt := 1; q_dty := delay_single; q_delay := [d];
     q_cp := 1000; q_lvl := lvl |}.
Lemma ex_das_ok t len nt nr Y Gt Gr o d lvl : length Gt = (3 * nt)%nat -> length Gr = (3 * nr)%nat ->
  rjob_ok (ex_das t len nt nr Y Gt Gr o d lvl).
Proof. intros H1 H2. split; cbn; try lia; try assumption; lra. Qed.
Lemma ex_sample d a b : pair_sample 1 1000 d a b = Ztruncr (a + b + d).
Proof. unfold pair_sample, sample_no, travel_ms. f_equal. field. Qed.
Lemma fits_small K x : 0 <= x < 1000 -> fits K (Ztruncr x).
Proof.
  intros H. rewrite Ztruncr_nonneg by lra.
  assert (0 <= Zfloor x)%Z by (apply Zfloor_ge; lra).
  assert (Zfloor x < 1000)%Z by (apply Zfloor_lt; lra).
  destruct K; cbn; lia.
Qed.
Lemma trunc_at x z : IZR z <= x < IZR z + 1 -> (0 <= z)%Z -> Ztruncr x = z.
Proof.
  intros H Hz. rewrite Ztruncr_nonneg; [now apply Zfloor_unique|].
  apply Rle_trans with (IZR z); [|lra]. now apply IZR_le.
Qed.
Definition one_round : list event := repeat (Run 0) 5.
Lemma one_round_fair : fair 1 1 one_round.
Proof.
  split.
  - intros H. apply repeat_spec in H. discriminate.
  - intros i Hi. replace i with 0%Z by lia. vm_compute. discriminate.
Qed.

Lemma nth_repeat_lt (x d : R) n k : (k < n)%nat -> nth k (repeat x n) d = x.
Proof. revert k; induction n as [|n IH]; intros [|k] H; cbn; try lia; [reflexivity|]. apply IH. lia. Qed.

(** TFM with elements at 0 and 3 mm, both receiving, image point at (0,4,0):
    distances 4 and 5 mm. *)
Definition ex_tfm (lvl : ErrorLevel) : rjob :=
  ex_das das_tfm 10 2 2 (repeat 1 40) [0; 3; 0; 0; 0; 0] [0; 3; 0; 0; 0; 0] (0, 4, 0) 0 lvl.
Lemma ex_tfm_dist lvl n t : (n < 1)%nat -> (t < 2)%nat ->
  tx_dist (ex_tfm lvl) n t = (if Nat.eqb t 0 then 4 else 5) /\ rx_dist (ex_tfm lvl) n t = (if Nat.eqb t 0 then 4 else 5).
Proof.
  intros Hn Ht. destruct n as [|]; [|lia].
  assert (E4 : sqrt 16 = 4) by (replace 16 with (4 * 4) by ring; apply sqrt_square; lra).
  assert (E5 : sqrt 25 = 5) by (replace 25 with (5 * 5) by ring; apply sqrt_square; lra).
  destruct t as [|[|]]; [| |lia]; cbn; unfold vx, vy, vz; cbn; split;
    (etransitivity; [apply f_equal|first [exact E4|exact E5]]; ring).
Qed.
Example C24_tfm_ex : exists Im stt,
  rjob_ok (ex_tfm lvl_ignore) /\ tfm_fits SignedIdx (ex_tfm lvl_ignore) /\
  das_call (N:=EN) SignedIdx (emb_das (ex_tfm lvl_ignore)) 1 one_round [None : EN] = Ok (Some (Im, stt, true)) /\
  nth 0 Im None = Some 3.
Proof.
  assert (OK : rjob_ok (ex_tfm lvl_ignore)) by (apply ex_das_ok; reflexivity).
  assert (F : tfm_fits SignedIdx (ex_tfm lvl_ignore)).
  { intros n t r Hn Ht Hr. cbn in Hn, Ht, Hr. destruct (ex_tfm_dist lvl_ignore n t Hn Ht) as [E1 _].
    destruct (ex_tfm_dist lvl_ignore n r Hn Hr) as [_ E2]. rewrite E1, E2.
    change (q_dt (ex_tfm lvl_ignore)) with 1. change (q_cp (ex_tfm lvl_ignore)) with 1000. rewrite ex_sample.
    apply fits_small. change (delay_of (ex_tfm lvl_ignore) n) with 0. destruct (Nat.eqb t 0), (Nat.eqb r 0); lra. }
  destruct (C24_tfm_ends SignedIdx (ex_tfm lvl_ignore) 1 [None : EN] one_round OK eq_refl ltac:(cbn; lia) ltac:(cbn; lia) F
    ltac:(lia) eq_refl one_round_fair) as (Im & stt & r & E & Hr).
  rewrite (Hr ltac:(left; intros [|]; discriminate)) in E.
  exists Im, stt. split; [exact OK|]. split; [exact F|]. split; [exact E|].
  destruct (C24_tfm SignedIdx (ex_tfm lvl_ignore) 1 [None : EN] one_round Im stt OK eq_refl ltac:(cbn; lia) ltac:(cbn; lia) F
    ltac:(lia) eq_refl E) as (_ & V & _).
  rewrite (V 0%nat ltac:(cbn; lia)). f_equal.
  unfold das_sum. change (q_nt (ex_tfm lvl_ignore)) with 2%nat. change (q_nr (ex_tfm lvl_ignore)) with 2%nat. cbn [rsum].
  destruct (ex_tfm_dist lvl_ignore 0 0 ltac:(lia) ltac:(lia)) as [T0 R0].
  destruct (ex_tfm_dist lvl_ignore 0 1 ltac:(lia) ltac:(lia)) as [T1 R1].
  rewrite T0, T1, R0, R1. cbn [Nat.eqb].
  change (q_dt (ex_tfm lvl_ignore)) with 1. change (q_cp (ex_tfm lvl_ignore)) with 1000. rewrite !ex_sample.
  change (delay_of _ 0) with 0.
  rewrite (trunc_at (4 + 4 + 0) 8) by (try lra; lia). rewrite (trunc_at (4 + 5 + 0) 9) by (try lra; lia).
  rewrite (trunc_at (5 + 4 + 0) 9) by (try lra; lia). rewrite (trunc_at (5 + 5 + 0) 10) by (try lra; lia).
  assert (A : forall c k, (c < 4)%nat -> (0 <= k < 10)%Z -> ascan (q_Y (ex_tfm lvl_ignore)) (Z.of_nat (q_len (ex_tfm lvl_ignore))) c k = 1).
  { intros c k Hc Hk. unfold ascan. change (Z.of_nat (q_len (ex_tfm lvl_ignore))) with 10%Z.
    replace (inside 10 k) with true by (unfold inside; lia).
    change (q_Y (ex_tfm lvl_ignore)) with (repeat 1 40). apply nth_repeat_lt. change (Z.to_nat 10) with 10%nat. lia. }
  rewrite !A by lia. unfold ascan. replace (inside _ 10) with false by reflexivity. ring.
Qed.

(** C24 is false for SAFT: one element at the image point, data [0;1;0],
    delay 1 us: the echo at 1 us is missed, the sample at 2 us is used. *)
Definition ex_delay (t : DASType) : rjob :=
  ex_das t 3 1 1 [0; 1; 0] [0; 0; 0] [0; 0; 0] (0, 0, 0) 1 lvl_ignore.
Lemma ex_delay_dist t n : (n < 1)%nat -> tx_dist (ex_delay t) n 0 = 0 /\ rx_dist (ex_delay t) n 0 = 0.
Proof.
  intros Hn. destruct n; [|lia].
  cbn. unfold vx, vy, vz; cbn.
  assert (X : sqrt ((0 - 0) * ((0 - 0) * 1) + (0 - 0) * ((0 - 0) * 1) + (0 - 0) * ((0 - 0) * 1)) = 0).
  { etransitivity; [apply f_equal|exact sqrt_0]. ring. }
  split; exact X.
Qed.
Lemma ex_delay_saft : exists Im stt,
  das_call (N:=EN) SignedIdx (emb_das (ex_delay das_saft)) 1 one_round [None : EN] = Ok (Some (Im, stt, true)) /\
  nth 0 Im None = Some 0.
Proof.
  assert (OK : rjob_ok (ex_delay das_saft)) by (apply ex_das_ok; reflexivity).
  destruct (ex_delay_dist das_saft 0 ltac:(lia)) as [T0 _].
  assert (F : saft_fits SignedIdx (ex_delay das_saft)).
  { intros n t Hn Ht. cbn in Hn, Ht. destruct n; [|lia]. destruct t; [|lia]. rewrite T0.
    change (q_dt (ex_delay das_saft)) with 1. change (q_cp (ex_delay das_saft)) with 1000. rewrite ex_sample.
    apply fits_small. change (delay_of (ex_delay das_saft) 0) with 1. lra. }
  destruct one_round_fair as [Hc Hf].
  destruct (call_ends SignedIdx (ex_delay das_saft) 1 [None : EN] _ OK ltac:(lia) eq_refl
    (fun n Hn => value_saft SignedIdx (ex_delay das_saft) OK n Hn (or_introl eq_refl) ltac:(cbn; lia) (fun t => F n t Hn)) one_round Hc Hf)
    as (Im & stt & r & E & Hr).
  rewrite (Hr ltac:(left; split; discriminate)) in E. exists Im, stt. split; [exact E|].
  destruct (C24_saft_partial SignedIdx (ex_delay das_saft) 1 [None : EN] one_round Im stt OK (or_introl eq_refl) ltac:(cbn; lia) F
    ltac:(lia) eq_refl E) as (_ & V & _).
  rewrite (V 0%nat ltac:(cbn; lia)). f_equal. unfold saft_sum. change (q_nt (ex_delay das_saft)) with 1%nat. cbn [rsum].
  rewrite T0. change (q_dt (ex_delay das_saft)) with 1. change (q_cp (ex_delay das_saft)) with 1000. rewrite ex_sample.
  change (delay_of _ 0) with 1. rewrite (trunc_at (0 + 0 + 2 * 1) 2) by (try lra; lia). unfold ascan, inside. cbn -[Pos.to_nat]. change (Pos.to_nat 2) with 2%nat. cbn. ring.
Qed.
Theorem C24_saft_refuted : exists J sch Im0 Im stt,
  rjob_ok J /\ q_type J = das_saft /\ (q_nt J * q_len J <= length (q_Y J))%nat /\ length Im0 = q_No J /\ (0 < q_No J)%nat /\
  das_call (N:=EN) SignedIdx (emb_das J) 1 sch Im0 = Ok (Some (Im, stt, true)) /\
  nth 0 Im None <> Some (saft_sum (q_Y J) (Z.of_nat (q_len J)) (q_nt J) (tx_dist J 0) (q_dt J) (q_cp J) (delay_of J 0)).
Proof.
  destruct ex_delay_saft as (Im & stt & E & V).
  exists (ex_delay das_saft), one_round, [None : EN], Im, stt.
  split; [apply ex_das_ok; reflexivity|]. split; [reflexivity|]. split; [cbn; lia|]. split; [reflexivity|]. split; [cbn; lia|].
  split; [exact E|]. rewrite V. intros H. injection H as H.
  destruct (ex_delay_dist das_saft 0 ltac:(lia)) as [T0 _].
  unfold saft_sum in H. change (q_nt (ex_delay das_saft)) with 1%nat in H. cbn [rsum] in H. rewrite T0 in H.
  change (q_dt (ex_delay das_saft)) with 1 in H. change (q_cp (ex_delay das_saft)) with 1000 in H. rewrite ex_sample in H. change (delay_of _ 0) with 1 in H.
  rewrite (trunc_at (0 + 0 + 1) 1) in H by (try lra; lia). unfold ascan, inside in H. cbn -[Pos.to_nat] in H. change (Pos.to_nat 1) with 1%nat in H. cbn in H. lra.
Qed.
Print Assumptions C24_saft_refuted.

(** ** C25 *)
(** Single element as transmitter and receiver, delay 0: SAFT and TFM give the
    same value at every image point.  Missing: other delays. *)
Definition with_type (J : rjob) (t : DASType) : rjob :=
  {| q_type := t; q_len := q_len J; q_No := q_No J; q_nt := q_nt J; q_nr := q_nr J;
     q_Y := q_Y J; q_Ro := q_Ro J; q_Gt := q_Gt J; q_Gr := q_Gr J;
     q_dt := q_dt J; q_dty := q_dty J; q_delay := q_delay J; q_cp := q_cp J; q_lvl := q_lvl J |}.
Theorem C25_partial : forall K J n1 n2 Im0 s1 s2 Im1 Im2 st1 st2,
  rjob_ok J -> q_nt J = 1%nat -> q_nr J = 1%nat -> q_Gr J = q_Gt J ->
  (q_len J <= length (q_Y J))%nat -> tfm_fits K J -> (forall n, (n < q_No J)%nat -> delay_of J n = 0) ->
  (1 <= n1)%Z -> (1 <= n2)%Z -> length Im0 = q_No J ->
  das_call (N:=EN) K (emb_das (with_type J das_saft)) n1 s1 Im0 = Ok (Some (Im1, st1, true)) ->
  das_call (N:=EN) K (emb_das (with_type J das_tfm)) n2 s2 Im0 = Ok (Some (Im2, st2, true)) ->
  Im1 = Im2.
Proof.
  intros K J n1 n2 Im0 s1 s2 Im1 Im2 st1 st2 OK Ht Hr HG HY Hf Hd H1 H2 HI E1 E2.
  assert (OK1 : forall t, rjob_ok (with_type J t)) by (intros t; destruct OK; split; assumption).
  assert (Hdist : forall n t, tx_dist J n t = rx_dist J n t) by (intros n t; unfold tx_dist, rx_dist; rewrite HG, Ht, Hr; reflexivity).
  destruct (C24_saft_partial K (with_type J das_saft) n1 Im0 s1 Im1 st1 (OK1 _) (or_introl eq_refl)) as (L1 & V1 & _); auto.
  { cbn. lia. }
  { intros n t Hn Hlt. cbn in Hn, Hlt. replace (2 * delay_of (with_type J das_saft) n) with (delay_of J n).
    - replace (tx_dist (with_type J das_saft) n t) with (tx_dist J n t) by reflexivity.
      rewrite (Hdist n t) at 2. apply Hf; [exact Hn|exact Hlt|lia].
    - change (delay_of (with_type J das_saft) n) with (delay_of J n). rewrite Hd by exact Hn. ring. }
  destruct (C24_tfm K (with_type J das_tfm) n2 Im0 s2 Im2 st2 (OK1 _) eq_refl) as (L2 & V2 & _); auto.
  { cbn. lia. }
  { cbn. lia. }
  refine (nth_ext_len (A:=EN) (None : EN) _ _ _ _).
  - exact (eq_trans L1 (eq_sym L2)).
  - intros k Hk. change (q_No (with_type J das_saft)) with (q_No J) in *. change (q_No (with_type J das_tfm)) with (q_No J) in *.
    assert (Hk' : (k < q_No J)%nat) by (rewrite <- L1; exact Hk).
    etransitivity; [exact (V1 k Hk')|]. etransitivity; [|symmetry; exact (V2 k Hk')].
    f_equal. unfold saft_sum, das_sum. cbn [with_type q_nt q_nr q_Y q_len q_dt q_cp]. rewrite Ht, Hr. cbn [rsum Nat.mul Nat.add].
    rewrite !Rplus_0_l. change (tx_dist (with_type J das_saft)) with (tx_dist J). change (tx_dist (with_type J das_tfm)) with (tx_dist J).
    change (rx_dist (with_type J das_tfm)) with (rx_dist J).
    change (delay_of (with_type J das_saft)) with (delay_of J). change (delay_of (with_type J das_tfm)) with (delay_of J).
    rewrite (Hd k Hk'), Rmult_0_r, Hdist. reflexivity.
Qed.
Print Assumptions C25_partial.

(** C25 is false: the same one-element job with a delay of 1 us. *)
Theorem C25_refuted : exists J sch Im0 Im1 Im2 st1 st2,
  rjob_ok J /\ q_nt J = 1%nat /\ q_nr J = 1%nat /\ q_Gr J = q_Gt J /\ (q_len J <= length (q_Y J))%nat /\ length Im0 = q_No J /\
  das_call (N:=EN) SignedIdx (emb_das (with_type J das_saft)) 1 sch Im0 = Ok (Some (Im1, st1, true)) /\
  das_call (N:=EN) SignedIdx (emb_das (with_type J das_tfm)) 1 sch Im0 = Ok (Some (Im2, st2, true)) /\
  Im1 <> Im2.
Proof.
  destruct ex_delay_saft as (Im1 & st1 & E1 & V1).
  assert (OK : rjob_ok (ex_delay das_tfm)) by (apply ex_das_ok; reflexivity).
  destruct (ex_delay_dist das_tfm 0 ltac:(lia)) as [T0 R0].
  assert (F : tfm_fits SignedIdx (ex_delay das_tfm)).
  { intros n t r Hn Ht Hr. cbn in Hn, Ht, Hr. destruct n; [|lia]. destruct t; [|lia]. destruct r; [|lia]. rewrite T0, R0.
    change (q_dt (ex_delay das_tfm)) with 1. change (q_cp (ex_delay das_tfm)) with 1000. rewrite ex_sample.
    apply fits_small. change (delay_of (ex_delay das_tfm) 0) with 1. lra. }
  destruct (C24_tfm_ends SignedIdx (ex_delay das_tfm) 1 [None : EN] one_round OK eq_refl ltac:(cbn; lia) ltac:(cbn; lia) F
    ltac:(lia) eq_refl one_round_fair) as (Im2 & st2 & r & E2 & Hr).
  rewrite (Hr ltac:(left; intros [|]; discriminate)) in E2.
  destruct (C24_tfm SignedIdx (ex_delay das_tfm) 1 [None : EN] one_round Im2 st2 OK eq_refl ltac:(cbn; lia) ltac:(cbn; lia) F
    ltac:(lia) eq_refl E2) as (_ & V2 & _).
  exists (ex_delay das_tfm), one_round, [None : EN], Im1, Im2, st1, st2.
  split; [exact OK|]. do 3 (split; [reflexivity|]). split; [cbn; lia|]. split; [reflexivity|].
  split; [exact E1|]. split; [exact E2|]. intros ->. specialize (V2 0%nat ltac:(cbn; lia)). rewrite V1 in V2. injection V2 as H.
  unfold das_sum in H. change (q_nt (ex_delay das_tfm)) with 1%nat in H. change (q_nr (ex_delay das_tfm)) with 1%nat in H.
  cbn [rsum] in H. rewrite T0, R0 in H.
  change (q_dt (ex_delay das_tfm)) with 1 in H. change (q_cp (ex_delay das_tfm)) with 1000 in H. rewrite ex_sample in H. change (delay_of _ 0) with 1 in H.
  rewrite (trunc_at (0 + 0 + 1) 1) in H by (try lra; lia). unfold ascan, inside in H. cbn -[Pos.to_nat] in H. change (Pos.to_nat 1) with 1%nat in H. cbn in H. lra.
Qed.
Print Assumptions C25_refuted.
