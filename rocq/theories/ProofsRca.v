(** ProofsRca.v - row-column arrays in exact arithmetic. *)
From Coq Require Import Reals Lra Lia List ZArith Bool Psatz.
From Verif Require Import Base BaseLemmas ModelSir ModelArr ModelSmp ModelDas NumR SpecDft SpecDas
  ProofsLoop ProofsR ProofsRayleigh ProofsDft ProofsDas ProofsDasR.
From Coq Require Import ZifyBool ZifyNat.
Import ListNotations.
Open Scope R_scope.

Definition rstripe (lo hi o : R) : R :=
  if Rle_dec lo o then if Rle_dec o hi then 0 else if Rlt_dec o lo then lo - o else hi - o
  else if Rlt_dec o lo then lo - o else hi - o.

Lemma stripe_E lo hi o : stripe (N:=EN) (Some lo) (Some hi) (Some o) = Some (rstripe lo hi o).
Proof.
  unfold stripe, rstripe. ered. unfold ecmp, Rleb, Rltb, e2.
  destruct (Rle_dec lo o), (Rle_dec o hi), (Rlt_dec o lo); reflexivity.
Qed.

Lemma rstripe_spec lo hi o : lo <= hi ->
  (exists l, 0 <= l <= 1 /\ lo + l * (hi - lo) - o = rstripe lo hi o) /\
  (forall y, lo <= y <= hi -> rstripe lo hi o * rstripe lo hi o <= (y - o) * (y - o)).
Proof.
  intros H. unfold rstripe.
  destruct (Rle_dec lo o); [destruct (Rle_dec o hi)|]; try (destruct (Rlt_dec o lo)); try lra.
  - split.
    + destruct (Req_dec hi lo) as [E|E].
      * exists 0. split; [lra|]. subst. lra.
      * exists ((o - lo) / (hi - lo)). split.
        -- split; [apply Rmult_le_pos; [lra|apply Rlt_le, Rinv_0_lt_compat; lra]|].
           apply (Rmult_le_reg_r (hi - lo)); [lra|]. unfold Rdiv. rewrite Rmult_assoc, Rinv_l by lra. lra.
        -- field. lra.
    + intros y Hy. rewrite Rmult_0_l. apply Rle_0_sqr.
  - split.
    + exists 1. split; lra.
    + intros y Hy. nra.
  - split.
    + exists 0. split; lra.
    + intros y Hy. nra.
Qed.

Lemma segment_y x lo hi z xo yo zo : lo <= hi ->
  segment_dist (x, lo, z) (x, hi, z) (xo, yo, zo)
    (sqrt ((x - xo) * (x - xo) + rstripe lo hi yo * rstripe lo hi yo + (z - zo) * (z - zo))).
Proof.
  intros H. destruct (rstripe_spec lo hi yo H) as [(l & Hl & E) Hmin]. split.
  - exists (x, lo + l * (hi - lo), z). split.
    + exists l. split; [exact Hl|]. f_equal; [f_equal|]; ring.
    + rewrite edist_sq. rewrite E. reflexivity.
  - intros s (l' & Hl' & ->). rewrite edist_sq. apply sqrt_le_1_alt.
    assert (Hy : lo <= lo + l' * (hi - lo) <= hi) by (split; nra).
    specialize (Hmin _ Hy). nra.
Qed.
Lemma segment_x y lo hi z xo yo zo : lo <= hi ->
  segment_dist (lo, y, z) (hi, y, z) (xo, yo, zo)
    (sqrt (rstripe lo hi xo * rstripe lo hi xo + (y - yo) * (y - yo) + (z - zo) * (z - zo))).
Proof.
  intros H. destruct (rstripe_spec lo hi xo H) as [(l & Hl & E) Hmin]. split.
  - exists (lo + l * (hi - lo), y, z). split.
    + exists l. split; [exact Hl|]. f_equal; [f_equal|]; ring.
    + rewrite edist_sq. rewrite E. reflexivity.
  - intros s (l' & Hl' & ->). rewrite edist_sq. apply sqrt_le_1_alt.
    assert (Hy : lo <= lo + l' * (hi - lo) <= hi) by (split; nra).
    specialize (Hmin _ Hy). nra.
Qed.
Lemma segment_unique p q o d d' : segment_dist p q o d -> segment_dist p q o d' -> d = d'.
Proof.
  intros [(s & Hs & E) H] [(s' & Hs' & E') H']. apply Rle_antisym.
  - rewrite <- E'. apply H, Hs'.
  - rewrite <- E. apply H', Hs.
Qed.

Section Rca.
  Variables (K : idx_kind) (Y : list R) (len : Z) (xo yo zo dt delay cp : R) (lvl : ErrorLevel).
  Hypothesis Hlen : (0 <= len)%Z.
  Hypothesis Hdt : dt <> 0.
  Hypothesis Hcp : cp <> 0.
  Local Notation o := (xo, yo, zo).
  Local Notation E := (fun x : R => (Some x : EN)).
  Local Notation EL := (fun l : list R => (map Some l : list EN)).
  Variables (Gc Gr : list R) (nc nr : Z).
  Hypothesis HGc : Z.of_nat (length Gc) = (3 * nc)%Z.
  Hypothesis HGr : Z.of_nat (length Gr) = (3 * nr)%Z.

  Lemma ctime_E n lo hi : (0 <= n < nc)%Z ->
    ctime (N:=EN) (EL Gc) nc n (E lo) (E hi) (E xo) (E yo) (E zo) (E cp) =
    Some (let e := row3 Gc (Z.to_nat nc) (Z.to_nat n) in
          sqrt ((vx e - xo) * (vx e - xo) + rstripe lo hi yo * rstripe lo hi yo + (vz e - zo) * (vz e - zo)) / cp).
  Proof.
    intros Hn. unfold ctime, col_travel. rewrite !getEY by lia. cbn [bind val].
    change (nsub (n:=EN) (Some ?a) (Some ?b)) with (Some (a - b) : EN).
    rewrite stripe_E. etransitivity; [apply (travel_E cp); exact Hcp|].
    unfold row3, vx, vz. cbn [fst snd].
    replace (Z.to_nat (n + 2 * nc)) with (Z.to_nat n + 2 * Z.to_nat nc)%nat by lia. reflexivity.
  Qed.
  Lemma rtime_E n lo hi : (0 <= n < nr)%Z ->
    rtime (N:=EN) (EL Gr) nr n (E lo) (E hi) (E xo) (E yo) (E zo) (E cp) =
    Some (let e := row3 Gr (Z.to_nat nr) (Z.to_nat n) in
          sqrt (rstripe lo hi xo * rstripe lo hi xo + (vy e - yo) * (vy e - yo) + (vz e - zo) * (vz e - zo)) / cp).
  Proof.
    intros Hn. unfold rtime, row_travel. rewrite !getEY by lia. cbn [bind val].
    change (nsub (n:=EN) (Some ?a) (Some ?b)) with (Some (a - b) : EN).
    rewrite stripe_E. etransitivity; [apply (travel_E cp); exact Hcp|].
    unfold row3, vy, vz. cbn [fst snd].
    replace (Z.to_nat (n + 1 * nr)) with (Z.to_nat n + Z.to_nat nr)%nat by lia.
    replace (Z.to_nat (n + 2 * nr)) with (Z.to_nat n + 2 * Z.to_nat nr)%nat by lia. reflexivity.
  Qed.

  (** The edges, for equal counts. *)
  Lemma edges_E : nc = nr -> (1 <= nr)%Z ->
    rca_edges (N:=EN) (EL Gc) nc (EL Gr) nr =
    Ok (E (vy (row3 Gr (Z.to_nat nr) 0)), E (vy (row3 Gr (Z.to_nat nr) (Z.to_nat nr - 1))),
        E (vx (row3 Gc (Z.to_nat nc) 0)), E (vx (row3 Gc (Z.to_nat nc) (Z.to_nat nc - 1)))).
  Proof.
    intros He H1. unfold rca_edges. rewrite !getEY by lia. cbn [bind].
    unfold row3, vx, vy. cbn [fst snd].
    replace (Z.to_nat (0 + 1 * nc)) with (0 + Z.to_nat nr)%nat by lia.
    replace (Z.to_nat (nc - 1 + 1 * nc)) with (Z.to_nat nr - 1 + Z.to_nat nr)%nat by lia.
    replace (Z.to_nat (nr - 1)) with (Z.to_nat nc - 1)%nat by lia. reflexivity.
  Qed.

  (** For any counts: the image with the stripe limits the code reads. *)
  Lemma coltx_any ylo yhi xlo xhi (dcol drow : nat -> R) :
    rca_edges (N:=EN) (EL Gc) nc (EL Gr) nr = Ok (E ylo, E yhi, E xlo, E xhi) ->
    (forall c, dcol c = let e := row3 Gc (Z.to_nat nc) c in
       sqrt ((vx e - xo) * (vx e - xo) + rstripe ylo yhi yo * rstripe ylo yhi yo + (vz e - zo) * (vz e - zo))) ->
    (forall r, drow r = let e := row3 Gr (Z.to_nat nr) r in
       sqrt (rstripe xlo xhi xo * rstripe xlo xhi xo + (vy e - yo) * (vy e - yo) + (vz e - zo) * (vz e - zo))) ->
    (nc * nr * len <= Z.of_nat (length Y))%Z ->
    (forall i j, (i < Z.to_nat nc)%nat -> (j < Z.to_nat nr)%nat -> fits K (pair_sample dt cp delay (dcol i) (drow j))) ->
    das_rca_serial_coltx (N:=EN) K (EL Y) len (EL Gc) nc (EL Gr) nr (E xo) (E yo) (E zo) (E dt) (E delay) (E cp) lvl =
    Ok (das_result K Y len lvl (rpairs (Z.to_nat nc) (Z.to_nat nr) (g_pair dt cp delay dcol drow))).
  Proof.
    intros He Hc Hr HY0 Hf. rewrite coltx_fold by (rewrite map_length; assumption).
    rewrite He. cbn [bind]. unfold coltx_args.
    rewrite (pairs_enc len Hlen nc nr _ (g_pair dt cp delay dcol drow)); [|lia|].
    - apply das_fold_finish; [exact Hlen|]. apply pok_rpairs; [exact Hlen| |exact Hf].
      rewrite !Z2Nat.id by lia. exact HY0.
    - intros i j Hi Hj. rewrite ctime_E, rtime_E by lia. rewrite !Nat2Z.id.
      pose proof (Hc i) as Hci. pose proof (Hr j) as Hrj. cbv zeta in *. rewrite <- Hci, <- Hrj.
      apply arg_pair; auto.
  Qed.

  Variables (dcol drow : nat -> R).
  Hypothesis Hsq : nc = nr.
  Hypothesis Hnr : (1 <= nr)%Z.
  Hypothesis Hylo : vy (row3 Gr (Z.to_nat nr) 0) <= vy (row3 Gr (Z.to_nat nr) (Z.to_nat nr - 1)).
  Hypothesis Hxlo : vx (row3 Gc (Z.to_nat nc) 0) <= vx (row3 Gc (Z.to_nat nc) (Z.to_nat nc - 1)).
  Hypothesis Hdc : forall c, (c < Z.to_nat nc)%nat ->
    segment_dist (fst (column_stripe Gc Gr (Z.to_nat nc) (Z.to_nat nr) c)) (snd (column_stripe Gc Gr (Z.to_nat nc) (Z.to_nat nr) c)) o (dcol c).
  Hypothesis Hdr : forall r, (r < Z.to_nat nr)%nat ->
    segment_dist (fst (row_stripe Gc Gr (Z.to_nat nc) (Z.to_nat nr) r)) (snd (row_stripe Gc Gr (Z.to_nat nc) (Z.to_nat nr) r)) o (drow r).
  Hypothesis HY : (nc * nr * len <= Z.of_nat (length Y))%Z.

  Lemma coltx_R :
    (forall i j, (i < Z.to_nat nc)%nat -> (j < Z.to_nat nr)%nat -> fits K (pair_sample dt cp delay (dcol i) (drow j))) ->
    das_rca_serial_coltx (N:=EN) K (EL Y) len (EL Gc) nc (EL Gr) nr (E xo) (E yo) (E zo) (E dt) (E delay) (E cp) lvl =
    Ok (das_result K Y len lvl (rpairs (Z.to_nat nc) (Z.to_nat nr) (g_pair dt cp delay dcol drow))).
  Proof.
    intros Hf. rewrite coltx_fold by (rewrite map_length; assumption).
    rewrite edges_E by assumption. cbn [bind]. unfold coltx_args.
    rewrite (pairs_enc len Hlen nc nr _ (g_pair dt cp delay dcol drow)); [|lia|].
    - apply das_fold_finish; [exact Hlen|]. apply pok_rpairs; [exact Hlen| |exact Hf].
      rewrite !Z2Nat.id by lia. exact HY.
    - intros i j Hi Hj. rewrite ctime_E, rtime_E by lia. rewrite !Nat2Z.id. cbv zeta.
      rewrite (segment_unique _ _ _ _ _ (segment_y _ _ _ _ xo yo zo Hylo) (Hdc i Hi)).
      rewrite (segment_unique _ _ _ _ _ (segment_x _ _ _ _ xo yo zo Hxlo) (Hdr j Hj)).
      apply arg_pair; auto.
  Qed.
  Lemma rowtx_R :
    (forall i j, (i < Z.to_nat nr)%nat -> (j < Z.to_nat nc)%nat -> fits K (pair_sample dt cp delay (drow i) (dcol j))) ->
    das_rca_serial_rowtx (N:=EN) K (EL Y) len (EL Gc) nc (EL Gr) nr (E xo) (E yo) (E zo) (E dt) (E delay) (E cp) lvl =
    Ok (das_result K Y len lvl (rpairs (Z.to_nat nr) (Z.to_nat nc) (g_pair dt cp delay drow dcol))).
  Proof.
    intros Hf. rewrite rowtx_fold by (rewrite map_length; assumption).
    rewrite edges_E by assumption. cbn [bind]. unfold rowtx_args.
    rewrite (pairs_enc len Hlen nr nc _ (g_pair dt cp delay drow dcol)); [|lia|].
    - apply das_fold_finish; [exact Hlen|]. apply pok_rpairs; [exact Hlen| |exact Hf].
      rewrite !Z2Nat.id by lia. rewrite (Z.mul_comm nr nc). exact HY.
    - intros i j Hi Hj. rewrite ctime_E, rtime_E by lia. rewrite !Nat2Z.id. cbv zeta.
      rewrite (segment_unique _ _ _ _ _ (segment_y _ _ _ _ xo yo zo Hylo) (Hdc j Hj)).
      rewrite (segment_unique _ _ _ _ _ (segment_x _ _ _ _ xo yo zo Hxlo) (Hdr i Hi)).
      rewrite (arg_pair dt cp delay) by auto. unfold g_pair. f_equal. f_equal. f_equal. ring.
  Qed.
End Rca.
