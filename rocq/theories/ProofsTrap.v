(** ProofsTrap.v - trapezoidal sums converge to the integral; acos is
    continuous. *)
From Coq Require Import Reals Lra Lia.
From Coquelicot Require Import Coquelicot.
Open Scope R_scope.

(** ** acos is continuous on [-1,1] *)
Lemma acos_upper x0 eps : -1 <= x0 <= 1 -> 0 < eps -> exists d, 0 < d /\ forall x, x0 - d < x -> acos x < acos x0 + eps.
Proof.
  intros Hx He. pose proof (acos_bound x0) as Hb. pose proof PI_RGT_0 as Hpi.
  destruct (Rle_lt_dec (acos x0 + eps) PI) as [H|H].
  - exists (x0 - cos (acos x0 + eps)). split.
    + assert (cos (acos x0 + eps) < cos (acos x0)) by (apply cos_decreasing_1; lra). rewrite cos_acos in H0; lra.
    + intros x Hxx. destruct (Rlt_le_dec (acos x) (acos x0 + eps)) as [|Hge]; [assumption|exfalso].
      pose proof (acos_bound x) as Hbx. pose proof (COS_bound (acos x0 + eps)) as Hc.
      assert (Hl : -1 <= x) by lra.
      destruct (Rle_lt_dec x 1) as [H1|H1].
      * destruct (Req_dec (acos x0 + eps) (acos x)) as [E|E].
        { rewrite E, cos_acos in Hxx; lra. }
        assert (K : cos (acos x) < cos (acos x0 + eps)) by (apply cos_decreasing_1; lra). rewrite cos_acos in K; lra.
      * unfold acos in Hge at 2. destruct (Rle_dec x (-1)); [lra|]. destruct (Rle_dec 1 x); lra.
  - exists 1. split; [lra|]. intros x _. pose proof (acos_bound x). lra.
Qed.

Lemma acos_continuous x0 : -1 <= x0 <= 1 -> continuous acos x0.
Proof.
  intros Hx. apply continuity_pt_filterlim. apply (proj2 (continuity_pt_locally acos x0)). intros [eps He].
  destruct (acos_upper x0 eps Hx He) as (d1 & Hd1 & H1).
  destruct (acos_upper (- x0) eps ltac:(lra) He) as (d2 & Hd2 & H2).
  exists (mkposreal (Rmin d1 d2) (Rmin_pos _ _ Hd1 Hd2)). cbn. intros x Hb.
  unfold ball in Hb; cbn in Hb; unfold AbsRing_ball, abs, minus, plus, opp in Hb; cbn in Hb.
  apply Rabs_def2 in Hb. pose proof (Rmin_l d1 d2). pose proof (Rmin_r d1 d2).
  specialize (H1 x ltac:(lra)). specialize (H2 (- x) ltac:(lra)). rewrite !acos_opp in H2.
  apply Rabs_def1; lra.
Qed.

(** ** Sums over a uniform partition *)
Fixpoint rsum (n : nat) (f : nat -> R) : R := match n with O => 0 | S n' => rsum n' f + f n' end.
Lemma rsum_ext n f g : (forall k, (k < n)%nat -> f k = g k) -> rsum n f = rsum n g.
Proof. induction n; intros H; cbn; [reflexivity|]. rewrite IHn; [|intros; apply H; lia]. rewrite H; [reflexivity|lia]. Qed.
Lemma rsum_first n f : rsum (S n) f = f O + rsum n (fun k => f (S k)).
Proof. induction n; [cbn; ring|]. cbn [rsum] in *. rewrite IHn. ring. Qed.


(** The points p k, p (k+1), ..., p (k+n). *)
Fixpoint grid (p : nat -> R) (k n : nat) : list R := match n with O => p k :: nil | S n' => p k :: grid p (S k) n' end.
Lemma grid_mkseq p : forall n k, seq.mkseq (fun i => p (k + i)%nat) (S n) = grid p k n.
Proof.
  unfold seq.mkseq. intros n k.
  assert (G : forall n m, seq.map (fun i => p (k + i)%nat) (seq.iota m (S n)) = grid p (k + m) n).
  { clear n. induction n as [|n IH]; intros m; [reflexivity|]. cbn [seq.iota seq.map grid]. f_equal.
    specialize (IH (S m)). cbn [seq.iota seq.map] in IH. rewrite IH. f_equal. lia. }
  rewrite G. f_equal. lia.
Qed.
Lemma Riemann_grid (f : R -> R) (tag : R -> R -> R) (p : nat -> R) : forall n k,
  Riemann_sum f (SF_seq_f2 tag (grid p k n)) =
  rsum n (fun i => (p (k + S i)%nat - p (k + i)%nat) * f (tag (p (k + i)%nat) (p (k + S i)%nat))).
Proof.
  induction n as [|n IH]; intros k; [reflexivity|].
  cbn [grid]. rewrite SF_cons_f2; [|destruct n; cbn; lia].
  rewrite Riemann_sum_cons, IH, rsum_first. cbn [fst snd].
  assert (E : seq.head 0 (grid p (S k) n) = p (S k)) by (destruct n; reflexivity).
  unfold SF_seq_f2 at 1. cbn [SF_h]. rewrite E. unfold plus, scal; cbn; unfold mult; cbn.
  rewrite Nat.add_0_r, Nat.add_1_r. f_equal. apply rsum_ext. intros i Hi.
  replace (S (k + S i)) with (k + S (S i))%nat by lia. replace (S (k + i)) with (k + S i)%nat by lia.
  reflexivity.
Qed.

(** The trapezoidal sum with n steps. *)
Definition trap (f : R -> R) (a b : R) (n : nat) : R :=
  let d := (b - a) / INR n in
  rsum n (fun k => (f (a + INR k * d) + f (a + INR k * d + d)) / 2 * d).

Lemma Riemann_unif (f : R -> R) tag a b n :
  Riemann_sum f (SF_seq_f2 tag (unif_part a b n)) =
  let d := (b - a) / INR (S n) in
  rsum (S n) (fun k => d * f (tag (a + INR k * d) (a + INR k * d + d))).
Proof.
  unfold unif_part. set (p := fun i => a + INR i * (b - a) / (INR n + 1)).
  change (seq.mkseq p (S (S n))) with (seq.mkseq (fun i => p (0 + i)%nat) (S (S n))).
  rewrite grid_mkseq, Riemann_grid. cbv zeta. apply rsum_ext. intros k _. cbn [Nat.add]. unfold p.
  rewrite !S_INR. pose proof (pos_INR n).
  assert (E : (INR k + 1) * (b - a) / (INR n + 1) = INR k * ((b - a) / (INR n + 1)) + (b - a) / (INR n + 1)) by (field; lra).
  assert (E' : INR k * (b - a) / (INR n + 1) = INR k * ((b - a) / (INR n + 1))) by (field; lra).
  rewrite E, E', <- Rplus_assoc. f_equal. ring.
Qed.

Lemma rsum_plus n f g : rsum n f + rsum n g = rsum n (fun k => f k + g k).
Proof. induction n; cbn; [ring|]. rewrite <- IHn. ring. Qed.
Lemma rsum_scal n f x : x * rsum n f = rsum n (fun k => x * f k).
Proof. induction n; cbn; [ring|]. rewrite <- IHn. ring. Qed.

Lemma trap_Riemann f a b n : trap f a b (S n) =
  (Riemann_sum f (SF_seq_f2 (fun x y => x) (unif_part a b n)) +
   Riemann_sum f (SF_seq_f2 (fun x y => y) (unif_part a b n))) / 2.
Proof.
  rewrite !Riemann_unif. cbv zeta. rewrite rsum_plus. unfold Rdiv at 1. rewrite Rmult_comm, rsum_scal. unfold trap.
  apply rsum_ext. intros k _. field. apply not_0_INR. lia.
Qed.

(** Left and right sums converge to the integral. *)
Lemma tag_lim (f : R -> R) (tag : R -> R -> R) a b I : a < b -> (forall x y, x <= y -> x <= tag x y <= y) -> is_RInt f a b I ->
  is_lim_seq (fun n => Riemann_sum f (SF_seq_f2 tag (unif_part a b n))) I.
Proof.
  intros Hab Ht HI. apply filterlim_locally. intros eps.
  unfold is_RInt in HI. pose proof (proj1 (filterlim_locally _ _) HI eps) as [d Hd].
  destruct (nfloor_ex ((b - a) / d)) as (m & Hm).
  { apply Rdiv_le_0_compat; [lra|apply cond_pos]. }
  exists m. intros n Hn.
  destruct (Riemann_fine_unif_part tag a b n Ht ltac:(lra)) as (A & B & C & D).
  specialize (Hd (SF_seq_f2 tag (unif_part a b n))). 
  assert (S1 : sign (b - a) = 1) by (apply sign_eq_1; lra). rewrite S1 in Hd.
  assert (S2 : forall x : R, scal 1 x = x) by (intros x; apply (scal_one x)). rewrite S2 in Hd. apply Hd.
  - destruct d as [d Hdp]. cbn in *. eapply Rle_lt_trans; [exact A|].
    apply le_INR in Hn. pose proof (pos_INR n).
    apply Rmult_lt_reg_r with ((INR n + 1) / d); [apply Rdiv_lt_0_compat; lra|].
    replace ((b - a) / (INR n + 1) * ((INR n + 1) / d)) with ((b - a) / d) by (field; lra).
    replace (d * ((INR n + 1) / d)) with (INR n + 1) by (field; lra). lra.
  - split; [exact B|]. rewrite Rmin_left, Rmax_right by lra. auto.
Qed.

Lemma trap_same f a n : trap f a a n = 0.
Proof.
  unfold trap. replace ((a - a) / INR n) with 0 by (unfold Rdiv; ring).
  induction n; cbn [rsum]; [reflexivity|]. rewrite IHn. ring.
Qed.

Lemma trap_lim (f : R -> R) a b I : a <= b -> is_RInt f a b I -> is_lim_seq (fun n => trap f a b (S n)) I.
Proof.
  intros Hab HI. destruct (Req_dec a b) as [<-|Hne].
  - assert (E : I = 0) by (rewrite <- (is_RInt_unique _ _ _ _ HI); apply (RInt_point a f)).
    rewrite E. apply is_lim_seq_ext with (fun _ => 0); [intros; now rewrite trap_same|apply is_lim_seq_const].
  - apply is_lim_seq_ext with (fun n => (/ 2) * (Riemann_sum f (SF_seq_f2 (fun x y => x) (unif_part a b n)) +
      Riemann_sum f (SF_seq_f2 (fun x y => y) (unif_part a b n)))).
    { intros n. rewrite trap_Riemann. field. }
    replace (Finite I) with (Rbar_mult (/ 2) (Finite (I + I))) by (cbn; f_equal; field).
    apply is_lim_seq_scal_l. apply is_lim_seq_plus'; apply (tag_lim f _ a b I); auto; intros; lra.
Qed.
