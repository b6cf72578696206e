(** ProofsR.v - rounding, exact evaluation and the explicit form of the scan
    grid over the reals. *)
From Coq Require Import Reals Lra Lia ZArith List Bool.
From Coq Require Import ZifyBool ZifyNat.
From Verif Require Import Base BaseLemmas ModelSir NumR SpecSir SpecRayleigh.
Import ListNotations.
Open Scope R_scope.

(** ** Rounding *)
Lemma Zfloor_spec x : IZR (Zfloor x) <= x < IZR (Zfloor x) + 1.
Proof.
  unfold Zfloor. destruct (archimed x) as [H1 H2]. rewrite minus_IZR. lra.
Qed.
Lemma Zfloor_unique x z : IZR z <= x < IZR z + 1 -> Zfloor x = z.
Proof.
  intros [H1 H2]. destruct (Zfloor_spec x) as [H3 H4].
  assert (IZR z < IZR (Zfloor x) + 1) by lra. assert (IZR (Zfloor x) < IZR z + 1) by lra.
  rewrite <- plus_IZR in *. apply lt_IZR in H. apply lt_IZR in H0. lia.
Qed.
Lemma Zfloor_le x y : x <= y -> (Zfloor x <= Zfloor y)%Z.
Proof.
  intros H. destruct (Zfloor_spec x) as [H1 H2], (Zfloor_spec y) as [H3 H4].
  assert (IZR (Zfloor x) < IZR (Zfloor y + 1)) by (rewrite plus_IZR; lra).
  apply lt_IZR in H0. lia.
Qed.
Lemma Zfloor_ge z x : IZR z <= x -> (z <= Zfloor x)%Z.
Proof.
  intros H. destruct (Zfloor_spec x) as [H1 H2].
  assert (IZR z < IZR (Zfloor x + 1)) by (rewrite plus_IZR; lra).
  apply lt_IZR in H0. lia.
Qed.
Lemma Zfloor_lt x z : x < IZR z -> (Zfloor x < z)%Z.
Proof. intros H. destruct (Zfloor_spec x) as [H1 _]. apply lt_IZR. lra. Qed.
Lemma Zfloor_IZR z : Zfloor (IZR z) = z.
Proof. apply Zfloor_unique. lra. Qed.
Lemma Zfloor_plus x z : Zfloor (x + IZR z) = (Zfloor x + z)%Z.
Proof.
  apply Zfloor_unique. rewrite plus_IZR. destruct (Zfloor_spec x). lra.
Qed.

Lemma Zrint_near x : Rabs (x - IZR (Zrint x)) <= 1/2.
Proof.
  unfold Zrint. destruct (Zfloor_spec x) as [H1 H2].
  destruct (Rlt_dec (x - IZR (Zfloor x)) (1/2)).
  - rewrite Rabs_right; lra.
  - destruct (Rlt_dec (1/2) (x - IZR (Zfloor x))).
    + rewrite plus_IZR. rewrite Rabs_left; lra.
    + destruct (Z.even (Zfloor x)); [rewrite Rabs_right; lra|].
      rewrite plus_IZR. rewrite Rabs_left; lra.
Qed.
(** A number nearer than one half to an integer rounds to it. *)
Lemma Zrint_unique x z : Rabs (x - IZR z) < 1/2 -> Zrint x = z.
Proof.
  intros H. apply Rabs_def2 in H. destruct H as [H1 H2]. unfold Zrint.
  destruct (Rle_dec (IZR z) x) as [Hx|Hx].
  - rewrite (Zfloor_unique x z) by lra. destruct (Rlt_dec (x - IZR z) (1/2)); [reflexivity|lra].
  - rewrite (Zfloor_unique x (z - 1)) by (rewrite minus_IZR; lra). rewrite minus_IZR.
    destruct (Rlt_dec (x - (IZR z - 1)) (1/2)); [lra|].
    destruct (Rlt_dec (1/2) (x - (IZR z - 1))); [lia|lra].
Qed.
Lemma Zrint_IZR z : Zrint (IZR z) = z.
Proof. apply Zrint_unique. replace (IZR z - IZR z) with 0 by ring. rewrite Rabs_R0. lra. Qed.

(** x is exactly half way between two integers. *)
Definition is_tie (x : R) : Prop := x - IZR (Zfloor x) = 1/2.

Lemma Zrint_plus x z : (Z.even z = true \/ ~ is_tie x) -> Zrint (x + IZR z) = (Zrint x + z)%Z.
Proof.
  unfold is_tie, Zrint. intros H. rewrite Zfloor_plus, plus_IZR.
  replace (x + IZR z - (IZR (Zfloor x) + IZR z)) with (x - IZR (Zfloor x)) by ring.
  destruct (Rlt_dec (x - IZR (Zfloor x)) (1/2)); [lia|].
  destruct (Rlt_dec (1/2) (x - IZR (Zfloor x))); [lia|].
  destruct H as [H|H]; [|exfalso; apply H; lra].
  rewrite Z.even_add, H. destruct (Z.even (Zfloor x)); cbn; lia.
Qed.

Lemma Zrint_mono x y : x <= y -> (Zrint x <= Zrint y)%Z.
Proof.
  intros Hxy. pose proof (Zfloor_le x y Hxy) as Hf.
  destruct (Z.eq_dec (Zfloor x) (Zfloor y)) as [E|E].
  - unfold Zrint. rewrite <- E.
    destruct (Rlt_dec (x - IZR (Zfloor x)) (1/2)); destruct (Rlt_dec (y - IZR (Zfloor x)) (1/2)); try lia; try lra;
    destruct (Rlt_dec (1/2) (y - IZR (Zfloor x))); try lia;
    destruct (Rlt_dec (1/2) (x - IZR (Zfloor x))); try lia; try lra;
    destruct (Z.even (Zfloor x)); lia.
  - assert (Hlt : (Zfloor x + 1 <= Zfloor y)%Z) by lia.
    assert (H1 : (Zrint x <= Zfloor x + 1)%Z).
    { unfold Zrint. destruct (Rlt_dec _ _); [lia|]. destruct (Rlt_dec _ _); [lia|]. destruct (Z.even _); lia. }
    assert (H2 : (Zfloor y <= Zrint y)%Z).
    { unfold Zrint. destruct (Rlt_dec _ _); [lia|]. destruct (Rlt_dec _ _); [lia|]. destruct (Z.even _); lia. }
    lia.
Qed.

Lemma Ztruncr_nonneg x : 0 <= x -> Ztruncr x = Zfloor x.
Proof. intros H. unfold Ztruncr. destruct (Rle_dec 0 x); [reflexivity|contradiction]. Qed.

(** ** Exact evaluation *)
Lemma Rleb_true x y : x <= y -> Rleb x y = true.
Proof. unfold Rleb. destruct (Rle_dec x y); auto; contradiction. Qed.
Lemma Rleb_false x y : y < x -> Rleb x y = false.
Proof. unfold Rleb. destruct (Rle_dec x y); auto; lra. Qed.
Lemma Rleb_spec x y : Rleb x y = true <-> x <= y.
Proof. unfold Rleb. destruct (Rle_dec x y); split; auto; discriminate. Qed.
Lemma Rltb_spec x y : Rltb x y = true <-> x < y.
Proof. unfold Rltb. destruct (Rlt_dec x y); split; auto; discriminate. Qed.

Lemma e_div_ok x y : y <> 0 -> e_div (Some x) (Some y) = Some (x / y).
Proof. intros H. unfold e_div. destruct (Req_EM_T y 0); [contradiction|reflexivity]. Qed.
Lemma e_sqrt_ok x : 0 <= x -> e_sqrt (Some x) = Some (sqrt x).
Proof. intros H. unfold e_sqrt. destruct (Rle_dec 0 x); [reflexivity|contradiction]. Qed.
Lemma e_unit_ok f x : -1 <= x <= 1 -> e_unit f (Some x) = Some (f x).
Proof.
  intros [H1 H2]. unfold e_unit. destruct (Rle_dec (-1) x); [|contradiction].
  destruct (Rle_dec x 1); [reflexivity|contradiction].
Qed.
Lemma e_ln_ok x : 0 < x -> e_ln (Some x) = Some (ln x).
Proof. intros H. unfold e_ln. destruct (Rlt_dec 0 x); [reflexivity|contradiction]. Qed.

(** Evaluate the operations of [EN] on defined arguments; divisions, roots etc.
    are left for [e_*_ok]. *)
Ltac ered := cbn [car nadd nsub nmul ndiv nopp nabs nsqrt nsin ncos natan nasin nacos nexp nlog
                  npi neps nofZ nle nlt nrint ntrunc EN e1 e2 ecmp] in *.

(** ** The scan grid *)
Lemma count_0 x0 xmax d : 0 < d -> xmax < x0 -> count x0 xmax d = O.
Proof.
  intros Hd H. unfold count.
  assert ((xmax - x0) / d < IZR 0).
  { apply (Rmult_lt_reg_r d); auto. unfold Rdiv. rewrite Rmult_assoc, Rinv_l by lra. lra. }
  apply Zfloor_lt in H0. lia.
Qed.
Lemma count_S x0 xmax d : 0 < d -> x0 <= xmax -> count x0 xmax d = S (count (x0 + d) xmax d).
Proof.
  intros Hd H. unfold count.
  replace ((xmax - (x0 + d)) / d) with ((xmax - x0) / d + IZR (-1)) by (field; lra).
  rewrite Zfloor_plus.
  assert (H0 : IZR 0 <= (xmax - x0) / d).
  { apply (Rmult_le_reg_r d); auto. unfold Rdiv. rewrite Rmult_assoc, Rinv_l by lra. lra. }
  apply Zfloor_ge in H0. lia.
Qed.

Lemma grid_E xmax d : 0 < d -> forall fuel x0, (count x0 xmax d <= fuel)%nat ->
  grid (N:=EN) fuel (Some x0) (Some xmax) (Some d) =
  Some (map (fun i => Some (x0 + INR i * d)) (seq 0 (count x0 xmax d))).
Proof.
  intros Hd. induction fuel as [|f IH]; intros x0 Hf.
  - assert (Hlt : xmax < x0).
    { destruct (Rle_dec x0 xmax); [|lra]. rewrite count_S in Hf by auto. lia. }
    rewrite count_0 by auto. cbn [grid]. ered. rewrite Rleb_false by auto. reflexivity.
  - destruct (Rle_dec x0 xmax) as [Hle|Hgt].
    + rewrite count_S in * by auto. cbn [grid]. ered. rewrite Rleb_true by auto.
      rewrite IH by lia. cbn [seq map]. f_equal. f_equal.
      * f_equal. cbn. ring.
      * rewrite <- seq_shift, map_map. apply map_ext. intros i. f_equal. rewrite S_INR. ring.
    + rewrite count_0 by lra. cbn [grid]. ered. rewrite Rleb_false by lra. reflexivity.
Qed.

(** With midpoints. *)
Lemma grid_mid fuel lo hi d : 0 < d -> (count (lo + d / 2) hi d <= fuel)%nat ->
  grid (N:=EN) fuel (Some (lo + d / 2)) (Some hi) (Some d) = Some (map Some (midpoints lo hi d)).
Proof.
  intros Hd Hf. rewrite grid_E by auto. unfold midpoints. rewrite map_map. reflexivity.
Qed.

Lemma count_mono x0 x1 xmax xmax1 d : 0 < d -> x1 <= x0 -> xmax <= xmax1 ->
  (count x0 xmax d <= count x1 xmax1 d)%nat.
Proof.
  intros Hd H1 H2. unfold count.
  assert ((xmax - x0) / d <= (xmax1 - x1) / d).
  { apply Rmult_le_compat_r; [left; apply Rinv_0_lt_compat; auto|lra]. }
  apply Zfloor_le in H. lia.
Qed.

Lemma in_midpoints lo hi d x : 0 < d -> In x (midpoints lo hi d) -> lo + d / 2 <= x <= hi.
Proof.
  intros Hd H. unfold midpoints in H. apply in_map_iff in H as (i & <- & Hi).
  apply in_seq in Hi. unfold mid, count in *.
  assert (Hi2 : (Z.of_nat i <= Zfloor ((hi - (lo + d / 2)) / d))%Z) by lia.
  apply IZR_le in Hi2. rewrite <- INR_IZR_INZ in Hi2.
  destruct (Zfloor_spec ((hi - (lo + d / 2)) / d)) as [H1 _].
  assert (H2 : INR i <= (hi - (lo + d / 2)) / d) by lra.
  assert (H3 : INR i * d <= hi - (lo + d / 2)).
  { apply (Rmult_le_compat_r d) in H2; [|lra]. unfold Rdiv in H2. rewrite Rmult_assoc, Rinv_l in H2 by lra. lra. }
  pose proof (pos_INR i). split; [|lra]. assert (0 <= INR i * d) by (apply Rmult_le_pos; lra). lra.
Qed.

(** How many points a row of an aperture of width a has. *)
Lemma count_width a d : 0 < d -> count (- a / 2 + d / 2) (a / 2) d = Z.to_nat (Zfloor (a / d + 1 / 2)).
Proof.
  intros Hd. unfold count. f_equal.
  replace ((a / 2 - (- a / 2 + d / 2)) / d) with (a / d + 1 / 2 + IZR (-1)) by (field; lra).
  rewrite Zfloor_plus. lia.
Qed.
