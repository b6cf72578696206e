(** ProofsUniF.v - uniform grids in double precision: rounding errors. *)
From Coq Require Import Floats Uint63.
From Coq Require Import Reals Lra Lia ZArith List Bool.
From Flocq Require Import Core Plus_error Relative BinarySingleNaN PrimFloat.
From Verif Require Import Base BaseLemmas ModelDas NumF NumR ProofsTermF SpecRound ProofsRound ProofsRel SpecRoundSir ProofsRoundSir ProofsRoundDas.
Import ListNotations.
Open Scope R_scope.

#[local] Instance fe_valid : Valid_exp fe := fexp_correct prec emax Hprec.
#[local] Instance p53 : Prec_gt_0 53 := eq_refl.

(** Integers below 2^53 are doubles. *)
Lemma f_ofZ_V n : (0 <= n <= 2 ^ 53)%Z -> fin (f_ofZ n) = true /\ V (f_ofZ n) = IZR n.
Proof.
  intros Hn. unfold f_ofZ. replace (n <? 0)%Z with false by (symmetry; apply Z.ltb_ge; lia).
  assert (T : Uint63.to_Z (Uint63.of_Z n) = n).
  { rewrite Uint63.of_Z_spec. apply Z.mod_small. split; [lia|]. apply Z.le_lt_trans with (2 ^ 53)%Z; [lia|]. reflexivity. }
  unfold fin, V. pose proof (of_int63_equiv (Uint63.of_Z n)) as E. rewrite E. clear E. rewrite T.
  pose proof (binary_normalize_correct prec emax Hprec Hmax mode_NE n 0 false) as H. cbv zeta in H.
  replace (F2R {| Fnum := n; Fexp := 0 |}) with (IZR n) in H by (unfold F2R; cbn; ring).
  assert (Ef : round radix2 (SpecFloat.fexp prec emax) (round_mode mode_NE) (IZR n) = IZR n).
  { apply round_generic; [typeclasses eauto|]. apply generic_format_FLT.
    destruct (Z.eq_dec n (2 ^ 53)) as [->|Hne].
    - exists {| Fnum := 1; Fexp := 53 |}%Z; cbn; try lia; try (unfold F2R; cbn; lra).
    - exists {| Fnum := n; Fexp := 0 |}%Z; cbn; try lia. unfold F2R; cbn; ring. }
  rewrite Ef in H. rewrite Rlt_bool_true in H.
  - destruct H as (H1 & H2 & _). split; assumption.
  - rewrite Rabs_pos_eq by (apply IZR_le; lia). change (bpow radix2 emax) with (IZR (2 ^ 1024)). apply IZR_lt.
    apply Z.le_lt_trans with (2 ^ 53)%Z; [lia|]. reflexivity.
Qed.

Lemma one_V : fin 1%float = true /\ V 1%float = 1.
Proof. destruct (f_ofZ_V 1 ltac:(split; vm_compute; discriminate)) as [A B]. split; [exact A|exact B]. Qed.

Lemma eta_u a : (-900 <= a)%Z -> eta <= u * bpow radix2 a * u.
Proof. intros H. rewrite <- !bpow_plus. apply bpow_le. lia. Qed.

Section Uni.
  Variables lo p hi : PrimFloat.float.
  Hypothesis (Flo : fin lo = true) (Fp : fin p = true) (Fhi : fin hi = true).
  Hypothesis (Blo : Rabs (V lo) <= bpow radix2 100) (Bhi : Rabs (V hi) <= bpow radix2 100)
             (Bp : bpow radix2 (-100) <= V p <= bpow radix2 100) (Hle : V lo <= V hi).
  Let Q := (V hi - V lo) / V p.
  Hypothesis HQ : Q + 1 <= bpow radix2 50.

  Lemma big k : (k <= 1023)%Z -> bpow radix2 k <= bpow radix2 1023.
  Proof. intros. apply bpow_le. lia. Qed.
  Lemma Ppos : 0 < V p.
  Proof. pose proof (bpow_gt_0 radix2 (-100)). lra. Qed.
  Lemma Q0 : 0 <= Q.
  Proof. unfold Q. apply Rmult_le_pos; [lra|]. left. apply Rinv_0_lt_compat, Ppos. Qed.

  Lemma count_arg : fin ((hi - lo) / p + 1)%float = true /\ Rabs (V ((hi - lo) / p + 1)%float - (Q + 1)) <= 4 * u * (Q + 1).
  Proof.
    pose proof Ppos as P. pose proof Q0 as HQ0. pose proof u_small as Hu.
    pose proof (Rabs_le_inv _ _ Blo) as B1. pose proof (Rabs_le_inv _ _ Bhi) as B2.
    assert (E101 : bpow radix2 101 = 2 * bpow radix2 100) by (change 101%Z with (1 + 100)%Z; rewrite bpow_plus; reflexivity).
    destruct (sub_std hi lo Fhi Flo) as [Fd Ed].
    { apply Rle_trans with (bpow radix2 101); [|apply big; lia]. apply Rabs_le. lra. }
    rewrite (Rabs_pos_eq (V hi - V lo)) in Ed by lra. set (d := (hi - lo)%float) in *.
    assert (Edp : Rabs (V d / V p - Q) <= u * Q).
    { replace (V d / V p - Q) with ((V d - (V hi - V lo)) * / V p) by (unfold Q; field; lra).
      rewrite Rabs_mult, (Rabs_pos_eq (/ V p)) by (left; apply Rinv_0_lt_compat; exact P).
      unfold Q, Rdiv. rewrite <- Rmult_assoc. apply Rmult_le_compat_r; [left; apply Rinv_0_lt_compat; exact P|exact Ed]. }
    pose proof (Rabs_le_inv _ _ Edp) as Edp'.
    assert (U1 : bpow radix2 50 * u = / 8) by exact u50.
    assert (B51 : bpow radix2 50 + 1 <= bpow radix2 1022).
    { apply Rle_trans with (bpow radix2 51); [|apply bpow_le; lia]. change 51%Z with (1 + 50)%Z. rewrite bpow_plus.
      change (bpow radix2 1) with 2. assert (1 <= bpow radix2 50) by (change 1 with (bpow radix2 0); apply bpow_le; lia). lra. }
    assert (UQ : u * Q <= / 8) by (rewrite <- U1, Rmult_comm; apply Rmult_le_compat_r; lra).
    destruct (fin_div d p Fd) as [Fq Eq].
    { lra. }
    { apply rnd_nover. apply Rle_trans with (bpow radix2 1022); [|apply big; lia]. apply Rabs_le. split; lra. }
    destruct (rnd_std (V d / V p)) as (dl & e & D1 & D2 & D3). rewrite D3 in Eq. clear D3. set (q := (d / p)%float) in *.
    pose proof (Rabs_le_inv _ _ D1) as D1'. pose proof (Rabs_le_inv _ _ D2) as D2'.
    assert (He : eta <= u * u).
    { eapply Rle_trans; [apply (eta_u 0); lia|]. change (bpow radix2 0) with 1. lra. }
    assert (HX : - (1 + u) * Q <= V d / V p <= (1 + u) * Q) by (assert (0 <= u * Q) by (apply Rmult_le_pos; lra); split; lra).
    assert (H1 : Rabs (V d / V p * dl) <= (1 + u) * Q * u).
    { rewrite Rabs_mult. apply Rmult_le_compat; try apply Rabs_pos; [apply Rabs_le; split; lra|exact D1]. }
    apply Rabs_le_inv in H1.
    assert (Eq' : Rabs (V q - Q) <= 2 * u * Q + u * u * Q + u * u).
    { rewrite Eq. replace (V d / V p * (1 + dl) + e - Q) with ((V d / V p - Q) + V d / V p * dl + e) by ring.
      apply Rabs_le. split; lra. }
    apply Rabs_le_inv in Eq'. destruct one_V as [F1 V1].
    assert (UUQ : u * u * Q <= u * / 8) by (rewrite Rmult_assoc; apply Rmult_le_compat_l; lra).
    assert (UU : u * u <= / 1000000000000 * u) by (apply Rmult_le_compat_r; lra).
    destruct (add_std q 1%float Fq F1) as [Fa Ea].
    { rewrite V1. apply Rle_trans with (bpow radix2 1022); [|apply big; lia]. apply Rabs_le. split; lra. }
    rewrite V1 in Ea. split; [exact Fa|]. rewrite (Rabs_pos_eq (V q + 1)) in Ea by lra. apply Rabs_le_inv in Ea.
    assert (R1 : u * (V q + 1) <= u * (Q + 1) + u * (2 * u * Q + u * u * Q + u * u)) by (rewrite <- Rmult_plus_distr_l; apply Rmult_le_compat_l; lra).
    assert (R2 : u * (2 * u * Q + u * u * Q + u * u) <= u * / 2) by (apply Rmult_le_compat_l; lra).
    apply Rabs_le. split; lra.
  Qed.

  Lemma count_arg_one : 1 <= V ((hi - lo) / p + 1)%float.
  Proof.
    pose proof Ppos as P. pose proof u_small as Hu.
    pose proof (Rabs_le_inv _ _ Blo) as B1. pose proof (Rabs_le_inv _ _ Bhi) as B2.
    assert (E101 : bpow radix2 101 = 2 * bpow radix2 100) by (change 101%Z with (1 + 100)%Z; rewrite bpow_plus; reflexivity).
    destruct (sub_std hi lo Fhi Flo) as [Fd Ed].
    { apply Rle_trans with (bpow radix2 101); [|apply big; lia]. apply Rabs_le. lra. }
    rewrite (Rabs_pos_eq (V hi - V lo)) in Ed by lra. set (d := (hi - lo)%float) in *. apply Rabs_le_inv in Ed.
    assert (D0 : 0 <= V d).
    { assert (0 <= V hi - V lo) by lra. assert (0 <= (1 - u) * (V hi - V lo)) by (apply Rmult_le_pos; lra). lra. }
    assert (X0 : 0 <= V d / V p) by (apply Rmult_le_pos; [exact D0|left; apply Rinv_0_lt_compat; exact P]).
    assert (XB : V d / V p <= bpow radix2 51).
    { apply Rle_trans with (2 * Q); [|pose proof Q0; change 51%Z with (1 + 50)%Z; rewrite bpow_plus; change (bpow radix2 1) with 2; lra].
      unfold Q, Rdiv. rewrite <- Rmult_assoc. apply Rmult_le_compat_r; [left; apply Rinv_0_lt_compat; exact P|].
      assert (u * (V hi - V lo) <= 1 * (V hi - V lo)) by (apply Rmult_le_compat_r; lra). lra. }
    destruct (fin_div d p Fd) as [Fq Eq].
    { lra. }
    { apply rnd_nover. rewrite Rabs_pos_eq by exact X0. apply Rle_trans with (bpow radix2 51); [exact XB|apply big; lia]. }
    assert (Q1 : 0 <= V (d / p)%float).
    { rewrite Eq. apply round_ge_generic; [typeclasses eauto|typeclasses eauto|apply generic_format_0|exact X0]. }
    assert (Q2 : Rabs (V (d / p)%float) <= bpow radix2 51).
    { rewrite Eq. apply rnd_small; [lia|]. rewrite Rabs_pos_eq by exact X0. exact XB. }
    rewrite Rabs_pos_eq in Q2 by exact Q1. destruct one_V as [F1 V1].
    destruct (fin_add (d / p)%float 1%float Fq F1) as [Fa Ea].
    { apply rnd_nover. rewrite V1, Rabs_pos_eq by lra. apply Rle_trans with (bpow radix2 52); [|apply big; lia].
      change 52%Z with (1 + 51)%Z. rewrite bpow_plus. change (bpow radix2 1) with 2.
      assert (1 <= bpow radix2 51) by (change 1 with (bpow radix2 0); apply bpow_le; lia). lra. }
    rewrite Ea, V1. apply round_ge_generic; [typeclasses eauto|typeclasses eauto| |lra].
    rewrite <- V1. apply V_format.
  Qed.

  (** The number of points, whatever the integer type. *)
  Lemma count_trunc : exists n, f_trunc ((hi - lo) / p + 1)%float = Some n /\ (1 <= n <= 2 ^ 51)%Z /\
    IZR n <= (Q + 1) + 4 * u * (Q + 1) /\ (Q + 1) - 4 * u * (Q + 1) < IZR n + 1.
  Proof.
    destruct count_arg as [Fa Ea]. pose proof Q0 as HQ0. pose proof u_small as Hu. set (a := ((hi - lo) / p + 1)%float) in *.
    apply Rabs_le_inv in Ea. assert (U1 : bpow radix2 50 * u = / 8) by exact u50.
    assert (UQ : u * (Q + 1) <= / 8) by nra.
    assert (A0 : 0 <= V a) by lra.
    rewrite (f_trunc_V a Fa), ProofsR.Ztruncr_nonneg by exact A0. pose proof (Zfl_spec (V a)) as Z1.
    exists (NumR.Zfloor (V a)). split; [reflexivity|]. split; [|split; lra]. split.
    - pose proof count_arg_one as O. fold a in O. assert (IZR 0 < IZR (NumR.Zfloor (V a))) by lra. apply lt_IZR in H. lia.
    - apply le_IZR. apply Rle_trans with (bpow radix2 51); [|right; reflexivity].
      change 51%Z with (1 + 50)%Z. rewrite bpow_plus. change (bpow radix2 1) with 2.
      assert (1 <= bpow radix2 50) by (change 1 with (bpow radix2 0); apply bpow_le; lia). lra.
  Qed.

  (** Point number i. *)
  Lemma point_at i : (0 <= i)%Z -> IZR i <= Q + 2 ->
    fin (lo + f_ofZ i * p)%float = true /\
    Rabs (V (lo + f_ofZ i * p)%float - (V lo + IZR i * V p)) <= 8 * u * (Rabs (V lo) + Rabs (V hi) + V p).
  Proof.
    intros Hi HiQ. pose proof Ppos as P. pose proof Q0 as HQ0. pose proof u_small as Hu.
    assert (U1 : bpow radix2 50 * u = / 8) by exact u50.
    assert (B51 : bpow radix2 51 = 2 * bpow radix2 50) by (change 51%Z with (1 + 50)%Z; rewrite bpow_plus; reflexivity).
    assert (L50 : 2 <= bpow radix2 50) by (change 2 with (bpow radix2 1); apply bpow_le; lia).
    assert (Hi2 : (0 <= i <= 2 ^ 53)%Z).
    { split; [exact Hi|]. apply le_IZR. apply Rle_trans with (bpow radix2 51); [lra|]. apply Rle_trans with (bpow radix2 53); [apply bpow_le; lia|right; reflexivity]. }
    destruct (f_ofZ_V i Hi2) as [Ff Ef].
    pose proof (Rabs_le_inv _ _ Blo) as B1. pose proof (Rabs_le_inv _ _ Bhi) as B2.
    pose proof (Rle_abs (V lo)) as A1. pose proof (Rle_abs (V hi)) as A2. pose proof (Rle_abs (- V lo)) as A3. rewrite Rabs_Ropp in A3.
    assert (IP : 0 <= IZR i * V p <= (V hi - V lo) + 2 * V p).
    { split; [apply Rmult_le_pos; [apply IZR_le; lia|lra]|]. apply Rle_trans with ((Q + 2) * V p); [apply Rmult_le_compat_r; lra|].
      right. unfold Q. field. lra. }
    assert (L102 : 4 * bpow radix2 100 <= bpow radix2 102) by (right; change 102%Z with (2 + 100)%Z; rewrite bpow_plus; reflexivity).
    assert (L103 : 2 * bpow radix2 102 <= bpow radix2 103) by (right; change 103%Z with (1 + 102)%Z; rewrite bpow_plus; reflexivity).
    destruct (mul_std (f_ofZ i) p Ff Fp) as [Fm Em].
    { rewrite Ef, Rabs_pos_eq by lra. apply Rle_trans with (bpow radix2 102); [|apply big; lia]. lra. }
    rewrite Ef in Em. rewrite (Rabs_pos_eq (IZR i * V p)) in Em by lra.
    assert (He : eta <= / 1000000000000 * (u * V p)).
    { eapply Rle_trans; [apply (eta_u (-100)); lia|].
      apply Rle_trans with (u * V p * / 1000000000000); [|lra]. apply Rmult_le_compat; try lra.
      - apply Rmult_le_pos; [lra|apply bpow_ge_0].
      - apply Rmult_le_compat_l; lra. }
    set (m := (f_ofZ i * p)%float) in *. set (S := Rabs (V lo) + Rabs (V hi)) in *.
    assert (S0 : 0 <= S) by (unfold S; pose proof (Rabs_pos (V lo)); pose proof (Rabs_pos (V hi)); lra).
    assert (IPS : IZR i * V p <= S + 2 * V p) by (unfold S; lra).
    apply Rabs_le_inv in Em.
    assert (uIP : u * (IZR i * V p) <= u * (S + 2 * V p)) by (apply Rmult_le_compat_l; lra).
    assert (Em' : Rabs (V m - IZR i * V p) <= 2.1 * u * (S + V p)).
    { assert (0 <= u * S) by (apply Rmult_le_pos; lra). assert (0 <= u * V p) by (apply Rmult_le_pos; lra). apply Rabs_le. split; lra. }
    apply Rabs_le_inv in Em'.
    assert (uS : u * (S + V p) <= / 1000000000000 * (S + V p)) by (apply Rmult_le_compat_r; lra).
    assert (SB : S <= 2 * bpow radix2 100) by (unfold S; lra).
    destruct (add_std lo m Flo Fm) as [Fx Ex].
    { apply Rle_trans with (bpow radix2 103); [|apply big; lia]. apply Rabs_le. split; lra. }
    split; [exact Fx|]. apply Rabs_le_inv in Ex.
    assert (XB : Rabs (V lo + V m) <= 2.1 * (S + V p)).
    { pose proof (Rabs_pos (V lo)). pose proof (Rabs_pos (V hi)). apply Rabs_le. split; unfold S in *; lra. }
    assert (uX : u * Rabs (V lo + V m) <= u * (2.1 * (S + V p))) by (apply Rmult_le_compat_l; lra).
    apply Rabs_le. assert (0 <= u * (S + V p)) by (apply Rmult_le_pos; lra). split; lra.
  Qed.
End Uni.
