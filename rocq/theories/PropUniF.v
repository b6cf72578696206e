(** PropUniF.v - property theorem: uniform grids in double precision (C38).

    C38 itself is false of doubles (C38_beyond_refuted, C38_missing_refuted in
    PropDas3.v): this is what is left of it. *)
From Coq Require Import Floats.
From Coq Require Import Reals Lra Lia ZArith List Bool.
From Flocq Require Import Core.
From Verif Require Import Base ModelDas NumF NumR SpecRound SpecRoundSir ProofsTermF ProofsRound ProofsRel ProofsRoundDas ProofsUniF.
Import ListNotations.
Open Scope R_scope.

(** The doubles lo:pitch:hi give a grid of n points whose count is the exact
    one unless (hi-lo)/pitch is within about 2 eps of an integer (relative
    error), and then at most one off.  All points lie in [lo,hi] up to a few
    rounding errors, and the last one is less than one pitch from hi.
    [num] is what the CPU class computes. *)
Theorem C38_double_partial : forall fsin fcos fatan fasin facos fexp flog,
  let F := FN fsin fcos fatan fasin facos fexp flog in
  forall (K : idx_kind) (lo pitch hi : PrimFloat.float),
  ordinary lo -> ordinary hi -> ordinary_pos pitch -> val lo <= val hi ->
  let steps := (val hi - val lo) / val pitch in
  let e := 2 * eps * (steps + 1) in
  let slack := 4 * eps * (Rabs (val lo) + Rabs (val hi) + val pitch) in
  steps + 1 <= powerRZ 2 50 ->
  exists n, uni_count (N:=F) K lo pitch hi = Ok n /\
    (Zfloor steps <= n <= Zfloor steps + 2)%Z /\
    ((forall z : Z, e < Rabs (steps - IZR z)) -> n = (Zfloor steps + 1)%Z) /\
    (1 <= n)%Z /\
    (forall i, (0 <= i < n)%Z -> let x := uni_pos (N:=F) lo pitch i in
       finite x /\ Rabs (val x - (val lo + IZR i * val pitch)) <= slack /\ val lo - slack <= val x <= val hi + 2 * slack) /\
    val hi - val pitch - 2 * slack < val (uni_pos (N:=F) lo pitch (n - 1)) /\
    ((n < 2 ^ 31)%Z -> uni_count_cl (N:=F) lo pitch hi = Ok n).
Proof.
  intros fsin fcos fatan fasin facos fexp flog F K lo pitch hi [Flo Blo] [Fhi Bhi] [Fp Bp] Hle steps e slack Hs.
  apply finite_fin in Flo, Fhi, Fp. unfold e, slack, steps in *. clear e slack steps.
  rewrite !val_V in *. rewrite u_eps.
  replace (powerRZ 2 50) with (bpow radix2 50) in Hs by (now rewrite bpow_powerRZ).
  replace (powerRZ 2 100) with (bpow radix2 100) in * by (now rewrite bpow_powerRZ).
  replace (powerRZ 2 (-100)) with (bpow radix2 (-100)) in * by (now rewrite bpow_powerRZ).
  pose proof (Ppos pitch Bp) as P. pose proof (Q0 lo pitch hi Bp Hle) as HQ0. pose proof u_small as Hu.
  destruct (count_trunc lo pitch hi Flo Fhi Blo Bhi Bp Hle Hs) as (n & En & Hn & N1 & N2).
  set (Q := (V hi - V lo) / V pitch) in *. pose proof u50 as U50.
  assert (UQ : bpow radix2 (-53) * (Q + 1) <= / 8) by (rewrite <- U50, Rmult_comm; apply Rmult_le_compat_r; lra).
  pose proof (Zfl_spec Q) as ZQ. set (z := Zfloor Q) in *.
  assert (HQp : Q * V pitch = V hi - V lo) by (unfold Q; field; lra).
  pose proof (Rle_abs (V lo)) as A1. pose proof (Rle_abs (V hi)) as A2. pose proof (Rle_abs (- V lo)) as A3. rewrite Rabs_Ropp in A3.
  pose proof (Rabs_pos (V lo)) as A4. pose proof (Rabs_pos (V hi)) as A5.
  set (M := Rabs (V lo) + Rabs (V hi) + V pitch) in *.
  assert (EB : 4 * bpow radix2 (-53) * ((Q + 1) * V pitch) <= 4 * bpow radix2 (-53) * M).
  { apply Rmult_le_compat_l; [lra|]. rewrite Rmult_plus_distr_r, HQp. unfold M. lra. }
  assert (PT : forall i, (0 <= i < n)%Z -> let x := uni_pos (N:=F) lo pitch i in
    finite x /\ Rabs (V x - (V lo + IZR i * V pitch)) <= 8 * bpow radix2 (-53) * M).
  { intros i Hi x. assert (Hi' : IZR i <= IZR (n - 1)) by (apply IZR_le; lia). rewrite minus_IZR in Hi'.
    destruct (point_at lo pitch hi Flo Fp Blo Bhi Bp Hle Hs i ltac:(lia)) as [Fx Ex]; [fold Q; lra|].
    split; [apply finite_fin; exact Fx|exact Ex]. }
  exists n. split.
  { change (to_idx K (f_trunc ((hi - lo) / pitch + 1)%float) = Ok n). rewrite En. unfold to_idx.
    assert (2 ^ 51 < 2 ^ 63)%Z by reflexivity. assert (2 ^ 51 < 2 ^ 64)%Z by reflexivity. assert (- 2 ^ 63 < 0)%Z by reflexivity.
    destruct K.
    - replace (-2 ^ 63 <=? n)%Z with true by (symmetry; apply Z.leb_le; lia). replace (n <? 2 ^ 63)%Z with true by (symmetry; apply Z.ltb_lt; lia). reflexivity.
    - replace (0 <=? n)%Z with true by (symmetry; apply Z.leb_le; lia). replace (n <? 2 ^ 64)%Z with true by (symmetry; apply Z.ltb_lt; lia). reflexivity. }
  split.
  { split.
    - assert (IZR z < IZR (n + 1)) by (rewrite plus_IZR; lra). apply lt_IZR in H. lia.
    - assert (IZR n < IZR (z + 3)) by (rewrite plus_IZR; lra). apply lt_IZR in H. lia. }
  split.
  { intros HC. pose proof (HC z) as C1. pose proof (HC (z + 1)%Z) as C2. rewrite plus_IZR in C2.
    rewrite Rabs_pos_eq in C1 by lra. rewrite Rabs_left1 in C2 by lra.
    assert (G1 : IZR z < IZR n) by lra. assert (G2 : IZR n < IZR (z + 2)) by (rewrite plus_IZR; lra).
    apply lt_IZR in G1, G2. lia. }
  split; [lia|]. split.
  { intros i Hi. destruct (PT i Hi) as [Fx Ex]. set (x := uni_pos (N:=F) lo pitch i) in *. rewrite val_V. split; [exact Fx|].
    assert (Ex' := Rabs_le_inv _ _ Ex). split; [lra|].
    assert (Hi' : IZR i <= IZR (n - 1)) by (apply IZR_le; lia). rewrite minus_IZR in Hi'.
    assert (I0 : 0 <= IZR i) by (apply IZR_le; lia).
    assert (IP0 : 0 <= IZR i * V pitch) by (apply Rmult_le_pos; lra).
    assert (IP : IZR i * V pitch <= (Q + 4 * bpow radix2 (-53) * (Q + 1)) * V pitch) by (apply Rmult_le_compat_r; lra).
    split; lra. }
  split.
  { destruct (PT (n - 1)%Z ltac:(lia)) as [Fx Ex]. rewrite val_V. apply Rabs_le_inv in Ex. rewrite minus_IZR in Ex.
    assert (IP : (Q - 1 - 4 * bpow radix2 (-53) * (Q + 1)) * V pitch < (IZR n - 1) * V pitch) by (apply Rmult_lt_compat_r; lra).
    assert (M0 : 0 < M) by (unfold M; lra). assert (0 < bpow radix2 (-53) * M) by (apply Rmult_lt_0_compat; lra). lra. }
  intros Hn31. change (to_int (f_trunc ((hi - lo) / pitch + 1)%float) = Ok n). rewrite En. unfold to_int.
  assert (- 2 ^ 31 < 0)%Z by reflexivity.
  replace (-2 ^ 31 <=? n)%Z with true by (symmetry; apply Z.leb_le; lia). replace (n <? 2 ^ 31)%Z with true by (symmetry; apply Z.ltb_lt; lia). reflexivity.
Qed.
Print Assumptions C38_double_partial.
