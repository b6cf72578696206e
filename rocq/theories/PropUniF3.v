(** PropUniF3.v - property theorem: the elements and image points of C133 are
    those of the exact grids, up to rounding. *)
From Coq Require Import Floats.
From Coq Require Import Reals Lra Lia ZArith List Bool.
From Flocq Require Import Core.
From Verif Require Import Base ModelSir ModelDas NumF NumR SpecDft SpecDas SpecRound SpecRoundSir SpecRoundDas SpecUniF SpecUniFG
  ProofsR ProofsTermF ProofsRound ProofsRel ProofsRoundDas ProofsUniF ProofsUni PropUniF.
From Coq Require Import ZifyBool ZifyNat.
Open Scope R_scope.
Local Notation val := SpecRound.val.

Lemma p2_pos k : powerRZ 2 (Z.pos k) = IZR (2 ^ Z.pos k).
Proof. rewrite <- (positive_nat_Z k), <- pow_powerRZ, pow_IZR. reflexivity. Qed.
Lemma p2_neg k : powerRZ 2 (Z.neg k) = / IZR (2 ^ Z.pos k).
Proof. rewrite <- p2_pos. unfold powerRZ. reflexivity. Qed.

Section Kernels.
  Context (fsin fcos fatan fasin facos fexp flog : PrimFloat.float -> PrimFloat.float).
  Local Notation F := (FN fsin fcos fatan fasin facos fexp flog).

  Lemma clear_count (lo p hi : F) : clear_grid (lo, p, hi) ->
    let n := grid_num (grid_val (lo, p, hi)) in
    uni_count_cl (N:=F) lo p hi = Ok n /\ (1 <= n < 2 ^ 31)%Z /\
    forall i, (0 <= i < n)%Z -> ordinary (uni_pos (N:=F) lo p i) /\
      Rabs (val (uni_pos (N:=F) lo p i) - (val lo + IZR i * val p)) <= grid_slack (lo, p, hi).
  Proof.
    unfold clear_grid, grid_slack, grid_val, grid_num. cbv zeta. intros (Fl & Fp & Fh & Bl & Bh & Bp & Hle & Hs & HZ).
    assert (E0 : 0 < eps <= / 1000) by (unfold eps; rewrite (p2_neg 52); simpl Z.pow; lra).
    assert (PM : 0 < powerRZ 2 (-100)) by (rewrite (p2_neg 100); simpl Z.pow; lra).
    assert (P98 : powerRZ 2 98 = / 4 * powerRZ 2 100) by (rewrite (p2_pos 98), (p2_pos 100); simpl Z.pow; lra).
    assert (P100 : 0 < powerRZ 2 100) by (rewrite (p2_pos 100); simpl Z.pow; lra).
    assert (P30 : powerRZ 2 30 <= powerRZ 2 50) by (rewrite (p2_pos 30), (p2_pos 50); simpl Z.pow; lra).
    destruct (C38_double_partial fsin fcos fatan fasin facos fexp flog UnsignedIdx lo p hi) as (n & Ec & _ & En & N1 & Pt & _ & Ecl);
      [split; [exact Fl|lra]|split; [exact Fh|lra]|split; [exact Fp|lra]|exact Hle|lra|].
    assert (En' : n = (Zfloor ((val hi - val lo) / val p) + 1)%Z).
    { destruct HZ as [HZ|HZ]; [|exact (En HZ)]. clear En Pt Ecl.
      assert (Q0' : (val hi - val lo) / val p = 0) by (rewrite HZ; unfold Rdiv; ring). rewrite Q0', (Zfloor_unique 0 0) by lra.
      apply finite_fin in Fl, Fp, Fh.
      assert (PS : powerRZ 2 98 <= powerRZ 2 100) by lra.
      destruct (count_trunc lo p hi Fl Fh) as (m & Em & _ & M1 & _);
        [rewrite <- val_V, Flocq.Core.Raux.bpow_powerRZ; change (IZR (Zaux.radix_val Zaux.radix2)) with 2; lra
        |rewrite <- val_V, Flocq.Core.Raux.bpow_powerRZ; change (IZR (Zaux.radix_val Zaux.radix2)) with 2; lra
        |rewrite <- val_V, !Flocq.Core.Raux.bpow_powerRZ; change (IZR (Zaux.radix_val Zaux.radix2)) with 2; lra
        |rewrite <- !val_V; exact Hle
        |rewrite <- !val_V, Flocq.Core.Raux.bpow_powerRZ; change (IZR (Zaux.radix_val Zaux.radix2)) with 2; lra|].
      rewrite <- !val_V, Q0' in M1.
      change (to_idx UnsignedIdx (f_trunc ((hi - lo) / p + 1)%float) = Ok n) in Ec. rewrite Em in Ec. unfold to_idx in Ec.
      destruct (_ && _)%bool in Ec; [|discriminate]. injection Ec as ->.
      assert (n < 2)%Z; [|lia]. apply lt_IZR. pose proof u_small. eapply Rle_lt_trans; [exact M1|]. lra. }
    clear En. rename En' into En. pose proof (Rabs_pos (val lo)) as A1. pose proof (Rabs_pos (val hi)) as A2.
    pose proof (Rabs_def2 (val lo) (powerRZ 2 98 + 1) ltac:(lra)) as A3. pose proof (Rabs_def2 (val hi) (powerRZ 2 98 + 1) ltac:(lra)) as A4.
    assert (N31 : (n < 2 ^ 31)%Z).
    { destruct (Zfloor_spec ((val hi - val lo) / val p)) as [Z1 Z2]. apply lt_IZR. rewrite En, plus_IZR.
      apply Rle_lt_trans with (powerRZ 2 30); [lra|]. rewrite (p2_pos 30). apply IZR_lt. reflexivity. }
    rewrite <- En. split; [exact (Ecl N31)|]. split; [split; [exact N1|exact N31]|]. intros i Hi. destruct (Pt i Hi) as (Fx & Ex & Bx). split; [|exact Ex].
    split; [exact Fx|]. assert (S : 4 * eps * (Rabs (val lo) + Rabs (val hi) + val p) <= powerRZ 2 98).
    { apply Rle_trans with (4 * / 1000 * (powerRZ 2 98 + powerRZ 2 98 + powerRZ 2 98)); [|lra].
      apply Rmult_le_compat; lra. }
    assert (4 <= powerRZ 2 98) by (rewrite (p2_pos 98); simpl Z.pow; lra).
    apply Rabs_le. lra.
  Qed.
End Kernels.

(** A grid away from count changes has exactly floor((hi - lo) / p) + 1
    elements, each within a few rounding errors of lo + i p; and image point
    (i, j, k) of the box, which has number (i nz + k) ny + j, is within as
    little of its exact place. *)
Theorem C133_points : forall fsin fcos fatan fasin facos fexp flog,
  let F := FN fsin fcos fatan fasin facos fexp flog in
  (forall g : F * F * F, clear_grid g ->
     let n := Z.to_nat (grid_num (grid_val g)) in
     (1 <= n)%nat /\ grid_of fsin fcos fatan fasin facos fexp flog g n /\
     forall i, (i < n)%nat -> Rabs (val (grid_pos fsin fcos fatan fasin facos fexp flog g i) - grid_at (grid_val g) i) <= grid_slack g) /\
  (forall rx ry rz : F * F * F, clear_grid rx -> clear_grid ry -> clear_grid rz ->
     let nx := Z.to_nat (grid_num (grid_val rx)) in let ny := Z.to_nat (grid_num (grid_val ry)) in let nz := Z.to_nat (grid_num (grid_val rz)) in
     forall i j k, (i < nx)%nat -> (j < ny)%nat -> (k < nz)%nat ->
     exists o, image_at fsin fcos fatan fasin facos fexp flog rx ry rz (Z.of_nat ((i * nz + k) * ny + j)) o /\
       Rabs (val (fst (fst o)) - grid_at (grid_val rx) i) <= grid_slack rx /\
       Rabs (val (snd (fst o)) - grid_at (grid_val ry) j) <= grid_slack ry /\
       Rabs (val (snd o) - grid_at (grid_val rz) k) <= grid_slack rz).
Proof.
  intros fsin fcos fatan fasin facos fexp flog F.
  assert (C := clear_count fsin fcos fatan fasin facos fexp flog). cbv zeta in C. split.
  - intros [[lo p] hi] H n. destruct (C lo p hi H) as (E & Hn & Pt).
    assert (Zn : grid_num (grid_val (lo, p, hi)) = Z.of_nat n)
      by (symmetry; refine (Z2Nat.id _ _); apply Z.le_trans with 1%Z; [lia|exact (proj1 Hn)]).
    assert (Hn' : (1 <= Z.of_nat n)%Z) by (rewrite <- Zn; exact (proj1 Hn)).
    assert (Pt' : forall i, (i < n)%nat -> ordinary (uni_pos (N:=F) lo p (Z.of_nat i)) /\
      Rabs (val (uni_pos (N:=F) lo p (Z.of_nat i)) - (val lo + IZR (Z.of_nat i) * val p)) <= grid_slack (lo, p, hi)).
    { intros i Hi. apply Pt. split; [lia|]. apply Z.lt_le_trans with (Z.of_nat n); [lia|]. rewrite <- Zn. apply Z.le_refl. }
    clear Pt Hn. clearbody n.
    split; [lia|]. split.
    + split; [rewrite <- Zn; exact E|]. intros i Hi. apply (Pt' i Hi).
    + intros i Hi. destruct (Pt' i Hi) as [_ B]. unfold grid_pos, grid_val, grid_at. rewrite INR_IZR_INZ. exact B.
  - intros [[x0 px] x1] [[y0 py] y1] [[z0 pz] z1] Hx Hy Hz nx ny nz i j k Hi Hj Hk.
    destruct (C x0 px x1 Hx) as (Ex & Nx & Px). destruct (C y0 py y1 Hy) as (Ey & Ny & Py). destruct (C z0 pz z1 Hz) as (Ez & Nz & Pz).
    set (gx := grid_num (grid_val (x0, px, x1))) in *. set (gy := grid_num (grid_val (y0, py, y1))) in *. set (gz := grid_num (grid_val (z0, pz, z1))) in *.
    set (no := ((i * nz + k) * ny + j)%nat).
    assert (Eno : Z.of_nat no = ((Z.of_nat i * gz + Z.of_nat k) * gy + Z.of_nat j)%Z) by (unfold no, ny, nz; lia).
    assert (Hno : (0 <= Z.of_nat no < gx * gy * gz)%Z).
    { rewrite Eno. assert (Z.of_nat i < gx /\ Z.of_nat j < gy /\ Z.of_nat k < gz)%Z as (I1 & I2 & I3) by (unfold nx, ny, nz in *; lia). split; [nia|].
      assert (Z.of_nat i * gz + Z.of_nat k <= gx * gz - 1)%Z by nia. nia. }
    destruct (uni_sub_spec gx gy gz (Z.of_nat no) ltac:(lia) ltac:(lia) ltac:(lia) Hno) as (a & b & c & Es & Ba & Bb & Bc & En & _).
    assert (b = Z.of_nat j /\ a = Z.of_nat i /\ c = Z.of_nat k) as (-> & -> & ->).
    { rewrite Eno in En. assert (J1 : (Z.of_nat j < gy)%Z) by (unfold ny in Hj; lia). assert (K1 : (Z.of_nat k < gz)%Z) by (unfold nz in Hk; lia).
      assert (Q : (Z.of_nat i * gz + Z.of_nat k = a * gz + c)%Z) by nia. assert (Z.of_nat i = a)%Z by nia. subst a. split; [nia|]. split; [reflexivity|lia]. }
    exists (uni_pos (N:=F) x0 px (Z.of_nat i), uni_pos (N:=F) y0 py (Z.of_nat j), uni_pos (N:=F) z0 pz (Z.of_nat k)).
    assert (Z.of_nat i < gx /\ Z.of_nat j < gy /\ Z.of_nat k < gz)%Z as (I1 & I2 & I3) by (unfold nx, ny, nz in *; lia).
    destruct (Px (Z.of_nat i) (conj (Nat2Z.is_nonneg i) I1)) as [O1 D1]. destruct (Py (Z.of_nat j) (conj (Nat2Z.is_nonneg j) I2)) as [O2 D2]. destruct (Pz (Z.of_nat k) (conj (Nat2Z.is_nonneg k) I3)) as [O3 D3].
    split.
    + split; [|cbn [fst snd]; auto]. unfold uni_at. rewrite Ex. cbn [bind]. rewrite Ey. cbn [bind]. rewrite Ez. cbn [bind]. change (bind (Ok (A:=Z) 0%Z) (fun _ => (let '(nx0, ny0, nz0) := uni_sub gx gy gz (Z.of_nat no) in Ok (uni_pos (N:=F) x0 px nx0, uni_pos (N:=F) y0 py ny0, uni_pos (N:=F) z0 pz nz0))) = Ok (uni_pos (N:=F) x0 px (Z.of_nat i), uni_pos (N:=F) y0 py (Z.of_nat j), uni_pos (N:=F) z0 pz (Z.of_nat k))). cbn [bind]. rewrite Es. reflexivity.
    + cbn [fst snd]. unfold grid_val, grid_at. rewrite !INR_IZR_INZ. auto.
Qed.
Print Assumptions C133_points.
