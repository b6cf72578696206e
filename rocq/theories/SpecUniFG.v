(** SpecUniFG.v - uniform grids given in doubles, away from count changes. *)
From Coq Require Import Floats.
From Coq Require Import Reals List ZArith.
From Verif Require Import Base NumF NumR SpecDas SpecRound SpecRoundSir.
Open Scope R_scope.

(** The grid with its doubles read as exact numbers. *)
Definition grid_val (g : PrimFloat.float * PrimFloat.float * PrimFloat.float) : grid :=
  let '(lo, p, hi) := g in (val lo, val p, val hi).
(** lo : p : hi in doubles: lo <= hi of ordinary size, at most 2^30 points, and
    lo = hi or (hi - lo) / p not within about 2 eps (relative) of an integer. *)
Definition clear_grid (g : PrimFloat.float * PrimFloat.float * PrimFloat.float) : Prop :=
  let '(lo, p, hi) := g in
  let steps := (val hi - val lo) / val p in
  finite lo /\ finite p /\ finite hi /\
  Rabs (val lo) <= powerRZ 2 98 /\ Rabs (val hi) <= powerRZ 2 98 /\ powerRZ 2 (-100) <= val p <= powerRZ 2 98 /\
  val lo <= val hi /\ steps + 1 <= powerRZ 2 30 /\
  (val lo = val hi \/ forall z : Z, 2 * eps * (steps + 1) < Rabs (steps - IZR z)).
(** What rounding may move a grid point by. *)
Definition grid_slack (g : PrimFloat.float * PrimFloat.float * PrimFloat.float) : R :=
  let '(lo, p, hi) := g in 4 * eps * (Rabs (val lo) + Rabs (val hi) + val p).
