(** SpecRoundSir2.v - rectangles and lines in double precision against the exact
    discretised Rayleigh integral: the loops over the aperture are also rounded. *)
From Coq Require Import Floats.
From Coq Require Import Reals List ZArith.
From Verif Require Import Base ModelSir ModelArr NumR NumF SpecSir SpecRayleigh SpecRound SpecRoundSir.
Import ListNotations.
Open Scope R_scope.

(** A side of length a is a whole number n of steps d, give or take a quarter
    of a step; at most 2^24 steps. *)
Definition whole_side (a d : PrimFloat.float) (n : nat) : Prop :=
  ordinary_pos a /\ Rabs (val a - INR n * val d) <= val d / 4 /\ (Z.of_nat n <= 2 ^ 24)%Z.
(** How far rounding can move the last of the n points: half a unit in the last
    place of the half side per step. *)
Definition drift (a d : PrimFloat.float) (n : nat) : R := INR n * (eps / 2) * (val a / 2 + val d).

Section Sir.
  Context (fsin fcos fatan fasin facos fexp flog : PrimFloat.float -> PrimFloat.float).
  Local Notation F := (FN fsin fcos fatan fasin facos fexp flog).

  (** The transducer T in doubles is the geometry g; no side has more than n
      steps; no source point moves by more than delta. *)
  Inductive even_aperture (q : samp F) : transducer F -> geom -> nat -> R -> Prop :=
  | even_rect (a b : F) nx ny : whole_side a (dx q) nx -> whole_side b (dy q) ny ->
      even_aperture q (TRect a b) (GRect (val a) (val b)) (Nat.max nx ny) (drift a (dx q) nx + drift b (dy q) ny)
  | even_line (a : F) nx : whole_side a (dx q) nx ->
      even_aperture q (TLine a) (GLine (val a)) nx (drift a (dx q) nx).
End Sir.

(** No arrival time is so close to halfway between two samples that rounding of
    the computed time (6 eps) or of the source points (delta) could move it to
    another sample. *)
Definition clear_of_drift (q : rpar) (delay delta : R) (o : pos) (src : list source) : Prop :=
  forall s, In s src -> forall z : Z,
    6 * eps * ((1000 * dist o s / p_cp q + Rabs delay) / p_dt q) + 2000 * delta / p_cp q / p_dt q
    < Rabs (arrival q delay o s - (IZR z + / 2)).

(** The observation point is at least 2^-99 and at least delta / rho away from
    every source point. *)
Definition far_enough (delta rho : R) (o : pos) (src : list source) : Prop :=
  forall s, In s src -> powerRZ 2 (-99) <= dist o s /\ delta <= rho * dist o s.

Record exact_ordinary_call (K : idx_kind) (q : rpar) (delay delta rho : R) (o : pos) (src : list source) : Prop := {
  ec_far : far_enough delta rho o src; ec_ties : clear_of_drift q delay delta o src; ec_fit : samples_fit K q delay o src
}.

(** r is a double within the relative error (n + 13) eps + 2 rho of v. *)
Definition near_sample (n : nat) (rho v : R) (r : PrimFloat.float) : Prop :=
  finite r /\ Rabs (val r - v) <= ((INR n + 13) * eps + 2 * rho) * v.
