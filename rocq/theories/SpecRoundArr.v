(** SpecRoundArr.v - arrays in double precision: what the samples should be.

    As in SpecRoundSir.v the source points of an element are the doubles that
    the loops visit; the positions of the elements, their user defined delays
    and weights are taken exactly. *)
From Coq Require Import Floats.
From Coq Require Import Reals List ZArith.
From Verif Require Import Base ModelSir ModelArr NumR NumF SpecSir SpecRayleigh SpecArr SpecRound SpecRoundSir.
Import ListNotations.
Open Scope R_scope.

Section Arr.
  Context (fsin fcos fatan fasin facos fexp flog : PrimFloat.float -> PrimFloat.float).
  Local Notation F := (FN fsin fcos fatan fasin facos fexp flog).

  (** The element and the array parameters of dream_arr_rect and
      dream_arr_circ. *)
  Definition elements (T : transducer F) : option (transducer F * arr_par F) :=
    match T with
    | TArrRect a b p => Some (TRect a b, p)
    | TArrCirc R p => Some (TCirc R, p)
    | _ => None
    end.
  (** Not steered; no focusing or user defined delays; no apodization or user
      defined weights. *)
  Definition simple_array (p : arr_par F) : Prop :=
    steer_met p = steer_none /\ (foc_met p = foc_none \/ foc_met p = foc_ud) /\ (do_apod p = true -> apod_met p = apod_ud).
  (** Of ordinary size; the weights positive. *)
  Definition ordinary_array (p : arr_par F) : Prop :=
    Forall ordinary (G p) /\ (foc_met p = foc_ud -> Forall ordinary (focal p)) /\ (do_apod p = true -> Forall ordinary_pos (apod p)).

  (** Position, delay and weight of element i. *)
  Definition elem_place (p : arr_par F) (i : nat) : pos :=
    let M := Z.to_nat (num_elements p) in
    {| p_x := val (nth i (G p) (0%float : F)); p_y := val (nth (M + i) (G p) (0%float : F)); p_z := val (nth (2 * M + i) (G p) (0%float : F)) |}.
  Definition elem_late (p : arr_par F) (i : nat) : R :=
    match foc_met p with foc_ud => val (nth i (focal p) (0%float : F)) | _ => 0 end.
  Definition elem_gain (p : arr_par F) (i : nat) : R :=
    if do_apod p then val (nth i (apod p) (0%float : F)) else 1.

  (** The exact sample: the weighted sum of the discretised Rayleigh integrals
      of the elements. *)
  Definition array_sample (q : rpar) (p : arr_par F) (delay : R) (o : pos) (src : list source) (k : Z) : R :=
    Rsum (map (fun i => rayleigh q (elem_gain p i) (delay - elem_late p i) (rel o (elem_place p i)) src k)
              (seq 0 (Z.to_nat (num_elements p)))).
End Arr.

(** The observation point, seen from the element (position o, source points src
    around the origin): not closer to a source point than 2^-99 or than the
    coordinates of the source point; no arrival time so close to halfway between two
    samples that rounding could move it (9 eps); sample numbers that fit. *)
Record ordinary_elem (K : idx_kind) (q : rpar) (delay : R) (o : pos) (src : list source) : Prop := {
  oe_close : forall s, In s src -> powerRZ 2 (-99) <= dist o s /\ Rabs (s_x s) <= dist o s /\ Rabs (s_y s) <= dist o s;
  oe_ties : forall s, In s src -> forall z : Z,
    9 * eps * ((1000 * dist o s / p_cp q + Rabs delay) / p_dt q) < Rabs (arrival q delay o s - (IZR z + / 2));
  oe_fit : samples_fit K q delay o src
}.
(** r is a double within (n + 19) units in the last place of the sample v. *)
Definition array_close (n : nat) (v : R) (r : PrimFloat.float) : Prop :=
  finite r /\ Rabs (val r - v) <= (INR n + 19) * eps * v.
