(** SpecField5.v - the field of an array. *)
From Coq Require Import Reals List ZArith.
From Verif Require Import Base ModelSir ModelArr NumR SpecRayleigh SpecArr SpecPhys SpecField SpecField3.
Import ListNotations.
Open Scope R_scope.

(** Elements of an array: plates, discs and cylindrical elements; the exact
    field of one element seen from o (relative to the element). *)
Definition element_shape (g : geom) : Prop :=
  match g with
  | GRect a b => 0 <= a /\ 0 <= b
  | GCirc r => 0 <= r
  | GCylind a b Rc => 0 <= a /\ 0 <= b <= 2 * Rabs Rc /\ Rc <> 0
  | _ => False
  end.
Definition element_field (cp v : R) (g : geom) (o : pos) (phi : R -> R) : R :=
  match g with GCylind a b Rc => radiated_cyl cp v a b Rc o phi | _ => radiated cp v g o phi end.
(** Not on the plane or cylinder of the element. *)
Definition off_element (g : geom) (o : pos) : Prop :=
  match g with GCylind _ _ Rc => 0 < clearance Rc o | _ => p_z o <> 0 end.

(** The array: every element with its weight, its wave late by its focusing
    and its steering delay. *)
Definition array_field (cp v : R) (g : geom) (A : array) (o : pos) (phi : R -> R) : R :=
  Rsum (map (fun i => weight A i * element_field cp v g (rel o (elem A i))
                        (fun t => phi (t + focus_delay cp A i + steer_delay cp A i)))
            (seq 0 (length (ar_pos A)))).
Definition off_array (g : geom) (A : array) (o : pos) : Prop :=
  forall i, (i < length (ar_pos A))%nat -> off_element g (rel o (elem A i)).
Definition element_error (q : rpar) (g : geom) (o : pos) (L M : R) : R :=
  match g with GCylind a b Rc => cylinder_error q a b Rc o L M | _ => field_error q g (p_z o) L M end.
Definition array_error (q : rpar) (g : geom) (A : array) (o : pos) (L M : R) : R :=
  Rsum (map (fun i => Rabs (weight A i) * element_error q g (rel o (elem A i)) L M) (seq 0 (length (ar_pos A)))).
