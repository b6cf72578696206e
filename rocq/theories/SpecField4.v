(** SpecField4.v - a spherical bowl and its centre of curvature. *)
From Coq Require Import Reals.
From Verif Require Import Base ModelSir ModelArr NumR SpecRayleigh SpecPhys.
Open Scope R_scope.

Definition centre (Rc : R) : pos := {| p_x := 0; p_y := 0; p_z := Rc |}.
(** Area of the cap of rim radius r on a sphere of radius |Rc| (Archimedes:
    circumference times height). *)
Definition cap_area (r Rc : R) : R := 2 * PI * Rabs Rc * (Rabs Rc - sqrt (Rc^2 - r^2)).
(** Rayleigh integral at the centre, where every point of the bowl is at the
    distance |Rc|. *)
Definition bowl_total (v r Rc : R) : R := 1000 * v / (2 * PI * Rabs Rc) * cap_area r Rc.
(** The same for the flat disc of radius r placed at the distance |Rc|
    everywhere. *)
Definition disc_total (v r Rc : R) : R := 1000 * v / (2 * PI * Rabs Rc) * (PI * r^2).
