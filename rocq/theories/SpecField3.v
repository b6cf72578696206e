(** SpecField3.v - the field of a cylindrical transducer and of a line. *)
From Coq Require Import Reals List ZArith.
From Coquelicot Require Import Coquelicot.
From Verif Require Import Base ModelSir ModelArr NumR SpecRayleigh SpecPhys SpecField.
Import ListNotations.
Open Scope R_scope.

(** The point at angle u and position x of the cylinder of radius |Rc| with
    axis through (0,0,Rc); the element of area is |Rc| dx du. *)
Definition on_cylinder (Rc x u : R) : pos := {| p_x := x; p_y := Rabs Rc * sin u; p_z := Rc * (1 - cos u) |}.
Definition half_angle (b Rc : R) : R := asin (b / 2 / Rabs Rc).
Definition radiated_cyl (cp v a b Rc : R) (o : pos) (phi : R -> R) : R :=
  RInt (fun u => RInt (fun x => Rabs Rc * (1000 * v / (2 * PI * distance o (on_cylinder Rc x u)) *
                                  phi (1000 * distance o (on_cylinder Rc x u) / cp)))
                      (- (a / 2)) (a / 2))
       (- half_angle b Rc) (half_angle b Rc).
(** Distance of o from the cylinder. *)
Definition clearance (Rc : R) (o : pos) : R := Rabs (sqrt (p_y o ^2 + (p_z o - Rc)^2) - Rabs Rc).

(** A strip of width dy along the x axis, as wide as one step. *)
Definition radiated_line (cp v a dy : R) (o : pos) (phi : R -> R) : R :=
  dy * RInt (fun x => 1000 * v / (2 * PI * distance o (on_plane x 0)) * phi (1000 * distance o (on_plane x 0) / cp)) (- (a / 2)) (a / 2).
Definition off_axis (o : pos) : R := sqrt (p_y o ^2 + p_z o ^2).

(** Error bounds: d the least distance, lam and tau how fast the distance and
    the travel time change with the coordinates. *)
Definition patch_error (C d lam tau H S dx du dt L M : R) : R :=
  let amp := C * M / d in
  let slope := C * (lam * M / d^2 + L * tau / d) in
  C / d * (L * dt / 2) * ((2 * H + du / 2) * (2 * S + dx / 2)) +
  (S * amp * du + (2 * H + du / 2) * (S * slope * du + (amp * (dx / 2) + (2 * S + dx / 2) * (slope * dx / 2)))).
Definition cylinder_error (q : rpar) (a b Rc : R) (o : pos) (L M : R) : R :=
  let lam := 1 + Rabs Rc in
  patch_error (Rabs Rc * (1000 * Rabs (p_v q) / (2 * PI))) (clearance Rc o) lam (1000 * lam / p_cp q)
    (half_angle b Rc) (a / 2) (p_dx q) (asin (p_dy q / Rabs Rc)) (p_dt q) L M.
Definition line_error (q : rpar) (a : R) (o : pos) (L M : R) : R :=
  let C := 1000 * Rabs (p_v q) / (2 * PI) in let d := off_axis o in
  let amp := C * M / d in let slope := C * (M / d^2 + L * (1000 / p_cp q) / d) in
  p_dy q * (C / d * (L * p_dt q / 2) * (a + p_dx q / 2) + (amp * (p_dx q / 2) + (a + p_dx q / 2) * (slope * p_dx q / 2))).
