(** SpecField7.v - what dreamsphere integrates: the spherical waves of the bowl,
    weighted with the area of the projection on the plane of the rim. *)
From Coq Require Import Reals List ZArith.
From Coquelicot Require Import Coquelicot.
From Verif Require Import Base ModelSir ModelArr NumR SpecRayleigh SpecPhys SpecField.
Open Scope R_scope.

(** The point of the sphere of radius |Rc| with centre (0,0,Rc) above (x,y),
    on the side of the origin. *)
Definition on_bowl (Rc x y : R) : pos :=
  {| p_x := x; p_y := y;
     p_z := if Rleb 0 Rc then Rabs Rc - sqrt (Rc^2 - x^2 - y^2) else - (Rabs Rc - sqrt (Rc^2 - x^2 - y^2)) |}.
Definition radiated_projected (cp v r Rc : R) (o : pos) (phi : R -> R) : R :=
  RInt (fun y => RInt (fun x => 1000 * v / (2 * PI * distance o (on_bowl Rc x y)) * phi (1000 * distance o (on_bowl Rc x y) / cp))
                      (- sqrt (r^2 - y^2)) (sqrt (r^2 - y^2)))
       (- r) r.
(** Distance of o from the sphere. *)
Definition sphere_clearance (Rc : R) (o : pos) : R := Rabs (sqrt (p_x o ^2 + p_y o ^2 + (p_z o - Rc)^2) - Rabs Rc).
(** Steepness of the bowl at the rim. *)
Definition rim_slope (r Rc : R) : R := r / sqrt (Rc^2 - r^2).
Definition bowl_error (q : rpar) (r Rc : R) (o : pos) (L M : R) : R :=
  let C := 1000 * Rabs (p_v q) / (2 * PI) in let d := sphere_clearance Rc o in let lam := 1 + rim_slope r Rc in
  let amp := C * M / d in
  let slope := C * (lam * M / d^2 + L * (1000 * lam / p_cp q) / d) in
  C / d * (L * p_dt q / 2) * ((2 * r + p_dy q / 2) * (2 * r + p_dx q / 2)) +
  (r * amp * p_dy q + (2 * r + p_dy q / 2) *
     (2 * amp * sqrt ((r + p_dy q) * p_dy q) + r * slope * p_dy q + (amp * (p_dx q / 2) + (2 * r + p_dx q / 2) * (slope * p_dx q / 2)))).
