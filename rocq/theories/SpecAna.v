(** SpecAna.v - what the analytic functions are supposed to compute. *)
From Coq Require Import Reals.
From Coquelicot Require Import Coquelicot.
From Verif Require Import Base NumR ModelSir ModelArr ModelSmp ModelAna.

Open Scope Z_scope.
(** ** The arguments of a call: what the gateways check, and the coordinates
    and the delay of observation point n (Ro is No x 3, column major). *)
Section Args.
  Context {N : Num}.
  Local Open Scope num_scope.
  Record wf_ajob (J : ajob N) : Prop := {
    wa_nt : 0 <= a_nt J;
    wa_No : 0 <= a_No J;
    wa_Ro : Z.of_nat (length (a_Ro J)) = (3 * a_No J)%Z;
    wa_delay : match a_delay_type J with delay_single => 1%Z | delay_multiple => a_No J end
               <= Z.of_nat (length (a_delay J))
  }.
  Definition obs_x (J : ajob N) (n : Z) : N := nth (Z.to_nat n) (a_Ro J) (#0).
  Definition obs_y (J : ajob N) (n : Z) : N := nth (Z.to_nat (n + a_No J)) (a_Ro J) (#0).
  Definition obs_z (J : ajob N) (n : Z) : N := nth (Z.to_nat (n + 2 * a_No J)) (a_Ro J) (#0).
  Definition obs_delay (J : ajob N) (n : Z) : N :=
    nth (Z.to_nat (match a_delay_type J with delay_single => 0 | delay_multiple => n end)) (a_delay J) (#0).
End Args.

(** ** The response of a plane piston in a rigid baffle

    A circle of radius rho around the foot point (x,y) of the observation point
    lies on the aperture over the angle [theta]. *)
Open Scope R_scope.
Definition is_arc (aperture : R -> R -> bool) (x y rho theta : R) : Prop :=
  is_RInt (fun phi => if aperture (x + rho * cos phi) (y + rho * sin phi) then 1 else 0) 0 (2 * PI) theta.

(** The points of the aperture at distance c t from the observation point
    (x,y,z) form such an arc, of radius sqrt((c t)^2 - z^2); the Rayleigh
    integral of the velocity impulse v delta(t) is v c / (2 pi) times its angle
    (Stepanishen 1971; Lockwood and Willette 1973). *)
Definition is_sir (aperture : R -> R -> bool) (v c x y z t h : R) : Prop :=
  (c * t < z /\ h = 0) \/
  (z <= c * t /\ exists theta, is_arc aperture x y (sqrt ((c * t) ^ 2 - z ^ 2)) theta /\
                              h = v * c / (2 * PI) * theta).

(** The same as a function of time (RInt is the Riemann integral). *)
Definition sir (aperture : R -> R -> bool) (v c x y z t : R) : R :=
  if Rlt_dec (c * t) z then 0 else
  v * c / (2 * PI) * RInt (fun phi => let rho := sqrt ((c * t) ^ 2 - z ^ 2) in
                             if aperture (x + rho * cos phi) (y + rho * sin phi) then 1 else 0) 0 (2 * PI).

(** The apertures, without their edge (which has no area). *)
Definition disk (r X Y : R) : bool := Rltb (X ^ 2 + Y ^ 2) (r ^ 2).
Definition rectangle (a b X Y : R) : bool := Rltb (Rabs X) (a / 2) && Rltb (Rabs Y) (b / 2).

(** Units: coordinates and sizes in mm, times in us. *)
Definition metre (x : R) : R := x / 1000.
Definition second (t : R) : R := t / 1000000.
