(** SpecField.v - the field of a flat transducer driven by a pulse. *)
From Coq Require Import Reals List ZArith.
From Coquelicot Require Import Coquelicot.
From Verif Require Import Base ModelSir ModelArr NumR SpecRayleigh SpecPhys.
Import ListNotations.
Open Scope R_scope.

(** A bounded signal of bounded slope. *)
Definition smooth (L M : R) (phi : R -> R) : Prop :=
  (forall t, Rabs (phi t) <= M) /\ (forall t t', Rabs (phi t - phi t') <= L * Rabs (t - t')).

(** Flat transducers: the half-width at height y and the half-height. *)
Definition flat_geom (g : geom) : Prop :=
  match g with GRect a b | GRectF a b _ _ => 0 <= a /\ 0 <= b | GCirc r | GCircF r _ _ => 0 <= r | _ => False end.
Definition half_width (g : geom) (y : R) : R :=
  match g with GRect a _ | GRectF a _ _ _ => a / 2 | GCirc r | GCircF r _ _ => sqrt (r^2 - y^2) | _ => 0 end.
Definition half_height (g : geom) : R :=
  match g with GRect _ b | GRectF _ b _ _ => b / 2 | GCirc r | GCircF r _ _ => r | _ => 0 end.
Definition on_plane (x y : R) : pos := {| p_x := x; p_y := y; p_z := 0 |}.

(** The exact field: every point of the surface, moving with velocity v, sends
    a spherical wave that arrives after the travel time; phi tells what a wave
    that arrives at time t contributes (for an excitation e observed at time
    T, phi t = e (T - t)). *)
Definition radiated (cp v : R) (g : geom) (o : pos) (phi : R -> R) : R :=
  RInt (fun y => RInt (fun x => 1000 * v / (2 * PI * distance o (on_plane x y)) * phi (travel_time cp g o (on_plane x y)))
                      (- half_width g y) (half_width g y))
       (- half_height g) (half_height g).

(** The same computed from the samples of a response that starts at delay. *)
Definition observed (q : rpar) (ntz : Z) (delay : R) (V : nat -> R) (phi : R -> R) : R :=
  p_dt q * Rsum (map (fun k => V k * phi (delay + INR k * p_dt q)) (seq 0 (Z.to_nat ntz))).

(** The largest half-width; how much the half-width can change in half a step. *)
Definition max_width (g : geom) : R :=
  match g with GRect a _ | GRectF a _ _ _ => a / 2 | GCirc r | GCircF r _ _ => r | _ => 0 end.
Definition edge (g : geom) (dy : R) : R :=
  match g with GCirc r | GCircF r _ _ => sqrt ((r + dy) * dy) | _ => 0 end.
(** The error bound: S half-width, H half-height, z the distance from the plane. *)
Definition field_error (q : rpar) (g : geom) (z L M : R) : R :=
  let S := max_width g in let H := half_height g in
  let C := 1000 * Rabs (p_v q) / (2 * PI) in
  let amp := C * M / Rabs z in
  let slope := C * (M / z^2 + 2000 * L / (p_cp q * Rabs z)) in
  C / Rabs z * (L * p_dt q / 2) * ((2 * H + p_dy q / 2) * (2 * S + p_dx q / 2)) +
  (S * amp * p_dy q + (2 * H + p_dy q / 2) *
     (2 * amp * edge g (p_dy q) + S * slope * p_dy q + (amp * (p_dx q / 2) + (2 * S + p_dx q / 2) * (slope * p_dx q / 2)))).
