(** SpecField2.v - a simulated signal: response convolved with the excitation. *)
From Coq Require Import Reals List ZArith.
From Verif Require Import Base ModelSir ModelArr NumR SpecRayleigh SpecPhys SpecField.
Import ListNotations.
Open Scope R_scope.

(** An excitation of K samples: a smooth signal that is 0 before time 0 and
    from time K dt on. *)
Definition excitation (L M : R) (K : Z) (dt : R) (e : R -> R) : Prop :=
  smooth L M e /\ (forall t, t < 0 -> e t = 0) /\ (forall t, IZR K * dt <= t -> e t = 0).
(** Its samples, weighted by the sampling period. *)
Definition samples (K : Z) (dt : R) (e : R -> R) : list R :=
  map (fun i => dt * e (INR i * dt)) (seq 0 (Z.to_nat K)).
(** The exact field at o at time t (us). *)
Definition field (cp v : R) (g : geom) (o : pos) (e : R -> R) (t : R) : R :=
  radiated cp v g o (fun t' => e (t - t')).
