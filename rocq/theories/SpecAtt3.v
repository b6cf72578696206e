(** SpecAtt3.v - the energy of absorbed pulses. *)
From Coq Require Import Reals List ZArith.
From Verif Require Import SpecDft SpecRayleigh SpecAtt2.
Open Scope R_scope.

(** Energy of a record. *)
Definition energy (L : nat) (x : nat -> R) : R := rsum L (fun n => x n * x n).
(** What is left of the energy of a unit pulse after r mm when every frequency
    of the record of L samples is damped as the medium damps it. *)
Definition unit_energy (L : nat) (dt alpha r : R) : R :=
  (1 + rsum ((L - 1) / 2) (fun k => 2 * (damping alpha (frequency L dt (S k)) r)^2) +
   (if Nat.even L then (damping alpha (frequency L dt (L / 2)) r)^2 else 0)) / INR L.
