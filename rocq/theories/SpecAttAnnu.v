(** SpecAttAnnu.v - the response of an annular array in an absorbing medium. *)
From Coq Require Import Reals List ZArith.
From Verif Require Import Base ModelSir ModelArr NumR SpecRayleigh SpecArr SpecAnnu SpecAnnuR SpecAtt.
Import ListNotations.
Open Scope R_scope.

(** Disc n of the radii vector: the sum of the absorbed pulses of its source
    points; a centre disc of radius (almost) zero is silent. *)
Definition absorbed_disc (q : rpar) (ntz : Z) (alpha : R) (A : annular) (delay : R) (o : pos) (n k : nat) : R :=
  if (Nat.eqb n 0 && Rleb (nth 0 (an_radii A) 0) (/ 2 ^ 52))%bool then 0
  else attenuated_sum q ntz alpha 1 delay o (sources q (GCirc (nth n (an_radii A) 0))) k.
(** Ring j: outer disc minus inner disc. *)
Definition absorbed_ring (q : rpar) (ntz : Z) (alpha : R) (A : annular) (delay : R) (o : pos) (j k : nat) : R :=
  match j with
  | O => absorbed_disc q ntz alpha A delay o O k
  | _ => absorbed_disc q ntz alpha A delay o (2 * j) k - absorbed_disc q ntz alpha A delay o (2 * j - 1) k
  end.
(** The rings moved by their delays, to the nearest sample, [late] samples too
    late, weighted and added. *)
Definition absorbed_annular (late : Z) (q : rpar) (ntz : Z) (alpha : R) (A : annular) (delay : R) (o : pos) (k : nat) : R :=
  Rsum (map (fun j => let m := (Z.of_nat k - (Zrint (ring_tau (p_cp q) A j / p_dt q) + late))%Z in
                      if (0 <=? m)%Z then ring_w A j * absorbed_ring q ntz alpha A delay o j (Z.to_nat m) else 0)
            (seq 0 (num_rings A))).
