(** SpecField6.v - the field of an annular array. *)
From Coq Require Import Reals List ZArith.
From Verif Require Import Base ModelSir ModelArr ModelSmp NumR SpecRayleigh SpecArr SpecSmp ModelGw SpecGw SpecGwR SpecPhys SpecAnnuR SpecField.
Import ListNotations.
Open Scope R_scope.

(** The exact field of ring j: the disc of its outer radius without the disc
    of its inner radius; ring 0 is the centre disc. *)
Definition radius (A : annular) (n : nat) : R := nth n (an_radii A) 0.
Definition ring_field (cp v : R) (A : annular) (o : pos) (j : nat) (phi : R -> R) : R :=
  match j with
  | O => radiated cp v (GCirc (radius A 0)) o phi
  | _ => radiated cp v (GCirc (radius A (2 * j))) o phi - radiated cp v (GCirc (radius A (2 * j - 1))) o phi
  end.
Definition annular_field (cp v : R) (A : annular) (o : pos) (phi : R -> R) : R :=
  Rsum (map (fun j => ring_w A j * ring_field cp v A o j (fun t => phi (t + ring_tau cp A j))) (seq 0 (num_rings A))).

(** The record covers the waves of every ring, two samples to spare. *)
Definition annular_inside (q : rpar) (ntz : Z) (A : annular) (delay : R) (o : pos) : Prop :=
  exists lo hi, (forall n, (n < length (an_radii A))%nat -> times_within (p_cp q) (GCirc (radius A n)) o lo hi) /\
    - p_dt q / 2 < lo - delay /\ hi - delay < (IZR ntz - 1 / 2) * p_dt q /\
    forall j, (j < num_rings A)%nat -> hi + ring_tau (p_cp q) A j - delay <= (IZR ntz - 3) * p_dt q.

(** The error of a disc: that of dreamcirc, and three half samples for the
    focusing delays, which are rounded and one sample too long. *)
Definition late_error (q : rpar) (r z L M : R) : R :=
  field_error q (GCirc r) z L M +
  1000 * Rabs (p_v q) / (2 * PI) / Rabs z * (L * (3 / 2 * p_dt q)) * ((2 * r + p_dy q / 2) * (2 * r + p_dx q / 2)).
Definition ring_error (q : rpar) (A : annular) (z : R) (j : nat) (L M : R) : R :=
  match j with
  | O => late_error q (radius A 0) z L M
  | _ => late_error q (radius A (2 * j)) z L M + late_error q (radius A (2 * j - 1)) z L M
  end.
Definition annular_error (q : rpar) (A : annular) (z L M : R) : R :=
  Rsum (map (fun j => Rabs (ring_w A j) * ring_error q A z j L M) (seq 0 (num_rings A))).

(** A call of dream_arr_annu for the array A. *)
Record exact_annular_call (c2r : list (car EN * car EN) -> list (car EN)) (fe : front) (nlhs hw : Z) (env : option Z)
  (sch : list event) (args : list (value EN)) (A : annular) (q : rpar) (ntz : Z) (ps : list pos) (dty : DelayType) (dl : list R) : Prop := {
  xn_doc : exists l p, (l = lvl_ignore \/ l = lvl_warn) /\ names_annular p A /\
    documented fe FArrAnnu args (TArrAnnu p) (emb_samp q ntz) (Some 0 : EN) l (Z.of_nat (length ps)) (exact (coords ps)) dty (exact dl);
  xn_ok : annular_ok q A;
  xn_lhs : (0 <= nlhs <= 2)%Z; xn_nt : (0 <= ntz)%Z; xn_hw : (0 <= hw)%Z; xn_c2r : keeps_length c2r;
  xn_sch : runs_to_end hw env (Z.of_nat (length ps)) sch }.
Definition all_annular_defined (fe : front) (fuel : nat) (q : rpar) (ntz : Z) (A : annular) (ps : list pos) (dty : DelayType) (dl : list R) : Prop :=
  forall n, (n < length ps)%nat -> annular_defined (idx_of fe) fuel q ntz A (start_delay dty dl n) (nth n ps origin).
(** No centre disc, or one that is not taken for none. *)
Definition centre_ok (A : annular) : Prop := radius A 0 = 0 \/ / 2 ^ 52 < radius A 0.
