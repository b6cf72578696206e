(** SpecAtt.v - the attenuating medium over the reals: the Green's function of
    one source point as the inverse DFT of its sampled spectrum. *)
From Coq Require Import Reals List ZArith.
From Verif Require Import Base ModelSir ModelArr ModelConv NumR SpecDft SpecRayleigh SpecConv.
Import ListNotations.
Open Scope R_scope.

(** Angular frequency (rad/s) of DFT bin k of a record of L samples with
    sampling period dt (us). *)
Definition omega (L : nat) (dt : R) (k : nat) : R := 2 * PI * INR k / (INR L * (dt / 1000000)).
(** dB/(cm MHz) to Np/(m Hz), 8.686 = 20/ln 10. *)
Definition neper (alpha : R) : R := alpha / 86860.
(** Magnitude and phase of bin k at distance r (mm), arrival at sample it;
    the phase contains the dispersion that keeps the response causal. *)
Definition green_mag (L : nat) (dt alpha r : R) (k : nat) : R :=
  exp (- (r / 1000 * neper alpha * omega L dt k / (2 * PI))).
Definition green_ph (L : nat) (dt alpha r : R) (it : Z) (k : nat) : R :=
  - (omega L dt k * (r / 1000) * neper alpha / PI^2 * ln (1 / (95 / 100 * (dt / 1000000) / PI * omega L dt k)))
  - IZR it * (dt / 1000000) * omega L dt k.
Definition green_re (L : nat) (dt alpha r : R) (it : Z) (k : nat) : R :=
  match k with O => 1 | _ => green_mag L dt alpha r k * cos (green_ph L dt alpha r it k) end.
Definition green_im (L : nat) (dt alpha r : R) (it : Z) (k : nat) : R :=
  match k with O => 0 | _ => green_mag L dt alpha r k * sin (green_ph L dt alpha r it k) end.
(** Sample n of the response of a unit source. *)
Definition green (L : nat) (dt alpha r : R) (it : Z) (n : nat) : R :=
  idft L (green_re L dt alpha r it) (green_im L dt alpha r it) n / INR L.

(** The source point arrives inside the record of ntz samples. *)
Definition inside (q : rpar) (ntz : Z) (delay : R) (o : pos) (s : source) : bool :=
  ((0 <=? arrives_at q delay o s) && (arrives_at q delay o s <? ntz))%Z.

(** Sample k of the attenuated response. *)
Definition attenuated_sum (q : rpar) (ntz : Z) (alpha w delay : R) (o : pos) (src : list source) (k : nat) : R :=
  Rsum (map (fun s => if inside q ntz delay o s
                      then strength q w o s * green (Z.to_nat ntz) (p_dt q) alpha (dist o s) (arrives_at q delay o s) k
                      else 0) src).

(** The attenuation object with exact inverse transform (the normalised c2r of
    the bins 0 .. len/2). *)
Definition exact_att (ntz : Z) (dt alpha : R) : att_plan EN :=
  let L := Z.to_nat ntz in
  @Build_att_plan EN ntz (Some dt) (Some alpha)
    (fun X => map (fun v => e_div v (Some (INR L))) (fp_c2r (dft_plan L (fun X => X)) (firstn (L / 2 + 1) X))).

(** The code's single-point function in a medium with attenuation alpha. *)
Definition sir_att (K : idx_kind) (fuel : nat) (q : rpar) (ntz : Z) (alpha : R) (g : geom) (lvl : ErrorLevel)
  (delay : R) (o : pos) (h : list R) : res (list (option R) * SIRError) :=
  serial K fuel (emb_geom g) (emb_samp q ntz) (Some (exact_att ntz (p_dt q) alpha)) lvl
    (Some (p_x o)) (Some (p_y o)) (Some (p_z o)) (Some delay) 0 (map (@Some R) h).

(** The code's array function in a medium with attenuation alpha. *)
From Verif Require Import SpecArr.
Definition sir_arr_att (K : idx_kind) (fuel : nat) (q : rpar) (ntz : Z) (alpha : R) (g : geom) (A : array) (lvl : ErrorLevel)
  (delay : R) (o : pos) (h : list R) : option (res (list (option R) * SIRError)) :=
  match emb_arr_geom g A with
  | Some T => Some (serial K fuel T (emb_samp q ntz) (Some (exact_att ntz (p_dt q) alpha)) lvl
      (Some (p_x o)) (Some (p_y o)) (Some (p_z o)) (Some delay) 0 (map (@Some R) h))
  | None => None
  end.

(** Sample k of the attenuated response of an array. *)
Definition attenuated_superposition (q : rpar) (ntz : Z) (alpha : R) (A : array) (g : geom) (delay : R) (o : pos) (k : nat) : R :=
  Rsum (map (fun n => attenuated_sum q ntz alpha (weight A n) (elem_delay q A delay n) (rel o (elem A n)) (sources q g) k)
            (seq 0 (length (ar_pos A)))).
(** Attenuated arrays of rectangles and discs clear the output first, lossless
    ones and arrays of cylinder segments add to it. *)
Definition old_arr (g : geom) (h : list R) (k : nat) : R :=
  match g with GCylind _ _ _ => nth k h 0 | _ => 0 end.
