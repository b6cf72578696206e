(** SpecAtt2.v - calls in an absorbing medium with an exact inverse transform,
    and the spectrum of a response. *)
From Coq Require Import Reals List ZArith.
From Verif Require Import Base ModelSir ModelArr ModelConv NumR SpecDft SpecRayleigh SpecConv SpecArr SpecGwR SpecAtt.
Import ListNotations.
Open Scope R_scope.

(** The inverse FFT of the library with exact arithmetic: X_0 .. X_(L-1) to
    x_n = 1/L sum_k X_k exp(2 pi i k n / L), as FFTW's c2r computes it. *)
Definition exact_ifft (X : list (EN * EN)) : list EN :=
  let L := length X in
  map (fun v => e_div v (Some (INR L))) (fp_c2r (dft_plan L (fun X => X)) (firstn (L / 2 + 1) X)).

(** Frequency of bin k in Hz. *)
Definition frequency (L : nat) (dt : R) (k : nat) : R := INR k / (INR L * (dt / 1000000)).
(** A wave of frequency f (Hz) over r (mm) in a medium of alpha dB/(cm MHz):
    what is left of it (8.686 = 20 / ln 10). *)
Definition damping (alpha f r : R) : R := exp (- (alpha / 86860 * f * (r / 1000))).

(** Magnitude of the spectrum at bin k, squared. *)
Definition power (L : nat) (x : nat -> R) (k : nat) : R := (dft_re L x k)^2 + (dft_im L x k)^2.

(** A documented call through a front end in a medium of absorption alpha (above
    2^-52 dB/(cm MHz): the code treats less as none). *)
From Verif Require Import ModelSmp SpecSmp ModelGw SpecGw.
Record absorbing_call (fe : front) (f : func) (nlhs hw : Z) (env : option Z) (sch : list event)
  (args : list (value EN)) (alpha : R) (g : geom) (q : rpar) (ntz : Z) (ps : list pos) (dty : DelayType) (dl : list R) : Prop := {
  ab_doc : exists l, (l = lvl_ignore \/ l = lvl_warn) /\
    documented fe f args (emb_geom g) (emb_samp q ntz) (Some alpha : EN) l (Z.of_nat (length ps)) (exact (coords ps)) dty (exact dl);
  ab_lhs : (0 <= nlhs <= 2)%Z; ab_nt : (0 < ntz)%Z; ab_hw : (0 <= hw)%Z; ab_alpha : / 2^52 < alpha;
  ab_sch : runs_to_end hw env (Z.of_nat (length ps)) sch }.
Record absorbing_array_call (fe : front) (f : func) (nlhs hw : Z) (env : option Z) (sch : list event)
  (args : list (value EN)) (alpha : R) (g : geom) (A : array) (q : rpar) (ntz : Z) (ps : list pos) (dty : DelayType) (dl : list R) : Prop := {
  aa_doc : exists l p T, (l = lvl_ignore \/ l = lvl_warn) /\ array_of g p = Some T /\ names p A /\
    documented fe f args T (emb_samp q ntz) (Some alpha : EN) l (Z.of_nat (length ps)) (exact (coords ps)) dty (exact dl);
  aa_lhs : (0 <= nlhs <= 2)%Z; aa_nt : (0 < ntz)%Z; aa_hw : (0 <= hw)%Z; aa_alpha : / 2^52 < alpha;
  aa_sch : runs_to_end hw env (Z.of_nat (length ps)) sch }.

(** The source points whose waves arrive inside the record. *)
Definition heard_sources (q : rpar) (ntz : Z) (delay : R) (o : pos) (src : list source) : list source :=
  filter (inside q ntz delay o) src.
