(** SpecAttSig.v - a transducer in an absorbing medium driven by a sampled
    signal: a call that computes responses, then conv_p or fftconv_p. *)
From Coq Require Import Reals List ZArith.
From Verif Require Import Base ModelSir ModelArr ModelSmp ModelConv NumR SpecDft SpecRayleigh SpecConv SpecArr SpecSmp
  ModelGw SpecGw SpecGwR SpecAtt SpecAtt2 ModelCgw SpecCgw.
Import ListNotations.
Open Scope R_scope.

(** The second call, conv_p or fftconv_p, in a front end that has it, with exact
    transforms, not interrupted, with N columns. *)
Record convolving_call (mc : machine EN) (fe : front) (kf : cfun) (ntz : Z) (N : nat) (x : list R) : Prop := {
  cc_av : available fe kf; cc_fun : kf <> KOla; cc_hw : (0 <= mc_hw mc)%Z;
  cc_sig : (1 <= length x)%nat; cc_len : (1 <= ntz)%Z; cc_pts : (1 <= N)%nat;
  cc_fft : kf = KFft -> exact_fft mc (ntz + Z.of_nat (length x) - 1);
  cc_sch : runs_to_end (mc_hw mc) (mc_env mc) (Z.of_nat N) (mc_sch mc);
  cc_oct : fe = Octave -> ~ (ntz + Z.of_nat (length x) - 1 = 1 /\ Z.of_nat N = 1)%Z }.

(** [r] is the result of the first call; the second call gets its matrix and
    the column x, and returns the matrix W. *)
Definition signal (r : res (option (outcome EN))) (mc : machine EN) (fe : front) (kf : cfun) (ntz : Z) (N : nat) (x : list R)
  (W : nat -> nat -> R) : Prop :=
  exists H w e Y, r = Ok (Some (Returned H ntz (Z.of_nat N) w e)) /\
    conv_gateway mc fe kf 1 [VNum Full ntz (Z.of_nat N) H; mat (Z.of_nat (length x)) 1 x] =
      Ok (Some (CReturned (ntz + Z.of_nat (length x) - 1) (Z.of_nat N) Y)) /\
    matrix_is Y (Z.to_nat (ntz + Z.of_nat (length x) - 1)) N W.

(** Sample k of the signal x after r mm in the medium, arriving at sample it. *)
Definition after_medium (L : nat) (dt alpha r : R) (it : Z) (x : list R) (k : nat) : R :=
  cauchy (map (green L dt alpha r it) (seq 0 L)) x k.
(** The signal of the source points src, weighted w. *)
Definition heard_signal (q : rpar) (ntz : Z) (alpha w delay : R) (o : pos) (src : list source) (x : list R) (k : nat) : R :=
  Rsum (map (fun s => strength q w o s * after_medium (Z.to_nat ntz) (p_dt q) alpha (dist o s) (arrives_at q delay o s) x k)
            (heard_sources q ntz delay o src)).
(** The signal of an array. *)
Definition array_signal (q : rpar) (ntz : Z) (alpha : R) (A : array) (g : geom) (delay : R) (o : pos) (x : list R) (k : nat) : R :=
  Rsum (map (fun n => heard_signal q ntz alpha (weight A n) (elem_delay q A delay n) (rel o (elem A n)) (sources q g) x k)
            (seq 0 (length (ar_pos A)))).
