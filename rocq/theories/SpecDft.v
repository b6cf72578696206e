(** SpecDft.v - finite sums, the Cauchy product, the discrete Fourier
    transform of a real vector (as FFTW's r2c and c2r define it). *)
From Coq Require Import Reals List Arith.
Import ListNotations.
Open Scope R_scope.

Fixpoint rsum (n : nat) (f : nat -> R) : R :=
  match n with O => 0 | S m => rsum m f + f m end.

(** (x * y)[k] = sum_i x[i] y[k-i]. *)
Definition cauchy (x y : list R) (k : nat) : R :=
  rsum (S k) (fun i => nth i x 0 * nth (k - i) y 0).
Definition convolution (x y : list R) : list R :=
  map (cauchy x y) (seq 0 (length x + length y - 1)).

(** The angle 2 pi j / L. *)
Definition ang (L : nat) (j : R) : R := 2 * PI * j / INR L.
(** Bin k of the DFT of x_0 .. x_(L-1): sum_n x_n exp(-2 pi i k n / L). *)
Definition dft_re (L : nat) (x : nat -> R) (k : nat) : R := rsum L (fun n => x n * cos (ang L (INR k * INR n))).
Definition dft_im (L : nat) (x : nat -> R) (k : nat) : R := - rsum L (fun n => x n * sin (ang L (INR k * INR n))).

(** The unnormalised inverse transform of a half spectrum X_0 .. X_(L/2)
    extended by X_(L-k) = conj(X_k): FFTW's c2r. *)
Definition idft (L : nat) (re im : nat -> R) (n : nat) : R :=
  re O
  + rsum ((L - 1) / 2) (fun k => 2 * (re (S k) * cos (ang L (INR (S k) * INR n)) - im (S k) * sin (ang L (INR (S k) * INR n))))
  + (if Nat.even L then re (L / 2)%nat * cos (PI * INR n) else 0).
