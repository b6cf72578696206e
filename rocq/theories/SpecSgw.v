(** SpecSgw.v - what sum_fftconv promises (its help text,
    extra_src/oct_sum_fftconv.cc 170-186). *)
From Coq Require Import Reals List ZArith Bool.
From Verif Require Import Base NumR SpecDft SpecConv ModelGw SpecGwR ModelCgw SpecCgw ModelSgw.
Import ListNotations.
Open Scope Z_scope.

(** An M x N x L array of real numbers, L <> 1, entries in column major order;
    H(:,n,l) and U(:,l), counted from 0. *)
Definition arr3 (hm hn hl : Z) (h : list R) : harg EN := H3 hm hn hl (exact h).
Definition has_size3 (hm hn hl : Z) (h : list R) : Prop :=
  0 <= hm /\ 0 <= hn /\ 0 <= hl /\ hl <> 1 /\ Z.of_nat (length h) = hm * hn * hl.
Definition response (hm hn : Z) (h : list R) (n l : nat) : list R :=
  firstn (Z.to_nat hm) (skipn ((l * Z.to_nat hn + n) * Z.to_nat hm) h).
Definition signal (um : Z) (u : list R) (l : nat) : list R :=
  firstn (Z.to_nat um) (skipn (l * Z.to_nat um) u).

(** Y = real(ifft(sum over l of fft(H(:,n,l)) .* fft(U(:,l)))) / fft_len:
    the sum of the convolutions divided by fft_len = M+K-1. *)
Definition documented_sum (hm hn hl : Z) (h : list R) (um : Z) (u : list R) (n k : nat) : R :=
  (rsum (Z.to_nat hl) (fun l => cauchy (response hm hn h n l) (signal um u l) k) / IZR (hm + um - 1))%R.
