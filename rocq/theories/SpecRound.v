(** SpecRound.v - doubles as real numbers, and how far a computed sum of
    products may be from the exact one.

    The value of a finite double is +-m * 2^e; [eps] is the spacing of the
    doubles at 1, [tiny] the smallest positive double. *)
From Coq Require Import Floats.
From Coq Require Import Reals List ZArith.
From Verif Require Import Base ModelGw ModelConv SpecDft SpecCgw NumF.
Import ListNotations.
Open Scope R_scope.

Definition val (x : PrimFloat.float) : R :=
  match Prim2SF x with
  | S754_finite s m e => (if s then -1 else 1) * IZR (Zpos m) * powerRZ 2 e
  | _ => 0
  end.
Definition vals (l : list PrimFloat.float) : list R := map val l.
Definition finite (x : PrimFloat.float) : Prop := PrimFloat.is_finite x = true.
Definition eps : R := powerRZ 2 (-52).
Definition tiny : R := powerRZ 2 (-1074).
Definition large : R := powerRZ 2 1022.

(** The sum of the absolute values of the terms of (x * y)[k]. *)
Definition magnitude (x y : list R) (k : nat) : R := cauchy (map Rabs x) (map Rabs y) k.
(** The number of terms is at most the length of the shorter vector. *)
Definition terms (x y : list R) : nat := Nat.min (length x) (length y).

(** The double r stands for v0 (+-) (x * y)[k], up to rounding: at most one
    unit in the last place of the largest partial result for each operation,
    and the smallest double for each product that may underflow. *)
Definition accurate (mode : ConvMode) (v0 : R) (x y : list R) (k : nat) (r : PrimFloat.float) : Prop :=
  finite r /\
  Rabs (val r - combr mode v0 (cauchy x y k)) <=
    (INR (terms x y) + 1) * eps * ((match mode with cm_equ => 0 | _ => Rabs v0 end) + magnitude x y k)
    + INR (terms x y) * tiny.

(** The exact partial results stay well below the largest double (about
    1.8e308), and there are at most 2^50 terms. *)
Definition in_range (mode : ConvMode) (v0 : R) (x y : list R) (k : nat) : Prop :=
  (match mode with cm_equ => 0 | _ => Rabs v0 end) + magnitude x y k <= large /\ INR (terms x y) <= powerRZ 2 50.

(** An m x n matrix of doubles given as an argument. *)
Definition doubles {N : Num} (v : value N) (m n : Z) (d : list N) : Prop :=
  exists st, v = VNum st m n d /\ (st = OneD -> n = 1%Z) /\ Z.of_nat (length d) = (m * n)%Z.
