(** SpecCgw.v - what copy_p, add_p and the convolution calls promise, in terms
    of matrices. *)
From Coq Require Strings.String.
Import Coq.Strings.String.StringSyntax.
From Coq Require Import Reals List ZArith Bool.
From Verif Require Import Base ModelSir ModelSmp ModelConv NumR SpecDft SpecConv SpecSmp ModelGw SpecGwR ModelCgw.
Import ListNotations.
Local Open Scope string_scope.
Open Scope Z_scope.

(** The documented meaning of the mode strings. *)
Definition documented_mode (s : string) (m : ConvMode) : Prop :=
  (s = "=" /\ m = cm_equ) \/ (s = "+=" /\ m = cm_sum) \/ (s = "-=" /\ m = cm_neg).

(** Where the function exists: Octave and MATLAB have all three, Julia has
    conv_p and fftconv_p, Python has fftconv_p. *)
Definition available (fe : front) (f : cfun) : Prop :=
  fe = Octave \/ fe = Matlab \/ (fe = Julia /\ f <> KOla) \/ (fe = Python /\ f = KFft).

(** An m x n matrix of real numbers, held as a full matrix of doubles. *)
Definition mat (m n : Z) (d : list R) : value EN := VNum Full m n (exact d).
Definition has_size (m n : Z) (d : list R) : Prop := 0 <= m /\ 0 <= n /\ Z.of_nat (length d) = m * n.
(** An index vector [a b], held in any way. *)
Definition pair_of (v : value EN) (a b : Z) : Prop :=
  exists st m n, v = VNum st m n (exact [IZR a; IZR b]) /\ m * n = 2.
Definition fits (z : Z) : Prop := Z.abs z < 2^62.

(** Entry (i,j), counted from 0, of a column major matrix with m rows. *)
Definition entry {A} (d : A) (m : Z) (l : list A) (i j : Z) : A := nth (Z.to_nat (j * m + i)) l d.

(** The value copy_p / add_p leaves for old value v and B's entry b. *)
Definition pvalue (f : pfun) (v b : car EN) : car EN := match f with PCopy => b | PAdd => nadd (n:=EN) v b end.

(** A(r1:r2, k1:k2) is overwritten with (increased by) B(1:r2-r1+1, 1:k2-k1+1);
    every other entry keeps its value. *)
Definition block_done (f : pfun) (AM AN BM r1 r2 k1 k2 : Z) (A B A' : list (car EN)) : Prop :=
  length A' = length A /\
  forall i j, 0 <= i < AM -> 0 <= j < AN ->
    entry (Some 0%R) AM A' i j =
    if ((r1 - 1 <=? i) && (i <? r2) && (k1 - 1 <=? j) && (j <? k2))%bool
    then pvalue f (entry (Some 0%R) AM A i j) (entry (Some 0%R) BM B (i - (r1 - 1)) (j - (k1 - 1)))
    else entry (Some 0%R) AM A i j.

(** An operand of a convolution call: an m x n matrix of real numbers, held in
    any way (Python: a one dimensional array is one column). *)
Definition operand (v : value EN) (m n : Z) (d : list R) : Prop :=
  exists st, v = VNum st m n (exact d) /\ (st = OneD -> n = 1) /\ Z.of_nat (length d) = m * n.

(** B as convolution reads it: a row or a column is one vector used for every
    column of A; otherwise one column for each column of A. *)
Definition b_rows (bm bn : Z) : Z := if ((bm =? 1) || (bn =? 1))%bool then bm * bn else bm.
Definition b_col (bm bn : Z) (b : list R) (n : nat) : list R :=
  if ((bm =? 1) || (bn =? 1))%bool then b else slice (Z.of_nat n * bm) bm b.
Definition a_col (am : Z) (a : list R) (n : nat) : list R := slice (Z.of_nat n * am) am a.
(** Compatible sizes, nothing empty. *)
Definition conformable (am an bm bn : Z) : Prop :=
  1 <= am /\ 1 <= an /\ 1 <= bm /\ 1 <= bn /\ (bm = 1 \/ bn = 1 \/ bn = an).
(** Sample k of column n of the convolution. *)
Definition product (am : Z) (a : list R) (bm bn : Z) (b : list R) (n k : nat) : R :=
  cauchy (a_col am a n) (b_col bm bn b n) k.
(** The documented effect of the modes on the old value. *)
Definition combr (m : ConvMode) (v c : R) : R :=
  match m with cm_equ => c | cm_sum => v + c | cm_neg => v - c end%R.

(** What the machine supplies is proper: FFTW computes exact transforms, and
    the scratch arrays have the sizes that were asked for, contents
    arbitrary. *)
Definition exact_fft (mc : machine EN) (rows : Z) : Prop :=
  (exists trash, (forall X, length (trash X) = length X) /\ mc_plan mc rows = dft_plan (Z.to_nat rows) trash) /\
  (forall n, scratch_ok (N:=EN) rows (mc_scr mc n)).

(** A number, held in any way as a 1 x 1 matrix. *)
Definition number_is (v : value EN) (x : R) : Prop := exists st m n, v = VNum st m n (exact [x]) /\ m * n = 1.
(** The same for the overlap-add calls, which transform blocks: the arrays of
    a worker (scratch, block result, block) have the transform length. *)
Definition exact_fft_ola (mc : machine EN) (len : Z) : Prop :=
  (exists trash, (forall X, length (trash X) = length X) /\ mc_plan mc len = dft_plan (Z.to_nat len) trash) /\
  (forall n, let '(s, y, ab) := mc_loc mc n in
     scratch_ok (N:=EN) len s /\ length y = Z.to_nat len /\ length ab = Z.to_nat len).
