(** SpecConv.v - what convolution means: slices of flat arrays, the Cauchy
    product, the exact DFT as an FFT plan. *)
From Coq Require Import Reals List ZArith Arith Bool.
From Verif Require Import Base ModelSmp ModelConv NumR SpecDft SpecSmp.
Import ListNotations.

(** len elements from offset off; column n of a column major matrix. *)
Definition slice {A} (off len : Z) (l : list A) : list A := firstn (Z.to_nat len) (skipn (Z.to_nat off) l).

Section Any.
  Context {N : Num}.
  (** '=' replaces, '+=' adds, '-=' subtracts. *)
  Definition comb (mode : ConvMode) (v c : N) : N :=
    match mode with cm_equ => c | cm_sum => nadd v c | cm_neg => nsub v c end.

  (** The Cauchy product as the code accumulates it: starting from v0 the
      products x[i] * y[k-i] are added (or subtracted) in the order of i. *)
  Definition cauchy_from (op : N -> N -> N) (x y : list N) (k : nat) (v0 : N) : N :=
    fold_left (fun acc i => op acc (nmul (nth i x (nofZ 0)) (nth (k - i) y (nofZ 0))))
      (filter (fun i => (i <=? k) && (k - i <? length y))%nat (seq 0 (length x))) v0.
  Definition conv_sample (mode : ConvMode) (x y : list N) (v : N) (k : nat) : N :=
    match mode with
    | cm_equ => cauchy_from nadd x y k (nofZ 0)
    | cm_sum => cauchy_from nadd x y k v
    | cm_neg => cauchy_from nsub x y k v
    end.

  (** Sizes the FFT library guarantees. *)
  Record plan_ok (p : fft_plan N) : Prop := {
    po_len : (1 <= fp_len p)%Z;
    po_r2c : forall x, length x = Z.to_nat (fp_len p) -> length (fp_r2c p x) = half p;
    po_c2r : forall X, length X = half p -> length (fp_c2r p X) = Z.to_nat (fp_len p);
    po_trash : forall X, length (fp_trash p X) = length X
  }.
  (** Every scratch array has the transform length; the contents are
      arbitrary. *)
  Definition scratch_ok (len : Z) (s : scratch N) : Prop :=
    length (s_a s) = Z.to_nat len /\ length (s_b s) = Z.to_nat len /\ length (s_c s) = Z.to_nat len /\
    length (s_af s) = Z.to_nat len /\ length (s_bf s) = Z.to_nat len /\ length (s_cf s) = Z.to_nat len.

  Definition pad (len : Z) (x : list N) : list N := x ++ repeat (nofZ 0) (Z.to_nat len - length x).
  (** Transform both vectors, multiply bin by bin, transform back. *)
  Definition fft_product (p : fft_plan N) (x y : list N) : list N :=
    map (fun v => ndiv v (nofZ (fp_len p)))
      (fp_c2r p (map (fun uv => cmul (fst uv) (snd uv))
                     (combine (fp_r2c p (pad (fp_len p) x)) (fp_r2c p (pad (fp_len p) y))))).

  (** Column n of A; column n of B, or B itself when B is a vector. *)
  Definition colA (M : mats N) (n : Z) : list N := slice (n * m_AM M) (m_AM M) (m_A M).
  Definition colB (M : mats N) (n : Z) : list N :=
    if (m_BN M =? 1)%Z then slice 0 (m_BM M) (m_B M) else slice (n * m_BM M) (m_BM M) (m_B M).
  (** The matrices as the gateway received them (A: AM x AN, B: bm x bn). *)
  Definition given (A : list N) (AM AN : Z) (B : list N) (bm bn : Z) : Prop :=
    (1 <= AM /\ 0 <= AN /\ Z.of_nat (length A) = AM * AN /\ 1 <= bm /\ 1 <= bn /\ Z.of_nat (length B) = bm * bn)%Z.

  (** The call [c] on No columns of length len returns without bad access for
      the schedule sch; it has finished if every worker got its share of
      steps; without CTRL-C it is not aborted; a call that was not aborted has
      applied F to every element; in an aborted call each column is untouched
      or complete. *)
  Definition every_column (len No nthreads : Z) (sch : list event) (Y0 : list N) (F : Z -> nat -> N -> N)
    (c : res (option (list N * bool))) : Prop :=
    exists r, c = Ok r /\
      ((forall i, (0 <= i < nthreads)%Z ->
         (3 * (part_stop i No nthreads - part_start i No nthreads) + 1 <= steps_of (Z.to_nat i) sch)%Z) -> r <> None) /\
      forall Y' running, r = Some (Y', running) ->
        length Y' = length Y0 /\
        (no_ctrlc sch -> running = true) /\
        (running = true -> forall n k, (0 <= n < No)%Z -> (k < Z.to_nat len)%nat ->
           nth (Z.to_nat (n * len) + k) Y' (nofZ 0) = F n k (nth (Z.to_nat (n * len) + k) Y0 (nofZ 0))) /\
        (forall n, (0 <= n < No)%Z ->
           (forall k, (k < Z.to_nat len)%nat -> nth (Z.to_nat (n * len) + k) Y' (nofZ 0) = nth (Z.to_nat (n * len) + k) Y0 (nofZ 0)) \/
           (forall k, (k < Z.to_nat len)%nat -> nth (Z.to_nat (n * len) + k) Y' (nofZ 0) = F n k (nth (Z.to_nat (n * len) + k) Y0 (nofZ 0)))).
End Any.

(** Exact arithmetic: a vector of real numbers. *)
Definition reals (l : list R) : list EN := map (@Some R) l.
Fixpoint all_some (l : list (option R)) : option (list R) :=
  match l with
  | [] => Some []
  | Some a :: t => match all_some t with Some v => Some (a :: v) | None => None end
  | None :: _ => None
  end.

(** The same for matrices of real numbers. *)
Definition rcolA (a : list R) (AM n : Z) : list R := slice (n * AM) AM a.
Definition rcolB (b : list R) (BM BN n : Z) : list R := if (BN =? 1)%Z then slice 0 BM b else slice (n * BM) BM b.

(** The exact transforms of length L; an undefined input makes every output
    undefined, as NaN does. *)
Definition dft_plan (L : nat) (trash : list (EN * EN) -> list (EN * EN)) : fft_plan EN :=
  @Build_fft_plan EN (Z.of_nat L)
    (fun x => match all_some x with
              | Some v => map (fun k => (Some (dft_re L (fun n => nth n v 0%R) k), Some (dft_im L (fun n => nth n v 0%R) k)))
                              (seq 0 (L / 2 + 1))
              | None => repeat (None, None) (L / 2 + 1)
              end)
    (fun X => match all_some (map fst X), all_some (map snd X) with
              | Some re, Some im => map (fun n => Some (idft L (fun k => nth k re 0%R) (fun k => nth k im 0%R) n)) (seq 0 L)
              | _, _ => repeat None L
              end)
    trash.
