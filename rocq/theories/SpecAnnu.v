(** SpecAnnu.v - what an annular array computes from the responses of its
    discs; any arithmetic. *)
From Verif Require Import Base ModelSir ModelArr SpecSir.

Section Spec.
  Context {N : Num}.
  Local Open Scope num_scope.

  (** Number of rings for a vector of radii [r0; inner1; outer1; inner2; ...]. *)
  Definition rings (gr : list N) : nat := ((length gr + 1) / 2)%nat.
  (** The radius used for focusing and apodization. *)
  Definition mid_radius (gr : list N) (n : nat) : N :=
    match n with
    | O => #0
    | _ => (nth (2 * n) gr #0 + nth (2 * n - 1) gr #0) / #2
    end.

  (** The response of disc n: dreamcirc of that radius on a cleared buffer; a
      centre disc of radius (almost) zero counts as silent. *)
  Definition disc_response (K : idx_kind) (fuel : nat) (q : samp N) (att : option (att_plan N)) (lvl : ErrorLevel)
    (xo yo zo delay : N) (gr : list N) (n : nat) (d : list N) : Prop :=
    if (Nat.eqb n 0 && (nth n gr #0 <=? neps))%bool then d = zeros (nt q)
    else exists e, serial K fuel (TCirc (nth n gr #0)) q att lvl xo yo zo delay 0 (zeros (nt q)) = Ok (d, e) /\ e <> err_oob.

  (** Ring n: outer disc minus inner disc. *)
  Definition ring (D : nat -> list N) (n k : nat) : N :=
    match n with
    | O => nth k (D O) #0
    | _ => nth k (D (2 * n)%nat) #0 - nth k (D (2 * n - 1)%nat) #0
    end.
  (** ... moved s samples towards later times. *)
  Definition moved (D : nat -> list N) (s n k : nat) : N := if (s <=? k)%nat then ring D n (k - s) else #0.

  (** The focusing delay (us) and the weight of ring n. *)
  Definition ring_delay (q : samp N) (p : annu_par N) (n : nat) : N :=
    focusing_annular (an_foc_met p) (nth (if FocusMet_is_ud (an_foc_met p) then n else O) (an_focal p) #0)
      (mid_radius (Gr p) n) (mid_radius (Gr p) (rings (Gr p) - 1)) (cp q).
  Definition ring_weight (p : annu_par N) (n : nat) (w : N) : Prop :=
    (if an_do_apod p then apodization_annular (an_apod_met p) (Z.of_nat n) (an_apod p) (mid_radius (Gr p) n)
                            (mid_radius (Gr p) (rings (Gr p) - 1)) (an_apod_par p)
     else Ok #1) = Ok w.
End Spec.
