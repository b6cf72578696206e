(** SpecAnnuR.v - annular arrays over the reals: rings, focusing delays,
    weights and the superposition of the ring responses. *)
From Coq Require Import Reals List ZArith.
From Verif Require Import Base ModelSir ModelArr NumR SpecRayleigh SpecArr.
Import ListNotations.
Open Scope R_scope.

(** Focusing: none, focal distance, or one user defined delay (us) per ring. *)
Inductive ring_focus := RNone | RFocus (F : R) | RUd (tau : list R).
(** The radii: centre disc, then inner and outer radius of every ring. *)
Record annular := { an_radii : list R; an_F : ring_focus; an_W : apo }.

Definition num_rings (A : annular) : nat := ((length (an_radii A) + 1) / 2)%nat.
(** The radius that stands for ring j: half way between its edges. *)
Definition ring_mid (A : annular) (j : nat) : R :=
  match j with O => 0 | _ => (nth (2 * j) (an_radii A) 0 + nth (2 * j - 1) (an_radii A) 0) / 2 end.
Definition ring_max (A : annular) : R := ring_mid A (num_rings A - 1).

(** Ring j ahead of the outermost ring, in us. *)
Definition ring_tau (cp : R) (A : annular) (j : nat) : R :=
  match an_F A with
  | RNone => 0
  | RFocus F => 1000 / cp * (sqrt (ring_max A ^2 + F^2) - sqrt (ring_mid A j ^2 + F^2))
  | RUd tau => nth j tau 0
  end.
Definition ring_w (A : annular) (j : nat) : R := window (an_W A) j (ring_mid A j / ring_max A).

(** Sample k of the response of disc n (a centre disc of no size is silent),
    and of ring j: outer disc minus inner disc. *)
Definition silent (A : annular) (n : nat) : Prop := n = O /\ nth 0 (an_radii A) 0 <= / 2 ^ 52.
Definition disc_sir (q : rpar) (A : annular) (delay : R) (o : pos) (n : nat) (k : Z) : R :=
  if (Nat.eqb n 0 && Rleb (nth 0 (an_radii A) 0) (/ 2 ^ 52))%bool then 0
  else rayleigh q 1 delay o (sources q (GCirc (nth n (an_radii A) 0))) k.
Definition ring_sir (q : rpar) (A : annular) (delay : R) (o : pos) (j : nat) (k : Z) : R :=
  match j with
  | O => disc_sir q A delay o O k
  | _ => disc_sir q A delay o (2 * j) k - disc_sir q A delay o (2 * j - 1) k
  end.

(** The rings moved by their delays, to the nearest sample, [late] samples too
    late, weighted and added. *)
Definition annular_sir (late : Z) (q : rpar) (A : annular) (delay : R) (o : pos) (k : Z) : R :=
  Rsum (map (fun j => let m := (k - (Zrint (ring_tau (p_cp q) A j / p_dt q) + late))%Z in
                      if (0 <=? m)%Z then ring_w A j * ring_sir q A delay o j m else 0)
            (seq 0 (num_rings A))).

(** The parameters of a call that name the annular array A. *)
Definition names_annular (p : annu_par EN) (A : annular) : Prop :=
  Gr p = map (@Some R) (an_radii A) /\
  match an_F A with
  | RNone => an_foc_met p = foc_none /\ (1 <= length (an_focal p))%nat
  | RFocus F => In (an_foc_met p) [foc_x; foc_y; foc_xy; foc_x_y] /\ nth_error (an_focal p) 0 = Some (Some F)
  | RUd tau => an_foc_met p = foc_ud /\ exists rest, an_focal p = map (@Some R) tau ++ rest
  end /\
  match an_W A with
  | ANone => an_do_apod p = false
  | AUd w => an_do_apod p = true /\ an_apod_met p = apod_ud /\ exists rest, an_apod p = map (@Some R) w ++ rest
  | ATriangle => an_do_apod p = true /\ an_apod_met p = apod_triangle
  | AGauss x => an_do_apod p = true /\ an_apod_met p = apod_gauss /\ an_apod_par p = Some x
  | ARaised x => an_do_apod p = true /\ an_apod_met p = apod_raised /\ an_apod_par p = Some x
  | ASimply => an_do_apod p = true /\ an_apod_met p = apod_simply
  | AClamped => an_do_apod p = true /\ an_apod_met p = apod_clamped
  | AHann | AHamming => False
  end.

(** Every expression is defined and no ring fires early. *)
Record annular_ok (q : rpar) (A : annular) : Prop := {
  ak_one : (1 <= length (an_radii A))%nat;
  ak_par : par_ok q;
  ak_pos : forall n, (n < length (an_radii A))%nat -> 0 <= nth n (an_radii A) 0;
  ak_ud : match an_F A with RUd tau => length tau = num_rings A | _ => True end;
  ak_apo : match an_W A with ANone => True | AUd w => length w = num_rings A | _ => ring_max A <> 0 end;
  ak_idx : forall j, (j < num_rings A)%nat -> (0 <= Zrint (ring_tau (p_cp q) A j / p_dt q) < 2^63)%Z
}.
Definition annular_defined (K : idx_kind) (fuel : nat) (q : rpar) (ntz : Z) (A : annular) (delay : R) (o : pos) : Prop :=
  forall n, (n < length (an_radii A))%nat -> ~ silent A n ->
    defined K fuel q ntz (GCirc (nth n (an_radii A) 0)) delay o.
