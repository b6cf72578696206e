(** SpecPhysB.v - arrays: changes of units, travel times, focal points. *)
From Coq Require Import Reals List ZArith.
From Verif Require Import Base ModelSir ModelArr ModelSmp NumR SpecRayleigh SpecArr SpecSmp ModelGw SpecGw SpecGwR SpecPhys SpecPhysA.
Import ListNotations.
Open Scope R_scope.

(** The array in a medium s times as fast: user defined delays s times as
    short. *)
Definition faster_array (s : R) (A : array) : array :=
  {| ar_pos := ar_pos A; ar_focus := match ar_focus A with FUd tau => FUd (map (fun t => t / s) tau) | f => f end;
     ar_steer := ar_steer A; ar_apo := ar_apo A |}.
(** The array s times as large (user defined delays s times as long). *)
Definition scale_array (s : R) (A : array) : array :=
  {| ar_pos := map (scale_pos s) (ar_pos A);
     ar_focus := match ar_focus A with
                 | FNone => FNone | FX F => FX (s * F) | FY F => FY (s * F) | FXY F => FXY (s * F)
                 | FXplusY F => FXplusY (s * F) | FUd tau => FUd (map (Rmult s) tau)
                 end;
     ar_steer := ar_steer A; ar_apo := ar_apo A |}.

(** Time (us) from the excitation to the arrival at o of the wave from the
    surface point p (relative to the centre) of element i. *)
Definition array_time (cp : R) (g : geom) (A : array) (o : pos) (i : nat) (p : pos) : R :=
  travel_time cp g (rel o (elem A i)) p + focus_delay cp A i + steer_delay cp A i.
Definition array_times_within (cp : R) (g : geom) (A : array) (o : pos) (lo hi : R) : Prop :=
  forall i p, (i < length (ar_pos A))%nat -> on_surface g p -> lo <= array_time cp g A o i p <= hi.
Definition array_inside (q : rpar) (ntz : Z) (g : geom) (A : array) (delay : R) (o : pos) : Prop :=
  exists lo hi, array_times_within (p_cp q) g A o lo hi /\
    - p_dt q / 2 < lo - delay /\ hi - delay < (IZR ntz - 1 / 2) * p_dt q.

(** No point of an element is more than rho away from its centre. *)
Definition element_radius (g : geom) (rho : R) : Prop :=
  0 <= rho /\ forall p, on_surface g p -> p_x p ^2 + p_y p ^2 + p_z p ^2 <= rho^2.
(** The delays of the array make the waves of all element centres meet at P at
    the time T. *)
Definition focal_point (cp : R) (A : array) (P : pos) (T : R) : Prop :=
  forall i, (i < length (ar_pos A))%nat ->
    1000 * distance P (elem A i) / cp + focus_delay cp A i + steer_delay cp A i = T.
