(** SpecRoundDas.v - delay-and-sum images in double precision. *)
From Coq Require Import Floats.
From Coq Require Import Reals List ZArith.
From Verif Require Import Base ModelSir ModelDas NumR NumF SpecDft SpecDas SpecRound SpecRoundSir.
Import ListNotations.
Open Scope R_scope.

Section Das.
  Context (fsin fcos fatan fasin facos fexp flog : PrimFloat.float -> PrimFloat.float).
  Local Notation F := (FN fsin fcos fatan fasin facos fexp flog).

  (** The job with the doubles read as exact numbers. *)
  Definition val_das (J : das_job F) : rjob := {|
    q_type := d_type J; q_len := Z.to_nat (d_len J); q_No := Z.to_nat (d_No J);
    q_nt := Z.to_nat (d_num_t J); q_nr := Z.to_nat (d_num_r J);
    q_Y := vals (d_Y J); q_Ro := vals (d_Ro J); q_Gt := vals (d_Gt J); q_Gr := vals (d_Gr J);
    q_dt := val (d_dt J); q_dty := d_delay_type J; q_delay := vals (d_delay J); q_cp := val (d_cp J); q_lvl := d_lvl J |}.

  (** Sizes are sizes; finite data; positions, delays, sampling period and sound
      speed of ordinary size (at most 2^100, about 1.3e30). *)
  Record ordinary_das (J : das_job F) : Prop := {
    od_sizes : (0 <= d_len J /\ 0 <= d_No J /\ 0 <= d_num_t J /\ 0 <= d_num_r J)%Z;
    od_Y : Forall finite (d_Y J);
    od_Ro : Forall ordinary (d_Ro J); od_Gt : Forall ordinary (d_Gt J); od_Gr : Forall ordinary (d_Gr J);
    od_delay : Forall ordinary (d_delay J); od_dt : ordinary_pos (d_dt J); od_cp : ordinary_pos (d_cp J) }.
End Das.

(** Two-way travel time in samples. *)
Definition pair_time (dt cp delay a b : R) : R := 1000 * (travel_ms cp a + travel_ms cp b + delay / 1000) / dt.
(** The image point is not in the elements, and the travel time is not so
    close to a sampling instant that rounding could move it across: 8 eps
    relative to the sum of the times. *)
Definition safe_pair (dt cp delay a b : R) : Prop :=
  powerRZ 2 (-100) <= a /\ powerRZ 2 (-100) <= b /\
  forall z : Z, 8 * eps * pair_time dt cp (Rabs delay) a b < Rabs (pair_time dt cp delay a b - IZR z).

(** r is a double within n units in the last place of A of the image value v;
    A will be the image of the absolute values of the data. *)
Definition near_image (n : nat) (A v : R) (r : PrimFloat.float) : Prop :=
  finite r /\ Rabs (val r - v) <= INR n * eps * A.
(** No overflow: the image of the absolute values stays below 2^1022; at most
    2^50 A-scans. *)
Definition image_range (n : nat) (A : R) : Prop := A <= large /\ INR n <= powerRZ 2 50.
