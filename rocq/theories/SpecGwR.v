(** SpecGwR.v - calls through a front end with exact real arguments. *)
From Coq Require Import Reals List ZArith.
From Verif Require Import Base ModelSir ModelArr ModelSmp NumR SpecRayleigh SpecArr SpecSmp ModelGw SpecGw.
Import ListNotations.
Open Scope R_scope.

Definition exact (l : list R) : list (car EN) := map (@Some R) l.
(** The N x 3 matrix of coordinates, column by column. *)
Definition coords (ps : list pos) : list R := map p_x ps ++ map p_y ps ++ map p_z ps.
Definition origin : pos := {| p_x := 0; p_y := 0; p_z := 0 |}.
Definition start_delay (dty : DelayType) (dl : list R) (n : nat) : R :=
  match dty with delay_single => nth 0 dl 0 | delay_multiple => nth n dl 0 end.

(** Every worker gets enough steps to finish its part, and CTRL-C is not
    pressed. *)
Record runs_to_end (hw : Z) (env : option Z) (No : Z) (sch : list event) : Prop := {
  re_ctrlc : no_ctrlc sch;
  re_fair : forall i, (0 <= i < num_threads hw env No)%Z ->
    (3 * (part_stop i No (num_threads hw env No) - part_start i No (num_threads hw env No)) + 1
     <= steps_of (Z.to_nat i) sch)%Z
}.

(** The returned matrix holds V n k in row k, column n. *)
Definition matrix_is (H : list (car EN)) (rows cols : nat) (V : nat -> nat -> R) : Prop :=
  length H = (rows * cols)%nat /\
  forall n k, (n < cols)%nat -> (k < rows)%nat -> nth_error H (n * rows + k) = Some (Some (V n k)).

(** The array parameters of a call that name the array A: fields the chosen
    methods do not use are irrelevant. *)
Definition names (p : arr_par EN) (A : array) : Prop :=
  num_elements p = Z.of_nat (length (ar_pos A)) /\ G p = exact (coords (ar_pos A)) /\
  match ar_focus A with
  | FNone => foc_met p = foc_none /\ (1 <= length (focal p))%nat
  | FX F => foc_met p = foc_x /\ nth_error (focal p) 0 = Some (Some F)
  | FY F => foc_met p = foc_y /\ nth_error (focal p) 0 = Some (Some F)
  | FXY F => foc_met p = foc_xy /\ nth_error (focal p) 0 = Some (Some F)
  | FXplusY F => foc_met p = foc_x_y /\ nth_error (focal p) 0 = Some (Some F)
  | FUd tau => foc_met p = foc_ud /\ focal p = exact tau
  end /\
  match ar_steer A with
  | SNone => steer_met p = steer_none
  | SX th => steer_met p = steer_x /\ theta p = Some th
  | SY ph => steer_met p = steer_y /\ phi p = Some ph
  | SXY th ph => steer_met p = steer_xy /\ theta p = Some th /\ phi p = Some ph
  end /\
  match ar_apo A with
  | ANone => do_apod p = false
  | AUd w => do_apod p = true /\ apod_met p = apod_ud /\ apod p = exact w
  | ATriangle => do_apod p = true /\ apod_met p = apod_triangle
  | AGauss x => do_apod p = true /\ apod_met p = apod_gauss /\ apod_par p = Some x
  | ARaised x => do_apod p = true /\ apod_met p = apod_raised /\ apod_par p = Some x
  | AHann => do_apod p = true /\ apod_met p = apod_hann
  | AHamming => do_apod p = true /\ apod_met p = apod_hamming
  | ASimply => do_apod p = true /\ apod_met p = apod_simply
  | AClamped => do_apod p = true /\ apod_met p = apod_clamped
  end.
Definition array_of (g : geom) (p : arr_par EN) : option (transducer EN) :=
  match g with
  | GRect a b => Some (@TArrRect EN (Some a) (Some b) p)
  | GCirc r => Some (@TArrCirc EN (Some r) p)
  | GCylind a b Rc => Some (@TArrCylind EN (Some a) (Some b) (Some Rc) p)
  | _ => None
  end.
