(** SpecArr.v - arrays over the reals: element positions, focusing and
    steering delays, apodization weights and the superposition of the element
    responses, without loops or buffers. *)
From Coq Require Import Reals List ZArith.
From Verif Require Import Base ModelSir ModelArr NumR SpecRayleigh.
Import ListNotations.
Open Scope R_scope.

(** Focusing of an array: none, along x, along y, xy, x+y (focal distance) or
    one user defined delay per element. *)
Inductive focus := FNone | FX (F : R) | FY (F : R) | FXY (F : R) | FXplusY (F : R) | FUd (tau : list R).
(** Steering angles in degrees. *)
Inductive steer := SNone | SX (theta : R) | SY (phi : R) | SXY (theta phi : R).
(** Apodization windows. *)
Inductive apo :=
| ANone | AUd (w : list R) | ATriangle | AGauss (p : R) | ARaised (p : R) | AHann | AHamming | ASimply | AClamped.

Record array := { ar_pos : list pos; ar_focus : focus; ar_steer : steer; ar_apo : apo }.

(** Half extent of the array in x and in y, and the half diagonal. *)
Definition maxabs (l : list R) : R := fold_right Rmax 0 (map Rabs l).
Definition extx (A : array) : R := maxabs (map p_x (ar_pos A)).
Definition exty (A : array) : R := maxabs (map p_y (ar_pos A)).
Definition extr (A : array) : R := sqrt (extx A ^2 + exty A ^2).

Definition elem (A : array) (n : nat) : pos := nth n (ar_pos A) {| p_x := 0; p_y := 0; p_z := 0 |}.

(** Focusing delay of element n in us: travel time difference to the focus. *)
Definition focus_delay (cp : R) (A : array) (n : nat) : R :=
  let x := p_x (elem A n) in
  let y := p_y (elem A n) in
  match ar_focus A with
  | FNone => 0
  | FX F => 1000 / cp * (sqrt (extx A ^2 + F^2) - sqrt (x^2 + F^2))
  | FY F => 1000 / cp * (sqrt (exty A ^2 + F^2) - sqrt (y^2 + F^2))
  | FXY F => 1000 / cp * (sqrt (extr A ^2 + F^2) - sqrt (x^2 + y^2 + F^2))
  | FXplusY F => 1000 / cp * (sqrt (extr A ^2 + F^2) - (sqrt (x^2 + F^2) + sqrt (y^2 + F^2)))
  | FUd tau => nth n tau 0
  end.

Definition rad (deg : R) : R := deg * (PI / 180).
Definition steer_delay (cp : R) (A : array) (n : nat) : R :=
  let dx := 1000 / cp * (extx A + p_x (elem A n)) in
  let dy := 1000 / cp * (exty A + p_y (elem A n)) in
  match ar_steer A with
  | SNone => 0
  | SX th => dx * sin (rad th)
  | SY ph => dy * sin (rad ph)
  | SXY th ph => dx * sin (rad th) + dy * sin (rad ph)
  end.

(** Weight as a function of the distance to the array axis relative to the
    half diagonal. *)
Definition rel_radius (A : array) (n : nat) : R :=
  sqrt (p_x (elem A n) ^2 + p_y (elem A n) ^2) / extr A.
Definition window (w : apo) (n : nat) (rho : R) : R :=
  match w with
  | ANone => 1
  | AUd w => nth n w 0
  | ATriangle => 1 - rho
  | AGauss p => exp (- (p * rho^2))
  | ARaised p => p + cos (PI * rho)
  | AHann => (1 + cos (PI * rho)) / 2
  | AHamming => 25 / 46 + 21 / 46 * cos (PI * rho)
  | ASimply => 1 - rho^2
  | AClamped => (1 - rho^2)^2
  end.
Definition weight (A : array) (n : nat) : R := window (ar_apo A) n (rel_radius A n).

(** The response: superposition of the weighted, delayed element responses,
    each seen from the observation point relative to the element. *)
Definition rel (o g : pos) : pos := {| p_x := p_x o - p_x g; p_y := p_y o - p_y g; p_z := p_z o - p_z g |}.
Definition elem_delay (q : rpar) (A : array) (delay : R) (n : nat) : R :=
  delay - focus_delay (p_cp q) A n - steer_delay (p_cp q) A n.
Definition superposition (q : rpar) (A : array) (g : geom) (delay : R) (o : pos) (k : Z) : R :=
  Rsum (map (fun n => rayleigh q (weight A n) (elem_delay q A delay n) (rel o (elem A n)) (sources q g) k)
            (seq 0 (length (ar_pos A)))).

(** ** The interface to the model *)
Definition emb_arr (A : array) : arr_par EN :=
  let P := ar_pos A in
  @Build_arr_par EN (Z.of_nat (length P))
    (map (@Some R) (map p_x P ++ map p_y P ++ map p_z P))
    (match ar_focus A with FNone => foc_none | FX _ => foc_x | FY _ => foc_y | FXY _ => foc_xy
                         | FXplusY _ => foc_x_y | FUd _ => foc_ud end)
    (match ar_focus A with FNone => [Some 0] | FX F | FY F | FXY F | FXplusY F => [Some F]
                         | FUd tau => map (@Some R) tau end)
    (match ar_steer A with SNone => steer_none | SX _ => steer_x | SY _ => steer_y | SXY _ _ => steer_xy end)
    (Some (match ar_steer A with SX th | SXY th _ => th | _ => 0 end))
    (Some (match ar_steer A with SY ph | SXY _ ph => ph | _ => 0 end))
    (match ar_apo A with ANone => false | _ => true end)
    (match ar_apo A with ANone | AUd _ => apod_ud | ATriangle => apod_triangle | AGauss _ => apod_gauss
                       | ARaised _ => apod_raised | AHann => apod_hann | AHamming => apod_hamming
                       | ASimply => apod_simply | AClamped => apod_clamped end)
    (match ar_apo A with AUd w => map (@Some R) w | _ => [] end)
    (Some (match ar_apo A with AGauss p | ARaised p => p | _ => 0 end)).

(** The array transducer with elements of shape g. *)
Definition emb_arr_geom (g : geom) (A : array) : option (transducer EN) :=
  match g with
  | GRect a b => Some (@TArrRect EN (Some a) (Some b) (emb_arr A))
  | GCirc r => Some (@TArrCirc EN (Some r) (emb_arr A))
  | GCylind a b Rc => Some (@TArrCylind EN (Some a) (Some b) (Some Rc) (emb_arr A))
  | _ => None
  end.

(** The code's array function on exact arguments. *)
Definition sir_arr (K : idx_kind) (fuel : nat) (q : rpar) (ntz : Z) (g : geom) (A : array) (lvl : ErrorLevel)
  (delay : R) (o : pos) (h : list R) : option (res (list (option R) * SIRError)) :=
  match emb_arr_geom g A with
  | Some T => Some (serial K fuel T (emb_samp q ntz) None lvl
      (Some (p_x o)) (Some (p_y o)) (Some (p_z o)) (Some delay) 0 (map (@Some R) h))
  | None => None
  end.

(** The focusing delay, steering delay and weight the code uses for element n. *)
Definition code_delays (cp : R) (A : array) (n : nat) : res (option R * option R * option R) :=
  match max_dim_arr (N:=EN) (emb_arr A) with
  | Ok (X, Y, RR) => elem_delays (N:=EN) (emb_arr A) (Some cp) X Y RR (Z.of_nat n)
  | UB u => UB u
  | Diverge => Diverge
  end.

(** Arrays whose parameters are complete: at least one element, one user delay
    and weight per element, and (for a radial window) not all elements on the
    axis. *)
Record array_ok (A : array) : Prop := {
  ao_one : (0 < length (ar_pos A))%nat;
  ao_ud : match ar_focus A with FUd tau => length tau = length (ar_pos A) | _ => True end;
  ao_apo : match ar_apo A with ANone => True | AUd w => length w = length (ar_pos A) | _ => extr A <> 0 end
}.

Record arr_defined (K : idx_kind) (fuel : nat) (q : rpar) (ntz : Z) (g : geom) (A : array) (delay : R) (o : pos) : Prop := {
  ad_arr : array_ok A;
  ad_elem : forall n, (n < length (ar_pos A))%nat ->
    defined K fuel q ntz g (elem_delay q A delay n) (rel o (elem A n))
}.
