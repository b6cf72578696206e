(** SpecRayleigh.v - the discretised Rayleigh integral over the reals.

    This file knows nothing about loops, buffers or error codes: it says where
    the source points of each transducer are, when their contribution arrives
    and how strong it is. *)
From Coq Require Import Reals List ZArith.
From Verif Require Import Base ModelSir ModelArr NumR.
Import ListNotations.
Open Scope R_scope.

(** Number of points x0, x0+d, x0+2d, ... not beyond xmax (d > 0). *)
Definition count (x0 xmax d : R) : nat := Z.to_nat (Zfloor ((xmax - x0) / d) + 1).

(** Midpoint grid of step d on [lo, hi]: lo+d/2, lo+3d/2, ... <= hi. *)
Definition mid (lo d : R) (i : nat) : R := lo + d / 2 + INR i * d.
Definition midpoints (lo hi d : R) : list R := map (mid lo d) (seq 0 (count (lo + d / 2) hi d)).

(** A source point: position, area and focusing delay (us). *)
Record source := { s_x : R; s_y : R; s_z : R; s_ds : R; s_tau : R }.

(** Parameters: steps, sampling period (us), velocity, sound speed. *)
Record rpar := { p_dx : R; p_dy : R; p_dt : R; p_v : R; p_cp : R }.
Record pos := { p_x : R; p_y : R; p_z : R }.

Definition dist (o : pos) (s : source) : R :=
  sqrt ((p_x o - s_x s)^2 + (p_y o - s_y s)^2 + (p_z o - s_z s)^2).

(** Arrival time in samples; sample number; amplitude. *)
Definition arrival (q : rpar) (delay : R) (o : pos) (s : source) : R :=
  (1000 * dist o s / p_cp q - delay + s_tau s) / p_dt q.
Definition arrives_at (q : rpar) (delay : R) (o : pos) (s : source) : Z := Zrint (arrival q delay o s).
Definition strength (q : rpar) (w : R) (o : pos) (s : source) : R :=
  1000 * w * p_v q * s_ds s / (2 * PI * dist o s * p_dt q).

Definition Rsum (l : list R) : R := fold_right Rplus 0 l.

(** Sample k of the discretised Rayleigh integral with weight w. *)
Definition rayleigh (q : rpar) (w delay : R) (o : pos) (src : list source) (k : Z) : R :=
  Rsum (map (fun s => if Z.eqb (arrives_at q delay o s) k then strength q w o s else 0) src).

(** The single-element transducers and their geometry. *)
Inductive geom :=
| GRect (a b : R)
| GRectF (a b : R) (f : FocusMet) (F : R)
| GCirc (rad : R)
| GCircF (rad : R) (f : FocusMet) (F : R)
| GLine (a : R)
| GSphere (rad Rcurv : R)
| GCylind (a b Rcurv : R).

(** Focusing delay at (x,y) for focal distance F; the constants make the
    delay relative to a point at (X,Y). *)
Definition focus_tau (cp : R) (f : FocusMet) (F X Y RR x y : R) : R :=
  1000 / cp *
  match f with
  | foc_x => sqrt (X^2 + F^2) - sqrt (x^2 + F^2)
  | foc_y => sqrt (Y^2 + F^2) - sqrt (y^2 + F^2)
  | foc_xy => sqrt (RR + F^2) - sqrt (x^2 + y^2 + F^2)
  | foc_x_y => sqrt (RR + F^2) - (sqrt (x^2 + F^2) + sqrt (y^2 + F^2))
  | _ => 0
  end.

Definition flat (ds x y : R) : source := {| s_x := x; s_y := y; s_z := 0; s_ds := ds; s_tau := 0 |}.

Definition rect_xy (q : rpar) (a b : R) : list (R * R) :=
  flat_map (fun y => map (fun x => (x, y)) (midpoints (- a / 2) (a / 2) (p_dx q)))
           (midpoints (- b / 2) (b / 2) (p_dy q)).
Definition disc_xy (q : rpar) (rad : R) : list (R * R) :=
  flat_map (fun y => map (fun x => (x, y))
                         (midpoints (- sqrt (rad^2 - y^2)) (sqrt (rad^2 - y^2)) (p_dx q)))
           (midpoints (- rad) rad (p_dy q)).

Definition sources (q : rpar) (g : geom) : list source :=
  let ds := p_dx q * p_dy q in
  match g with
  | GRect a b => map (fun '(x, y) => flat ds x y) (rect_xy q a b)
  | GRectF a b f F =>
    map (fun '(x, y) => {| s_x := x; s_y := y; s_z := 0; s_ds := ds;
                           s_tau := focus_tau (p_cp q) f F a b (a^2 + b^2) x y |}) (rect_xy q a b)
  | GCirc rad => map (fun '(x, y) => flat ds x y) (disc_xy q rad)
  | GCircF rad f F =>
    map (fun '(x, y) => {| s_x := x; s_y := y; s_z := 0; s_ds := ds;
                           s_tau := focus_tau (p_cp q) f F rad rad (rad^2) x y |}) (disc_xy q rad)
  | GLine a => map (fun x => flat ds x 0) (midpoints (- a / 2) (a / 2) (p_dx q))
  | GSphere rad Rc =>
    (* concave (towards +z) for Rc >= 0, convex otherwise *)
    let sag x y := Rabs Rc - sqrt (Rc^2 - x^2 - y^2) in
    map (fun '(x, y) => {| s_x := x; s_y := y; s_z := (if Rleb 0 Rc then sag x y else - sag x y);
                           s_ds := ds; s_tau := 0 |}) (disc_xy q rad)
  | GCylind a b Rc =>
    (* arc of half angle asin(b/2/|Rc|), angular step asin(dy/|Rc|) *)
    let half := asin (b / 2 / Rabs Rc) in
    let dphi := asin (p_dy q / Rabs Rc) in
    let sag phi := Rabs Rc * (1 - cos phi) in
    flat_map (fun phi => map (fun x =>
        {| s_x := x; s_y := Rabs Rc * sin phi; s_z := (if Rleb 0 Rc then sag phi else - sag phi);
           s_ds := Rabs Rc * p_dx q * dphi; s_tau := 0 |})
        (midpoints (- a / 2) (a / 2) (p_dx q)))
      (midpoints (- half) half dphi)
  end.

(** Inputs for which every expression in the code is defined. *)
Definition par_ok (q : rpar) : Prop := 0 < p_dx q /\ 0 < p_dy q /\ p_dt q <> 0 /\ p_cp q <> 0.
Definition geom_ok (q : rpar) (g : geom) : Prop :=
  match g with
  | GSphere rad Rc => rad <= Rabs Rc
  | GCylind a b Rc => Rabs (b / 2) < Rabs Rc /\ p_dy q <= Rabs Rc
  | _ => True
  end.
(** The observation point is not on the transducer. *)
Definition off_source (q : rpar) (g : geom) (o : pos) : Prop :=
  forall s, In s (sources q g) -> dist o s <> 0.
(** Every sample number fits in dream_idx_type. *)
Definition idx_ok (K : idx_kind) (q : rpar) (delay : R) (g : geom) (o : pos) : Prop :=
  forall s, In s (sources q g) ->
    match K with
    | SignedIdx => (-2^63 <= arrives_at q delay o s < 2^63)%Z
    | UnsignedIdx => (0 <= arrives_at q delay o s < 2^64)%Z
    end.
(** Upper bound for the number of rows and of points per row. *)
Definition enough (fuel : nat) (q : rpar) (g : geom) : Prop :=
  match g with
  | GRect a b | GRectF a b _ _ =>
    (count (- a / 2 + p_dx q / 2) (a / 2) (p_dx q) <= fuel)%nat /\
    (count (- b / 2 + p_dy q / 2) (b / 2) (p_dy q) <= fuel)%nat
  | GCirc rad | GCircF rad _ _ | GSphere rad _ =>
    (count (- Rabs rad + p_dx q / 2) (Rabs rad) (p_dx q) <= fuel)%nat /\
    (count (- rad + p_dy q / 2) rad (p_dy q) <= fuel)%nat
  | GLine a => (count (- a / 2 + p_dx q / 2) (a / 2) (p_dx q) <= fuel)%nat
  | GCylind a b Rc =>
    (count (- a / 2 + p_dx q / 2) (a / 2) (p_dx q) <= fuel)%nat /\
    (count (- asin (b / 2 / Rabs Rc) + asin (p_dy q / Rabs Rc) / 2) (asin (b / 2 / Rabs Rc))
           (asin (p_dy q / Rabs Rc)) <= fuel)%nat
  end.

(** ** The interface to the model: exact parameters as arguments of the code. *)
Definition emb_samp (q : rpar) (ntz : Z) : samp EN :=
  @Build_samp EN (Some (p_dx q)) (Some (p_dy q)) (Some (p_dt q)) ntz (Some (p_v q)) (Some (p_cp q)).

(** The transducer of the code for a geometry of the specification. *)
Definition emb_geom (g : geom) : transducer EN :=
  match g with
  | GRect a b => @TRect EN (Some a) (Some b)
  | GRectF a b f F => @TRectF EN (Some a) (Some b) f (Some F)
  | GCirc r => @TCirc EN (Some r)
  | GCircF r f F => @TCircF EN (Some r) f (Some F)
  | GLine a => @TLine EN (Some a)
  | GSphere r Rc => @TSphere EN (Some r) (Some Rc)
  | GCylind a b Rc => @TCylind EN (Some a) (Some b) (Some Rc)
  end.


(** The code's single-point function on exact arguments: transducer g,
    observation point o, no attenuation, output buffer h. *)
Definition sir (K : idx_kind) (fuel : nat) (q : rpar) (ntz : Z) (g : geom) (lvl : ErrorLevel)
  (delay : R) (o : pos) (h : list R) : res (list (option R) * SIRError) :=
  serial K fuel (emb_geom g) (emb_samp q ntz) None lvl
    (Some (p_x o)) (Some (p_y o)) (Some (p_z o)) (Some delay) 0 (map (@Some R) h).

(** Arguments for which the response is defined. *)
Record defined (K : idx_kind) (fuel : nat) (q : rpar) (ntz : Z) (g : geom) (delay : R) (o : pos) : Prop := {
  df_par : par_ok q; df_geom : geom_ok q g; df_off : off_source q g o; df_idx : idx_ok K q delay g o;
  df_fuel : enough fuel q g; df_nt : (0 <= ntz)%Z
}.

(** dreamrect, dreamcirc and dreamcylind add to the buffer, the others
    overwrite it. *)
Definition old (g : geom) (h : list R) (k : nat) : R :=
  match g with GRect _ _ | GCirc _ | GCylind _ _ _ => nth k h 0 | _ => 0 end.

(** Mirror images. *)
Definition mirror_x (o : pos) : pos := {| p_x := - p_x o; p_y := p_y o; p_z := p_z o |}.
Definition mirror_y (o : pos) : pos := {| p_x := p_x o; p_y := - p_y o; p_z := p_z o |}.

(** The aperture is a whole number of steps wide in x / in y. *)
Definition whole_x (q : rpar) (g : geom) : Prop :=
  match g with
  | GRect a _ | GRectF a _ _ _ | GLine a | GCylind a _ _ => exists m : nat, a = INR m * p_dx q
  | _ => False
  end.
Definition whole_y (q : rpar) (g : geom) : Prop :=
  match g with
  | GRect _ b | GRectF _ b _ _ => exists m : nat, b = INR m * p_dy q
  | GCirc r | GCircF r _ _ | GSphere r _ => exists m : nat, 2 * r = INR m * p_dy q
  | GLine _ => True
  | GCylind _ b Rc => exists m : nat, 2 * asin (b / 2 / Rabs Rc) = INR m * asin (p_dy q / Rabs Rc)
  end.

(** Multiply the velocity by c. *)
Definition scale_v (c : R) (q : rpar) : rpar :=
  {| p_dx := p_dx q; p_dy := p_dy q; p_dt := p_dt q; p_v := c * p_v q; p_cp := p_cp q |}.
