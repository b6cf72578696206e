(** SpecPhys.v - what a user knows about the physics of a transducer: its
    surface, travel times, changes of units. Nothing here mentions grids of
    source points or samples of a buffer. *)
From Coq Require Import Reals List ZArith.
From Verif Require Import Base ModelSir ModelArr ModelSmp NumR SpecRayleigh SpecArr SpecSmp ModelGw SpecGw SpecGwR.
Import ListNotations.
Open Scope R_scope.

(** The surface of a transducer. The spherical and cylindrical ones are parts
    of the sphere / cylinder of radius |Rc| through the origin with centre
    (0,0,Rc). *)
Definition on_surface (g : geom) (p : pos) : Prop :=
  let x := p_x p in let y := p_y p in let z := p_z p in
  match g with
  | GRect a b | GRectF a b _ _ => Rabs x <= a / 2 /\ Rabs y <= b / 2 /\ z = 0
  | GCirc r | GCircF r _ _ => x^2 + y^2 <= r^2 /\ z = 0
  | GLine a => Rabs x <= a / 2 /\ y = 0 /\ z = 0
  | GSphere r Rc => x^2 + y^2 <= r^2 /\ x^2 + y^2 + (z - Rc)^2 = Rc^2 /\ Rabs z <= Rabs Rc
  | GCylind a b Rc => Rabs x <= a / 2 /\ Rabs y <= b / 2 /\ y^2 + (z - Rc)^2 = Rc^2 /\ Rabs z <= Rabs Rc
  end.
(** The extra delay (us) of a surface point of a focused transducer. *)
Definition lens (cp : R) (g : geom) (p : pos) : R :=
  match g with
  | GRectF a b f F => focus_tau cp f F a b (a^2 + b^2) (p_x p) (p_y p)
  | GCircF r f F => focus_tau cp f F r r (r^2) (p_x p) (p_y p)
  | _ => 0
  end.
Definition distance (o p : pos) : R := sqrt ((p_x o - p_x p)^2 + (p_y o - p_y p)^2 + (p_z o - p_z p)^2).
(** Time (us) from the excitation to the arrival at o of the wave from p. *)
Definition travel_time (cp : R) (g : geom) (o p : pos) : R := 1000 * distance o p / cp + lens cp g p.

(** All travel times from the surface to o are between lo and hi. *)
Definition times_within (cp : R) (g : geom) (o : pos) (lo hi : R) : Prop :=
  forall p, on_surface g p -> lo <= travel_time cp g o p <= hi.

Definition planar (g : geom) : Prop :=
  match g with GRect _ _ | GCirc _ | GLine _ => True | _ => False end.

(** A call with exact arguments, 'ignore' or 'warn', that is let run. *)
Record exact_call (c2r : list (car EN * car EN) -> list (car EN)) (fe : front) (f : func) (nlhs hw : Z) (env : option Z) (sch : list event)
  (args : list (value EN)) (g : geom) (q : rpar) (ntz : Z) (ps : list pos) (dty : DelayType) (dl : list R) : Prop := {
  xc_doc : exists l, (l = lvl_ignore \/ l = lvl_warn) /\
    documented fe f args (emb_geom g) (emb_samp q ntz) (Some 0 : EN) l (Z.of_nat (length ps)) (exact (coords ps)) dty (exact dl);
  xc_lhs : (0 <= nlhs <= 2)%Z; xc_nt : (0 <= ntz)%Z; xc_hw : (0 <= hw)%Z; xc_c2r : keeps_length c2r;
  xc_sch : runs_to_end hw env (Z.of_nat (length ps)) sch }.
(** ... for which every response is defined. *)
Definition all_defined (fe : front) (fuel : nat) (q : rpar) (ntz : Z) (g : geom) (ps : list pos) (dty : DelayType) (dl : list R) : Prop :=
  forall n, (n < length ps)%nat -> defined (idx_of fe) fuel q ntz g (start_delay dty dl n) (nth n ps origin).

(** The caller got the ntz x No matrix V. *)
Definition returns (r : res (option (outcome EN))) (ntz : Z) (No : nat) (V : nat -> nat -> R) : Prop :=
  exists H w e, r = Ok (Some (Returned H ntz (Z.of_nat No) w e)) /\ matrix_is H (Z.to_nat ntz) No V.

(** Change of the unit of length by s (times change with it, so that the sound
    speed stays the same). *)
Definition scale_pos (s : R) (o : pos) : pos := {| p_x := s * p_x o; p_y := s * p_y o; p_z := s * p_z o |}.
Definition scale_geom (s : R) (g : geom) : geom :=
  match g with
  | GRect a b => GRect (s * a) (s * b)
  | GRectF a b f F => GRectF (s * a) (s * b) f (s * F)
  | GCirc r => GCirc (s * r)
  | GCircF r f F => GCircF (s * r) f (s * F)
  | GLine a => GLine (s * a)
  | GSphere r Rc => GSphere (s * r) (s * Rc)
  | GCylind a b Rc => GCylind (s * a) (s * b) (s * Rc)
  end.
Definition scale_par (s : R) (q : rpar) : rpar :=
  {| p_dx := s * p_dx q; p_dy := s * p_dy q; p_dt := s * p_dt q; p_v := p_v q; p_cp := p_cp q |}.
(** Change of the sound speed by s with the times changed accordingly. *)
Definition faster (s : R) (q : rpar) : rpar :=
  {| p_dx := p_dx q; p_dy := p_dy q; p_dt := p_dt q / s; p_v := p_v q; p_cp := s * p_cp q |}.

(** Every wave arrives inside the record, rounding included. *)
Definition inside (q : rpar) (ntz : Z) (g : geom) (delay : R) (o : pos) : Prop :=
  exists lo hi, times_within (p_cp q) g o lo hi /\
    - p_dt q / 2 < lo - delay /\ hi - delay < (IZR ntz - 1 / 2) * p_dt q.

(** The integral of the response over time. *)
Definition over_time (q : rpar) (ntz : Z) (V : nat -> R) : R :=
  p_dt q * Rsum (map V (seq 0 (Z.to_nat ntz))).
