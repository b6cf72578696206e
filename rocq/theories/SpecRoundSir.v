(** SpecRoundSir.v - the responses of flat transducers in double precision.

    The loops over the aperture run in doubles, so the source points are the
    doubles that the loops visit; everything else is compared with the exact
    discretised Rayleigh integral (SpecRayleigh.v) over those points. *)
From Coq Require Import Floats.
From Coq Require Import Reals List ZArith.
From Verif Require Import Base ModelSir ModelArr NumR NumF SpecSir SpecRayleigh SpecRound.
Import ListNotations.
Open Scope R_scope.

(** Numbers of an ordinary size: at most 2^100 (about 1.3e30), and positive
    ones at least 2^-100. *)
Definition ordinary (x : PrimFloat.float) : Prop := finite x /\ Rabs (val x) <= powerRZ 2 100.
Definition ordinary_pos (x : PrimFloat.float) : Prop := finite x /\ powerRZ 2 (-100) <= val x <= powerRZ 2 100.

Section Sir.
  Context (fsin fcos fatan fasin facos fexp flog : PrimFloat.float -> PrimFloat.float).
  Local Notation F := (FN fsin fcos fatan fasin facos fexp flog).

  (** Midpoints lo + d/2, (lo + d/2) + d, ... up to hi, in doubles. *)
  Definition double_midpoints (fuel : nat) (lo hi d : F) : option (list F) := grid (N:=F) fuel (lo + d / 2)%float hi d.
  (** One row of source points (x, y). *)
  Definition double_row (fuel : nat) (lo hi d y : F) : option (list (F * F)) :=
    option_map (map (fun x => (x, y))) (double_midpoints fuel lo hi d).
  (** The source points of rectangles, discs and lines. *)
  Definition double_points (fuel : nat) (T : transducer F) (q : samp F) : option (list (F * F)) :=
    match T with
    | TRect a b =>
      match double_midpoints fuel (- b / 2)%float (b / 2)%float (dy q) with
      | Some ys => concat_opt (map (double_row fuel (- a / 2)%float (a / 2)%float (dx q)) ys)
      | None => None
      end
    | TCirc R =>
      match double_midpoints fuel (- R)%float R (dy q) with
      | Some ys => concat_opt (map (fun y => let w := PrimFloat.sqrt (R * R - y * y)%float in
                                             double_row fuel (- w)%float w (dx q) y) ys)
      | None => None
      end
    | TLine a => double_row fuel (- a / 2)%float (a / 2)%float (dx q) 0%float
    | _ => None
    end.

  (** The doubles as exact numbers. *)
  Definition val_par (q : samp F) : rpar :=
    {| p_dx := val (dx q); p_dy := val (dy q); p_dt := val (dt q); p_v := val (vel q); p_cp := val (cp q) |}.
  Definition val_pos (xo yo zo : F) : pos := {| p_x := val xo; p_y := val yo; p_z := val zo |}.
  Definition val_source (q : samp F) (xy : F * F) : source :=
    flat (val (dx q) * val (dy q)) (val (fst xy)) (val (snd xy)).
  (** The rectangles, discs and lines, and the parameters, of ordinary size. *)
  Definition flat_T (T : transducer F) : Prop :=
    match T with TRect a b => ordinary a /\ ordinary b | TCirc R => ordinary R | TLine a => ordinary a | _ => False end.

  Definition ordinary_par (q : samp F) : Prop :=
    ordinary_pos (dx q) /\ ordinary_pos (dy q) /\ ordinary_pos (dt q) /\ ordinary_pos (vel q) /\ ordinary_pos (cp q).
End Sir.

(** No arrival time is so close to halfway between two samples that rounding
    could move it to another sample; 6 eps relative to the travel time plus the
    start delay. *)
Definition clear_of_ties (q : rpar) (delay : R) (o : pos) (src : list source) : Prop :=
  forall s, In s src -> forall z : Z,
    6 * eps * ((1000 * dist o s / p_cp q + Rabs delay) / p_dt q) < Rabs (arrival q delay o s - (IZR z + / 2)).

(** Sample numbers fit in dream_idx_type. *)
Definition samples_fit (K : idx_kind) (q : rpar) (delay : R) (o : pos) (src : list source) : Prop :=
  forall s, In s src ->
    match K with
    | SignedIdx => (-2^63 <= arrives_at q delay o s < 2^63)%Z
    | UnsignedIdx => (0 <= arrives_at q delay o s < 2^64)%Z
    end.

Definition not_too_close (o : pos) (src : list source) : Prop := forall s, In s src -> powerRZ 2 (-100) <= dist o s.

Record ordinary_call (K : idx_kind) (q : rpar) (delay : R) (o : pos) (src : list source) : Prop := {
  oc_close : not_too_close o src; oc_ties : clear_of_ties q delay o src;
  oc_fit : samples_fit K q delay o src; oc_many : INR (length src) <= powerRZ 2 50
}.

(** r is a double within (n + 13) units in the last place of the sample v. *)
Definition close_sample (n : nat) (v : R) (r : PrimFloat.float) : Prop :=
  finite r /\ Rabs (val r - v) <= (INR n + 13) * eps * v.
