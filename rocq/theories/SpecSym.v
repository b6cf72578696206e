(** SpecSym.v - mirror images of arrays, exchange of the x and y axes, and
    observation points seen the same way by them. *)
From Coq Require Import Reals List ZArith.
From Verif Require Import Base ModelSir ModelArr NumR SpecRayleigh SpecArr.
Import ListNotations.
Open Scope R_scope.

(** Mirror images in the plane x = 0 ([Along_x]) or y = 0 ([Along_y]). *)
Inductive axis := Along_x | Along_y.
Definition mirror (ax : axis) (o : pos) : pos := match ax with Along_x => mirror_x o | Along_y => mirror_y o end.
Definition whole (ax : axis) (q : rpar) (g : geom) : Prop := match ax with Along_x => whole_x q g | Along_y => whole_y q g end.

(** The mirrored array: mirrored positions, steering to the other side; the
    focusing, the windows and the delays and weights of the single elements stay
    as they are. *)
Definition mirror_steer (ax : axis) (s : steer) : steer :=
  match ax, s with
  | Along_x, SX th => SX (- th) | Along_x, SXY th ph => SXY (- th) ph
  | Along_y, SY ph => SY (- ph) | Along_y, SXY th ph => SXY th (- ph)
  | _, s => s
  end.
Definition mirror_array (ax : axis) (A : array) : array :=
  {| ar_pos := map (mirror ax) (ar_pos A); ar_focus := ar_focus A; ar_steer := mirror_steer ax (ar_steer A); ar_apo := ar_apo A |}.

(** Time (us) a plane wave in the steering direction takes along the array, in
    the direction of the axis. The steering delays are counted from the first
    element the wave leaves, so those of the mirrored array start this much
    later. *)
Definition tilt (ax : axis) (cp : R) (A : array) : R :=
  match ax, ar_steer A with
  | Along_x, SX th | Along_x, SXY th _ => 2000 / cp * extx A * sin (rad th)
  | Along_y, SY ph | Along_y, SXY _ ph => 2000 / cp * exty A * sin (rad ph)
  | _, _ => 0
  end.
Definition unsteered (ax : axis) (A : array) : Prop :=
  match ax, ar_steer A with
  | Along_x, SX _ | Along_x, SXY _ _ | Along_y, SY _ | Along_y, SXY _ _ => False
  | _, _ => True
  end.

(** x and y exchanged. *)
Definition swap (o : pos) : pos := {| p_x := p_y o; p_y := p_x o; p_z := p_z o |}.
Definition swap_par (q : rpar) : rpar := {| p_dx := p_dy q; p_dy := p_dx q; p_dt := p_dt q; p_v := p_v q; p_cp := p_cp q |}.
Definition swap_method (f : FocusMet) : FocusMet :=
  match f with foc_x => foc_y | foc_y => foc_x | foc_negx => foc_negy | foc_negy => foc_negx | f => f end.
(** Rectangles, plain or focused, are the shapes that have an exchanged one. *)
Definition swap_geom (g : geom) : option geom :=
  match g with
  | GRect a b => Some (GRect b a)
  | GRectF a b f F => Some (GRectF b a (swap_method f) F)
  | _ => None
  end.
Definition swap_array (A : array) : array :=
  {| ar_pos := map swap (ar_pos A);
     ar_focus := match ar_focus A with FX F => FY F | FY F => FX F | f => f end;
     ar_steer := match ar_steer A with SX th => SY th | SY ph => SX ph | SXY th ph => SXY ph th | s => s end;
     ar_apo := ar_apo A |}.
