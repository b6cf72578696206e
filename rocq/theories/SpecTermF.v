(** SpecTermF.v - when a spatial step is not too small for doubles.

    A loop over [-h, h] with step d is fine-grained but countable when h and d
    are finite, d > 0 and h is at most 2^52 steps (about 4.5e15) away from 0. *)
From Coq Require Import Floats.
From Verif Require Import Base NumF ModelSir ModelArr.

Definition countable (h d : float) : Prop :=
  PrimFloat.is_finite h = true /\ PrimFloat.is_finite d = true /\ PrimFloat.ltb 0 d = true /\
  PrimFloat.leb (PrimFloat.abs h) (PrimFloat.mul 0x1p52 d) = true.

Section Fine.
  Context (fsin fcos fatan fasin facos fexp flog : float -> float).
  Local Notation F := (FN fsin fcos fatan fasin facos fexp flog).

  (** Half the width (height) against dx (dy); for discs the radius against dy,
      the diameter against dx, and a radius whose square is representable; for
      cylinders half the opening angle against the angular step. *)
  Definition countable_disc (R : float) (q : samp F) : Prop :=
    PrimFloat.is_finite (R * R)%float = true /\ countable (2 * R)%float (dx q) /\ countable R (dy q).

  Definition countable_cylinder (a b Rc : float) (q : samp F) : Prop :=
    let bh := (b / 2)%float in
    let height := (PrimFloat.abs Rc - (PrimFloat.abs Rc - PrimFloat.sqrt (Rc * Rc - bh * bh)))%float in
    let angle := (2 * fatan (bh / height))%float in
    countable (a / 2)%float (dx q) /\ countable (angle / 2)%float (fasin (dy q / PrimFloat.abs Rc)%float).

  Definition countable_steps (T : transducer F) (q : samp F) : Prop :=
    match T with
    | TRect a b | TRectF a b _ _ | TArrRect a b _ => countable (a / 2)%float (dx q) /\ countable (b / 2)%float (dy q)
    | TCirc R | TCircF R _ _ | TSphere R _ | TArrCirc R _ => countable_disc R q
    | TLine a => countable (a / 2)%float (dx q)
    | TCylind a b Rc | TArrCylind a b Rc _ => countable_cylinder a b Rc q
    | TArrAnnu p => forall R, In R (Gr p) -> countable_disc R q
    end.
End Fine.
