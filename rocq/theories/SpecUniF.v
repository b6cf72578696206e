(** SpecUniF.v - what a das_uni kernel is given, in doubles. *)
From Coq Require Import Floats.
From Coq Require Import Reals List ZArith.
From Verif Require Import Base ModelSir ModelDas NumR NumF SpecDft SpecDas SpecRound SpecRoundSir SpecRoundDas.
Import ListNotations.
Open Scope R_scope.

Section Uni.
  Context (fsin fcos fatan fasin facos fexp flog : PrimFloat.float -> PrimFloat.float).
  Local Notation F := (FN fsin fcos fatan fasin facos fexp flog).

  (** Grid point number i of lo : pitch, as the kernel computes it. *)
  Definition grid_pos (g : F * F * F) (i : nat) : PrimFloat.float :=
    let '(lo, p, _) := g in uni_pos (N:=F) lo p (Z.of_nat i).
  (** The element grid g has n points, all of ordinary size (how n and the
      points compare with the exact ones: C38_double_partial). *)
  Definition grid_of (g : F * F * F) (n : nat) : Prop :=
    (let '(lo, p, hi) := g in uni_count_cl (N:=F) lo p hi = Ok (Z.of_nat n)) /\
    forall i, (i < n)%nat -> ordinary (grid_pos g i).
  Definition first_of (g : F * F * F) : PrimFloat.float := fst (fst g).
  Definition last_of (g : F * F * F) : PrimFloat.float := snd g.
  (** The ends of a grid, for line elements. *)
  Definition ends_ok (g : F * F * F) : Prop := ordinary (first_of g) /\ ordinary (last_of g) /\ val (first_of g) <= val (last_of g).

  (** Image point number no of the box is (xo, yo, zo). *)
  Definition image_at (rx ry rz : F * F * F) (no : Z) (o : F * F * F) : Prop :=
    uni_at (N:=F) rx ry rz no = Ok o /\ ordinary (fst (fst o)) /\ ordinary (snd (fst o)) /\ ordinary (snd o).
  Definition val3 (o : F * F * F) : vec := let '(x, y, z) := o in (val x, val y, val z).

  (** Finite data for [scans] A-scans of len samples; sampling period, sound
      speed and delay of ordinary size. *)
  Definition data_ok (Y : list F) (len : Z) (scans : nat) (dt delay cp : F) : Prop :=
    (0 <= len)%Z /\ Forall finite Y /\ (Z.of_nat scans * len <= Z.of_nat (length Y))%Z /\
    ordinary_pos dt /\ ordinary_pos cp /\ ordinary delay.
End Uni.
