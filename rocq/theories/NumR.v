(** NumR.v - the number system instantiated with exact real arithmetic.

    A value is a real number or undefined ([None]): square roots of negative
    numbers, divisions by zero, arcsine/arccosine outside [-1,1] and
    logarithms of non-positive numbers are undefined, and undefinedness
    propagates as NaN does.  (IEEE division of a non-zero number by zero gives
    an infinity instead; treating it as undefined is a simplification which
    only makes the guards of the theorems stronger.)  Comparisons with an
    undefined value are false, its conversion to an integer is undefined
    behaviour.  Rounding is half-to-even, as std::rint. *)
From Coq Require Import Reals.
From Verif Require Import Base.
Open Scope R_scope.

Definition Rleb (x y : R) : bool := if Rle_dec x y then true else false.
Definition Rltb (x y : R) : bool := if Rlt_dec x y then true else false.

(** The greatest integer not above x. *)
Definition Zfloor (x : R) : Z := (up x - 1)%Z.

(** Round to nearest, ties to even (C: rint in FE_TONEAREST). *)
Definition Zrint (x : R) : Z :=
  let f := Zfloor x in
  let d := x - IZR f in
  if Rlt_dec d (1/2) then f
  else if Rlt_dec (1/2) d then (f + 1)%Z
  else if Z.even f then f else (f + 1)%Z.

(** Truncation towards zero. *)
Definition Ztruncr (x : R) : Z :=
  if Rle_dec 0 x then Zfloor x else (- Zfloor (- x))%Z.

Definition e1 (f : R -> R) (x : option R) : option R :=
  match x with Some a => Some (f a) | None => None end.
Definition e2 (f : R -> R -> R) (x y : option R) : option R :=
  match x, y with Some a, Some b => Some (f a b) | _, _ => None end.
Definition ecmp (f : R -> R -> bool) (x y : option R) : bool :=
  match x, y with Some a, Some b => f a b | _, _ => false end.
Definition e_div (x y : option R) : option R :=
  match x, y with
  | Some a, Some b => if Req_EM_T b 0 then None else Some (a / b)
  | _, _ => None
  end.
Definition e_sqrt (x : option R) : option R :=
  match x with Some a => if Rle_dec 0 a then Some (sqrt a) else None | None => None end.
Definition e_unit (f : R -> R) (x : option R) : option R :=
  match x with
  | Some a => if Rle_dec (-1) a then if Rle_dec a 1 then Some (f a) else None else None
  | None => None
  end.
Definition e_ln (x : option R) : option R :=
  match x with Some a => if Rlt_dec 0 a then Some (ln a) else None | None => None end.

Definition EN : Num := {|
  car := option R;
  nadd := e2 Rplus; nsub := e2 Rminus; nmul := e2 Rmult; ndiv := e_div;
  nopp := e1 Ropp; nabs := e1 Rabs; nsqrt := e_sqrt;
  nsin := e1 sin; ncos := e1 cos; natan := e1 atan; nasin := e_unit asin; nacos := e_unit acos;
  nexp := e1 exp; nlog := e_ln;
  npi := Some PI; neps := Some (/ 2 ^ 52);
  nofZ := fun z => Some (IZR z);
  nle := ecmp Rleb; nlt := ecmp Rltb;
  nrint := fun x => match x with Some a => Some (Zrint a) | None => None end;
  ntrunc := fun x => match x with Some a => Some (Ztruncr a) | None => None end
|}.
