(** NumF.v - the number system instantiated with IEEE 754 binary64, the
    kernel's primitive floats.  The transcendental functions are not part of
    IEEE 754's required operations and are taken as parameters: statements
    about [FN] hold for any implementation of libm. *)
From Coq Require Import Floats Uint63 ZArith.
From Verif Require Import Base.
Open Scope Z_scope.

(** Round m * 2^e to an integer, ties to even. *)
Definition rint_me (m e : Z) : Z :=
  if 0 <=? e then m * 2 ^ e
  else
    let d := 2 ^ (- e) in
    let q := m / d in
    let r := m mod d in
    if 2 * r <? d then q
    else if d <? 2 * r then q + 1
    else if Z.even q then q else q + 1.

Definition f_rint (x : float) : option Z :=
  match Prim2SF x with
  | S754_zero _ => Some 0
  | S754_infinity _ => None
  | S754_nan => None
  | S754_finite s m e =>
    let v := rint_me (Zpos m) e in Some (if s then - v else v)
  end.

Definition f_trunc (x : float) : option Z :=
  match Prim2SF x with
  | S754_zero _ => Some 0
  | S754_infinity _ => None
  | S754_nan => None
  | S754_finite s m e =>
    let v := if 0 <=? e then Zpos m * 2 ^ e else Zpos m / 2 ^ (- e) in
    Some (if s then - v else v)
  end.

(** Integer literal to double, for |z| < 2^53 (exact). *)
Definition f_ofZ (z : Z) : float :=
  if z <? 0 then PrimFloat.opp (PrimFloat.of_uint63 (Uint63.of_Z (- z)))
  else PrimFloat.of_uint63 (Uint63.of_Z z).

(** M_PI = 0x1.921fb54442d18p+1. *)
Definition f_pi : float := 0x1.921fb54442d18p+1%float.

Definition FN (fsin fcos fatan fasin facos fexp flog : float -> float) : Num := {|
  car := float;
  nadd := PrimFloat.add; nsub := PrimFloat.sub; nmul := PrimFloat.mul; ndiv := PrimFloat.div;
  nopp := PrimFloat.opp; nabs := PrimFloat.abs; nsqrt := PrimFloat.sqrt;
  nsin := fsin; ncos := fcos; natan := fatan; nasin := fasin; nacos := facos;
  nexp := fexp; nlog := flog;
  npi := f_pi; neps := 0x1p-52%float;
  nofZ := f_ofZ;
  nle := PrimFloat.leb; nlt := PrimFloat.ltb;
  nrint := f_rint; ntrunc := f_trunc
|}.
