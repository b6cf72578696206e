(** SpecMf.v - what the scripts of m_files promise. *)
From Coq Require Import Reals List ZArith.
From Coq Require Strings.String Strings.Ascii.
Import Coq.Strings.String.StringSyntax.
Import ListNotations.
Open Scope R_scope.

(** Distance (mm) from the element at (x, 0) to the point at depth foc in the
    direction ang (degrees) from the array axis. *)
Definition to_focus (foc ang x : R) : R :=
  sqrt ((x - foc * tan (ang * (PI / 180)))^2 + foc^2).

(** Del Grosso (1974): sound speed (m/s) at T (degrees C), S (ppt) and P
    (kg/cm^2), J. Acoust. Soc. Am. 56(4), p. 1086. *)
Definition del_grosso (T P S : R) : R :=
  1402.392
  + (0.501109398873e1 * T - 0.550946843172e-1 * T^2 + 0.221535969240e-3 * T^3)
  + (0.132952290781e1 * S + 0.128955756844e-3 * S^2)
  + (0.156059257041 * P + 0.244998688441e-4 * P^2 - 0.883392332513e-8 * P^3)
  + (- (0.127562783426e-1) * T * S + 0.635191613389e-2 * T * P + 0.265484716608e-7 * T^2 * P^2
     - 0.159349479045e-5 * T * P^2 + 0.522116437235e-9 * T * P^3 - 0.438031096213e-6 * T^3 * P
     - 0.161674495909e-8 * S^2 * P^2 + 0.968403156410e-4 * T^2 * S + 0.485639620015e-5 * T * S^2 * P
     - 0.340597039004e-3 * T * S * P).

(** The documented pressure units and their size in Pa. *)
Local Open Scope string_scope.
Definition units : list (String.string * R) :=
  [("Pa", 1); ("bar", 100000); ("at", 98066.5); ("atm", 101325); ("mmHg", 133.322); ("psi", 6894.757)].
