(** ExJob.v - a concrete dreamrect job over IEEE doubles, used for
    non-vacuity examples and refutations.  (The libm functions are not called
    by dreamrect; the identity stands in for them.) *)
From Coq Require Import Floats.
From Verif Require Import Base ModelSir ModelArr ModelSmp NumF.

Definition FI : Num := FN (fun x => x) (fun x => x) (fun x => x) (fun x => x) (fun x => x) (fun x => x) (fun x => x).

Definition ex_samp (ntz : Z) : samp FI :=
  @Build_samp FI 0.5%float 0.5%float 0x1.47ae147ae147bp-5%float ntz 1%float 1500%float.

(** Three observation points, 1 mm x 1 mm rectangle, 10 mm away; a single
    start delay of 6 us; nt samples. *)
Definition ex_job (T : transducer FI) (lvl : ErrorLevel) (ntz : Z) : job FI :=
  {| j_fuel := 10; j_T := T; j_q := ex_samp ntz; j_att := None; j_lvl := lvl;
     j_No := 3; j_Ro := ([0; 1; 2] ++ [0; 0; 0] ++ [10; 10; 10])%float;
     j_delay_type := delay_single; j_delay := [6%float] |}.
Definition ex_H (ntz : Z) : list FI := repeat 0%float (Z.to_nat (3 * ntz)).
Definition ex_rect : transducer FI := @TRect FI 1%float 1%float.
