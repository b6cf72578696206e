(** SpecAtt4.v - how far the sound of a source has to go. *)
From Coq Require Import Reals List ZArith.
From Verif Require Import Base ModelSir SpecSir SpecRayleigh SpecAtt SpecAtt2.
Open Scope R_scope.

(** The strengths of the sources heard inside the record, each times the
    distance (mm) its sound travels. *)
Definition spread_strength (q : rpar) (ntz : Z) (w d : R) (o : pos) (src : list source) : R :=
  Rsum (map (fun s => Rabs (strength q w o s) * dist o s) (heard_sources q ntz d o src)).
