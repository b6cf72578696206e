(** SpecFine.v - vocabulary for calls executed one memory access at a time. *)
From Verif Require Import Base ModelSir ModelArr ModelSmp ModelFine.

(** The element of the result array the next step of a worker loads or
    stores, if it does. *)
Definition next_access {N : Num} (nt : Z) (t : fthread (N:=N)) : option Z :=
  match f_pc t with
  | FRun (Read i _) | FRun (Write i _ _) => Some (f_n t * nt + i)
  | _ => None
  end.

(** Two workers are about to access the same element.  (A data race in the
    sense of C++ is such a pair of which one is a store.) *)
Definition conflict {N : Num} (nt : Z) (s : fstate (N:=N)) : Prop :=
  exists i j ti tj a, i <> j /\ nth_error (f_threads s) i = Some ti /\ nth_error (f_threads s) j = Some tj /\
    next_access nt ti = Some a /\ next_access nt tj = Some a.
