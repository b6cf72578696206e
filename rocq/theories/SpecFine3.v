(** SpecFine3.v - a call that computes the columns of its result, executed one
    memory access at a time. *)
From Verif Require Import Base ModelSir ModelSmp SpecSmp SpecConv.

(** cf. SpecConv.every_column.  There is a number of steps, the same for all
    schedules, after which a worker has finished; every schedule runs without
    an access outside the arrays; a call that has returned has left in
    column n, sample k the value F n k of the old value - everywhere, if it
    was not interrupted, and in whole columns only, if it was. *)
Definition fine_every_column {N : Num} (len No nthreads : Z) (Y0 : list N) (F : Z -> nat -> N -> N)
  (call : list event -> res (option (list N * bool))) : Prop :=
  exists B : Z, forall sch, exists r, call sch = Ok r /\
    ((forall i, (0 <= i < nthreads)%Z -> (B <= steps_of (Z.to_nat i) sch)%Z) -> r <> None) /\
    forall Y' running, r = Some (Y', running) ->
      length Y' = length Y0 /\
      (no_ctrlc sch -> running = true) /\
      (running = true -> forall n k, (0 <= n < No)%Z -> (k < Z.to_nat len)%nat ->
         nth (Z.to_nat (n * len) + k) Y' (nofZ 0) = F n k (nth (Z.to_nat (n * len) + k) Y0 (nofZ 0))) /\
      (forall n, (0 <= n < No)%Z ->
         (forall k, (k < Z.to_nat len)%nat -> nth (Z.to_nat (n * len) + k) Y' (nofZ 0) = nth (Z.to_nat (n * len) + k) Y0 (nofZ 0)) \/
         (forall k, (k < Z.to_nat len)%nat -> nth (Z.to_nat (n * len) + k) Y' (nofZ 0) = F n k (nth (Z.to_nat (n * len) + k) Y0 (nofZ 0)))).
