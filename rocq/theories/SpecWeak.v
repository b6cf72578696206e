(** SpecWeak.v - executions with delayed stores and late flag reads. *)
From Verif Require Import Base ModelSir ModelSmp ModelFine ModelWeak SpecSmp SpecConv.

(** The number of steps of worker i in a schedule. *)
Definition wsteps_of (i : nat) (sch : list wevent) : Z :=
  Z.of_nat (length (filter (fun e => match e with WRun j _ => Nat.eqb i j | _ => false end) sch)).
Definition no_wctrlc (sch : list wevent) : Prop := ~ In WCtrlC sch.

(** cf. SpecFine3.fine_every_column.  No schedule runs into an access outside
    the arrays; when every worker has made B steps, the stores still under way
    need only reach the memory for the call to return; a call that has
    returned has left in column n, sample k the value F n k of the old value -
    everywhere, if it was not interrupted, and in whole columns only, if it
    was. *)
Definition weak_every_column {N : Num} (len No nthreads : Z) (Y0 : list N) (F : Z -> nat -> N -> N)
  (call : list wevent -> res (option (list N * bool))) : Prop :=
  (exists B : Z, forall sch, (forall i, (0 <= i < nthreads)%Z -> (B <= wsteps_of (Z.to_nat i) sch)%Z) ->
     exists reach, (forall e, In e reach -> exists i k, e = WReach i k) /\ exists r, call (sch ++ reach) = Ok (Some r)) /\
  forall sch, exists r, call sch = Ok r /\
    forall Y' running, r = Some (Y', running) ->
      length Y' = length Y0 /\
      (no_wctrlc sch -> running = true) /\
      (running = true -> forall n k, (0 <= n < No)%Z -> (k < Z.to_nat len)%nat ->
         nth (Z.to_nat (n * len) + k) Y' (nofZ 0) = F n k (nth (Z.to_nat (n * len) + k) Y0 (nofZ 0))) /\
      (forall n, (0 <= n < No)%Z ->
         (forall k, (k < Z.to_nat len)%nat -> nth (Z.to_nat (n * len) + k) Y' (nofZ 0) = nth (Z.to_nat (n * len) + k) Y0 (nofZ 0)) \/
         (forall k, (k < Z.to_nat len)%nat -> nth (Z.to_nat (n * len) + k) Y' (nofZ 0) = F n k (nth (Z.to_nat (n * len) + k) Y0 (nofZ 0)))).
