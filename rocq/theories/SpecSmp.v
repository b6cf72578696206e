(** SpecSmp.v - specification vocabulary for the threaded drivers. *)
From Verif Require Import Base ModelSir ModelArr ModelSmp ProofsSmp.

(** [owners No n m]: the workers t (of n) whose range contains point m. *)
Definition owners (No n m : Z) : list nat :=
  filter (fun t => (part_start (Z.of_nat t) No n <=? m) && (m <? part_stop (Z.of_nat t) No n))
         (seq 0 (Z.to_nat n)).

(** Number of steps a schedule gives to worker i. *)
Definition steps_of (i : nat) (sch : list event) : Z :=
  Z.of_nat (length (filter (fun e => match e with Run j => Nat.eqb i j | CtrlC => false end) sch)).

(** No CTRL-C in the schedule. *)
Definition no_ctrlc (sch : list event) : Prop := ~ In CtrlC sch.

(** Round robin: k rounds of one step for each of n workers. *)
Definition round_robin (k n : nat) : list event :=
  concat (repeat (map Run (seq 0 n)) k).
