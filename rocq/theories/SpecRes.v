(** SpecRes.v - what a program does with the things it takes from the system:
    memory, FFT plans, threads. A log is the list of what happened, oldest
    first; None is the thread of the caller, Some i worker i. *)
From Coq Require Import List ZArith.
Import ListNotations.

(** Thread data (one block for all workers), array of thread handles, FFT plans,
    table of matrix pointers, work buffers of a worker, buffers of one point. *)
Inductive thing := RData | RArray | RPlan | RTable | RWork | RTemp.
Inductive deed := Take (r : thing) | Give (r : thing) | Use (r : thing) | Spawn (i : nat) | Join (i : nat).
Definition entry := (option nat * deed)%type.

Definition thing_eq (a b : thing) : bool :=
  match a, b with
  | RData, RData | RArray, RArray | RPlan, RPlan | RTable, RTable | RWork, RWork | RTemp, RTemp => true
  | _, _ => false
  end.
(** How often r was taken, was given back, in a list of deeds. *)
Definition taken (r : thing) (l : list deed) : nat := length (filter (fun d => match d with Take r' => thing_eq r r' | _ => false end) l).
Definition given (r : thing) (l : list deed) : nat := length (filter (fun d => match d with Give r' => thing_eq r r' | _ => false end) l).
Definition spawned (i : nat) (l : list deed) : nat := length (filter (fun d => match d with Spawn j => Nat.eqb i j | _ => false end) l).
Definition joined (i : nat) (l : list deed) : nat := length (filter (fun d => match d with Join j => Nat.eqb i j | _ => false end) l).
(** Everything that happened; what thread w did. *)
Definition deeds (log : list entry) : list deed := map snd log.
Definition by_thread (w : option nat) (log : list entry) : list deed :=
  map snd (filter (fun e => match fst e, w with None, None => true | Some i, Some j => Nat.eqb i j | _, _ => false end) log).

(** A thing of kind r is held after the deeds l; none is used, and none given
    back, that is not held. *)
Definition held (r : thing) (l : list deed) : Prop := (given r l < taken r l)%nat.
Definition proper (r : thing) (l : list deed) : Prop :=
  forall l1 d l2, l = l1 ++ d :: l2 -> d = Use r \/ d = Give r -> held r l1.
(** Everything taken of kind r has been given back; how much has not. *)
Definition returned (r : thing) (l : list deed) : Prop := given r l = taken r l.
Definition outstanding (r : thing) (l : list deed) : Z := (Z.of_nat (taken r l) - Z.of_nat (given r l))%Z.
(** Things for all threads; things of one thread. *)
Definition shared (r : thing) : Prop := r <> RWork /\ r <> RTemp.
Definition own (r : thing) : Prop := r = RWork \/ r = RTemp.
