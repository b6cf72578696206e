(** SpecPhysA.v - calls of the array functions, and rearrangements of arrays. *)
From Coq Require Import Reals List ZArith Permutation.
From Verif Require Import Base ModelSir ModelArr ModelSmp NumR SpecRayleigh SpecArr SpecSmp ModelGw SpecGw SpecGwR SpecPhys.
Import ListNotations.
Open Scope R_scope.

(** A call of an array function with elements of shape g arranged as A. *)
Record exact_array_call (c2r : list (car EN * car EN) -> list (car EN)) (fe : front) (f : func) (nlhs hw : Z) (env : option Z)
  (sch : list event) (args : list (value EN)) (g : geom) (A : array) (q : rpar) (ntz : Z) (ps : list pos) (dty : DelayType) (dl : list R) : Prop := {
  xa_doc : exists l p T, (l = lvl_ignore \/ l = lvl_warn) /\ array_of g p = Some T /\ names p A /\
    documented fe f args T (emb_samp q ntz) (Some 0 : EN) l (Z.of_nat (length ps)) (exact (coords ps)) dty (exact dl);
  xa_lhs : (0 <= nlhs <= 2)%Z; xa_nt : (0 <= ntz)%Z; xa_hw : (0 <= hw)%Z; xa_c2r : keeps_length c2r;
  xa_sch : runs_to_end hw env (Z.of_nat (length ps)) sch }.
Definition all_arr_defined (fe : front) (fuel : nat) (q : rpar) (ntz : Z) (g : geom) (A : array) (ps : list pos) (dty : DelayType) (dl : list R) : Prop :=
  forall n, (n < length ps)%nat -> arr_defined (idx_of fe) fuel q ntz g A (start_delay dty dl n) (nth n ps origin).

(** The elements listed in another order, each with its own user defined delay
    and weight: element i of the new array is element [nth i idx] of the old. *)
Definition reorder (idx : list nat) (A : array) : array :=
  {| ar_pos := map (elem A) idx;
     ar_focus := match ar_focus A with FUd tau => FUd (map (fun i => nth i tau 0) idx) | f => f end;
     ar_steer := ar_steer A;
     ar_apo := match ar_apo A with AUd w => AUd (map (fun i => nth i w 0) idx) | w => w end |}.

(** The array moved by t. *)
Definition move (t o : pos) : pos := {| p_x := p_x t + p_x o; p_y := p_y t + p_y o; p_z := p_z t + p_z o |}.
Definition move_array (t : pos) (A : array) : array :=
  {| ar_pos := map (move t) (ar_pos A); ar_focus := ar_focus A; ar_steer := ar_steer A; ar_apo := ar_apo A |}.
(** Delays and weights that belong to the elements, not to their position. *)
Definition element_wise (A : array) : Prop :=
  (ar_focus A = FNone \/ exists tau, ar_focus A = FUd tau) /\ ar_steer A = SNone /\
  (ar_apo A = ANone \/ exists w, ar_apo A = AUd w).

(** The same array with other user defined weights. *)
Definition with_weights (w : list R) (A : array) : array :=
  {| ar_pos := ar_pos A; ar_focus := ar_focus A; ar_steer := ar_steer A; ar_apo := AUd w |}.
