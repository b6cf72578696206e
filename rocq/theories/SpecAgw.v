(** SpecAgw.v - calls of the analytic functions: the argument order of the
    user manual's examples (userman/m_files/make_circsir_on_axis.m 55,
    make_sampled_vs_anaytic.m 42) and of rect_sir's help text, and the order of
    the help texts of circ_sir and scirc_sir. *)
From Coq Require Import Reals.
From Coq Require Strings.String.
Import Coq.Strings.String.StringSyntax.
From Verif Require Import Base ModelSir ModelArr ModelSmp ModelAna SpecAna NumR SpecSmp ModelGw SpecGw SpecGwR ModelAgw.
Local Open Scope string_scope.
Local Open Scope Z_scope.

(** The analytic functions exist in Octave and MATLAB. *)
Definition has_analytic (fe : front) : Prop := fe = Octave \/ fe = Matlab.

Section Spec.
  Context {N : Num}.

  (** Every argument but rect_sir's device is a number. *)
  Definition ana_tidy (fe : front) (f : afunc) (args : list (value N)) : Prop :=
    (forall v, In v args -> shaped v /\ ordinary fe v) /\
    (forall i v, nth_error args i = Some v -> (i < 5)%nat \/ f = KSCirc -> is_number v).
  Definition ana_delay_nonempty (args : list (value N)) : Prop :=
    forall v, nth_error args 3 = Some v -> nonempty v.

  (** The transducer the geometry vector and the further arguments name, and
      the device. *)
  Inductive ana_names (fe : front) : afunc -> list N -> list (value N) -> analytic N -> string -> Prop :=
  | nm_circ r : ana_names fe KCirc [r] [] (ACirc r) ""
  | nm_scirc r x vn n : vec fe [x] vn -> ntrunc x = Some n -> 1 <= n < 2^63 ->
      ana_names fe KSCirc [r] [vn] (ASCirc r n) ""
  | nm_rect a b : ana_names fe KRect [a; b] [] (ARect a b) ""
  | nm_rect_dev a b s : ana_names fe KRect [a; b] [VStr s] (ARect a b)
      (match fe with Octave => s | _ => "" end).

  (** args = Ro, geometry, [dt nt], delay, [v cp], further arguments. *)
  Definition ana_documented (fe : front) (f : afunc) (args : list (value N)) (J : ajob N) (dev : string) : Prop :=
    exists vo vg vs vd vm tail g ntf,
      args = vo :: vg :: vs :: vd :: vm :: tail /\
      mat3 fe (a_No J) (a_Ro J) vo /\ vec fe g vg /\ ana_names fe f g tail (a_T J) dev /\
      vec fe [a_dt J; ntf] vs /\ ntrunc ntf = Some (a_nt J) /\ 0 <= a_nt J < 2^63 /\
      delay_given fe (a_No J) vd (a_delay_type J) (a_delay J) /\ vec fe [a_v J; a_cp J] vm.
End Spec.

(** The arguments in the order of the help texts of circ_sir and scirc_sir:
    Ro, geom_par, delay, s_par, m_par. *)
Definition help_order {N : Num} (f : afunc) (args : list (value N)) : list (value N) :=
  match f, args with
  | (KCirc | KSCirc), vo :: vg :: vs :: vd :: tail => vo :: vg :: vd :: vs :: tail
  | _, _ => args
  end.

(** Every worker gets enough steps. *)
Definition ana_fair (nthreads No : Z) (sch : list event) : Prop :=
  forall i, 0 <= i < nthreads -> 3 * (part_stop i No nthreads - part_start i No nthreads) + 1 <= steps_of (Z.to_nat i) sch.
