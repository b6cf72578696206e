(** PropSignal.v - property theorem C109 for cylinders, lines and annular
    arrays: a simulated signal. *)
From Coq Require Strings.String Strings.Ascii.
Import Coq.Strings.String.StringSyntax.
From Coq Require Import Reals List ZArith Lra Lia.
From Verif Require Import Base BaseLemmas ModelSir ModelArr ModelSmp ModelConv NumR SpecSmp SpecSir SpecRayleigh SpecArr
  ModelGw SpecGw SpecGwR PropGwR SpecPhys ProofsPhys SpecDft ModelCgw SpecCgw PropCgw2
  SpecField SpecField2 PropField2 SpecField3 PropField3 SpecAnnuR SpecField4 SpecField6 PropField6 SpecField7 PropField7 SpecAttSig PropAttSig.
Import ListNotations.
Open Scope R_scope.

(** Any call that returns V, convolved with the samples of e. *)
Lemma signal_observed r mc fe kf q ntz N V delay K e L M : returns r ntz N V ->
  convolving_call mc fe kf ntz N (samples K (p_dt q) e) -> 0 < p_dt q -> (0 <= K)%Z -> excitation L M K (p_dt q) e ->
  signal r mc fe kf ntz N (samples K (p_dt q) e)
    (fun n k => observed q ntz (delay n) (V n) (fun t' => e (delay n + INR k * p_dt q - t'))).
Proof.
  intros HV HX Hdt HK He. eapply signal_ext; [|eapply convolved_matrix; eassumption]. intros n k Hn. cbv beta.
  eapply convolved; eassumption.
Qed.
Lemma shifted_smooth L M K dt e c : excitation L M K dt e -> smooth L M (fun t' => e (c - t')).
Proof.
  intros [[HMe HLe] _]. split; [intros; apply HMe|]. intros t t'. eapply Rle_trans; [apply HLe|]. right. f_equal.
  replace (c - t - (c - t')) with (- (t - t')) by ring. apply Rabs_Ropp.
Qed.

Theorem C109_cylinder : forall fuel c2r fe f nlhs hw env sch junk args a b Rc q ntz ps dty dl L M K e mc fe' kf,
  exact_call c2r fe f nlhs hw env sch args (GCylind a b Rc) q ntz ps dty dl -> all_defined fe fuel q ntz (GCylind a b Rc) ps dty dl ->
  0 <= a -> 0 <= b -> 0 < p_dt q -> 0 < p_cp q -> (1 <= K)%Z -> excitation L M K (p_dt q) e ->
  convolving_call mc fe' kf ntz (length ps) (samples K (p_dt q) e) ->
  exists W, signal (gateway fuel c2r fe f nlhs hw env sch junk args) mc fe' kf ntz (length ps) (samples K (p_dt q) e) W /\
  forall n k, (n < length ps)%nat -> 0 < clearance Rc (nth n ps origin) ->
    inside q ntz (GCylind a b Rc) (start_delay dty dl n) (nth n ps origin) ->
    Rabs (W n k - radiated_cyl (p_cp q) (p_v q) a b Rc (nth n ps origin) (fun t => e (start_delay dty dl n + INR k * p_dt q - t)))
    <= cylinder_error q a b Rc (nth n ps origin) L M.
Proof.
  intros fuel c2r fe f nlhs hw env sch junk args a b Rc q ntz ps dty dl L M K e mc fe' kf HC HD Ha Hb Hdt Hcp HK He HX.
  destruct (C110_cylinder fuel c2r fe f nlhs hw env sch junk args a b Rc q ntz ps dty dl HC HD Ha Hb Hdt Hcp) as (V & HV & H).
  eexists. split; [eapply (signal_observed _ _ _ _ _ _ _ _ (start_delay dty dl)); eauto; lia|]. intros n k Hn Hc Hin. cbv beta.
  apply (H n Hn Hc Hin). eapply shifted_smooth; exact He.
Qed.
Print Assumptions C109_cylinder.

Theorem C109_line : forall fuel c2r fe f nlhs hw env sch junk args a q ntz ps dty dl L M K e mc fe' kf,
  exact_call c2r fe f nlhs hw env sch args (GLine a) q ntz ps dty dl -> all_defined fe fuel q ntz (GLine a) ps dty dl ->
  0 <= a -> 0 < p_dt q -> 0 < p_cp q -> (1 <= K)%Z -> excitation L M K (p_dt q) e ->
  convolving_call mc fe' kf ntz (length ps) (samples K (p_dt q) e) ->
  exists W, signal (gateway fuel c2r fe f nlhs hw env sch junk args) mc fe' kf ntz (length ps) (samples K (p_dt q) e) W /\
  forall n k, (n < length ps)%nat -> 0 < off_axis (nth n ps origin) ->
    inside q ntz (GLine a) (start_delay dty dl n) (nth n ps origin) ->
    Rabs (W n k - radiated_line (p_cp q) (p_v q) a (p_dy q) (nth n ps origin) (fun t => e (start_delay dty dl n + INR k * p_dt q - t)))
    <= line_error q a (nth n ps origin) L M.
Proof.
  intros fuel c2r fe f nlhs hw env sch junk args a q ntz ps dty dl L M K e mc fe' kf HC HD Ha Hdt Hcp HK He HX.
  destruct (C110_line fuel c2r fe f nlhs hw env sch junk args a q ntz ps dty dl HC HD Ha Hdt Hcp) as (V & HV & H).
  eexists. split; [eapply (signal_observed _ _ _ _ _ _ _ _ (start_delay dty dl)); eauto; lia|]. intros n k Hn Hc Hin. cbv beta.
  apply (H n Hn Hc Hin). eapply shifted_smooth; exact He.
Qed.
Print Assumptions C109_line.

Theorem C109_annular : forall fuel c2r fe nlhs hw env sch junk args A q ntz ps dty dl L M K e mc fe' kf,
  exact_annular_call c2r fe nlhs hw env sch args A q ntz ps dty dl -> all_annular_defined fe fuel q ntz A ps dty dl ->
  Nat.Odd (length (an_radii A)) -> centre_ok A -> 0 < p_dt q -> 0 < p_cp q -> (1 <= K)%Z -> excitation L M K (p_dt q) e ->
  convolving_call mc fe' kf ntz (length ps) (samples K (p_dt q) e) ->
  exists W, signal (gateway fuel c2r fe FArrAnnu nlhs hw env sch junk args) mc fe' kf ntz (length ps) (samples K (p_dt q) e) W /\
  forall n k, (n < length ps)%nat -> p_z (nth n ps origin) <> 0 -> annular_inside q ntz A (start_delay dty dl n) (nth n ps origin) ->
    Rabs (W n k - annular_field (p_cp q) (p_v q) A (nth n ps origin) (fun t => e (start_delay dty dl n + INR k * p_dt q - t)))
    <= annular_error q A (p_z (nth n ps origin)) L M.
Proof.
  intros fuel c2r fe nlhs hw env sch junk args A q ntz ps dty dl L M K e mc fe' kf HC HD Ho Hc0 Hdt Hcp HK He HX.
  destruct (C113_field fuel c2r fe nlhs hw env sch junk args A q ntz ps dty dl HC HD Ho Hc0 Hdt Hcp) as (V & HV & H).
  eexists. split; [eapply (signal_observed _ _ _ _ _ _ _ _ (start_delay dty dl)); eauto; lia|]. intros n k Hn Hc Hin. cbv beta.
  apply (H n Hn Hc Hin). eapply shifted_smooth; exact He.
Qed.
Print Assumptions C109_annular.

(** dreamsphere: the same, against the integral the code approximates (C111). *)
Theorem C111_signal_partial : forall fuel c2r fe f nlhs hw env sch junk args r Rc q ntz ps dty dl L M K e mc fe' kf,
  exact_call c2r fe f nlhs hw env sch args (GSphere r Rc) q ntz ps dty dl -> all_defined fe fuel q ntz (GSphere r Rc) ps dty dl ->
  0 <= r < Rabs Rc -> 0 < p_dt q -> 0 < p_cp q -> (1 <= K)%Z -> excitation L M K (p_dt q) e ->
  convolving_call mc fe' kf ntz (length ps) (samples K (p_dt q) e) ->
  exists W, signal (gateway fuel c2r fe f nlhs hw env sch junk args) mc fe' kf ntz (length ps) (samples K (p_dt q) e) W /\
  forall n k, (n < length ps)%nat -> 0 < sphere_clearance Rc (nth n ps origin) ->
    inside q ntz (GSphere r Rc) (start_delay dty dl n) (nth n ps origin) ->
    Rabs (W n k - radiated_projected (p_cp q) (p_v q) r Rc (nth n ps origin) (fun t => e (start_delay dty dl n + INR k * p_dt q - t)))
    <= bowl_error q r Rc (nth n ps origin) L M.
Proof.
  intros fuel c2r fe f nlhs hw env sch junk args r Rc q ntz ps dty dl L M K e mc fe' kf HC HD Ha Hdt Hcp HK He HX.
  destruct (C111_projected_partial fuel c2r fe f nlhs hw env sch junk args r Rc q ntz ps dty dl HC HD Ha Hdt Hcp) as (V & HV & H).
  eexists. split; [eapply (signal_observed _ _ _ _ _ _ _ _ (start_delay dty dl)); eauto; lia|]. intros n k Hn Hc Hin. cbv beta.
  apply (H n Hn Hc Hin). eapply shifted_smooth; exact He.
Qed.
Print Assumptions C111_signal_partial.
