(** PropArrStopEx.v - non-vacuity of C17_superposition_stop and C44_array_stop:
    the focused two element array of PropPhys4ex with error level 'stop'. *)
From Coq Require Strings.String Strings.Ascii.
Import Coq.Strings.String.StringSyntax.
From Coq Require Import Reals List ZArith Lra Lia.
From Verif Require Import Base BaseLemmas ModelSir ModelArr ModelSmp NumR SpecSmp SpecSir SpecRayleigh SpecArr
  ModelGw SpecGw SpecGwR ProofsR PropSir PropArr PropGwR SpecPhys ProofsPhys SpecPhysA PropPhys3ex SpecPhysB PropPhys4 PropPhys4ex PropField5 PropArrStop.
Import ListNotations.
Local Open Scope string_scope.
Open Scope R_scope.

Definition stop_args : list (value EN) :=
  [@VNum EN Full 1 3 (exact (coords [exo])); erow [2; 1]; @VNum EN Full 2 3 (exact (coords [mk (-1) 0 0; mk 1 0 0]));
   erow [1; 1; 1; 10]; erow [0]; erow [1; 1000; 0];
   VStr "xy"; erow [5]; VStr "off"; erow [0; 0]; VStr "off"; erow [0]; erow [0]; VStr "stop"].
Example C44_array_stop_ex : forall fe junk, exists H w e,
  gateway 10 (map fst) fe FArrRect 1 1 None (round_robin 4 1) junk stop_args = Ok (Some (Returned H 10 1 w e)) /\
  matrix_is H 10 1 (fun n k => superposition exq A5 (GRect 2 1) 0 exo (Z.of_nat k)).
Proof.
  intros fe junk.
  set (p := @Build_arr_par EN 2 (exact (coords [mk (-1) 0 0; mk 1 0 0])) foc_xy [Some 5; Some 0] steer_none
              (Some 0) (Some 0) false apod_gauss [Some 0; Some 0] (Some 0)).
  destruct (C44_array_stop 10 (map fst) fe FArrRect 1 1 None (round_robin 4 1) junk stop_args (GRect 2 1) A5 p
    (@TArrRect EN (Some 2) (Some 1) p) exq 10 [exo] delay_single [0]) as (H & w & e & E & M).
  - apply (@doc_array EN fe FArrRect (exact [2; 1]) p (Some 0) _ (emb_samp exq 10) (Some 0) lvl_stop 1
             (exact (coords [exo])) delay_single (exact [0]) _ _ _ _ _ _ _ _ _ _ _ _ _ [VStr "stop"]).
    + reflexivity.
    + cbn. lia.
    + destruct fe; reflexivity.
    + exists Full. split; [reflexivity|]. split; [left; reflexivity|]. split; [lia|reflexivity].
    + apply row_vec.
    + exists Full. split; [reflexivity|]. split; [left; reflexivity|]. split; [cbn; lia|reflexivity].
    + exists (Some 10). split; [apply row_vec|]. change (ntrunc (n:=EN) (Some 10)) with (Some (Ztruncr (IZR 10))).
      rewrite trunc_IZR. destruct fe; reflexivity.
    + left. exists (Some 0). split; [apply row_vec|auto].
    + apply row_vec.
    + left. exists "xy", (Some 5). split; [reflexivity|]. split; [cbn; auto 10|]. split; [discriminate|]. split; [apply row_vec|reflexivity].
    + exists "off". split; [reflexivity|]. split; [cbn; auto|apply row_vec].
    + split; [apply row_vec|]. left. split; [reflexivity|]. split; [left; reflexivity|]. auto.
    + left. exists "stop". cbn. auto.
  - reflexivity.
  - repeat split.
  - lia.
  - lia.
  - intros xc; apply map_length.
  - lia.
  - destruct (foc2_call fe 2 1 exq (mk (-1) 0 0) (mk 1 0 0) 5 exo 0) as [_ _ _ _ _ Hs]. exact Hs.
  - intros n Hn. pose proof (A5_defined fe n Hn) as D. split; [exact D|]. cbn in Hn. destruct n; [|lia].
    intros i s Hi Hs. cbn [start_delay nth] in *. destruct (C87_array_ex fe) as (I1 & _ & _).
    destruct D as [_ De]. destruct (De i Hi) as [Hq Hg _ _ _ _].
    apply (inside_arrives exq 10 (GRect 2 1)); auto; [cbn; lra|]. now apply element_inside.
  - exists H, w, e. split; [exact E|]. destruct M as [M1 M2]. split; [exact M1|].
    intros n k Hn Hk. assert (n = 0%nat) by lia. subst n. apply M2; auto.
Qed.
