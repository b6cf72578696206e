(** PropAttSigEx.v - concrete calls that meet the hypotheses of C132: a 2 x 1 mm
    plate and two of them, 1/2 dB/(cm MHz), a signal of two samples, fftconv_p
    (Octave) and conv_p (Julia). *)
From Coq Require Strings.String Strings.Ascii.
Import Coq.Strings.String.StringSyntax.
From Coq Require Import Reals List ZArith Lra Lia.
From Verif Require Import Base BaseLemmas ModelSir ModelArr ModelSmp ModelConv NumR SpecSmp SpecSir SpecRayleigh SpecArr SpecDft SpecConv ProofsConv PropConv
  ModelGw SpecGw SpecGwR ProofsR ProofsRayleigh ProofsSirR PropSir PropArr PropGwR SpecPhys ProofsPhys PropPhys PropPhys2 SpecPhysA SpecPhysB PropPhys3 PropPhys3ex SpecSym PropSym PropSymEx
  SpecAtt SpecAtt2 SpecAtt3 PropAtt2 PropAtt2ex PropAtt3 PropAttSym PropAttSymEx ModelCgw SpecCgw PropCgw2 PropField2 SpecAttSig PropAttSig.
Import ListNotations.
Open Scope R_scope.

Definition sig_mc : machine EN :=
  {| mc_hw := 2; mc_env := None; mc_sch := round_robin 4 1; mc_junk := [];
     mc_plan := fun L => dft_plan (Z.to_nat L) junk_trash; mc_import := fun _ => false;
     mc_scr := fun _ => junk_scratch 11; mc_loc := fun _ => (junk_scratch 11, [], []); mc_fuel := 0; mc_ax := false; mc_ay := false |}.
Lemma sig_call fe kf x nt : (1 <= nt)%Z -> length x = 2%nat -> available fe kf -> kf <> KOla -> (kf = KFft -> nt = 10%Z) -> convolving_call sig_mc fe kf nt 1 x.
Proof.
  intros Hnt Hx Hav Hf Hk. constructor; auto; rewrite ?Hx; try (cbn; lia).
  - intros E. rewrite (Hk E). split; [exists junk_trash; split; [intros X; unfold junk_trash; apply map_length|reflexivity]|]. intros n. exact (junk_ok 11).
  - split.
    + intros Hi. cbn in Hi. repeat destruct Hi as [Hi|Hi]; try discriminate Hi; exact Hi.
    + change (num_threads (mc_hw sig_mc) (mc_env sig_mc) (Z.of_nat 1)) with 1%Z.
      intros i Hi. assert (i = 0)%Z by lia. subst i. cbn. lia.
Qed.
Lemma aside_near : near aside.
Proof. unfold near, aside; cbn; repeat split; try lra; apply Rabs_le; lra. Qed.
Example C132_ex : exists W W',
  signal (gateway 10 exact_ifft Octave FRect 1 1 None (round_robin 4 1) [] (pl_args 2 1 exq 0 (1/2) aside)) sig_mc Octave KFft 10 1 [1; -1] W /\
  rsum 11 (W 0%nat) = 0 /\
  signal (gateway 10 exact_ifft Julia FArrRect 1 1 None (round_robin 4 1) [] (aw_args 2 1 exq left_pos right_pos (Some 30) 1 2 aside 1 (1/2))) sig_mc Julia KConv 10 1 [1; -1] W' /\
  rsum 11 (W' 0%nat) = 0 /\
  (forall k, W' 0%nat k = array_signal exq 10 (1/2) (tw left_pos right_pos (Some 30) 1 2) (GRect 2 1) 1 aside [1; -1] k).
Proof.
  assert (D : forall fe, all_defined fe 10 exq 10 (GRect 2 1) [aside] delay_single [0]).
  { intros fe n Hn; cbn in Hn; destruct n; [|lia]; apply near_defined; [exact aside_near|cbn; lra]. }
  destruct (C132_energy_single 10 Octave FRect 1 1 None (round_robin 4 1) [] _ (1/2) (GRect 2 1) exq 10 [aside] delay_single [0] sig_mc Octave KFft [1; -1]
    (pl_call Octave 2 1 exq 0 (1/2) aside half_absorbs) (D Octave) (sig_call Octave KFft [1; -1] 10 ltac:(lia) eq_refl ltac:(left; reflexivity) ltac:(discriminate) ltac:(first [reflexivity|discriminate]))) as (W & HW & HE); [cbn; lra|].
  set (A := tw left_pos right_pos (Some 30) 1 2).
  assert (DA : all_arr_defined Julia 10 exq 10 (GRect 2 1) A [aside] delay_single [1]) by (apply tw_defined; [lra|auto]).
  destruct (C132_energy_array 10 Julia FArrRect 1 1 None (round_robin 4 1) [] _ (1/2) (GRect 2 1) A exq 10 [aside] delay_single [1] sig_mc Julia KConv [1; -1]
    (aw_call Julia 2 1 exq left_pos right_pos (Some 30) 1 2 aside 1 (1/2) half_absorbs) DA
    (sig_call Julia KConv [1; -1] 10 ltac:(lia) eq_refl ltac:(right; right; left; split; [reflexivity|discriminate]) ltac:(discriminate) ltac:(first [reflexivity|discriminate]))) as (W1 & HW1 & HE1); [cbn; lra|].
  pose proof (C132_signal_array 10 Julia FArrRect 1 1 None (round_robin 4 1) [] _ (1/2) (GRect 2 1) A exq 10 [aside] delay_single [1] sig_mc Julia KConv [1; -1]
    (aw_call Julia 2 1 exq left_pos right_pos (Some 30) 1 2 aside 1 (1/2) half_absorbs) DA
    (sig_call Julia KConv [1; -1] 10 ltac:(lia) eq_refl ltac:(right; right; left; split; [reflexivity|discriminate]) ltac:(discriminate) ltac:(first [reflexivity|discriminate]))) as HS.
  exists W. eexists. split; [exact HW|]. split.
  { destruct (HE 0%nat ltac:(cbn; lia)) as [E _]. etransitivity; [exact E|]. change (Rsum [1; -1]) with (1 + (-1 + 0)). ring. }
  split; [exact HS|]. split; [|intros k; reflexivity].
  destruct (HE1 0%nat ltac:(cbn; lia)) as [E _]. etransitivity; [|etransitivity; [exact E|change (Rsum [1; -1]) with (1 + (-1 + 0)); ring]].
  apply ProofsDft.rsum_ext. intros k Hk.
  destruct HS as (H & w & e & Y & EG & EY & _ & HY). destruct HW1 as (H' & w' & e' & Y' & EG' & EY' & _ & HY').
  pose proof (eq_trans (eq_sym EG) EG') as X. injection X as <- _ _. pose proof (eq_trans (eq_sym EY) EY') as X. injection X as <-.
  pose proof (eq_trans (eq_sym (HY 0%nat k Nat.lt_0_1 Hk)) (HY' 0%nat k Nat.lt_0_1 Hk)) as X. injection X as X. exact X.
Qed.
