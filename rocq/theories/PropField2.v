(** PropField2.v - property theorem C109: a simulated signal. *)
From Coq Require Strings.String Strings.Ascii.
Import Coq.Strings.String.StringSyntax.
From Coq Require Import Reals List ZArith Lra Lia.
From Verif Require Import Base BaseLemmas ModelSir ModelArr ModelSmp NumR SpecSmp SpecSir SpecRayleigh SpecArr
  ModelGw SpecGw SpecGwR PropGwR PropSir SpecPhys ProofsPhys PropPhys PropPhys2 SpecField ProofsField2 SpecField2 PropField
  SpecDft ModelConv SpecConv ProofsConv ModelCgw SpecCgw PropCgw2.
Import ListNotations.
Open Scope R_scope.

Lemma matrix_exact H r c V : matrix_is H r c V -> exists d, H = exact d /\ length d = (r * c)%nat /\
  forall n, (n < c)%nat -> a_col (Z.of_nat r) d n = map (V n) (seq 0 r).
Proof.
  intros [L HV]. change (@length (option R) H = (r * c)%nat) in L. exists (map (fun x => match x with Some y => y | None => 0 end) H).
  split; [|split].
  - unfold exact. rewrite map_map. rewrite <- (map_id H) at 1. apply map_ext_in. intros x Hx.
    apply In_nth_error in Hx as [i Hi]. 
    assert (Hl : (i < r * c)%nat) by (rewrite <- L; apply nth_error_Some; intros E0; pose proof (eq_trans (eq_sym Hi) E0) as E1; discriminate E1).
    assert (Hr : (r <> 0)%nat) by (intros ->; lia).
    specialize (HV (i / r)%nat (i mod r)%nat ltac:(apply Nat.div_lt_upper_bound; lia) ltac:(now apply Nat.mod_upper_bound)).
    replace (i / r * r + i mod r)%nat with i in HV by (rewrite (Nat.div_mod i r Hr) at 1; lia). pose proof (eq_trans (eq_sym Hi) HV) as E. injection E as ->. reflexivity.
  - rewrite map_length. exact L.
  - intros n Hn. unfold a_col. apply nth_ext with 0 0.
    + rewrite map_length, seq_length. unfold slice. rewrite firstn_length, skipn_length, map_length, L.
      rewrite Nat2Z.id. replace (Z.to_nat (Z.of_nat n * Z.of_nat r)) with (n * r)%nat by lia. nia.
    + intros k Hk. assert (Hk' : (k < r)%nat).
      { unfold slice in Hk. rewrite firstn_length, Nat2Z.id in Hk. lia. }
      rewrite nth_slice. specialize (HV n k Hn Hk').
      rewrite (nth_indep (map (V n) (seq 0 r)) 0 (V n 0%nat)) by (rewrite map_length, seq_length; auto).
      rewrite (map_nth (V n)), seq_nth by auto. cbn [plus].
      replace (k <? Z.to_nat (Z.of_nat r))%nat with true by (rewrite Nat2Z.id; symmetry; now apply Nat.ltb_lt).
      replace (Z.to_nat (Z.of_nat n * Z.of_nat r) + k)%nat with (n * r + k)%nat by lia.
      apply nth_error_nth. apply (map_nth_error (fun x => match x with Some y => y | None => 0 end) _ _ HV).
Qed.

Lemma rsum_Rsum n f : rsum n f = Rsum (map f (seq 0 n)).
Proof. induction n as [|n IH]; [reflexivity|]. rewrite seq_S, map_app, Rsum_app. cbn [rsum map plus]. rewrite IH. change (Rsum [?z]) with (z + 0). ring. Qed.
Lemma rsum_zero_tail f a m : (a <= m)%nat -> (forall i, (a <= i)%nat -> f i = 0) -> rsum m f = rsum a f.
Proof. intros H Hz. induction H as [|m H IH]; [reflexivity|]. cbn [rsum]. rewrite IH, Hz by auto. ring. Qed.
Lemma rsum_ext' n f f' : (forall i, (i < n)%nat -> f i = f' i) -> rsum n f = rsum n f'.
Proof. induction n as [|n IH]; intros H; [reflexivity|]. cbn [rsum]. rewrite IH, H by auto. reflexivity. Qed.
Lemma rsum_scal' n c f : rsum n (fun i => c * f i) = c * rsum n f.
Proof. induction n as [|n IH]; cbn [rsum]; [ring|]. rewrite IH. ring. Qed.

Lemma nth_map_seq (V : nat -> R) N i : nth i (map V (seq 0 N)) 0 = if (i <? N)%nat then V i else 0.
Proof.
  destruct (Nat.ltb_spec i N) as [H|H].
  - rewrite (nth_indep _ 0 (V 0%nat)) by (rewrite map_length, seq_length; auto). rewrite (map_nth V), seq_nth by auto. reflexivity.
  - apply nth_overflow. rewrite map_length, seq_length. lia.
Qed.

Lemma convolved q ntz delay V K e k L M : 0 < p_dt q -> (0 <= K)%Z -> excitation L M K (p_dt q) e ->
  cauchy (map V (seq 0 (Z.to_nat ntz))) (samples K (p_dt q) e) k =
  observed q ntz delay V (fun t' => e (delay + INR k * p_dt q - t')).
Proof.
  intros Hdt HK (_ & Hneg & Hend). unfold observed, cauchy. rewrite <- rsum_Rsum, <- rsum_scal'.
  set (N := Z.to_nat ntz). set (dt := p_dt q) in *.
  set (G := fun i => if (i <? N)%nat then if (i <=? k)%nat then V i * (dt * e (INR (k - i) * dt)) else 0 else 0).
  transitivity (rsum (S k + N) G).
  - transitivity (rsum (S k) G).
    + apply rsum_ext'. intros i Hi. unfold G, samples. rewrite !nth_map_seq.
      replace (i <=? k)%nat with true by (symmetry; apply Nat.leb_le; lia).
      destruct (i <? N)%nat; [|ring]. destruct (Nat.ltb_spec (k - i) (Z.to_nat K)) as [H|H]; [reflexivity|].
      rewrite (Hend (INR (k - i) * dt)); [ring|]. apply Rmult_le_compat_r; [lra|].
      rewrite INR_IZR_INZ. apply IZR_le. lia.
    + symmetry. apply rsum_zero_tail; [lia|]. intros i Hi. unfold G. replace (i <=? k)%nat with false by (symmetry; apply Nat.leb_gt; lia).
      now destruct (i <? N)%nat.
  - transitivity (rsum N G).
    + apply rsum_zero_tail; [lia|]. intros i Hi. unfold G. now replace (i <? N)%nat with false by (symmetry; apply Nat.ltb_ge; lia).
    + apply rsum_ext'. intros i Hi. unfold G. replace (i <? N)%nat with true by (symmetry; apply Nat.ltb_lt; lia).
      replace (delay + INR k * dt - (delay + INR i * dt)) with ((INR k - INR i) * dt) by ring.
      destruct (Nat.leb_spec i k) as [H|H].
      * rewrite minus_INR by auto. ring.
      * rewrite Hneg; [ring|]. apply lt_INR in H. nra.
Qed.

(** C109: the two calls a user makes - the responses, then conv_p or fftconv_p
    of the matrix of responses with the samples of an excitation - give, at
    every observation point and at every time of the record, the exact field
    up to field_error. *)
Theorem C109_signal : forall fuel c2r fe f nlhs hw env sch junk args g q ntz ps dty dl L M K e mc kf,
  exact_call c2r fe f nlhs hw env sch args g q ntz ps dty dl -> all_defined fe fuel q ntz g ps dty dl ->
  flat_geom g -> 0 < p_dt q -> 0 < p_cp q -> (1 <= ntz)%Z -> (1 <= length ps)%nat ->
  (1 <= K)%Z -> excitation L M K (p_dt q) e ->
  available fe kf -> kf <> KOla -> (0 <= mc_hw mc)%Z -> (kf = KFft -> exact_fft mc (ntz + K - 1)) ->
  runs_to_end (mc_hw mc) (mc_env mc) (Z.of_nat (length ps)) (mc_sch mc) ->
  (fe = Octave -> ~ (ntz + K - 1 = 1 /\ Z.of_nat (length ps) = 1)%Z) ->
  exists H w er Y W,
    gateway fuel c2r fe f nlhs hw env sch junk args = Ok (Some (Returned H ntz (Z.of_nat (length ps)) w er)) /\
    conv_gateway mc fe kf 1 [VNum Full ntz (Z.of_nat (length ps)) H; mat K 1 (samples K (p_dt q) e)] =
      Ok (Some (CReturned (ntz + K - 1) (Z.of_nat (length ps)) Y)) /\
    matrix_is Y (Z.to_nat (ntz + K - 1)) (length ps) W /\
    forall n k, (n < length ps)%nat -> (k < Z.to_nat (ntz + K - 1))%nat -> p_z (nth n ps origin) <> 0 ->
      inside q ntz g (start_delay dty dl n) (nth n ps origin) ->
      Rabs (W n k - field (p_cp q) (p_v q) g (nth n ps origin) e (start_delay dty dl n + INR k * p_dt q))
      <= field_error q g (p_z (nth n ps origin)) L M.
Proof.
  intros fuel c2r fe f nlhs hw env sch junk args g q ntz ps dty dl L M K e mc kf HC HD Hg Hdt Hcp Hnt Hps HK He Hav Hkf Hhw Hfft Hrun H11.
  destruct (C108_field fuel c2r fe f nlhs hw env sch junk args g q ntz ps dty dl HC HD Hg Hdt Hcp) as (V & (H & w & er & EG & HM) & HV).
  destruct (matrix_exact H _ _ V HM) as (d & EH & Ld & Hcol).
  assert (Eb : (b_rows K 1 = K)%Z) by (unfold b_rows; rewrite Bool.orb_true_r; lia).
  assert (Ls : length (samples K (p_dt q) e) = Z.to_nat K) by (unfold samples; now rewrite map_length, seq_length).
  destruct (C55_new_matrix_partial mc fe kf 1 (VNum Full ntz (Z.of_nat (length ps)) H) (mat K 1 (samples K (p_dt q) e))
     ntz (Z.of_nat (length ps)) d K 1 (samples K (p_dt q) e)) as (Y & EY & HY); rewrite ?Eb; auto; try lia.
  - exists Full. split; [now rewrite EH|]. split; [discriminate|]. rewrite Ld. lia.
  - exists Full. split; [reflexivity|]. split; [discriminate|]. rewrite Ls. lia.
  - unfold conformable. lia.
  - rewrite Eb in EY, HY. rewrite Nat2Z.id in HY. exists H, w, er, Y, (product ntz d K 1 (samples K (p_dt q) e)).
    split; [exact EG|]. split; [exact EY|]. split; [exact HY|]. intros n k Hn Hk Hz Hin.
    unfold product. specialize (Hcol n Hn). rewrite Z2Nat.id in Hcol by lia. rewrite Hcol.
    unfold b_col. rewrite Bool.orb_true_r.
    rewrite (convolved q ntz (start_delay dty dl n) (V n) K e k L M Hdt ltac:(lia) He). unfold field.
    apply (HV n Hn Hz Hin). destruct He as [[HMe HLe] _]. split; [intros; apply HMe|]. intros t t'.
    eapply Rle_trans; [apply HLe|]. right. f_equal.
    replace (start_delay dty dl n + INR k * p_dt q - t - (start_delay dty dl n + INR k * p_dt q - t')) with (- (t - t')) by ring.
    apply Rabs_Ropp.
Qed.
Print Assumptions C109_signal.

(** ** Non-vacuity: the plate of PropPhys2 and a triangular pulse of 2 us;
    Octave, conv_p. *)
Definition pulse2 (t : R) : R := Rmax 0 (1 - Rabs (t - 1)).
Lemma pulse2_ok : excitation 1 1 2 1 pulse2.
Proof.
  split; [split|split]; unfold pulse2.
  - intros t. pose proof (Rabs_pos (t - 1)). apply Rabs_le. unfold Rmax. destruct (Rle_dec _ _); lra.
  - intros t t'. rewrite Rmult_1_l. unfold Rmax, Rabs. repeat destruct (Rle_dec _ _); repeat destruct (Rcase_abs _); lra.
  - intros t Ht. unfold Rmax, Rabs. destruct (Rle_dec _ _); destruct (Rcase_abs _); lra.
  - intros t Ht. unfold Rmax, Rabs. destruct (Rle_dec _ _); destruct (Rcase_abs _); lra.
Qed.
Example C109_ex : forall junk, exists H w er Y W,
  gateway 10 (map fst) Octave FRect 1 1 None (round_robin 4 1) junk (rect_args 2 1 (exqt 1) 10 0 exo) = Ok (Some (Returned H 10 1 w er)) /\
  conv_gateway (ex_mc (round_robin 4 1)) Octave KConv 1 [VNum Full 10 1 H; mat 2 1 (samples 2 1 pulse2)] = Ok (Some (CReturned 11 1 Y)) /\
  matrix_is Y 11 1 W /\
  forall k, (k < 11)%nat -> Rabs (W 0%nat k - field 1000 1 (GRect 2 1) exo pulse2 (0 + INR k * 1)) <= field_error (exqt 1) (GRect 2 1) 5 1 1.
Proof.
  intros junk. destruct (C108_ex Octave) as (E & D & Hg & Hz & Hin & _).
  destruct (C109_signal 10 (map fst) Octave FRect 1 1 None (round_robin 4 1) junk _ (GRect 2 1) (exqt 1) 10 [exo] delay_single [0] 1 1 2 pulse2
    (ex_mc (round_robin 4 1)) KConv E D Hg) as (H & w & er & Y & W & H1 & H2 & H3 & H4); try (cbn; lra); try (cbn; lia); try discriminate.
  - exact pulse2_ok.
  - left; reflexivity.
  - split.
    + intros Hi. cbn in Hi. repeat destruct Hi as [Hi|Hi]; try discriminate Hi; exact Hi.
    + change (num_threads (mc_hw (ex_mc (round_robin 4 1))) (mc_env (ex_mc (round_robin 4 1))) (Z.of_nat (length [exo]))) with 1%Z.
      intros i Hi. assert (i = 0)%Z by lia. subst i. cbn. lia.
  - exists H, w, er, Y, W. split; [exact H1|]. split; [exact H2|]. split; [exact H3|].
    intros k Hk. apply (H4 0%nat k); auto.
Qed.
