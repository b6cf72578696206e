(** PropAttSig.v - property theorems C132: signals in an absorbing medium. *)
From Coq Require Strings.String Strings.Ascii.
Import Coq.Strings.String.StringSyntax.
From Coq Require Import Reals List ZArith Lra Lia.
From Verif Require Import Base BaseLemmas ModelSir ModelArr ModelSmp ModelConv NumR SpecSmp SpecSir SpecRayleigh SpecArr SpecConv SpecDft ProofsDft
  ModelGw SpecGw SpecGwR PropGwR SpecPhys ProofsPhys SpecPhysA SpecAtt SpecAtt2 SpecAtt3 ProofsAtt3 PropAtt2 PropAtt3 ModelCgw SpecCgw PropCgw2 PropField2 SpecAttSig.
Import ListNotations.
Open Scope R_scope.

Lemma convolved_matrix r mc fe kf ntz N x V : convolving_call mc fe kf ntz N x -> returns r ntz N V ->
  signal r mc fe kf ntz N x (fun n k => cauchy (map (V n) (seq 0 (Z.to_nat ntz))) x k).
Proof.
  intros [Hav Hf Hhw Hx Hl Hp Hfft Hsch Hoct] (H & w & e & EG & HM).
  destruct (matrix_exact H _ _ V HM) as (d & EH & Ld & Hcol).
  set (K := Z.of_nat (length x)) in *.
  assert (Eb : (b_rows K 1 = K)%Z) by (unfold b_rows; rewrite Bool.orb_true_r; lia).
  destruct (C55_new_matrix_partial mc fe kf 1 (VNum Full ntz (Z.of_nat N) H) (mat K 1 x) ntz (Z.of_nat N) d K 1 x) as (Y & EY & HY);
    rewrite ?Eb; auto; try lia.
  - exists Full. split; [now rewrite EH|]. split; [discriminate|]. rewrite Ld. lia.
  - exists Full. split; [reflexivity|]. split; [discriminate|]. lia.
  - unfold conformable. lia.
  - rewrite Eb in EY, HY. rewrite Nat2Z.id in HY. exists H, w, e, Y. split; [exact EG|]. split; [exact EY|].
    destruct HY as [LY HY]. split; [exact LY|]. intros n k Hn Hk. etransitivity; [exact (HY n k Hn Hk)|]. unfold product, b_col. rewrite Bool.orb_true_r.
    specialize (Hcol n Hn). rewrite Z2Nat.id in Hcol by lia. now rewrite Hcol.
Qed.

Lemma cauchy_fun_ext V V' N x k : (forall i, (i < N)%nat -> V i = V' i) -> cauchy (map V (seq 0 N)) x k = cauchy (map V' (seq 0 N)) x k.
Proof. intros H. unfold cauchy. apply ProofsDft.rsum_ext. intros i Hi. rewrite !nth_map_seq. destruct (Nat.ltb_spec i N) as [Hl|Hl]; [now rewrite H|reflexivity]. Qed.
(** Convolution is linear. *)
Lemma cauchy_list {A} (F : A -> nat -> R) (c : A -> R) N x k src :
  cauchy (map (fun i => Rsum (map (fun s => c s * F s i) src)) (seq 0 N)) x k = Rsum (map (fun s => c s * cauchy (map (F s) (seq 0 N)) x k) src).
Proof.
  induction src as [|s src IH].
  - cbn [map Rsum]. unfold cauchy. apply ProofsDft.rsum_0. intros i Hi. rewrite nth_map_seq. destruct (i <? N)%nat; apply Rmult_0_l.
  - change (Rsum (map ?f (s :: src))) with (f s + Rsum (map f src)). cbv beta. rewrite <- IH. unfold cauchy.
    rewrite <- ProofsDft.rsum_scal, <- ProofsDft.rsum_plus. apply ProofsDft.rsum_ext. intros i Hi. rewrite !nth_map_seq. destruct (i <? N)%nat; [|ring].
    change (Rsum (map ?f (s :: src))) with (f s + Rsum (map f src)). cbv beta. ring.
Qed.
Lemma attenuated_heard q ntz alpha w delay o src k : attenuated_sum q ntz alpha w delay o src k =
  Rsum (map (fun s => strength q w o s * green (Z.to_nat ntz) (p_dt q) alpha (dist o s) (arrives_at q delay o s) k) (heard_sources q ntz delay o src)).
Proof.
  unfold attenuated_sum, heard_sources. induction src as [|s src IH]; [reflexivity|]. cbn [map filter].
  change (Rsum (?a :: ?l)) with (a + Rsum l). rewrite IH. destruct (inside q ntz delay o s); [reflexivity|]. apply Rplus_0_l.
Qed.
Lemma heard_convolved q ntz alpha w delay o src x k :
  cauchy (map (attenuated_sum q ntz alpha w delay o src) (seq 0 (Z.to_nat ntz))) x k = heard_signal q ntz alpha w delay o src x k.
Proof. rewrite (cauchy_fun_ext _ _ _ x k (fun i _ => attenuated_heard q ntz alpha w delay o src i)). unfold heard_signal, after_medium. apply cauchy_list. Qed.
Lemma array_convolved q ntz alpha A g delay o x k :
  cauchy (map (attenuated_superposition q ntz alpha A g delay o) (seq 0 (Z.to_nat ntz))) x k = array_signal q ntz alpha A g delay o x k.
Proof.
  unfold attenuated_superposition, array_signal.
  rewrite (cauchy_fun_ext _ (fun i => Rsum (map (fun m => 1 * attenuated_sum q ntz alpha (weight A m) (elem_delay q A delay m) (rel o (elem A m)) (sources q g) i)
            (seq 0 (length (ar_pos A)))))).
  - rewrite (cauchy_list (fun m => attenuated_sum q ntz alpha (weight A m) (elem_delay q A delay m) (rel o (elem A m)) (sources q g)) (fun _ => 1)).
    apply PropAtt2.rsum_ext'. intros m. now rewrite Rmult_1_l, heard_convolved.
  - intros i _. apply PropAtt2.rsum_ext'. intros m. ring.
Qed.
Lemma signal_ext r mc fe kf ntz N x W W' : (forall n k, (n < N)%nat -> W n k = W' n k) -> signal r mc fe kf ntz N x W -> signal r mc fe kf ntz N x W'.
Proof.
  intros E (H & w & e & Y & E1 & E2 & LY & HY). exists H, w, e, Y. split; [exact E1|]. split; [exact E2|]. split; [exact LY|].
  intros n k Hn Hk. etransitivity; [exact (HY n k Hn Hk)|]. now rewrite E.
Qed.

(** C132: the two calls give the sum of the signals the medium has damped and
    delayed over the way from each source point. *)
Theorem C132_signal_single : forall fuel fe f nlhs hw env sch junk args alpha g q ntz ps dty dl mc fe' kf x,
  absorbing_call fe f nlhs hw env sch args alpha g q ntz ps dty dl -> all_defined fe fuel q ntz g ps dty dl ->
  convolving_call mc fe' kf ntz (length ps) x ->
  signal (gateway fuel exact_ifft fe f nlhs hw env sch junk args) mc fe' kf ntz (length ps) x
    (fun n k => heard_signal q ntz alpha 1 (start_delay dty dl n) (nth n ps origin) (sources q g) x k).
Proof.
  intros fuel fe f nlhs hw env sch junk args alpha g q ntz ps dty dl mc fe' kf x HC HD HX.
  eapply signal_ext; [|eapply convolved_matrix; [exact HX|eapply C115_single; eassumption]]. intros n k Hn. cbv beta. apply heard_convolved.
Qed.
Print Assumptions C132_signal_single.
Theorem C132_signal_array : forall fuel fe f nlhs hw env sch junk args alpha g A q ntz ps dty dl mc fe' kf x,
  absorbing_array_call fe f nlhs hw env sch args alpha g A q ntz ps dty dl -> all_arr_defined fe fuel q ntz g A ps dty dl ->
  convolving_call mc fe' kf ntz (length ps) x ->
  signal (gateway fuel exact_ifft fe f nlhs hw env sch junk args) mc fe' kf ntz (length ps) x
    (fun n k => array_signal q ntz alpha A g (start_delay dty dl n) (nth n ps origin) x k).
Proof.
  intros fuel fe f nlhs hw env sch junk args alpha g A q ntz ps dty dl mc fe' kf x HC HD HX.
  eapply signal_ext; [|eapply convolved_matrix; [exact HX|eapply C115_array; eassumption]]. intros n k Hn. cbv beta. apply array_convolved.
Qed.
Print Assumptions C132_signal_array.

(** Sums and energies of convolutions. *)
Lemma weighted_cs m (a w : nat -> R) : (forall i, 0 <= w i) ->
  (rsum m (fun i => a i * w i))^2 <= rsum m w * rsum m (fun i => a i * a i * w i) /\ 0 <= rsum m w /\ 0 <= rsum m (fun i => a i * a i * w i).
Proof.
  intros Hw. induction m as [|m (IH & H1 & H2)]; cbn [rsum]; [lra|].
  specialize (Hw m). set (A := rsum m (fun i => a i * w i)) in *. set (S := rsum m w) in *. set (Q := rsum m (fun i => a i * a i * w i)) in *.
  assert (Hq : 0 <= a m * a m * w m) by (apply Rmult_le_pos; [apply Rle_0_sqr|exact Hw]).
  split; [|split; lra].
  assert (K : 2 * A * a m <= S * (a m * a m) + Q).
  { apply Rsqr_incr_0_var; [unfold Rsqr|pose proof (Rle_0_sqr (a m)); unfold Rsqr in *; nra].
    apply Rle_trans with (4 * (a m * a m) * (S * Q)).
    - replace (2 * A * a m * (2 * A * a m)) with (4 * (a m * a m) * A^2) by ring. apply Rmult_le_compat_l; [|exact IH]. pose proof (Rle_0_sqr (a m)). unfold Rsqr in *. lra.
    - pose proof (Rle_0_sqr (S * (a m * a m) - Q)). unfold Rsqr in *. nra. }
  apply (Rmult_le_compat_r (w m)) in K; [|exact Hw]. nra.
Qed.
Lemma rsum_abs_le m f : Rabs (rsum m f) <= rsum m (fun i => Rabs (f i)).
Proof. induction m as [|m IH]; cbn [rsum]; [rewrite Rabs_R0; lra|]. eapply Rle_trans; [apply Rabs_triang|lra]. Qed.
Lemma rsum_list_nth (x : list R) m : (length x <= m)%nat -> rsum m (fun i => nth i x 0) = Rsum x.
Proof.
  revert m. induction x as [|a x IH]; intros m Hm.
  - cbn [Rsum]. apply ProofsDft.rsum_0. intros i _. now destruct i.
  - destruct m as [|m]; [cbn in Hm; lia|]. rewrite ProofsDft.rsum_S_l. cbn [nth]. rewrite IH by (cbn in Hm; lia). reflexivity.
Qed.
Lemma Rsum_seq_map (V : nat -> R) N : Rsum (map V (seq 0 N)) = rsum N V.
Proof. now rewrite <- PropField2.rsum_Rsum. Qed.
Lemma cauchy_total v x : (1 <= length v)%nat -> (1 <= length x)%nat ->
  rsum (length v + length x - 1) (cauchy v x) = Rsum v * Rsum x.
Proof.
  intros Hv Hx. rewrite <- dft_re_0, dft_conv_re by auto. rewrite !dft_re_0.
  assert (Z0 : forall L f, dft_im L f 0 = 0).
  { intros L f. unfold dft_im. rewrite (ProofsDft.rsum_0 L); [ring|]. intros n _. cbn [INR]. rewrite Rmult_0_l. unfold ang, Rdiv. rewrite Rmult_0_r, Rmult_0_l, sin_0. ring. }
  rewrite !Z0. change (fun n => nth n v 0) with (fun n : nat => nth n v 0). rewrite !rsum_list_nth by lia. ring.
Qed.
Lemma nth_map0 (f : R -> R) l i : f 0 = 0 -> nth i (map f l) 0 = f (nth i l 0).
Proof. intros H. rewrite <- H at 1. apply map_nth. Qed.
Lemma young v x : (1 <= length v)%nat -> (1 <= length x)%nat ->
  energy (length v + length x - 1) (cauchy v x) <= (Rsum (map Rabs x))^2 * Rsum (map (fun a => a * a) v).
Proof.
  intros Hv Hx. set (M := (length v + length x - 1)%nat). set (S := Rsum (map Rabs x)).
  assert (HS : forall m, rsum m (fun i => Rabs (nth i x 0)) <= S).
  { intros m. unfold S. rewrite <- (rsum_list_nth (map Rabs x) (m + length x)) by (rewrite map_length; lia). rewrite ProofsDft.rsum_app.
    rewrite <- (Rplus_0_r (rsum m _)). apply Rplus_le_compat.
    - right. apply ProofsDft.rsum_ext. intros i _. now rewrite (nth_map0 Rabs) by apply Rabs_R0.
    - apply Rle_trans with (rsum (length x) (fun _ => 0)); [right; symmetry; now apply ProofsDft.rsum_0|]. apply rsum_le. intros i _. rewrite (nth_map0 Rabs) by apply Rabs_R0. apply Rabs_pos. }
  assert (HS0 : 0 <= S) by (specialize (HS O); cbn [rsum] in HS; exact HS).
  apply Rle_trans with (rsum M (fun k => S * cauchy (map (fun a => a * a) v) (map Rabs x) k)).
  - unfold energy. apply rsum_le. intros k _.
    pose (w := fun i => if (i <=? k)%nat then Rabs (nth (k - i) x 0) else 0).
    assert (Hw : forall i, 0 <= w i) by (intros i; unfold w; destruct (i <=? k)%nat; [apply Rabs_pos|lra]).
    destruct (weighted_cs (Datatypes.S k) (fun i => Rabs (nth i v 0)) w Hw) as (C1 & C2 & C3).
    assert (E1 : Rabs (cauchy v x k) <= rsum (Datatypes.S k) (fun i => Rabs (nth i v 0) * w i)).
    { eapply Rle_trans; [apply rsum_abs_le|]. right. apply ProofsDft.rsum_ext. intros i Hi. unfold w.
      replace (i <=? k)%nat with true by (symmetry; apply Nat.leb_le; lia). apply Rabs_mult. }
    assert (E2 : rsum (Datatypes.S k) w <= S).
    { eapply Rle_trans; [|apply (HS (Datatypes.S k))]. right. rewrite ProofsDft.rsum_rev. apply ProofsDft.rsum_ext. intros i Hi. unfold w.
      replace (Datatypes.S k - 1 - i <=? k)%nat with true by (symmetry; apply Nat.leb_le; lia). do 2 f_equal. lia. }
    assert (E3 : rsum (Datatypes.S k) (fun i => Rabs (nth i v 0) * Rabs (nth i v 0) * w i) = cauchy (map (fun a => a * a) v) (map Rabs x) k).
    { unfold cauchy. apply ProofsDft.rsum_ext. intros i Hi. rewrite (nth_map0 (fun a => a * a)) by ring. rewrite (nth_map0 Rabs) by apply Rabs_R0. unfold w.
      replace (i <=? k)%nat with true by (symmetry; apply Nat.leb_le; lia). rewrite <- Rabs_mult, (Rabs_pos_eq (_ * _)); [reflexivity|apply Rle_0_sqr]. }
    rewrite E3 in C1, C3.
    replace (cauchy v x k * cauchy v x k) with (Rabs (cauchy v x k) ^ 2) by (rewrite pow2_abs; ring).
    apply Rle_trans with ((rsum (Datatypes.S k) (fun i => Rabs (nth i v 0) * w i))^2).
    + apply pow_incr. split; [apply Rabs_pos|exact E1].
    + eapply Rle_trans; [exact C1|]. apply Rmult_le_compat_r; [exact C3|exact E2].
  - rewrite ProofsDft.rsum_scal. pose proof (cauchy_total (map (fun a => a * a) v) (map Rabs x)) as E. rewrite !map_length in E. fold M in E. rewrite E by auto.
    fold S. right. ring.
Qed.

Lemma signal_sums ntz (V : nat -> R) x : (1 <= ntz)%Z -> (1 <= length x)%nat ->
  let M := Z.to_nat (ntz + Z.of_nat (length x) - 1) in
  rsum M (cauchy (map V (seq 0 (Z.to_nat ntz))) x) = Rsum x * rsum (Z.to_nat ntz) V /\
  energy M (cauchy (map V (seq 0 (Z.to_nat ntz))) x) <= (Rsum (map Rabs x))^2 * energy (Z.to_nat ntz) V.
Proof.
  intros Hn Hx M. set (v := map V (seq 0 (Z.to_nat ntz))).
  assert (Lv : length v = Z.to_nat ntz) by (unfold v; now rewrite map_length, seq_length).
  assert (EM : M = (length v + length x - 1)%nat) by (unfold M; lia). rewrite EM. split.
  - rewrite cauchy_total by lia. unfold v. rewrite Rsum_seq_map. ring.
  - eapply Rle_trans; [apply young; lia|]. right. f_equal. unfold v, energy. rewrite map_map. apply Rsum_seq_map.
Qed.

(** C132: absorption takes nothing from the time integral of the signal, and
    its energy is at most that of the excitation damped over the shortest way. *)
Theorem C132_energy_single : forall fuel fe f nlhs hw env sch junk args alpha g q ntz ps dty dl mc fe' kf x,
  absorbing_call fe f nlhs hw env sch args alpha g q ntz ps dty dl -> all_defined fe fuel q ntz g ps dty dl ->
  convolving_call mc fe' kf ntz (length ps) x -> 0 < p_dt q ->
  exists W, signal (gateway fuel exact_ifft fe f nlhs hw env sch junk args) mc fe' kf ntz (length ps) x W /\
  let M := Z.to_nat (ntz + Z.of_nat (length x) - 1) in
  forall n, (n < length ps)%nat ->
    let hs := heard_sources q ntz (start_delay dty dl n) (nth n ps origin) (sources q g) in
    rsum M (W n) = Rsum x * Rsum (map (strength q 1 (nth n ps origin)) hs) /\
    forall r0, (forall s, In s (sources q g) -> r0 <= dist (nth n ps origin) s) ->
      energy M (W n) <= (Rsum (map Rabs x))^2 *
        ((Rsum (map (fun s => Rabs (strength q 1 (nth n ps origin) s)) hs))^2 * unit_energy (Z.to_nat ntz) (p_dt q) alpha r0).
Proof.
  intros fuel fe f nlhs hw env sch junk args alpha g q ntz ps dty dl mc fe' kf x HC HD HX Hdt.
  pose proof (C115_single fuel fe f nlhs hw env sch junk args alpha g q ntz ps dty dl HC HD) as HV.
  eexists. split; [eapply convolved_matrix; [exact HX|exact HV]|]. intros M n Hn hs.
  destruct HX as [_ _ _ Hx Hl _ _ _ _]. destruct HC as [_ _ Hnt _ Ha _].
  match goal with |- context [rsum M ?w] => change w with (cauchy (map (attenuated_sum q ntz alpha 1 (start_delay dty dl n) (nth n ps origin) (sources q g)) (seq 0 (Z.to_nat ntz))) x) end.
  destruct (signal_sums ntz (attenuated_sum q ntz alpha 1 (start_delay dty dl n) (nth n ps origin) (sources q g)) x Hl Hx) as [S1 S2]. fold M in S1, S2.
  split; [rewrite S1, sum_dc by exact Hnt; reflexivity|]. intros r0 Hr.
  eapply Rle_trans; [exact S2|]. apply Rmult_le_compat_l; [apply pow2_ge_0|].
  apply energy_bound; [lia|]. intros k Hk. apply sum_power_near; auto. now apply alpha_pos.
Qed.
Print Assumptions C132_energy_single.

Lemma returns_same r ntz N V V' : returns r ntz N V -> returns r ntz N V' -> forall n k, (n < N)%nat -> (k < Z.to_nat ntz)%nat -> V n k = V' n k.
Proof.
  intros (H & w & e & E & _ & HV) (H' & w' & e' & E' & _ & HV') n k Hn Hk. pose proof (eq_trans (eq_sym E) E') as X. injection X as <- _ _.
  pose proof (eq_trans (eq_sym (HV n k Hn Hk)) (HV' n k Hn Hk)) as X. now injection X.
Qed.
Theorem C132_energy_array : forall fuel fe f nlhs hw env sch junk args alpha g A q ntz ps dty dl mc fe' kf x,
  absorbing_array_call fe f nlhs hw env sch args alpha g A q ntz ps dty dl -> all_arr_defined fe fuel q ntz g A ps dty dl ->
  convolving_call mc fe' kf ntz (length ps) x -> 0 < p_dt q ->
  exists W, signal (gateway fuel exact_ifft fe f nlhs hw env sch junk args) mc fe' kf ntz (length ps) x W /\
  let M := Z.to_nat (ntz + Z.of_nat (length x) - 1) in
  forall n, (n < length ps)%nat ->
    rsum M (W n) = Rsum x * Rsum (map (fun i => Rsum (map (strength q (weight A i) (rel (nth n ps origin) (elem A i)))
      (heard_sources q ntz (elem_delay q A (start_delay dty dl n) i) (rel (nth n ps origin) (elem A i)) (sources q g)))) (seq 0 (length (ar_pos A)))) /\
    forall r0, (forall i s, (i < length (ar_pos A))%nat -> In s (sources q g) -> r0 <= dist (rel (nth n ps origin) (elem A i)) s) ->
      energy M (W n) <= (Rsum (map Rabs x))^2 *
        ((Rsum (map (element_strength q ntz A g (start_delay dty dl n) (nth n ps origin)) (seq 0 (length (ar_pos A)))))^2 * unit_energy (Z.to_nat ntz) (p_dt q) alpha r0).
Proof.
  intros fuel fe f nlhs hw env sch junk args alpha g A q ntz ps dty dl mc fe' kf x HC HD HX Hdt.
  pose proof (C115_array fuel fe f nlhs hw env sch junk args alpha g A q ntz ps dty dl HC HD) as HV.
  destruct (C123_energy_array fuel fe f nlhs hw env sch junk args alpha g A q ntz ps dty dl HC HD Hdt) as (V' & HV' & HE).
  eexists. split; [eapply convolved_matrix; [exact HX|exact HV]|]. intros M n Hn.
  destruct HX as [_ _ _ Hx Hl _ _ _ _]. destruct HC as [_ _ Hnt _ Ha _].
  match goal with |- context [rsum M ?w] => change w with (cauchy (map (attenuated_superposition q ntz alpha A g (start_delay dty dl n) (nth n ps origin)) (seq 0 (Z.to_nat ntz))) x) end.
  destruct (signal_sums ntz (attenuated_superposition q ntz alpha A g (start_delay dty dl n) (nth n ps origin)) x Hl Hx) as [S1 S2]. fold M in S1, S2.
  split.
  - rewrite S1. f_equal. unfold attenuated_superposition. rewrite rsum_elems. f_equal. apply map_ext. intros i. now apply sum_dc.
  - intros r0 Hr. eapply Rle_trans; [exact S2|]. apply Rmult_le_compat_l; [apply pow2_ge_0|].
    specialize (HE n r0 Hn Hr). eapply Rle_trans; [|exact HE]. right. unfold energy. apply ProofsDft.rsum_ext. intros k Hk.
    now rewrite (returns_same _ _ _ _ _ HV' HV n k Hn Hk).
Qed.
Print Assumptions C132_energy_array.
