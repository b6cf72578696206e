(** PropAtt2.v - property theorems C115 - C118: calls in an absorbing medium. *)
From Coq Require Strings.String Strings.Ascii.
Import Coq.Strings.String.StringSyntax.
From Coq Require Import Reals List ZArith Lra Lia.
From Verif Require Import Base BaseLemmas ModelSir ModelArr ModelSmp NumR SpecSmp SpecSir SpecRayleigh SpecArr ModelConv
  ModelGw SpecGw SpecGwR ProofsR ProofsRayleigh ProofsSirR ProofsArr PropSir PropArr PropErr ProofsGwR PropGwR SpecPhys SpecPhysA ProofsPhys PropPhys
  SpecDft ProofsDft ProofsDft2 SpecAtt ProofsAtt PropAtt SpecAtt2 ProofsAtt2.
From Coq Require Import ZifyBool ZifyNat.
Import ListNotations.
Open Scope R_scope.

(** C115: the returned matrix holds the sum of the absorbed pulses of the source
    points. *)
Theorem C115_single : forall fuel fe f nlhs hw env sch junk args alpha g q ntz ps dty dl,
  absorbing_call fe f nlhs hw env sch args alpha g q ntz ps dty dl -> all_defined fe fuel q ntz g ps dty dl ->
  returns (gateway fuel exact_ifft fe f nlhs hw env sch junk args) ntz (length ps)
    (fun n k => attenuated_sum q ntz alpha 1 (start_delay dty dl n) (nth n ps origin) (sources q g) k).
Proof.
  intros fuel fe f nlhs hw env sch junk args alpha g q ntz ps dty dl [(l & Hl & D) H1 H2 H3 H4 H5] HD.
  eapply exact_call_att; eauto.
  - intros p X. exfalso. destruct g; discriminate X.
  - intros n Hn o.
    destruct (C23_response (idx_of fe) fuel q ntz alpha g l (start_delay dty dl n) o (repeat 0 (Z.to_nat ntz)) (HD n Hn)
                H2 (repeat_length _ _) Hl) as (out & e & Es & Lo & _ & Hv).
    exists out, e. split; [exact Es|]. split; [|split; [exact Lo|]].
    + unfold sir_att in Es. pose proof (C07_code_any EN _ _ _ _ _ _ _ _ _ _ _ _ _ _ Es) as He. destruct He as [-> | ->]; destruct Hl as [-> | ->]; discriminate.
    + intros k Hk'. rewrite (Hv k Hk'), old_zeros by exact Hk'. fold o. ring.
Qed.
Print Assumptions C115_single.

Theorem C115_array : forall fuel fe f nlhs hw env sch junk args alpha g A q ntz ps dty dl,
  absorbing_array_call fe f nlhs hw env sch args alpha g A q ntz ps dty dl -> all_arr_defined fe fuel q ntz g A ps dty dl ->
  returns (gateway fuel exact_ifft fe f nlhs hw env sch junk args) ntz (length ps)
    (fun n k => attenuated_superposition q ntz alpha A g (start_delay dty dl n) (nth n ps origin) k).
Proof.
  intros fuel fe f nlhs hw env sch junk args alpha g A q ntz ps dty dl [(l & p & T & Hl & HT & HA & D) H1 H2 H3 H4 H5] HD.
  assert (S : array_shape g) by (destruct g; try discriminate HT; exact I).
  eapply exact_call_att; eauto.
  - intros p' ->. exfalso. destruct g; discriminate HT.
  - intros n Hn o.
    pose proof (names_serial_att (idx_of fe) fuel g p A T q ntz alpha l (start_delay dty dl n) o (repeat 0 (Z.to_nat ntz)) HA HT) as EN1.
    destruct (C23_response_array (idx_of fe) fuel q ntz alpha g A l (start_delay dty dl n) o (repeat 0 (Z.to_nat ntz)) S (HD n Hn)
                H2 (repeat_length _ _) Hl) as (out & e & Es & Lo & Hv).
    rewrite EN1 in Es. injection Es as Es.
    exists out, e. split; [exact Es|]. split; [|split; [exact Lo|]].
    + pose proof (C07_code_any EN _ _ _ _ _ _ _ _ _ _ _ _ _ _ Es) as He. destruct He as [-> | ->]; destruct Hl as [-> | ->]; discriminate.
    + intros k Hk'. rewrite (Hv k Hk'). fold o. unfold old_arr. destruct g; rewrite ?nth_repeat; ring.
Qed.
Print Assumptions C115_array.

(** ** Spectra *)
Lemma dft_re_ext L x y k : (forall n, (n < L)%nat -> x n = y n) -> dft_re L x k = dft_re L y k.
Proof. intros H. apply rsum_ext. intros n Hn. now rewrite H. Qed.
Lemma dft_im_ext L x y k : (forall n, (n < L)%nat -> x n = y n) -> dft_im L x k = dft_im L y k.
Proof. intros H. unfold dft_im. f_equal. apply rsum_ext. intros n Hn. now rewrite H. Qed.
Lemma green_mag_damping L dt alpha r k : dt <> 0 -> (0 < L)%nat -> green_mag L dt alpha r k = damping alpha (frequency L dt k) r.
Proof.
  intros Hdt HL. unfold green_mag, damping, frequency, neper, omega. f_equal. f_equal.
  assert (INR L <> 0) by (apply not_0_INR; lia). pose proof PI_RGT_0. field. lra.
Qed.
Lemma green_bin L dt alpha r it k : (2 * k < L)%nat ->
  dft_re L (green L dt alpha r it) k = green_re L dt alpha r it k /\ dft_im L (green L dt alpha r it) k = green_im L dt alpha r it k.
Proof.
  intros H. unfold green. rewrite dft_idft_re, dft_idft_im by exact H. split; [reflexivity|]. destruct k; reflexivity.
Qed.
Lemma green_power L dt alpha r it k : dt <> 0 -> (2 * k < L)%nat ->
  (green_re L dt alpha r it k)^2 + (green_im L dt alpha r it k)^2 = (damping alpha (frequency L dt k) r)^2.
Proof.
  intros Hdt H. destruct k.
  - cbn [green_re green_im]. unfold damping, frequency. cbn [INR]. unfold Rdiv at 2. rewrite Rmult_0_l. rewrite Rmult_0_r, Rmult_0_l, Ropp_0, exp_0. ring.
  - cbn [green_re green_im]. rewrite <- green_mag_damping by (auto; lia). set (m := green_mag _ _ _ _ _). set (p := green_ph _ _ _ _ _ _).
    replace ((m * cos p)^2 + (m * sin p)^2) with (m^2 * ((sin p)^2 + (cos p)^2)) by ring.
    rewrite <- !Rsqr_pow2, sin2_cos2. ring.
Qed.

Lemma filter_sum (p : source -> bool) (f : source -> R) src :
  Rsum (map (fun s => if p s then f s else 0) src) = Rsum (map f (filter p src)).
Proof.
  induction src as [|s src IH]; [reflexivity|]. cbn [map filter].
  change (Rsum ((if p s then f s else 0) :: map (fun s0 => if p s0 then f s0 else 0) src)) with ((if p s then f s else 0) + Rsum (map (fun s0 => if p s0 then f s0 else 0) src)).
  rewrite IH. destruct (p s); cbn [map]; [reflexivity|apply Rplus_0_l].
Qed.
Lemma rsum_list L (F : source -> nat -> R) src : rsum L (fun n => Rsum (map (fun s => F s n) src)) = Rsum (map (fun s => rsum L (F s)) src).
Proof.
  induction src as [|s src IH].
  - cbn. apply rsum_0. reflexivity.
  - change (rsum L (fun n => F s n + Rsum (map (fun s0 => F s0 n) src)) = rsum L (F s) + Rsum (map (fun s0 => rsum L (F s0)) src)).
    rewrite rsum_plus, IH. reflexivity.
Qed.
Lemma Rsum_scal_r (f : source -> R) c src : Rsum (map f src) * c = Rsum (map (fun s => f s * c) src).
Proof. induction src as [|s src IH]; cbn; [ring|]. unfold Rsum in IH. rewrite <- IH. ring. Qed.
Lemma Rsum_opp (f : source -> R) src : - Rsum (map f src) = Rsum (map (fun s => - f s) src).
Proof. induction src as [|s src IH]; cbn; [ring|]. unfold Rsum in IH. rewrite <- IH. ring. Qed.
Lemma rsum_ext' {A} (f g : A -> R) l : (forall s, f s = g s) -> Rsum (map f l) = Rsum (map g l).
Proof. intros H. f_equal. apply map_ext. exact H. Qed.
Lemma sum_spectrum q ntz alpha w delay o src k : (2 * k < Z.to_nat ntz)%nat ->
  let L := Z.to_nat ntz in let x := attenuated_sum q ntz alpha w delay o src in
  dft_re L x k = Rsum (map (fun s => strength q w o s * green_re L (p_dt q) alpha (dist o s) (arrives_at q delay o s) k) (heard_sources q ntz delay o src)) /\
  dft_im L x k = Rsum (map (fun s => strength q w o s * green_im L (p_dt q) alpha (dist o s) (arrives_at q delay o s) k) (heard_sources q ntz delay o src)).
Proof.
  intros Hk L x.
  assert (Ex : forall n, x n = Rsum (map (fun s => strength q w o s * green L (p_dt q) alpha (dist o s) (arrives_at q delay o s) n) (heard_sources q ntz delay o src))).
  { intros n. unfold x, attenuated_sum, heard_sources. apply filter_sum. }
  split.
  - unfold dft_re. rewrite (rsum_ext _ _ (fun n => Rsum (map (fun s => strength q w o s * (green L (p_dt q) alpha (dist o s) (arrives_at q delay o s) n * cos (ang L (INR k * INR n)))) (heard_sources q ntz delay o src)))).
    + rewrite (rsum_list L (fun s n => strength q w o s * (green L (p_dt q) alpha (dist o s) (arrives_at q delay o s) n * cos (ang L (INR k * INR n))))).
      apply rsum_ext'. intros s. rewrite rsum_scal. f_equal. apply (proj1 (green_bin L (p_dt q) alpha (dist o s) (arrives_at q delay o s) k Hk)).
    + intros n _. rewrite Ex, Rsum_scal_r. apply rsum_ext'. intros s. ring.
  - unfold dft_im. rewrite (rsum_ext _ _ (fun n => Rsum (map (fun s => strength q w o s * (green L (p_dt q) alpha (dist o s) (arrives_at q delay o s) n * sin (ang L (INR k * INR n)))) (heard_sources q ntz delay o src)))).
    + rewrite (rsum_list L (fun s n => strength q w o s * (green L (p_dt q) alpha (dist o s) (arrives_at q delay o s) n * sin (ang L (INR k * INR n))))).
      rewrite Rsum_opp. apply rsum_ext'. intros s. rewrite rsum_scal, Ropp_mult_distr_r. f_equal.
      apply (proj2 (green_bin L (p_dt q) alpha (dist o s) (arrives_at q delay o s) k Hk)).
    + intros n _. rewrite Ex, Rsum_scal_r. apply rsum_ext'. intros s. ring.
Qed.

(** A sum of vectors is not longer than the sum of the lengths. *)
Lemma norm_add a b c d A B : 0 <= A -> 0 <= B -> a^2 + b^2 <= A^2 -> c^2 + d^2 <= B^2 -> (a + c)^2 + (b + d)^2 <= (A + B)^2.
Proof.
  intros HA HB H1 H2.
  assert (C : a * c + b * d <= A * B).
  { apply Rsqr_incr_0_var; [|nra]. unfold Rsqr.
    assert ((a * c + b * d)^2 <= (a^2 + b^2) * (c^2 + d^2)) by (pose proof (pow2_ge_0 (a * d - b * c)); nra).
    assert ((a^2 + b^2) * (c^2 + d^2) <= A^2 * B^2).
    { apply Rmult_le_compat; auto; pose proof (pow2_ge_0 a); pose proof (pow2_ge_0 b); pose proof (pow2_ge_0 c); pose proof (pow2_ge_0 d); lra. }
    nra. }
  nra.
Qed.
Lemma vec_sum {A} (re im m : A -> R) l : (forall s, 0 <= m s) -> (forall s, (re s)^2 + (im s)^2 <= (m s)^2) ->
  0 <= Rsum (map m l) /\ (Rsum (map re l))^2 + (Rsum (map im l))^2 <= (Rsum (map m l))^2.
Proof.
  intros Hm H. induction l as [|s l [I1 I2]].
  - cbn. split; lra.
  - change (Rsum (map m (s :: l))) with (m s + Rsum (map m l)). change (Rsum (map re (s :: l))) with (re s + Rsum (map re l)).
    change (Rsum (map im (s :: l))) with (im s + Rsum (map im l)). split; [specialize (Hm s); lra|]. apply norm_add; auto.
Qed.
Lemma sum_power q ntz alpha w delay o src k : p_dt q <> 0 -> (2 * k < Z.to_nat ntz)%nat ->
  power (Z.to_nat ntz) (attenuated_sum q ntz alpha w delay o src) k <=
  (Rsum (map (fun s => Rabs (strength q w o s) * damping alpha (frequency (Z.to_nat ntz) (p_dt q) k) (dist o s)) (heard_sources q ntz delay o src)))^2.
Proof.
  intros Hdt Hk. unfold power. destruct (sum_spectrum q ntz alpha w delay o src k Hk) as [-> ->]. apply vec_sum.
  - intros s. apply Rmult_le_pos; [apply Rabs_pos|]. unfold damping. left. apply exp_pos.
  - intros s. rewrite !Rpow_mult_distr, <- Rmult_plus_distr_l, green_power by auto. rewrite pow2_abs. lra.
Qed.

(** C116: every frequency of the response is damped at least as much as over
    the way to the nearest source point: bin k of the spectrum of a column is at
    most the sum of the source strengths times exp(-alpha f r0), where r0 is a
    lower bound of the distances. *)
Lemma damping_mono alpha f r r' : 0 <= alpha -> 0 <= f -> r <= r' -> damping alpha f r' <= damping alpha f r.
Proof.
  intros Ha Hf Hr. unfold damping. assert (0 <= alpha / 86860 * f) by (apply Rmult_le_pos; lra).
  assert (alpha / 86860 * f * (r / 1000) <= alpha / 86860 * f * (r' / 1000)) by (apply Rmult_le_compat_l; lra).
  destruct (Rle_lt_or_eq_dec _ _ H0) as [E|E]; [left; apply exp_increasing; lra|right; now rewrite E].
Qed.
Lemma frequency_pos L dt k : 0 < dt -> (0 < L)%nat -> 0 <= frequency L dt k.
Proof.
  intros Hd HL. unfold frequency. assert (0 < INR L) by (apply lt_0_INR; lia). pose proof (pos_INR k).
  apply Rmult_le_pos; auto. left. apply Rinv_0_lt_compat. apply Rmult_lt_0_compat; lra.
Qed.
Lemma sum_nearest q ntz alpha delay o src k r0 : 0 < p_dt q -> 0 <= alpha -> (2 * k < Z.to_nat ntz)%nat -> (forall s, In s src -> r0 <= dist o s) ->
  power (Z.to_nat ntz) (attenuated_sum q ntz alpha 1 delay o src) k <=
  (damping alpha (frequency (Z.to_nat ntz) (p_dt q) k) r0 * Rsum (map (fun s => Rabs (strength q 1 o s)) (heard_sources q ntz delay o src)))^2.
Proof.
  intros Hdt Ha Hk Hr. eapply Rle_trans; [apply sum_power; lra || auto|].
  assert (Hf : 0 <= frequency (Z.to_nat ntz) (p_dt q) k) by (apply frequency_pos; auto; lia).
  apply pow_incr. split.
  - unfold Rsum. induction (heard_sources q ntz delay o src) as [|s l IH]; cbn; [lra|]. apply Rplus_le_le_0_compat; auto.
    apply Rmult_le_pos; [apply Rabs_pos|]. unfold damping. left. apply exp_pos.
  - rewrite Rmult_comm, Rsum_scal_r.
    assert (Hin : forall s, In s (heard_sources q ntz delay o src) -> r0 <= dist o s) by (intros s Hs; apply filter_In in Hs as [Hs _]; auto).
    induction (heard_sources q ntz delay o src) as [|s l IH]; cbn; [lra|].
    apply Rplus_le_compat; [|apply IH; intros; apply Hin; now right].
    apply Rmult_le_compat_l; [apply Rabs_pos|]. apply damping_mono; auto. apply Hin. now left.
Qed.
Theorem C116_damping : forall fuel fe f nlhs hw env sch junk args alpha g q ntz ps dty dl,
  absorbing_call fe f nlhs hw env sch args alpha g q ntz ps dty dl -> all_defined fe fuel q ntz g ps dty dl -> 0 < p_dt q ->
  exists V, returns (gateway fuel exact_ifft fe f nlhs hw env sch junk args) ntz (length ps) V /\
  forall n k r0, (n < length ps)%nat -> (2 * k < Z.to_nat ntz)%nat ->
    (forall s, In s (sources q g) -> r0 <= dist (nth n ps origin) s) ->
    power (Z.to_nat ntz) (V n) k <=
    (damping alpha (frequency (Z.to_nat ntz) (p_dt q) k) r0 *
     Rsum (map (fun s => Rabs (strength q 1 (nth n ps origin) s)) (heard_sources q ntz (start_delay dty dl n) (nth n ps origin) (sources q g))))^2.
Proof.
  intros fuel fe f nlhs hw env sch junk args alpha g q ntz ps dty dl HC HD Hdt.
  eexists. split; [eapply C115_single; eassumption|]. cbv beta. intros n k r0 Hn Hk Hr. apply sum_nearest; auto.
  destruct HC as [_ _ _ _ Ha _]. assert (0 < / 2^52) by (apply Rinv_0_lt_compat, pow_lt; lra). lra.
Qed.
Print Assumptions C116_damping.

(** ... arrays: the strengths of the source points of all elements. *)
Definition element_strength (q : rpar) (ntz : Z) (A : array) (g : geom) (delay : R) (o : pos) (i : nat) : R :=
  Rsum (map (fun s => Rabs (strength q (weight A i) (rel o (elem A i)) s))
            (heard_sources q ntz (elem_delay q A delay i) (rel o (elem A i)) (sources q g))).
Lemma rsum_elems L (F : nat -> nat -> R) l : rsum L (fun n => Rsum (map (fun i => F i n) l)) = Rsum (map (fun i => rsum L (F i)) l).
Proof.
  induction l as [|i l IH].
  - cbn. apply rsum_0. reflexivity.
  - change (rsum L (fun n => F i n + Rsum (map (fun j => F j n) l)) = rsum L (F i) + Rsum (map (fun j => rsum L (F j)) l)).
    rewrite rsum_plus, IH. reflexivity.
Qed.
Lemma Rsum_mul {A} (f : A -> R) c l : Rsum (map f l) * c = Rsum (map (fun s => f s * c) l).
Proof. induction l as [|s l IH]; cbn; [ring|]. unfold Rsum in IH. rewrite <- IH. ring. Qed.
Lemma Rsum_neg {A} (f : A -> R) l : - Rsum (map f l) = Rsum (map (fun s => - f s) l).
Proof. induction l as [|s l IH]; cbn; [ring|]. unfold Rsum in IH. rewrite <- IH. ring. Qed.
Lemma sum_nearest_w q ntz alpha w delay o src k r0 : 0 < p_dt q -> 0 <= alpha -> (2 * k < Z.to_nat ntz)%nat -> (forall s, In s src -> r0 <= dist o s) ->
  0 <= Rsum (map (fun s => Rabs (strength q w o s)) (heard_sources q ntz delay o src)) /\
  power (Z.to_nat ntz) (attenuated_sum q ntz alpha w delay o src) k <=
  (damping alpha (frequency (Z.to_nat ntz) (p_dt q) k) r0 * Rsum (map (fun s => Rabs (strength q w o s)) (heard_sources q ntz delay o src)))^2.
Proof.
  intros Hdt Ha Hk Hr. split.
  { unfold Rsum. induction (heard_sources q ntz delay o src) as [|s l IH]; cbn; [lra|]. pose proof (Rabs_pos (strength q w o s)). lra. }
  eapply Rle_trans; [apply sum_power; lra || auto|].
  assert (Hf : 0 <= frequency (Z.to_nat ntz) (p_dt q) k) by (apply frequency_pos; auto; lia).
  apply pow_incr. split.
  - unfold Rsum. induction (heard_sources q ntz delay o src) as [|s l IH]; cbn; [lra|]. apply Rplus_le_le_0_compat; auto.
    apply Rmult_le_pos; [apply Rabs_pos|]. unfold damping. left. apply exp_pos.
  - rewrite Rmult_comm, Rsum_scal_r.
    assert (Hin : forall s, In s (heard_sources q ntz delay o src) -> r0 <= dist o s) by (intros s Hs; apply filter_In in Hs as [Hs _]; auto).
    induction (heard_sources q ntz delay o src) as [|s l IH]; cbn; [lra|].
    apply Rplus_le_compat; [|apply IH; intros; apply Hin; now right].
    apply Rmult_le_compat_l; [apply Rabs_pos|]. apply damping_mono; auto. apply Hin. now left.
Qed.
Theorem C116_damping_array : forall fuel fe f nlhs hw env sch junk args alpha g A q ntz ps dty dl,
  absorbing_array_call fe f nlhs hw env sch args alpha g A q ntz ps dty dl -> all_arr_defined fe fuel q ntz g A ps dty dl -> 0 < p_dt q ->
  exists V, returns (gateway fuel exact_ifft fe f nlhs hw env sch junk args) ntz (length ps) V /\
  forall n k r0, (n < length ps)%nat -> (2 * k < Z.to_nat ntz)%nat ->
    (forall i s, (i < length (ar_pos A))%nat -> In s (sources q g) -> r0 <= dist (rel (nth n ps origin) (elem A i)) s) ->
    power (Z.to_nat ntz) (V n) k <=
    (damping alpha (frequency (Z.to_nat ntz) (p_dt q) k) r0 *
     Rsum (map (element_strength q ntz A g (start_delay dty dl n) (nth n ps origin)) (seq 0 (length (ar_pos A)))))^2.
Proof.
  intros fuel fe f nlhs hw env sch junk args alpha g A q ntz ps dty dl HC HD Hdt.
  eexists. split; [eapply C115_array; eassumption|]. cbv beta. intros n k r0 Hn Hk Hr.
  assert (Ha : 0 <= alpha) by (destruct HC as [_ _ _ _ Ha _]; assert (0 < / 2^52) by (apply Rinv_0_lt_compat, pow_lt; lra); lra).
  set (L := Z.to_nat ntz) in *. set (o := nth n ps origin) in *. set (d := start_delay dty dl n) in *.
  set (x := fun i => attenuated_sum q ntz alpha (weight A i) (elem_delay q A d i) (rel o (elem A i)) (sources q g)).
  assert (Ere : dft_re L (attenuated_superposition q ntz alpha A g d o) k = Rsum (map (fun i => dft_re L (x i) k) (seq 0 (length (ar_pos A))))).
  { unfold dft_re. rewrite <- (rsum_elems L (fun i n0 => x i n0 * cos (ang L (INR k * INR n0)))). apply rsum_ext. intros j _.
    unfold attenuated_superposition. rewrite Rsum_mul. reflexivity. }
  assert (Eim : dft_im L (attenuated_superposition q ntz alpha A g d o) k = Rsum (map (fun i => dft_im L (x i) k) (seq 0 (length (ar_pos A))))).
  { unfold dft_im. rewrite <- (Rsum_neg (fun i => rsum L (fun n0 => x i n0 * sin (ang L (INR k * INR n0))))). f_equal.
    rewrite <- (rsum_elems L (fun i n0 => x i n0 * sin (ang L (INR k * INR n0)))). apply rsum_ext. intros j _.
    unfold attenuated_superposition. rewrite Rsum_mul. reflexivity. }
  match goal with |- power L ?X k <= _ => change X with (attenuated_superposition q ntz alpha A g d o) end.
  unfold power. rewrite Ere, Eim, Rmult_comm, Rsum_mul. clear Ere Eim.
  assert (HI : forall i, In i (seq 0 (length (ar_pos A))) -> (i < length (ar_pos A))%nat) by (intros i Hi; apply in_seq in Hi; lia).
  set (m := fun i => element_strength q ntz A g d o i * damping alpha (frequency L (p_dt q) k) r0).
  assert (B : 0 <= Rsum (map m (seq 0 (length (ar_pos A)))) /\
     (Rsum (map (fun i => dft_re L (x i) k) (seq 0 (length (ar_pos A)))))^2 + (Rsum (map (fun i => dft_im L (x i) k) (seq 0 (length (ar_pos A)))))^2 <=
     (Rsum (map m (seq 0 (length (ar_pos A)))))^2); [|exact (proj2 B)].
  induction (seq 0 (length (ar_pos A))) as [|i l IH].
  - cbn. split; lra.
  - destruct (IH (fun j Hj => HI j (or_intror Hj))) as [I1 I2].
    destruct (sum_nearest_w q ntz alpha (weight A i) (elem_delay q A d i) (rel o (elem A i)) (sources q g) k r0 Hdt Ha Hk) as [W1 W2].
    { intros s Hs. apply Hr; auto. apply HI. now left. }
    assert (Hm : 0 <= m i) by (unfold m; apply Rmult_le_pos; [exact W1|unfold damping; left; apply exp_pos]).
    change (Rsum (map m (i :: l))) with (m i + Rsum (map m l)).
    change (Rsum (map (fun i0 => dft_re L (x i0) k) (i :: l))) with (dft_re L (x i) k + Rsum (map (fun i0 => dft_re L (x i0) k) l)).
    change (Rsum (map (fun i0 => dft_im L (x i0) k) (i :: l))) with (dft_im L (x i) k + Rsum (map (fun i0 => dft_im L (x i0) k) l)).
    split; [lra|]. apply norm_add; auto. unfold m. rewrite Rmult_comm. exact W2.
Qed.
Print Assumptions C116_damping_array.

(** ... and exactly that much for a point source: dream_att. *)
From Verif Require Import ModelTools SpecTools PropTools.
Open Scope R_scope.
Theorem C116_point : forall fe nlhs junk vo vs vd vm (ps : list pos) dt ntz dl cp alpha,
  fe = Octave \/ fe = Matlab -> (0 <= nlhs <= 1)%Z ->
  points vo ps -> two vs dt (IZR ntz) -> delays vd (length ps) dl -> two vm cp alpha ->
  dt <> 0 -> cp <> 0 -> (0 < ntz < 2^31)%Z ->
  (forall n, (n < length ps)%nat -> att_fits fe (att_index cp dt (SpecTools.delay_of dl n) (nth n ps origin))) ->
  exists H V, att_gateway (N:=EN) (att_c2r (exact_att ntz dt alpha)) fe nlhs junk [vo; vs; vd; vm] =
      Ok (TReturned ntz (Z.of_nat (length ps)) H) /\
    matrix_is H (Z.to_nat ntz) (length ps) V /\
    forall n k, (n < length ps)%nat -> (2 * k < Z.to_nat ntz)%nat ->
      power (Z.to_nat ntz) (V n) k = (damping alpha (frequency (Z.to_nat ntz) dt k) (range (nth n ps origin)))^2.
Proof.
  intros fe nlhs junk vo vs vd vm ps dt ntz dl cp alpha H1 H2 H3 H4 H5 H6 H7 H8 H9 H10.
  destruct (C60_response fe nlhs junk vo vs vd vm ps dt ntz dl cp alpha H1 H2 H3 H4 H5 H6 H7 H8 H9 H10) as (H & E & M).
  exists H. eexists. split; [exact E|]. split; [exact M|]. cbv beta. intros n k Hn Hk. unfold power.
  match goal with |- (dft_re ?L (fun j => green ?a ?b ?c ?d ?e j) ?k)^2 + _ = _ =>
    change (fun j => green a b c d e j) with (green a b c d e) end.
  match goal with |- context [green ?a ?b ?c ?d ?e] => destruct (green_bin a b c d e k Hk) as [-> ->] end.
  now apply green_power.
Qed.
Print Assumptions C116_point.

(** C117: absorption does not change the time integral of a response. *)
Lemma dft_re_0 L x : dft_re L x 0 = rsum L x.
Proof. apply rsum_ext. intros n _. cbn [INR]. rewrite Rmult_0_l. unfold ang. unfold Rdiv. rewrite Rmult_0_r, Rmult_0_l, cos_0. ring. Qed.
Lemma sum_dc q ntz alpha w delay o src : (0 < ntz)%Z ->
  rsum (Z.to_nat ntz) (attenuated_sum q ntz alpha w delay o src) = Rsum (map (strength q w o) (heard_sources q ntz delay o src)).
Proof.
  intros Hn. rewrite <- dft_re_0. rewrite (proj1 (sum_spectrum q ntz alpha w delay o src 0 ltac:(lia))). apply rsum_ext'.
  intros s. cbn [green_re]. ring.
Qed.
Theorem C117_time_integral : forall fuel fuel' c2r fe fe' f f' nlhs nlhs' hw hw' env env' sch sch' junk junk' args args' alpha g q ntz ps dty dl,
  absorbing_call fe f nlhs hw env sch args alpha g q ntz ps dty dl -> all_defined fe fuel q ntz g ps dty dl ->
  exact_call c2r fe' f' nlhs' hw' env' sch' args' g q ntz ps dty dl -> all_defined fe' fuel' q ntz g ps dty dl ->
  exists V V', returns (gateway fuel exact_ifft fe f nlhs hw env sch junk args) ntz (length ps) V /\
    returns (gateway fuel' c2r fe' f' nlhs' hw' env' sch' junk' args') ntz (length ps) V' /\
    forall n, (n < length ps)%nat -> rsum (Z.to_nat ntz) (V n) = rsum (Z.to_nat ntz) (V' n).
Proof.
  intros fuel fuel' c2r fe fe' f f' nlhs nlhs' hw hw' env env' sch sch' junk junk' args args' alpha g q ntz ps dty dl HC HD HC' HD'.
  do 2 eexists. split; [eapply C115_single; eassumption|]. split; [eapply call_returns; eassumption|]. cbv beta.
  intros n Hn. destruct HC as [_ _ Hnt _ _ _]. destruct (HD n Hn) as [(_ & _ & Hdt & _) _ _ _ _ _].
  etransitivity; [now apply sum_dc|]. rewrite <- (sum_dc q ntz 0) by exact Hnt. apply rsum_ext. intros k Hk. now apply attenuated_sum_0.
Qed.
Print Assumptions C117_time_integral.

(** C118 refuted: in an absorbing medium there is sound before the first arrival
    (and after the last). If what is left of the lowest frequency of the record
    over the shortest way is less than 1/(L-1), every sample of the record is
    positive, wherever the arrivals are. *)
Lemma green_positive L dt alpha r it n : 0 < dt -> 0 <= alpha -> 0 <= r -> (0 < L)%nat ->
  (INR L - 1) * damping alpha (frequency L dt 1) r < 1 -> 0 < green L dt alpha r it n.
Proof.
  intros Hdt Ha Hr HL H. assert (HLr : 0 < INR L) by (apply lt_0_INR; lia). unfold green. apply Rdiv_lt_0_compat; [|exact HLr].
  set (m := damping alpha (frequency L dt 1) r) in *.
  assert (Hm0 : 0 < m) by apply exp_pos.
  assert (Hm : forall k, (1 <= k)%nat -> 0 <= green_mag L dt alpha r k <= m).
  { intros k Hk. rewrite green_mag_damping by (auto; lra). split; [left; apply exp_pos|]. unfold m, damping.
    assert (F : frequency L dt 1 <= frequency L dt k).
    { unfold frequency. apply Rmult_le_compat_r; [left; apply Rinv_0_lt_compat, Rmult_lt_0_compat; lra|]. now apply le_INR. }
    assert (E : alpha / 86860 * frequency L dt 1 * (r / 1000) <= alpha / 86860 * frequency L dt k * (r / 1000)).
    { apply Rmult_le_compat_r; [lra|]. apply Rmult_le_compat_l; lra. }
    destruct (Rle_lt_or_eq_dec _ _ E) as [E'|E']; [left; apply exp_increasing; lra|right; now rewrite E']. }
  assert (B1 : forall k, -2 * m <= 2 * (green_re L dt alpha r it (S k) * cos (ang L (INR (S k) * INR n)) - green_im L dt alpha r it (S k) * sin (ang L (INR (S k) * INR n)))).
  { intros k. cbn [green_re green_im]. specialize (Hm (S k) ltac:(lia)). set (g := green_mag _ _ _ _ _) in *. set (p := green_ph _ _ _ _ _ _). set (a := ang _ _).
    replace (g * cos p * cos a - g * sin p * sin a) with (g * cos (p + a)) by (rewrite cos_plus; ring).
    pose proof (COS_bound (p + a)). nra. }
  assert (B2 : forall M f, (forall k, -2 * m <= f k) -> - (2 * INR M * m) <= rsum M f).
  { intros M f Hf. induction M as [|M IH]; [cbn; lra|]. rewrite S_INR. cbn [rsum]. specialize (Hf M). lra. }
  specialize (B2 ((L - 1) / 2)%nat _ B1). unfold idft.
  assert (B3 : - (INR L - 1 - 2 * INR ((L - 1) / 2)) * m <= (if Nat.even L then green_re L dt alpha r it (L / 2) * cos (PI * INR n) else 0)).
  { destruct (Nat.even L) eqn:E.
    - apply Nat.even_spec in E as [h ->]. replace ((2 * h - 1) / 2)%nat with (h - 1)%nat.
      2:{ replace (2 * h - 1)%nat with (1 + (h - 1) * 2)%nat by lia. rewrite Nat.div_add by lia. reflexivity. }
      rewrite (Nat.mul_comm 2 h), Nat.div_mul by lia. rewrite minus_INR by lia. rewrite mult_INR. cbn [INR].
      destruct h as [|h]; [lia|]. cbn [green_re]. rewrite (Nat.mul_comm (S h) 2) in *. specialize (Hm (S h) ltac:(lia)).
      set (g := green_mag _ _ _ _ _) in *. set (c := cos (green_ph _ _ _ _ _ _)). pose proof (COS_bound (PI * INR n)) as C1.
      assert (C2 : -1 <= c <= 1) by apply COS_bound. set (c' := cos (PI * INR n)) in *. clearbody c c' g.
      assert (-1 <= c * c') by nra. nra.
    - assert (O : Nat.odd L = true) by (unfold Nat.odd; now rewrite E). apply Nat.odd_spec in O as [h ->].
      replace ((2 * h + 1 - 1) / 2)%nat with h. 2:{ replace (2 * h + 1 - 1)%nat with (h * 2)%nat by lia. now rewrite Nat.div_mul by lia. }
      rewrite plus_INR, mult_INR. cbn [INR]. lra. }
  change (green_re L dt alpha r it 0) with 1. lra.
Qed.
Theorem C118_before_arrival_refuted : forall fuel fe f nlhs hw env sch junk args alpha a b q ntz ps dty dl,
  absorbing_call fe f nlhs hw env sch args alpha (GRect a b) q ntz ps dty dl -> all_defined fe fuel q ntz (GRect a b) ps dty dl ->
  0 < p_dt q -> 0 < p_v q ->
  exists V, returns (gateway fuel exact_ifft fe f nlhs hw env sch junk args) ntz (length ps) V /\
  forall n r0, (n < length ps)%nat -> 0 <= r0 ->
    (exists s, In s (sources q (GRect a b)) /\ (0 <= arrives_at q (start_delay dty dl n) (nth n ps origin) s < ntz)%Z) ->
    (forall s, In s (sources q (GRect a b)) -> r0 <= dist (nth n ps origin) s) ->
    (INR (Z.to_nat ntz) - 1) * damping alpha (frequency (Z.to_nat ntz) (p_dt q) 1) r0 < 1 ->
    forall k, (k < Z.to_nat ntz)%nat -> 0 < V n k.
Proof.
  intros fuel fe f nlhs hw env sch junk args alpha a b q ntz ps dty dl HC HD Hdt Hv.
  eexists. split; [eapply C115_single; eassumption|]. cbv beta. intros n r0 Hn Hr0 (s0 & Hs0 & Hin) Hr Hd k Hk.
  assert (Ha : 0 <= alpha) by (destruct HC as [_ _ _ _ Ha _]; assert (0 < / 2^52) by (apply Rinv_0_lt_compat, pow_lt; lra); lra).
  destruct HC as [_ _ Hnt _ _ _]. destruct (HD n Hn) as [(Hx & Hy & _ & _) _ Hdist _ _ _].
  set (o := nth n ps origin) in *. set (d := start_delay dty dl n) in *. set (L := Z.to_nat ntz) in *.
  unfold attenuated_sum. rewrite filter_sum.
  assert (P : forall s, In s (sources q (GRect a b)) -> 0 < strength q 1 o s * green L (p_dt q) alpha (dist o s) (arrives_at q d o s) k).
  { intros s Hs. apply Rmult_lt_0_compat.
    - assert (Hds : s_ds s = p_dx q * p_dy q).
      { cbn [sources] in Hs. apply in_map_iff in Hs as ([x y] & <- & _). reflexivity. }
      assert (Hp : 0 < dist o s).
      { specialize (Hdist s Hs). unfold dist in *. pose proof (sqrt_pos ((p_x o - s_x s)^2 + (p_y o - s_y s)^2 + (p_z o - s_z s)^2)). lra. }
      unfold strength. rewrite Hds. pose proof PI_RGT_0. apply Rdiv_lt_0_compat.
      + apply Rmult_lt_0_compat; [lra|]. now apply Rmult_lt_0_compat.
      + apply Rmult_lt_0_compat; [|lra]. apply Rmult_lt_0_compat; lra.
    - apply green_positive; auto; try lra; try lia.
      + specialize (Hr s Hs). lra.
      + eapply Rle_lt_trans; [|exact Hd]. apply Rmult_le_compat_l.
        * assert (1 <= INR L) by (change 1 with (INR 1); apply le_INR; lia). lra.
        * apply damping_mono; auto. apply frequency_pos; auto; lia. }
  assert (Q : forall l, (forall s, In s l -> 0 < strength q 1 o s * green L (p_dt q) alpha (dist o s) (arrives_at q d o s) k) -> l <> [] ->
     0 < Rsum (map (fun s => strength q 1 o s * green L (p_dt q) alpha (dist o s) (arrives_at q d o s) k) l)).
  { intros l Hl Hne. destruct l as [|s l]; [contradiction|]. clear Hne. revert s Hl. induction l as [|s' l IH]; intros s Hl.
    - cbn. specialize (Hl s (or_introl eq_refl)). lra.
    - change (Rsum (map (fun s0 => strength q 1 o s0 * green L (p_dt q) alpha (dist o s0) (arrives_at q d o s0) k) (s :: s' :: l))) with
        (strength q 1 o s * green L (p_dt q) alpha (dist o s) (arrives_at q d o s) k +
         Rsum (map (fun s0 => strength q 1 o s0 * green L (p_dt q) alpha (dist o s0) (arrives_at q d o s0) k) (s' :: l))).
      pose proof (Hl s (or_introl eq_refl)). specialize (IH s' (fun s0 H0 => Hl s0 (or_intror H0))). lra. }
  apply Q.
  - intros s Hs. apply P. now apply filter_In in Hs.
  - intros E. assert (In s0 (filter (inside q ntz d o) (sources q (GRect a b)))).
    { apply filter_In. split; [exact Hs0|]. unfold inside. lia. }
    rewrite E in H. contradiction.
Qed.
Print Assumptions C118_before_arrival_refuted.
