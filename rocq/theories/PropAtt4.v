(** PropAtt4.v - property theorem C126: weak absorption changes a response
    little. *)
From Coq Require Import Reals List ZArith Lra Lia.
From Verif Require Import Base BaseLemmas ModelSir ModelArr ModelSmp NumR SpecSmp SpecSir SpecRayleigh SpecArr ModelConv
  ModelGw SpecGw SpecGwR ProofsR ProofsRayleigh ProofsSirR PropSir PropArr PropGwR SpecPhys SpecPhysA ProofsPhys PropPhys PropPhys3
  SpecDft ProofsDft ProofsDft2 SpecAtt ProofsAtt PropAtt SpecAtt2 PropAtt2 SpecAtt3 ProofsAtt3 PropAtt3 SpecAtt4.
Import ListNotations.
Open Scope R_scope.

Lemma sin_abs x : Rabs (sin x) <= Rabs x.
Proof.
  assert (P : forall y, 0 <= y -> Rabs (sin y) <= y).
  { intros y Hy. destruct (Rle_lt_or_eq_dec 0 y Hy) as [H|<-]; [|rewrite sin_0, Rabs_R0; lra].
    pose proof (sin_lt_x y H). apply Rabs_le. split; [|lra].
    destruct (Rle_lt_dec y PI) as [B|B]; [pose proof (sin_ge_0 y Hy B); lra|]. pose proof (SIN_bound y). pose proof PI2_1. unfold PI2 in *. lra. }
  destruct (Rle_lt_dec 0 x) as [H|H].
  - rewrite (Rabs_pos_eq x) by lra. now apply P.
  - rewrite (Rabs_left x) by lra. rewrite <- Rabs_Ropp, <- sin_neg. apply P. lra.
Qed.
Lemma cos_lip x y : Rabs (cos x - cos y) <= Rabs (x - y).
Proof.
  rewrite form2, !Rabs_mult. pose proof (sin_abs ((x - y) / 2)) as H1. pose proof (SIN_bound ((x + y) / 2)) as H2.
  assert (H3 : Rabs (sin ((x + y) / 2)) <= 1) by (apply Rabs_le; lra).
  assert (H4 : Rabs ((x - y) / 2) = Rabs (x - y) / 2) by (unfold Rdiv; rewrite Rabs_mult, (Rabs_pos_eq (/ 2)) by lra; reflexivity).
  rewrite H4 in H1. pose proof (Rabs_pos (sin ((x - y) / 2))). pose proof (Rabs_pos (sin ((x + y) / 2))).
  replace (Rabs (-2)) with 2 by (rewrite Rabs_left; lra). nra.
Qed.
Lemma exp_close x : 0 <= x -> 0 <= 1 - exp (- x) <= x.
Proof.
  intros H. destruct (Rle_lt_or_eq_dec 0 x H) as [H'|<-]; [|rewrite Ropp_0, exp_0; lra].
  pose proof (exp_ineq1 (- x) ltac:(lra)). assert (exp (- x) < 1) by (rewrite <- exp_0; apply exp_increasing; lra). lra.
Qed.

(** One frequency. *)
Section Bin.
  Variables (L : nat) (dt alpha r : R) (it : Z) (k : nat).
  Hypothesis Hdt : 0 < dt.
  Hypothesis Ha : 0 <= alpha.
  Hypothesis Hr : 0 <= r.
  Hypothesis Hk : (1 <= k)%nat.
  Hypothesis HL : (2 * k <= L)%nat.
  Let x := r / 1000 * neper alpha * omega L dt k / (2 * PI).
  Let HLr : 2 <= INR L.
  Proof. change 2 with (INR 2). apply le_INR. lia. Qed.
  Let Hkr : 1 <= INR k <= INR L / 2.
  Proof. split; [change 1 with (INR 1); now apply le_INR|]. apply le_INR in HL. rewrite mult_INR in HL. change (INR 2) with 2 in HL. lra. Qed.
  Lemma x_range : 0 <= x <= r * alpha / (17372 / 100 * dt).
  Proof.
    pose proof PI_RGT_0 as HP. pose proof HLr. pose proof Hkr. unfold x, neper, omega.
    replace (r / 1000 * (alpha / 86860) * (2 * PI * INR k / (INR L * (dt / 1000000))) / (2 * PI)) with (r * alpha / (17372 / 100 * dt) * (2 * INR k / INR L)) by (field; lra).
    assert (0 <= r * alpha / (17372 / 100 * dt)). { apply Rmult_le_pos; [now apply Rmult_le_pos|]. left. apply Rinv_0_lt_compat. lra. }
    assert (0 <= 2 * INR k / INR L <= 1).
    { split; [apply Rmult_le_pos; [lra|left; apply Rinv_0_lt_compat; lra]|]. apply (Rmult_le_reg_r (INR L)); [lra|]. unfold Rdiv. rewrite Rmult_assoc, Rinv_l, Rmult_1_r by lra. lra. }
    nra.
  Qed.
  Lemma ph_change : green_ph L dt alpha r it k - green_ph L dt 0 r it k = - (x * (2 / PI * ln (INR L / (19 / 10 * INR k)))).
  Proof.
    pose proof PI_RGT_0 as HP. pose proof HLr. pose proof Hkr. unfold green_ph, x, neper.
    replace (1 / (95 / 100 * (dt / 1000000) / PI * omega L dt k)) with (INR L / (19 / 10 * INR k)) by (unfold omega; field; lra).
    set (l := ln _). field. lra.
  Qed.
  Lemma ln_range : 0 <= ln (INR L / (19 / 10 * INR k)) <= ln (INR L).
  Proof.
    pose proof HLr. pose proof Hkr.
    assert (1 <= INR L / (19 / 10 * INR k) <= INR L).
    { assert (Q : INR L / (19 / 10 * INR k) * (19 / 10 * INR k) = INR L) by (field; lra).
      set (q := INR L / (19 / 10 * INR k)) in *. clearbody q. split; nra. }
    rewrite <- ln_1. split; (match goal with |- ln ?a <= ln ?b => destruct (Rle_lt_or_eq_dec a b) as [E|E]; [lra|left; apply ln_increasing; lra|rewrite E; lra] end).
  Qed.
  Lemma bin_change a : Rabs (green_mag L dt alpha r k * cos (green_ph L dt alpha r it k + a) - green_mag L dt 0 r k * cos (green_ph L dt 0 r it k + a))
    <= r * alpha / (17372 / 100 * dt) * (1 + 2 / PI * ln (INR L)).
  Proof.
    pose proof PI_RGT_0 as HP. pose proof x_range as X. pose proof ln_range as LR. pose proof ph_change as PC.
    assert (M0 : green_mag L dt 0 r k = 1).
    { unfold green_mag, neper. replace (r / 1000 * (0 / 86860) * omega L dt k / (2 * PI)) with 0 by (field; lra). rewrite Ropp_0. apply exp_0. }
    assert (M1 : green_mag L dt alpha r k = exp (- x)) by reflexivity. rewrite M0, M1.
    set (p := green_ph L dt alpha r it k + a). set (p0 := green_ph L dt 0 r it k + a).
    assert (Ep : p - p0 = - (x * (2 / PI * ln (INR L / (19 / 10 * INR k))))) by (unfold p, p0; rewrite <- PC; ring).
    pose proof (exp_close x (proj1 X)) as EC. set (m := exp (- x)) in *. pose proof (cos_lip p p0) as CL. rewrite Ep in CL.
    assert (HL2 : 0 <= 2 / PI) by (apply Rmult_le_pos; [lra|left; now apply Rinv_0_lt_compat]).
    assert (B : 0 <= x * (2 / PI * ln (INR L / (19 / 10 * INR k))) <= x * (2 / PI * ln (INR L))).
    { split; [apply Rmult_le_pos; [lra|]; apply Rmult_le_pos; lra|]. apply Rmult_le_compat_l; [lra|]. apply Rmult_le_compat_l; lra. }
    rewrite Rabs_Ropp, (Rabs_pos_eq (x * _)) in CL by apply B. pose proof (COS_bound p) as CB.
    replace (m * cos p - 1 * cos p0) with ((m - 1) * cos p + (cos p - cos p0)) by ring.
    eapply Rle_trans; [apply Rabs_triang|]. rewrite Rabs_mult.
    assert (Rabs (m - 1) <= x) by (apply Rabs_le; lra). assert (Rabs (cos p) <= 1) by (apply Rabs_le; lra).
    pose proof (Rabs_pos (m - 1)). pose proof (Rabs_pos (cos p)).
    assert (LL : 0 <= 2 / PI * ln (INR L)) by (apply Rmult_le_pos; lra).
    apply Rle_trans with (x + x * (2 / PI * ln (INR L))); [nra|].
    rewrite Rmult_plus_distr_l, Rmult_1_r. apply Rplus_le_compat; [lra|]. apply Rmult_le_compat_r; lra.
  Qed.
End Bin.

Lemma rsum_abs m f B : 0 <= B -> (forall k, (k < m)%nat -> Rabs (f k) <= B) -> Rabs (rsum m f) <= INR m * B.
Proof.
  intros HB. induction m as [|m IH]; intros H.
  - cbn [rsum INR]. rewrite Rabs_R0. lra.
  - rewrite S_INR. cbn [rsum]. eapply Rle_trans; [apply Rabs_triang|]. specialize (H m ltac:(lia)) as Hm. assert (Rabs (rsum m f) <= INR m * B) by (apply IH; intros; apply H; lia). lra.
Qed.
(** One pulse. *)
Lemma green_change L dt alpha r it n : 0 < dt -> 0 <= alpha -> 0 <= r -> (0 < L)%nat ->
  Rabs (green L dt alpha r it n - green L dt 0 r it n) <= r * alpha / (17372 / 100 * dt) * (1 + 2 / PI * ln (INR L)).
Proof.
  intros Hdt Ha Hr HL. assert (HLr : 1 <= INR L) by (change 1 with (INR 1); now apply le_INR). pose proof PI_RGT_0 as HP.
  set (B := r * alpha / (17372 / 100 * dt) * (1 + 2 / PI * ln (INR L))).
  assert (HB : 0 <= B).
  { assert (0 <= ln (INR L)). { rewrite <- ln_1. destruct (Rle_lt_or_eq_dec 1 (INR L) HLr) as [E|<-]; [left; apply ln_increasing; lra|lra]. }
    assert (0 <= 2 / PI) by (apply Rmult_le_pos; [lra|left; now apply Rinv_0_lt_compat]). unfold B.
    apply Rmult_le_pos; [|nra]. apply Rmult_le_pos; [now apply Rmult_le_pos|]. left. apply Rinv_0_lt_compat. lra. }
  assert (T : forall k, (2 * S k <= L)%nat ->
    Rabs (2 * (green_re L dt alpha r it (S k) * cos (ang L (INR (S k) * INR n)) - green_im L dt alpha r it (S k) * sin (ang L (INR (S k) * INR n)))
        - 2 * (green_re L dt 0 r it (S k) * cos (ang L (INR (S k) * INR n)) - green_im L dt 0 r it (S k) * sin (ang L (INR (S k) * INR n)))) <= 2 * B).
  { intros k Hk. unfold green_re, green_im. set (a := ang L _).
    pose proof (bin_change L dt alpha r it (S k) Hdt Ha Hr ltac:(lia) Hk a) as C. fold B in C.
    match goal with |- Rabs ?X <= _ => replace X with (2 * (green_mag L dt alpha r (S k) * cos (green_ph L dt alpha r it (S k) + a) - green_mag L dt 0 r (S k) * cos (green_ph L dt 0 r it (S k) + a))) by (rewrite !cos_plus; ring) end.
    rewrite Rabs_mult, (Rabs_pos_eq 2) by lra. lra. }
  unfold green. rewrite <- (Rmult_1_r B).
  replace (idft L (green_re L dt alpha r it) (green_im L dt alpha r it) n / INR L - idft L (green_re L dt 0 r it) (green_im L dt 0 r it) n / INR L)
    with ((idft L (green_re L dt alpha r it) (green_im L dt alpha r it) n - idft L (green_re L dt 0 r it) (green_im L dt 0 r it) n) / INR L) by (field; lra).
  unfold Rdiv at 1. rewrite Rabs_mult, (Rabs_pos_eq (/ INR L)) by (left; apply Rinv_0_lt_compat; lra).
  apply (Rmult_le_reg_r (INR L)); [lra|]. rewrite Rmult_assoc, Rinv_l, !Rmult_1_r by lra.
  unfold idft. change (green_re L dt alpha r it 0) with 1. change (green_re L dt 0 r it 0) with 1.
  match goal with |- Rabs (1 + rsum ?m ?f + ?N - (1 + rsum ?m ?g + ?N0)) <= _ =>
    replace (1 + rsum m f + N - (1 + rsum m g + N0)) with (rsum m (fun k => f k - g k) + (N - N0)) by (rewrite rsum_minus; ring) end.
  eapply Rle_trans; [apply Rabs_triang|].
  assert (S1 : Rabs (rsum ((L - 1) / 2) (fun k => 2 * (green_re L dt alpha r it (S k) * cos (ang L (INR (S k) * INR n)) - green_im L dt alpha r it (S k) * sin (ang L (INR (S k) * INR n)))
        - 2 * (green_re L dt 0 r it (S k) * cos (ang L (INR (S k) * INR n)) - green_im L dt 0 r it (S k) * sin (ang L (INR (S k) * INR n))))) <= INR ((L - 1) / 2) * (2 * B)).
  { apply rsum_abs; [lra|]. intros k Hk. apply T. pose proof (Nat.mul_div_le (L - 1) 2). lia. }
  destruct (Nat.even L) eqn:E.
  - apply Nat.even_spec in E as [h E]. assert (E2 : (L / 2)%nat = h) by (rewrite E, Nat.mul_comm; apply Nat.div_mul; lia).
    assert (E3 : ((L - 1) / 2)%nat = (h - 1)%nat). { rewrite E. replace (2 * h - 1)%nat with (1 + (h - 1) * 2)%nat by lia. rewrite Nat.div_add by lia. reflexivity. }
    rewrite E2. rewrite E3 in *. rewrite minus_INR in S1 by lia. change (INR 1) with 1 in S1.
    assert (EL : INR L = 2 * INR h) by (rewrite E, mult_INR; change (INR 2) with 2; ring).
    assert (S2 : Rabs (green_re L dt alpha r it h * cos (PI * INR n) - green_re L dt 0 r it h * cos (PI * INR n)) <= B).
    { pose proof (bin_change L dt alpha r it h Hdt Ha Hr ltac:(lia) ltac:(lia) 0) as C. fold B in C. rewrite !Rplus_0_r in C.
      destruct h as [|h']; [lia|]. unfold green_re. rewrite <- Rmult_minus_distr_r, Rabs_mult.
      assert (Rabs (cos (PI * INR n)) <= 1) by (apply Rabs_le; apply COS_bound).
      pose proof (Rabs_pos (cos (PI * INR n))). set (c := Rabs (_ - _)) in *. pose proof (Rabs_pos (green_mag L dt alpha r (S h') * cos (green_ph L dt alpha r it (S h')) - green_mag L dt 0 r (S h') * cos (green_ph L dt 0 r it (S h')))) as P. fold c in P.
      clearbody c. nra. }
    rewrite EL. nra.
  - assert (O : Nat.odd L = true) by (unfold Nat.odd; now rewrite E). apply Nat.odd_spec in O as [h O].
    assert (E3 : ((L - 1) / 2)%nat = h). { rewrite O. replace (2 * h + 1 - 1)%nat with (h * 2)%nat by lia. now rewrite Nat.div_mul by lia. }
    rewrite E3 in *. assert (EL : INR L = 2 * INR h + 1) by (rewrite O, plus_INR, mult_INR; change (INR 2) with 2; change (INR 1) with 1; ring).
    rewrite Rminus_0_r, Rabs_R0, EL. nra.
Qed.

(** C126: no sample differs from that of the lossless call by more than
    alpha / (173.72 dt) (1 + 2/pi ln L) times the sum of |strength| r over the
    source points heard. *)
Lemma list_change {A} (f g b : A -> R) l : (forall s, In s l -> Rabs (f s - g s) <= b s) -> Rabs (Rsum (map f l) - Rsum (map g l)) <= Rsum (map b l).
Proof.
  induction l as [|s l IH]; intros H.
  - cbn. rewrite Rminus_0_r, Rabs_R0. lra.
  - change (Rabs ((f s + Rsum (map f l)) - (g s + Rsum (map g l))) <= b s + Rsum (map b l)).
    replace ((f s + Rsum (map f l)) - (g s + Rsum (map g l))) with ((f s - g s) + (Rsum (map f l) - Rsum (map g l))) by ring.
    eapply Rle_trans; [apply Rabs_triang|]. apply Rplus_le_compat; [apply H; now left|apply IH; intros; apply H; now right].
Qed.
Lemma sum_change q ntz alpha w d o src k : 0 < p_dt q -> 0 <= alpha -> (0 < ntz)%Z ->
  Rabs (attenuated_sum q ntz alpha w d o src k - attenuated_sum q ntz 0 w d o src k) <=
  alpha / (17372 / 100 * p_dt q) * (1 + 2 / PI * ln (IZR ntz)) * spread_strength q ntz w d o src.
Proof.
  intros Hdt Ha Hnt. unfold attenuated_sum. rewrite !filter_sum. unfold spread_strength, heard_sources. rewrite Rmult_comm, Rsum_mul.
  apply list_change. intros s _.
  assert (HL : (0 < Z.to_nat ntz)%nat) by lia. assert (Hr : 0 <= dist o s) by apply sqrt_pos.
  pose proof (green_change (Z.to_nat ntz) (p_dt q) alpha (dist o s) (arrives_at q d o s) k Hdt Ha Hr HL) as C.
  rewrite INR_IZR_INZ, Z2Nat.id in C by lia. rewrite <- Rmult_minus_distr_l, Rabs_mult.
  replace (Rabs (strength q w o s) * dist o s * (alpha / (17372 / 100 * p_dt q) * (1 + 2 / PI * ln (IZR ntz)))) with
    (Rabs (strength q w o s) * (dist o s * alpha / (17372 / 100 * p_dt q) * (1 + 2 / PI * ln (IZR ntz)))) by (unfold Rdiv; ring).
  apply Rmult_le_compat_l; [apply Rabs_pos|exact C].
Qed.
Theorem C126_weak_absorption_single : forall fuel fuel' c2r fe fe' f f' nlhs nlhs' hw hw' env env' sch sch' junk junk' args args' alpha g q ntz ps dty dl,
  absorbing_call fe f nlhs hw env sch args alpha g q ntz ps dty dl -> all_defined fe fuel q ntz g ps dty dl ->
  exact_call c2r fe' f' nlhs' hw' env' sch' args' g q ntz ps dty dl -> all_defined fe' fuel' q ntz g ps dty dl -> 0 < p_dt q ->
  exists V V', returns (gateway fuel exact_ifft fe f nlhs hw env sch junk args) ntz (length ps) V /\
    returns (gateway fuel' c2r fe' f' nlhs' hw' env' sch' junk' args') ntz (length ps) V' /\
    forall n k, (n < length ps)%nat -> (k < Z.to_nat ntz)%nat ->
      Rabs (V n k - V' n k) <= alpha / (17372 / 100 * p_dt q) * (1 + 2 / PI * ln (IZR ntz)) *
        spread_strength q ntz 1 (start_delay dty dl n) (nth n ps origin) (sources q g).
Proof.
  intros fuel fuel' c2r fe fe' f f' nlhs nlhs' hw hw' env env' sch sch' junk junk' args args' alpha g q ntz ps dty dl HC HD HC' HD' Hdt.
  do 2 eexists. split; [eapply C115_single; eassumption|]. split; [eapply call_returns; eassumption|]. cbv beta.
  intros n k Hn Hk. destruct HC as [_ _ Hnt _ Ha _].
  rewrite <- (attenuated_sum_0 q ntz 1) by (auto; lra). apply sum_change; auto. now apply alpha_pos.
Qed.
Print Assumptions C126_weak_absorption_single.
Theorem C126_weak_absorption_array : forall fuel fuel' c2r fe fe' f f' nlhs nlhs' hw hw' env env' sch sch' junk junk' args args' alpha g A q ntz ps dty dl,
  absorbing_array_call fe f nlhs hw env sch args alpha g A q ntz ps dty dl -> all_arr_defined fe fuel q ntz g A ps dty dl ->
  exact_array_call c2r fe' f' nlhs' hw' env' sch' args' g A q ntz ps dty dl -> all_arr_defined fe' fuel' q ntz g A ps dty dl -> 0 < p_dt q ->
  exists V V', returns (gateway fuel exact_ifft fe f nlhs hw env sch junk args) ntz (length ps) V /\
    returns (gateway fuel' c2r fe' f' nlhs' hw' env' sch' junk' args') ntz (length ps) V' /\
    forall n k, (n < length ps)%nat -> (k < Z.to_nat ntz)%nat ->
      Rabs (V n k - V' n k) <= alpha / (17372 / 100 * p_dt q) * (1 + 2 / PI * ln (IZR ntz)) *
        Rsum (map (fun i => spread_strength q ntz (weight A i) (elem_delay q A (start_delay dty dl n) i) (rel (nth n ps origin) (elem A i)) (sources q g))
                  (seq 0 (length (ar_pos A)))).
Proof.
  intros fuel fuel' c2r fe fe' f f' nlhs nlhs' hw hw' env env' sch sch' junk junk' args args' alpha g A q ntz ps dty dl HC HD HC' HD' Hdt.
  do 2 eexists. split; [eapply C115_array; eassumption|]. split; [eapply array_call_returns; eassumption|]. cbv beta.
  intros n k Hn Hk. destruct HC as [_ _ Hnt _ Ha _]. unfold attenuated_superposition, superposition.
  rewrite (Rmult_comm (_ * _)), Rsum_mul. apply list_change. intros i _. rewrite (Rmult_comm (spread_strength _ _ _ _ _ _)).
  rewrite <- (attenuated_sum_0 q ntz (weight A i)) by (auto; lra). apply sum_change; auto. now apply alpha_pos.
Qed.
Print Assumptions C126_weak_absorption_array.
