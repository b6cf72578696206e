(** PropField5.v - property theorems C112: the field of an array, from the
    response and from the convolution of the response with a pulse. *)
From Coq Require Strings.String Strings.Ascii.
Import Coq.Strings.String.StringSyntax.
From Coq Require Import Reals List ZArith Lra Lia.
From Coquelicot Require Import Coquelicot.
From Verif Require Import Base BaseLemmas ModelSir ModelArr ModelSmp NumR SpecSmp SpecSir SpecRayleigh SpecArr
  ModelGw SpecGw SpecGwR ProofsR ProofsRayleigh ProofsSirR PropSir PropArr PropGwR SpecPhys ProofsPhys ProofsRiemann PropPhys PropPhys2
  SpecField ProofsField ProofsField2 PropField SpecField2 PropField2 SpecField3 ProofsField3 PropField3 SpecPhysA PropPhys3 SpecPhysB SpecField5
  SpecDft ModelConv SpecConv ProofsConv ModelCgw SpecCgw PropCgw2.
Import ListNotations.
Open Scope R_scope.

Lemma rayleigh_weight q w d o src k : rayleigh q w d o src k = w * rayleigh q 1 d o src k.
Proof.
  unfold rayleigh. rewrite <- Rsum_scal. apply Rsum_ext. intros s _. destruct (Z.eqb _ _); [|ring].
  unfold strength, Rdiv. ring.
Qed.
Lemma Rsum_swap {X Y} (F : X -> Y -> R) l m :
  Rsum (map (fun x => Rsum (map (F x) m)) l) = Rsum (map (fun y => Rsum (map (fun x => F x y) l)) m).
Proof.
  induction l as [|x l IH].
  - induction m as [|y m IH]; [reflexivity|]. change (0 = 0 + Rsum (map (fun y => Rsum (map (fun x => F x y) [])) m)).
    rewrite <- IH. cbn. ring.
  - change (Rsum (map (F x) m) + Rsum (map (fun x => Rsum (map (F x) m)) l) = Rsum (map (fun y => F x y + Rsum (map (fun x => F x y) l)) m)).
    rewrite IH, <- Rsum_plus. apply Rsum_ext. intros. reflexivity.
Qed.

Lemma observed_array q ntz A g delay o phi :
  observed q ntz delay (fun k => superposition q A g delay o (Z.of_nat k)) phi =
  Rsum (map (fun i => weight A i * observed q ntz (elem_delay q A delay i)
      (fun k => rayleigh q 1 (elem_delay q A delay i) (rel o (elem A i)) (sources q g) (Z.of_nat k))
      (fun t => phi (t + focus_delay (p_cp q) A i + steer_delay (p_cp q) A i))) (seq 0 (length (ar_pos A)))).
Proof.
  unfold observed, superposition.
  set (T := fun k i => weight A i * (p_dt q * (rayleigh q 1 (elem_delay q A delay i) (rel o (elem A i)) (sources q g) (Z.of_nat k) * phi (delay + INR k * p_dt q)))).
  transitivity (Rsum (map (fun k => Rsum (map (T k) (seq 0 (length (ar_pos A))))) (seq 0 (Z.to_nat ntz)))).
  - rewrite <- Rsum_scal. apply Rsum_ext. intros k _.
    rewrite Rmult_comm, Rmult_assoc, Rmult_comm, <- Rsum_scal. apply Rsum_ext. intros i _. unfold T.
    rewrite (rayleigh_weight q (weight A i)). ring.
  - rewrite Rsum_swap. apply Rsum_ext. intros i _. rewrite <- !Rsum_scal. apply Rsum_ext. intros k _. unfold T.
    do 3 f_equal. f_equal. unfold elem_delay. ring.
Qed.

Lemma smooth_shift L M phi a b : smooth L M phi -> smooth L M (fun t => phi (t + a + b)).
Proof.
  intros [H1 H2]. split; [intros; apply H1|]. intros t t'. eapply Rle_trans; [apply H2|].
  right. do 2 f_equal. ring.
Qed.

Lemma element_bound q ntz delay g o phi L M : par_ok q -> geom_ok q g -> 0 < p_dt q -> 0 < p_cp q -> element_shape g -> off_element g o ->
  inside q ntz g delay o -> smooth L M phi ->
  Rabs (observed q ntz delay (fun k => rayleigh q 1 delay o (sources q g) (Z.of_nat k)) phi - element_field (p_cp q) (p_v q) g o phi)
  <= element_error q g o L M.
Proof.
  intros Hq Hg Hdt Hcp HS Ho Hin Hphi. destruct g; try contradiction; cbn [element_shape off_element element_field element_error] in *.
  - apply field_bound; auto.
  - apply field_bound; auto.
  - apply cyl_bound; auto; lra.
Qed.

Lemma element_inside q ntz g A delay o i : array_inside q ntz g A delay o -> (i < length (ar_pos A))%nat ->
  inside q ntz g (elem_delay q A delay i) (rel o (elem A i)).
Proof.
  intros (lo & hi & HT & H1 & H2) Hi. set (t := focus_delay (p_cp q) A i + steer_delay (p_cp q) A i).
  exists (lo - t), (hi - t). unfold elem_delay, t. split; [|split; lra].
  intros p Hp. specialize (HT i p Hi Hp). unfold array_time in HT. lra.
Qed.

(** C112: arrays of plates, discs and cylindrical elements, with any focusing,
    steering and apodization. *)
Theorem C112_field : forall fuel c2r fe f nlhs hw env sch junk args g A q ntz ps dty dl,
  exact_array_call c2r fe f nlhs hw env sch args g A q ntz ps dty dl -> all_arr_defined fe fuel q ntz g A ps dty dl ->
  element_shape g -> 0 < p_dt q -> 0 < p_cp q ->
  exists V, returns (gateway fuel c2r fe f nlhs hw env sch junk args) ntz (length ps) V /\
  forall n, (n < length ps)%nat -> off_array g A (nth n ps origin) ->
    array_inside q ntz g A (start_delay dty dl n) (nth n ps origin) ->
    forall phi L M, smooth L M phi ->
    Rabs (observed q ntz (start_delay dty dl n) (V n) phi - array_field (p_cp q) (p_v q) g A (nth n ps origin) phi)
    <= array_error q g A (nth n ps origin) L M.
Proof.
  intros fuel c2r fe f nlhs hw env sch junk args g A q ntz ps dty dl HC HD Hg Hdt Hcp.
  eexists. split; [apply array_call_returns; eassumption|]. cbv beta. intros n Hn Ho Hin phi L M Hphi.
  rewrite observed_array. unfold array_field, array_error. apply Rsum_dev. intros i Hi. apply in_seq in Hi.
  rewrite <- Rmult_minus_distr_l, Rabs_mult. apply Rmult_le_compat_l; [apply Rabs_pos|].
  destruct (HD n Hn) as [_ He]. destruct (He i) as [Hq Hgo _ _ _ _]; [lia|].
  apply element_bound; auto; [apply Ho; lia|apply element_inside; [exact Hin|lia]|]. now apply smooth_shift.
Qed.
Print Assumptions C112_field.

Lemma element_error_small g cp v o L M eps : element_shape g -> off_element g o -> 0 < cp -> 0 <= L -> 0 <= M -> 0 < eps ->
  exists h, 0 < h /\ forall q, p_cp q = cp -> p_v q = v -> 0 < p_dx q < h -> 0 < p_dy q < h -> 0 < p_dt q < h ->
    element_error q g o L M < eps.
Proof.
  intros Hg Ho Hcp HL HM Heps.
  assert (Flat : flat_geom g -> p_z o <> 0 ->
    exists h, 0 < h /\ forall q, p_cp q = cp -> p_v q = v -> 0 < p_dx q < h -> 0 < p_dy q < h -> 0 < p_dt q < h ->
    field_error q g (p_z o) L M < eps).
  { intros Hf Hz. destruct (field_error_small g cp v (p_z o) L M Hf Hcp Hz HL HM) as (K & HK & HE).
    set (h0 := eps / (K + 1)). assert (Hh0 : 0 < h0) by (apply Rdiv_lt_0_compat; lra).
    set (h := Rmin 1 (h0^2)). assert (Hh : 0 < h) by (apply Rmin_pos; [lra|nra]).
    exists h. split; auto. intros q Ecp Ev Hx Hy Ht.
    assert (Hh1 : h <= 1) by apply Rmin_l.
    eapply Rle_lt_trans; [apply (HE q h Ecp Ev); lra|].
    assert (Hsh : sqrt h <= h0). { rewrite <- (sqrt_pow2 h0) by lra. apply sqrt_le_1_alt. apply Rmin_r. }
    apply Rle_lt_trans with (K * h0); [now apply Rmult_le_compat_l|].
    unfold h0. apply Rmult_lt_reg_r with (K + 1); [lra|].
    replace (K * (eps / (K + 1)) * (K + 1)) with (K * eps) by (field; lra). nra. }
  destruct g as [a b|a b ? ?|r|r ? ?|a|r ?|a b Rc]; try contradiction; cbn [element_error off_element] in *; auto.
  destruct Hg as (Ha & Hb & HR).
  pose proof (Rabs_pos_lt _ HR) as HR'. pose proof PI_RGT_0 as HPI.
  set (C := Rabs Rc * (1000 * Rabs v / (2 * PI))).
  assert (HC : 0 <= C).
  { unfold C. apply Rmult_le_pos; [lra|]. apply Rmult_le_pos; [|left; apply Rinv_0_lt_compat; lra]. apply Rmult_le_pos; [lra|apply Rabs_pos]. }
  set (tau := 1000 * (1 + Rabs Rc) / cp).
  assert (Htau : 0 <= tau) by (unfold tau; apply Rmult_le_pos; [lra|left; now apply Rinv_0_lt_compat]).
  assert (HH : 0 <= half_angle b Rc).
  { apply asin_nonneg. split.
    - apply Rmult_le_pos; [lra|left; now apply Rinv_0_lt_compat].
    - apply Rmult_le_reg_r with (Rabs Rc); auto. unfold Rdiv. rewrite (Rmult_assoc (b * / 2)), Rinv_l by lra. lra. }
  destruct (patch_error_small C (clearance Rc o) (1 + Rabs Rc) tau (half_angle b Rc) (a / 2) L M HC Ho ltac:(lra) Htau HH ltac:(lra) HL HM) as (K & HK & HE).
  set (h0 := eps / (K + 1)). assert (Hh0 : 0 < h0) by (apply Rdiv_lt_0_compat; lra).
  set (h1 := Rmin 1 h0). assert (Hh1 : 0 < h1) by (apply Rmin_pos; lra).
  set (h := Rmin (Rmin h1 (Rabs Rc / 2)) (h1 * Rabs Rc / 2)).
  assert (Hh : 0 < h).
  { assert (0 < h1 * Rabs Rc) by (apply Rmult_lt_0_compat; lra). unfold h. repeat apply Rmin_pos; lra. }
  assert (Ha1 : h <= h1) by (unfold h; eapply Rle_trans; [apply Rmin_l|apply Rmin_l]).
  assert (Ha2 : h <= Rabs Rc / 2) by (unfold h; eapply Rle_trans; [apply Rmin_l|apply Rmin_r]).
  assert (Ha3 : h <= h1 * Rabs Rc / 2) by (unfold h; apply Rmin_r).
  clearbody h. exists h. split; auto.
  intros q Ecp Ev Hx Hy Ht.
  unfold cylinder_error. rewrite Ecp, Ev. fold C tau.
  assert (Hu : 0 < p_dy q / Rabs Rc <= 1 / 2).
  { split; [apply Rdiv_lt_0_compat; lra|]. apply Rmult_le_reg_r with (Rabs Rc); auto. unfold Rdiv at 1. rewrite Rmult_assoc, Rinv_l by lra. lra. }
  assert (Hdu : 0 < asin (p_dy q / Rabs Rc) <= h1).
  { split; [apply asin_pos; lra|]. eapply Rle_trans; [now apply asin_small|].
    apply Rmult_le_reg_r with (Rabs Rc); auto. replace (2 * (p_dy q / Rabs Rc) * Rabs Rc) with (2 * p_dy q) by (field; lra). lra. }
  eapply Rle_lt_trans; [apply (HE (p_dx q) (asin (p_dy q / Rabs Rc)) (p_dt q) h1); try lra; apply Rmin_l|].
  apply Rle_lt_trans with (K * h0); [apply Rmult_le_compat_l; auto; apply Rmin_r|].
  unfold h0. apply Rmult_lt_reg_r with (K + 1); [lra|].
  replace (K * (eps / (K + 1)) * (K + 1)) with (K * eps) by (field; lra). nra.
Qed.

Lemma sum_small (W : nat -> R) (E : rpar -> nat -> R) (P : rpar -> Prop) n :
  (forall i, (i < n)%nat -> forall eps, 0 < eps -> exists h, 0 < h /\ forall q, P q -> 0 < p_dx q < h -> 0 < p_dy q < h -> 0 < p_dt q < h -> E q i < eps) ->
  forall eps, 0 < eps -> exists h, 0 < h /\ forall q, P q -> 0 < p_dx q < h -> 0 < p_dy q < h -> 0 < p_dt q < h ->
    Rsum (map (fun i => Rabs (W i) * E q i) (seq 0 n)) < eps.
Proof.
  induction n as [|n IH]; intros H eps Heps.
  - exists 1. split; [lra|]. intros. cbn. lra.
  - destruct (IH (fun i Hi => H i ltac:(lia)) (eps / 2) ltac:(lra)) as (h1 & Hh1 & B1).
    pose proof (Rabs_pos (W n)) as HW.
    destruct (H n ltac:(lia) (eps / 2 / (Rabs (W n) + 1))) as (h2 & Hh2 & B2); [apply Rdiv_lt_0_compat; lra|].
    exists (Rmin h1 h2). split; [now apply Rmin_pos|]. intros q HP Hx Hy Ht.
    pose proof (Rmin_l h1 h2). pose proof (Rmin_r h1 h2).
    specialize (B1 q HP ltac:(lra) ltac:(lra) ltac:(lra)). specialize (B2 q HP ltac:(lra) ltac:(lra) ltac:(lra)).
    rewrite seq_S, map_app, Rsum_app.
    change (Rsum (map (fun i => Rabs (W i) * E q i) [(0 + n)%nat])) with (Rabs (W n) * E q n + 0).
    set (Y := Rsum (map (fun i => Rabs (W i) * E q i) (seq 0 n))) in *.
    assert (Rabs (W n) * E q n <= eps / 2).
    { apply Rle_trans with (Rabs (W n) * (eps / 2 / (Rabs (W n) + 1))); [apply Rmult_le_compat_l; lra|].
      apply Rmult_le_reg_r with (Rabs (W n) + 1); [lra|].
      replace (Rabs (W n) * (eps / 2 / (Rabs (W n) + 1)) * (Rabs (W n) + 1)) with (Rabs (W n) * (eps / 2)) by (field; lra). nra. }
    lra.
Qed.

(** C112: convergence to the exact field of the array. *)
Theorem C112_convergence : forall g A cp v o phi L M eps,
  element_shape g -> 0 < cp -> off_array g A o -> smooth L M phi -> 0 < eps ->
  exists h, 0 < h /\ forall fuel c2r fe f nlhs hw env sch junk args q ntz ps dty dl,
  exact_array_call c2r fe f nlhs hw env sch args g A q ntz ps dty dl -> all_arr_defined fe fuel q ntz g A ps dty dl ->
  p_cp q = cp -> p_v q = v -> p_dx q < h -> p_dy q < h -> 0 < p_dt q < h ->
  exists V, returns (gateway fuel c2r fe f nlhs hw env sch junk args) ntz (length ps) V /\
  forall n, (n < length ps)%nat -> nth n ps origin = o -> array_inside q ntz g A (start_delay dty dl n) o ->
    Rabs (observed q ntz (start_delay dty dl n) (V n) phi - array_field cp v g A o phi) < eps.
Proof.
  intros g A cp v o phi L M eps Hg Hcp Ho Hphi Heps.
  assert (HL : 0 <= L) by exact (lip_pos L phi (proj2 Hphi)).
  assert (HM : 0 <= M) by (eapply Rle_trans; [apply Rabs_pos|apply (proj1 Hphi 0)]).
  destruct (sum_small (weight A) (fun q i => element_error q g (rel o (elem A i)) L M) (fun q => p_cp q = cp /\ p_v q = v) (length (ar_pos A))) with (eps := eps)
    as (h & Hh & B); auto.
  { intros i Hi e He. destruct (element_error_small g cp v (rel o (elem A i)) L M e Hg (Ho i Hi) Hcp HL HM He) as (h & Hh & B).
    exists h. split; auto. intros q [E1 E2]. now apply B. }
  exists h. split; auto. intros fuel c2r fe f nlhs hw env sch junk args q ntz ps dty dl HC HD Ecp Ev Hx Hy Ht.
  destruct (C112_field fuel c2r fe f nlhs hw env sch junk args g A q ntz ps dty dl HC HD Hg ltac:(lra) ltac:(lra)) as (V & HV & H).
  exists V. split; [exact HV|]. intros n Hn Eo Hin. subst o.
  destruct (HD n Hn) as [Hok He]. destruct (He 0%nat) as [(Hx0 & Hy0 & _ & _) _ _ _ _ _]; [apply Hok|].
  specialize (H n Hn Ho Hin phi L M Hphi). rewrite Ecp, Ev in H. eapply Rle_lt_trans; [exact H|]. apply B; auto.
Qed.
Print Assumptions C112_convergence.

(** C112: the simulated signal of an array - the response, then conv_p or
    fftconv_p with the samples of an excitation e - at time t of the record. *)
Theorem C112_signal : forall fuel c2r fe f nlhs hw env sch junk args g A q ntz ps dty dl L M K e mc kf,
  exact_array_call c2r fe f nlhs hw env sch args g A q ntz ps dty dl -> all_arr_defined fe fuel q ntz g A ps dty dl ->
  element_shape g -> 0 < p_dt q -> 0 < p_cp q -> (1 <= ntz)%Z -> (1 <= length ps)%nat ->
  (1 <= K)%Z -> excitation L M K (p_dt q) e ->
  available fe kf -> kf <> KOla -> (0 <= mc_hw mc)%Z -> (kf = KFft -> exact_fft mc (ntz + K - 1)) ->
  runs_to_end (mc_hw mc) (mc_env mc) (Z.of_nat (length ps)) (mc_sch mc) ->
  (fe = Octave -> ~ (ntz + K - 1 = 1 /\ Z.of_nat (length ps) = 1)%Z) ->
  exists H w er Y W,
    gateway fuel c2r fe f nlhs hw env sch junk args = Ok (Some (Returned H ntz (Z.of_nat (length ps)) w er)) /\
    conv_gateway mc fe kf 1 [VNum Full ntz (Z.of_nat (length ps)) H; mat K 1 (samples K (p_dt q) e)] =
      Ok (Some (CReturned (ntz + K - 1) (Z.of_nat (length ps)) Y)) /\
    matrix_is Y (Z.to_nat (ntz + K - 1)) (length ps) W /\
    forall n k, (n < length ps)%nat -> (k < Z.to_nat (ntz + K - 1))%nat -> off_array g A (nth n ps origin) ->
      array_inside q ntz g A (start_delay dty dl n) (nth n ps origin) ->
      Rabs (W n k - array_field (p_cp q) (p_v q) g A (nth n ps origin)
                      (fun t => e (start_delay dty dl n + INR k * p_dt q - t)))
      <= array_error q g A (nth n ps origin) L M.
Proof.
  intros fuel c2r fe f nlhs hw env sch junk args g A q ntz ps dty dl L M K e mc kf HC HD Hg Hdt Hcp Hnt Hps HK He Hav Hkf Hhw Hfft Hrun H11.
  destruct (C112_field fuel c2r fe f nlhs hw env sch junk args g A q ntz ps dty dl HC HD Hg Hdt Hcp) as (V & (H & w & er & EG & HM) & HV).
  destruct (matrix_exact H _ _ V HM) as (d & EH & Ld & Hcol).
  assert (Eb : (b_rows K 1 = K)%Z) by (unfold b_rows; rewrite Bool.orb_true_r; lia).
  assert (Ls : length (samples K (p_dt q) e) = Z.to_nat K) by (unfold samples; now rewrite map_length, seq_length).
  destruct (C55_new_matrix_partial mc fe kf 1 (VNum Full ntz (Z.of_nat (length ps)) H) (mat K 1 (samples K (p_dt q) e))
     ntz (Z.of_nat (length ps)) d K 1 (samples K (p_dt q) e)) as (Y & EY & HY); rewrite ?Eb; auto; try lia.
  - exists Full. split; [now rewrite EH|]. split; [discriminate|]. rewrite Ld. lia.
  - exists Full. split; [reflexivity|]. split; [discriminate|]. rewrite Ls. lia.
  - unfold conformable. lia.
  - rewrite Eb in EY, HY. rewrite Nat2Z.id in HY. exists H, w, er, Y, (product ntz d K 1 (samples K (p_dt q) e)).
    split; [exact EG|]. split; [exact EY|]. split; [exact HY|]. intros n k Hn Hk Hz Hin.
    unfold product. specialize (Hcol n Hn). rewrite Z2Nat.id in Hcol by lia. rewrite Hcol.
    unfold b_col. rewrite Bool.orb_true_r.
    rewrite (convolved q ntz (start_delay dty dl n) (V n) K e k L M Hdt ltac:(lia) He).
    apply (HV n Hn Hz Hin). destruct He as [[HMe HLe] _]. split; [intros; apply HMe|]. intros t t'.
    eapply Rle_trans; [apply HLe|]. right. f_equal.
    replace (start_delay dty dl n + INR k * p_dt q - t - (start_delay dty dl n + INR k * p_dt q - t')) with (- (t - t')) by ring.
    apply Rabs_Ropp.
Qed.
Print Assumptions C112_signal.
