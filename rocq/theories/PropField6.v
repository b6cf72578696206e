(** PropField6.v - property theorem C113: the field of an annular array. *)
From Coq Require Strings.String Strings.Ascii.
Import Coq.Strings.String.StringSyntax.
From Coq Require Import Reals List ZArith Lra Lia.
From Coquelicot Require Import Coquelicot.
From Verif Require Import Base BaseLemmas ModelSir ModelArr ModelSmp NumR SpecSmp SpecSir SpecRayleigh SpecArr
  ModelGw SpecGw SpecGwR ProofsR ProofsRayleigh ProofsSirR PropSir PropArr PropGwR SpecPhys ProofsPhys ProofsRiemann PropPhys PropPhys2
  SpecField ProofsField ProofsField2 PropField SpecAnnuR PropAnnuR PropField5 SpecField6.
Import ListNotations.
Open Scope R_scope.

(** The sources of a disc, moved by m samples. *)
Lemma moved_sources q ntz delay o src phi m : (forall s, In s src -> (0 <= arrives_at q delay o s /\ 0 <= arrives_at q delay o s + m < ntz)%Z) ->
  p_dt q * Rsum (map (fun k => (if (0 <=? Z.of_nat k - m)%Z then rayleigh q 1 delay o src (Z.of_nat k - m) else 0) * phi (delay + INR k * p_dt q)) (seq 0 (Z.to_nat ntz))) =
  p_dt q * Rsum (map (fun s => strength q 1 o s * phi (delay + IZR (arrives_at q delay o s + m) * p_dt q)) src).
Proof.
  intros H. f_equal.
  transitivity (Rsum (map (fun k => Rsum (map (fun s => if Z.eqb (arrives_at q delay o s + m) (Z.of_nat k)
     then strength q 1 o s * phi (delay + IZR (arrives_at q delay o s + m) * p_dt q) else 0) src)) (seq 0 (Z.to_nat ntz)))).
  - apply Rsum_ext. intros k _. rewrite Rmult_comm.
    destruct (Z.leb_spec 0 (Z.of_nat k - m)) as [Hk|Hk].
    + unfold rayleigh. rewrite <- Rsum_scal. apply Rsum_ext. intros s _.
      destruct (Z.eqb_spec (arrives_at q delay o s) (Z.of_nat k - m)) as [E|E];
        destruct (Z.eqb_spec (arrives_at q delay o s + m) (Z.of_nat k)) as [E'|E']; try lia; [|ring].
      rewrite E', <- INR_IZR_INZ. ring.
    + rewrite Rmult_0_r. symmetry. transitivity (Rsum (map (fun _ : source => 0) src)).
      * apply Rsum_ext. intros s Hs. specialize (H s Hs). destruct (Z.eqb_spec (arrives_at q delay o s + m) (Z.of_nat k)); [lia|reflexivity].
      * clear. induction src; [reflexivity|]. change (0 + Rsum (map (fun _ => 0) src) = 0). rewrite IHsrc. ring.
  - rewrite ProofsPhys.Rsum_swap. apply Rsum_ext. intros s Hs. apply Rsum_single. specialize (H s Hs). lia.
Qed.

(** The total strength of a disc. *)
Lemma total_strength q r o : par_ok q -> 0 < p_dt q -> 0 <= r -> p_z o <> 0 ->
  p_dt q * Rsum (map (fun s => Rabs (strength q 1 o s)) (sources q (GCirc r))) <=
  1000 * Rabs (p_v q) / (2 * PI) / Rabs (p_z o) * ((2 * r + p_dy q / 2) * (2 * r + p_dx q / 2)).
Proof.
  intros Hq Hdt Hr Hz. pose proof Hq as (Hx & Hy & _ & _).
  set (g := GCirc r). assert (Hg : flat_geom g) by exact Hr.
  set (C := 1000 * Rabs (p_v q) / (2 * PI)).
  pose proof (Rabs_pos_lt _ Hz) as Hz'. pose proof PI_RGT_0 as HPI.
  assert (HC : 0 <= C / Rabs (p_z o)).
  { unfold C. apply Rmult_le_pos; [|left; now apply Rinv_0_lt_compat]. apply Rmult_le_pos; [|left; apply Rinv_0_lt_compat; lra].
    apply Rmult_le_pos; [lra|apply Rabs_pos]. }
  rewrite (flat_sources q g Hg). set (P := flat_map _ _).
  assert (E1 : p_dx q * p_dy q * Rsum (map (fun _ => 1) P) <= (2 * half_height g + p_dy q / 2) * (2 * max_width g + p_dx q / 2)).
  { unfold P. rewrite Rsum_flat.
    pose proof (region_count (half_width g) (half_height g) (max_width g) (flat_height g Hg) (fun y => flat_range g y Hg) (p_dx q) (p_dy q) Hx Hy) as B.
    eapply Rle_trans; [|exact B]. right. f_equal. apply Rsum_ext. intros y _. rewrite map_map. reflexivity. }
  clearbody P. rewrite map_map, <- Rsum_scal.
  apply Rle_trans with (Rsum (map (fun _ : R * R => C / Rabs (p_z o) * (p_dx q * p_dy q)) P)).
  - clear E1. induction P as [|[x y] P IH]; [apply Rle_refl|]. cbn [map]. change (Rsum (?a :: ?t)) with (a + Rsum t).
    apply Rplus_le_compat; [|exact IH].
    assert (Es : p_dt q * strength q 1 o (src_at q g x y) = p_dx q * p_dy q * amplitude (p_v q) o x y).
    { unfold strength. change (SpecRayleigh.dist o (src_at q g x y)) with (distance o (on_plane x y)). cbn [s_ds src_at]. unfold amplitude.
      pose proof (dist_plane_ge o x y). field. repeat split; lra. }
    rewrite <- (Rabs_pos_eq (p_dt q)) at 1 by lra. rewrite <- Rabs_mult, Es, !Rabs_mult, (Rabs_pos_eq (p_dx q)), (Rabs_pos_eq (p_dy q)) by lra.
    rewrite (Rmult_comm (C / Rabs (p_z o))). apply Rmult_le_compat_l; [nra|]. now apply amp_bound.
  - assert (E2 : Rsum (map (fun _ : R * R => C / Rabs (p_z o) * (p_dx q * p_dy q)) P) = C / Rabs (p_z o) * (p_dx q * p_dy q * Rsum (map (fun _ => 1) P))).
    { rewrite <- !Rsum_scal. apply Rsum_ext. intros _ _. ring. }
    rewrite E2. apply Rmult_le_compat_l; [exact HC|exact E1].
Qed.

(** One disc of the array. *)
Definition disc_moved (q : rpar) (A : annular) (ntz : Z) (delay : R) (o : pos) (n : nat) (m : Z) (phi : R -> R) : R :=
  p_dt q * Rsum (map (fun k => (if (0 <=? Z.of_nat k - m)%Z then disc_sir q A delay o n (Z.of_nat k - m) else 0) * phi (delay + INR k * p_dt q)) (seq 0 (Z.to_nat ntz))).
Lemma disc_bound q ntz A delay o phi L M n j : annular_ok q A -> centre_ok A -> 0 < p_dt q -> 0 < p_cp q -> p_z o <> 0 ->
  annular_inside q ntz A delay o -> smooth L M phi -> (n < length (an_radii A))%nat -> (j < num_rings A)%nat ->
  Rabs (disc_moved q A ntz delay o n (Zrint (ring_tau (p_cp q) A j / p_dt q) + 1) phi -
        radiated (p_cp q) (p_v q) (GCirc (radius A n)) o (fun t => phi (t + ring_tau (p_cp q) A j)))
  <= late_error q (radius A n) (p_z o) L M.
Proof.
  intros OK HC0 Hdt Hcp Hz (lo & hi & HT & Hlo & Hhi & Hj3) Hphi Hn Hj.
  pose proof (ak_par q A OK) as Hq. pose proof Hq as (Hx & Hy & _ & _).
  pose proof (ak_pos q A OK n Hn) as Hr. fold (radius A n) in Hr.
  pose proof (ak_idx q A OK j Hj) as Hs. set (s := Zrint (ring_tau (p_cp q) A j / p_dt q)) in *.
  assert (HL0 : 0 <= L) by exact (lip_pos L phi (proj2 Hphi)).
  assert (HM0 : 0 <= M) by (eapply Rle_trans; [apply Rabs_pos|apply (proj1 Hphi 0)]).
  pose proof (Rabs_pos_lt _ Hz) as Hz'. pose proof PI_RGT_0 as HPI.
  set (tau := ring_tau (p_cp q) A j) in *.
  assert (Hin : inside q ntz (GCirc (radius A n)) delay o) by (exists lo, hi; split; [now apply HT|split; assumption]).
  assert (Hphi' : smooth L M (fun t => phi (t + tau))).
  { destruct Hphi as [H1 H2]. split; [intros; apply H1|]. intros t t'. eapply Rle_trans; [apply H2|]. right. do 2 f_equal. ring. }
  pose proof (field_bound q ntz delay (GCirc (radius A n)) o _ L M Hq Hdt Hcp Hr Hz Hin Hphi') as FB.
  assert (Hg : geom_ok q (GCirc (radius A n))) by exact I.
  rewrite observed_sources in FB by (apply inside_arrives; auto).
  assert (Hlate : Rabs (IZR (s + 1) * p_dt q - tau) <= 3 / 2 * p_dt q).
  { pose proof (Zrint_near (tau / p_dt q)) as Hr0. fold s in Hr0.
    replace (IZR (s + 1) * p_dt q - tau) with ((1 - (tau / p_dt q - IZR s)) * p_dt q) by (rewrite plus_IZR; field; lra).
    rewrite Rabs_mult, (Rabs_pos_eq (p_dt q)) by lra. apply Rmult_le_compat_r; [lra|].
    unfold Rabs in *. repeat destruct (Rcase_abs _); lra. }
  unfold late_error.
  destruct (Bool.bool_dec (Nat.eqb n 0 && Rleb (nth 0 (an_radii A) 0) (/ 2 ^ 52))%bool true) as [Esil|Esil].
  - (* no centre disc *)
    assert (Er : radius A n = 0).
    { apply andb_prop in Esil as [E1 E2]. apply Nat.eqb_eq in E1. subst n. unfold Rleb in E2. destruct (Rle_dec _ _) as [E|]; [|discriminate E2].
      destruct HC0 as [H|H]; [exact H|]. unfold radius in H. lra. }
    unfold disc_moved, disc_sir. rewrite Esil.
    assert (E0 : Rsum (map (fun k => (if (0 <=? Z.of_nat k - (s + 1))%Z then 0 else 0) * phi (delay + INR k * p_dt q)) (seq 0 (Z.to_nat ntz))) = 0).
    { induction (seq 0 (Z.to_nat ntz)) as [|k l IH]; [reflexivity|]. cbn [map]. change (Rsum (?a :: ?t)) with (a + Rsum t). rewrite IH.
      destruct (0 <=? _)%Z; ring. }
    rewrite E0, Er. replace (radiated (p_cp q) (p_v q) (GCirc 0) o (fun t => phi (t + tau))) with 0.
    2: { unfold radiated. cbn [half_height]. rewrite Ropp_0, RInt_point. reflexivity. }
    rewrite Rmult_0_r, Rminus_0_r, Rabs_R0. rewrite Er in FB.
    assert (0 <= field_error q (GCirc 0) (p_z o) L M) by (eapply Rle_trans; [apply Rabs_pos|exact FB]).
    apply Rplus_le_le_0_compat; [assumption|]. apply Rmult_le_pos; [|apply Rmult_le_pos; lra].
    apply Rmult_le_pos; [|apply Rmult_le_pos; lra]. apply Rmult_le_pos; [|left; now apply Rinv_0_lt_compat].
    apply Rmult_le_pos; [|left; apply Rinv_0_lt_compat; lra]. apply Rmult_le_pos; [lra|apply Rabs_pos].
  - apply Bool.not_true_is_false in Esil. unfold disc_moved, disc_sir. rewrite Esil. fold (radius A n).
    pose proof (inside_arrives q ntz (GCirc (radius A n)) delay o Hq Hg Hdt Hin) as Harr.
    rewrite moved_sources.
    2: { intros s0 Hs0. specialize (Harr s0 Hs0). split; [lia|]. split; [lia|].
      apply lt_IZR. rewrite !plus_IZR.
      assert (Ea : arrival q delay o s0 = (travel_time (p_cp q) (GCirc (radius A n)) o (spos s0) - delay) / p_dt q) by (apply arrival_time; auto).
      pose proof (Zrint_near (arrival q delay o s0)) as N1. fold (arrives_at q delay o s0) in N1.
      pose proof (Zrint_near (tau / p_dt q)) as N2. fold s in N2.
      assert (Hon : on_surface (GCirc (radius A n)) (spos s0)) by (apply (source_on_surface q); auto).
      specialize (HT n Hn (spos s0) Hon). specialize (Hj3 j Hj). fold tau in Hj3.
      assert (B : arrival q delay o s0 + tau / p_dt q <= IZR ntz - 3).
      { rewrite Ea. apply Rmult_le_reg_r with (p_dt q); auto.
        replace (((travel_time (p_cp q) (GCirc (radius A n)) o (spos s0) - delay) / p_dt q + tau / p_dt q) * p_dt q)
          with (travel_time (p_cp q) (GCirc (radius A n)) o (spos s0) - delay + tau) by (field; lra). lra. }
      unfold Rabs in N1, N2. repeat destruct (Rcase_abs _); lra. }
    match goal with |- Rabs (?X - ?Y) <= _ => match type of FB with Rabs (?S - _) <= _ => replace (X - Y) with ((S - Y) + (X - S)) by ring end end.
    eapply Rle_trans; [apply Rabs_triang|]. apply Rplus_le_compat; [exact FB|].
    rewrite <- Rmult_minus_distr_l, Rabs_mult, (Rabs_pos_eq (p_dt q)) by lra.
    pose proof (total_strength q (radius A n) o Hq Hdt Hr Hz) as TS.
    apply Rle_trans with (p_dt q * Rsum (map (fun s0 => L * (3 / 2 * p_dt q) * Rabs (strength q 1 o s0)) (sources q (GCirc (radius A n))))).
    + apply Rmult_le_compat_l; [lra|]. apply Rsum_dev. intros s0 Hs0.
      rewrite <- Rmult_minus_distr_l, Rabs_mult, Rmult_comm. apply Rmult_le_compat_r; [apply Rabs_pos|].
      eapply Rle_trans; [apply (proj2 Hphi)|]. apply Rmult_le_compat_l; auto.
      eapply Rle_trans; [|exact Hlate]. right. f_equal. rewrite !plus_IZR. ring.
    + rewrite Rsum_scal. 
      assert (0 <= L * (3 / 2 * p_dt q)) by (apply Rmult_le_pos; lra).
      apply Rle_trans with (L * (3 / 2 * p_dt q) * (1000 * Rabs (p_v q) / (2 * PI) / Rabs (p_z o) * ((2 * radius A n + p_dy q / 2) * (2 * radius A n + p_dx q / 2)))).
      * rewrite <- Rmult_assoc, (Rmult_comm (p_dt q)), Rmult_assoc. now apply Rmult_le_compat_l.
      * right. ring.
Qed.

Lemma annular_call_returns fuel c2r fe nlhs hw env sch junk args A q ntz ps dty dl :
  exact_annular_call c2r fe nlhs hw env sch args A q ntz ps dty dl -> all_annular_defined fe fuel q ntz A ps dty dl ->
  returns (gateway fuel c2r fe FArrAnnu nlhs hw env sch junk args) ntz (length ps)
    (fun n k => annular_sir 1 q A (start_delay dty dl n) (nth n ps origin) (Z.of_nat k)).
Proof.
  intros [(l & p & Hl & HN & D) ? ? ? ? ? ?] Hd. unfold returns.
  exact (C44_annular_partial fuel c2r fe nlhs hw env sch junk args p A q ntz l ps dty dl D HN xn_ok Hl xn_lhs xn_nt xn_c2r xn_hw xn_sch Hd).
Qed.

Lemma Rsum_sub {X} (f f' : X -> R) l : Rsum (map f l) - Rsum (map f' l) = Rsum (map (fun x => f x - f' x) l).
Proof. induction l as [|a l IH]; cbn [map]; [cbn; ring|]. change (Rsum (?a :: ?t)) with (a + Rsum t). rewrite <- IH. ring. Qed.

Lemma observed_annular q ntz A delay o phi :
  observed q ntz delay (fun k => annular_sir 1 q A delay o (Z.of_nat k)) phi =
  Rsum (map (fun j => ring_w A j * match j with
     | O => disc_moved q A ntz delay o 0 (Zrint (ring_tau (p_cp q) A j / p_dt q) + 1) phi
     | _ => disc_moved q A ntz delay o (2 * j) (Zrint (ring_tau (p_cp q) A j / p_dt q) + 1) phi -
            disc_moved q A ntz delay o (2 * j - 1) (Zrint (ring_tau (p_cp q) A j / p_dt q) + 1) phi
     end) (seq 0 (num_rings A))).
Proof.
  unfold observed, annular_sir.
  set (T := fun k j => let m := (Z.of_nat k - (Zrint (ring_tau (p_cp q) A j / p_dt q) + 1))%Z in
     ring_w A j * (p_dt q * ((if (0 <=? m)%Z then ring_sir q A delay o j m else 0) * phi (delay + INR k * p_dt q)))).
  transitivity (Rsum (map (fun k => Rsum (map (T k) (seq 0 (num_rings A)))) (seq 0 (Z.to_nat ntz)))).
  - rewrite <- Rsum_scal. apply Rsum_ext. intros k _.
    rewrite Rmult_comm, Rmult_assoc, Rmult_comm, <- Rsum_scal. apply Rsum_ext. intros j _. unfold T. cbv zeta.
    destruct (0 <=? _)%Z; ring.
  - rewrite PropField5.Rsum_swap. apply Rsum_ext. intros j _. unfold T. cbv zeta.
    rewrite Rsum_scal. f_equal. rewrite Rsum_scal. unfold disc_moved, ring_sir. destruct j as [|j]; [reflexivity|].
    rewrite <- Rmult_minus_distr_l. f_equal. rewrite Rsum_sub. apply Rsum_ext. intros k _. destruct (0 <=? _)%Z; ring.
Qed.

Lemma ring_index A j : (1 <= length (an_radii A))%nat -> Nat.Odd (length (an_radii A)) -> (S j < num_rings A)%nat -> (2 * S j < length (an_radii A))%nat.
Proof. intros H1 [k Hk] Hj. unfold num_rings in Hj. rewrite Hk in *. replace (2 * k + 1 + 1)%nat with ((k + 1) * 2)%nat in Hj by lia. rewrite Nat.div_mul in Hj by lia. lia. Qed.

(** C113: the rings, each with its weight and its focusing delay, up to an
    error that is linear in the sampling period. (The code moves every ring by
    its delay rounded to samples, plus one.) *)
Theorem C113_field : forall fuel c2r fe nlhs hw env sch junk args A q ntz ps dty dl,
  exact_annular_call c2r fe nlhs hw env sch args A q ntz ps dty dl -> all_annular_defined fe fuel q ntz A ps dty dl ->
  Nat.Odd (length (an_radii A)) -> centre_ok A -> 0 < p_dt q -> 0 < p_cp q ->
  exists V, returns (gateway fuel c2r fe FArrAnnu nlhs hw env sch junk args) ntz (length ps) V /\
  forall n, (n < length ps)%nat -> p_z (nth n ps origin) <> 0 -> annular_inside q ntz A (start_delay dty dl n) (nth n ps origin) ->
    forall phi L M, smooth L M phi ->
    Rabs (observed q ntz (start_delay dty dl n) (V n) phi - annular_field (p_cp q) (p_v q) A (nth n ps origin) phi)
    <= annular_error q A (p_z (nth n ps origin)) L M.
Proof.
  intros fuel c2r fe nlhs hw env sch junk args A q ntz ps dty dl HC HD Hodd Hce Hdt Hcp.
  eexists. split; [apply annular_call_returns; eassumption|]. cbv beta. intros n Hn Hz Hin phi L M Hphi.
  destruct HC as [_ OK _ _ _ _ _]. pose proof (ak_one q A OK) as H1.
  rewrite observed_annular. unfold annular_field, annular_error. apply Rsum_dev. intros j Hj. apply in_seq in Hj.
  rewrite <- Rmult_minus_distr_l, Rabs_mult. apply Rmult_le_compat_l; [apply Rabs_pos|].
  destruct j as [|j]; cbn [ring_field ring_error].
  - apply disc_bound; auto; lia.
  - pose proof (ring_index A j H1 Hodd ltac:(lia)) as Hi.
    pose proof (disc_bound q ntz A _ _ phi L M (2 * S j) (S j) OK Hce Hdt Hcp Hz Hin Hphi Hi ltac:(lia)) as B1.
    pose proof (disc_bound q ntz A _ _ phi L M (2 * S j - 1) (S j) OK Hce Hdt Hcp Hz Hin Hphi ltac:(lia) ltac:(lia)) as B2.
    match goal with |- Rabs (?a - ?b - (?c - ?d)) <= _ => replace (a - b - (c - d)) with ((a - c) - (b - d)) by ring end.
    unfold Rminus at 1. eapply Rle_trans; [apply Rabs_triang|]. rewrite Rabs_Ropp. apply Rplus_le_compat; assumption.
Qed.
Print Assumptions C113_field.

Lemma late_error_small r cp v z L M eps : 0 <= r -> z <> 0 -> 0 < cp -> 0 <= L -> 0 <= M -> 0 < eps ->
  exists h, 0 < h /\ forall q, (p_cp q = cp /\ p_v q = v) -> 0 < p_dx q < h -> 0 < p_dy q < h -> 0 < p_dt q < h -> late_error q r z L M < eps.
Proof.
  intros Hr Hz Hcp HL HM Heps.
  destruct (field_error_small (GCirc r) cp v z L M Hr Hcp Hz HL HM) as (K & HK & HE).
  pose proof (Rabs_pos_lt _ Hz) as Hz'. pose proof PI_RGT_0 as HPI.
  set (C := 1000 * Rabs v / (2 * PI) / Rabs z).
  assert (HC : 0 <= C).
  { unfold C. apply Rmult_le_pos; [|left; now apply Rinv_0_lt_compat]. apply Rmult_le_pos; [|left; apply Rinv_0_lt_compat; lra]. apply Rmult_le_pos; [lra|apply Rabs_pos]. }
  set (B := C * (L * (3 / 2)) * ((2 * r + 1) * (2 * r + 1))).
  assert (HB : 0 <= B) by (unfold B; apply Rmult_le_pos; [apply Rmult_le_pos; [auto|apply Rmult_le_pos; lra]|apply Rmult_le_pos; lra]).
  set (h0 := eps / (K + B + 1)). assert (Hh0 : 0 < h0) by (apply Rdiv_lt_0_compat; lra).
  set (h := Rmin 1 (h0^2)). assert (Hh : 0 < h) by (apply Rmin_pos; [lra|nra]).
  exists h. split; auto. intros q [Ecp Ev] Hx Hy Ht.
  assert (Hh1 : h <= 1) by apply Rmin_l.
  assert (Hsh : sqrt h <= h0). { rewrite <- (sqrt_pow2 h0) by lra. apply sqrt_le_1_alt. apply Rmin_r. }
  assert (Hsq : h <= sqrt h). { rewrite <- (sqrt_square h) at 1 by lra. apply sqrt_le_1_alt. nra. }
  pose proof (HE q h Ecp Ev ltac:(lra) ltac:(lra) ltac:(lra) Hh1) as FE.
  unfold late_error. rewrite Ev. fold C.
  assert (T : C * (L * (3 / 2 * p_dt q)) * ((2 * r + p_dy q / 2) * (2 * r + p_dx q / 2)) <= B * h0).
  { replace (C * (L * (3 / 2 * p_dt q)) * ((2 * r + p_dy q / 2) * (2 * r + p_dx q / 2))) with
      (C * (L * (3 / 2)) * ((2 * r + p_dy q / 2) * (2 * r + p_dx q / 2)) * p_dt q) by ring.
    apply Rmult_le_compat; try lra.
    - apply Rmult_le_pos; [apply Rmult_le_pos; [auto|apply Rmult_le_pos; lra]|apply Rmult_le_pos; lra].
    - unfold B. apply Rmult_le_compat_l; [apply Rmult_le_pos; [auto|apply Rmult_le_pos; lra]|]. apply Rmult_le_compat; lra. }
  assert (T2 : K * sqrt h <= K * h0) by now apply Rmult_le_compat_l.
  assert (T3 : (K + B) * h0 < eps).
  { unfold h0. apply Rmult_lt_reg_r with (K + B + 1); [lra|].
    replace ((K + B) * (eps / (K + B + 1)) * (K + B + 1)) with ((K + B) * eps) by (field; lra). nra. }
  lra.
Qed.

(** C113: convergence. *)
Theorem C113_convergence : forall A cp v o phi L M eps,
  Nat.Odd (length (an_radii A)) -> centre_ok A -> (forall n, 0 <= radius A n) -> 0 < cp -> p_z o <> 0 -> smooth L M phi -> 0 < eps ->
  exists h, 0 < h /\ forall fuel c2r fe nlhs hw env sch junk args q ntz ps dty dl,
  exact_annular_call c2r fe nlhs hw env sch args A q ntz ps dty dl -> all_annular_defined fe fuel q ntz A ps dty dl ->
  p_cp q = cp -> p_v q = v -> p_dx q < h -> p_dy q < h -> 0 < p_dt q < h ->
  exists V, returns (gateway fuel c2r fe FArrAnnu nlhs hw env sch junk args) ntz (length ps) V /\
  forall n, (n < length ps)%nat -> nth n ps origin = o -> annular_inside q ntz A (start_delay dty dl n) o ->
    Rabs (observed q ntz (start_delay dty dl n) (V n) phi - annular_field cp v A o phi) < eps.
Proof.
  intros A cp v o phi L M eps Hodd Hce Hr Hcp Hz Hphi Heps.
  assert (HL : 0 <= L) by exact (lip_pos L phi (proj2 Hphi)).
  assert (HM : 0 <= M) by (eapply Rle_trans; [apply Rabs_pos|apply (proj1 Hphi 0)]).
  destruct (sum_small (ring_w A) (fun q j => ring_error q A (p_z o) j L M) (fun q => p_cp q = cp /\ p_v q = v) (num_rings A)) with (eps := eps)
    as (h & Hh & B); auto.
  { intros j _ e He. destruct j as [|j]; cbn [ring_error].
    - now apply late_error_small.
    - destruct (late_error_small (radius A (2 * S j)) cp v (p_z o) L M (e / 2)) as (h1 & Hh1 & B1); auto; [lra|].
      destruct (late_error_small (radius A (2 * S j - 1)) cp v (p_z o) L M (e / 2)) as (h2 & Hh2 & B2); auto; [lra|].
      exists (Rmin h1 h2). split; [now apply Rmin_pos|]. intros q HP Hx Hy Ht.
      pose proof (Rmin_l h1 h2). pose proof (Rmin_r h1 h2).
      specialize (B1 q HP ltac:(lra) ltac:(lra) ltac:(lra)). specialize (B2 q HP ltac:(lra) ltac:(lra) ltac:(lra)). lra. }
  exists h. split; auto. intros fuel c2r fe nlhs hw env sch junk args q ntz ps dty dl HC HD Ecp Ev Hx Hy Ht.
  destruct (C113_field fuel c2r fe nlhs hw env sch junk args A q ntz ps dty dl HC HD Hodd Hce ltac:(lra) ltac:(lra)) as (V & HV & H).
  exists V. split; [exact HV|]. intros n Hn Eo Hin. subst o.
  destruct HC as [_ OK _ _ _ _ _]. destruct (ak_par q A OK) as (Hx0 & Hy0 & _ & _).
  specialize (H n Hn Hz Hin phi L M Hphi). rewrite Ecp, Ev in H. eapply Rle_lt_trans; [exact H|]. apply B; auto.
Qed.
Print Assumptions C113_convergence.
