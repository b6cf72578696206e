(** ProofsRound.v - rounding errors of sums of products in binary64. *)
From Coq Require Import Floats Uint63.
From Coq Require Import Reals Lra Lia ZArith List Bool.
From Flocq Require Import Core Plus_error Relative BinarySingleNaN PrimFloat.
From Verif Require Import Base BaseLemmas NumF ModelConv SpecDft SpecConv ProofsTermF SpecRound ProofsConvR ProofsDft.
Import ListNotations.
Open Scope R_scope.

#[local] Instance fe_valid : Valid_exp fe := fexp_correct prec emax Hprec.

#[local] Instance p53 : Prec_gt_0 53 := eq_refl.

Lemma val_V x : val x = V x.
Proof.
  unfold val, V, Prim2B. rewrite B2R_SF2B. unfold SF2R. destruct (Prim2SF x) as [s|s| |s m e]; try reflexivity.
  unfold F2R. cbn [Fnum Fexp]. rewrite bpow_powerRZ. change (IZR radix2) with 2.
  destruct s; unfold cond_Zopp; cbv iota; rewrite ?opp_IZR; ring.
Qed.
Lemma finite_fin x : finite x <-> fin x = true.
Proof. unfold finite, fin. now rewrite is_finite_equiv. Qed.

Notation u := (bpow radix2 (-53)).
Notation eta := (bpow radix2 (-1075)).
Lemma u_eps : eps = 2 * u.
Proof. unfold eps. change (-52)%Z with (1 + -53)%Z. change 2 with (IZR radix2) at 1. rewrite <- bpow_powerRZ, bpow_plus. reflexivity. Qed.
Lemma eta_tiny : tiny = 2 * eta.
Proof. unfold tiny. change (-1074)%Z with (1 + -1075)%Z. change 2 with (IZR radix2) at 1. rewrite <- bpow_powerRZ, bpow_plus. reflexivity. Qed.
Lemma large_bpow : large = bpow radix2 1022.
Proof. unfold large. now rewrite bpow_powerRZ. Qed.

Lemma half_u : / 2 * bpow radix2 (-52) = u.
Proof. change (-52)%Z with (1 + -53)%Z. rewrite bpow_plus. change (bpow radix2 1) with 2. lra. Qed.
Lemma half_eta : / 2 * bpow radix2 (-1074) = eta.
Proof. change (-1074)%Z with (1 + -1075)%Z. rewrite bpow_plus. change (bpow radix2 1) with 2. lra. Qed.

Lemma rnd_std x : exists d e, Rabs d <= u /\ Rabs e <= eta /\ rnd x = x * (1 + d) + e.
Proof.
  destruct (error_N_FLT radix2 (-1074) 53 eq_refl (fun n => negb (Z.even n)) x) as (d & e & H1 & H2 & _ & H4).
  exists d, e. split; [|split].
  - eapply Rle_trans; [exact H1|]. right. exact half_u.
  - eapply Rle_trans; [exact H2|]. right. exact half_eta.
  - exact H4.
Qed.

Lemma rnd_small x k : (-1074 <= k)%Z -> Rabs x <= bpow radix2 k -> Rabs (rnd x) <= bpow radix2 k.
Proof.
  intros Hk H. apply abs_round_le_generic; [typeclasses eauto|typeclasses eauto| |exact H].
  apply generic_format_bpow. unfold SpecFloat.fexp, SpecFloat.emin. change prec with 53%Z. change emax with 1024%Z. lia.
Qed.
Lemma rnd_nover x : Rabs x <= bpow radix2 1023 -> Rlt_bool (Rabs (rnd x)) (bpow radix2 emax) = true.
Proof.
  intros H. apply Rlt_bool_true. apply Rle_lt_trans with (bpow radix2 1023); [apply rnd_small; [lia|exact H]|]. apply bpow_lt. reflexivity.
Qed.

Lemma add_std x y : fin x = true -> fin y = true -> Rabs (V x + V y) <= bpow radix2 1023 ->
  fin (x + y)%float = true /\ Rabs (V (x + y)%float - (V x + V y)) <= u * Rabs (V x + V y).
Proof.
  intros Hx Hy Hb. pose proof (Bplus_correct prec emax Hprec Hmax mode_NE _ _ Hx Hy) as H.
  rewrite <- add_equiv in H. change (round_mode mode_NE) with ZnearestE in H.
  change (B2R (Prim2B x)) with (V x) in H. change (B2R (Prim2B y)) with (V y) in H. rewrite rnd_nover in H by exact Hb.
  destruct H as (H1 & H2 & _). split; [exact H2|]. change (V (x + y)%float = rnd (V x + V y)) in H1. rewrite H1.
  destruct (FLT_plus_error_N_ex radix2 (-1074) 53 (fun n => negb (Z.even n)) (V x) (V y) (V_format x) (V_format y)) as (d & D1 & D2).
  replace (rnd (V x + V y)) with ((V x + V y) * (1 + d)) by (symmetry; exact D2).
  replace ((V x + V y) * (1 + d) - (V x + V y)) with (d * (V x + V y)) by ring. rewrite Rabs_mult.
  apply Rmult_le_compat_r; [apply Rabs_pos|]. eapply Rle_trans; [exact D1|].
  change (u_ro radix2 53) with (/ 2 * bpow radix2 (-52)). rewrite half_u. pose proof (bpow_gt_0 radix2 (-53)) as Hu. apply Rle_trans with (u / 1); [|lra].
  apply Rmult_le_compat_l; [lra|]. apply Rinv_le; lra.
Qed.

Lemma V_opp y : V (- y)%float = - V y.
Proof. unfold V. rewrite opp_equiv. apply B2R_Bopp. Qed.
Lemma fin_opp y : fin (- y)%float = fin y.
Proof. unfold fin. rewrite opp_equiv. apply is_finite_Bopp. Qed.

Lemma sub_std x y : fin x = true -> fin y = true -> Rabs (V x - V y) <= bpow radix2 1023 ->
  fin (x - y)%float = true /\ Rabs (V (x - y)%float - (V x - V y)) <= u * Rabs (V x - V y).
Proof.
  intros Hx Hy Hb. pose proof (Bminus_correct prec emax Hprec Hmax mode_NE _ _ Hx Hy) as H.
  rewrite <- sub_equiv in H. change (round_mode mode_NE) with ZnearestE in H.
  change (B2R (Prim2B x)) with (V x) in H. change (B2R (Prim2B y)) with (V y) in H. rewrite rnd_nover in H by exact Hb.
  destruct H as (H1 & H2 & _). split; [exact H2|]. change (V (x - y)%float = rnd (V x - V y)) in H1. rewrite H1.
  destruct (FLT_plus_error_N_ex radix2 (-1074) 53 (fun n => negb (Z.even n)) (V x) (V (- y)%float) (V_format x) (V_format _)) as (d & D1 & D2).
  rewrite V_opp in D2. change (V x + - V y) with (V x - V y) in D2.
  replace (rnd (V x - V y)) with ((V x - V y) * (1 + d)) by (symmetry; exact D2).
  replace ((V x - V y) * (1 + d) - (V x - V y)) with (d * (V x - V y)) by ring. rewrite Rabs_mult.
  apply Rmult_le_compat_r; [apply Rabs_pos|]. eapply Rle_trans; [exact D1|].
  change (u_ro radix2 53) with (/ 2 * bpow radix2 (-52)). rewrite half_u. pose proof (bpow_gt_0 radix2 (-53)) as Hu. apply Rle_trans with (u / 1); [|lra].
  apply Rmult_le_compat_l; [lra|]. apply Rinv_le; lra.
Qed.

Lemma mul_std x y : fin x = true -> fin y = true -> Rabs (V x * V y) <= bpow radix2 1023 ->
  fin (x * y)%float = true /\ Rabs (V (x * y)%float - V x * V y) <= u * Rabs (V x * V y) + eta.
Proof.
  intros Hx Hy Hb. pose proof (Bmult_correct prec emax Hprec Hmax mode_NE (Prim2B x) (Prim2B y)) as H.
  rewrite <- mul_equiv in H. change (round_mode mode_NE) with ZnearestE in H.
  change (B2R (Prim2B x)) with (V x) in H. change (B2R (Prim2B y)) with (V y) in H. rewrite rnd_nover in H by exact Hb.
  destruct H as (H1 & H2 & _). unfold fin in Hx, Hy |- *. rewrite Hx, Hy in H2. split; [exact H2|].
  change (V (x * y)%float = rnd (V x * V y)) in H1. rewrite H1. destruct (rnd_std (V x * V y)) as (d & e & Hd & He & ->).
  replace (V x * V y * (1 + d) + e - V x * V y) with (d * (V x * V y) + e) by ring.
  eapply Rle_trans; [apply Rabs_triang|]. rewrite Rabs_mult. apply Rplus_le_compat; [|exact He].
  apply Rmult_le_compat_r; [apply Rabs_pos|exact Hd].
Qed.

(** One step s <- s +- a * b. *)
Definition step (neg : bool) (s p : PrimFloat.float) : PrimFloat.float := if neg then (s - p)%float else (s + p)%float.
Lemma step_std (neg : bool) (s p : PrimFloat.float) : fin s = true -> fin p = true -> Rabs (V s) + Rabs (V p) <= bpow radix2 1023 ->
  let t := if neg then V s - V p else V s + V p in
  fin (step neg s p) = true /\ Rabs (V (step neg s p) - t) <= u * Rabs t.
Proof.
  intros Hs Hp Hb t. destruct neg; cbn [step].
  - apply sub_std; auto. eapply Rle_trans; [|exact Hb]. unfold Rminus. eapply Rle_trans; [apply Rabs_triang|]. rewrite Rabs_Ropp. lra.
  - apply add_std; auto. eapply Rle_trans; [|exact Hb]. apply Rabs_triang.
Qed.

Section Sum.
  Context (neg : bool).
  Definition sgn : R := if neg then -1 else 1.
  Variables f h : nat -> PrimFloat.float.
  Definition ex (l : list nat) : R := fold_right Rplus 0 (map (fun i => V (f i) * V (h i)) l).
  Definition ab (l : list nat) : R := fold_right Rplus 0 (map (fun i => Rabs (V (f i) * V (h i))) l).

  Lemma ab_pos l : 0 <= ab l.
  Proof. unfold ab. induction l as [|i l IH]; cbn [map fold_right]; [lra|]. pose proof (Rabs_pos (V (f i) * V (h i))). lra. Qed.
  Lemma ex_app l i : ex (l ++ [i]) = ex l + V (f i) * V (h i).
  Proof. unfold ex. induction l as [|j l IH]; cbn [app map fold_right] in *; lra. Qed.
  Lemma ab_app l i : ab (l ++ [i]) = ab l + Rabs (V (f i) * V (h i)).
  Proof. unfold ab. induction l as [|j l IH]; cbn [app map fold_right] in *; lra. Qed.
  Lemma ex_ab l : Rabs (ex l) <= ab l.
  Proof. unfold ex, ab. induction l as [|j l IH]; cbn [map fold_right]; [rewrite Rabs_R0; lra|]. eapply Rle_trans; [apply Rabs_triang|]. lra. Qed.

  Lemma sum_error (v0 : PrimFloat.float) : fin v0 = true -> (forall i, fin (f i) = true /\ fin (h i) = true) ->
    forall l, (Rabs (V v0) + ab l + INR (length l) * eta) * (1 + u) ^ (S (length l)) <= bpow radix2 1023 ->
    let r := fold_left (fun s i => step neg s (f i * h i)%float) l v0 in
    fin r = true /\
    Rabs (V r - (V v0 + sgn * ex l)) <= ((1 + u) ^ (S (length l)) - 1) * (Rabs (V v0) + ab l) + INR (length l) * (1 + u) ^ (length l) * eta.
  Proof.
    intros Hv Hf. pose proof (bpow_gt_0 radix2 (-53)) as Hu. pose proof (bpow_gt_0 radix2 (-1075)) as He.
    induction l as [|i l IH] using rev_ind; intros Hb.
    - cbn [length fold_left]. split; [exact Hv|]. unfold ex, ab. cbn [map fold_right INR pow].
      replace (V v0 - (V v0 + sgn * 0)) with 0 by ring. rewrite Rabs_R0. pose proof (Rabs_pos (V v0)). nra.
    - rewrite app_length in *. cbn [length] in *. replace (length l + 1)%nat with (S (length l)) in * by lia.
      rewrite ab_app in Hb. rewrite S_INR in Hb. cbv zeta. rewrite fold_left_app. cbn [fold_left]. rewrite ex_app, ab_app, S_INR.
      destruct (Hf i) as [F1 F2]. set (a := V (f i) * V (h i)) in *.
      pose proof (Rabs_pos a) as Ha. pose proof (Rabs_pos (V v0)) as Hv0. pose proof (ab_pos l) as Hab.
      pose proof (pos_INR (length l)) as HL.
      set (n := length l) in *. set (g := (1 + u) ^ S n) in *. set (A := Rabs (V v0) + ab l) in *.
      assert (Hg : 1 <= g) by (apply pow_R1_Rle; lra).
      assert (G2 : (1 + u) ^ S (S n) = (1 + u) * g) by reflexivity. rewrite G2 in *.
      assert (Gn : g = (1 + u) * (1 + u) ^ n) by reflexivity.
      assert (Hgn : 1 <= (1 + u) ^ n) by (apply pow_R1_Rle; lra).
      assert (Hb' : (A + INR n * eta) * g <= bpow radix2 1023).
      { eapply Rle_trans; [|exact Hb]. 
        apply Rle_trans with ((A + INR n * eta) * ((1 + u) * g)).
        - apply Rmult_le_compat_l; [unfold A; nra|nra].
        - apply Rmult_le_compat_r; [nra|]. fold a. unfold A. nra. }
      destruct (IH Hb') as (R1 & R2). cbv zeta in R1, R2. set (s := fold_left (fun s i => step neg s (f i * h i)%float) l v0) in *.
      set (E := Rabs (V s - (V v0 + sgn * ex l))) in *.
      assert (Hp1 : Rabs a <= bpow radix2 1023). 
      { eapply Rle_trans; [|exact Hb]. fold a. unfold A in Hb'. 
        assert (Q : Rabs a <= Rabs (V v0) + (ab l + Rabs a) + (INR n + 1) * eta) by nra.
        assert (Q2 : 1 <= (1 + u) * g) by nra. nra. }
      destruct (mul_std (f i) (h i) F1 F2 Hp1) as (P1 & P2). fold a in P2. set (p := (f i * h i)%float) in *.
      assert (Hs : Rabs (V s) <= E + A).
      { replace (V s) with ((V s - (V v0 + sgn * ex l)) + (V v0 + sgn * ex l)) by ring. eapply Rle_trans; [apply Rabs_triang|].
        fold E. apply Rplus_le_compat_l. unfold A. eapply Rle_trans; [apply Rabs_triang|]. apply Rplus_le_compat_l.
        rewrite Rabs_mult. replace (Rabs sgn) with 1; [rewrite Rmult_1_l; apply ex_ab|]. unfold sgn. destruct neg; [rewrite Rabs_left; lra|rewrite Rabs_R1; reflexivity]. }
      assert (Hp : Rabs (V p) <= Rabs a + (u * Rabs a + eta)).
      { replace (V p) with ((V p - a) + a) by ring. eapply Rle_trans; [apply Rabs_triang|]. lra. }
      assert (Hsp : Rabs (V s) + Rabs (V p) <= bpow radix2 1023).
      { eapply Rle_trans; [|exact Hb]. fold a.
        assert (R2' : E + A <= g * A + INR n * (1 + u) ^ n * eta) by nra.
        apply Rle_trans with (g * A + INR n * (1 + u) ^ n * eta + (1 + u) * Rabs a + eta); [lra|].
        replace (Rabs (V v0) + (ab l + Rabs a) + (INR n + 1) * eta) with (A + Rabs a + INR n * eta + eta) by (unfold A; ring).
        assert (g * A <= (1 + u) * g * A). { apply Rmult_le_compat_r; [unfold A; lra|nra]. }
        assert (INR n * (1 + u) ^ n * eta <= (1 + u) * g * (INR n * eta)).
        { replace (INR n * (1 + u) ^ n * eta) with ((1 + u) ^ n * (INR n * eta)) by ring. apply Rmult_le_compat_r; [nra|]. rewrite Gn. nra. }
        assert ((1 + u) * Rabs a <= (1 + u) * g * Rabs a). { apply Rmult_le_compat_r; [lra|nra]. }
        assert (eta <= (1 + u) * g * eta). { rewrite <- (Rmult_1_l eta) at 1. apply Rmult_le_compat_r; [lra|nra]. }
        nra. }
      destruct (step_std neg s p R1 P1 Hsp) as (T1 & T2). split; [exact T1|].
      set (t := if neg then V s - V p else V s + V p) in *.
      set (x := V v0 + sgn * ex l) in *.
      assert (Et : t = V s + sgn * V p) by (unfold t, sgn; destruct neg; ring).
      assert (Hsg : forall z, Rabs (sgn * z) = Rabs z).
      { intros z. rewrite Rabs_mult. unfold sgn. destruct neg; [rewrite (Rabs_left (-1)) by lra|rewrite Rabs_R1]; ring. }
      assert (Hte : Rabs (t - (x + sgn * a)) <= E + (u * Rabs a + eta)).
      { rewrite Et. replace (V s + sgn * V p - (x + sgn * a)) with ((V s - x) + sgn * (V p - a)) by ring.
        eapply Rle_trans; [apply Rabs_triang|]. rewrite Hsg. fold E. lra. }
      assert (Hxa : Rabs (x + sgn * a) <= A + Rabs a).
      { eapply Rle_trans; [apply Rabs_triang|]. rewrite Hsg. apply Rplus_le_compat_r. unfold x, A. eapply Rle_trans; [apply Rabs_triang|].
        rewrite Hsg. apply Rplus_le_compat_l, ex_ab. }
      assert (Ht : Rabs t <= (A + Rabs a) + (E + (u * Rabs a + eta))).
      { replace t with ((x + sgn * a) + (t - (x + sgn * a))) by ring. eapply Rle_trans; [apply Rabs_triang|]. lra. }
      assert (Ex : V v0 + sgn * (ex l + a) = x + sgn * a) by (unfold x; ring).
      apply (Rle_trans _ (Rabs ((V (step neg s p) - t) + (t - (x + sgn * a))))).
      { right. f_equal. etransitivity; [apply (f_equal (fun z => V (step neg s p) - z)); exact Ex|ring]. }
      eapply Rle_trans; [apply Rabs_triang|].
      apply Rle_trans with (u * ((A + Rabs a) + (E + (u * Rabs a + eta))) + (E + (u * Rabs a + eta))).
      { apply Rplus_le_compat; [|exact Hte]. eapply Rle_trans; [exact T2|]. apply Rmult_le_compat_l; lra. }
      replace (Rabs (V v0) + (ab l + Rabs a)) with (A + Rabs a) by (unfold A; ring).
      assert (R3 : (1 + u) * E <= (1 + u) * ((g - 1) * A + INR n * (1 + u) ^ n * eta)) by (apply Rmult_le_compat_l; [lra|exact R2]).
      replace (u * (A + Rabs a + (E + (u * Rabs a + eta))) + (E + (u * Rabs a + eta)))
        with ((1 + u) * E + u * A + (2 * u + u * u) * Rabs a + (1 + u) * eta) by ring.
      assert (K1 : ((1 + u) * ((g - 1) * A + INR n * (1 + u) ^ n * eta)) + u * A = ((1 + u) * g - 1) * A + INR n * g * eta) by (rewrite Gn; ring).
      assert (K2 : (2 * u + u * u) * Rabs a <= ((1 + u) * g - 1) * Rabs a).
      { apply Rmult_le_compat_r; [lra|]. assert (1 + u <= g). { rewrite Gn. nra. } nra. }
      assert (K3 : (1 + u) * eta <= g * eta). { apply Rmult_le_compat_r; [lra|]. rewrite Gn. nra. }
      nra.
  Qed.
End Sum.

(** (1 + u)^n for n <= 2^50 + 2. *)
Lemma pow_linear n : INR n * u <= / 4 -> (1 + u) ^ n <= 1 + 2 * INR n * u /\ (1 + u) ^ n <= 3 / 2.
Proof.
  pose proof (bpow_gt_0 radix2 (-53)) as Hu. intros H.
  assert (A : (1 + u) ^ n <= 1 + 2 * INR n * u); [|split; lra].
  revert H. induction n as [|n IH]; intros H; [cbn; lra|]. rewrite S_INR in *. pose proof (pos_INR n).
  specialize (IH ltac:(nra)). cbn [pow]. apply Rle_trans with ((1 + u) * (1 + 2 * INR n * u)); [apply Rmult_le_compat_l; lra|].
  assert (2 * (INR n * u) * u <= u) by nra. nra.
Qed.

Lemma V0 : V 0%float = 0.
Proof. rewrite <- val_V. reflexivity. Qed.
Lemma nth_vals i l : V (nth i l 0%float) = nth i (vals l) 0.
Proof. rewrite <- val_V. change 0 with (val 0%float). unfold vals. symmetry. exact (map_nth val l 0%float i). Qed.
Lemma nth_abs i (l : list R) : nth i (map Rabs l) 0 = Rabs (nth i l 0).
Proof. rewrite <- (map_nth Rabs). now rewrite Rabs_R0. Qed.

Definition idxs (nx ny k : nat) := filter (fun i => (i <=? k) && (k - i <? ny))%nat (seq 0 nx).
Lemma filter_len {A} (p : A -> bool) l : (length (filter p l) <= length l)%nat.
Proof. induction l as [|a l IH]; cbn; [lia|]. destruct (p a); cbn; lia. Qed.
Lemma filter_window ny k : forall nx s, (length (filter (fun i => (i <=? k) && (k - i <? ny))%nat (seq s nx)) <= Nat.min ny (k + 1 - s))%nat.
Proof.
  induction nx as [|nx IH]; intros s; cbn [seq filter length]; [lia|].
  specialize (IH (S s)). destruct ((s <=? k) && (k - s <? ny))%nat eqn:E; cbn [length]; lia.
Qed.
Lemma idxs_len nx ny k : (length (idxs nx ny k) <= Nat.min nx ny)%nat.
Proof.
  unfold idxs. pose proof (filter_len (fun i => (i <=? k) && (k - i <? ny))%nat (seq 0 nx)) as H. rewrite seq_length in H.
  pose proof (filter_window ny k nx 0) as H1. lia.
Qed.

Lemma u50 : bpow radix2 50 * u = / 8.
Proof. rewrite <- bpow_plus. change (50 + -53)%Z with (-3)%Z. cbn. lra. Qed.

Lemma conv_accurate neg (x y : list PrimFloat.float) (k : nat) (v0 : PrimFloat.float) :
  Forall finite x -> Forall finite y -> finite v0 ->
  Rabs (val v0) + magnitude (vals x) (vals y) k <= large -> INR (terms (vals x) (vals y)) <= powerRZ 2 50 ->
  let r := fold_left (fun s i => step neg s (nth i x 0 * nth (k - i) y 0)%float) (idxs (length x) (length y) k) v0 in
  finite r /\
  Rabs (val r - (val v0 + sgn neg * cauchy (vals x) (vals y) k)) <=
    (INR (terms (vals x) (vals y)) + 1) * eps * (Rabs (val v0) + magnitude (vals x) (vals y) k) + INR (terms (vals x) (vals y)) * tiny.
Proof.
  intros Hx Hy Hv Hm Hn r. set (l := idxs (length x) (length y) k) in *.
  set (f := fun i => nth i x 0%float). set (h := fun i => nth (k - i) y 0%float).
  assert (Fn : forall i (z : list PrimFloat.float), Forall finite z -> fin (nth i z 0%float) = true).
  { intros i z Hz. destruct (Nat.lt_ge_cases i (length z)) as [Hi|Hi].
    - apply finite_fin. rewrite Forall_forall in Hz. apply Hz, nth_In, Hi.
    - rewrite nth_overflow by lia. reflexivity. }
  assert (Ex : ex f h l = cauchy (vals x) (vals y) k).
  { rewrite <- cauchy_filter. unfold ex, l, idxs. replace (length (vals x)) with (length x) by (symmetry; apply map_length).
    replace (length (vals y)) with (length y) by (symmetry; apply map_length). f_equal. apply map_ext. intros i. unfold f, h. now rewrite !nth_vals. }
  assert (Ea : ab f h l = magnitude (vals x) (vals y) k).
  { unfold magnitude. rewrite <- cauchy_filter. unfold ab, l, idxs. rewrite !map_length. replace (length (vals x)) with (length x) by (symmetry; apply map_length).
    replace (length (vals y)) with (length y) by (symmetry; apply map_length). f_equal. apply map_ext. intros i. unfold f, h.
    rewrite !nth_abs, Rabs_mult, !nth_vals. reflexivity. }
  assert (Hl : (length l <= terms (vals x) (vals y))%nat). { unfold terms, vals. rewrite !map_length. apply idxs_len. }
  apply le_INR in Hl. set (N := INR (terms (vals x) (vals y))) in *. rewrite <- Ex, <- Ea in *.
  rewrite val_V in *. replace (powerRZ 2 50) with (bpow radix2 50) in Hn by (now rewrite bpow_powerRZ).
  pose proof (bpow_gt_0 radix2 (-53)) as Hu. pose proof (bpow_gt_0 radix2 (-1075)) as He. pose proof (pos_INR (length l)) as HL.
  pose proof u50 as U50.
  assert (U : u <= / 8). { assert (1 <= bpow radix2 50) by (change 1 with (bpow radix2 0); apply bpow_le; lia). nra. }
  assert (Hlu : INR (length l) * u <= / 8). { rewrite <- U50. apply Rmult_le_compat_r; lra. }
  assert (Hlu1 : INR (S (length l)) * u <= / 4) by (rewrite S_INR; lra).
  destruct (pow_linear _ Hlu1) as (P1 & P2). destruct (pow_linear (length l) ltac:(lra)) as (_ & P3). rewrite S_INR in P1.
  pose proof (ab_pos f h l) as Hab. pose proof (Rabs_pos (V v0)) as Hv0.
  rewrite large_bpow in Hm.
  assert (Heta : INR (length l) * eta <= bpow radix2 1020).
  { apply Rle_trans with (bpow radix2 50 * eta); [apply Rmult_le_compat_r; lra|]. rewrite <- bpow_plus. apply bpow_le. lia. }
  assert (E22 : bpow radix2 1022 = 4 * bpow radix2 1020) by (change 1022%Z with (2 + 1020)%Z; rewrite bpow_plus; reflexivity).
  assert (E23 : bpow radix2 1023 = 8 * bpow radix2 1020) by (change 1023%Z with (3 + 1020)%Z; rewrite bpow_plus; reflexivity).
  pose proof (bpow_gt_0 radix2 1020) as H20.
  assert (Hb : (Rabs (V v0) + ab f h l + INR (length l) * eta) * (1 + u) ^ S (length l) <= bpow radix2 1023).
  { apply Rle_trans with ((5 * bpow radix2 1020) * (3 / 2)); [|lra]. apply Rmult_le_compat; try lra.
    - assert (0 <= INR (length l) * eta) by nra. lra.
    - apply pow_le. lra. }
  destruct (sum_error neg f h v0 (proj1 (finite_fin _) Hv) (fun i => conj (Fn i x Hx) (Fn (k - i)%nat y Hy)) l Hb) as (R1 & R2).
  cbv zeta in R1, R2. change (fold_left _ l v0) with r in R1, R2.
  split; [now apply finite_fin|]. rewrite val_V. eapply Rle_trans; [exact R2|]. rewrite u_eps, eta_tiny. apply Rplus_le_compat.
  - apply Rmult_le_compat_r; [lra|]. apply Rle_trans with ((INR (length l) + 1) * (2 * u)); [lra|]. apply Rmult_le_compat_r; lra.
  - apply Rle_trans with (INR (length l) * (2 * eta)); [|apply Rmult_le_compat_r; lra].
    rewrite Rmult_assoc. apply Rmult_le_compat_l; [lra|]. apply Rmult_le_compat_r; lra.
Qed.
