(** ProofsField.v - Riemann sums over a plane region given by its half-width
    (rectangle, disc) of a bounded Lipschitz function. *)
From Coq Require Import Reals Lra Lia List ZArith.
From Coquelicot Require Import Coquelicot.
From Verif Require Import Base ModelSir ModelArr NumR SpecRayleigh ProofsR ProofsRayleigh ProofsSirR SpecPhys ProofsPhys ProofsRiemann.
Import ListNotations.
Open Scope R_scope.

Lemma lip_pos L f : lipschitz L f -> 0 <= L.
Proof. intros H. specialize (H 1 0). pose proof (Rabs_pos (f 1 - f 0)). replace (1 - 0) with 1 in H by ring. rewrite Rabs_R1 in H. lra. Qed.

Lemma RInt_bound f a b M : (forall x y, ex_RInt f x y) -> (forall x, Rabs (f x) <= M) -> Rabs (RInt f a b) <= M * Rabs (b - a).
Proof.
  intros He H.
  assert (A : forall u w, u <= w -> Rabs (RInt f u w) <= M * (w - u)).
  { intros u w Huw. assert (D : Rabs (RInt f u w - (w - u) * 0) <= (w - u) * M).
    { apply RInt_dev; auto. intros x _. rewrite Rminus_0_r. apply H. }
    rewrite Rmult_0_r, Rminus_0_r in D. lra. }
  destruct (Rle_dec a b).
  - rewrite (Rabs_pos_eq (b - a)) by lra. now apply A.
  - assert (E : RInt f a b = - RInt f b a) by (symmetry; apply (opp_RInt_swap f); apply He).
    rewrite E, Rabs_Ropp, Rabs_minus_sym, (Rabs_pos_eq (a - b)) by lra. apply A. lra.
Qed.

(** The midpoint rule with the oscillation e on each step. *)
Lemma midpoint_osc f lo d m e : 0 < d -> (forall x y, ex_RInt f x y) ->
  (forall i x, (i < m)%nat -> Rabs (x - mid lo d i) <= d / 2 -> Rabs (f x - f (mid lo d i)) <= e) ->
  Rabs (RInt f lo (lo + INR m * d) - d * Rsum (map (fun i => f (mid lo d i)) (seq 0 m))) <= INR m * d * e.
Proof.
  intros Hd He. induction m as [|m IH]; intros H.
  - cbn [INR map seq Rsum fold_right]. replace (lo + 0 * d) with lo by ring.
    assert (E : RInt f lo lo = 0) by (rewrite RInt_point; reflexivity). rewrite E.
    rewrite Rmult_0_r, Rminus_0_r, Rabs_R0. lra.
  - rewrite seq_S, map_app, Rsum_app. cbn [map Rsum fold_right plus]. rewrite S_INR.
    assert (EC : RInt f lo (lo + (INR m + 1) * d) = RInt f lo (lo + INR m * d) + RInt f (lo + INR m * d) (lo + (INR m + 1) * d))
      by (symmetry; apply (RInt_Chasles f lo (lo + INR m * d)); apply He).
    rewrite EC.
    assert (D : Rabs (RInt f (lo + INR m * d) (lo + (INR m + 1) * d) - (lo + (INR m + 1) * d - (lo + INR m * d)) * f (mid lo d m))
                <= (lo + (INR m + 1) * d - (lo + INR m * d)) * e).
    { apply RInt_dev; [nra|apply He|]. intros x Hx. apply H; [lia|]. unfold mid. apply Rabs_le. nra. }
    replace (lo + (INR m + 1) * d - (lo + INR m * d)) with d in D by ring.
    change (fold_right Rplus 0) with Rsum in *.
    match goal with |- Rabs (?A + ?B - d * (?S + (?F + 0))) <= _ =>
      replace (A + B - d * (S + (F + 0))) with ((A - d * S) + (B - d * F)) by ring end.
    eapply Rle_trans; [apply Rabs_triang|]. change (0 + m)%nat with m.
    assert (IH' := IH ltac:(intros; apply H; [lia|assumption])). lra.
Qed.

(** The grid reaches the end of the interval up to half a step. *)
Lemma count_near lo hi d : 0 < d -> lo <= hi ->
  Rabs (lo + INR (SpecRayleigh.count (lo + d / 2) hi d) * d - hi) <= d / 2.
Proof.
  intros Hd Hl. unfold SpecRayleigh.count. set (x := (hi - lo) / d).
  assert (Ex : (hi - (lo + d / 2)) / d = x - 1 / 2) by (unfold x; field; lra). rewrite Ex.
  assert (Hx : 0 <= x) by (unfold x; apply Rmult_le_pos; [lra|left; apply Rinv_0_lt_compat; lra]).
  assert (Eh : hi = lo + x * d) by (unfold x; field; lra).
  destruct (Zfloor_spec (x - 1 / 2)) as [F1 F2]. set (n := Zfloor (x - 1 / 2)) in *. clearbody n.
  assert (Hn : (0 <= n + 1)%Z). { apply le_IZR. rewrite plus_IZR. assert (H : -1 < IZR n + 1 / 2) by lra. 
    destruct (Z_lt_le_dec (n + 1) 0) as [H0|H0]; [|apply IZR_le in H0; rewrite plus_IZR in H0; lra].
    assert (n <= -2)%Z by lia. apply IZR_le in H1. lra. }
  rewrite INR_IZR_INZ, Z2Nat.id by auto. rewrite plus_IZR, Eh. clearbody x. apply Rabs_le. nra.
Qed.
Lemma count_len lo hi d : 0 < d -> lo <= hi -> INR (SpecRayleigh.count (lo + d / 2) hi d) * d <= hi - lo + d / 2.
Proof. intros Hd Hl. pose proof (count_near lo hi d Hd Hl) as H. apply Rabs_le_between in H. lra. Qed.

(** One row. *)
Lemma row_rule L M f lo hi d : 0 < d -> lo <= hi -> lipschitz L f -> (forall x, Rabs (f x) <= M) ->
  Rabs (RInt f lo hi - d * Rsum (map f (midpoints lo hi d))) <= M * (d / 2) + (hi - lo + d / 2) * (L * d / 2).
Proof.
  intros Hd Hl HL HM. unfold midpoints. rewrite map_map.
  pose proof (count_near lo hi d Hd Hl) as N. pose proof (count_len lo hi d Hd Hl) as N'.
  set (m := SpecRayleigh.count _ _ _) in *. clearbody m.
  pose proof (midpoint_rule L f lo d m Hd HL) as D.
  assert (He : forall x y, ex_RInt f x y) by (intros; eapply lipschitz_int; eauto).
  assert (E : RInt f lo hi = RInt f lo (lo + INR m * d) + RInt f (lo + INR m * d) hi) by (symmetry; apply (RInt_Chasles f); apply He).
  rewrite E. pose proof (RInt_bound f (lo + INR m * d) hi M He HM) as B.
  rewrite (Rabs_minus_sym hi) in B.
  assert (HM0 : 0 <= M) by (eapply Rle_trans; [apply Rabs_pos|apply (HM 0)]).
  pose proof (lip_pos _ _ HL) as HL0.
  match goal with |- Rabs (?A + ?B - ?S) <= _ => replace (A + B - S) with (B + (A - S)) by ring end.
  eapply Rle_trans; [apply Rabs_triang|]. apply Rplus_le_compat.
  - eapply Rle_trans; [exact B|]. apply Rmult_le_compat_l; auto.
  - eapply Rle_trans; [exact D|]. apply Rmult_le_compat_r; [|exact N'].
    apply Rmult_le_pos; [apply Rmult_le_pos; lra|lra].
Qed.

Section Region.
Variables (s : R -> R) (H S L M : R) (F : R -> R -> R).
Hypothesis (HH : 0 <= H) (Hs : forall y, 0 <= s y <= S).
Hypothesis (Hsc : forall y, continuous s y).
Hypothesis (Lx : forall y, lipschitz L (fun x => F x y)) (Ly : forall x, lipschitz L (fun y => F x y)).
Hypothesis (HM : forall x y, Rabs (F x y) <= M).

Let g y := RInt (fun x => F x y) (- s y) (s y).

Lemma row_int_diff y y' : Rabs (g y - g y') <= 2 * M * Rabs (s y - s y') + 2 * S * L * Rabs (y - y').
Proof.
  unfold g.
  assert (He : forall y a b, ex_RInt (fun x => F x y) a b) by (intros; eapply lipschitz_int; eauto).
  set (a := s y). set (b := s y').
  assert (E : RInt (fun x => F x y) (- a) a = RInt (fun x => F x y) (- a) (- b) + (RInt (fun x => F x y) (- b) b + RInt (fun x => F x y) b a)).
  { symmetry. etransitivity; [apply f_equal; apply (RInt_Chasles (fun x => F x y)); apply He|].
    apply (RInt_Chasles (fun x => F x y)); apply He. }
  rewrite E.
  pose proof (RInt_bound (fun x => F x y) (- a) (- b) M (He y) (fun x => HM x y)) as B1.
  pose proof (RInt_bound (fun x => F x y) b a M (He y) (fun x => HM x y)) as B2.
  replace (- b - - a) with (a - b) in B1 by ring.
  assert (EM : RInt (fun x => F x y) (- b) b - RInt (fun x => F x y') (- b) b = RInt (fun x => minus (F x y) (F x y')) (- b) b)
    by (symmetry; apply (RInt_minus (fun x => F x y) (fun x => F x y')); apply He).
  assert (B3 : Rabs (RInt (fun x => minus (F x y) (F x y')) (- b) b) <= L * Rabs (y - y') * Rabs (b - - b)).
  { apply RInt_bound.
    - intros u w. apply (ex_RInt_minus (fun x => F x y) (fun x => F x y')); apply He.
    - intros x. apply (Ly x). }
  rewrite <- EM in B3. replace (b - - b) with (2 * b) in B3 by ring.
  assert (Hb : 0 <= b <= S) by apply Hs. rewrite (Rabs_pos_eq (2 * b)) in B3 by lra.
  assert (B4 : L * Rabs (y - y') * (2 * b) <= L * Rabs (y - y') * (2 * S)).
  { apply Rmult_le_compat_l; [|lra]. apply Rmult_le_pos; [eapply lip_pos; apply (Lx 0)|apply Rabs_pos]. }
  match goal with |- Rabs (?A + (?B + ?C) - ?D) <= _ => replace (A + (B + C) - D) with (A + C + (B - D)) by ring end.
  eapply Rle_trans; [apply Rabs_triang|]. eapply Rle_trans; [apply Rplus_le_compat_r; apply Rabs_triang|]. lra.
Qed.

Lemma row_int_cont y : continuous g y.
Proof.
  apply continuity_pt_filterlim. intros eps He.
  pose proof (proj2 (continuity_pt_filterlim s y) (Hsc y)) as C.
  assert (HM0 : 0 <= M) by (eapply Rle_trans; [apply Rabs_pos|apply (HM 0 0)]).
  assert (HS0 : 0 <= S) by (pose proof (Hs 0); lra).
  assert (HL0 : 0 <= L) by (eapply lip_pos; apply (Lx 0)).
  set (K := 2 * M + 2 * S * L + 1). assert (HK : 0 < K) by (unfold K; nra).
  assert (He' : 0 < eps / K) by (apply Rdiv_lt_0_compat; auto).
  destruct (C (eps / K) He') as (a & Ha & HC). exists (Rmin a (eps / K)). split; [apply Rmin_pos; auto|].
  intros y' [Hd Hy]. unfold dist in *. cbn in *. unfold R_dist in *.
  assert (H1 : Rabs (s y' - s y) < eps / K) by (apply HC; split; auto; eapply Rlt_le_trans; [exact Hy|apply Rmin_l]).
  assert (H2 : Rabs (y' - y) < eps / K) by (eapply Rlt_le_trans; [exact Hy|apply Rmin_r]).
  eapply Rle_lt_trans; [apply row_int_diff|].
  apply Rle_lt_trans with (2 * M * (eps / K) + 2 * S * L * (eps / K)).
  - apply Rplus_le_compat; apply Rmult_le_compat_l; try lra; nra.
  - apply Rlt_le_trans with (K * (eps / K)); [unfold K at 3; nra|]. right. field. lra.
Qed.

Lemma row_int_bound y : Rabs (g y) <= 2 * S * M.
Proof.
  assert (He : forall a b, ex_RInt (fun x => F x y) a b) by (intros; eapply lipschitz_int; eauto).
  unfold g. eapply Rle_trans; [apply (RInt_bound (fun x => F x y) (- s y) (s y) M He (fun x => HM x y))|].
  pose proof (Hs y). rewrite Rabs_pos_eq by lra.
  assert (HM0 : 0 <= M) by (eapply Rle_trans; [apply Rabs_pos|apply (HM 0 0)]). nra.
Qed.

Variables (dx dy w : R).
Hypothesis (Hdx : 0 < dx) (Hdy : 0 < dy).
Hypothesis (Hw : forall y y', - H <= y' <= H -> Rabs (y - y') <= dy / 2 -> Rabs (s y - s y') <= w).

Lemma region_rule :
  Rabs (RInt g (- H) H - dx * dy * Rsum (map (fun y => Rsum (map (fun x => F x y) (midpoints (- s y) (s y) dx))) (midpoints (- H) H dy)))
  <= S * M * dy + (2 * H + dy / 2) * (2 * M * w + S * L * dy + (M * (dx / 2) + (2 * S + dx / 2) * (L * dx / 2))).
Proof.
  assert (Hg : forall x y, ex_RInt g x y)
    by (intros; apply (ex_RInt_continuous (V := R_CompleteNormedModule)); intros; apply row_int_cont).
  assert (HM0 : 0 <= M) by (eapply Rle_trans; [apply Rabs_pos|apply (HM 0 0)]).
  assert (HS0 : 0 <= S) by (pose proof (Hs 0); lra).
  assert (HL0 : 0 <= L) by (eapply lip_pos; apply (Lx 0)).
  assert (Hw0 : 0 <= w).
  { eapply Rle_trans; [apply Rabs_pos|apply (Hw 0 0); [lra|]]. rewrite Rminus_0_r, Rabs_R0. lra. }
  pose proof (count_near (- H) H dy Hdy ltac:(lra)) as N. pose proof (count_len (- H) H dy Hdy ltac:(lra)) as N'.
  assert (Hin : forall i, (i < SpecRayleigh.count (- H + dy / 2) H dy)%nat -> - H <= mid (- H) dy i <= H).
  { intros i Hi. assert (I : In (mid (- H) dy i) (midpoints (- H) H dy)) by (unfold midpoints; apply in_map; apply in_seq; lia).
    apply in_midpoints in I; auto. lra. }
  unfold midpoints at 2. rewrite map_map.
  set (m := SpecRayleigh.count (- H + dy / 2) H dy) in *. clearbody m.
  set (e1 := 2 * M * w + S * L * dy). set (e2 := M * (dx / 2) + (2 * S + dx / 2) * (L * dx / 2)).
  assert (E1 : 0 <= e1).
  { unfold e1. assert (0 <= M * w) by (apply Rmult_le_pos; auto).
    assert (0 <= S * L * dy) by (apply Rmult_le_pos; [apply Rmult_le_pos; auto|lra]). lra. }
  assert (E2 : 0 <= e2).
  { unfold e2. assert (0 <= M * (dx / 2)) by (apply Rmult_le_pos; lra).
    assert (0 <= (2 * S + dx / 2) * (L * dx / 2)) by (apply Rmult_le_pos; [lra|]; apply Rmult_le_pos; [apply Rmult_le_pos; lra|lra]). lra. }
  assert (D1 : Rabs (RInt g (- H) (- H + INR m * dy) - dy * Rsum (map (fun i => g (mid (- H) dy i)) (seq 0 m))) <= INR m * dy * e1).
  { apply midpoint_osc; auto. intros i x Hi Hx. eapply Rle_trans; [apply row_int_diff|]. unfold e1.
    apply Rplus_le_compat.
    - apply Rmult_le_compat_l; [lra|]. apply Hw; auto.
    - replace (S * L * dy) with (2 * S * L * (dy / 2)) by field. apply Rmult_le_compat_l; [|exact Hx].
      apply Rmult_le_pos; auto. lra. }
  assert (D2 : Rabs (dy * Rsum (map (fun i => g (mid (- H) dy i)) (seq 0 m)) -
     dx * dy * Rsum (map (fun i => Rsum (map (fun x => F x (mid (- H) dy i)) (midpoints (- s (mid (- H) dy i)) (s (mid (- H) dy i)) dx))) (seq 0 m)))
     <= INR m * dy * e2).
  { clear D1 N N' Hin. induction m as [|m IH].
    - cbn. rewrite !Rmult_0_r, Rminus_0_r, Rabs_R0. lra.
    - rewrite seq_S, !map_app, !Rsum_app. cbn [map plus]. change (Rsum [?z]) with (z + 0). rewrite S_INR.
      set (y := mid (- H) dy m). pose proof (Hs y) as Hsy.
      pose proof (row_rule L M (fun x => F x y) (- s y) (s y) dx Hdx ltac:(lra) (Lx y) (fun x => HM x y)) as D.
      fold (g y) in D.
      assert (D' : Rabs (g y - dx * Rsum (map (fun x => F x y) (midpoints (- s y) (s y) dx))) <= e2).
      { eapply Rle_trans; [exact D|]. unfold e2. apply Rplus_le_compat_l. apply Rmult_le_compat_r; [|lra].
        apply Rmult_le_pos; [apply Rmult_le_pos; lra|lra]. }
      match goal with |- Rabs (dy * (?A + (?B + 0)) - dx * dy * (?Q + (?T + 0))) <= _ =>
        replace (dy * (A + (B + 0)) - dx * dy * (Q + (T + 0))) with ((dy * A - dx * dy * Q) + dy * (B - dx * T)) by ring end.
      eapply Rle_trans; [apply Rabs_triang|]. rewrite (Rabs_mult dy), (Rabs_pos_eq dy) by lra.
      apply (Rmult_le_compat_l dy) in D'; [|lra].
      replace ((INR m + 1) * dy * e2) with (INR m * dy * e2 + dy * e2) by ring.
      apply Rplus_le_compat; [exact IH|exact D']. }
  assert (E : RInt g (- H) H = RInt g (- H) (- H + INR m * dy) + RInt g (- H + INR m * dy) H)
    by (symmetry; apply (RInt_Chasles g); apply Hg).
  rewrite E. pose proof (RInt_bound g (- H + INR m * dy) H (2 * S * M) Hg row_int_bound) as B.
  rewrite (Rabs_minus_sym H) in B.
  assert (B' : Rabs (RInt g (- H + INR m * dy) H) <= S * M * dy).
  { eapply Rle_trans; [exact B|]. replace (S * M * dy) with (2 * S * M * (dy / 2)) by field.
    apply Rmult_le_compat_l; auto. apply Rmult_le_pos; lra. }
  match goal with |- Rabs (?A + ?B - ?Q) <= _ => match type of D1 with Rabs (_ - ?P) <= _ =>
    replace (A + B - Q) with (B + ((A - P) + (P - Q))) by ring end end.
  eapply Rle_trans; [apply Rabs_triang|]. apply Rplus_le_compat; [exact B'|].
  eapply Rle_trans; [apply Rabs_triang|]. rewrite Rmult_plus_distr_l.
  replace (H - - H) with (2 * H) in N' by ring.
  apply Rplus_le_compat.
  - eapply Rle_trans; [exact D1|]. now apply Rmult_le_compat_r.
  - eapply Rle_trans; [exact D2|]. now apply Rmult_le_compat_r.
Qed.

(** The number of grid points. *)
Lemma region_count :
  dx * dy * Rsum (map (fun y => Rsum (map (fun _ => 1) (midpoints (- s y) (s y) dx))) (midpoints (- H) H dy))
  <= (2 * H + dy / 2) * (2 * S + dx / 2).
Proof.
  assert (HS0 : 0 <= S) by (pose proof (Hs 0); lra).
  pose proof (count_len (- H) H dy Hdy ltac:(lra)) as N'. replace (H - - H) with (2 * H) in N' by ring.
  unfold midpoints at 2. rewrite map_map. set (m := SpecRayleigh.count (- H + dy / 2) H dy) in *. clearbody m.
  apply Rle_trans with (INR m * dy * (2 * S + dx / 2)); [|apply Rmult_le_compat_r; lra].
  clear N'. induction m as [|m IH]; [cbn; rewrite !Rmult_0_l, Rmult_0_r; lra|].
  rewrite seq_S, map_app, Rsum_app. cbn [map plus]. change (Rsum [?z]) with (z + 0). rewrite S_INR.
  set (y := mid (- H) dy m). pose proof (Hs y) as Hsy.
  assert (C : dx * Rsum (map (fun _ => 1) (midpoints (- s y) (s y) dx)) <= 2 * S + dx / 2).
  { pose proof (count_len (- s y) (s y) dx Hdx ltac:(lra)) as N.
    unfold midpoints. rewrite map_map. set (k := SpecRayleigh.count _ _ _) in *.
    assert (Ek : forall a n, Rsum (map (fun _ : nat => 1) (seq a n)) = INR n).
    { intros a n. revert a. induction n as [|n IHn]; intros a; [reflexivity|]. rewrite S_INR. cbn [seq map].
      change (Rsum (1 :: ?t)) with (1 + Rsum t). rewrite IHn. ring. }
    rewrite Ek. lra. }
  apply (Rmult_le_compat_l dy) in C; [|lra].
  replace ((INR m + 1) * dy * (2 * S + dx / 2)) with (INR m * dy * (2 * S + dx / 2) + dy * (2 * S + dx / 2)) by ring.
  match goal with |- dx * dy * (?A + (?B + 0)) <= _ => replace (dx * dy * (A + (B + 0))) with (dx * dy * A + dy * (dx * B)) by ring end.
  apply Rplus_le_compat; [exact IH|exact C].
Qed.
End Region.

(** ** Half-widths: constant, and that of a disc. *)
Definition half_disc (r y : R) : R := sqrt (r^2 - y^2).
Lemma sqrt_diff_le a b : Rabs (sqrt a - sqrt b) <= sqrt (Rabs (a - b)).
Proof.
  assert (A : forall u w, u <= w -> sqrt w - sqrt u <= sqrt (w - u)).
  { intros u w Huw. destruct (Rle_dec u 0) as [Hu|Hu].
    - rewrite (sqrt_neg_0 u Hu), Rminus_0_r. apply sqrt_le_1_alt. lra.
    - apply Rnot_le_lt in Hu. pose proof (sqrt_pos u). pose proof (sqrt_pos w). pose proof (sqrt_pos (w - u)).
      assert (sqrt w <= sqrt u + sqrt (w - u)); [|lra]. apply Rsqr_incr_0; try lra. unfold Rsqr.
      rewrite sqrt_sqrt by lra.
      replace ((sqrt u + sqrt (w - u)) * (sqrt u + sqrt (w - u))) with (sqrt u * sqrt u + sqrt (w - u) * sqrt (w - u) + 2 * (sqrt u * sqrt (w - u))) by ring.
      rewrite !sqrt_sqrt by lra. assert (0 <= sqrt u * sqrt (w - u)) by (apply Rmult_le_pos; auto). lra. }
  destruct (Rle_dec a b) as [H|H].
  - rewrite Rabs_minus_sym, (Rabs_minus_sym a b), (Rabs_pos_eq (b - a)) by lra.
    rewrite Rabs_pos_eq; [now apply A|]. assert (sqrt a <= sqrt b) by now apply sqrt_le_1_alt. lra.
  - apply Rnot_le_lt in H. rewrite (Rabs_pos_eq (a - b)) by lra.
    rewrite Rabs_pos_eq; [apply A; lra|]. assert (sqrt b <= sqrt a) by (apply sqrt_le_1_alt; lra). lra.
Qed.
Lemma half_disc_range r y : 0 <= r -> 0 <= half_disc r y <= r.
Proof.
  intros Hr. split; [apply sqrt_pos|]. unfold half_disc. rewrite <- (sqrt_pow2 r) at 2 by auto.
  apply sqrt_le_1_alt. pose proof (pow2_ge_0 y). lra.
Qed.
Lemma half_disc_cont r y : continuous (half_disc r) y.
Proof.
  unfold half_disc. apply (continuous_comp (fun y => r^2 - y^2) sqrt).
  - apply (ex_derive_continuous (fun y => r^2 - y^2)). auto_derive. auto.
  - apply continuous_sqrt.
Qed.
Lemma half_disc_osc r d y y' : 0 <= r -> 0 < d -> - r <= y' <= r -> Rabs (y - y') <= d / 2 ->
  Rabs (half_disc r y - half_disc r y') <= sqrt ((r + d) * d).
Proof.
  intros Hr Hd Hy' Hy. unfold half_disc. eapply Rle_trans; [apply sqrt_diff_le|]. apply sqrt_le_1_alt.
  replace (r^2 - y^2 - (r^2 - y'^2)) with (- ((y - y') * (y + y'))) by ring. rewrite Rabs_Ropp, Rabs_mult.
  assert (B : Rabs (y + y') <= 2 * (r + d)).
  { apply Rabs_le. apply Rabs_le_between in Hy. lra. }
  pose proof (Rabs_pos (y - y')). pose proof (Rabs_pos (y + y')).
  apply Rle_trans with (d / 2 * (2 * (r + d))); [apply Rmult_le_compat; auto|]. lra.
Qed.

(** ** Lipschitz functions. *)
Lemma hyp_lip c : 0 <= c -> lipschitz 1 (fun x => sqrt (x^2 + c)).
Proof.
  intros Hc u w. rewrite Rmult_1_l.
  set (a := sqrt (u^2 + c)). set (b := sqrt (w^2 + c)).
  assert (Ha : a * a = u^2 + c) by (apply sqrt_sqrt; nra).
  assert (Hb : b * b = w^2 + c) by (apply sqrt_sqrt; nra).
  assert (Pa : 0 <= a) by apply sqrt_pos. assert (Pb : 0 <= b) by apply sqrt_pos. clearbody a b.
  apply Rsqr_le_abs_0. unfold Rsqr.
  assert (u * w + c <= a * b).
  { destruct (Rle_dec (u * w + c) 0); [nra|].
    apply Rsqr_incr_0_var; [|nra]. unfold Rsqr.
    replace ((a * b) * (a * b)) with ((a * a) * (b * b)) by ring. rewrite Ha, Hb.
    assert (0 <= (u - w)^2 * c) by (apply Rmult_le_pos; [apply pow2_ge_0|auto]).
    replace ((u^2 + c) * (w^2 + c)) with ((u * w + c) * (u * w + c) + (u - w)^2 * c) by ring. lra. }
  replace ((a - b) * (a - b)) with (a * a + b * b - 2 * (a * b)) by ring. rewrite Ha, Hb. nra.
Qed.
Lemma lipschitz_weak L L' f : L <= L' -> lipschitz L f -> lipschitz L' f.
Proof. intros H1 H2 x y. eapply Rle_trans; [apply H2|]. apply Rmult_le_compat_r; [apply Rabs_pos|auto]. Qed.
Lemma lipschitz_plus L L' f f' : lipschitz L f -> lipschitz L' f' -> lipschitz (L + L') (fun x => f x + f' x).
Proof.
  intros H1 H2 x y. replace (f x + f' x - (f y + f' y)) with ((f x - f y) + (f' x - f' y)) by ring.
  eapply Rle_trans; [apply Rabs_triang|]. specialize (H1 x y). specialize (H2 x y). lra.
Qed.
Lemma lipschitz_const c : lipschitz 0 (fun _ => c).
Proof. intros x y. rewrite Rminus_eq_0, Rabs_R0. lra. Qed.
Lemma lipschitz_comp L L' f f' : lipschitz L f -> lipschitz L' f' -> lipschitz (L * L') (fun x => f (f' x)).
Proof.
  intros H1 H2 x y. eapply Rle_trans; [apply H1|]. rewrite Rmult_assoc. apply Rmult_le_compat_l; [eapply lip_pos; eauto|apply H2].
Qed.
Lemma lipschitz_mult L L' M M' f f' : lipschitz L f -> lipschitz L' f' ->
  (forall x, Rabs (f x) <= M) -> (forall x, Rabs (f' x) <= M') -> lipschitz (L * M' + M * L') (fun x => f x * f' x).
Proof.
  intros H1 H2 B1 B2 x y. replace (f x * f' x - f y * f' y) with ((f x - f y) * f' x + f y * (f' x - f' y)) by ring.
  eapply Rle_trans; [apply Rabs_triang|]. rewrite !Rabs_mult.
  assert (A : Rabs (f x - f y) * Rabs (f' x) <= L * Rabs (x - y) * M') by (apply Rmult_le_compat; auto using Rabs_pos).
  assert (B : Rabs (f y) * Rabs (f' x - f' y) <= M * (L' * Rabs (x - y))) by (apply Rmult_le_compat; auto using Rabs_pos).
  lra.
Qed.
