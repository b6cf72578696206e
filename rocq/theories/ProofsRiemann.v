(** ProofsRiemann.v - the midpoint rule for Lipschitz functions, one and two
    variables, and the function 1/r. *)
From Coq Require Import Reals Lra Lia List.
From Coquelicot Require Import Coquelicot.
From Verif Require Import Base ModelSir ModelArr NumR SpecRayleigh ProofsR ProofsSirR ProofsPhys.
Import ListNotations.
Open Scope R_scope.

Definition lipschitz (L : R) (f : R -> R) : Prop := forall x y, Rabs (f x - f y) <= L * Rabs (x - y).

Lemma lipschitz_cont L f x : lipschitz L f -> continuous f x.
Proof.
  intros H. apply continuity_pt_filterlim. intros eps He.
  assert (HL : 0 <= L). { specialize (H 1 0). pose proof (Rabs_pos (f 1 - f 0)). replace (1 - 0) with 1 in H by ring. rewrite Rabs_R1 in H. lra. }
  exists (eps / (L + 1)). split; [apply Rdiv_lt_0_compat; lra|].
  intros y [_ Hy]. unfold dist in Hy. cbn in Hy. unfold R_dist in *. cbn. unfold R_dist.
  eapply Rle_lt_trans; [apply H|].
  apply Rle_lt_trans with (L * (eps / (L + 1))); [apply Rmult_le_compat_l; lra|].
  apply Rmult_lt_reg_r with (L + 1); [lra|]. field_simplify; [|lra]. nra.
Qed.
Lemma lipschitz_int L f a b : lipschitz L f -> ex_RInt f a b.
Proof. intros H. apply (ex_RInt_continuous (V := R_CompleteNormedModule)). intros x _. eapply lipschitz_cont; eauto. Qed.

Lemma RInt_dev f a b c e : a <= b -> ex_RInt f a b -> (forall x, a < x < b -> Rabs (f x - c) <= e) ->
  Rabs (RInt f a b - (b - a) * c) <= (b - a) * e.
Proof.
  intros Hab He H.
  assert (E : (b - a) * c = RInt (fun _ => c) a b) by (rewrite RInt_const; reflexivity).
  assert (U : RInt f a b <= (b - a) * (c + e)).
  { apply Rle_trans with (RInt (fun _ => c + e) a b); [|rewrite RInt_const; right; reflexivity].
    apply RInt_le; auto; [apply ex_RInt_const|]. intros x Hx. specialize (H x Hx). revert H; unfold Rabs; destruct (Rcase_abs _); lra. }
  assert (W : (b - a) * (c - e) <= RInt f a b).
  { apply Rle_trans with (RInt (fun _ => c - e) a b); [rewrite RInt_const; right; reflexivity|].
    apply RInt_le; auto; [apply ex_RInt_const|]. intros x Hx. specialize (H x Hx). revert H; unfold Rabs; destruct (Rcase_abs _); lra. }
  unfold Rabs; destruct (Rcase_abs _); nra.
Qed.

(** The midpoint rule on m steps of length d. *)
Lemma midpoint_rule L f lo d m : 0 < d -> lipschitz L f ->
  Rabs (RInt f lo (lo + INR m * d) - d * Rsum (map (fun i => f (mid lo d i)) (seq 0 m))) <= INR m * d * (L * d / 2).
Proof.
  intros Hd HL. induction m as [|m IH].
  - cbn [INR map seq Rsum fold_right]. replace (lo + 0 * d) with lo by ring.
    assert (E : RInt f lo lo = 0) by (rewrite RInt_point; reflexivity). rewrite E.
    rewrite Rmult_0_r, Rminus_0_r, Rabs_R0. lra.
  - rewrite seq_S, map_app, Rsum_app. cbn [map Rsum fold_right plus]. rewrite S_INR.
    assert (EC : RInt f lo (lo + (INR m + 1) * d) = RInt f lo (lo + INR m * d) + RInt f (lo + INR m * d) (lo + (INR m + 1) * d))
      by (symmetry; apply (RInt_Chasles f lo (lo + INR m * d)); eapply lipschitz_int; eauto).
    rewrite EC.
    assert (D : Rabs (RInt f (lo + INR m * d) (lo + (INR m + 1) * d) - (lo + (INR m + 1) * d - (lo + INR m * d)) * f (mid lo d m))
                <= (lo + (INR m + 1) * d - (lo + INR m * d)) * (L * d / 2)).
    { apply RInt_dev; [nra|eapply lipschitz_int; eauto|]. intros x Hx. eapply Rle_trans; [apply HL|].
      assert (HL0 : 0 <= L). { specialize (HL 1 0). pose proof (Rabs_pos (f 1 - f 0)). replace (1 - 0) with 1 in HL by ring. rewrite Rabs_R1 in HL. lra. }
      replace (L * d / 2) with (L * (d / 2)) by field. apply Rmult_le_compat_l; auto. unfold mid.
      apply Rabs_le. nra. }
    replace (lo + (INR m + 1) * d - (lo + INR m * d)) with d in D by ring.
    change (fold_right Rplus 0) with Rsum in *. idtac.
    match goal with |- Rabs (?A + ?B - d * (?S + (?F + 0))) <= _ =>
      replace (A + B - d * (S + (F + 0))) with ((A - d * S) + (B - d * F)) by ring end.
    eapply Rle_trans; [apply Rabs_triang|]. change (0 + m)%nat with m. lra.
Qed.

(** Two variables. *)
Lemma midpoint_rule2 L f lox dx m loy dy n : 0 < dx -> 0 < dy ->
  (forall y, lipschitz L (fun x => f x y)) -> (forall x, lipschitz L (fun y => f x y)) ->
  Rabs (RInt (fun y => RInt (fun x => f x y) lox (lox + INR m * dx)) loy (loy + INR n * dy)
        - dx * dy * Rsum (map (fun j => Rsum (map (fun i => f (mid lox dx i) (mid loy dy j)) (seq 0 m))) (seq 0 n)))
  <= INR m * dx * (INR n * dy) * (L * (dx + dy) / 2).
Proof.
  intros Hx Hy H1 H2.
  set (F := fun y => RInt (fun x => f x y) lox (lox + INR m * dx)).
  assert (HF : lipschitz (INR m * dx * L) F).
  { intros y y'. unfold F.
    pose proof (pos_INR m). 
    assert (EM : RInt (fun x => f x y) lox (lox + INR m * dx) - RInt (fun x => f x y') lox (lox + INR m * dx) =
                 RInt (fun x => minus (f x y) (f x y')) lox (lox + INR m * dx))
      by (symmetry; apply (RInt_minus (fun x => f x y) (fun x => f x y')); eapply lipschitz_int; eauto).
    rewrite EM.
    assert (D : Rabs (RInt (fun x => minus (f x y) (f x y')) lox (lox + INR m * dx) - (lox + INR m * dx - lox) * 0)
              <= (lox + INR m * dx - lox) * (L * Rabs (y - y'))).
    { apply RInt_dev; [nra| |].
      - apply (ex_RInt_minus (fun x => f x y) (fun x => f x y')); eapply lipschitz_int; eauto.
      - intros x _. rewrite Rminus_0_r. apply (H2 x). }
    rewrite Rmult_0_r, Rminus_0_r in D. eapply Rle_trans; [exact D|]. right. ring. }
  pose proof (midpoint_rule _ F loy dy n Hy HF) as D1.
  assert (D2 : Rabs (dy * Rsum (map (fun j => F (mid loy dy j)) (seq 0 n)) -
     dx * dy * Rsum (map (fun j => Rsum (map (fun i => f (mid lox dx i) (mid loy dy j)) (seq 0 m))) (seq 0 n)))
     <= INR n * dy * (INR m * dx * (L * dx / 2))).
  { clear D1. generalize (mid loy dy). intros g0. clear HF.
    induction n as [|n IH].
    - cbn. rewrite !Rmult_0_r, Rminus_0_r, Rabs_R0. lra.
    - rewrite seq_S, !map_app, !Rsum_app. cbn [map Rsum fold_right plus]. rewrite S_INR.
      pose proof (midpoint_rule L (fun x => f x (g0 n)) lox dx m Hx (H1 (g0 n))) as D.
      fold (F (g0 n)) in D.
      change (fold_right Rplus 0) with Rsum in *.
      match goal with |- Rabs (dy * (?A + (?B + 0)) - dx * dy * (?S + (?T + 0))) <= _ =>
        replace (dy * (A + (B + 0)) - dx * dy * (S + (T + 0))) with ((dy * A - dx * dy * S) + dy * (B - dx * T)) by ring end.
      eapply Rle_trans; [apply Rabs_triang|]. rewrite (Rabs_mult dy), (Rabs_pos_eq dy) by lra.
      apply (Rmult_le_compat_l dy) in D; [|lra]. change (0 + n)%nat with n. lra. }
  match goal with |- Rabs (?A - ?C) <= _ => match type of D1 with Rabs (_ - ?B) <= _ =>
    replace (A - C) with ((A - B) + (B - C)) by ring end end.
  eapply Rle_trans; [apply Rabs_triang|]. fold F.
  replace (INR m * dx * (INR n * dy) * (L * (dx + dy) / 2)) with
    (INR n * dy * (INR m * dx * L * dy / 2) + INR n * dy * (INR m * dx * (L * dx / 2))) by field.
  apply Rplus_le_compat; [exact D1|exact D2].
Qed.

(** ** 1/r *)
Definition invr (z x y : R) : R := / sqrt (x^2 + y^2 + z^2).

Lemma invr_sym z x y : invr z x y = invr z y x.
Proof. unfold invr. do 2 f_equal. ring. Qed.

Lemma invr_lip_x z y : z <> 0 -> lipschitz (/ z^2) (fun x => invr z x y).
Proof.
  intros Hz u w. unfold invr.
  assert (Z2 : 0 < z^2) by nra.
  set (a := sqrt (u^2 + y^2 + z^2)). set (b := sqrt (w^2 + y^2 + z^2)).
  assert (Ha : a * a = u^2 + y^2 + z^2) by (apply sqrt_sqrt; nra).
  assert (Hb : b * b = w^2 + y^2 + z^2) by (apply sqrt_sqrt; nra).
  assert (Pa : 0 <= a) by apply sqrt_pos. assert (Pb : 0 <= b) by apply sqrt_pos.
  assert (Pa' : 0 < a) by nra. assert (Pb' : 0 < b) by nra.
  clearbody a b.
  assert (Hab : z^2 <= a * b).
  { assert (z^2 * z^2 <= (a * b) * (a * b)).
    { replace ((a * b) * (a * b)) with ((a * a) * (b * b)) by ring. rewrite Ha, Hb.
      apply Rmult_le_compat; nra. }
    nra. }
  assert (Hd : Rabs (a - b) <= Rabs (u - w)).
  { apply Rsqr_le_abs_0. unfold Rsqr.
    assert (u * w + y^2 + z^2 <= a * b).
    { destruct (Rle_dec (u * w + y^2 + z^2) 0); [nra|].
      apply Rsqr_incr_0_var; [|nra]. unfold Rsqr.
      replace ((a * b) * (a * b)) with ((a * a) * (b * b)) by ring. rewrite Ha, Hb.
      assert (0 <= (u - w)^2 * (y^2 + z^2)) by (apply Rmult_le_pos; [apply pow2_ge_0|nra]).
      replace ((u^2 + y^2 + z^2) * (w^2 + y^2 + z^2)) with ((u * w + y^2 + z^2) * (u * w + y^2 + z^2) + (u - w)^2 * (y^2 + z^2)) by ring.
      lra. }
    replace ((a - b) * (a - b)) with (a * a + b * b - 2 * (a * b)) by ring. rewrite Ha, Hb. nra. }
  replace (/ a - / b) with ((b - a) * / (a * b)) by (field; lra).
  rewrite Rabs_mult, (Rabs_minus_sym b a). rewrite (Rabs_pos_eq (/ (a * b))) by (left; apply Rinv_0_lt_compat; nra).
  rewrite Rmult_comm. apply Rmult_le_compat; auto using Rabs_pos.
  - left; apply Rinv_0_lt_compat; nra.
  - apply Rinv_le_contravar; auto.
Qed.
Lemma invr_lip_y z x : z <> 0 -> lipschitz (/ z^2) (fun y => invr z x y).
Proof. intros Hz u w. rewrite (invr_sym z x u), (invr_sym z x w). now apply (invr_lip_x z x). Qed.
