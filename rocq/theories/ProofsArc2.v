(** ProofsArc2.v - arcs on a rectangle. *)
From Coq Require Import Reals Lra.
From Coquelicot Require Import Coquelicot.
From Verif Require Import Base NumR SpecAna ProofsArc.
Open Scope R_scope.

(** The angle at which rho cos psi falls to s (0 if it is below s all along). *)
Definition alpha (rho s : R) : R := if Rle_dec s rho then acos (s / rho) else 0.
(** The angle of the part of the first quadrant with rho cos psi < s and rho sin psi < l. *)
Definition quad (rho s l : R) : R := Rmax 0 (PI / 2 - alpha rho l - alpha rho s).

Lemma div_bound rho s : 0 < rho -> 0 <= s <= rho -> 0 <= s / rho <= 1.
Proof.
  intros Hr Hs. split.
  - apply Rdiv_le_0_compat; lra.
  - apply Rmult_le_reg_r with rho; [exact Hr|]. field_simplify; lra.
Qed.

Lemma alpha_bound rho s : 0 < rho -> 0 <= s -> 0 <= alpha rho s <= PI / 2.
Proof.
  intros Hr Hs. unfold alpha. pose proof PI_RGT_0. destruct (Rle_dec s rho) as [H1|H1]; [|lra].
  pose proof (acos_bound (s / rho)). split; [lra|].
  pose proof (div_bound rho s Hr (conj Hs H1)).
  rewrite acos_asin by lra. assert (0 <= asin (s / rho)); [|lra].
  destruct (Req_dec (s / rho) 0) as [->|Hn]; [rewrite asin_0; lra|].
  pose proof (asin_bound (s / rho)).
  destruct (Rlt_le_dec 0 (asin (s / rho))) as [|Hle]; [lra|exfalso].
  assert (Hs' : sin (asin (s / rho)) = s / rho) by (apply sin_asin; lra).
  assert (sin (asin (s / rho)) <= sin 0) by (apply sin_incr_1; lra). rewrite sin_0 in *. lra.
Qed.

Lemma alpha_lt rho s psi : 0 < rho -> 0 <= s -> 0 < psi < PI / 2 ->
  (psi < alpha rho s -> s < rho * cos psi) /\ (alpha rho s < psi -> rho * cos psi < s).
Proof.
  intros Hr Hs Hp. pose proof PI_RGT_0. unfold alpha. destruct (Rle_dec s rho) as [H1|H1].
  - pose proof (div_bound rho s Hr (conj Hs H1)) as Hd. pose proof (acos_bound (s / rho)) as Hb.
    assert (E : rho * (s / rho) = s) by (field; lra).
    assert (Ec : cos (acos (s / rho)) = s / rho) by (apply cos_acos; lra).
    split; intros H2.
    + assert (Hlt : cos (acos (s / rho)) < cos psi) by (apply cos_decreasing_1; lra).
      rewrite Ec in Hlt. apply (Rmult_lt_compat_l rho) in Hlt; lra.
    + assert (Hlt : cos psi < cos (acos (s / rho))) by (apply cos_decreasing_1; lra).
      rewrite Ec in Hlt. apply (Rmult_lt_compat_l rho) in Hlt; lra.
  - split; intros H2; [lra|]. pose proof (COS_bound psi). nra.
Qed.

Section Quad.
  Variables (a b x y rho : R).
  Hypothesis Hrho : 0 < rho.

  (** The part of the first quadrant (around the origin) inside the rectangle
      with centre (x,y). *)
  Definition in_quad (psi : R) : R :=
    if Rltb (Rabs (x - rho * cos psi)) (a / 2) && Rltb (Rabs (y - rho * sin psi)) (b / 2) then 1 else 0.

  Definition lo (u : R) : R := Rmax 0 u.

  Lemma in_quad_1 psi : x - a/2 < rho * cos psi < x + a/2 -> y - b/2 < rho * sin psi < y + b/2 -> in_quad psi = 1.
  Proof.
    intros H1 H2. unfold in_quad.
    rewrite (proj2 (Rltb_iff (Rabs (x - rho * cos psi)) (a / 2))) by (apply Rabs_def1; lra).
    rewrite (proj2 (Rltb_iff (Rabs (y - rho * sin psi)) (b / 2))) by (apply Rabs_def1; lra). reflexivity.
  Qed.
  Lemma in_quad_0 psi : rho * cos psi <= x - a/2 \/ x + a/2 <= rho * cos psi \/
    rho * sin psi <= y - b/2 \/ y + b/2 <= rho * sin psi -> in_quad psi = 0.
  Proof.
    intros H. unfold in_quad.
    destruct (Rltb (Rabs (x - rho * cos psi)) (a / 2)) eqn:E1; [|reflexivity].
    destruct (Rltb (Rabs (y - rho * sin psi)) (b / 2)) eqn:E2; [|reflexivity].
    apply Rltb_iff in E1, E2. apply Rabs_def2 in E1, E2. lra.
  Qed.

  Lemma sin_alpha l psi : 0 <= l -> 0 < psi < PI / 2 ->
    (psi < PI / 2 - alpha rho l -> rho * sin psi < l) /\ (PI / 2 - alpha rho l < psi -> l < rho * sin psi).
  Proof.
    intros Hl Hp. rewrite <- (cos_shift psi).
    destruct (alpha_lt rho l (PI / 2 - psi) Hrho Hl ltac:(lra)) as [H1 H2]. split; intros H.
    - apply H2. lra.
    - apply H1. lra.
  Qed.

  Lemma quad_pos : 0 < a -> 0 < b -> 0 < x + a/2 -> 0 < y + b/2 ->
    is_RInt in_quad 0 (PI / 2)
      (quad rho (x + a/2) (y + b/2) - quad rho (lo (x - a/2)) (y + b/2)
       - quad rho (x + a/2) (lo (y - b/2)) + quad rho (lo (x - a/2)) (lo (y - b/2))).
  Proof.
    intros Ha Hb Hx Hy. pose proof PI_RGT_0 as Hpi.
    assert (Lx : 0 <= lo (x - a/2)) by apply Rmax_l. assert (Ly : 0 <= lo (y - b/2)) by apply Rmax_l.
    assert (Lx' : x - a/2 <= lo (x - a/2)) by apply Rmax_r. assert (Ly' : y - b/2 <= lo (y - b/2)) by apply Rmax_r.
    set (A1 := alpha rho (lo (x - a/2))). set (A2 := alpha rho (x + a/2)).
    set (B1 := alpha rho (lo (y - b/2))). set (B2 := alpha rho (y + b/2)).
    pose proof (alpha_bound rho _ Hrho Lx) as RA1. fold A1 in RA1.
    pose proof (alpha_bound rho (x + a/2) Hrho ltac:(lra)) as RA2. fold A2 in RA2.
    pose proof (alpha_bound rho _ Hrho Ly) as RB1. fold B1 in RB1.
    pose proof (alpha_bound rho (y + b/2) Hrho ltac:(lra)) as RB2. fold B2 in RB2.
    (* A2 <= A1: otherwise some psi in between contradicts x-a/2 < x+a/2 *)
    assert (M : forall s1 s2, 0 <= s1 -> s1 <= s2 -> alpha rho s2 <= alpha rho s1).
    { intros s1 s2' H1 H2. apply Rnot_lt_le. intros Hlt.
      pose proof (alpha_bound rho s1 Hrho H1). pose proof (alpha_bound rho s2' Hrho ltac:(lra)).
      destruct (alpha_lt rho s1 ((alpha rho s1 + alpha rho s2') / 2) Hrho H1 ltac:(lra)) as [_ G1].
      destruct (alpha_lt rho s2' ((alpha rho s1 + alpha rho s2') / 2) Hrho ltac:(lra) ltac:(lra)) as [G2 _].
      specialize (G1 ltac:(lra)). specialize (G2 ltac:(lra)). lra. }
    assert (MA : A2 <= A1).
    { apply M; [exact Lx|]. unfold lo. apply Rmax_lub; lra. }
    assert (MB : B2 <= B1).
    { apply M; [exact Ly|]. unfold lo. apply Rmax_lub; lra. }
    set (p := Rmax A2 (PI / 2 - B1)). set (q := Rmin A1 (PI / 2 - B2)).
    assert (P0 : A2 <= p) by apply Rmax_l. assert (P1 : PI / 2 - B1 <= p) by apply Rmax_r.
    assert (Q0 : q <= A1) by apply Rmin_l. assert (Q1 : q <= PI / 2 - B2) by apply Rmin_r.
    assert (Val : quad rho (x + a/2) (y + b/2) - quad rho (lo (x - a/2)) (y + b/2)
       - quad rho (x + a/2) (lo (y - b/2)) + quad rho (lo (x - a/2)) (lo (y - b/2)) = Rmax 0 (q - p)).
    { unfold quad. fold A1 A2 B1 B2. unfold p, q. clear P0 P1 Q0 Q1 p q.
      unfold Rmax, Rmin. repeat destruct (Rle_dec _ _); lra. }
    rewrite Val.
    assert (Out1 : forall psi, 0 < psi < PI / 2 -> psi < p -> in_quad psi = 0).
    { intros psi Hp Hlt. apply in_quad_0. unfold p in Hlt. 
      destruct (Rlt_le_dec psi A2) as [H1|H1].
      - right; left. left. apply (alpha_lt rho (x + a/2) psi Hrho ltac:(lra) Hp). exact H1.
      - assert (H2 : psi < PI / 2 - B1) by (unfold Rmax in Hlt; destruct (Rle_dec _ _); lra).
        destruct (Rle_lt_dec (y - b/2) 0) as [Hn|Hn].
        + (* then lo = 0 and B1 = pi/2: no such psi *)
          exfalso. unfold B1, lo in H2. rewrite Rmax_left in H2 by lra. unfold alpha in H2.
          destruct (Rle_dec 0 rho); [|lra]. unfold Rdiv in H2. rewrite Rmult_0_l, acos_0 in H2. lra.
        + right; right; left. left. apply (Rlt_le_trans _ (lo (y - b/2))).
          * apply (sin_alpha (lo (y - b/2)) psi Ly Hp). exact H2.
          * unfold lo. rewrite Rmax_right by lra. lra. }
    assert (Out2 : forall psi, 0 < psi < PI / 2 -> q < psi -> in_quad psi = 0).
    { intros psi Hp Hlt. apply in_quad_0. unfold q in Hlt.
      destruct (Rlt_le_dec A1 psi) as [H1|H1].
      - destruct (Rle_lt_dec (x - a/2) 0) as [Hn|Hn].
        + exfalso. unfold A1, lo in H1. rewrite Rmax_left in H1 by lra. unfold alpha in H1.
          destruct (Rle_dec 0 rho); [|lra]. unfold Rdiv in H1. rewrite Rmult_0_l, acos_0 in H1. lra.
        + left. left. apply (Rlt_le_trans _ (lo (x - a/2))).
          * apply (alpha_lt rho (lo (x - a/2)) psi Hrho Lx Hp). exact H1.
          * unfold lo. rewrite Rmax_right by lra. lra.
      - assert (H2 : PI / 2 - B2 < psi) by (unfold Rmin in Hlt; destruct (Rle_dec _ _); lra).
        right; right; right. left. apply (sin_alpha (y + b/2) psi ltac:(lra) Hp). exact H2. }
    destruct (Rle_lt_dec q p) as [Hqp|Hqp].
    - rewrite Rmax_left by lra. replace 0 with (p - p) at 2 by ring.
      assert (RP : 0 <= p <= PI / 2) by (unfold p, Rmax; destruct (Rle_dec _ _); lra).
      apply ind_RInt; try lra; intros psi Hp; [apply Out1; lra| |apply Out2; lra]. lra.
    - rewrite Rmax_right by lra. apply ind_RInt; [lra|lra|lra| | |].
      + intros psi Hp. apply Out1; lra.
      + intros psi Hp. assert (Hp' : 0 < psi < PI / 2) by lra. apply in_quad_1; split.
        * apply (Rle_lt_trans _ (lo (x - a/2))); [exact Lx'|].
          apply (alpha_lt rho (lo (x - a/2)) psi Hrho Lx Hp'). fold A1. lra.
        * apply (alpha_lt rho (x + a/2) psi Hrho ltac:(lra) Hp'). fold A2. lra.
        * apply (Rle_lt_trans _ (lo (y - b/2))); [exact Ly'|].
          apply (sin_alpha (lo (y - b/2)) psi Ly Hp'). fold B1. lra.
        * apply (sin_alpha (y + b/2) psi ltac:(lra) Hp'). fold B2. lra.
      + intros psi Hp. apply Out2; lra.
  Qed.
End Quad.

Lemma quad_none a b x y rho : 0 < rho -> x + a/2 <= 0 \/ y + b/2 <= 0 -> is_RInt (in_quad a b x y rho) 0 (PI / 2) 0.
Proof.
  intros Hr H. pose proof PI_RGT_0. replace 0 with ((PI / 2 - 0) * 0) at 2 by ring.
  apply const_RInt; [lra|]. intros psi Hp. apply in_quad_0.
  assert (0 < cos psi) by (apply cos_gt_0; lra). assert (0 < sin psi) by (apply sin_gt_0; lra).
  assert (0 < rho * cos psi) by (apply Rmult_lt_0_compat; lra).
  assert (0 < rho * sin psi) by (apply Rmult_lt_0_compat; lra). lra.
Qed.

Lemma rect_arc a b x y rho I1 I2 I3 I4 :
  is_RInt (in_quad a b (- x) (- y) rho) 0 (PI / 2) I1 ->
  is_RInt (in_quad a b x (- y) rho) 0 (PI / 2) I2 ->
  is_RInt (in_quad a b x y rho) 0 (PI / 2) I3 ->
  is_RInt (in_quad a b (- x) y rho) 0 (PI / 2) I4 ->
  is_arc (rectangle a b) x y rho (I1 + I2 + I3 + I4).
Proof.
  intros H1 H2 H3 H4. unfold is_arc.
  set (f := fun phi => if rectangle a b (x + rho * cos phi) (y + rho * sin phi) then 1 else 0).
  assert (G : forall phi psi x' y', Rabs (x + rho * cos phi) = Rabs (x' - rho * cos psi) ->
     Rabs (y + rho * sin phi) = Rabs (y' - rho * sin psi) -> in_quad a b x' y' rho psi = f phi).
  { intros phi psi x' y' E1 E2. unfold f, in_quad, rectangle. now rewrite E1, E2. }
  assert (K1 : is_RInt f 0 (PI / 2) I1).
  { apply is_RInt_ext with (2 := H1). intros psi _. apply G.
    - rewrite <- Rabs_Ropp. f_equal. ring.
    - rewrite <- Rabs_Ropp. f_equal. ring. }
  assert (K2 : is_RInt f (PI / 2) PI I2).
  { replace (PI / 2) with (PI - PI / 2) by field. replace PI with (PI - 0) at 3 by ring.
    apply reflect_RInt. apply is_RInt_ext with (2 := H2). intros psi _. apply G.
    - f_equal. rewrite Rtrigo_facts.cos_pi_minus. ring.
    - rewrite <- Rabs_Ropp. f_equal. rewrite Rtrigo_facts.sin_pi_minus. ring. }
  assert (K3 : is_RInt f PI (PI / 2 + PI) I3).
  { rewrite <- (Rplus_0_l PI) at 1. apply shift_RInt. apply is_RInt_ext with (2 := H3). intros psi _. apply G.
    - f_equal. rewrite neg_cos. ring.
    - f_equal. rewrite neg_sin. ring. }
  assert (K4 : is_RInt f (PI / 2 + PI) (2 * PI) I4).
  { replace (PI / 2 + PI) with (2 * PI - PI / 2) by field. replace (2 * PI) with (2 * PI - 0) at 2 by ring.
    apply reflect_RInt. apply is_RInt_ext with (2 := H4). intros psi _. apply G.
    - rewrite <- Rabs_Ropp. f_equal. rewrite cos_minus, cos_2PI, sin_2PI. ring.
    - f_equal. rewrite sin_minus, cos_2PI, sin_2PI. ring. }
  exact (is_RInt_Chasles f _ _ _ _ _ (is_RInt_Chasles f _ _ _ _ _ (is_RInt_Chasles f _ _ _ _ _ K1 K2) K3) K4).
Qed.

Lemma alpha_0 rho : 0 < rho -> alpha rho 0 = PI / 2.
Proof.
  intros H. unfold alpha. destruct (Rle_dec 0 rho); [|lra]. unfold Rdiv at 1. rewrite Rmult_0_l. apply acos_0.
Qed.
Lemma quad_0_l rho l : 0 < rho -> 0 <= l -> quad rho 0 l = 0.
Proof.
  intros H Hl. unfold quad. rewrite alpha_0 by exact H. pose proof (alpha_bound rho l H Hl).
  apply Rmax_left. lra.
Qed.
Lemma quad_0_r rho s : 0 < rho -> 0 <= s -> quad rho s 0 = 0.
Proof.
  intros H Hl. unfold quad. rewrite alpha_0 by exact H. pose proof (alpha_bound rho s H Hl).
  apply Rmax_left. lra.
Qed.

(** ** The rectangle: inside, and the three regions outside *)
Section Regions.
  Variables (a b x y rho : R).
  Hypothesis Hrho : 0 < rho.
  Hypothesis Ha : 0 < a.
  Hypothesis Hb : 0 < b.

  (** The part of a quadrant, in the form it is used. *)
  Lemma quad_area s1 s2 l1 l2 x' y' :
    s2 = x' + a/2 -> l2 = y' + b/2 -> 0 <= s2 -> 0 <= l2 -> s1 = lo (x' - a/2) -> l1 = lo (y' - b/2) ->
    (s2 = 0 -> s1 = 0) -> (l2 = 0 -> l1 = 0) ->
    is_RInt (in_quad a b x' y' rho) 0 (PI / 2) (quad rho s2 l2 - quad rho s1 l2 - quad rho s2 l1 + quad rho s1 l1).
  Proof.
    intros -> -> Hs Hl -> -> Zs Zl.
    destruct (Req_dec (x' + a/2) 0) as [E|E].
    { rewrite E, (Zs E). replace (_ - _ - _ + _) with 0 by ring. apply quad_none; [exact Hrho|lra]. }
    destruct (Req_dec (y' + b/2) 0) as [E'|E'].
    { rewrite E', (Zl E'). replace (_ - _ - _ + _) with 0 by ring. apply quad_none; [exact Hrho|lra]. }
    apply quad_pos; lra.
  Qed.

  Lemma rect_arc_in : 0 <= x -> 0 <= y -> x <= a/2 -> y <= b/2 ->
    is_arc (rectangle a b) x y rho
      (quad rho (a/2 - x) (b/2 - y) + quad rho (a/2 + x) (b/2 - y) + quad rho (a/2 + x) (b/2 + y) + quad rho (a/2 - x) (b/2 + y)).
  Proof.
    intros Hx Hy Hxa Hyb.
    assert (Q : forall x' y' s2 l2, s2 = x' + a/2 -> l2 = y' + b/2 -> 0 <= s2 -> 0 <= l2 -> x' <= a/2 -> y' <= b/2 ->
      is_RInt (in_quad a b x' y' rho) 0 (PI / 2) (quad rho s2 l2)).
    { intros x' y' s2 l2 -> -> Hs Hl Hx' Hy'.
      assert (E1 : lo (x' - a/2) = 0) by (apply Rmax_left; lra).
      assert (E2 : lo (y' - b/2) = 0) by (apply Rmax_left; lra).
      replace (quad rho (x' + a/2) (y' + b/2)) with
        (quad rho (x' + a/2) (y' + b/2) - quad rho 0 (y' + b/2) - quad rho (x' + a/2) 0 + quad rho 0 0).
      - apply quad_area; auto.
      - rewrite !quad_0_l, quad_0_r by lra. lra. }
    apply rect_arc; apply Q; lra.
  Qed.

  Lemma rect_arc_b : 0 <= x -> x <= a/2 -> b/2 < y ->
    is_arc (rectangle a b) x y rho
      (- quad rho (a/2 - x) (y - b/2) - quad rho (a/2 + x) (y - b/2) + quad rho (a/2 + x) (b/2 + y) + quad rho (a/2 - x) (b/2 + y)).
  Proof.
    intros Hx Hxa Hyb.
    assert (Q : forall x' s2, s2 = x' + a/2 -> 0 <= s2 -> x' <= a/2 ->
      is_RInt (in_quad a b x' y rho) 0 (PI / 2) (quad rho s2 (b/2 + y) - quad rho s2 (y - b/2))).
    { intros x' s2 Hs2 Hs Hx'.
      assert (E1 : lo (x' - a/2) = 0) by (apply Rmax_left; lra).
      assert (E2 : lo (y - b/2) = y - b/2) by (apply Rmax_right; lra).
      replace (quad rho s2 (b/2 + y) - quad rho s2 (y - b/2)) with
        (quad rho s2 (b/2 + y) - quad rho 0 (b/2 + y) - quad rho s2 (y - b/2) + quad rho 0 (y - b/2)).
      - apply quad_area; auto; lra.
      - rewrite !quad_0_l by lra. lra. }
    replace (_ + quad rho (a/2 - x) (b/2 + y)) with
      (0 + 0 + (quad rho (a/2 + x) (b/2 + y) - quad rho (a/2 + x) (y - b/2))
       + (quad rho (a/2 - x) (b/2 + y) - quad rho (a/2 - x) (y - b/2))) by ring.
    apply rect_arc; [apply quad_none; lra|apply quad_none; lra| |]; apply Q; lra.
  Qed.

  Lemma rect_arc_a : a/2 < x -> 0 <= y -> y <= b/2 ->
    is_arc (rectangle a b) x y rho
      (- quad rho (x - a/2) (b/2 - y) + quad rho (a/2 + x) (b/2 - y) + quad rho (a/2 + x) (b/2 + y) - quad rho (x - a/2) (b/2 + y)).
  Proof.
    intros Hxa Hy Hyb.
    assert (Q : forall y' l2, l2 = y' + b/2 -> 0 <= l2 -> y' <= b/2 ->
      is_RInt (in_quad a b x y' rho) 0 (PI / 2) (quad rho (a/2 + x) l2 - quad rho (x - a/2) l2)).
    { intros y' l2 Hl2 Hl Hy'.
      assert (E1 : lo (x - a/2) = x - a/2) by (apply Rmax_right; lra).
      assert (E2 : lo (y' - b/2) = 0) by (apply Rmax_left; lra).
      replace (quad rho (a/2 + x) l2 - quad rho (x - a/2) l2) with
        (quad rho (a/2 + x) l2 - quad rho (x - a/2) l2 - quad rho (a/2 + x) 0 + quad rho (x - a/2) 0).
      - apply quad_area; auto; lra.
      - rewrite !quad_0_r by lra. lra. }
    replace (_ - quad rho (x - a/2) (b/2 + y)) with
      (0 + (quad rho (a/2 + x) (b/2 - y) - quad rho (x - a/2) (b/2 - y))
       + (quad rho (a/2 + x) (b/2 + y) - quad rho (x - a/2) (b/2 + y)) + 0) by ring.
    apply rect_arc; [apply quad_none; lra| | |apply quad_none; lra]; apply Q; lra.
  Qed.

  Lemma rect_arc_ab : a/2 < x -> b/2 < y ->
    is_arc (rectangle a b) x y rho
      (quad rho (x - a/2) (y - b/2) - quad rho (a/2 + x) (y - b/2) + quad rho (a/2 + x) (b/2 + y) - quad rho (x - a/2) (y + b/2)).
  Proof.
    intros Hxa Hyb.
    assert (E1 : lo (x - a/2) = x - a/2) by (apply Rmax_right; lra).
    assert (E2 : lo (y - b/2) = y - b/2) by (apply Rmax_right; lra).
    replace (b/2 + y) with (y + b/2) by ring.
    replace (_ - quad rho (x - a/2) (y + b/2)) with
      (0 + 0 + (quad rho (a/2 + x) (y + b/2) - quad rho (x - a/2) (y + b/2) - quad rho (a/2 + x) (y - b/2)
       + quad rho (x - a/2) (y - b/2)) + 0) by ring.
    apply rect_arc; [apply quad_none; lra|apply quad_none; lra| |apply quad_none; lra].
    apply quad_area; auto; lra.
  Qed.
End Regions.

(** A circle of radius 0. *)
Lemma point_arc_in ap x y : ap x y = true -> is_arc ap x y 0 (2 * PI).
Proof.
  intros H. unfold is_arc. pose proof PI_RGT_0. replace (2 * PI) with ((2 * PI - 0) * 1) at 2 by ring.
  apply const_RInt; [lra|]. intros phi _. replace (x + 0 * cos phi) with x by ring.
  replace (y + 0 * sin phi) with y by ring. now rewrite H.
Qed.
Lemma point_arc_out ap x y : ap x y = false -> is_arc ap x y 0 0.
Proof.
  intros H. unfold is_arc. pose proof PI_RGT_0.
  set (f := fun phi => if ap (x + 0 * cos phi) (y + 0 * sin phi) then 1 else 0).
  assert (K : is_RInt f 0 (2 * PI) ((2 * PI - 0) * 0)).
  { apply const_RInt; [lra|]. intros phi _. unfold f. replace (x + 0 * cos phi) with x by ring.
    replace (y + 0 * sin phi) with y by ring. now rewrite H. }
  replace ((2 * PI - 0) * 0) with 0 in K by ring. exact K.
Qed.

(** The sides of the rectangle may be reflected. *)
Lemma rect_arc_refl_x a b x y rho theta :
  is_arc (rectangle a b) (- x) y rho theta -> is_arc (rectangle a b) x y rho theta.
Proof.
  unfold is_arc. set (g := fun phi => if rectangle a b (- x + rho * cos phi) (y + rho * sin phi) then 1 else 0).
  set (f := fun phi => if rectangle a b (x + rho * cos phi) (y + rho * sin phi) then 1 else 0). intros H.
  pose proof PI_RGT_0.
  assert (Pg : forall t, g (t + 2 * PI) = g t).
  { intros t. unfold g. replace (t + 2 * PI) with (t + 2 * INR 1 * PI) by (cbn; ring). now rewrite cos_period, sin_period. }
  assert (G : is_RInt g (- PI) PI theta).
  { replace (- PI) with (0 + - PI) by ring. replace PI with (2 * PI + - PI) at 2 by ring. apply shift_RInt.
    apply turn_RInt with 0; [|lra|].
    - intros t. replace (t + 2 * PI + - PI) with (t + - PI + 2 * PI) by ring. apply Pg.
    - replace (0 - PI) with (- PI) by ring. replace (0 + PI) with PI by ring.
      apply is_RInt_ext with (fun t => g (t + PI)).
      { intros t _. rewrite <- (Pg (t + - PI)). replace (t + - PI + 2 * PI) with (t + PI) by ring. reflexivity. }
      assert (K : is_RInt (fun t => g (t + PI)) (0 + - PI) (2 * PI + - PI) theta).
      { apply (shift_RInt (fun t => g (t + PI)) (- PI)).
        apply is_RInt_ext with (2 := H). intros t _. replace (t + - PI + PI) with t by ring. reflexivity. }
      replace (0 + - PI) with (- PI) in K by ring. replace (2 * PI + - PI) with PI in K by ring. exact K. }
  enough (K : is_RInt f (PI - PI) (PI - - PI) theta).
  { replace (PI - PI) with 0 in K by ring. replace (PI - - PI) with (2 * PI) in K by ring. exact K. }
  apply reflect_RInt. apply is_RInt_ext with (2 := G). intros t _. unfold f, g, rectangle.
  rewrite Rtrigo_facts.cos_pi_minus, Rtrigo_facts.sin_pi_minus.
  replace (Rabs (x + rho * - cos t)) with (Rabs (- x + rho * cos t)); [reflexivity|].
  rewrite <- Rabs_Ropp. f_equal. ring.
Qed.
Lemma rect_arc_refl_y a b x y rho theta :
  is_arc (rectangle a b) x (- y) rho theta -> is_arc (rectangle a b) x y rho theta.
Proof.
  unfold is_arc. set (g := fun phi => if rectangle a b (x + rho * cos phi) (- y + rho * sin phi) then 1 else 0).
  set (f := fun phi => if rectangle a b (x + rho * cos phi) (y + rho * sin phi) then 1 else 0). intros H.
  enough (K : is_RInt f (2 * PI - 2 * PI) (2 * PI - 0) theta).
  { replace (2 * PI - 2 * PI) with 0 in K by ring. replace (2 * PI - 0) with (2 * PI) in K by ring. exact K. }
  apply reflect_RInt. apply is_RInt_ext with (2 := H). intros t _. unfold f, g, rectangle.
  rewrite cos_minus, sin_minus, cos_2PI, sin_2PI.
  replace (1 * cos t + 0 * sin t) with (cos t) by ring.
  replace (Rabs (y + rho * (0 * cos t - 1 * sin t))) with (Rabs (- y + rho * sin t)); [reflexivity|].
  rewrite <- Rabs_Ropp. f_equal. ring.
Qed.
Lemma rect_arc_abs a b x y rho theta :
  is_arc (rectangle a b) (Rabs x) (Rabs y) rho theta -> is_arc (rectangle a b) x y rho theta.
Proof.
  intros H. assert (H' : is_arc (rectangle a b) x (Rabs y) rho theta).
  { unfold Rabs in H at 1. destruct (Rcase_abs x); [apply rect_arc_refl_x|]; exact H. }
  unfold Rabs in H'. destruct (Rcase_abs y); [apply rect_arc_refl_y|]; exact H'.
Qed.
