(** ProofsTermF.v - termination of the SIR loops in binary64 arithmetic. *)
From Coq Require Import Floats Uint63.
From Coq Require Import Reals Lra Lia ZArith List Bool.
From Flocq Require Import Core Mult_error BinarySingleNaN PrimFloat.
From Verif Require Import Base BaseLemmas NumF ModelSir ModelArr SpecSir ProofsEnum ProofsErr.
Import ListNotations.
Open Scope R_scope.

Notation fe := (SpecFloat.fexp prec emax).
Notation rnd := (round radix2 fe ZnearestE).
Definition V (x : PrimFloat.float) : R := B2R (Prim2B x).
Definition fin (x : PrimFloat.float) : bool := is_finite (Prim2B x).

#[local] Instance fe_valid : Valid_exp fe := fexp_correct prec emax Hprec.
#[local] Instance fe_mono : Monotone_exp fe := fexp_monotone prec emax.

Lemma V_format x : generic_format radix2 fe (V x).
Proof. apply generic_format_B2R. Qed.

Lemma V_int x : exists m : Z, V x = IZR m * bpow radix2 (-1074).
Proof.
  pose proof (generic_format_FIX_FLT radix2 (-1074) 53 (V x) (V_format x)) as H.
  apply FIX_format_generic in H. destruct H as [[m e] H1 H2]. cbn in H2. subst e.
  exists m. exact H1.
Qed.

Lemma V_gap x y : V x < V y -> V x + bpow radix2 (-1074) <= V y.
Proof.
  destruct (V_int x) as [m ->], (V_int y) as [n ->]. intros H.
  pose proof (bpow_gt_0 radix2 (-1074)) as P.
  assert (IZR m < IZR n) by (apply Rmult_lt_reg_r with (1 := P); exact H).
  assert (IZR m + 1 <= IZR n). { rewrite <- plus_IZR. apply IZR_le. apply lt_IZR in H0. lia. }
  nra.
Qed.

Lemma leb_fin x y : fin x = true -> fin y = true -> PrimFloat.leb x y = true -> V x <= V y.
Proof.
  intros Hx Hy. rewrite leb_equiv, (Bleb_correct _ _ _ _ Hx Hy). intros H.
  unfold V. now destruct (Rle_bool_spec (B2R (Prim2B x)) (B2R (Prim2B y))).
Qed.

Lemma leb_inf x y : Prim2B x = B754_infinity false -> Prim2B y <> B754_infinity false -> PrimFloat.leb x y = false.
Proof.
  intros Hx Hy. rewrite leb_equiv, Hx. destruct (Prim2B y) as [s|[]| |s m e E]; try reflexivity; try (destruct s; reflexivity).
  congruence.
Qed.
Lemma leb_nan_l x y : Prim2B x = B754_nan -> PrimFloat.leb x y = false.
Proof. intros Hx. rewrite leb_equiv, Hx. now destruct (Prim2B y) as [[]|[]| |[] m e E]. Qed.
Lemma leb_nan_r x y : Prim2B y = B754_nan -> PrimFloat.leb x y = false.
Proof. intros Hx. rewrite leb_equiv, Hx. now destruct (Prim2B x) as [[]|[]| |[] m e E]. Qed.

Lemma V_sign_pos x : fin x = true -> 0 < V x -> Bsign (Prim2B x) = false.
Proof.
  unfold fin, V. destruct (Prim2B x) as [s|s| |s m e E]; cbn [is_finite B2R Bsign]; try discriminate; try (intros; lra).
  intros _ H. destruct s; [|reflexivity]. exfalso. apply (Rlt_not_le _ _ H), Rlt_le, F2R_lt_0. reflexivity.
Qed.

(** x + d for d >= 0 *)
Lemma add_up x d : fin x = true -> fin d = true -> Bsign (Prim2B d) = false ->
  (fin (x + d)%float = true /\ V (x + d)%float = rnd (V x + V d)) \/ Prim2B (x + d)%float = B754_infinity false.
Proof.
  intros Hx Hd Hp. unfold V, fin. rewrite add_equiv.
  pose proof (Bplus_correct prec emax Hprec Hmax mode_NE _ _ Hx Hd) as H.
  destruct (Rlt_bool _ _) in H.
  - left. destruct H as (H1 & H2 & _). auto.
  - right. destruct H as [H1 H2]. rewrite Hp in H2. rewrite H2 in H1.
    cbn in H1. destruct (Bplus mode_NE (Prim2B x) (Prim2B d)) as [s|s| |s m e E]; cbn in H1; try discriminate.
    congruence.
Qed.

Lemma min_pos d : generic_format radix2 fe d -> 0 < d -> bpow radix2 (-1074) <= d.
Proof.
  intros Fd Hd. apply (generic_format_FIX_FLT radix2 (-1074) 53) in Fd.
  apply FIX_format_generic in Fd. destruct Fd as [[m e] H1 H2]. cbn in H2. subst e. unfold F2R in H1. cbn [Fnum Fexp] in H1.
  pose proof (bpow_gt_0 radix2 (-1074)) as Q. rewrite H1 in Hd |- *.
  assert (H0 : 0 < IZR m) by (apply Rmult_lt_reg_r with (1 := Q); rewrite Rmult_0_l; exact Hd). apply lt_IZR in H0.
  assert (1 <= IZR m) by (apply IZR_le; lia). rewrite <- (Rmult_1_l (bpow radix2 (-1074))) at 1.
  apply Rmult_le_compat_r; lra.
Qed.

Lemma ulp_bound M d : 0 <= M -> generic_format radix2 fe d -> 0 < d -> M <= bpow radix2 52 * d -> ulp radix2 fe M <= d.
Proof.
  intros HM Fd Hd H. pose proof (min_pos d Fd Hd) as Hmin.
  destruct (Rle_lt_or_eq_dec 0 M HM) as [P|P].
  - unfold ulp. rewrite Req_bool_false by lra. unfold cexp, SpecFloat.fexp, SpecFloat.emin.
    destruct (mag radix2 M) as [k Hk]. cbn [mag_val]. specialize (Hk ltac:(lra)).
    rewrite (Rabs_pos_eq M) in Hk by lra. change (3 - emax - prec)%Z with (-1074)%Z. change prec with 53%Z.
    destruct (Z.max_spec (k - 53) (-1074)) as [[_ ->]|[_ ->]]; [exact Hmin|].
    assert (E : bpow radix2 (k - 1) = bpow radix2 52 * bpow radix2 (k - 53)) by (rewrite <- bpow_plus; f_equal; lia).
    pose proof (bpow_gt_0 radix2 52) as Q. apply Rmult_le_reg_l with (1 := Q). lra.
  - rewrite <- P. change fe with (FLT_exp (-1074) 53). rewrite ulp_FLT_0; [exact Hmin|reflexivity].
Qed.

Lemma add_moves M x d : fin x = true -> fin d = true -> 0 < V d -> Rabs (V x) <= M -> M <= bpow radix2 52 * V d ->
  (fin (x + d)%float = true /\ V x + bpow radix2 (-1074) <= V (x + d)%float) \/ Prim2B (x + d)%float = B754_infinity false.
Proof.
  intros Hx Hd Hp HM Hb. destruct (add_up x d Hx Hd (V_sign_pos d Hd Hp)) as [[Hf Hv]|H]; [left|right; exact H].
  split; [exact Hf|]. apply V_gap. rewrite Hv.
  apply Rlt_le_trans with (succ radix2 fe (V x)).
  - destruct (Req_dec (V x) 0) as [E|E].
    + rewrite E, succ_0. change fe with (FLT_exp (-1074) 53). rewrite ulp_FLT_0; [apply bpow_gt_0|reflexivity].
    + apply succ_gt_id, E.
  - apply round_ge_generic; [typeclasses eauto..|apply generic_format_succ; [typeclasses eauto|apply V_format]|].
    eapply Rle_trans; [apply succ_le_plus_ulp; typeclasses eauto|].
    apply Rplus_le_compat_l. apply Rle_trans with (ulp radix2 fe M).
    + apply ulp_le; [typeclasses eauto..|]. rewrite (Rabs_pos_eq M); [exact HM|].
      eapply Rle_trans; [apply Rabs_pos|exact HM].
    + apply ulp_bound; auto. eapply Rle_trans; [apply Rabs_pos|exact HM]. apply V_format.
Qed.

Section Grid.
  Context (fsin fcos fatan fasin facos fexp flog : PrimFloat.float -> PrimFloat.float).
  Local Notation F := (FN fsin fcos fatan fasin facos fexp flog).

  (** How many doubles there are up to M (an upper bound). *)
  Definition budget (M : R) : nat := Z.to_nat (up (2 * M * bpow radix2 1074) + 1).

  Lemma grid_F M d : fin d = true -> 0 < V d -> 0 <= M -> M <= bpow radix2 52 * V d ->
    forall f x xmax, (budget M <= f)%nat ->
    (fin x = true /\ - M <= V x) \/ Prim2B x = B754_infinity false \/ Prim2B x = B754_nan ->
    (fin xmax = true /\ V xmax <= M) \/ Prim2B xmax = B754_nan ->
    grid (N:=F) f x xmax d <> None.
  Proof.
    intros Hd Hp HM Hb.
    assert (G : forall f x xmax,
      (fin x = true /\ - M <= V x /\ M < V x + INR f * bpow radix2 (-1074)) \/ Prim2B x = B754_infinity false \/ Prim2B x = B754_nan ->
      (fin xmax = true /\ V xmax <= M) \/ Prim2B xmax = B754_nan ->
      grid (N:=F) f x xmax d <> None).
    { induction f as [|f IH]; intros x xmax Hx Hm; cbn [grid nle FN]; destruct (PrimFloat.leb x xmax) eqn:E; try discriminate.
      - exfalso. destruct Hm as [[Fm Vm]|Nm]; [|rewrite (leb_nan_r _ _ Nm) in E; discriminate].
        destruct Hx as [(Fx & Lx & Ux)|[Ix|Nx]].
        + pose proof (leb_fin _ _ Fx Fm E). cbn in Ux. lra.
        + rewrite (leb_inf _ _ Ix) in E; [discriminate|]. unfold fin in Fm. intros K; rewrite K in Fm; discriminate.
        + rewrite (leb_nan_l _ _ Nx) in E; discriminate.
      - destruct Hm as [[Fm Vm]|Nm]; [|rewrite (leb_nan_r _ _ Nm) in E; discriminate].
        destruct Hx as [(Fx & Lx & Ux)|[Ix|Nx]].
        + pose proof (leb_fin _ _ Fx Fm E) as L.
          assert (A : Rabs (V x) <= M) by (apply Rabs_le; lra).
          cbn [nadd FN].
          assert (K : grid (N:=F) f (x + d)%float xmax d <> None).
          { apply IH; [|left; auto]. destruct (add_moves M x d Fx Hd Hp A Hb) as [[Fn Vn]|In]; [left|right; left; exact In].
            rewrite S_INR in Ux. pose proof (bpow_gt_0 radix2 (-1074)).
            repeat split; [exact Fn|lra|lra]. }
          revert K. match goal with |- ?g <> None -> _ => destruct g end; intros K; [discriminate|exfalso; apply K; reflexivity].
        + rewrite (leb_inf _ _ Ix) in E; [discriminate|]. unfold fin in Fm. intros K; rewrite K in Fm; discriminate.
        + rewrite (leb_nan_l _ _ Nx) in E; discriminate. }
    intros f x xmax Hf Hx Hm. apply G; [|exact Hm].
    destruct Hx as [[Fx Lx]|Hx]; [left|right; exact Hx]. repeat split; auto.
    assert (B : 2 * M < INR f * bpow radix2 (-1074)); [|lra].
    pose proof (bpow_gt_0 radix2 (-1074)) as Q. pose proof (bpow_gt_0 radix2 1074) as Q'.
    apply Rmult_lt_reg_r with (bpow radix2 1074); [exact Q'|].
    replace (INR f * bpow radix2 (-1074) * bpow radix2 1074) with (INR f)
      by (rewrite Rmult_assoc, <- bpow_plus; change (bpow radix2 (-1074 + 1074)) with 1; ring).
    apply Rlt_le_trans with (INR (budget M)); [|apply le_INR; exact Hf].
    unfold budget. destruct (archimed (2 * M * bpow radix2 1074)) as [U _].
    assert (0 <= 2 * M * bpow radix2 1074) by nra.
    assert (0 < up (2 * M * bpow radix2 1074))%Z by (apply lt_IZR; lra).
    rewrite INR_IZR_INZ, Z2Nat.id by lia. rewrite plus_IZR. lra.
  Qed.

  Lemma V_two : V 2%float = 2.
  Proof. unfold V, Prim2B. rewrite B2R_SF2B. unfold SF2R. cbn. unfold F2R; cbn. lra. Qed.

  (** a / 2 *)
  Lemma half_F a : fin a = true -> fin (a / 2)%float = true /\ V (a / 2)%float = rnd (V a / 2) /\
    Bsign (Prim2B (a / 2)%float) = Bsign (Prim2B a).
  Proof.
    intros Ha. unfold fin, V. rewrite div_equiv.
    pose proof (Bdiv_correct prec emax Hprec Hmax mode_NE (Prim2B a) (Prim2B 2%float)) as H.
    change (B2R (Prim2B 2)) with (V 2%float) in H. rewrite V_two in H. specialize (H ltac:(lra)).
    assert (L : Rabs (rnd (V a / 2)) < bpow radix2 emax).
    { apply Rle_lt_trans with (Rabs (V a)); [|apply abs_B2R_lt_emax].
      apply abs_round_le_generic; [typeclasses eauto..|apply generic_format_abs, V_format|].
      unfold Rdiv. rewrite Rabs_mult, (Rabs_pos_eq (/ 2)) by lra. pose proof (Rabs_pos (V a)). lra. }
    change (round_mode mode_NE) with ZnearestE in H. change (B2R (Prim2B a)) with (V a) in H.
    rewrite (Rlt_bool_true _ _ L) in H. destruct H as (H1 & H2 & H3). unfold fin in Ha.
    rewrite Ha in H2. rewrite H2. repeat split; [exact H1|].
    rewrite H3 by (destruct (Bdiv mode_NE (Prim2B a) (Prim2B 2)); [reflexivity|reflexivity|discriminate|reflexivity]).
    replace (Bsign (Prim2B 2%float)) with false by (vm_compute; reflexivity). apply xorb_false_r.
  Qed.

  Lemma V_opp x : V (- x)%float = - V x.
  Proof. unfold V. rewrite opp_equiv. apply B2R_Bopp. Qed.
  Lemma fin_opp x : fin (- x)%float = fin x.
  Proof. unfold fin. rewrite opp_equiv. apply is_finite_Bopp. Qed.

  Lemma row_F M d h nh : fin d = true -> 0 < V d -> 0 <= M -> M <= bpow radix2 52 * V d ->
    ((fin h = true /\ V h <= M /\ fin nh = true /\ - M <= V nh /\ generic_format radix2 fe M) \/ Prim2B h = B754_nan) ->
    forall f, (budget M <= f)%nat -> grid (N:=F) f (nh + d / 2)%float h d <> None.
  Proof.
    intros Hd Hp HM Hb Hh f Hf.
    destruct Hh as [(Fh & Vh & Fn & Vn & FM)|Nh].
    - apply (grid_F M); auto.
      destruct (half_F d Hd) as (F2 & V2 & S2). rewrite (V_sign_pos d Hd Hp) in S2.
      destruct (add_up nh (d / 2)%float Fn F2 S2) as [[A1 A2]|A]; [left|right; left; exact A].
      split; [exact A1|]. rewrite A2. apply round_ge_generic; [typeclasses eauto..|apply generic_format_opp, FM|].
      assert (0 <= V (d / 2)%float).
      { rewrite V2. apply round_ge_generic; [typeclasses eauto..|apply generic_format_0|lra]. }
      lra.
    - destruct f; cbn [grid nle FN]; rewrite (leb_nan_r _ _ Nh); discriminate.
  Qed.

  Lemma two_F : f_ofZ 2 = 2%float.
  Proof. reflexivity. Qed.

  (** Rows of rectangles, lines and cylinders. *)
  Lemma straight_F a d : fin a = true -> fin d = true -> 0 < V d -> Rabs (V (a / 2)%float) <= bpow radix2 52 * V d ->
    forall f, (budget (Rabs (V (a / 2)%float)) <= f)%nat ->
    grid (N:=F) f ((- a) / 2 + d / 2)%float (a / 2)%float d <> None.
  Proof.
    intros Ha Hd Hp Hb. apply row_F; auto; [apply Rabs_pos|]. left.
    destruct (half_F a Ha) as (F1 & V1 & _).
    assert (Hna : fin (- a)%float = true) by (rewrite fin_opp; exact Ha).
    destruct (half_F (- a)%float Hna) as (F2 & V2 & _).
    assert (E : V (- a / 2)%float = - V (a / 2)%float).
    { rewrite V2, V1, V_opp. replace (- V a / 2) with (- (V a / 2)) by field. apply round_NE_opp. }
    repeat split; auto.
    - apply Rle_abs.
    - rewrite E. pose proof (Rle_abs (V (a / 2)%float)). lra.
    - apply generic_format_abs, V_format.
  Qed.

  (** The rows of a disc, and the outer loop over them. *)
  Lemma outer_F R d : fin R = true -> fin d = true -> 0 < V d -> Rabs (V R) <= bpow radix2 52 * V d ->
    forall f, (budget (Rabs (V R)) <= f)%nat -> grid (N:=F) f ((- R) + d / 2)%float R d <> None.
  Proof.
    intros Ha Hd Hp Hb. apply row_F; auto; [apply Rabs_pos|]. left.
    repeat split; auto; [apply Rle_abs|rewrite fin_opp; exact Ha| |apply generic_format_abs, V_format].
    rewrite V_opp. pose proof (Rle_abs (V R)). lra.
  Qed.

  Lemma square_sign x : is_nan (Prim2B (x * x)%float) = false -> Bsign (Prim2B (x * x)%float) = false.
  Proof.
    rewrite mul_equiv. pose proof (Bmult_correct prec emax Hprec Hmax mode_NE (Prim2B x) (Prim2B x)) as H.
    destruct (Rlt_bool _ _) in H.
    - intros Hn. destruct H as (_ & _ & H). rewrite (H Hn). apply xorb_nilpotent.
    - rewrite xorb_nilpotent in H. cbn in H.
      destruct (Bmult mode_NE (Prim2B x) (Prim2B x)) as [s|s| |s m e E]; cbn in H; try discriminate. intros _; cbn. congruence.
  Qed.

  Lemma fin_V_mult x y : fin (x * y)%float = true -> V (x * y)%float = rnd (V x * V y).
  Proof.
    unfold fin, V. rewrite mul_equiv. pose proof (Bmult_correct prec emax Hprec Hmax mode_NE (Prim2B x) (Prim2B y)) as H.
    destruct (Rlt_bool _ _) in H; [intros _; apply H|].
    intros Hf. destruct (Bmult mode_NE (Prim2B x) (Prim2B y)); cbn in *; try discriminate; destruct (xorb _ _) in H; discriminate.
  Qed.

  (** R*R, sqrt: at most 2|R|. *)
  Lemma sqrt_square_bound r : generic_format radix2 fe r -> Rabs (2 * r) < bpow radix2 emax ->
    forall u, 0 <= u -> u <= rnd (r * r) -> rnd (sqrt u) <= Rabs (2 * r).
  Proof.
    intros Fr Hr u Hu0 Hu.
    destruct (Req_dec r 0) as [->|Hr0].
    { rewrite Rmult_0_l, round_0 in Hu by typeclasses eauto. replace u with 0 by lra. rewrite sqrt_0, round_0, Rmult_0_r, Rabs_R0 by typeclasses eauto. lra. }
    destruct (mag radix2 r) as [e He]. specialize (He Hr0).
    assert (Sq : Rabs (r * r) < bpow radix2 (2 * e)).
    { rewrite Rabs_mult. replace (2 * e)%Z with (e + e)%Z by lia. rewrite bpow_plus.
      pose proof (Rabs_pos r). apply Rmult_le_0_lt_compat; lra. }
    assert (B2 : bpow radix2 e <= Rabs (2 * r)).
    { rewrite Rabs_mult, (Rabs_pos_eq 2) by lra. replace (bpow radix2 e) with (2 * bpow radix2 (e - 1)).
      - lra.
      - replace e with (1 + (e - 1))%Z at 2 by lia. rewrite bpow_plus. reflexivity. }
    destruct (Z_lt_le_dec (2 * e) (-1074)) as [Hs|Hs].
    - assert (Z0 : rnd (r * r) = 0).
      { destruct (mag radix2 (r * r)) as [k Hk]. assert (Hrr : r * r <> 0) by nra. specialize (Hk Hrr).
        apply round_N_small with (ex := k); [exact Hk|].
        assert (k - 1 < 2 * e)%Z by (apply (lt_bpow radix2); lra).
        unfold SpecFloat.fexp, SpecFloat.emin. change (3 - emax - prec)%Z with (-1074)%Z. lia. }
      replace u with 0 by lra. rewrite sqrt_0, round_0 by typeclasses eauto. apply Rabs_pos.
    - assert (U : u <= bpow radix2 (2 * e)).
      { eapply Rle_trans; [exact Hu|]. apply round_le_generic; [typeclasses eauto..| |].
        - apply generic_format_bpow. unfold SpecFloat.fexp, SpecFloat.emin. change (3 - emax - prec)%Z with (-1074)%Z. change prec with 53%Z. lia.
        - eapply Rle_trans; [apply Rle_abs|lra]. }
      eapply Rle_trans; [|exact B2]. apply round_le_generic; [typeclasses eauto..| |].
      + apply generic_format_bpow. unfold SpecFloat.fexp, SpecFloat.emin. change (3 - emax - prec)%Z with (-1074)%Z. change prec with 53%Z. lia.
      + replace (bpow radix2 e) with (sqrt (bpow radix2 (2 * e))); [apply sqrt_le_1_alt, U|].
        replace (2 * e)%Z with (e + e)%Z by lia. rewrite bpow_plus. apply sqrt_square, bpow_ge_0.
  Qed.

  Lemma disc_half R y : fin (R * R)%float = true -> Rabs (2 * V R) < bpow radix2 emax ->
    let s := PrimFloat.sqrt (R * R - y * y)%float in
    Prim2B s = B754_nan \/ (fin s = true /\ 0 <= V s <= Rabs (2 * V R)).
  Proof.
    intros HR H2 s. set (u := (R * R - y * y)%float). fold u in s.
    unfold s. unfold fin, V at 1 2. rewrite sqrt_equiv.
      assert (HU : Prim2B u = B754_nan \/ (exists e, Prim2B u = B754_infinity e /\ e = true) \/ (fin u = true /\ V u <= rnd (V R * V R))).
      { unfold u. destruct (Prim2B (y * y)%float) as [sy|sy| |sy my ey Ey] eqn:EY.
        - right; right. unfold fin, V at 1. rewrite sub_equiv.
          assert (Fy : fin (y * y)%float = true) by (unfold fin; rewrite EY; reflexivity).
          pose proof (Bminus_correct prec emax Hprec Hmax mode_NE _ _ HR Fy) as H.
          assert (Vy : V (y * y)%float = 0) by (unfold V; rewrite EY; reflexivity).
          change (B2R (Prim2B (y * y)%float)) with (V (y * y)%float) in H. rewrite Vy in H.
          change (B2R (Prim2B (R * R)%float)) with (V (R * R)%float) in H.
          rewrite Rminus_0_r in H. rewrite (round_generic _ _ _ _ (V_format _)) in H.
          rewrite (Rlt_bool_true (Rabs (V (R * R)%float))) in H by apply abs_B2R_lt_emax.
          destruct H as (H1 & H3 & _). split; [exact H3|]. rewrite H1, <- (fin_V_mult R R HR). lra.
        - right; left. exists true. split; [|reflexivity].
          assert (Sy : sy = false) by (pose proof (square_sign y) as Q; rewrite EY in Q; exact (Q eq_refl)). subst sy.
          rewrite sub_equiv, EY. unfold fin in HR. destruct (Prim2B (R * R)%float); try discriminate; reflexivity.
        - left. rewrite sub_equiv, EY. destruct (Prim2B (R * R)%float); reflexivity.
        - right; right. unfold fin, V at 1. rewrite sub_equiv.
          assert (Fy : fin (y * y)%float = true) by (unfold fin; rewrite EY; reflexivity).
          assert (Sy : Bsign (Prim2B (y * y)%float) = false) by (apply square_sign; rewrite EY; reflexivity).
          assert (Sr : Bsign (Prim2B (R * R)%float) = false).
          { apply square_sign. unfold fin in HR. destruct (Prim2B (R * R)%float); try discriminate; reflexivity. }
          pose proof (Bminus_correct prec emax Hprec Hmax mode_NE _ _ HR Fy) as H.
          destruct (Rlt_bool _ _) in H.
          + destruct H as (H1 & H3 & _). split; [exact H3|]. rewrite H1, <- (fin_V_mult R R HR).
            apply round_le_generic; [typeclasses eauto..|apply V_format|].
            assert (0 <= V (y * y)%float); [|unfold V in *; lra].
            unfold V. rewrite EY in *. cbn in Sy. subst sy. cbn [B2R]. apply F2R_ge_0. cbn. lia.
          + destruct H as [_ H]. rewrite Sy, Sr in H. discriminate. }
      destruct HU as [HU|[(e & HU & ->)|[Fu Vu]]].
      - left. rewrite HU. reflexivity.
      - left. rewrite HU. reflexivity.
      - assert (Q : Prim2B u = Prim2B u) by reflexivity. revert Q. unfold fin, V in Fu, Vu.
        pose proof (Bsqrt_correct prec emax Hprec Hmax mode_NE (Prim2B u)) as (S1 & S2 & _).
        destruct (Prim2B u) as [su|su| |su mu eu Eu] eqn:EU; try discriminate; intros _.
        + right. split; [reflexivity|]. cbn. split; [lra|apply Rabs_pos].
        + destruct su; [left; reflexivity|]. right. split; [exact S2|]. rewrite S1.
          assert (P : 0 <= B2R (B754_finite false mu eu Eu : binary_float prec emax)) by (apply F2R_ge_0; cbn; lia).
          split.
          * apply round_ge_generic; [typeclasses eauto..|apply generic_format_0|apply sqrt_pos].
          * apply sqrt_square_bound; auto. apply V_format.
  Qed.

  Lemma disc_row_F R d : fin (R * R)%float = true -> Rabs (2 * V R) < bpow radix2 emax -> fin d = true -> 0 < V d -> Rabs (2 * V R) <= bpow radix2 52 * V d ->
    forall f y, (budget (Rabs (2 * V R)) <= f)%nat ->
    let s := PrimFloat.sqrt (R * R - y * y)%float in grid (N:=F) f ((- s) + d / 2)%float s d <> None.
  Proof.
    intros HR H2 Hd Hp Hb f y Hf s.
    assert (F2R : generic_format radix2 fe (Rabs (2 * V R))).
    { apply generic_format_abs. rewrite Rmult_comm. change 2 with (bpow radix2 1). apply (mult_bpow_pos_exact_FLT radix2 (-1074) 53); [apply V_format|lia]. }
    apply (row_F (Rabs (2 * V R))); auto; [apply Rabs_pos|].
    pose proof (disc_half R y HR H2) as Cases. fold s in Cases. cbv zeta in Cases.
    destruct Cases as [C|[C1 C2]]; [right; exact C|left].
    repeat split; auto; [lra|rewrite fin_opp; exact C1|rewrite V_opp; lra].
  Qed.
End Grid.
