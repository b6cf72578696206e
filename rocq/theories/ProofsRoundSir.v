(** ProofsRoundSir.v - rounding errors of distances, arrival times and
    amplitudes, and the responses of flat transducers in doubles. *)
From Coq Require Import Floats Uint63.
From Coq Require Import Reals Lra Lia ZArith List Bool.
From Flocq Require Import Core Plus_error Relative BinarySingleNaN PrimFloat.
From Verif Require Import Base BaseLemmas NumF NumR ProofsTermF SpecRound ProofsRound ProofsRel.
Import ListNotations.
Open Scope R_scope.

#[local] Instance fe_valid : Valid_exp fe := fexp_correct prec emax Hprec.
#[local] Instance p53 : Prec_gt_0 53 := eq_refl.

(** ** The distance *)
Lemma w_inv : 1 + u <= / w.
Proof. pose proof u_small. pose proof w_pos. apply Rmult_le_reg_l with w; [lra|]. rewrite Rinv_r by lra. nra. Qed.
Lemma add_pos x y : fin x = true -> fin y = true -> 0 <= V x -> 0 <= V y -> V x + V y <= bpow radix2 1000 ->
  fin (x + y)%float = true /\ (V x + V y) * w <= V (x + y)%float <= (V x + V y) / w.
Proof.
  intros Fx Fy Px Py Hb. pose proof u_small. pose proof w_inv.
  destruct (add_std x y Fx Fy) as (F & E).
  { rewrite Rabs_pos_eq by lra. apply Rle_trans with (1 := Hb). apply bpow_le. lia. }
  split; [exact F|]. rewrite (Rabs_pos_eq (V x + V y)) in E by lra. apply Rabs_le_inv in E. split; [lra|].
  unfold Rdiv. nra.
Qed.

(** x stands for X up to one relative error; no sign. *)
Definition near1 (x : PrimFloat.float) (X : R) : Prop := fin x = true /\ Rabs X * w <= Rabs (V x) <= Rabs X / w.
Lemma near1_exact x : fin x = true -> near1 x (V x).
Proof.
  intros F. split; [exact F|]. pose proof (Rabs_pos (V x)). pose proof u_small. pose proof w_inv. unfold Rdiv. nra.
Qed.
Lemma near1_sub x y : fin x = true -> fin y = true -> Rabs (V x - V y) <= bpow radix2 1000 -> near1 (x - y)%float (V x - V y).
Proof.
  intros Fx Fy Hb. pose proof u_small. pose proof w_inv.
  destruct (sub_std x y Fx Fy) as (F & E). { apply Rle_trans with (1 := Hb). apply bpow_le. lia. }
  split; [exact F|]. set (D := V x - V y) in *. pose proof (Rabs_pos D).
  pose proof (Rabs_triang_inv D (V (x - y)%float)) as T1. pose proof (Rabs_triang_inv (V (x - y)%float) D) as T2.
  rewrite (Rabs_minus_sym D) in T1. unfold Rdiv. split; nra.
Qed.

Lemma sq_std x X : near1 x X -> Rabs X <= bpow radix2 120 ->
  fin (x * x)%float = true /\ 0 <= V (x * x)%float /\ X ^ 2 * w ^ 3 - eta <= V (x * x)%float <= X ^ 2 / w ^ 3 + eta.
Proof.
  intros (F & L & U) Hb. pose proof (Rabs_pos X) as PX. pose proof u_small as Hu. pose proof w_pos as Hw. pose proof w_inv as Hi.
  assert (Iw : 0 < / w) by (apply Rinv_0_lt_compat; lra).
  assert (Hx : Rabs (V x) <= bpow radix2 121).
  { apply Rle_trans with (1 := U). change 121%Z with (120 + 1)%Z. rewrite bpow_plus. unfold Rdiv. apply Rmult_le_compat; try lra.
    change (bpow radix2 1) with 2. apply Rmult_le_reg_l with w; [lra|]. rewrite Rinv_r by lra. lra. }
  assert (Sq : V x * V x = Rabs (V x) * Rabs (V x)) by (rewrite <- Rabs_mult, Rabs_pos_eq; [reflexivity|apply Rle_0_sqr]).
  assert (SX : X ^ 2 = Rabs X * Rabs X) by (rewrite <- Rabs_mult, Rabs_pos_eq; [ring|apply Rle_0_sqr]).
  pose proof (Rabs_pos (V x)) as Px.
  assert (Hb2 : Rabs (V x * V x) <= bpow radix2 242).
  { rewrite Rabs_mult. change 242%Z with (121 + 121)%Z. rewrite bpow_plus. apply Rmult_le_compat; lra. }
  destruct (fin_mul x x F F) as (F2 & E2). { apply rnd_nover. apply Rle_trans with (1 := Hb2). apply bpow_le. lia. }
  split; [exact F2|]. split.
  { rewrite E2. apply round_ge_generic; [typeclasses eauto..|apply generic_format_0|]. rewrite Sq. apply Rmult_le_pos; lra. }
  destruct (mul_std x x F F) as (_ & E). { apply Rle_trans with (1 := Hb2). apply bpow_le. lia. }
  rewrite (Rabs_pos_eq (V x * V x)) in E by (rewrite Sq; apply Rmult_le_pos; lra). apply Rabs_le_inv in E.
  assert (L2 : Rabs X * Rabs X * (w * w) <= V x * V x).
  { rewrite Sq. replace (Rabs X * Rabs X * (w * w)) with ((Rabs X * w) * (Rabs X * w)) by ring. apply Rmult_le_compat; try lra; apply Rmult_le_pos; lra. }
  assert (U2 : V x * V x <= Rabs X * Rabs X * (/ w * / w)).
  { rewrite Sq. replace (Rabs X * Rabs X * (/ w * / w)) with ((Rabs X * / w) * (Rabs X * / w)) by ring. apply Rmult_le_compat; lra. }
  rewrite SX. pose proof (bpow_gt_0 radix2 (-1075)) as He.
  replace (Rabs X * Rabs X / w ^ 3) with (Rabs X * Rabs X * (/ w * / w) * / w) by (field; lra).
  assert (P2 : 0 <= V x * V x) by (rewrite Sq; apply Rmult_le_pos; lra).
  split.
  - replace (Rabs X * Rabs X * w ^ 3) with (Rabs X * Rabs X * (w * w) * w) by ring. nra.
  - assert (V x * V x * (1 + u) <= Rabs X * Rabs X * (/ w * / w) * / w) by (apply Rmult_le_compat; lra). lra.
Qed.

Lemma eta_le c : (-1000 <= c)%Z -> 8 * eta <= u * bpow radix2 c.
Proof.
  intros H. rewrite <- bpow_plus. change 8 with (bpow radix2 3). rewrite <- bpow_plus. apply bpow_le. lia.
Qed.

Lemma scale3 S p q r pq t e : 0 < S -> 0 <= p -> 0 <= q -> 0 <= r -> (p + q) * w <= pq -> pq <= (p + q) / w ->
  (pq + r) * w <= t -> t <= (pq + r) / w -> S * w ^ 3 - 3 * e <= p + q + r -> p + q + r <= S / w ^ 3 + 3 * e ->
  3 * e <= u * S * w ^ 3 -> S * w ^ 6 <= t <= S / w ^ 6.
Proof.
  intros PS Pp Pq Pr L4 U4 L5 U5 TL TU He. pose proof u_small as Hu. pose proof w_pos as Hw. pose proof w_inv as Hi. pose proof (w_pow 3) as W3.
  assert (I3p : 0 < / w ^ 3) by (apply Rinv_0_lt_compat; lra). assert (Iwp : 0 < / w) by (apply Rinv_0_lt_compat; lra).
  split.
  - apply Rle_trans with ((p + q + r) * w * w).
    + replace (S * w ^ 6) with (S * w ^ 3 * (1 - u) * w * w) by ring. assert (S * w ^ 3 * (1 - u) <= p + q + r) by lra.
      apply Rmult_le_compat_r; [lra|]. apply Rmult_le_compat_r; lra.
    + apply Rle_trans with (2 := L5). apply Rmult_le_compat_r; [lra|]. rewrite Rmult_plus_distr_r.
      assert (r * w <= r * 1) by (apply Rmult_le_compat_l; lra). lra.
  - apply Rle_trans with (1 := U5). apply Rle_trans with ((p + q + r) * / w * / w).
    + unfold Rdiv. apply Rmult_le_compat_r; [lra|]. rewrite Rmult_plus_distr_r. unfold Rdiv in U4.
      assert (r * 1 <= r * / w) by (apply Rmult_le_compat_l; lra). lra.
    + replace (S / w ^ 6) with (S / w ^ 3 * / w * / w * / w) by (field; lra).
      apply Rmult_le_compat_r; [lra|]. apply Rmult_le_compat_r; [lra|]. apply Rle_trans with (1 := TU).
      assert (u * S * w ^ 3 <= u * (S / w ^ 3)).
      { rewrite Rmult_assoc. apply Rmult_le_compat_l; [lra|]. unfold Rdiv. apply Rmult_le_compat_l; [lra|].
        apply Rle_trans with 1; [lra|]. apply Rmult_le_reg_l with (w ^ 3); [lra|]. rewrite Rinv_r by lra. lra. }
      assert (H0 : 0 < S / w ^ 3) by (apply Rmult_lt_0_compat; lra).
      apply Rle_trans with (S / w ^ 3 * (1 + u)); [lra|]. apply Rmult_le_compat_l; lra.
Qed.

Lemma sum3_rel x y z X Y Z : near1 x X -> near1 y Y -> near1 z Z ->
  Rabs X <= bpow radix2 104 -> Rabs Y <= bpow radix2 104 -> Rabs Z <= bpow radix2 104 ->
  bpow radix2 (-200) <= X ^ 2 + Y ^ 2 + Z ^ 2 ->
  rel 6 (-200) 210 (x * x + y * y + z * z)%float (X ^ 2 + Y ^ 2 + Z ^ 2).
Proof.
  intros Hx Hy Hz Bx By Bz HS. pose proof u_small as Hu. pose proof w_pos as Hw. pose proof w_inv as Hi.
  assert (B120 : bpow radix2 104 <= bpow radix2 120) by (apply bpow_le; lia).
  destruct (sq_std x X Hx ltac:(lra)) as (F1 & P1 & L1 & U1). destruct (sq_std y Y Hy ltac:(lra)) as (F2 & P2 & L2 & U2).
  destruct (sq_std z Z Hz ltac:(lra)) as (F3 & P3 & L3 & U3).
  assert (SQ : forall t, Rabs t <= bpow radix2 104 -> 0 <= t ^ 2 <= bpow radix2 208).
  { intros t Ht. pose proof (Rabs_pos t). assert (E : t ^ 2 = Rabs t * Rabs t) by (rewrite <- Rabs_mult, Rabs_pos_eq; [ring|apply Rle_0_sqr]).
    rewrite E. change 208%Z with (104 + 104)%Z. rewrite bpow_plus. split; [apply Rmult_le_pos; lra|apply Rmult_le_compat; lra]. }
  pose proof (SQ X Bx) as SX. pose proof (SQ Y By) as SY. pose proof (SQ Z Bz) as SZ.
  assert (E210 : bpow radix2 210 = 4 * bpow radix2 208) by (change 210%Z with (2 + 208)%Z; rewrite bpow_plus; reflexivity).
  pose proof (w_pow 3) as W3. pose proof (w_pow_half 3 (hundred 3 ltac:(lia))) as Wh.
  assert (I3 : / w ^ 3 <= 2) by (apply Rmult_le_reg_l with (w ^ 3); [lra|]; rewrite Rinv_r by lra; lra).
  assert (I3p : 0 < / w ^ 3) by (apply Rinv_0_lt_compat; lra).
  pose proof (bpow_gt_0 radix2 (-1075)) as He. pose proof (bpow_gt_0 radix2 208) as H208.
  assert (He2 : eta <= bpow radix2 208) by (apply bpow_le; lia).
  assert (B1000 : 16 * bpow radix2 208 <= bpow radix2 1000).
  { change 16 with (bpow radix2 4). rewrite <- bpow_plus. apply bpow_le. lia. }
  assert (Q1 : V (x * x)%float <= 3 * bpow radix2 208) by (unfold Rdiv in U1; nra).
  assert (Q2 : V (y * y)%float <= 3 * bpow radix2 208) by (unfold Rdiv in U2; nra).
  assert (Q3 : V (z * z)%float <= 3 * bpow radix2 208) by (unfold Rdiv in U3; nra).
  destruct (add_pos (x * x)%float (y * y)%float F1 F2 P1 P2 ltac:(lra)) as (F4 & L4 & U4).
  assert (Iw : / w <= 2) by (apply Rmult_le_reg_l with w; [lra|]; rewrite Rinv_r by lra; lra).
  assert (P4 : 0 <= V (x * x + y * y)%float) by (eapply Rle_trans; [|exact L4]; apply Rmult_le_pos; lra).
  assert (Q4 : V (x * x + y * y)%float <= 12 * bpow radix2 208) by (unfold Rdiv in U4; nra).
  destruct (add_pos (x * x + y * y)%float (z * z)%float F4 F3 P4 P3 ltac:(lra)) as (F5 & L5 & U5).
  pose proof (eta_le (-200) ltac:(lia)) as He8.
  assert (He3 : 3 * eta <= u * (X ^ 2 + Y ^ 2 + Z ^ 2) * w ^ 3).
  { assert (u * bpow radix2 (-200) <= u * (X ^ 2 + Y ^ 2 + Z ^ 2)) by (apply Rmult_le_compat_l; lra).
    assert (u * (X ^ 2 + Y ^ 2 + Z ^ 2) * / 2 <= u * (X ^ 2 + Y ^ 2 + Z ^ 2) * w ^ 3); [|lra].
    apply Rmult_le_compat_l; [|lra]. apply Rmult_le_pos; lra. }
  split; [exact F5|]. split; [split; [exact HS|lra]|].
  apply (scale3 _ (V (x * x)%float) (V (y * y)%float) (V (z * z)%float) (V (x * x + y * y)%float) _ eta); auto; try lra.
  - apply Rlt_le_trans with (2 := HS). apply bpow_gt_0.
Qed.
Lemma dist_rel x y z X Y Z : near1 x X -> near1 y Y -> near1 z Z ->
  Rabs X <= bpow radix2 104 -> Rabs Y <= bpow radix2 104 -> Rabs Z <= bpow radix2 104 ->
  bpow radix2 (-100) <= sqrt (X ^ 2 + Y ^ 2 + Z ^ 2) ->
  rel 4 (-100) 105 (PrimFloat.sqrt (x * x + y * y + z * z)%float) (sqrt (X ^ 2 + Y ^ 2 + Z ^ 2)).
Proof.
  intros Hx Hy Hz Bx By Bz HS.
  assert (P : 0 <= X ^ 2 + Y ^ 2 + Z ^ 2) by (pose proof (pow2_ge_0 X); pose proof (pow2_ge_0 Y); pose proof (pow2_ge_0 Z); lra).
  apply (sqrt_rel 3 (-100) 105); [|lia|lia|lia]. apply sum3_rel; auto.
  change (-200)%Z with (-100 + -100)%Z. rewrite bpow_plus, <- (sqrt_sqrt _ P).
  apply Rmult_le_compat; auto; apply bpow_ge_0.
Qed.

(** ** Rounding to the nearest sample *)
Lemma rint_me_near (m e z : Z) : (0 <= m)%Z -> Rabs (IZR m * bpow radix2 e - IZR z) < / 2 -> rint_me m e = z.
Proof.
  intros Hm H. unfold rint_me. destruct (0 <=? e)%Z eqn:E.
  - apply Z.leb_le in E. rewrite <- IZR_Zpower in H by exact E. rewrite <- mult_IZR, <- minus_IZR in H.
    apply Rabs_def2 in H. change (Z.pow radix2 e) with (2 ^ e)%Z in H. destruct H as [H1 H2].
    assert (m * 2 ^ e - z < 1)%Z by (apply lt_IZR; lra). assert (-1 < m * 2 ^ e - z)%Z by (apply lt_IZR; lra). lia.
  - apply Z.leb_gt in E. set (d := (2 ^ (- e))%Z). assert (Hd : (0 < d)%Z) by (apply Z.pow_pos_nonneg; lia).
    assert (Eb : bpow radix2 e = / IZR d).
    { replace e with (- - e)%Z by lia. rewrite bpow_opp. f_equal. rewrite <- IZR_Zpower by lia. reflexivity. }
    rewrite Eb in H. assert (Hd' : 0 < IZR d) by (apply IZR_lt; exact Hd).
    assert (H' : Rabs (IZR m - IZR z * IZR d) < / 2 * IZR d).
    { replace (IZR m - IZR z * IZR d) with ((IZR m * / IZR d - IZR z) * IZR d) by (field; lra).
      rewrite Rabs_mult, (Rabs_pos_eq (IZR d)) by lra. apply Rmult_lt_compat_r; lra. }
    apply Rabs_def2 in H'. destruct H' as [H1 H2]. rewrite <- mult_IZR, <- minus_IZR in H1, H2.
    assert (K1 : (2 * (m - z * d) < d)%Z). { apply lt_IZR. rewrite mult_IZR. lra. }
    assert (K2 : (- d < 2 * (m - z * d))%Z). { apply lt_IZR. rewrite mult_IZR, opp_IZR. lra. }
    pose proof (Z.div_mod m d ltac:(lia)) as DM. pose proof (Z.mod_pos_bound m d Hd) as MB.
    set (q := (m / d)%Z) in *. set (r := (m mod d)%Z) in *.
    assert (C : q = z \/ (q = z - 1)%Z). { nia. }
    destruct (2 * r <? d)%Z eqn:E1; [apply Z.ltb_lt in E1; nia|apply Z.ltb_ge in E1].
    destruct (d <? 2 * r)%Z eqn:E2; [apply Z.ltb_lt in E2; nia|apply Z.ltb_ge in E2]. nia.
Qed.
Lemma f_rint_near x z : fin x = true -> Rabs (V x - IZR z) < / 2 -> f_rint x = Some z.
Proof.
  intros F H. unfold f_rint. unfold fin, V, Prim2B in *. rewrite is_finite_SF2B in F. rewrite B2R_SF2B in H.
  destruct (Prim2SF x) as [s|s| |s m e]; try discriminate F.
  - unfold SF2R in H. rewrite Rminus_0_l, Rabs_Ropp in H. apply Rabs_def2 in H. f_equal.
    assert (z < 1)%Z by (apply lt_IZR; lra). assert (-1 < z)%Z by (apply lt_IZR; lra). lia.
  - f_equal. unfold SF2R, F2R in H. cbn [Fnum Fexp] in H. destruct s; unfold cond_Zopp in H; cbv iota in H.
    + rewrite <- (Z.opp_involutive z). f_equal. apply rint_me_near; [lia|]. rewrite opp_IZR in *.
      replace (IZR (Zpos m) * bpow radix2 e - - IZR z) with (- (- IZR (Zpos m) * bpow radix2 e - IZR z)) by ring. now rewrite Rabs_Ropp.
    + apply rint_me_near; [lia|exact H].
Qed.

(** (t - delay) / dt *)
Lemma arg_std t T d h : rel 6 (-191) 215 t T -> fin d = true -> Rabs (V d) <= bpow radix2 100 -> fin h = true ->
  bpow radix2 (-100) <= V h <= bpow radix2 100 ->
  fin ((t - d) / h)%float = true /\
  Rabs (V ((t - d) / h)%float - (T - V d) / V h) <= 12 * u * ((T + Rabs (V d)) / V h).
Proof.
  intros Ht Fd Bd Fh Bh. pose proof u_small as Hu. destruct (rel_pos _ _ _ _ _ Ht) as [PT Pt].
  destruct Ht as (Ft & BT & L & U). pose proof (Rabs_pos (V d)) as Pd.
  pose proof (bpow_gt_0 radix2 (-100)) as P100. assert (Ph : 0 < V h) by lra. assert (Ih : 0 < / V h) by (apply Rinv_0_lt_compat; exact Ph).
  pose proof (w_pow 6) as W6. pose proof (w_pow_lin 6) as WL. pose proof (inv_lin 6 (hundred 6 ltac:(lia))) as WU.
  replace (INR 6) with 6 in WL, WU by (rewrite INR_IZR_INZ; reflexivity).
  (* sharper: 1/w^6 <= 1 + 7u *)
  assert (WU' : / w ^ 6 <= 1 + 7 * u).
  { apply Rmult_le_reg_l with (w ^ 6); [lra|]. rewrite Rinv_r by lra. nra. }
  assert (Et : Rabs (V t - T) <= 7 * u * T).
  { apply Rabs_le. unfold Rdiv in U. split; nra. }
  set (D := V d) in *.
  assert (Bt : V t <= 2 * bpow radix2 215) by (unfold Rdiv in U; nra).
  assert (B215 : bpow radix2 100 <= bpow radix2 215) by (apply bpow_le; lia).
  assert (Bs : Rabs (V t - D) <= 3 * bpow radix2 215).
  { eapply Rle_trans; [apply Rabs_triang|]. rewrite Rabs_Ropp, (Rabs_pos_eq (V t)) by lra. fold D. lra. }
  destruct (sub_std t d Ft Fd) as (Fs & Es).
  { apply Rle_trans with (1 := Bs). apply Rle_trans with (4 * bpow radix2 215); [pose proof (bpow_gt_0 radix2 215); lra|]. change 4 with (bpow radix2 2). rewrite <- bpow_plus. apply bpow_le. lia. }
  fold D in Es. set (s := (t - d)%float) in *.
  set (M := T + Rabs D) in *. assert (PM : 0 < M) by (unfold M; lra).
  assert (A1 : Rabs (V t - D) <= (1 + 7 * u) * M).
  { replace (V t - D) with ((V t - T) + (T - D)) by ring. eapply Rle_trans; [apply Rabs_triang|].
    assert (Rabs (T - D) <= M). { unfold M. eapply Rle_trans; [apply Rabs_triang|]. rewrite Rabs_Ropp, (Rabs_pos_eq T) by lra. lra. }
    assert (7 * u * T <= 7 * u * M) by (apply Rmult_le_compat_l; unfold M; lra). lra. }
  assert (A2 : Rabs (V s - (T - D)) <= 9 * u * M).
  { replace (V s - (T - D)) with ((V s - (V t - D)) + (V t - T)) by ring. eapply Rle_trans; [apply Rabs_triang|].
    assert (7 * u * T <= 7 * u * M) by (apply Rmult_le_compat_l; unfold M; lra).
    assert (u * Rabs (V t - D) <= u * ((1 + 7 * u) * M)) by (apply Rmult_le_compat_l; lra).
    assert (u * (7 * u) * M <= u * M) by (apply Rmult_le_compat_r; nra). nra. }
  assert (A3 : Rabs (V s) <= 2 * M).
  { replace (V s) with ((V s - (T - D)) + (T - D)) by ring. eapply Rle_trans; [apply Rabs_triang|].
    assert (Rabs (T - D) <= M). { unfold M. eapply Rle_trans; [apply Rabs_triang|]. rewrite Rabs_Ropp, (Rabs_pos_eq T) by lra. lra. }
    assert (9 * u * M <= M) by nra. lra. }
  assert (BM : M <= 2 * bpow radix2 215) by (unfold M; lra).
  assert (Ihb : / V h <= bpow radix2 100). { change 100%Z with (- -100)%Z. rewrite bpow_opp. apply Rinv_le; lra. }
  assert (A4 : Rabs (V s / V h) <= 4 * bpow radix2 315).
  { unfold Rdiv. rewrite Rabs_mult, (Rabs_pos_eq (/ V h)) by lra. change 315%Z with (215 + 100)%Z. rewrite bpow_plus.
    rewrite <- Rmult_assoc. apply Rmult_le_compat; try lra. apply Rabs_pos. }
  destruct (fin_div s h Fs ltac:(lra)) as (Fq & Eq).
  { apply rnd_nover. apply Rle_trans with (1 := A4). change 4 with (bpow radix2 2). rewrite <- bpow_plus. apply bpow_le. lia. }
  split; [exact Fq|]. rewrite Eq. destruct (rnd_std (V s / V h)) as (dd & ee & Hd & He & ->).
  replace (V s / V h * (1 + dd) + ee - (T - D) / V h) with ((V s - (T - D)) * / V h + (dd * (V s * / V h) + ee)) by (unfold Rdiv; ring).
  eapply Rle_trans; [apply Rabs_triang|]. eapply Rle_trans; [apply Rplus_le_compat_l, Rabs_triang|].
  rewrite !Rabs_mult, (Rabs_pos_eq (/ V h)) by lra.
  assert (C1 : Rabs (V s - (T - D)) * / V h <= 9 * u * M * / V h) by (apply Rmult_le_compat_r; lra).
  assert (C2 : Rabs dd * (Rabs (V s) * / V h) <= u * (2 * M * / V h)).
  { apply Rmult_le_compat; [apply Rabs_pos|apply Rmult_le_pos; [apply Rabs_pos|lra]|exact Hd|apply Rmult_le_compat_r; lra]. }
  assert (C3 : eta <= u * (M * / V h)).
  { pose proof (eta_le (-291) ltac:(lia)) as E8. pose proof (bpow_gt_0 radix2 (-1075)).
    assert (bpow radix2 (-291) <= M * / V h).
    { change (-291)%Z with (-191 + -100)%Z. rewrite bpow_plus. apply Rmult_le_compat; [apply bpow_ge_0|apply bpow_ge_0|unfold M; lra|].
      change (-100)%Z with (- (100))%Z. rewrite bpow_opp. apply Rinv_le; lra. }
    assert (u * bpow radix2 (-291) <= u * (M * / V h)) by (apply Rmult_le_compat_l; lra). lra. }
  unfold Rdiv. lra.
Qed.

From Verif Require Import ModelSir ModelArr SpecSir ProofsEnum ProofsErr SpecRayleigh ProofsR SpecRoundSir.

Lemma bpow_val e : bpow radix2 e = powerRZ 2 e.
Proof. now rewrite bpow_powerRZ. Qed.
Lemma ordinary_V x : ordinary x -> fin x = true /\ Rabs (V x) <= bpow radix2 100.
Proof. intros [H1 H2]. rewrite val_V in H2. rewrite bpow_val. split; [now apply finite_fin|exact H2]. Qed.
Lemma ordinary_pos_rel x : ordinary_pos x -> rel 0 (-100) 100 x (V x).
Proof. intros [H1 H2]. rewrite val_V in H2. apply exact_rel; [now apply finite_fin|]. rewrite !bpow_val. exact H2. Qed.
Lemma two_rel : rel 0 1 1 2%float 2.
Proof. rewrite <- (V_two). apply exact_rel; [reflexivity|]. rewrite V_two. cbn. lra. Qed.
Lemma thousand_rel : rel 0 9 10 1000%float 1000.
Proof.
  assert (E : V 1000%float = 1000).
  { rewrite <- val_V. unfold val. replace (Prim2SF 1000) with (S754_finite false 8796093022208000 (-43)) by (vm_compute; reflexivity).
    cbv [powerRZ Pos.to_nat Pos.iter_op Nat.add]. lra. }
  rewrite <- E. apply exact_rel; [reflexivity|]. rewrite E. cbn. lra.
Qed.
Lemma one_rel : rel 0 0 0 1%float 1.
Proof.
  assert (E : V 1%float = 1).
  { rewrite <- val_V. unfold val. replace (Prim2SF 1) with (S754_finite false 4503599627370496 (-52)) by (vm_compute; reflexivity).
    cbv [powerRZ Pos.to_nat Pos.iter_op Nat.add]. lra. }
  rewrite <- E. apply exact_rel; [reflexivity|]. rewrite E. cbn. lra.
Qed.

(** At most half a sample, and not within e of half a sample. *)
Lemma stays_on_sample a A e : Rabs (a - A) <= e -> (forall z : Z, e < Rabs (A - (IZR z + / 2))) -> Rabs (a - IZR (Zrint A)) < / 2.
Proof.
  intros He Hc. pose proof (Zrint_near A) as Hn. set (z := Zrint A) in *.
  pose proof (Hc z) as C1. pose proof (Hc (z - 1)%Z) as C2. rewrite minus_IZR in C2.
  replace (A - (IZR z - 1 + / 2)) with (A - IZR z + / 2) in C2 by field.
  replace (A - (IZR z + / 2)) with (A - IZR z - / 2) in C1 by ring.
  apply Rabs_le_inv in He. assert (Hn' : - / 2 <= A - IZR z <= / 2) by (apply Rabs_le_inv in Hn; lra).
  rewrite Rabs_left1 in C1 by lra. rewrite Rabs_pos_eq in C2 by lra. apply Rabs_def1; lra.
Qed.

Section Flat.
  Context (fsin fcos fatan fasin facos fexp flog : PrimFloat.float -> PrimFloat.float).
  Local Notation F := (FN fsin fcos fatan fasin facos fexp flog).
  Variables (q : samp F) (xo yo zo delay : F).
  Hypothesis Hq : ordinary_pos (dx q) /\ ordinary_pos (dy q) /\ ordinary_pos (dt q) /\ ordinary_pos (vel q) /\ ordinary_pos (cp q).
  Hypothesis Ho : ordinary xo /\ ordinary yo /\ ordinary zo /\ ordinary delay.
  Local Notation Q := (val_par fsin fcos fatan fasin facos fexp flog q).
  Local Notation O := (val_pos fsin fcos fatan fasin facos fexp flog xo yo zo).
  Local Notation src := (val_source fsin fcos fatan fasin facos fexp flog q).

  Definition moderate (x : PrimFloat.float) : Prop := fin x = true /\ Rabs (V x) <= bpow radix2 102.

  (** The amplitude and the sample of one source point. *)
  Definition well (s : source) (c : contrib F) : Prop :=
    sample_of c = Some (arrives_at Q (val delay) O s) /\ rel 13 (-499) 508 (c_ai c) (strength Q 1 O s).

  Lemma diff_small a b : Rabs a <= bpow radix2 100 -> Rabs b <= bpow radix2 102 -> Rabs (a - b) <= bpow radix2 104.
  Proof.
    intros H1 H2. eapply Rle_trans; [apply Rabs_triang|]. rewrite Rabs_Ropp.
    assert (E : bpow radix2 104 = 4 * bpow radix2 102) by (change 104%Z with (2 + 102)%Z; rewrite bpow_plus; reflexivity).
    assert (bpow radix2 100 <= bpow radix2 102) by (apply bpow_le; lia). pose proof (bpow_gt_0 radix2 102). lra.
  Qed.

  Lemma amp_rel a r D : rel 1 (-100) 100 a (val (vel q)) -> rel 4 (-100) 105 r D ->
    rel 13 (-499) 508 (a * (dx q * dy q) / (2 * f_pi * r) / dt q * 1000)%float
      (1000 * 1 * val (vel q) * (val (dx q) * val (dy q)) / (2 * PI * D * val (dt q))).
  Proof.
    intros Ha Hr. destruct Hq as (Hx & Hy & Ht & Hv & Hc). rewrite !val_V in *.
    apply ordinary_pos_rel in Hx, Hy, Ht.
    assert (E : 1000 * 1 * V (vel q) * (V (dx q) * V (dy q)) / (2 * PI * D * V (dt q)) =
      V (vel q) * (V (dx q) * V (dy q)) / (2 * PI * D) / V (dt q) * 1000).
    { pose proof PI_RGT_0. destruct (rel_pos _ _ _ _ _ Hr), (rel_pos _ _ _ _ _ Ht). field. repeat split; lra. }
    rewrite E. clear E.
    eapply (rel_weaken 13 13 (-499) 508); [|lia|lia|lia].
    refine (mul_rel 12 0 (-508) 498 9 10 _ _ _ _ _ thousand_rel _ _ _); try lia.
    refine (div_rel 11 0 (-408) 398 (-100) 100 _ _ _ _ _ Ht _ _ _); try lia.
    refine (div_rel 3 7 (-300) 300 (-98) 108 _ _ _ _ _ _ _ _ _); try lia.
    - refine (mul_rel 1 1 (-100) 100 (-200) 200 _ _ _ _ Ha _ _ _ _); try lia.
      exact (mul_rel 0 0 (-100) 100 (-100) 100 _ _ _ _ Hx Hy ltac:(lia) ltac:(lia) ltac:(lia)).
    - eapply (rel_weaken 7 7 (1 + 1 + -100) (1 + 2 + 105)); [|lia|lia|lia].
      refine (mul_rel 2 4 (1 + 1) (1 + 2) (-100) 105 _ _ _ _ _ Hr _ _ _); try lia.
      exact (mul_rel 0 1 1 1 1 2 _ _ _ _ two_rel pi_rel ltac:(lia) ltac:(lia) ltac:(lia)).
  Qed.

  Lemma time_near r D : rel 4 (-100) 105 r D ->
    (forall z : Z, 6 * eps * ((1000 * D / val (cp q) + Rabs (val delay)) / val (dt q)) < Rabs ((1000 * D / val (cp q) - val delay + 0) / val (dt q) - (IZR z + / 2))) ->
    f_rint ((r * 1000 / cp q - delay) / dt q)%float = Some (Zrint ((1000 * D / val (cp q) - val delay + 0) / val (dt q))).
  Proof.
    intros Hr Hties. destruct Hq as (_ & _ & Ht & _ & Hc). destruct Ho as (_ & _ & _ & Hd). rewrite !val_V in *.
    apply ordinary_pos_rel in Ht, Hc. apply ordinary_V in Hd. destruct Hd as [Fd Bd].
    assert (RT : rel 6 (-191) 215 (r * 1000 / cp q)%float (D * 1000 / V (cp q))).
    { refine (div_rel 5 0 (-91) 115 (-100) 100 _ _ _ _ _ Hc _ _ _); try lia.
      exact (mul_rel 4 0 (-100) 105 9 10 _ _ _ _ Hr thousand_rel ltac:(lia) ltac:(lia) ltac:(lia)). }
    replace (D * 1000) with (1000 * D) in RT by ring.
    destruct Ht as (Ft & Bt & _). destruct (arg_std _ _ _ _ RT Fd Bd Ft Bt) as (Fa & Ea).
    set (T := 1000 * D / V (cp q)) in *.
    apply f_rint_near; [exact Fa|]. rewrite Rplus_0_r in *.
    refine (stays_on_sample _ _ _ Ea _). intros z. eapply Rle_lt_trans; [|exact (Hties z)]. rewrite u_eps. right. ring.
  Qed.

  Lemma planar_dist x y : moderate x -> moderate y -> bpow radix2 (-100) <= dist O (src (x, y)) ->
    rel 4 (-100) 105 (PrimFloat.sqrt ((xo - x) * (xo - x) + (yo - y) * (yo - y) + zo * zo)%float) (dist O (src (x, y))).
  Proof.
    intros [Fx Bx] [Fy By]. destruct Ho as (Hx & Hy & Hz & _). apply ordinary_V in Hx, Hy, Hz.
    destruct Hx as [Fxo Bxo], Hy as [Fyo Byo], Hz as [Fzo Bzo].
    unfold dist. cbn [p_x p_y p_z val_pos val_source flat s_x s_y s_z fst snd]. rewrite Rminus_0_r, !val_V. intros H.
    assert (B : forall t, Rabs t <= bpow radix2 104 -> Rabs t <= bpow radix2 1000) by (intros t Ht; apply Rle_trans with (1 := Ht); apply bpow_le; lia).
    apply dist_rel; auto using diff_small.
    - apply near1_sub; auto using diff_small.
    - apply near1_sub; auto using diff_small.
    - now apply near1_exact.
    - apply Rle_trans with (1 := Bzo). apply bpow_le. lia.
  Qed.
  Lemma line_dist x : moderate x -> bpow radix2 (-100) <= dist O (src (x, 0%float)) ->
    rel 4 (-100) 105 (PrimFloat.sqrt ((xo - x) * (xo - x) + yo * yo + zo * zo)%float) (dist O (src (x, 0%float))).
  Proof.
    intros [Fx Bx]. destruct Ho as (Hx & Hy & Hz & _). apply ordinary_V in Hx, Hy, Hz.
    destruct Hx as [Fxo Bxo], Hy as [Fyo Byo], Hz as [Fzo Bzo].
    unfold dist. cbn [p_x p_y p_z val_pos val_source flat s_x s_y s_z fst snd]. rewrite !val_V, V0, !Rminus_0_r. intros H.
    assert (B : forall t, Rabs t <= bpow radix2 104 -> Rabs t <= bpow radix2 1000) by (intros t Ht; apply Rle_trans with (1 := Ht); apply bpow_le; lia).
    assert (L : bpow radix2 100 <= bpow radix2 104) by (apply bpow_le; lia).
    apply dist_rel; auto using diff_small, near1_exact; try lra.
    apply near1_sub; auto using diff_small.
  Qed.

  Lemma v1_rel : rel 1 (-100) 100 (1 * vel q)%float (val (vel q)).
  Proof.
    destruct Hq as (_ & _ & _ & Hv & _). apply ordinary_pos_rel in Hv. rewrite val_V. rewrite <- (Rmult_1_l (V (vel q))).
    exact (mul_rel 0 0 0 0 (-100) 100 _ _ _ _ one_rel Hv ltac:(lia) ltac:(lia) ltac:(lia)).
  Qed.
  Lemma v0_rel : rel 1 (-100) 100 (vel q) (val (vel q)).
  Proof.
    destruct Hq as (_ & _ & _ & Hv & _). apply ordinary_pos_rel in Hv. rewrite val_V. eapply rel_weaken; [exact Hv|lia..].
  Qed.

  Definition sep (s : source) : Prop := bpow radix2 (-100) <= dist O s /\
    forall z : Z, 6 * eps * ((1000 * dist O s / p_cp Q + Rabs (val delay)) / p_dt Q) < Rabs (arrival Q (val delay) O s - (IZR z + / 2)).

  (** The source point as each function computes it. *)
  Definition pt_of (T : transducer F) (xy : F * F) : contrib F :=
    match T with
    | TRect a b => sc_pt (rect_scanner q a b delay (nofZ 1) xo yo zo) (snd xy) (fst xy)
    | TCirc R => sc_pt (circ_scanner q R delay (nofZ 1) xo yo zo) (snd xy) (fst xy)
    | TLine a => sc_pt (line_scanner q a delay xo yo zo) (snd xy) (fst xy)
    | _ => sc_pt (line_scanner q (nofZ 0) delay xo yo zo) (snd xy) (fst xy)
    end.
  Lemma well_planar x y : moderate x -> moderate y -> sep (src (x, y)) ->
    let r := PrimFloat.sqrt ((xo - x) * (xo - x) + (yo - y) * (yo - y) + zo * zo)%float in
    well (src (x, y)) (@Build_contrib F r (@amp_w F q (nofZ 1) (dx q * dy q)%float r) ((r * 1000 / cp q - delay) / dt q)%float).
  Proof.
    intros Mx My [S1 S2] r. pose proof (planar_dist x y Mx My S1) as Hr. fold r in Hr. split.
    - exact (time_near r _ Hr S2).
    - exact (amp_rel _ r _ v1_rel Hr).
  Qed.
  Lemma well_pt T x y : match T with TRect _ _ | TCirc _ => True | TLine _ => y = 0%float | _ => False end ->
    moderate x -> moderate y -> sep (src (x, y)) -> well (src (x, y)) (pt_of T (x, y)).
  Proof.
    intros HT Mx My Hs. destruct T; try contradiction; cbn [pt_of fst snd].
    - exact (well_planar x y Mx My Hs).
    - exact (well_planar x y Mx My Hs).
    - subst y. destruct Hs as [S1 S2]. pose proof (line_dist x Mx S1) as Hr. split.
      + exact (time_near _ _ Hr S2).
      + exact (amp_rel _ _ _ v0_rel Hr).
  Qed.

  (** ** Accumulation *)
  Definition inv (m : nat) (x : PrimFloat.float) (X : R) : Prop :=
    fin x = true /\ 0 <= X <= INR m * bpow radix2 508 /\ X * w ^ (13 + m) <= V x <= X / w ^ (13 + m).
  Lemma inv_weaken m x X : inv m x X -> inv (S m) x X.
  Proof.
    intros (F1 & B & E1 & E2). pose proof w_pos as Hw. pose proof (w_pow (13 + m)) as W. pose proof (w_pow (13 + S m)) as W'.
    split; [exact F1|]. split; [rewrite S_INR; pose proof (bpow_gt_0 radix2 508); lra|].
    assert (LE : w ^ (13 + S m) <= w ^ (13 + m)). { replace (13 + S m)%nat with (S (13 + m)) by lia. cbn [pow Nat.add] in *. nra. }
    split.
    - apply Rle_trans with (2 := E1). apply Rmult_le_compat_l; lra.
    - apply Rle_trans with (1 := E2). unfold Rdiv. apply Rmult_le_compat_l; [lra|]. apply Rinv_le; lra.
  Qed.
  Lemma many_half m : INR m <= bpow radix2 50 -> INR (13 + m) * u <= / 4.
  Proof.
    intros H. rewrite plus_INR. replace (INR 13) with 13 by (rewrite INR_IZR_INZ; reflexivity). pose proof u50. pose proof u_small.
    assert (INR m * u <= bpow radix2 50 * u) by (apply Rmult_le_compat_r; lra). lra.
  Qed.
  Lemma inv_add m x X a A : INR m <= bpow radix2 50 -> inv m x X -> rel 13 (-499) 508 a A -> inv (S m) (x + a)%float (X + A).
  Proof.
    intros Hm (Fx & B & E1 & E2) Ha. destruct (rel_pos _ _ _ _ _ Ha) as [PA Pa]. destruct Ha as (Fa & BA & A1 & A2).
    pose proof u_small as Hu. pose proof w_pos as Hw.
    assert (WW : w ^ (13 + m) <= w ^ 13). { rewrite pow_add. pose proof (w_pow 13). pose proof (w_pow m). nra. }
    pose proof (w_pow (13 + m)) as W. pose proof (w_pow_half (13 + m) ltac:(pose proof (many_half m Hm); lra)) as Wh.
    assert (A1' : A * w ^ (13 + m) <= V a) by (apply Rle_trans with (2 := A1); apply Rmult_le_compat_l; lra).
    assert (A2' : V a <= A / w ^ (13 + m)).
    { apply Rle_trans with (1 := A2). unfold Rdiv. apply Rmult_le_compat_l; [lra|]. apply Rinv_le; lra. }
    assert (Px : 0 <= V x) by (apply Rle_trans with (2 := E1); apply Rmult_le_pos; lra).
    assert (Hi : / w ^ (13 + m) <= 2) by (apply Rmult_le_reg_l with (w ^ (13 + m)); [lra|]; rewrite Rinv_r by lra; lra).
    assert (Hip : 0 < / w ^ (13 + m)) by (apply Rinv_0_lt_compat; lra).
    pose proof (bpow_gt_0 radix2 508) as P508. pose proof (pos_INR m) as Pm.
    assert (BS : X + A <= bpow radix2 51 * bpow radix2 508).
    { assert (INR m * bpow radix2 508 <= bpow radix2 50 * bpow radix2 508) by (apply Rmult_le_compat_r; lra).
      assert (bpow radix2 51 = 2 * bpow radix2 50) by (change 51%Z with (1 + 50)%Z; rewrite bpow_plus; reflexivity).
      assert (1 <= bpow radix2 50) by (change 1 with (bpow radix2 0); apply bpow_le; lia). nra. }
    assert (VS : V x + V a <= (X + A) / w ^ (13 + m)) by (unfold Rdiv in *; lra).
    assert (VL : (X + A) * w ^ (13 + m) <= V x + V a) by lra.
    destruct (add_pos x a Fx Fa Px ltac:(lra)) as (Fs & S1 & S2).
    { apply Rle_trans with (1 := VS). apply Rle_trans with (bpow radix2 51 * bpow radix2 508 * 2).
      - unfold Rdiv. apply Rmult_le_compat; lra.
      - change 2 with (bpow radix2 1). rewrite <- !bpow_plus. apply bpow_le. lia. }
    split; [exact Fs|]. split.
    - rewrite S_INR. lra.
    - replace (w ^ (13 + S m)) with (w * w ^ (13 + m)) by (replace (13 + S m)%nat with (S (13 + m)) by lia; reflexivity). split.
      + apply Rle_trans with (2 := S1). replace ((X + A) * (w * w ^ (13 + m))) with ((X + A) * w ^ (13 + m) * w) by ring. apply Rmult_le_compat_r; lra.
      + apply Rle_trans with (1 := S2). replace ((X + A) / (w * w ^ (13 + m))) with ((X + A) / w ^ (13 + m) / w) by (field; lra).
        unfold Rdiv at 1 2. apply Rmult_le_compat_r; [apply Rlt_le, Rinv_0_lt_compat; lra|lra].
  Qed.
  Lemma inv_zero : inv 0 0%float 0.
  Proof. split; [reflexivity|]. rewrite V0. cbn [INR]. unfold Rdiv. rewrite !Rmult_0_l. lra. Qed.
  Lemma inv_close m n x X : (m <= n)%nat -> INR n <= bpow radix2 50 -> inv m x X -> close_sample n X x.
  Proof.
    intros Hmn Hn (Fx & B & E1 & E2). split; [now apply finite_fin|]. rewrite val_V, u_eps.
    assert (Hm : INR m <= INR n) by (apply le_INR; exact Hmn).
    pose proof (w_pow_lin (13 + m)) as L. pose proof (inv_lin (13 + m) ltac:(pose proof (many_half m ltac:(lra)); lra)) as U.
    rewrite plus_INR in L, U. replace (INR 13) with 13 in L, U by (rewrite INR_IZR_INZ; reflexivity).
    pose proof u_small. pose proof (pos_INR m).
    assert (K : (13 + INR m) * u <= (INR n + 13) * u) by (apply Rmult_le_compat_r; lra).
    apply Rabs_le. unfold Rdiv in E2. set (M := (13 + INR m) * u) in *. set (N := (INR n + 13) * u) in *.
    replace ((INR n + 13) * (2 * u) * X) with (2 * N * X) by (unfold N; ring).
    assert (0 <= M) by (unfold M; nra).
    assert (X * (1 - M) <= X * w ^ (13 + m)) by (apply Rmult_le_compat_l; lra).
    assert (X * / w ^ (13 + m) <= X * (1 + 2 * M)) by (apply Rmult_le_compat_l; lra).
    assert (M * X <= N * X) by (apply Rmult_le_compat_r; lra).
    assert (0 <= M * X) by (apply Rmult_le_pos; lra). split; lra.
  Qed.

  Lemma nth_upd_f (h : list F) k j f : (k < length h)%nat ->
    nth j (upd h k f) (0%float : F) = if Nat.eqb k j then f (nth k h (0%float : F)) else nth j h (0%float : F).
  Proof.
    revert k j; induction h as [|x t IH]; intros [|k] [|j] H; cbn in *; try lia; auto. apply IH. lia.
  Qed.

  Lemma accumulate_inv ntz : forall (l : list (contrib F)) (ss : list source), Forall2 well ss l ->
    forall (h : list F) m (X : nat -> R), length h = Z.to_nat ntz -> INR (m + length l) <= bpow radix2 50 ->
    (forall k, (k < Z.to_nat ntz)%nat -> inv m (nth k h (0%float : F)) (X k)) ->
    forall k, (k < Z.to_nat ntz)%nat ->
      inv (m + length l) (nth k (accumulate ntz l h) (0%float : F)) (X k + rayleigh Q 1 (val delay) O ss (Z.of_nat k)).
  Proof.
    intros l ss H. induction H as [|s c ss l Hc H IH]; intros h m X Hh Hm Hi k Hk.
    - cbn [length accumulate fold_left]. unfold rayleigh, Rsum. cbn [map fold_right]. rewrite Nat.add_0_r, Rplus_0_r. auto.
    - destruct Hc as [Hz Ha]. cbn [length] in *. rewrite accumulate_cons. unfold in_window. rewrite Hz.
      set (z := arrives_at Q (val delay) O s) in *.
      assert (Er : forall k, rayleigh Q 1 (val delay) O (s :: ss) k = (if Z.eqb z k then strength Q 1 O s else 0) + rayleigh Q 1 (val delay) O ss k) by reflexivity.
      rewrite Er, <- Rplus_assoc. replace (m + S (length l))%nat with (S m + length l)%nat in * by lia.
      assert (Hm1 : INR m <= bpow radix2 50) by (apply Rle_trans with (2 := Hm); apply le_INR; lia).
      apply (IH _ (S m) (fun k => X k + (if Z.eqb z (Z.of_nat k) then strength Q 1 O s else 0))); auto.
      + destruct ((0 <=? z) && (z <? ntz))%Z; [rewrite length_upd|]; exact Hh.
      + intros j Hj. destruct ((0 <=? z) && (z <? ntz))%Z eqn:Ew.
        * apply andb_prop in Ew. destruct Ew as [E1 E2]. apply Z.leb_le in E1. apply Z.ltb_lt in E2.
          rewrite nth_upd_f by lia. destruct (Nat.eqb_spec (Z.to_nat z) j) as [<-|Hne].
          -- rewrite Z2Nat.id, Z.eqb_refl by lia. exact (inv_add m _ _ _ _ Hm1 (Hi _ Hj) Ha).
          -- replace (z =? Z.of_nat j)%Z with false by (symmetry; apply Z.eqb_neq; lia). rewrite Rplus_0_r. apply inv_weaken, Hi, Hj.
        * replace (z =? Z.of_nat j)%Z with false; [rewrite Rplus_0_r; apply inv_weaken, Hi, Hj|].
          symmetry. apply Z.eqb_neq. intros ->. apply andb_false_iff in Ew. destruct Ew as [Ew|Ew]; [apply Z.leb_gt in Ew|apply Z.ltb_ge in Ew]; lia.
  Qed.
End Flat.
