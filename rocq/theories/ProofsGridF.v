(** ProofsGridF.v - the loops over the aperture in doubles visit points close to
    the exact midpoints. *)
From Coq Require Import Floats Uint63.
From Coq Require Import Reals Lra Lia ZArith List Bool.
From Flocq Require Import Core BinarySingleNaN PrimFloat.
From Verif Require Import Base BaseLemmas NumF NumR ModelSir ModelArr SpecSir SpecRayleigh ProofsR
  ProofsTermF SpecRound ProofsRound ProofsRel SpecRoundSir ProofsRoundSir.
Import ListNotations.
Open Scope R_scope.

#[local] Instance fe_valid : Valid_exp fe := fexp_correct prec emax Hprec.
#[local] Instance p53 : Prec_gt_0 53 := eq_refl.

Lemma leb_true x y : fin x = true -> fin y = true -> V x <= V y -> PrimFloat.leb x y = true.
Proof.
  intros Hx Hy H. rewrite leb_equiv, (Bleb_correct _ _ _ _ Hx Hy). apply Rle_bool_true. exact H.
Qed.
Lemma leb_false x y : fin x = true -> fin y = true -> V y < V x -> PrimFloat.leb x y = false.
Proof.
  intros Hx Hy H. rewrite leb_equiv, (Bleb_correct _ _ _ _ Hx Hy). apply Rle_bool_false. exact H.
Qed.

(** Halving a number of ordinary size is exact. *)
Lemma half_format x : bpow radix2 (-100) <= Rabs x -> generic_format radix2 fe x -> generic_format radix2 fe (x / 2).
Proof.
  intros Hx Hf. change fe with (FLT_exp (-1074) 53) in *. apply FLT_format_generic in Hf; [|typeclasses eauto].
  destruct Hf as [[m e] H1 H2 H3]. cbn [Fnum Fexp] in H2, H3. apply generic_format_FLT.
  assert (He : (-154 <= e)%Z).
  { destruct (Z_le_gt_dec (-154) e) as [Hz|Hz]; [exact Hz|exfalso]. unfold F2R in H1. cbn [Fnum Fexp] in H1.
    rewrite H1, Rabs_mult, (Rabs_pos_eq (bpow radix2 e)) in Hx by apply bpow_ge_0.
    assert (Hm : Rabs (IZR m) <= bpow radix2 53).
    { rewrite <- abs_IZR. change (bpow radix2 53) with (IZR (2 ^ 53)). apply IZR_le. change (2 ^ 53)%Z with (Zpower radix2 53). exact (Z.lt_le_incl _ _ H2). }
    assert (Hb : bpow radix2 e <= bpow radix2 (-155)) by (apply bpow_le; lia).
    assert (Rabs (IZR m) * bpow radix2 e <= bpow radix2 53 * bpow radix2 (-155)).
    { apply Rmult_le_compat; auto using Rabs_pos, bpow_ge_0. }
    apply (Rlt_irrefl (bpow radix2 (-100))). apply Rle_lt_trans with (1 := Hx). apply Rle_lt_trans with (1 := H).
    rewrite <- bpow_plus. apply bpow_lt. lia. }
  exists (Float radix2 m (e - 1)).
  - rewrite H1. unfold F2R. cbn [Fnum Fexp]. unfold Z.sub. rewrite bpow_plus. change (bpow radix2 (-(1))) with (/ 2). lra.
  - exact H2.
  - cbn [Fexp]. lia.
Qed.
Lemma half_exact x : fin x = true -> bpow radix2 (-100) <= Rabs (V x) -> fin (x / 2)%float = true /\ V (x / 2)%float = V x / 2.
Proof.
  intros Fx Hx. destruct (half_F x Fx) as (F2 & V2 & _). split; [exact F2|]. rewrite V2.
  apply round_generic; [typeclasses eauto|]. apply half_format; [exact Hx|apply V_format].
Qed.

Section Libm.
  Context (fsin fcos fatan fasin facos fexp flog : PrimFloat.float -> PrimFloat.float).
  Local Notation F := (FN fsin fcos fatan fasin facos fexp flog).

  (** n steps from near X; the exact points X, X + d, ... keep a distance T from
      the edge h. *)
  Lemma grid_near (d xmax : F) (h M T : R) : fin d = true -> 0 < V d -> fin xmax = true -> V xmax = h -> M = h + V d -> M <= bpow radix2 1000 -> 0 <= h ->
    forall n f (x : F) X c, (n <= f)%nat -> fin x = true -> Rabs (V x - X) <= c -> - M <= V x ->
      c + INR n * (u * M) <= T ->
      (forall j, (j < n)%nat -> X + INR j * V d <= h - T) -> h + T < X + INR n * V d ->
      exists l, grid (N:=F) f x xmax d = Some l /\ length l = n /\
        forall j, (j < n)%nat -> Rabs (V (nth j l (0%float : F)) - (X + INR j * V d)) <= c + INR j * (u * M).
  Proof.
    intros Fd Pd Fm Vm HM HB Hh.
    assert (UM : 0 <= u * M) by (apply Rmult_le_pos; [apply bpow_ge_0|lra]).
    induction n as [|n IH]; intros f x X c Hf Fx Hc Hlow HT Hin Hout.
    - exists []. cbn [INR] in *. apply Rabs_le_inv in Hc. assert (L : PrimFloat.leb x xmax = false) by (apply leb_false; auto; lra).
      split; [|split; [reflexivity|intros j Hj; lia]]. destruct f; cbn [grid nle FN]; now rewrite L.
    - destruct f as [|f]; [lia|]. pose proof (Hin 0%nat ltac:(lia)) as H0. cbn [INR] in H0. pose proof (Rabs_le_inv _ _ Hc) as Hc'.
      assert (In0 : 0 <= INR (S n) * (u * M)) by (apply Rmult_le_pos; [apply pos_INR|exact UM]).
      assert (L : PrimFloat.leb x xmax = true) by (apply leb_true; auto; lra).
      assert (Hs : Rabs (V x + V d) <= M) by (apply Rabs_le; lra).
      destruct (add_std x d Fx Fd) as [Fa Ea].
      { apply Rle_trans with (1 := Hs), Rle_trans with (1 := HB), bpow_le. lia. }
      assert (Ea' : Rabs (V (x + d)%float - (V x + V d)) <= u * M).
      { eapply Rle_trans; [exact Ea|]. apply Rmult_le_compat_l; [apply bpow_ge_0|exact Hs]. }
      destruct (IH f (x + d)%float (X + V d) (c + u * M)) as (l & El & Ll & Hl).
      + lia.
      + exact Fa.
      + replace (V (x + d)%float - (X + V d)) with ((V (x + d)%float - (V x + V d)) + (V x - X)) by ring.
        apply Rle_trans with (1 := Rabs_triang _ _). lra.
      + destruct (add_up x d Fx Fd (V_sign_pos d Fd Pd)) as [[A1 A2]|A].
        * rewrite A2. apply Rle_trans with (1 := Hlow). apply round_ge_generic; [typeclasses eauto..|apply V_format|lra].
        * unfold fin in Fa. rewrite A in Fa. discriminate.
      + rewrite S_INR in HT. lra.
      + intros j Hj. specialize (Hin (S j) ltac:(lia)). rewrite S_INR in Hin. lra.
      + rewrite S_INR in Hout. lra.
      + exists (x :: l). cbn [grid nle FN]. rewrite L. change (nadd (n:=F) x d) with (x + d)%float. rewrite El.
        split; [reflexivity|]. split; [cbn [length]; lia|]. intros [|j] Hj; cbn [nth].
        * cbn [INR]. replace (X + 0 * V d) with X by ring. lra.
        * specialize (Hl j ltac:(lia)). rewrite S_INR. replace (X + (INR j + 1) * V d) with (X + V d + INR j * V d) by ring.
          replace (c + (INR j + 1) * (u * M)) with (c + u * M + INR j * (u * M)) by ring. exact Hl.
  Qed.

  (** The midpoints of a side of length a with n steps d. *)
  Lemma side_near fuel (a d : F) (n : nat) : ordinary_pos a -> ordinary_pos d -> Rabs (val a - INR n * val d) <= val d / 4 -> (Z.of_nat n <= 16777216)%Z ->
    (n <= fuel)%nat ->
    exists l, double_midpoints fsin fcos fatan fasin facos fexp flog fuel (- a / 2)%float (a / 2)%float d = Some l /\
      map (mid (- val a / 2) (val d)) (seq 0 n) = midpoints (- val a / 2) (val a / 2) (val d) /\
      Forall2 (fun (x : F) X => Rabs (val x - X) <= INR n * (eps / 2) * (val a / 2 + val d)) l
        (midpoints (- val a / 2) (val a / 2) (val d)).
  Proof.
    intros Ha Hd Hn Hmax Hf. rewrite !val_V in *.
    apply ordinary_pos_rel in Ha, Hd. destruct (rel_pos _ _ _ _ _ Ha) as [Pa _]. destruct (rel_pos _ _ _ _ _ Hd) as [Pd _].
    destruct Ha as (Fa & Ba & _). destruct Hd as (Fd & Bd & _). apply Rabs_le_inv in Hn.
    destruct (half_exact a Fa) as [Fh Vh]; [rewrite Rabs_pos_eq; lra|].
    destruct (half_exact (- a)%float) as [Fl Vl]; [now rewrite ProofsRound.fin_opp|rewrite ProofsRound.V_opp, Rabs_Ropp, Rabs_pos_eq; lra|].
    rewrite ProofsRound.V_opp in Vl.
    destruct (half_exact d Fd) as [F2 V2]; [rewrite Rabs_pos_eq; lra|].
    set (M := V a / 2 + V d).
    assert (B1000 : 2 * bpow radix2 100 <= bpow radix2 1000).
    { change 2 with (bpow radix2 1). rewrite <- bpow_plus. apply bpow_le. lia. }
    assert (HM : M <= bpow radix2 1000) by (unfold M; lra).
    assert (H1 : Rabs (V (- a / 2)%float + V (d / 2)%float) <= M) by (rewrite Vl, V2; unfold M; apply Rabs_le; lra).
    destruct (add_std _ _ Fl F2) as [F0 E0].
    { apply Rle_trans with (1 := H1), Rle_trans with (1 := HM), bpow_le. lia. }
    assert (E0' : Rabs (V (- a / 2 + d / 2)%float - (- V a / 2 + V d / 2)) <= u * M).
    { rewrite Vl, V2 in E0. rewrite Vl, V2 in H1. replace (- V a / 2 + V d / 2) with (- V a / 2 + V d / 2) by ring.
      eapply Rle_trans; [exact E0|]. apply Rmult_le_compat_l; [apply bpow_ge_0|]. exact H1. }
    assert (Hn24 : INR n <= 16777216).
    { rewrite INR_IZR_INZ. apply IZR_le. lia. }
    assert (Hn0 : 0 <= INR n) by apply pos_INR.
    assert (T8 : u * M + INR n * (u * M) <= V d / 8).
    { assert (HMd : M <= (INR n / 2 + 9 / 8) * V d) by (unfold M; lra).
      assert (Hu : u * 9007199254740992 = 1) by (change (bpow radix2 (-53)) with (/ IZR 9007199254740992); lra).
      assert (Hu0 : 0 < u) by apply bpow_gt_0. replace (u * M + INR n * (u * M)) with (u * ((INR n + 1) * M)) by ring.
      assert (K : (INR n + 1) * M <= 16777217 * (8388610 * V d)).
      { apply Rmult_le_compat; [lra|unfold M; lra|lra|]. apply Rle_trans with (1 := HMd). apply Rmult_le_compat_r; lra. }
      apply Rle_trans with (u * (16777217 * (8388610 * V d))); [apply Rmult_le_compat_l; [lra|exact K]|].
      replace (u * (16777217 * (8388610 * V d))) with ((u * 140737530298370) * V d) by ring.
      apply Rle_trans with (/ 8 * V d); [apply Rmult_le_compat_r; lra|lra]. }
    assert (UM0 : 0 <= INR n * (u * M)).
    { apply Rmult_le_pos; [exact Hn0|]. apply Rmult_le_pos; [apply bpow_ge_0|unfold M; lra]. }
    assert (Low : - M <= V (- a / 2 + d / 2)%float).
    { pose proof (Rabs_le_inv _ _ E0') as [L _]. unfold M in *. lra. }
    unfold double_midpoints.
    destruct (grid_near d (a / 2)%float (V a / 2) M (V d / 8) Fd Pd Fh Vh eq_refl HM ltac:(lra) n fuel (- a / 2 + d / 2)%float (- V a / 2 + V d / 2) (u * M))
      as (l & El & Ll & Hl); auto.
    - intros j Hj. assert (INR j <= INR n - 1).
      { rewrite !INR_IZR_INZ, <- minus_IZR. apply IZR_le. lia. }
      assert (INR j * V d <= (INR n - 1) * V d) by (apply Rmult_le_compat_r; lra). lra.
    - lra.
    - assert (Hc : SpecRayleigh.count (- V a / 2 + V d / 2) (V a / 2) (V d) = n).
      { rewrite count_width by lra. rewrite (Zfloor_unique _ (Z.of_nat n)); [apply Nat2Z.id|]. rewrite <- INR_IZR_INZ.
        split; apply Rmult_le_reg_r with (V d) || apply Rmult_lt_reg_r with (V d); try lra;
          replace ((V a / V d + 1 / 2) * V d) with (V a + V d / 2) by (field; lra); lra. }
      exists l. split; [exact El|]. unfold midpoints. rewrite Hc. split; [reflexivity|].
      assert (G : forall m k l, length l = m -> (forall j, (j < m)%nat -> Rabs (V (nth j l (0%float : F)) - (- V a / 2 + V d / 2 + INR (k + j) * V d)) <= u * M + INR (k + j) * (u * M)) ->
        (k + m <= n)%nat -> Forall2 (fun (x : F) X => Rabs (val x - X) <= INR n * (eps / 2) * (V a / 2 + V d)) l (map (mid (- V a / 2) (V d)) (seq k m))).
      { clear - Pd Pa. induction m as [|m IH]; intros k l Hl H Hk.
        - destruct l; [constructor|discriminate].
        - destruct l as [|x l]; [discriminate|]. cbn [seq map]. constructor.
          + assert (Hkn : (S k <= n)%nat) by lia. specialize (H 0%nat ltac:(lia)). cbn [nth] in H. rewrite Nat.add_0_r in H. rewrite val_V. unfold mid.
            apply Rle_trans with (1 := H). rewrite u_eps. replace (2 * u / 2) with u by lra. fold M.
            replace (u * M + INR k * (u * M)) with (INR (S k) * u * M) by (rewrite S_INR; ring).
            apply Rmult_le_compat_r; [unfold M; lra|]. apply Rmult_le_compat_r; [apply bpow_ge_0|]. apply le_INR. exact Hkn.
          + apply IH; [exact (eq_add_S _ _ Hl)| |lia]. intros j Hj. specialize (H (S j) ltac:(lia)). cbn [nth] in H. replace (S k + j)%nat with (k + S j)%nat by lia. exact H. }
      apply (G n 0%nat l Ll); [|lia]. intros j Hj. exact (Hl j Hj).
  Qed.
End Libm.
