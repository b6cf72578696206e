(** PropRoundSir2.v - property theorem C102: dreamrect and dreamline in double
    precision against the exact discretised Rayleigh integral. *)
From Coq Require Strings.String Strings.Ascii.
Import Coq.Strings.String.StringSyntax.
From Coq Require Import Floats Uint63.
From Coq Require Import Reals Lra Lia ZArith List Bool.
From Flocq Require Import Core BinarySingleNaN PrimFloat.
From Verif Require Import Base BaseLemmas NumF NumR ModelSir ModelArr ModelSmp SpecSmp ModelGw SpecGw SpecGwR SpecSir ProofsEnum ProofsErr SpecRayleigh
  ProofsTermF SpecRound ProofsRound ProofsRel SpecRoundSir ProofsRoundSir ProofsSmp ProofsSmp2 ProofsGw5 ProofsGwR ProofsR ExJob PropGw
  PropRoundSir ProofsGridF SpecRoundSir2.
Import ListNotations.
Open Scope R_scope.

(** ** Moving a source point a little *)
Lemma sqrt_move a b c h k : sqrt ((a + h)^2 + (b + k)^2 + c^2) <= sqrt (a^2 + b^2 + c^2) + (Rabs h + Rabs k).
Proof.
  set (r := sqrt (a^2 + b^2 + c^2)). assert (Hs : 0 <= a^2 + b^2 + c^2) by nra.
  assert (Hr : 0 <= r) by apply sqrt_pos. assert (Er : r * r = a^2 + b^2 + c^2) by (apply sqrt_sqrt; exact Hs).
  assert (Ha : Rabs a <= r).
  { rewrite <- sqrt_Rsqr_abs. apply sqrt_le_1_alt. unfold Rsqr. nra. }
  assert (Hb : Rabs b <= r).
  { rewrite <- sqrt_Rsqr_abs. apply sqrt_le_1_alt. unfold Rsqr. nra. }
  pose proof (Rabs_pos h) as Ph. pose proof (Rabs_pos k) as Pk.
  rewrite <- (sqrt_square (r + (Rabs h + Rabs k))) by lra. apply sqrt_le_1_alt.
  assert (A1 : a * h <= r * Rabs h).
  { apply Rle_trans with (1 := Rle_abs _). rewrite Rabs_mult. apply Rmult_le_compat_r; assumption. }
  assert (A2 : b * k <= r * Rabs k).
  { apply Rle_trans with (1 := Rle_abs _). rewrite Rabs_mult. apply Rmult_le_compat_r; assumption. }
  assert (A3 : h * h = Rabs h * Rabs h) by (rewrite <- Rabs_mult, Rabs_pos_eq; nra).
  assert (A4 : k * k = Rabs k * Rabs k) by (rewrite <- Rabs_mult, Rabs_pos_eq; nra).
  clearbody r. nra.
Qed.
Definition near_src (delta : R) (s' s : source) : Prop :=
  s_z s' = s_z s /\ s_ds s' = s_ds s /\ s_tau s' = s_tau s /\ Rabs (s_x s' - s_x s) + Rabs (s_y s' - s_y s) <= delta.
Lemma dist_move delta o s' s : near_src delta s' s -> Rabs (SpecRayleigh.dist o s' - SpecRayleigh.dist o s) <= delta.
Proof.
  intros (Hz & _ & _ & Hd). unfold SpecRayleigh.dist. rewrite Hz.
  pose proof (sqrt_move (p_x o - s_x s) (p_y o - s_y s) (p_z o - s_z s) (s_x s - s_x s') (s_y s - s_y s')) as A.
  pose proof (sqrt_move (p_x o - s_x s') (p_y o - s_y s') (p_z o - s_z s) (s_x s' - s_x s) (s_y s' - s_y s)) as B.
  rewrite (Rabs_minus_sym (s_x s)), (Rabs_minus_sym (s_y s)) in A.
  replace (p_x o - s_x s + (s_x s - s_x s')) with (p_x o - s_x s') in A by ring.
  replace (p_y o - s_y s + (s_y s - s_y s')) with (p_y o - s_y s') in A by ring.
  replace (p_x o - s_x s' + (s_x s' - s_x s)) with (p_x o - s_x s) in B by ring.
  replace (p_y o - s_y s' + (s_y s' - s_y s)) with (p_y o - s_y s) in B by ring.
  apply Rabs_le. lra.
Qed.

Lemma Zrint_same x y : (forall z : Z, Rabs (y - x) < Rabs (x - (IZR z + / 2))) -> Zrint y = Zrint x.
Proof.
  intros H. symmetry. pose proof (Zrint_near y) as Hn. set (z := Zrint y) in *. clearbody z. apply Rabs_le_inv in Hn.
  apply Zrint_unique. pose proof (H z) as H1. pose proof (H (z - 1)%Z) as H2. rewrite minus_IZR in H2.
  apply Rabs_def1.
  - apply Rnot_le_lt. intros L. rewrite (Rabs_pos_eq (x - (IZR z + / 2))) in H1 by lra. rewrite Rabs_left1 in H1; lra.
  - apply Rnot_le_lt. intros L. rewrite (Rabs_left1 (x - (IZR z - 1 + / 2))) in H2 by lra. rewrite Rabs_pos_eq in H2; lra.
Qed.

Section Move.
  Context (q : rpar) (delay delta rho : R) (o : pos).
  Hypothesis (Hcp : 0 < p_cp q) (Hdt : 0 < p_dt q) (Hv : 0 < p_v q) (Hrho : 0 <= rho <= / 4) (Hdelta : 0 <= delta).

  Lemma arrival_move s' s : near_src delta s' s ->
    Rabs (arrival q delay o s' - arrival q delay o s) <= 1000 * delta / p_cp q / p_dt q.
  Proof.
    intros Hn. pose proof (dist_move delta o s' s Hn) as Hd. destruct Hn as (_ & _ & Ht & _). unfold arrival. rewrite Ht.
    set (r' := SpecRayleigh.dist o s') in *. set (r := SpecRayleigh.dist o s) in *. clearbody r r'.
    replace ((1000 * r' / p_cp q - delay + s_tau s) / p_dt q - (1000 * r / p_cp q - delay + s_tau s) / p_dt q)
      with ((r' - r) * (1000 / p_cp q / p_dt q)) by (field; lra).
    assert (P : 0 <= 1000 / p_cp q / p_dt q) by (apply Rlt_le, Rdiv_lt_0_compat; [apply Rdiv_lt_0_compat|]; lra).
    rewrite Rabs_mult, (Rabs_pos_eq (1000 / p_cp q / p_dt q)) by exact P.
    replace (1000 * delta / p_cp q / p_dt q) with (delta * (1000 / p_cp q / p_dt q)) by (field; lra).
    apply Rmult_le_compat_r; assumption.
  Qed.

  (** One point. *)
  Lemma point_move s' s : near_src delta s' s -> powerRZ 2 (-99) <= SpecRayleigh.dist o s -> delta <= rho * SpecRayleigh.dist o s ->
    (forall z : Z, 6 * eps * ((1000 * SpecRayleigh.dist o s / p_cp q + Rabs delay) / p_dt q) + 2000 * delta / p_cp q / p_dt q
       < Rabs (arrival q delay o s - (IZR z + / 2))) ->
    powerRZ 2 (-100) <= SpecRayleigh.dist o s' /\
    (forall z : Z, 6 * eps * ((1000 * SpecRayleigh.dist o s' / p_cp q + Rabs delay) / p_dt q) < Rabs (arrival q delay o s' - (IZR z + / 2))) /\
    arrives_at q delay o s' = arrives_at q delay o s /\
    (0 <= s_ds s -> (1 - rho) * strength q 1 o s <= strength q 1 o s' <= (1 + 4 / 3 * rho) * strength q 1 o s).
  Proof.
    intros Hn H99 Hr Hm. pose proof (arrival_move s' s Hn) as Ha. pose proof (dist_move delta o s' s Hn) as Hd.
    assert (E99 : powerRZ 2 (-99) = 2 * powerRZ 2 (-100)).
    { change (-99)%Z with (1 + -100)%Z. rewrite powerRZ_add by lra. rewrite powerRZ_1. reflexivity. }
    assert (P100 : 0 < powerRZ 2 (-100)) by (apply powerRZ_lt; lra).
    assert (He : 0 < eps <= / 1000).
    { unfold eps. replace (powerRZ 2 (-52)) with (/ powerRZ 2 (Z.of_nat 52)) by (symmetry; exact (powerRZ_neg' 2 (Z.of_nat 52))). rewrite <- pow_powerRZ, pow_IZR.
      change (2 ^ Z.of_nat 52)%Z with 4503599627370496%Z. lra. }
    set (r := SpecRayleigh.dist o s) in *. set (r' := SpecRayleigh.dist o s') in *.
    assert (Pr : 0 < r) by lra. apply Rabs_le_inv in Hd.
    assert (L1 : (1 - rho) * r <= r') by nra. assert (L2 : r' <= (1 + rho) * r) by nra.
    set (D := 1000 * delta / p_cp q / p_dt q) in *.
    assert (HD : 0 <= D).
    { unfold D. apply Rmult_le_pos; [|apply Rlt_le, Rinv_0_lt_compat, Hdt]. apply Rmult_le_pos; [lra|apply Rlt_le, Rinv_0_lt_compat, Hcp]. }
    assert (E2 : 2000 * delta / p_cp q / p_dt q = 2 * D) by (unfold D; field; lra).
    assert (Pos0 : 0 <= 6 * eps * ((1000 * r / p_cp q + Rabs delay) / p_dt q)).
    { apply Rmult_le_pos; [lra|]. apply Rmult_le_pos; [|apply Rlt_le, Rinv_0_lt_compat, Hdt].
      apply Rplus_le_le_0_compat; [|apply Rabs_pos]. apply Rmult_le_pos; [lra|apply Rlt_le, Rinv_0_lt_compat, Hcp]. }
    split; [nra|]. split; [|split].
    - intros z. specialize (Hm z). rewrite E2 in Hm.
      assert (T1 : 6 * eps * ((1000 * r' / p_cp q + Rabs delay) / p_dt q) <= 6 * eps * ((1000 * r / p_cp q + Rabs delay) / p_dt q) + 6 * eps * D).
      { rewrite <- Rmult_plus_distr_l. apply Rmult_le_compat_l; [lra|].
        replace ((1000 * r / p_cp q + Rabs delay) / p_dt q + D) with ((1000 * (r + delta) / p_cp q + Rabs delay) / p_dt q) by (unfold D; field; lra).
        apply Rmult_le_compat_r; [apply Rlt_le, Rinv_0_lt_compat, Hdt|]. apply Rplus_le_compat_r.
        apply Rmult_le_compat_r; [apply Rlt_le, Rinv_0_lt_compat, Hcp|]. lra. }
      assert (T2 : 6 * eps * D <= / 100 * D) by (apply Rmult_le_compat_r; lra).
      pose proof (Rabs_triang_inv (arrival q delay o s - (IZR z + / 2)) (arrival q delay o s - arrival q delay o s')) as T3.
      replace (arrival q delay o s - (IZR z + / 2) - (arrival q delay o s - arrival q delay o s')) with (arrival q delay o s' - (IZR z + / 2)) in T3 by ring.
      rewrite (Rabs_minus_sym (arrival q delay o s) (arrival q delay o s')) in T3. 
      destruct HD as [HD|HD]; [lra|]. rewrite <- HD in *. lra.
    - apply Zrint_same. intros z. specialize (Hm z). rewrite E2 in Hm. lra.
    - destruct Hn as (_ & Hds & _ & _). intros Hp. unfold strength. fold r r'. rewrite Hds.
      set (C := 1000 * 1 * p_v q * s_ds s / (2 * PI * p_dt q)).
      pose proof PI_RGT_0 as HPI.
      assert (HC : 0 <= C).
      { unfold C. apply Rmult_le_pos; [|apply Rlt_le, Rinv_0_lt_compat; apply Rmult_lt_0_compat; lra]. apply Rmult_le_pos; [lra|exact Hp]. }
      assert (Pr' : 0 < r') by nra.
      replace (1000 * 1 * p_v q * s_ds s / (2 * PI * r * p_dt q)) with (C * / r) by (unfold C; field; repeat split; lra).
      replace (1000 * 1 * p_v q * s_ds s / (2 * PI * r' * p_dt q)) with (C * / r') by (unfold C; field; repeat split; lra).
      clearbody C. assert (I1 : (1 - rho) * / r <= / r').
      { apply Rmult_le_reg_r with (r * r'); [apply Rmult_lt_0_compat; assumption|].
        replace ((1 - rho) * / r * (r * r')) with ((1 - rho) * r') by (field; lra). replace (/ r' * (r * r')) with r by (field; lra). nra. }
      assert (I2 : / r' <= (1 + 4 / 3 * rho) * / r).
      { apply Rmult_le_reg_r with (r * r'); [apply Rmult_lt_0_compat; assumption|].
        replace ((1 + 4 / 3 * rho) * / r * (r * r')) with ((1 + 4 / 3 * rho) * r') by (field; lra). replace (/ r' * (r * r')) with r by (field; lra).
        apply Rle_trans with ((1 + 4 / 3 * rho) * ((1 - rho) * r)); [|apply Rmult_le_compat_l; lra].
        assert (0 <= (/ 4 - rho) * rho) by (apply Rmult_le_pos; lra). nra. }
      split.
      + replace ((1 - rho) * (C * / r)) with (C * ((1 - rho) * / r)) by ring. now apply Rmult_le_compat_l.
      + replace ((1 + 4 / 3 * rho) * (C * / r)) with (C * ((1 + 4 / 3 * rho) * / r)) by ring. now apply Rmult_le_compat_l.
  Qed.

  (** All points. *)
  Lemma move_all K ss' ss : Forall2 (near_src delta) ss' ss -> Forall (fun s => 0 <= s_ds s) ss ->
    INR (length ss) <= powerRZ 2 50 -> exact_ordinary_call K q delay delta rho o ss ->
    ordinary_call K q delay o ss' /\
    forall k, (1 - rho) * rayleigh q 1 delay o ss k <= rayleigh q 1 delay o ss' k <= (1 + 4 / 3 * rho) * rayleigh q 1 delay o ss k.
  Proof.
    intros HF Hds Hlen [H1 H2 H3].
    assert (EQ : forall al, incl ss al -> Forall2 (fun s' s => powerRZ 2 (-100) <= SpecRayleigh.dist o s' /\
      (forall z : Z, 6 * eps * ((1000 * SpecRayleigh.dist o s' / p_cp q + Rabs delay) / p_dt q) < Rabs (arrival q delay o s' - (IZR z + / 2))) /\
      arrives_at q delay o s' = arrives_at q delay o s /\ In s al /\
      ((1 - rho) * strength q 1 o s <= strength q 1 o s' <= (1 + 4 / 3 * rho) * strength q 1 o s)) ss' ss).
    { clear H3 Hlen.
      induction HF as [|s' s ss' ss Hs HF IH]; intros al Hi; constructor.
      - inversion Hds as [|? ? Hd0 Hd1]; subst. destruct (H1 s (or_introl eq_refl)) as [Ha Hb].
        destruct (point_move s' s Hs Ha Hb (H2 s (or_introl eq_refl))) as (P1 & P2 & P3 & P4). repeat split; auto.
        + apply Hi. now left.
        + now apply P4.
        + now apply P4.
      - inversion Hds; subst. apply IH; auto.
        + intros z Hz. apply H1. now right.
        + intros z Hz. apply H2. now right.
        + intros z Hz. apply Hi. now right. }
    specialize (EQ ss (incl_refl ss)). split.
    - constructor.
      + clear - EQ. intros s Hs. induction EQ as [|s' t ss' tt He EQ IH]; [destruct Hs|]. destruct Hs as [<-|Hs]; [exact (proj1 He)|auto].
      + clear - EQ. intros s Hs. induction EQ as [|s' t ss' tt He EQ IH]; [destruct Hs|]. destruct Hs as [<-|Hs]; [exact (proj1 (proj2 He))|exact (IH Hs)].
      + clear - EQ H3. intros s Hs. unfold samples_fit in H3. remember ss as tt in EQ at 2. clear Heqtt.
        induction EQ as [|s' t ss' tt He EQ IH]; [destruct Hs|]. destruct Hs as [<-|Hs]; [|exact (IH Hs)].
        destruct He as (_ & _ & E & Hin & _). rewrite E. apply H3, Hin.
      + assert (length ss' = length ss) by (clear - HF; induction HF; cbn; congruence). now rewrite H.
    - intros k. unfold rayleigh. clear - EQ. remember ss as al in EQ at 1. clear Heqal.
      induction EQ as [|s' t ss' tt He EQ IH]; cbn [map Rsum fold_right].
      + lra.
      + destruct He as (_ & _ & E & _ & He). rewrite E. fold (Rsum (map (fun s => if Z.eqb (arrives_at q delay o s) k then strength q 1 o s else 0) ss')).
        fold (Rsum (map (fun s => if Z.eqb (arrives_at q delay o s) k then strength q 1 o s else 0) tt)).
        destruct (Z.eqb _ k); lra.
  Qed.
End Move.

Section Libm.
  Context (fsin fcos fatan fasin facos fexp flog : PrimFloat.float -> PrimFloat.float).
  Local Notation F := (FN fsin fcos fatan fasin facos fexp flog).
  Local Notation points := (double_points fsin fcos fatan fasin facos fexp flog).
  Local Notation Q := (val_par fsin fcos fatan fasin facos fexp flog).
  Local Notation O := (val_pos fsin fcos fatan fasin facos fexp flog).
  Local Notation src := (val_source fsin fcos fatan fasin facos fexp flog).
  Local Notation flat_T := (flat_T fsin fcos fatan fasin facos fexp flog).
  Local Notation ordinary_par := (ordinary_par fsin fcos fatan fasin facos fexp flog).
  Local Notation even := (even_aperture fsin fcos fatan fasin facos fexp flog).

  Lemma Forall2_app' {A B} (P : A -> B -> Prop) l1 m1 l2 m2 : Forall2 P l1 m1 -> Forall2 P l2 m2 -> Forall2 P (l1 ++ l2) (m1 ++ m2).
  Proof. intros H1 H2. induction H1; cbn [app]; auto. Qed.
  Lemma row_pairs (q : samp F) (ddx ddy : R) (y : F) Y (xs : list F) XS : Forall2 (fun (x : F) X => Rabs (val x - X) <= ddx) xs XS -> Rabs (val y - Y) <= ddy ->
    Forall2 (near_src (ddx + ddy)) (map (src q) (map (fun x => (x, y)) xs)) (map (fun '(x, y) => flat (val (dx q) * val (dy q)) x y) (map (fun x => (x, Y)) XS)).
  Proof.
    intros H Hy. induction H as [|x X xs XS Hx H IH]; cbn [map]; constructor; [|exact IH].
    unfold near_src, val_source, flat. cbn [s_x s_y s_z s_ds s_tau fst snd]. repeat split; lra.
  Qed.
  Lemma rows_pairs fuel (q : samp F) (ddx ddy : R) (lo hi : F) (xs : list F) XS (ys : list F) YS :
    double_midpoints fsin fcos fatan fasin facos fexp flog fuel lo hi (dx q) = Some xs ->
    Forall2 (fun (x : F) X => Rabs (val x - X) <= ddx) xs XS -> Forall2 (fun (y : F) Y => Rabs (val y - Y) <= ddy) ys YS ->
    exists pts, concat_opt (map (double_row fsin fcos fatan fasin facos fexp flog fuel lo hi (dx q)) ys) = Some pts /\
      Forall2 (near_src (ddx + ddy)) (map (src q) pts)
        (map (fun '(x, y) => flat (val (dx q) * val (dy q)) x y) (flat_map (fun y => map (fun x => (x, y)) XS) YS)).
  Proof.
    intros E HX HY. induction HY as [|y Y ys YS Hy HY IH]; cbn [map concat_opt flat_map].
    - exists []. split; [reflexivity|constructor].
    - destruct IH as (pts & Ep & Hp). exists (map (fun x => (x, y)) xs ++ pts). unfold double_row at 1. rewrite E. cbn [option_map].
      rewrite Ep. split; [reflexivity|]. rewrite !map_app. apply Forall2_app'; [|exact Hp]. now apply row_pairs.
  Qed.
  Lemma length_pairs {A B} (P : A -> B -> Prop) l m : Forall2 P l m -> length l = length m.
  Proof. induction 1; cbn [length]; congruence. Qed.

  Lemma length_rows {A B} (f : A -> B -> A * B) (xs : list A) (ys : list B) :
    length (flat_map (fun y => map (fun x => (x, y)) xs) ys) = (length ys * length xs)%nat.
  Proof. induction ys as [|y ys IH]; cbn [flat_map length]; [reflexivity|]. rewrite app_length, map_length, IH. lia. Qed.

  Lemma side_ok fuel (a d : F) n : whole_side a d n -> ordinary_pos d -> (n <= fuel)%nat ->
    exists l, double_midpoints fsin fcos fatan fasin facos fexp flog fuel (- a / 2)%float (a / 2)%float d = Some l /\
      length (midpoints (- val a / 2) (val a / 2) (val d)) = n /\
      Forall2 (fun (x : F) X => Rabs (val x - X) <= drift a d n) l (midpoints (- val a / 2) (val a / 2) (val d)).
  Proof.
    intros (Ha & Hn & Hm) Hd Hf. destruct (side_near fsin fcos fatan fasin facos fexp flog fuel a d n Ha Hd Hn Hm Hf) as (l & E & En & HF).
    exists l. split; [exact E|]. split; [|exact HF]. rewrite <- En, map_length. apply seq_length.
  Qed.
  Lemma ordinary_of a : ordinary_pos a -> ordinary a.
  Proof.
    intros [H1 H2]. split; [exact H1|]. assert (0 < powerRZ 2 (-100)) by (apply powerRZ_lt; lra). rewrite Rabs_pos_eq; lra.
  Qed.
  Lemma drift_pos (a d : F) n : ordinary_pos a -> ordinary_pos d -> 0 <= drift a d n.
  Proof.
    intros [_ H1] [_ H2]. assert (0 < powerRZ 2 (-100)) by (apply powerRZ_lt; lra). unfold drift, eps.
    assert (0 < powerRZ 2 (-52)) by (apply powerRZ_lt; lra).
    apply Rmult_le_pos; [|lra]. apply Rmult_le_pos; [apply pos_INR|lra].
  Qed.
  Lemma many_ok (n : nat) : (Z.of_nat n <= 2 ^ 48)%Z -> INR n <= powerRZ 2 50.
  Proof.
    intros H. apply Rle_trans with (IZR (2 ^ 48)); [rewrite INR_IZR_INZ; now apply IZR_le|].
    change 50%Z with (Z.of_nat 50). rewrite <- pow_powerRZ, pow_IZR. apply IZR_le. now vm_compute.
  Qed.

  Lemma even_points fuel (q : samp F) T g n delta : even q T g n delta -> ordinary_pos (dx q) -> ordinary_pos (dy q) -> (n <= fuel)%nat ->
    flat_T T /\ 0 <= delta /\ Forall (fun s => 0 <= s_ds s) (sources (Q q) g) /\ INR (length (sources (Q q) g)) <= powerRZ 2 50 /\
    exists pts, points fuel T q = Some pts /\ Forall2 (near_src delta) (map (src q) pts) (sources (Q q) g).
  Proof.
    intros HE Hdx Hdy Hf. 
    assert (Hds : 0 <= val (dx q) * val (dy q)).
    { destruct Hdx as [_ H1], Hdy as [_ H2]. assert (0 < powerRZ 2 (-100)) by (apply powerRZ_lt; lra). apply Rmult_le_pos; lra. }
    destruct HE as [a b nx ny Ha Hb|a nx Ha].
    - destruct (side_ok fuel a (dx q) nx Ha Hdx ltac:(lia)) as (xs & Ex & Lx & HX).
      destruct (side_ok fuel b (dy q) ny Hb Hdy ltac:(lia)) as (ys & Ey & Ly & HY).
      split; [split; apply ordinary_of; [apply Ha|apply Hb]|]. split.
      { apply Rplus_le_le_0_compat; apply drift_pos; auto; [apply Ha|apply Hb]. }
      cbn [sources]. unfold rect_xy. cbn [p_dx p_dy val_par]. split; [|split].
      + rewrite Forall_map. apply Forall_forall. intros [x y] _. exact Hds.
      + rewrite map_length, (length_rows pair), Lx, Ly. apply many_ok. destruct Ha as (_ & _ & Ha), Hb as (_ & _ & Hb).
        clear - Ha Hb. change (2 ^ 24)%Z with 16777216%Z in *. change (2 ^ 48)%Z with (16777216 * 16777216)%Z. rewrite Nat2Z.inj_mul. nia.
      + cbn [double_points]. rewrite Ey. exact (rows_pairs fuel q _ _ _ _ xs _ ys _ Ex HX HY).
    - destruct (side_ok fuel a (dx q) nx Ha Hdx Hf) as (xs & Ex & Lx & HX).
      split; [apply ordinary_of; apply Ha|]. split; [apply drift_pos; auto; apply Ha|].
      cbn [sources]. cbn [p_dx p_dy val_par]. split; [|split].
      + rewrite Forall_map. apply Forall_forall. intros x _. exact Hds.
      + rewrite map_length, Lx. apply many_ok. destruct Ha as (_ & _ & Ha). clear - Ha. change (2 ^ 24)%Z with 16777216%Z in *. change (2 ^ 48)%Z with (16777216 * 16777216)%Z. nia.
      + cbn [double_points]. unfold double_row. rewrite Ex. cbn [option_map]. eexists. split; [reflexivity|].
        replace (drift a (dx q) nx) with (drift a (dx q) nx + 0) by ring.
        pose proof (row_pairs q (drift a (dx q) nx) 0 (0%float : F) 0 xs _ HX) as Hrow.
        rewrite (map_map (fun x => (x, 0)) (fun '(x, y) => flat (val (dx q) * val (dy q)) x y)) in Hrow. apply Hrow.
        change (val 0%float) with 0. rewrite Rminus_0_r, Rabs_R0. lra.
  Qed.

  Lemma combine_close n v v' rho r : 0 <= rho <= / 4 -> 0 <= v -> INR n <= powerRZ 2 50 ->
    (1 - rho) * v <= v' <= (1 + 4 / 3 * rho) * v -> close_sample n v' r -> near_sample n rho v r.
  Proof.
    intros Hr Hv Hn H [H1 H2]. split; [exact H1|]. set (E := (INR n + 13) * eps) in *.
    assert (HE : 0 <= E <= / 3).
    { unfold E. pose proof (pos_INR n). assert (He : eps = / 4503599627370496).
      { unfold eps. replace (powerRZ 2 (-52)) with (/ powerRZ 2 (Z.of_nat 52)) by (symmetry; exact (powerRZ_neg' 2 (Z.of_nat 52))). rewrite <- pow_powerRZ, pow_IZR. reflexivity. }
      assert (E50 : powerRZ 2 50 = 1125899906842624).
      { change 50%Z with (Z.of_nat 50). rewrite <- pow_powerRZ, pow_IZR. reflexivity. }
      rewrite E50 in Hn. rewrite He. lra. }
    clearbody E. replace (val r - v) with ((val r - v') + (v' - v)) by ring. apply Rle_trans with (1 := Rabs_triang _ _).
    assert (A : Rabs (v' - v) <= 4 / 3 * rho * v) by (apply Rabs_le; nra).
    assert (B : E * v' <= E * ((1 + 4 / 3 * rho) * v)) by (apply Rmult_le_compat_l; lra).
    assert (C : E * (rho * v) <= / 3 * (rho * v)).
    { apply Rmult_le_compat_r; [apply Rmult_le_pos; lra|lra]. }
    assert (0 <= rho * v) by (apply Rmult_le_pos; lra). nra.
  Qed.

  Lemma rayleigh_pos (q : rpar) delay o ss k : 0 < p_v q -> 0 < p_dt q -> Forall (fun s => 0 <= s_ds s) ss ->
    (forall s, In s ss -> 0 < SpecRayleigh.dist o s) -> 0 <= rayleigh q 1 delay o ss k.
  Proof.
    intros Hv Hdt Hds Hd. unfold rayleigh. induction Hds as [|s ss Hs Hds IH]; cbn [map Rsum fold_right]; [lra|].
    apply Rplus_le_le_0_compat; [|apply IH; intros t Ht; apply Hd; now right].
    destruct (Z.eqb _ k); [|lra]. unfold strength. pose proof PI_RGT_0. specialize (Hd s (or_introl eq_refl)).
    apply Rmult_le_pos; [|apply Rlt_le, Rinv_0_lt_compat; apply Rmult_lt_0_compat; [apply Rmult_lt_0_compat|]; lra].
    apply Rmult_le_pos; [lra|exact Hs].
  Qed.

  (** C102: what the user gets from dreamrect and dreamline, in doubles, for
      every front end, number of workers, schedule and content of fresh memory,
      against the exact integral of the exact aperture. *)
  Theorem C102_exact_accuracy : forall fuel c2r fe f nlhs hw env sch (junk : list F) args (T : transducer F) q l No ro dty del g steps delta rho,
    documented fe f args T q (0%float : F) l No ro dty del -> l = lvl_ignore \/ l = lvl_warn ->
    (0 <= nlhs <= 2)%Z -> (0 <= nt q)%Z -> keeps_length c2r -> (0 <= hw)%Z -> runs_to_end hw env No sch ->
    ordinary_par q -> Forall ordinary ro -> Forall ordinary del ->
    even q T g steps delta -> (steps <= fuel)%nat -> 0 <= rho <= / 4 ->
    let xo n := nth n ro (0%float : F) in
    let yo n := nth (n + Z.to_nat No) ro (0%float : F) in
    let zo n := nth (n + 2 * Z.to_nat No) ro (0%float : F) in
    let delay n := nth (match dty with delay_single => 0 | delay_multiple => n end)%nat del (0%float : F) in
    (forall n, (n < Z.to_nat No)%nat ->
       exact_ordinary_call (idx_of fe) (Q q) (val (delay n)) delta rho (O (xo n) (yo n) (zo n)) (sources (Q q) g)) ->
    exists H w e,
      gateway fuel c2r fe f nlhs hw env sch junk args = Ok (Some (Returned H (nt q) No w e)) /\
      length H = Z.to_nat (nt q * No) /\
      forall n k, (n < Z.to_nat No)%nat -> (k < Z.to_nat (nt q))%nat ->
        exists r, nth_error H (n * Z.to_nat (nt q) + k) = Some r /\
          near_sample (length (sources (Q q) g)) rho
            (rayleigh (Q q) 1 (val (delay n)) (O (xo n) (yo n) (zo n)) (sources (Q q) g) (Z.of_nat k)) r.
  Proof.
    intros fuel c2r fe f nlhs hw env sch junk args T q l No ro dty del g steps delta rho D Hl Hlhs Hnt Hk Hhw Hsch Hq Hro Hdel HE Hfuel Hrho xo yo zo delay Hcall.
    destruct (even_points fuel q T g steps delta HE (proj1 Hq) (proj1 (proj2 Hq)) Hfuel) as (HT & Hdelta & Hds & Hmany & pts & Ep & HF).
    assert (P : forall x, ordinary_pos x -> 0 < val x).
    { intros x [_ Hx]. assert (0 < powerRZ 2 (-100)) by (apply powerRZ_lt; lra). lra. }
    destruct Hq as (Q1 & Q2 & Q3 & Q4 & Q5). pose proof (P _ Q3) as P3. pose proof (P _ Q4) as P4. pose proof (P _ Q5) as P5.
    assert (MV : forall n, (n < Z.to_nat No)%nat -> ordinary_call (idx_of fe) (Q q) (val (delay n)) (O (xo n) (yo n) (zo n)) (map (src q) pts) /\
      forall k, (1 - rho) * rayleigh (Q q) 1 (val (delay n)) (O (xo n) (yo n) (zo n)) (sources (Q q) g) k
        <= rayleigh (Q q) 1 (val (delay n)) (O (xo n) (yo n) (zo n)) (map (src q) pts) k
        <= (1 + 4 / 3 * rho) * rayleigh (Q q) 1 (val (delay n)) (O (xo n) (yo n) (zo n)) (sources (Q q) g) k).
    { intros n Hn. apply (move_all (Q q) (val (delay n)) delta rho _ P5 P3 P4 Hrho Hdelta (idx_of fe) _ _ HF Hds Hmany). now apply Hcall. }
    destruct (C99_flat_accuracy fsin fcos fatan fasin facos fexp flog fuel c2r fe f nlhs hw env sch junk args T q l No ro dty del pts D Hl Hlhs Hnt Hk Hhw Hsch HT
      (conj Q1 (conj Q2 (conj Q3 (conj Q4 Q5)))) Hro Hdel Ep (fun n Hn => proj1 (MV n Hn))) as (H & w & e & EH & LH & Hs).
    exists H, w, e. split; [exact EH|]. split; [exact LH|]. intros n k Hn Hk'. destruct (Hs n k Hn Hk') as (r & Er & Hr).
    exists r. split; [exact Er|]. apply length_pairs in HF. rewrite map_length in HF. rewrite HF in Hr.
    apply (combine_close _ _ _ rho r Hrho) with (4 := Hr).
    - apply rayleigh_pos; auto. intros s Hs'. destruct (Hcall n Hn) as [Hfar _ _]. destruct (Hfar s Hs') as [Hd _].
      assert (0 < powerRZ 2 (-99)) by (apply powerRZ_lt; lra). lra.
    - exact Hmany.
    - apply (proj2 (MV n Hn)).
  Qed.
End Libm.
Print Assumptions C102_exact_accuracy.

(** ** The hypotheses of C102 hold for the call of C99_ex: sources at (+-1/4, +-1/4),
    drift 2 eps, rho = eps. *)
Local Notation id := (fun x : PrimFloat.float => x).
Lemma eps_val : eps = / 4503599627370496.
Proof.
  unfold eps. replace (powerRZ 2 (-52)) with (/ powerRZ 2 (Z.of_nat 52)) by (symmetry; exact (powerRZ_neg' 2 (Z.of_nat 52))).
  rewrite <- pow_powerRZ, pow_IZR. reflexivity.
Qed.
Lemma ex_sources : sources (FIpar ex_q) (GRect (val 1%float) (val 1%float)) =
  map (fun '(x, y) => flat (val (dx ex_q) * val (dy ex_q)) x y) [(- / 4, - / 4); (/ 4, - / 4); (- / 4, / 4); (/ 4, / 4)].
Proof.
  cbn [sources]. f_equal. unfold rect_xy.
  assert (M : midpoints (- val 1%float / 2) (val 1%float / 2) (val 0.5%float) = [- / 4; / 4]).
  { unfold midpoints. rewrite val_1, val_h. assert (E : SpecRayleigh.count (- (1) / 2 + / 2 / 2) (1 / 2) (/ 2) = 2%nat).
    { unfold SpecRayleigh.count. replace ((1 / 2 - (- (1) / 2 + / 2 / 2)) / / 2) with (3 / 2) by field. rewrite (Zfloor_unique _ 1) by lra. reflexivity. }
    rewrite E. cbn [seq map]. unfold mid. cbn [INR]. f_equal; [lra|]. f_equal. lra. }
  change (p_dx (FIpar ex_q)) with (val 0.5%float). change (p_dy (FIpar ex_q)) with (val 0.5%float). rewrite M. reflexivity.
Qed.
Lemma ex_source2 (x X Y lo hi : R) (z : Z) : (Y = / 4 \/ Y = - / 4) -> 
  1 <= lo -> hi <= 100 -> 0 <= hi -> lo * lo <= (x - X) * (x - X) + / 16 + 100 <= hi * hi -> (1 <= z < 1000)%Z ->
  (IZR z - 0.45) * 0.0401 + 6 <= 1000 * lo / 1500 -> 1000 * hi / 1500 <= (IZR z + 0.45) * 0.0399 + 6 ->
  let o := {| p_x := x; p_y := 0; p_z := 10 |} in let s := flat (val (dx ex_q) * val (dy ex_q)) X Y in
  powerRZ 2 (-99) <= SpecRayleigh.dist o s /\ 2 * eps <= eps * SpecRayleigh.dist o s /\
  (0 <= arrives_at (FIpar ex_q) (val 6%float) o s < 1000)%Z /\
  forall y : Z, 6 * eps * ((1000 * SpecRayleigh.dist o s / p_cp (FIpar ex_q) + Rabs (val 6%float)) / p_dt (FIpar ex_q)) + 2000 * (2 * eps) / p_cp (FIpar ex_q) / p_dt (FIpar ex_q)
    < Rabs (arrival (FIpar ex_q) (val 6%float) o s - (IZR y + / 2)).
Proof.
  intros HY Hlo Hhi Hh [H1 H2] Hz A1 A2 o s.
  assert (HY2 : Y * Y = / 16) by (destruct HY; subst Y; lra).
  assert (D : lo <= SpecRayleigh.dist o s <= hi).
  { unfold SpecRayleigh.dist, o, s, flat. cbn [p_x p_y p_z s_x s_y s_z].
    replace ((x - X)^2 + (0 - Y)^2 + (10 - 0)^2) with ((x - X) * (x - X) + / 16 + 100) by (rewrite <- HY2; ring). split.
    - rewrite <- (sqrt_square lo) by lra. now apply sqrt_le_1_alt.
    - rewrite <- (sqrt_square hi) by lra. now apply sqrt_le_1_alt. }
  unfold arrives_at, arrival. change (s_tau s) with 0. set (r := SpecRayleigh.dist o s) in *. clearbody r. clear o s.
  assert (Hz1 : 1 <= IZR z) by (apply IZR_le; lia).
  pose proof eps_val as He.
  assert (E99 : powerRZ 2 (-99) = 2 * powerRZ 2 (-100)).
  { change (-99)%Z with (1 + -100)%Z. rewrite powerRZ_add by lra. rewrite powerRZ_1. reflexivity. }
  change (p_cp (FIpar ex_q)) with (val 1500%float). rewrite val_1500, val_6, (Rabs_pos_eq 6) by lra.
  pose proof val_dt as Hd. change (p_dt (FIpar ex_q)) with (val 0x1.47ae147ae147bp-5%float). set (d := val 0x1.47ae147ae147bp-5%float) in *. clearbody d.
  set (t := 1000 * r / 1500) in *. assert (Ht : 0 <= t <= 70) by (unfold t; lra).
  assert (Ht2 : (IZR z - 0.45) * 0.0401 + 6 <= t <= (IZR z + 0.45) * 0.0399 + 6) by (unfold t; lra). 
  assert (Hrr : 2 * eps <= eps * r) by (rewrite He; lra). clearbody t.
  assert (A : IZR z - 0.45 <= (t - 6 + 0) / d <= IZR z + 0.45).
  { split; apply Rmult_le_reg_r with d; try lra; unfold Rdiv; rewrite Rmult_assoc, Rinv_l, Rmult_1_r by lra; nra. }
  set (v := (t - 6 + 0) / d) in *. clearbody v. split; [rewrite E99, small2; lra|]. split; [exact Hrr|]. split.
  - rewrite (Zrint_unique _ z); [lia|]. apply Rabs_def1; lra.
  - intros y. apply Rlt_le_trans with 0.05.
    + assert (E : (t + 6) / d <= 2000).
      { apply Rmult_le_reg_r with d; [lra|]. unfold Rdiv. rewrite Rmult_assoc, Rinv_l, Rmult_1_r by lra. lra. }
      assert (E0 : 0 <= (t + 6) / d) by (apply Rlt_le, Rdiv_lt_0_compat; lra).
      assert (E3 : 2000 * (2 * eps) / 1500 / d <= 2000 * eps).
      { apply Rmult_le_reg_r with d; [lra|]. unfold Rdiv. rewrite Rmult_assoc, Rinv_l, Rmult_1_r by lra. rewrite He. lra. }
      set (w := (t + 6) / d) in *. clearbody w. rewrite He in *. lra.
    + destruct (Z_le_gt_dec y (z - 1)) as [Hy|Hy].
      * assert (IZR y <= IZR z - 1) by (rewrite <- minus_IZR; now apply IZR_le). rewrite Rabs_pos_eq; lra.
      * assert (IZR z <= IZR y) by (apply IZR_le; lia). rewrite Rabs_left1; lra.
Qed.

Local Open Scope string_scope.
Local Open Scope R_scope.
Example C102_ex : forall fe,
  documented fe FRect (rect_args [VStr "warn"]) (@TRect FI 1%float 1%float) ex_q 0%float lvl_warn 3
    ([0; 1; 2] ++ [0; 0; 0] ++ [10; 10; 10])%float delay_single [6%float] /\
  even_aperture id id id id id id id ex_q (@TRect FI 1%float 1%float) (GRect (val 1%float) (val 1%float)) 2 (2 * eps) /\
  length (sources (FIpar ex_q) (GRect (val 1%float) (val 1%float))) = 4%nat /\
  forall n, (n < 3)%nat -> exact_ordinary_call (idx_of fe) (FIpar ex_q) (val 6%float) (2 * eps) eps
    (FIpos (nth n [0; 1; 2]%float 0%float) 0%float 10%float) (sources (FIpar ex_q) (GRect (val 1%float) (val 1%float))).
Proof.
  intros fe. split; [apply C41_nonvacuous|]. split; [|split; [rewrite ex_sources; reflexivity|]].
  - assert (W : whole_side 1%float 0.5%float 2).
    { unfold whole_side. split; [apply ord_pp; [reflexivity|rewrite val_1; lra]|]. split; [|now vm_compute].
      rewrite val_1, val_h. cbn [INR]. rewrite Rabs_pos_eq; lra. }
    replace (2 * eps) with (drift 1%float (dx ex_q) 2 + drift 1%float (dy ex_q) 2).
    + exact (even_rect id id id id id id id ex_q 1%float 1%float 2 2 W W).
    + change (dx ex_q) with 0.5%float. change (dy ex_q) with 0.5%float. unfold drift. rewrite val_1, val_h. cbn [INR]. lra.
  - intros n Hn. rewrite ex_sources. set (x := nth n [0; 1; 2]%float 0%float).
    assert (Hx : val x = 0 \/ val x = 1 \/ val x = 2).
    { unfold x. destruct n as [|[|[|n]]]; cbn [nth]; [left; reflexivity|right; left; apply val_1|right; right; apply val_2|lia]. }
    assert (EO : FIpos x 0%float 10%float = {| p_x := val x; p_y := 0; p_z := 10 |}).
    { unfold FIpos, val_pos. rewrite val_10. reflexivity. }
    rewrite EO. clearbody x. clear n Hn EO.
    assert (P : forall s, In s (map (fun '(x, y) => flat (val (dx ex_q) * val (dy ex_q)) x y) [(- / 4, - / 4); (/ 4, - / 4); (- / 4, / 4); (/ 4, / 4)]) ->
      let o := {| p_x := val x; p_y := 0; p_z := 10 |} in
      powerRZ 2 (-99) <= SpecRayleigh.dist o s /\ 2 * eps <= eps * SpecRayleigh.dist o s /\
      (0 <= arrives_at (FIpar ex_q) (val 6%float) o s < 1000)%Z /\
      forall y : Z, 6 * eps * ((1000 * SpecRayleigh.dist o s / p_cp (FIpar ex_q) + Rabs (val 6%float)) / p_dt (FIpar ex_q)) + 2000 * (2 * eps) / p_cp (FIpar ex_q) / p_dt (FIpar ex_q)
        < Rabs (arrival (FIpar ex_q) (val 6%float) o s - (IZR y + / 2))).
    { intros s Hs. cbn [map In] in Hs.
      assert (E : exists X Y, (X = / 4 \/ X = - / 4) /\ (Y = / 4 \/ Y = - / 4) /\ s = flat (val (dx ex_q) * val (dy ex_q)) X Y).
      { destruct Hs as [<-|[<-|[<-|[<-|[]]]]]; eexists _, _; (split; [|split; [|reflexivity]]); auto. }
      destruct E as (X & Y & HX & HY & ->).
      destruct Hx as [Hx|[Hx|Hx]]; destruct HX as [-> | ->]; rewrite Hx.
      - apply (ex_source2 _ _ _ 10.006 10.007 17); auto; try lra; lia.
      - apply (ex_source2 _ _ _ 10.006 10.007 17); auto; try lra; lia.
      - apply (ex_source2 _ _ _ 10.031 10.032 17); auto; try lra; lia.
      - apply (ex_source2 _ _ _ 10.0809 10.081 18); auto; try lra; lia.
      - apply (ex_source2 _ _ _ 10.155 10.156 19); auto; try lra; lia.
      - apply (ex_source2 _ _ _ 10.253 10.2531 21); auto; try lra; lia. }
    split.
    + intros s Hs. split; apply (P s Hs).
    + intros s Hs z. apply (P s Hs).
    + intros s Hs. destruct (P s Hs) as (_ & _ & A & _). destruct (idx_of fe); lia.
Qed.
