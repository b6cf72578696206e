(** PropTermF.v - property theorems: termination in doubles (C12). *)
From Coq Require Import Floats Uint63.
From Coq Require Import Reals Lra Lia ZArith List Bool.
From Flocq Require Import Core Mult_error BinarySingleNaN PrimFloat.
From Verif Require Import Base BaseLemmas NumF ModelSir ModelArr SpecSir ProofsEnum ProofsErr ProofsTermF SpecTermF PropErr ExJob.
Import ListNotations.
Open Scope R_scope.

Lemma fin_is x : PrimFloat.is_finite x = true -> fin x = true.
Proof. unfold fin. now rewrite is_finite_equiv. Qed.

Lemma ltb_pos d : fin d = true -> PrimFloat.ltb 0 d = true -> 0 < V d.
Proof.
  intros Hd. rewrite ltb_equiv. rewrite Bltb_correct; [|vm_compute; reflexivity|exact Hd].
  replace (B2R (Prim2B 0%float)) with 0.
  - unfold V. now destruct (Rlt_bool_spec 0 (B2R (Prim2B d))).
  - unfold Prim2B. rewrite B2R_SF2B. reflexivity.
Qed.

Lemma V_p52 : V 0x1p52%float = bpow radix2 52.
Proof. unfold V, Prim2B. rewrite B2R_SF2B. unfold SF2R. cbn. unfold F2R; cbn. lra. Qed.

Lemma countable_R h d : countable h d ->
  fin h = true /\ fin d = true /\ 0 < V d /\ Rabs (V h) <= bpow radix2 52 * V d.
Proof.
  intros (H1 & H2 & H3 & H4). pose proof (fin_is _ H1) as Fh. pose proof (fin_is _ H2) as Fd.
  pose proof (ltb_pos _ Fd H3) as Hp. repeat split; auto.
  pose proof (Bmult_correct prec emax Hprec Hmax mode_NE (Prim2B 0x1p52%float) (Prim2B d)) as M.
  rewrite <- mul_equiv in M.
  change (round_mode mode_NE) with ZnearestE in M.
  change (B2R (Prim2B 0x1p52%float)) with (V 0x1p52%float) in M. change (B2R (Prim2B d)) with (V d) in M. rewrite V_p52 in M.
  assert (E : rnd (bpow radix2 52 * V d) = bpow radix2 52 * V d).
  { apply round_generic; [typeclasses eauto|]. rewrite Rmult_comm.
    apply (mult_bpow_pos_exact_FLT radix2 (-1074) 53); [apply V_format|lia]. }
  rewrite E in M.
  assert (A : V (PrimFloat.abs h) = Rabs (V h)) by (unfold V; rewrite abs_equiv; apply B2R_Babs).
  assert (FA : fin (PrimFloat.abs h) = true) by (unfold fin; rewrite abs_equiv, is_finite_Babs; exact Fh).
  destruct (Rlt_bool_spec (Rabs (bpow radix2 52 * V d)) (bpow radix2 emax)) as [L|L].
  - destruct M as (M1 & M2 & _). unfold fin in Fd. rewrite Fd in M2.
    assert (F52 : fin (0x1p52 * d)%float = true) by (unfold fin; rewrite M2; vm_compute; reflexivity).
    pose proof (leb_fin _ _ FA F52 H4) as K. rewrite A in K. unfold V in K at 2. rewrite M1 in K. exact K.
  - apply Rle_trans with (bpow radix2 emax); [apply Rlt_le, abs_B2R_lt_emax|].
    rewrite Rabs_pos_eq in L; [exact L|]. pose proof (bpow_gt_0 radix2 52). nra.
Qed.

Lemma fin_half_inv a : fin (a / 2)%float = true -> fin a = true.
Proof.
  unfold fin. rewrite div_equiv. destruct (Prim2B a) as [s|s| |s m e E]; auto.
Qed.

Lemma V_double R : fin (2 * R)%float = true -> V (2 * R)%float = 2 * V R.
Proof.
  intros H. rewrite (fin_V_mult _ _ H), V_two. apply round_generic; [typeclasses eauto|]. rewrite Rmult_comm. change 2 with (bpow radix2 1).
  apply (mult_bpow_pos_exact_FLT radix2 (-1074) 53); [apply V_format|lia].
Qed.

Section Term.
  Context (fsin fcos fatan fasin facos fexp flog : PrimFloat.float -> PrimFloat.float).
  Local Notation F := (FN fsin fcos fatan fasin facos fexp flog).

  Lemma straight_fuel a d : countable (a / 2)%float d -> exists f0, forall f, (f0 <= f)%nat ->
    grid (N:=F) f ((- a) / 2 + d / 2)%float (a / 2)%float d <> None.
  Proof.
    intros H. destruct (countable_R _ _ H) as (F1 & F2 & P & B).
    exists (budget (Rabs (V (a / 2)%float))). intros f Hf.
    apply straight_F; auto. apply fin_half_inv, F1.
  Qed.

  Lemma disc_fuel R (q : samp F) : countable_disc _ _ _ _ _ _ _ R q -> exists f0, forall f, (f0 <= f)%nat ->
    grid (N:=F) f ((- R) + dy q / 2)%float R (dy q) <> None /\
    forall y, grid (N:=F) f ((- PrimFloat.sqrt (R * R - y * y)) + dx q / 2)%float (PrimFloat.sqrt (R * R - y * y)) (dx q) <> None.
  Proof.
    intros (H1 & H2 & H3). destruct (countable_R _ _ H2) as (F1 & F2 & P & B). destruct (countable_R _ _ H3) as (F3 & F4 & P' & B').
    rewrite (V_double _ F1) in B.
    exists (Nat.max (budget (Rabs (2 * V R))) (budget (Rabs (V R)))). intros f Hf. split.
    - apply outer_F; auto. lia.
    - intros y. apply disc_row_F; auto; [apply fin_is, H1| |lia].
      rewrite <- (V_double _ F1). apply abs_B2R_lt_emax.
  Qed.

  Lemma loops_fuel_F (T : transducer F) (q : samp F) : countable_steps _ _ _ _ _ _ _ T q ->
    exists f0, forall f, (f0 <= f)%nat -> loops_T f T q.
  Proof.
    assert (Two : forall a b, countable (a / 2)%float (dx q) /\ countable (b / 2)%float (dy q) ->
      exists f0, forall f, (f0 <= f)%nat -> forall (Sc : scanner F),
        sc_outer Sc = Some {| row_x0 := ((- b) / 2 + dy q / 2)%float : F; row_xmax := (b / 2)%float; row_dx := dy q |} ->
        (forall y, sc_row Sc y = {| row_x0 := ((- a) / 2 + dx q / 2)%float : F; row_xmax := (a / 2)%float; row_dx := dx q |}) -> loops_end f Sc).
    { intros a b [Ha Hb]. destruct (straight_fuel _ _ Ha) as [f1 G1], (straight_fuel _ _ Hb) as [f2 G2].
      exists (Nat.max f1 f2). intros f Hf Sc E1 E2. split.
      - rewrite E1. apply G2. lia.
      - intros y. rewrite E2. apply G1. lia. }
    assert (Disc : forall R, countable_disc _ _ _ _ _ _ _ R q -> exists f0, forall f, (f0 <= f)%nat -> forall (Sc : scanner F),
        sc_outer Sc = Some {| row_x0 := ((- R) + dy q / 2)%float : F; row_xmax := R; row_dx := dy q |} ->
        (forall y, sc_row Sc y = {| row_x0 := ((- PrimFloat.sqrt (R * R - y * y)) + dx q / 2)%float : F;
                                    row_xmax := PrimFloat.sqrt (R * R - y * y)%float; row_dx := dx q |}) -> loops_end f Sc).
    { intros R HR. destruct (disc_fuel R q HR) as [f0 G]. exists f0. intros f Hf Sc E1 E2. destruct (G f Hf) as [G1 G2]. split.
      - rewrite E1. exact G1.
      - intros y. rewrite E2. apply G2. }
    assert (Cyl : forall a b Rc, countable_cylinder _ _ _ _ _ _ _ a b Rc q -> exists f0, forall f, (f0 <= f)%nat ->
        forall d w x y z, loops_end f (cylind_scanner (N:=F) q a b Rc d w x y z)).
    { intros a b Rc [Ha Hb]. destruct (straight_fuel _ _ Ha) as [f1 G1], (straight_fuel _ _ Hb) as [f2 G2].
      exists (Nat.max f1 f2). intros f Hf d w x y z. split.
      - apply G2. lia.
      - intros phi. apply G1. lia. }
    destruct T as [a b|a b fo FF|R|R fo FF|a|R Rc|a b Rc|a b p|R p|a b Rc p|p]; cbn [loops_T countable_steps]; intros H.
    - destruct (Two _ _ H) as [f0 G]. exists f0. intros f Hf d w x y z. apply (G f Hf); reflexivity.
    - destruct (Two _ _ H) as [f0 G]. exists f0. intros f Hf at_ d x y z. apply (G f Hf); reflexivity.
    - destruct (Disc _ H) as [f0 G]. exists f0. intros f Hf d w x y z. apply (G f Hf); reflexivity.
    - destruct (Disc _ H) as [f0 G]. exists f0. intros f Hf d x y z. apply (G f Hf); reflexivity.
    - destruct (straight_fuel _ _ H) as [f0 G]. exists f0. intros f Hf d x y z. split; [exact I|]. intros yy. apply G; exact Hf.
    - destruct (Disc _ H) as [f0 G]. exists f0. intros f Hf d x y z. apply (G f Hf); reflexivity.
    - apply Cyl, H.
    - destruct (Two _ _ H) as [f0 G]. exists f0. intros f Hf d w x y z. apply (G f Hf); reflexivity.
    - destruct (Disc _ H) as [f0 G]. exists f0. intros f Hf d w x y z. apply (G f Hf); reflexivity.
    - apply Cyl, H.
    - revert H. change (car F) with PrimFloat.float. induction (Gr p) as [|g l IH]; intros H.
      + exists O. intros f _ R d w x y z [].
      + destruct IH as [f1 G1]; [intros R HR; apply H; right; exact HR|].
        destruct (Disc g (H g (or_introl eq_refl))) as [f2 G2].
        exists (Nat.max f1 f2). intros f Hf R d w x y z [<-|HR]; [apply G2; [lia|reflexivity|reflexivity]|apply G1; [lia|exact HR]].
  Qed.
End Term.

(** C12 in IEEE double arithmetic, any libm: every transducer function
    terminates for every observation point, delay, absorption, error level and
    sampling when its half extents are finite and at most 2^52 positive steps. *)
Theorem C12_doubles : forall fsin fcos fatan fasin facos fexp flog K
    (T : transducer (FN fsin fcos fatan fasin facos fexp flog)) q,
  countable_steps _ _ _ _ _ _ _ T q ->
  exists f0, forall f, (f0 <= f)%nat -> forall att lvl xo yo zo delay base h,
    serial K f T q att lvl xo yo zo delay base h <> Diverge.
Proof.
  intros fsin fcos fatan fasin facos fexp flog K T q H. destruct (loops_fuel_F _ _ _ _ _ _ _ T q H) as [f0 G].
  exists f0. intros f Hf att lvl xo yo zo delay base h. apply serial_terminates, G, Hf.
Qed.
Print Assumptions C12_doubles.

(** A positive step alone is not enough: on a 1 mm square a step of 1e-20 mm is
    absorbed and no budget lets the call return. *)
Theorem C12_tiny_step_refuted : let dxx := 0x1.79ca10c924223p-67%float in
  PrimFloat.ltb 0 dxx = true /\ forall fuel r,
  serial SignedIdx fuel (@TRect FI 1%float 1%float) (@Build_samp FI dxx 0.5%float 1%float 10 1%float 1500%float)
    None lvl_warn 0%float 0%float 10%float 0%float 0 (repeat 0%float 10) <> Ok r.
Proof. intros dxx. split; [reflexivity|]. intros fuel r. apply C13_ex. left; reflexivity. Qed.
Print Assumptions C12_tiny_step_refuted.

(** A 10 x 15 mm rectangle, a disc of radius 10 mm and rings of an annular
    array with steps of 0.1 mm, and any libm. *)
Example C12_doubles_ex : forall fsin fcos fatan fasin facos fexp flog (q : samp (FN fsin fcos fatan fasin facos fexp flog))
    (p : annu_par (FN fsin fcos fatan fasin facos fexp flog)),
  dx q = 0x1.999999999999ap-4%float -> dy q = 0x1.999999999999ap-4%float -> Gr p = [5%float; 7%float; 10%float] ->
  countable_steps fsin fcos fatan fasin facos fexp flog (@TRect (FN fsin fcos fatan fasin facos fexp flog) 10%float 15%float) q /\
  countable_steps fsin fcos fatan fasin facos fexp flog (@TCirc (FN fsin fcos fatan fasin facos fexp flog) 10%float) q /\
  countable_steps fsin fcos fatan fasin facos fexp flog (@TArrAnnu (FN fsin fcos fatan fasin facos fexp flog) p) q.
Proof.
  intros fsin fcos fatan fasin facos fexp flog q p Hx Hy Hp. unfold countable_steps, countable_disc, countable. rewrite Hx, Hy, Hp.
  repeat apply conj; try (vm_compute; reflexivity).
  intros R [<-|[<-|[<-|[]]]]; repeat apply conj; vm_compute; reflexivity.
Qed.
