(** ProofsTerm.v - termination of every SIR function for positive steps, in
    exact arithmetic. *)
From Coq Require Import Reals Lra Lia ZArith List Bool.
From Coq Require Import ZifyBool ZifyNat.
From Verif Require Import Base BaseLemmas ModelSir ModelArr NumR SpecSir SpecRayleigh ProofsEnum ProofsR ProofsRayleigh ProofsErr.
Import ListNotations.
Open Scope R_scope.

Lemma grid_None_l f xmax d : grid (N:=EN) f None xmax d <> None.
Proof. destruct f; cbn; discriminate. Qed.
Lemma grid_None_r f x d : grid (N:=EN) f x None d <> None.
Proof. destruct f; destruct x; cbn; discriminate. Qed.
Lemma grid_None_d f x xmax : (1 <= f)%nat -> grid (N:=EN) f x xmax None <> None.
Proof.
  intros H. destruct f; [lia|]. destruct x as [x|]; [|apply grid_None_l]. cbn [grid].
  destruct (nle (n:=EN) (Some x) xmax); [|discriminate].
  change (nadd (n:=EN) (Some x) None) with (@None R).
  pose proof (grid_None_l f xmax None) as G. destruct (grid (N:=EN) f None xmax None); [discriminate|congruence].
Qed.
Lemma grid_ends f x0 xmax d : 0 < d -> (count x0 xmax d <= f)%nat -> grid (N:=EN) f (Some x0) (Some xmax) (Some d) <> None.
Proof. intros. rewrite grid_E by auto. discriminate. Qed.

(** Some budget is enough for every undefined-or-real bound. *)
Lemma grid_some_fuel (x0 xmax d : option R) : (forall r, d = Some r -> 0 < r) ->
  exists f0, forall f, (f0 <= f)%nat -> grid (N:=EN) f x0 xmax d <> None.
Proof.
  intros Hd. destruct d as [d|]; [|exists 1%nat; intros; now apply grid_None_d].
  destruct x0 as [x0|]; [|exists O; intros; apply grid_None_l].
  destruct xmax as [xm|]; [|exists O; intros; apply grid_None_r].
  exists (count x0 xm d). intros f Hf. apply grid_ends; auto.
Qed.

(** Rows of a disc: bounded by the radius, whatever the row. *)
Lemma disc_row_fuel (R : option R) d : 0 < d -> exists f0, forall f, (f0 <= f)%nat -> forall y : option Rdefinitions.R,
  let s := nsqrt (n:=EN) (nsub (n:=EN) (nmul (n:=EN) R R) (nmul (n:=EN) y y)) in
  grid (N:=EN) f (nadd (n:=EN) (nopp (n:=EN) s) (ndiv (n:=EN) (Some d) (nofZ 2))) s (Some d) <> None.
Proof.
  intros Hd. destruct R as [r|]; [|exists O; intros f _ y; ered; apply grid_None_l].
  exists (count (- Rabs r + d / 2) (Rabs r) d). intros f Hf y s.
  destruct y as [y|]; [|subst s; ered; apply grid_None_l].
  subst s. ered. unfold e_sqrt. destruct (Rle_dec 0 (r * r - y * y)) as [Hn|Hn]; [|apply grid_None_l].
  rewrite half_E. cbn [e1 e2]. apply grid_ends; auto.
  assert (Hs : sqrt (r * r - y * y) <= Rabs r).
  { rewrite <- sqrt_Rsqr_abs. apply sqrt_le_1_alt. unfold Rsqr. nra. }
  eapply Nat.le_trans; [|exact Hf]. apply count_mono; auto; lra.
Qed.

Definition steps (dxx dyy : R) (dtt : EN) (ntz : Z) (v c : EN) : samp EN :=
  @Build_samp EN (Some dxx) (Some dyy) dtt ntz v c.

Lemma circ_fuel (R : EN) dxx dyy dtt ntz v c : 0 < dxx -> 0 < dyy ->
  exists f0, forall f, (f0 <= f)%nat -> forall d w x y z, loops_end f (circ_scanner (N:=EN) (steps dxx dyy dtt ntz v c) R d w x y z).
Proof.
  intros Hx Hy.
  destruct (grid_some_fuel (nadd (n:=EN) (nopp (n:=EN) R) (ndiv (n:=EN) (Some dyy) (nofZ 2))) R (Some dyy)) as [f1 H1];
    [intros r [= <-]; auto|].
  destruct (disc_row_fuel R dxx Hx) as [f2 H2].
  exists (Nat.max f1 f2). intros f Hf d w x y z. split; cbn [circ_scanner sc_outer sc_row row_x0 row_xmax row_dx].
  - apply H1. lia.
  - intros ys. apply H2. lia.
Qed.

Lemma circ_list_fuel (gr : list EN) dxx dyy dtt ntz v c : 0 < dxx -> 0 < dyy ->
  exists f0, forall f, (f0 <= f)%nat -> forall R d w x y z, In R gr ->
    loops_end f (circ_scanner (N:=EN) (steps dxx dyy dtt ntz v c) R d w x y z).
Proof.
  intros Hx Hy. induction gr as [|g gr (f1 & IH)].
  - exists O. intros f Hf R d w x y z [].
  - destruct (circ_fuel g dxx dyy dtt ntz v c Hx Hy) as [f2 H2]. exists (Nat.max f1 f2).
    intros f Hf R d w x y z [<-|Hin]; [apply H2; lia|apply IH; auto; lia].
Qed.

Lemma cylind_step_pos dyy (Rc : EN) r : 0 < dyy ->
  nasin (n:=EN) (ndiv (n:=EN) (Some dyy) (nabs (n:=EN) Rc)) = Some r -> 0 < r.
Proof.
  intros Hy. ered. destruct Rc as [rc|]; [|discriminate]. cbn [e1]. unfold e_div.
  destruct (Req_EM_T (Rabs rc) 0); [discriminate|]. unfold e_unit.
  destruct (Rle_dec (-1) (dyy / Rabs rc)); [|discriminate].
  destruct (Rle_dec (dyy / Rabs rc) 1); [|discriminate]. intros [= <-].
  apply asin_pos. split; auto. pose proof (Rabs_pos rc). apply Rdiv_lt_0_compat; lra.
Qed.

Lemma loops_fuel (T : transducer EN) dxx dyy dtt ntz v c : 0 < dxx -> 0 < dyy ->
  exists f0, forall f, (f0 <= f)%nat -> loops_T f T (steps dxx dyy dtt ntz v c).
Proof.
  intros Hx Hy.
  assert (Px : forall r, Some dxx = Some r -> 0 < r) by (intros r [= <-]; auto).
  assert (Py : forall r, Some dyy = Some r -> 0 < r) by (intros r [= <-]; auto).
  assert (Hrow : forall a : EN, exists f0, forall f, (f0 <= f)%nat ->
     grid (N:=EN) f (nadd (n:=EN) (ndiv (n:=EN) (nopp (n:=EN) a) (nofZ 2)) (ndiv (n:=EN) (Some dxx) (nofZ 2))) (ndiv (n:=EN) a (nofZ 2)) (Some dxx) <> None)
    by (intros a; apply grid_some_fuel; auto).
  assert (Hcol : forall a : EN, exists f0, forall f, (f0 <= f)%nat ->
     grid (N:=EN) f (nadd (n:=EN) (ndiv (n:=EN) (nopp (n:=EN) a) (nofZ 2)) (ndiv (n:=EN) (Some dyy) (nofZ 2))) (ndiv (n:=EN) a (nofZ 2)) (Some dyy) <> None)
    by (intros a; apply grid_some_fuel; auto).
  assert (Hdisc : forall R : EN, exists f0, forall f, (f0 <= f)%nat ->
     grid (N:=EN) f (nadd (n:=EN) (nopp (n:=EN) R) (ndiv (n:=EN) (Some dyy) (nofZ 2))) R (Some dyy) <> None)
    by (intros a; apply grid_some_fuel; auto).
  assert (Hcyl : forall a b Rc : EN, exists f0, forall f, (f0 <= f)%nat -> forall d w x y z,
     loops_end f (cylind_scanner (N:=EN) (steps dxx dyy dtt ntz v c) a b Rc d w x y z)).
  { intros a b Rc. destruct (Hrow a) as [f1 H1].
    pose (Sc := cylind_scanner (N:=EN) (steps dxx dyy dtt ntz v c) a b Rc (Some 0) (Some 0) (Some 0) (Some 0) (Some 0)).
    destruct (sc_outer Sc) as [o|] eqn:E; [|discriminate].
    destruct (grid_some_fuel (row_x0 o) (row_xmax o) (row_dx o)) as [f2 H2].
    { intros r Hr. apply (cylind_step_pos dyy Rc r Hy). rewrite <- Hr.
      cbn [cylind_scanner sc_outer Sc] in E. injection E as <-. reflexivity. }
    exists (Nat.max f1 f2). intros f Hf d w x y z. split.
    - change (sc_outer (cylind_scanner (N:=EN) (steps dxx dyy dtt ntz v c) a b Rc d w x y z)) with (sc_outer Sc).
      rewrite E. apply H2. lia.
    - intros phi. apply H1. lia. }
  destruct T as [a b|a b fo F|R|R fo F|a|R Rc|a b Rc|a b p|R p|a b Rc p|p]; cbn [loops_T].
  - destruct (Hrow a) as [f1 H1]. destruct (Hcol b) as [f2 H2]. exists (Nat.max f1 f2).
    intros f Hf d w x y z. split; [apply H2; lia|intros ys; apply H1; lia].
  - destruct (Hrow a) as [f1 H1]. destruct (Hcol b) as [f2 H2]. exists (Nat.max f1 f2).
    intros f Hf at_ d x y z. split; [apply H2; lia|intros ys; apply H1; lia].
  - apply circ_fuel; auto.
  - destruct (Hdisc R) as [f1 H1]. destruct (disc_row_fuel R dxx Hx) as [f2 H2]. exists (Nat.max f1 f2).
    intros f Hf d x y z. split; [apply H1; lia|intros ys; apply H2; lia].
  - destruct (Hrow a) as [f1 H1]. exists f1. intros f Hf d x y z. split; [exact I|intros ys; apply H1; lia].
  - destruct (Hdisc R) as [f1 H1]. destruct (disc_row_fuel R dxx Hx) as [f2 H2]. exists (Nat.max f1 f2).
    intros f Hf d x y z. split; [apply H1; lia|intros ys; apply H2; lia].
  - apply Hcyl.
  - destruct (Hrow a) as [f1 H1]. destruct (Hcol b) as [f2 H2]. exists (Nat.max f1 f2).
    intros f Hf d w x y z. split; [apply H2; lia|intros ys; apply H1; lia].
  - apply circ_fuel; auto.
  - apply Hcyl.
  - apply circ_list_fuel; auto.
Qed.

Theorem terminates K (T : transducer EN) dxx dyy dtt ntz v c : 0 < dxx -> 0 < dyy ->
  exists f0, forall f, (f0 <= f)%nat -> forall att lvl xo yo zo delay base h,
    serial K f T (steps dxx dyy dtt ntz v c) att lvl xo yo zo delay base h <> Diverge.
Proof.
  intros Hx Hy. destruct (loops_fuel T dxx dyy dtt ntz v c Hx Hy) as [f0 H]. exists f0.
  intros f Hf att lvl xo yo zo delay base h. apply serial_terminates. now apply H.
Qed.

(** A larger budget does not change a result: [enough] for each geometry exists. *)
Lemma enough_exists q g : exists fuel, enough fuel q g.
Proof.
  destruct g; cbn [enough];
  try (match goal with |- exists fuel, (?a <= fuel)%nat /\ (?b <= fuel)%nat => exists (Nat.max a b); lia end).
  eexists. apply Nat.le_refl.
Qed.

Lemma length_flat_map_const {A B} (f : A -> list B) n l : (forall a, In a l -> length (f a) = n) ->
  length (flat_map f l) = (length l * n)%nat.
Proof.
  induction l as [|a l IH]; intros H; cbn; auto. rewrite app_length, H by (left; reflexivity).
  rewrite IH by (intros; apply H; right; auto). reflexivity.
Qed.

Lemma rect_count q a b : par_ok q ->
  length (sources q (GRect a b)) =
  (Z.to_nat (Zfloor (a / p_dx q + 1 / 2)) * Z.to_nat (Zfloor (b / p_dy q + 1 / 2)))%nat.
Proof.
  intros (Hx & Hy & _). cbn [sources]. rewrite map_length. unfold rect_xy.
  rewrite (length_flat_map_const _ (Z.to_nat (Zfloor (a / p_dx q + 1 / 2)))).
  - unfold midpoints. rewrite map_length, seq_length, count_width by auto. apply Nat.mul_comm.
  - intros y Hin. rewrite map_length. unfold midpoints. rewrite map_length, seq_length. now apply count_width.
Qed.
