(** ProofsScirc.v - scirc_sir in exact arithmetic. *)
From Coq Require Import Reals Lra Lia.
From Coquelicot Require Import Coquelicot.
From Verif Require Import Base NumR ModelSir ModelArr ModelSmp ModelAna ProofsR SpecAna ProofsArc ProofsAna ProofsAnaR ProofsTrap.
Open Scope R_scope.

Lemma is_sir_sir ap v c x y z t h : is_sir ap v c x y z t h -> sir ap v c x y z t = h.
Proof.
  unfold sir. intros [[A ->]|(A & th & Ha & ->)]; destruct (Rlt_dec (c * t) z); try lra.
  f_equal. exact (is_RInt_unique _ _ _ _ Ha).
Qed.

(** ** The trapezoidal rule of the code *)
Lemma acos_clamp_EN (q : option R) : acos_clamp (N:=EN) q = Some (match q with Some u => acos u | None => 0 end).
Proof.
  destruct q as [u|]; [|reflexivity]. unfold acos_clamp. encalc.
  destruct (Rleb (- (1)) u) eqn:E1; [apply Rleb_iff in E1|apply Rleb_niff in E1].
  - destruct (Rleb u 1) eqn:E2; [apply Rleb_iff in E2|apply Rleb_niff in E2]; cbn [andb].
    + apply e_unit_ok. lra.
    + rewrite (proj2 (Rltb_niff u (- (1)))) by lra. f_equal. unfold acos.
      destruct (Rle_dec u (-1)); [lra|]. destruct (Rle_dec 1 u); [reflexivity|lra].
  - cbn [andb]. rewrite (proj2 (Rltb_iff u (- (1)))) by lra. f_equal. unfold acos.
    destruct (Rle_dec u (-1)); [reflexivity|lra].
Qed.

(** The half angle as the code computes it. *)
Definition angle (z r rc c t : R) : R :=
  match circ_arg (N:=EN) (Some z) (Some r) (Some rc) (Some c) (Some t) with Some u => acos u | None => 0 end.

Lemma trapets_EN z r rc c t1 t2 n : (1 <= n)%nat ->
  trapets_int (N:=EN) (Some t1) (Some t2) (Some z) (Some r) (Some rc) (Some c) (Z.of_nat n) =
  Some (trap (angle z r rc c) t1 t2 n).
Proof.
  intros Hn. unfold trapets_int. rewrite Nat2Z.id. cbv zeta.
  assert (Ed : ndiv (n:=EN) (nsub (n:=EN) (Some t2) (Some t1)) (nofZ (Z.of_nat n)) = Some ((t2 - t1) / INR n)).
  { encalc. rewrite <- INR_IZR_INZ. rewrite e_div_ok by (apply not_0_INR; lia). reflexivity. }
  rewrite Ed. unfold trap. cbv zeta. generalize ((t2 - t1) / INR n). intros d.
  match goal with |- snd (Nat.iter n ?f ?s) = _ => set (step := f); set (s0 := s) end.
  assert (G : forall k, Nat.iter k step s0 = (Some (t1 + INR k * d),
    Some (rsum k (fun i => (angle z r rc c (t1 + INR i * d) + angle z r rc c (t1 + INR i * d + d)) / 2 * d)))).
  { induction k as [|k IH]; cbn [Nat.iter rsum].
    - unfold s0. cbn. f_equal. f_equal. ring.
    - change (Nat.iter (S k) step s0) with (step (Nat.iter k step s0)). rewrite IH. unfold step.
      unfold acos_acos. rewrite !acos_clamp_EN. f_equal.
      + cbn [nadd EN e2]. f_equal. rewrite S_INR. ring.
      + change (nadd (n:=EN) (Some (t1 + INR k * d)) (Some d)) with (Some (t1 + INR k * d + d)).
        fold (angle z r rc c (t1 + INR k * d)). fold (angle z r rc c (t1 + INR k * d + d)).
        encalc. rewrite e_div_ok by lra. reflexivity. }
  rewrite G. reflexivity.
Qed.

(** ** The branches of scirc_sir *)
Lemma Rltb_scale c a b : 0 < c -> Rltb (c * a) (c * b) = Rltb a b.
Proof.
  intros Hc. destruct (Rltb a b) eqn:E; [apply Rltb_iff in E; apply Rltb_iff; nra|apply Rltb_niff in E; apply Rltb_niff; nra].
Qed.
Lemma Rleb_scale c a b : 0 < c -> Rleb (c * a) (c * b) = Rleb a b.
Proof.
  intros Hc. destruct (Rleb a b) eqn:E; [apply Rleb_iff in E; apply Rleb_iff; nra|apply Rleb_niff in E; apply Rleb_niff; nra].
Qed.
Lemma e_div_scale c a : 0 < c -> e_div (Some (c * a)) (Some c) = Some a.
Proof. intros Hc. rewrite e_div_ok by lra. f_equal. field. lra. Qed.

Ltac decb := repeat match goal with
  | |- context [Rltb ?a ?b] => first [rewrite (proj2 (Rltb_iff a b)) by lra | rewrite (proj2 (Rltb_niff a b)) by lra]
  | |- context [Rleb ?a ?b] => first [rewrite (proj2 (Rleb_iff a b)) by lra | rewrite (proj2 (Rleb_niff a b)) by lra]
  end; cbn [andb].

Section Branches.
  Variables (tz tp tr r rc v c : R) (n : nat).
  Hypothesis Hc : 0 < c.
  Hypothesis Htp : tz <= tp.
  Hypothesis Htr : tp <= tr.
  Hypothesis Hn : (1 <= n)%nat.
  Let F := angle (c * tz) r rc c.
  Definition clip (t : R) : R := Rmax tp (Rmin tr t).
  Definition cut (t1 t2 p : R) : R := Rmax t1 (Rmin t2 p).

  Lemma clip_lo t : t <= tp -> clip t = tp.
  Proof. intros H. unfold clip. rewrite Rmin_right by lra. apply Rmax_left. lra. Qed.
  Lemma clip_hi t : tr <= t -> clip t = tr.
  Proof. intros H. unfold clip. rewrite Rmin_left by lra. apply Rmax_right. lra. Qed.
  Lemma clip_mid t : tp <= t <= tr -> clip t = t.
  Proof. intros H. unfold clip. rewrite Rmin_right by lra. apply Rmax_right. lra. Qed.

  Lemma scirc_branches t1 t2 : t1 <= t2 ->
    scirc_sir_at (N:=EN) (Some (c * tz)) (Some r) (Some rc) (Some (c * tp)) (Some (c * tr)) (Some v) (Some c) (Z.of_nat n)
      (Some t1) (Some t2) (Some 0) =
    Some (v * c * (if Rltb rc r then cut t1 t2 tp - cut t1 t2 tz else 0) + v * c / PI * trap F (clip t1) (clip t2) n).
  Proof.
    intros H12. unfold scirc_sir_at. cbv zeta.
    assert (Ep : ndiv (n:=EN) (Some (c * tp)) (Some c) = Some tp) by (apply e_div_scale; exact Hc).
    assert (Er : ndiv (n:=EN) (Some (c * tr)) (Some c) = Some tr) by (apply e_div_scale; exact Hc).
    assert (Ez : ndiv (n:=EN) (Some (c * tz)) (Some c) = Some tz) by (apply e_div_scale; exact Hc).
    rewrite Ep, Er, Ez, !trapets_EN by exact Hn. fold F.
    assert (EA : forall w, nmul (n:=EN) (ndiv (n:=EN) (nmul (n:=EN) (Some v) (Some c)) npi) (Some w) = Some (v * c / PI * w)).
    { intros w. encalc. rewrite e_div_ok by apply PI_neq0. reflexivity. }
    rewrite !EA.
    assert (Ed : ndiv (n:=EN) (nmul (n:=EN) (nmul (n:=EN) (Some v) (Some c)) (nsub (n:=EN) (Some (c * tp)) (Some (c * tz)))) (Some c) = Some (v * c * (tp - tz))).
    { encalc. rewrite e_div_ok by lra. f_equal. field. lra. }
    rewrite !Ed. encalc. rewrite !Rltb_scale, !Rleb_scale by exact Hc.
    pose proof (trap_same F) as TS.
    assert (Skip : forall w a b, tp <= a -> a <= b -> b <= tr ->
      (if Rltb tp tr then Some (w + v * c / PI * trap F a b n) else Some w) = Some (w + v * c / PI * trap F a b n)).
    { intros w a b H1 H2 H3. destruct (Rltb tp tr) eqn:E; [reflexivity|]. apply Rltb_niff in E.
      replace b with a by lra. rewrite TS. f_equal. ring. }
    destruct (Rltb rc r).
    { destruct (Rlt_le_dec t1 tz) as [A1|A1]; [|destruct (Rlt_le_dec t1 tp) as [A2|A2]; [|destruct (Rlt_le_dec t1 tr) as [A3|A3]]];
        (destruct (Rlt_le_dec t2 tz) as [B1|B1]; [|destruct (Rlt_le_dec t2 tp) as [B2|B2]; [|destruct (Rlt_le_dec t2 tr) as [B3|B3]]]);
        try lra.
      all: try (destruct (Req_dec t1 tr) as [K|K]).
      all: decb; rewrite ?Skip by lra.
      all: repeat match goal with |- context [clip ?t] => first
             [rewrite (clip_lo t) by lra|rewrite (clip_hi t) by lra|rewrite (clip_mid t) by lra] end.
      all: rewrite ?TS; refine (f_equal (@Some R) (_ : @eq R _ _)).
      all: unfold cut.
      all: repeat match goal with |- context [Rmin ?a ?b] => first [rewrite (Rmin_left a b) by lra|rewrite (Rmin_right a b) by lra] end.
      all: repeat match goal with |- context [Rmax ?a ?b] => first [rewrite (Rmax_left a b) by lra|rewrite (Rmax_right a b) by lra] end.
      all: ring. }
    { destruct (Rlt_le_dec t1 tp) as [A2|A2]; [|destruct (Rlt_le_dec t1 tr) as [A3|A3]];
        (destruct (Rlt_le_dec t2 tp) as [B2|B2]; [|destruct (Rlt_le_dec t2 tr) as [B3|B3]]);
        try lra.
      all: decb; rewrite ?Skip by lra.
      all: repeat match goal with |- context [clip ?t] => first
             [rewrite (clip_lo t) by lra|rewrite (clip_hi t) by lra|rewrite (clip_mid t) by lra] end.
      all: rewrite ?TS; refine (f_equal (@Some R) (_ : @eq R _ _)); ring. }
  Qed.

  (** No part of the sampling interval is after time 0. *)
  Lemma scirc_before t1 t2 : t1 < tz -> t2 < tz ->
    scirc_sir_at (N:=EN) (Some (c * tz)) (Some r) (Some rc) (Some (c * tp)) (Some (c * tr)) (Some v) (Some c) (Z.of_nat n)
      (Some t1) (Some t2) (Some 0) = Some 0.
  Proof.
    intros H1 H2. unfold scirc_sir_at. cbv zeta. encalc. rewrite !Rltb_scale by exact Hc.
    destruct (Rltb rc r); decb; reflexivity.
  Qed.
End Branches.

(** ** The exact response, piece by piece *)
Section Pieces.
  Variables (x y z r v c : R).
  Variables (rc tz tp tr : R).
  Hypothesis Hz : 0 <= z.
  Hypothesis Hr : 0 < r.
  Hypothesis Hc : 0 < c.
  Hypothesis Drc : rc = sqrt (x^2 + y^2).
  Hypothesis Dtz : z = c * tz.
  Hypothesis Dtp : sqrt (z * z + (r - rc) * (r - rc)) = c * tp.
  Hypothesis Dtr : sqrt (z * z + (r + rc) * (r + rc)) = c * tr.
  Local Notation h t := (sir (disk r) v c x y z t).
  Local Notation F := (angle z r rc c).

  Lemma rc_pos : 0 <= rc. Proof. rewrite Drc. apply sqrt_pos. Qed.
  Lemma tz_pos : 0 <= tz. Proof. nra. Qed.
  Lemma tp_sq : (c * tp) ^ 2 = z ^ 2 + (r - rc) ^ 2.
  Proof. rewrite <- Dtp, sqrt_pow2' by apply ssq. ring. Qed.
  Lemma tr_sq : (c * tr) ^ 2 = z ^ 2 + (r + rc) ^ 2.
  Proof. rewrite <- Dtr, sqrt_pow2' by apply ssq. ring. Qed.
  Lemma tp_pos : 0 <= c * tp. Proof. rewrite <- Dtp. apply sqrt_pos. Qed.
  Lemma tr_pos : 0 <= c * tr. Proof. rewrite <- Dtr. apply sqrt_pos. Qed.
  Lemma tz_tp : tz <= tp.
  Proof.
    assert (z <= c * tp); [|nra]. apply pow2_le_sqrt; [exact Hz|apply tp_pos|]. rewrite tp_sq.
    pose proof (pow2_ge_0 (r - rc)). lra.
  Qed.
  Lemma tp_tr : tp <= tr.
  Proof.
    assert (c * tp <= c * tr); [|nra]. apply pow2_le_sqrt; [apply tp_pos|apply tr_pos|]. rewrite tp_sq, tr_sq.
    pose proof rc_pos. nra.
  Qed.

  Lemma sir_circ t : ~ (rc = r /\ c * t = z) -> exists h0,
    circ_sir_at (N:=EN) (Some z) (Some r) (Some rc) (Some (c * tp)) (Some (c * tr)) (Some v) (Some c) (Some t) (Some 0) = Some h0 /\
    h t = h0.
  Proof.
    intros Hn. rewrite <- Dtp, <- Dtr.
    destruct (circ_sir_exact x y z r v c t _ _ _ _ Drc eq_refl eq_refl eq_refl Hz Hr Hn) as (h0 & Eh & Hh).
    exists h0. split; [exact Eh|]. apply is_sir_sir. exact Hh.
  Qed.

  Lemma sir_early t : t < tz -> h t = 0.
  Proof. intros H. unfold sir. destruct (Rlt_dec (c * t) z); [reflexivity|]. nra. Qed.
  Lemma sir_flat t : rc < r -> tz < t -> t < tp -> h t = v * c.
  Proof.
    intros H1 H2 H3. destruct (sir_circ t) as (h0 & E & ->); [intros [K _]; lra|].
    pose proof tp_tr. unfold circ_sir_at in E. revert E. encalc. rewrite Dtz. rewrite !Rltb_scale, !Rleb_scale by exact Hc. decb.
    intros [= <-]. reflexivity.
  Qed.
  Lemma sir_outer t : r <= rc -> t < tp -> h t = 0.
  Proof.
    intros H1 H3. destruct (Rlt_le_dec t tz) as [H2|H2]; [apply sir_early; exact H2|].
    destruct (sir_circ t) as (h0 & E & ->).
    { intros [K1 K2]. assert (c * tp = z); [|nra]. rewrite <- Dtp, K1. replace (z * z + (r - r) * (r - r)) with (z * z) by ring.
      apply sqrt_square. exact Hz. }
    pose proof tp_tr. unfold circ_sir_at in E. revert E. encalc. rewrite Dtz. rewrite !Rltb_scale, !Rleb_scale by exact Hc. decb.
    intros [= <-]. reflexivity.
  Qed.
  Lemma sir_mid t : tp < t -> t < tr -> h t = v * c / PI * F t.
  Proof.
    intros H1 H2. pose proof tz_tp. destruct (sir_circ t) as (h0 & E & ->); [intros [_ K]; nra|].
    unfold circ_sir_at in E.
    assert (E' : nmul (n:=EN) (ndiv (n:=EN) (nmul (n:=EN) (Some v) (Some c)) npi)
                  (nacos (n:=EN) (circ_arg (N:=EN) (Some z) (Some r) (Some rc) (Some c) (Some t))) = Some h0).
    { revert E. generalize (nacos (n:=EN) (circ_arg (N:=EN) (Some z) (Some r) (Some rc) (Some c) (Some t))). intros w.
      encalc. rewrite Dtz. rewrite !Rltb_scale, !Rleb_scale by exact Hc. destruct (Rltb rc r); decb; auto. }
    unfold angle. destruct (circ_arg (N:=EN) (Some z) (Some r) (Some rc) (Some c) (Some t)) as [q|].
    - revert E'. encalc. rewrite e_div_ok by apply PI_neq0. unfold e_unit. destruct (Rle_dec _ _); cbn [e2]; [|discriminate].
      destruct (Rle_dec _ _); cbn [e2]; [|discriminate]. intros [= <-]. reflexivity.
    - revert E'. encalc. rewrite e_div_ok by apply PI_neq0. discriminate.
  Qed.
  Lemma sir_late t : tr < t -> h t = 0.
  Proof.
    intros H2. pose proof tz_tp. pose proof tp_tr. destruct (sir_circ t) as (h0 & E & ->); [intros [_ K]; nra|].
    unfold circ_sir_at in E. revert E. encalc. rewrite Dtz. rewrite !Rltb_scale, !Rleb_scale by exact Hc.
    destruct (Rltb rc r); decb; intros [= <-]; reflexivity.
  Qed.

  (** ** The half angle is integrable *)
  Definition ratio (t : R) : R :=
    (c * t * c * t - z * z + rc * rc - r * r) / (2 * rc * sqrt (c * t * c * t - z * z)).
  Lemma rad_cont t : continuous (fun t => c * t * c * t - z * z) t.
  Proof.
    apply (continuous_minus (V := R_NormedModule) (fun t => c * t * c * t) (fun _ => z * z)); [|apply continuous_const].
    assert (K : continuous (fun t : R => c * t) t).
    { apply (continuous_mult (fun _ => c) (fun t => t)); [apply continuous_const|apply continuous_id]. }
    apply (continuous_mult (fun t => c * t * c) (fun t => t)); [|apply continuous_id].
    apply (continuous_mult (fun t => c * t) (fun _ => c)); [exact K|apply continuous_const].
  Qed.
  Lemma rho_cont t : continuous (fun t => sqrt (c * t * c * t - z * z)) t.
  Proof. apply (continuous_sqrt_comp (fun t => c * t * c * t - z * z)). apply rad_cont. Qed.

  Lemma ratio_cont t : 2 * rc * sqrt (c * t * c * t - z * z) <> 0 -> continuous ratio t.
  Proof.
    intros Hd. unfold ratio.
    apply (continuous_mult (fun t => c * t * c * t - z * z + rc * rc - r * r) (fun t => / (2 * rc * sqrt (c * t * c * t - z * z)))).
    - apply (continuous_minus (V := R_NormedModule) (fun t => c * t * c * t - z * z + rc * rc) (fun _ => r * r)); [|apply continuous_const].
      apply (continuous_plus (V := R_NormedModule) (fun t => c * t * c * t - z * z) (fun _ => rc * rc)); [apply rad_cont|apply continuous_const].
    - apply continuous_Rinv_comp; [|exact Hd].
      apply (continuous_mult (fun _ => 2 * rc) (fun t => sqrt (c * t * c * t - z * z))); [apply continuous_const|apply rho_cont].
  Qed.

  Lemma angle_ratio t : tz <= t -> 2 * rc * sqrt (c * t * c * t - z * z) <> 0 -> F t = acos (ratio t).
  Proof.
    intros Ht Hd. pose proof tz_pos. unfold angle, circ_arg, ratio. encalc.
    assert (0 <= c * t * c * t - z * z).
    { rewrite Dtz. replace (c * t * c * t - c * tz * (c * tz)) with (c * c * ((t - tz) * (t + tz))) by ring.
      repeat apply Rmult_le_pos; lra. }
    rewrite e_sqrt_ok by assumption. cbn [e2]. rewrite e_div_ok by exact Hd. reflexivity.
  Qed.

  Lemma rad_bounds t : tp <= t <= tr -> (r - rc) ^ 2 <= c * t * c * t - z * z <= (r + rc) ^ 2.
  Proof.
    intros Ht. pose proof tz_tp. pose proof tz_pos. pose proof tp_sq as E1. pose proof tr_sq as E2.
    assert (c * tp <= c * t <= c * tr) by nra. pose proof tp_pos.
    assert ((c * tp) ^ 2 <= (c * t) ^ 2 <= (c * tr) ^ 2) by nra.
    replace (c * t * c * t) with ((c * t) ^ 2) by ring. split; nra.
  Qed.

  Lemma angle_RInt a b : tp <= a -> a <= b -> b <= tr -> exists J, is_RInt F a b J.
  Proof.
    intros Ha Hab Hb. pose proof rc_pos as Hrc. pose proof tz_tp. pose proof tz_pos.
    destruct (Req_dec a b) as [<-|Hne]; [exists 0; apply (is_RInt_point F a)|].
    assert (Hrc' : 0 < rc).
    { destruct (Rle_lt_or_eq_dec 0 rc Hrc) as [|Eq]; [assumption|]. exfalso.
      assert (c * tp = c * tr) by (rewrite <- Dtp, <- Dtr, <- Eq; f_equal; ring). nra. }
    assert (Main : forall f : R -> R, (forall t, a <= t <= b -> continuous f t) -> (forall t, a < t < b -> F t = f t) -> exists J, is_RInt F a b J).
    { intros f Hf E. destruct (ex_RInt_continuous (V := R_CompleteNormedModule) f a b) as [J HJ].
      - rewrite Rmin_left, Rmax_right by lra. exact Hf.
      - exists J. apply is_RInt_ext with f; [|exact HJ]. rewrite Rmin_left, Rmax_right by lra. intros t Ht. symmetry. apply E. exact Ht. }
    destruct (Req_dec rc r) as [Eq|Hrr].
    - apply (Main (fun t => acos (sqrt (c * t * c * t - z * z) * / (2 * r)))).
      + intros t Ht. destruct (rad_bounds t) as [B1 B2]; [lra|]. rewrite Eq in B1, B2.
        apply (continuous_comp (fun t => sqrt (c * t * c * t - z * z) * / (2 * r)) acos).
        * apply (continuous_mult (fun t => sqrt (c * t * c * t - z * z)) (fun _ => / (2 * r))); [apply rho_cont|apply continuous_const].
        * apply acos_continuous. pose proof (sqrt_pos (c * t * c * t - z * z)) as Hs.
          assert (Hle : sqrt (c * t * c * t - z * z) <= 2 * r).
          { replace (2 * r) with (sqrt ((2 * r) * (2 * r))) by (apply sqrt_square; lra). apply sqrt_le_1_alt. lra. }
          assert (Hi : 0 < / (2 * r)) by (apply Rinv_0_lt_compat; lra).
          assert (Hm : 2 * r * / (2 * r) = 1) by (field; lra). split; nra.
      + intros t Ht. 
        assert (Hp : 0 < c * t * c * t - z * z).
        { rewrite Dtz. replace (c * t * c * t - c * tz * (c * tz)) with (c * c * ((t - tz) * (t + tz))) by ring.
          repeat apply Rmult_lt_0_compat; lra. }
        pose proof (sqrt_lt_R0 _ Hp) as Hs.
        rewrite angle_ratio; [|lra|nra]. f_equal. unfold ratio. rewrite Eq.
        pose proof (sqrt_sqrt _ (Rlt_le _ _ Hp)) as Hss.
        replace (c * t * c * t - z * z + r * r - r * r) with (c * t * c * t - z * z) by ring. rewrite <- Hss at 1. field. lra.
    - assert (Hd : forall t, a <= t <= b -> 0 < sqrt (c * t * c * t - z * z)).
      { intros t Ht. apply sqrt_lt_R0. destruct (rad_bounds t) as [B1 _]; [lra|]. assert (0 < (r - rc) ^ 2); [|lra].
        destruct (Rlt_le_dec rc r); nra. }
      apply (Main (fun t => acos (ratio t))).
      + intros t Ht. specialize (Hd t Ht).
        assert (Hp : 0 < 2 * rc * sqrt (c * t * c * t - z * z)) by (repeat apply Rmult_lt_0_compat; lra).
        apply (continuous_comp ratio acos); [apply ratio_cont; lra|]. apply acos_continuous.
        destruct (rad_bounds t) as [B1 B2]; [lra|]. unfold ratio.
        set (rho := sqrt (c * t * c * t - z * z)) in *.
        assert (Hrho : rho ^ 2 = c * t * c * t - z * z).
        { unfold rho. apply sqrt_pow2'. apply Rle_trans with ((r - rc) ^ 2); [apply pow2_ge_0|exact B1]. }
        rewrite <- Hrho in *.
        set (q := (rho ^ 2 + rc * rc - r * r) / (2 * rc * rho)).
        assert (E : q * (2 * rc * rho) = rho^2 + rc * rc - r * r) by (unfold q; field; lra).
        assert (F1 : r - rc <= rho) by (destruct (Rle_lt_dec 0 (r - rc)); nra).
        assert (F2 : rc - r <= rho) by (destruct (Rle_lt_dec 0 (rc - r)); nra).
        assert (F3 : rho <= r + rc) by nra.
        split; apply Rmult_le_reg_r with (2 * rc * rho); try exact Hp; rewrite E; nra.
      + intros t Ht. specialize (Hd t ltac:(lra)). apply angle_ratio; [lra|]. 
        assert (Hp : 0 < 2 * rc * sqrt (c * t * c * t - z * z)) by (repeat apply Rmult_lt_0_compat; lra). lra.
  Qed.

  (** ** The integral of the response *)
  Lemma sir_RInt t1 t2 : t1 <= t2 -> exists J, is_RInt F (clip tp tr t1) (clip tp tr t2) J /\
    is_RInt (sir (disk r) v c x y z) t1 t2
      (v * c * (if Rltb rc r then cut t1 t2 tp - cut t1 t2 tz else 0) + v * c / PI * J).
  Proof.
    intros H12. pose proof tz_tp as Hzp. pose proof tp_tr as Hpr.
    set (p1 := cut t1 t2 tz). set (p2 := cut t1 t2 tp). set (p3 := cut t1 t2 tr).
    assert (CU : forall p, t1 <= cut t1 t2 p <= t2 /\ (t1 < cut t1 t2 p -> cut t1 t2 p <= p) /\ (cut t1 t2 p < t2 -> p <= cut t1 t2 p)).
    { intros p. unfold cut, Rmax, Rmin. destruct (Rle_dec t2 p).
      - destruct (Rle_dec t1 t2); lra.
      - destruct (Rle_dec t1 p); lra. }
    assert (CM : forall p q, p <= q -> cut t1 t2 p <= cut t1 t2 q).
    { intros p q Hpq. unfold cut. apply Rle_max_compat_l. apply Rle_min_compat_l. exact Hpq. }
    pose proof (CU tz) as (A1 & A2 & A3). pose proof (CU tp) as (B1 & B2 & B3). pose proof (CU tr) as (C1 & C2 & C3).
    pose proof (CM tz tp Hzp) as M1. pose proof (CM tp tr Hpr) as M2. fold p1 in A1, A2, A3, M1. fold p2 in B1, B2, B3, M1, M2. fold p3 in C1, C2, C3, M2.
    assert (CL : (p2 < p3 -> clip tp tr t1 = p2 /\ clip tp tr t2 = p3) /\ (p2 = p3 -> clip tp tr t1 = clip tp tr t2)).
    { clear CU CM A1 A2 A3 M1 B2 B3 C2 C3. unfold p2, p3, cut, clip in *. split; unfold Rmax, Rmin in *.
      - destruct (Rle_dec t2 tp), (Rle_dec t2 tr), (Rle_dec tr t1), (Rle_dec tr t2); 
          repeat match goal with |- context [Rle_dec ?u ?w] => destruct (Rle_dec u w) end;
          repeat match goal with K : context [Rle_dec ?u ?w] |- _ => destruct (Rle_dec u w) end; lra.
      - destruct (Rle_dec t2 tp), (Rle_dec t2 tr), (Rle_dec tr t1), (Rle_dec tr t2); 
          repeat match goal with |- context [Rle_dec ?u ?w] => destruct (Rle_dec u w) end;
          repeat match goal with K : context [Rle_dec ?u ?w] |- _ => destruct (Rle_dec u w) end; lra. }
    assert (I1 : is_RInt (sir (disk r) v c x y z) t1 p1 ((p1 - t1) * 0)).
    { apply const_RInt; [lra|]. intros t Ht. apply sir_early. lra. }
    assert (I2 : is_RInt (sir (disk r) v c x y z) p1 p2 ((p2 - p1) * (if Rltb rc r then v * c else 0))).
    { apply const_RInt; [lra|]. intros t Ht. destruct (Rltb rc r) eqn:Eb; [apply Rltb_iff in Eb|apply Rltb_niff in Eb].
      - apply sir_flat; lra.
      - apply sir_outer; lra. }
    assert (I4 : is_RInt (sir (disk r) v c x y z) p3 t2 ((t2 - p3) * 0)).
    { apply const_RInt; [lra|]. intros t Ht. apply sir_late. lra. }
    assert (I3 : exists J, is_RInt F (clip tp tr t1) (clip tp tr t2) J /\ is_RInt (sir (disk r) v c x y z) p2 p3 (v * c / PI * J)).
    { destruct (Req_dec p2 p3) as [Eq|Hne].
      - rewrite (proj2 CL Eq), Eq. exists 0. split; [apply (is_RInt_point F)|]. rewrite Rmult_0_r.
        apply (is_RInt_point (sir (disk r) v c x y z) p3).
      - destruct (proj1 CL ltac:(lra)) as [-> ->].
        destruct (angle_RInt p2 p3) as [J HJ]; [lra|lra|lra|].
        exists J. split; [exact HJ|]. apply is_RInt_ext with (fun t => scal (v * c / PI) (F t)).
        + rewrite Rmin_left, Rmax_right by lra. intros t Ht. symmetry. apply sir_mid; lra.
        + apply (is_RInt_scal F _ _ (v * c / PI) J HJ). }
    destruct I3 as (J & HJ & I3). exists J. split; [exact HJ|].
    pose proof (is_RInt_Chasles _ _ _ _ _ _ (is_RInt_Chasles _ _ _ _ _ _ (is_RInt_Chasles _ _ _ _ _ _ I1 I2) I3) I4) as I.
    match type of I with is_RInt _ _ _ ?s => replace (v * c * (if Rltb rc r then p2 - p1 else 0) + v * c / PI * J) with s; [exact I|] end.
    unfold plus; cbn. destruct (Rltb rc r); ring.
  Qed.
End Pieces.

(** ** In the units of the call *)
Lemma scirc_t1_EN dt d it : scirc_t1 (N:=EN) (Some dt) (Some d) it = Some (Rmax 0 (second (IZR it * dt + d) - second dt / 2)).
Proof.
  unfold scirc_t1. cbv zeta. rewrite t_at_EN. unfold second. encalc. rewrite !e_div_ok by lra. cbn [e2 ecmp].
  match goal with |- context [Rltb ?a 0] => destruct (Rltb a 0) eqn:E; [apply Rltb_iff in E|apply Rltb_niff in E] end.
  - rewrite Rmax_left by lra. reflexivity.
  - rewrite Rmax_right by lra. reflexivity.
Qed.
Lemma scirc_t2_EN dt d it : scirc_t2 (N:=EN) (Some dt) (Some d) it = Some (second (IZR it * dt + d) + second dt / 2).
Proof.
  unfold scirc_t2. rewrite t_at_EN. unfold second. encalc. rewrite !e_div_ok by lra. cbn [e2]. f_equal. field.
Qed.

Lemma metre_hyp x y : sqrt (metre x ^ 2 + metre y ^ 2) = metre (sqrt (x ^ 2 + y ^ 2)).
Proof.
  unfold metre. replace ((x / 1000) ^ 2 + (y / 1000) ^ 2) with ((x ^ 2 + y ^ 2) / (1000 * 1000)) by field.
  rewrite sqrt_div_alt by lra. rewrite sqrt_square by lra. reflexivity.
Qed.

Lemma scirc_val_lim x y z r dt d v c it :
  let T := second (IZR it * dt + d) in
  0 <= z -> 0 < r -> 0 < c -> 0 < dt ->
  0 < z \/ r <= sqrt (x^2 + y^2) \/ 0 <= T + second dt / 2 ->
  exists I h, is_RInt (sir (disk (metre r)) v c (metre x) (metre y) (metre z)) (T - second dt / 2) (T + second dt / 2) I /\
    (forall k, scirc_val (N:=EN) (Some x) (Some y) (Some z) (Some r) (Some dt) (Some d) (Some v) (Some c) (Z.of_nat (S k)) it = Some (h k)) /\
    is_lim_seq h (I / second dt).
Proof.
  intros T Hz Hr Hc Hdt Hex. 
  assert (Hz' : 0 <= metre z) by (unfold metre; lra). assert (Hr' : 0 < metre r) by (unfold metre; lra).
  assert (Hs : 0 < second dt) by (unfold second; lra).
  set (zz := metre z) in *. set (rr := metre r) in *. set (rc := sqrt (metre x ^ 2 + metre y ^ 2)).
  set (Rp := sqrt (zz * zz + (rr - rc) * (rr - rc))). set (Rm := sqrt (zz * zz + (rr + rc) * (rr + rc))).
  assert (Dz : zz = c * (zz / c)) by (field; lra). assert (Dp : Rp = c * (Rp / c)) by (field; lra). assert (Dr : Rm = c * (Rm / c)) by (field; lra).
  pose proof (tz_tp _ _ _ _ _ _ Hz' Hc Dz Dp) as Hzp.
  assert (Hrc : 0 <= rc) by apply sqrt_pos.
  assert (Hpr : Rp / c <= Rm / c).
  { apply Rmult_le_compat_r; [apply Rlt_le, Rinv_0_lt_compat; lra|]. apply sqrt_le_1_alt. nra. }
  assert (Htz : 0 <= zz / c) by (apply Rdiv_le_0_compat; lra).
  assert (Val : forall k, scirc_val (N:=EN) (Some x) (Some y) (Some z) (Some r) (Some dt) (Some d) (Some v) (Some c) (Z.of_nat (S k)) it =
    ndiv (n:=EN) (scirc_sir_at (N:=EN) (Some (c * (zz / c))) (Some rr) (Some rc) (Some (c * (Rp / c))) (Some (c * (Rm / c))) (Some v) (Some c)
      (Z.of_nat (S k)) (Some (Rmax 0 (T - second dt / 2))) (Some (T + second dt / 2)) (Some 0)) (Some (second dt))).
  { intros k. unfold scirc_val. cbv zeta. rewrite !milli, hyp_EN, scirc_t1_EN, scirc_t2_EN.
    rewrite <- Dz, <- Dp, <- Dr. fold rc zz rr T.
    assert (Q1 : nsqrt (n:=EN) (nadd (n:=EN) (nmul (n:=EN) (Some zz) (Some zz)) (nmul (n:=EN) (nsub (n:=EN) (Some rr) (Some rc)) (nsub (n:=EN) (Some rr) (Some rc)))) = Some Rp).
    { encalc. rewrite e_sqrt_ok by apply ssq. reflexivity. }
    assert (Q2 : nsqrt (n:=EN) (nadd (n:=EN) (nmul (n:=EN) (Some zz) (Some zz)) (nmul (n:=EN) (nadd (n:=EN) (Some rr) (Some rc)) (nadd (n:=EN) (Some rr) (Some rc)))) = Some Rm).
    { encalc. rewrite e_sqrt_ok by apply ssq. reflexivity. }
    rewrite Q1, Q2. assert (Q3 : ndiv (n:=EN) (Some dt) (nofZ 1000000) = Some (second dt)) by (encalc; rewrite e_div_ok by lra; reflexivity). rewrite Q3. reflexivity. }
  destruct (Rle_lt_dec 0 (T + second dt / 2)) as [Hpos|Hneg].
  - set (t1 := Rmax 0 (T - second dt / 2)) in *. set (t2 := T + second dt / 2) in *.
    assert (H12 : t1 <= t2) by (unfold t1; apply Rmax_lub; [exact Hpos|unfold t2; lra]).
    destruct (sir_RInt (metre x) (metre y) zz rr v c rc (zz / c) (Rp / c) (Rm / c) Hz' Hr' Hc eq_refl Dz Dp Dr t1 t2 H12) as (J & HJ & HI).
    set (fl := if Rltb rc rr then cut t1 t2 (Rp / c) - cut t1 t2 (zz / c) else 0) in *.
    exists (v * c * fl + v * c / PI * J).
    exists (fun k => (v * c * fl + v * c / PI * trap (angle zz rr rc c) (clip (Rp / c) (Rm / c) t1) (clip (Rp / c) (Rm / c) t2) (S k)) / second dt).
    split; [|split].
    + assert (I0 : is_RInt (sir (disk rr) v c (metre x) (metre y) zz) (T - second dt / 2) t1 ((t1 - (T - second dt / 2)) * 0)).
      { apply const_RInt; [unfold t1; apply Rmax_r|]. intros t Ht.
        apply (sir_early (metre x) (metre y) zz rr v c (zz / c) Hc Dz). revert Ht. unfold t1, Rmax. destruct (Rle_dec _ _); lra. }
      pose proof (is_RInt_Chasles _ _ _ _ _ _ I0 HI) as I. unfold plus in I; cbn in I. rewrite Rmult_0_r, Rplus_0_l in I. exact I.
    + intros k. rewrite Val. rewrite (scirc_branches (zz / c) (Rp / c) (Rm / c) rr rc v c (S k) Hc Hzp Hpr ltac:(lia) t1 t2 H12).
      rewrite <- Dz. fold fl. encalc. rewrite e_div_ok by lra. reflexivity.
    + replace ((v * c * fl + v * c / PI * J) / second dt) with (/ second dt * (v * c * fl + v * c / PI * J)) by (field; split; [apply PI_neq0|lra]).
      apply is_lim_seq_ext with (fun k => / second dt * (v * c * fl + v * c / PI * trap (angle zz rr rc c) (clip (Rp / c) (Rm / c) t1) (clip (Rp / c) (Rm / c) t2) (S k))).
      { intros k. unfold Rdiv. ring. }
      change (Finite (/ second dt * (v * c * fl + v * c / PI * J))) with (Rbar_mult (/ second dt) (Finite (v * c * fl + v * c / PI * J))).
      apply is_lim_seq_scal_l. apply is_lim_seq_plus'; [apply is_lim_seq_const|].
      change (Finite (v * c / PI * J)) with (Rbar_mult (v * c / PI) (Finite J)).
      apply is_lim_seq_scal_l. apply trap_lim; [|exact HJ]. unfold clip. apply Rle_max_compat_l. apply Rle_min_compat_l. exact H12.
  - exists 0, (fun _ => 0).
    assert (E1 : Rmax 0 (T - second dt / 2) = 0) by (apply Rmax_left; lra).
    split; [|split].
    + assert (I0 : is_RInt (sir (disk rr) v c (metre x) (metre y) zz) (T - second dt / 2) (T + second dt / 2)
                     ((T + second dt / 2 - (T - second dt / 2)) * 0)).
      { apply const_RInt; [lra|]. intros t Ht. apply (sir_early (metre x) (metre y) zz rr v c (zz / c) Hc Dz). lra. }
      rewrite Rmult_0_r in I0. exact I0.
    + intros k. rewrite Val, E1.
      assert (V : scirc_sir_at (N:=EN) (Some (c * (zz / c))) (Some rr) (Some rc) (Some (c * (Rp / c))) (Some (c * (Rm / c))) (Some v) (Some c)
        (Z.of_nat (S k)) (Some 0) (Some (T + second dt / 2)) (Some 0) = Some 0).
      { destruct Hex as [Hzp'|[Hout|Hbad]]; [| |lra].
        - assert (Hzz : 0 < zz / c) by (apply Rdiv_lt_0_compat; [unfold zz, metre; lra|lra]). apply scirc_before; lra.
        - assert (Hout' : rr <= rc) by (unfold rc, rr; rewrite metre_hyp; unfold metre; lra).
          unfold scirc_sir_at. cbv zeta. encalc. rewrite (proj2 (Rltb_niff rc rr)) by lra.
          rewrite (Rltb_scale c (T + second dt / 2) (Rp / c)) by exact Hc. rewrite (proj2 (Rltb_iff _ _)) by lra. reflexivity. }
      rewrite V. encalc. rewrite e_div_ok by lra. f_equal. unfold Rdiv. ring.
    + replace (0 / second dt) with 0 by (unfold Rdiv; ring). apply is_lim_seq_const.
Qed.

(** Above the disk, in its plane, a sampling interval before time 0. *)
Lemma scirc_val_neg : scirc_val (N:=EN) (Some 0) (Some 0) (Some 0) (Some 10) (Some 1) (Some (-5)) (Some 1) (Some 1000) 1 0 = Some (-4500).
Proof.
  unfold scirc_val. cbv zeta. rewrite !milli, hyp_EN, scirc_t1_EN, scirc_t2_EN.
  assert (E0 : sqrt (metre 0 ^ 2 + metre 0 ^ 2) = 0).
  { replace (metre 0 ^ 2 + metre 0 ^ 2) with 0 by (unfold metre; field). apply sqrt_0. }
  rewrite E0.
  assert (Q1 : nsqrt (n:=EN) (nadd (n:=EN) (nmul (n:=EN) (Some (metre 0)) (Some (metre 0))) (nmul (n:=EN) (nsub (n:=EN) (Some (metre 10)) (Some 0)) (nsub (n:=EN) (Some (metre 10)) (Some 0)))) = Some (1 / 100)).
  { encalc. rewrite e_sqrt_ok by (unfold metre; lra). f_equal.
    replace (metre 0 * metre 0 + (metre 10 - 0) * (metre 10 - 0)) with ((1 / 100) * (1 / 100)) by (unfold metre; field). apply sqrt_square. lra. }
  assert (Q2 : nsqrt (n:=EN) (nadd (n:=EN) (nmul (n:=EN) (Some (metre 0)) (Some (metre 0))) (nmul (n:=EN) (nadd (n:=EN) (Some (metre 10)) (Some 0)) (nadd (n:=EN) (Some (metre 10)) (Some 0)))) = Some (1 / 100)).
  { encalc. rewrite e_sqrt_ok by (unfold metre; lra). f_equal.
    replace (metre 0 * metre 0 + (metre 10 + 0) * (metre 10 + 0)) with ((1 / 100) * (1 / 100)) by (unfold metre; field). apply sqrt_square. lra. }
  rewrite Q1, Q2.
  replace (Rmax 0 (second (IZR 0 * 1 + -5) - second 1 / 2)) with 0 by (symmetry; apply Rmax_left; unfold second; lra).
  unfold scirc_sir_at. cbv zeta. encalc. unfold metre, second.
  rewrite (proj2 (Rltb_iff 0 (10 / 1000))) by lra.
  rewrite (proj2 (Rltb_niff (1000 * 0) (0 / 1000))) by lra. cbn [andb].
  rewrite (proj2 (Rleb_iff (0 / 1000) (1000 * 0))) by lra.
  rewrite (proj2 (Rltb_iff (1000 * ((0 * 1 + -5) / 1000000 + 1 / 1000000 / 2)) (1 / 100))) by lra. cbn [andb].
  rewrite e_div_ok by lra. rewrite e_div_ok by lra. f_equal. field.
Qed.
