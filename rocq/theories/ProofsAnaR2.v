(** ProofsAnaR2.v - rect_sir in exact arithmetic. *)
From Coq Require Import Reals Lra Lia.
From Coquelicot Require Import Coquelicot.
From Verif Require Import Base NumR ModelSir ModelArr ModelSmp ModelAna ProofsR SpecAna ProofsArc ProofsArc2 ProofsAna ProofsAnaR.
Open Scope R_scope.

Lemma quad_late rho s l : 0 < rho -> 0 <= s -> 0 <= l -> s ^ 2 + l ^ 2 <= rho ^ 2 -> quad rho s l = 0.
Proof.
  intros Hr Hs Hl H. unfold quad. apply Rmax_left.
  assert (Hsr : s <= rho) by nra. assert (Hlr : l <= rho) by nra.
  destruct (Rle_lt_dec (PI / 2 - alpha rho l - alpha rho s) 0) as [|Hlt]; [assumption|exfalso].
  pose proof (alpha_bound rho s Hr Hs) as Bs. pose proof (alpha_bound rho l Hr Hl) as Bl.
  assert (C : cos (PI / 2 - alpha rho l) < cos (alpha rho s)) by (apply cos_decreasing_1; lra).
  rewrite cos_shift in C.
  assert (Ds := div_bound rho s Hr (conj Hs Hsr)). assert (Dl := div_bound rho l Hr (conj Hl Hlr)).
  unfold alpha in C. destruct (Rle_dec s rho); [|lra]. destruct (Rle_dec l rho); [|lra].
  rewrite cos_acos in C by lra. rewrite sin_acos in C by lra.
  assert (0 <= sqrt (1 - (l / rho)²)) by apply sqrt_pos.
  assert (E : sqrt (1 - (l / rho)²) ^ 2 = 1 - (l / rho)²) by (apply sqrt_pow2'; unfold Rsqr; nra).
  assert (G : 1 - (l / rho) ^ 2 < (s / rho) ^ 2).
  { rewrite <- Rsqr_pow2, <- E. nra. }
  assert (F : (s / rho) ^ 2 + (l / rho) ^ 2 = (s ^ 2 + l ^ 2) / rho ^ 2) by (field; lra).
  assert (Q : (s ^ 2 + l ^ 2) / rho ^ 2 <= 1).
  { apply Rmult_le_reg_r with (rho ^ 2); [nra|]. field_simplify; lra. }
  lra.
Qed.

Lemma quad_early rho s l : 0 < rho -> 0 <= s -> 0 <= l -> rho ^ 2 <= s ^ 2 + l ^ 2 ->
  quad rho s l = PI / 2 - alpha rho l - alpha rho s.
Proof.
  intros Hr Hs Hl H. unfold quad. apply Rmax_right.
  destruct (Rle_lt_dec 0 (PI / 2 - alpha rho l - alpha rho s)) as [|Hlt]; [assumption|exfalso].
  pose proof (alpha_bound rho s Hr Hs) as Bs. pose proof (alpha_bound rho l Hr Hl) as Bl.
  assert (C : cos (alpha rho s) < cos (PI / 2 - alpha rho l)) by (apply cos_decreasing_1; lra).
  rewrite cos_shift in C.
  destruct (Rle_lt_dec s rho) as [Hsr|Hsr].
  2:{ unfold alpha in Hlt at 2. destruct (Rle_dec s rho); lra. }
  destruct (Rle_lt_dec l rho) as [Hlr|Hlr].
  2:{ unfold alpha in Hlt at 1. destruct (Rle_dec l rho); lra. }
  assert (Ds := div_bound rho s Hr (conj Hs Hsr)). assert (Dl := div_bound rho l Hr (conj Hl Hlr)).
  unfold alpha in C. destruct (Rle_dec s rho); [|lra]. destruct (Rle_dec l rho); [|lra].
  rewrite cos_acos in C by lra. rewrite sin_acos in C by lra.
  assert (0 <= sqrt (1 - (l / rho)²)) by apply sqrt_pos.
  assert (E : sqrt (1 - (l / rho)²) ^ 2 = 1 - (l / rho)²) by (apply sqrt_pow2'; unfold Rsqr; nra).
  assert (G : (s / rho) ^ 2 < 1 - (l / rho) ^ 2).
  { rewrite <- (Rsqr_pow2 (l / rho)), <- E. nra. }
  assert (F : (s / rho) ^ 2 + (l / rho) ^ 2 = (s ^ 2 + l ^ 2) / rho ^ 2) by (field; lra).
  assert (Q : 1 <= (s ^ 2 + l ^ 2) / rho ^ 2).
  { apply Rmult_le_reg_r with (rho ^ 2); [nra|]. field_simplify; lra. }
  lra.
Qed.

Section Corner.
  Variables (z s l c t : R).
  Hypothesis Hz : 0 <= z.
  Hypothesis Hc : 0 < c.
  Hypothesis Hs : 0 <= s.
  Hypothesis Hl : 0 <= l.

  Lemma div_le_iff u : u / c <= t <-> u <= c * t.
  Proof.
    split; intros H.
    - apply Rmult_le_reg_r with (/ c); [apply Rinv_0_lt_compat; exact Hc|].
      replace (c * t * / c) with t by (field; lra). exact H.
    - apply Rmult_le_reg_r with c; [exact Hc|]. field_simplify; lra.
  Qed.
  Lemma le_div_iff u : t <= u / c <-> c * t <= u.
  Proof.
    split; intros H.
    - apply Rmult_le_reg_r with (/ c); [apply Rinv_0_lt_compat; exact Hc|].
      replace (c * t * / c) with t by (field; lra). exact H.
    - apply Rmult_le_reg_r with c; [exact Hc|]. field_simplify; lra.
  Qed.

  Let T2 := sqrt (z * z + s * s).
  Let T3 := sqrt (z * z + l * l).
  Let T4 := sqrt (z * z + l * l + s * s).

  Lemma corner_unfold : corner (N:=EN) (Some z) (Some s) (Some l) (Some c) (Some t) =
    let tz := z / c in
    let acs u := e_unit acos (e_div (Some u) (e2 Rmult (Some c) (e_sqrt (Some (t * t - tz * tz))))) in
    let a0 := Some 0 in
    let a1 := if Rleb tz t && Rleb t (T4 / c) then e2 Rplus a0 (Some (c / 4)) else a0 in
    let a2 := if Rleb (T2 / c) t && Rleb t (T4 / c) then e2 Rminus a1 (e2 Rmult (Some (c / (2 * PI))) (acs s)) else a1 in
    if Rleb (T3 / c) t && Rleb t (T4 / c) then e2 Rminus a2 (e2 Rmult (Some (c / (2 * PI))) (acs l)) else a2.
  Proof.
    pose proof PI_RGT_0. unfold corner. encalc. unfold T2, T3, T4.
    rewrite !e_sqrt_ok by nra. cbn [e2]. rewrite !e_div_ok by lra. reflexivity.
  Qed.

  Lemma corner_before : c * t < z -> corner (N:=EN) (Some z) (Some s) (Some l) (Some c) (Some t) = Some 0.
  Proof.
    intros H. rewrite corner_unfold. cbv zeta.
    assert (E1 : Rleb (z / c) t = false) by (apply Rleb_niff; apply Rnot_le_lt; rewrite div_le_iff; lra).
    assert (G2 : z <= T2) by (apply pow2_le_sqrt; [exact Hz|apply sqrt_pos|unfold T2; rewrite sqrt_pow2' by nra; nra]).
    assert (G3 : z <= T3) by (apply pow2_le_sqrt; [exact Hz|apply sqrt_pos|unfold T3; rewrite sqrt_pow2' by nra; nra]).
    assert (E2 : Rleb (T2 / c) t = false) by (apply Rleb_niff; apply Rnot_le_lt; rewrite div_le_iff; lra).
    assert (E3 : Rleb (T3 / c) t = false) by (apply Rleb_niff; apply Rnot_le_lt; rewrite div_le_iff; lra).
    rewrite E1, E2, E3. reflexivity.
  Qed.

  Lemma corner_arrival : c * t = z -> 0 < s -> 0 < l -> corner (N:=EN) (Some z) (Some s) (Some l) (Some c) (Some t) = Some (c / 4).
  Proof.
    intros H Hs' Hl'. rewrite corner_unfold. cbv zeta.
    assert (E1 : Rleb (z / c) t = true) by (apply Rleb_iff; rewrite div_le_iff; lra).
    assert (G2 : z < T2) by (apply pow2_lt_sqrt; [exact Hz|apply sqrt_pos|unfold T2; rewrite sqrt_pow2' by nra; nra]).
    assert (G3 : z < T3) by (apply pow2_lt_sqrt; [exact Hz|apply sqrt_pos|unfold T3; rewrite sqrt_pow2' by nra; nra]).
    assert (G4 : z <= T4) by (apply pow2_le_sqrt; [exact Hz|apply sqrt_pos|unfold T4; rewrite sqrt_pow2' by nra; nra]).
    assert (E2 : Rleb (T2 / c) t = false) by (apply Rleb_niff; apply Rnot_le_lt; rewrite div_le_iff; lra).
    assert (E3 : Rleb (T3 / c) t = false) by (apply Rleb_niff; apply Rnot_le_lt; rewrite div_le_iff; lra).
    assert (E4 : Rleb t (T4 / c) = true) by (apply Rleb_iff; rewrite le_div_iff; lra).
    rewrite E1, E2, E3, E4. cbn [andb e2]. f_equal. lra.
  Qed.

  Lemma corner_after (rho := sqrt ((c * t) ^ 2 - z ^ 2)) : z < c * t ->
    corner (N:=EN) (Some z) (Some s) (Some l) (Some c) (Some t) = Some (c / (2 * PI) * quad rho s l).
  Proof.
    intros H. pose proof PI_RGT_0 as Hpi. rewrite corner_unfold. cbv zeta.
    assert (Hr2 : rho ^ 2 = (c * t) ^ 2 - z ^ 2) by (apply sqrt_pow2'; nra).
    assert (Hr : 0 < rho) by (apply sqrt_lt_R0; nra).
    clearbody rho.
    assert (E1 : Rleb (z / c) t = true) by (apply Rleb_iff; rewrite div_le_iff; lra). rewrite E1.
    assert (H2 : T2 ^ 2 = z ^ 2 + s ^ 2) by (unfold T2; rewrite sqrt_pow2' by nra; ring).
    assert (H3 : T3 ^ 2 = z ^ 2 + l ^ 2) by (unfold T3; rewrite sqrt_pow2' by nra; ring).
    assert (H4 : T4 ^ 2 = z ^ 2 + l ^ 2 + s ^ 2) by (unfold T4; rewrite sqrt_pow2' by nra; ring).
    assert (P2 : 0 <= T2) by apply sqrt_pos. assert (P3 : 0 <= T3) by apply sqrt_pos. assert (P4 : 0 <= T4) by apply sqrt_pos.
    clearbody T2 T3 T4.
    assert (Ht : c * sqrt (t * t - z / c * (z / c)) = rho).
    { replace (t * t - z / c * (z / c)) with ((rho / c) * (rho / c)).
      - rewrite sqrt_square; [field; lra|]. apply Rdiv_le_0_compat; lra.
      - apply Rmult_eq_reg_r with (c ^ 2); [|nra]. replace (rho / c * (rho / c) * c ^ 2) with (rho ^ 2) by (field; lra).
        rewrite Hr2. field. lra. }
    assert (A : forall u, 0 <= u -> u <= rho ->
      e_unit acos (e_div (Some u) (e2 Rmult (Some c) (e_sqrt (Some (t * t - z / c * (z / c)))))) = Some (alpha rho u)).
    { intros u Hu Hur. rewrite e_sqrt_ok.
      2:{ replace (t * t - z / c * (z / c)) with ((rho / c) * (rho / c)); [apply Rle_0_sqr|].
          apply Rmult_eq_reg_r with (c ^ 2); [|nra]. replace (rho / c * (rho / c) * c ^ 2) with (rho ^ 2) by (field; lra).
          rewrite Hr2. field. lra. }
      cbn [e2]. rewrite Ht, e_div_ok by lra. pose proof (div_bound rho u Hr (conj Hu Hur)).
      rewrite e_unit_ok by lra. unfold alpha. destruct (Rle_dec u rho); [reflexivity|lra]. }
    assert (L4 : t <= T4 / c <-> rho ^ 2 <= s ^ 2 + l ^ 2).
    { rewrite le_div_iff. split; intros G.
      - rewrite Hr2. nra.
      - apply pow2_le_sqrt; [nra|exact P4|]. rewrite H4. lra. }
    assert (L2 : T2 / c <= t <-> s <= rho).
    { rewrite div_le_iff. split; intros G.
      - apply pow2_le_sqrt; [lra|lra|]. rewrite Hr2. nra.
      - apply pow2_le_sqrt; [exact P2|nra|]. rewrite H2. nra. }
    assert (L3 : T3 / c <= t <-> l <= rho).
    { rewrite div_le_iff. split; intros G.
      - apply pow2_le_sqrt; [lra|lra|]. rewrite Hr2. nra.
      - apply pow2_le_sqrt; [exact P3|nra|]. rewrite H3. nra. }
    destruct (Rleb t (T4 / c)) eqn:B4.
    2:{ rewrite !Bool.andb_false_r. apply Rleb_niff in B4.
        assert (Q : quad rho s l = 0).
        { apply quad_late; auto. apply Rnot_lt_le. intros G. apply Rlt_le in G. apply L4 in G. lra. }
        rewrite Q. f_equal. lra. }
    apply Rleb_iff in B4. apply L4 in B4. rewrite quad_early by lra.
    rewrite !Bool.andb_true_r.
    assert (As : (Rleb (T2 / c) t = true /\ s <= rho) \/ (Rleb (T2 / c) t = false /\ alpha rho s = 0)).
    { destruct (Rleb (T2 / c) t) eqn:B2; [left|right]; (split; [reflexivity|]).
      - apply L2. apply Rleb_iff. exact B2.
      - apply Rleb_niff in B2. unfold alpha. destruct (Rle_dec s rho) as [G|]; [|reflexivity]. apply L2 in G. lra. }
    assert (Al : (Rleb (T3 / c) t = true /\ l <= rho) \/ (Rleb (T3 / c) t = false /\ alpha rho l = 0)).
    { destruct (Rleb (T3 / c) t) eqn:B3; [left|right]; (split; [reflexivity|]).
      - apply L3. apply Rleb_iff. exact B3.
      - apply Rleb_niff in B3. unfold alpha. destruct (Rle_dec l rho) as [G|]; [|reflexivity]. apply L3 in G. lra. }
    destruct As as [[-> Gs]|[-> Gs]]; destruct Al as [[-> Gl]|[-> Gl]];
      try rewrite (A s Hs Gs); try rewrite (A l Hl Gl); cbn [e2]; f_equal; rewrite ?Gs, ?Gl; field; lra.
  Qed.
End Corner.

Section RectAt.
  Variables (x y z a b c t : R).
  Hypothesis Hx : 0 <= x.
  Hypothesis Hy : 0 <= y.
  Hypothesis Hz : 0 <= z.
  Hypothesis Ha : 0 < a.
  Hypothesis Hb : 0 < b.
  Hypothesis Hc : 0 < c.

  Let X := Some x : EN. Let Y := Some y : EN. Let A := Some a : EN. Let B := Some b : EN.
  Let trip (g s l : R) : EN * EN * EN := (Some g, Some s, Some l).

  Lemma half_EN u : ndiv (n:=EN) (Some u) (nofZ 2) = Some (u / 2).
  Proof. encalc. rewrite e_div_ok by lra. reflexivity. Qed.

  Ltac sub E1 E2 E3 E4 := intros; unfold sub_rect, X, Y, A, B; cbv zeta; rewrite !half_EN; encalc;
    rewrite E1, E2, E3, E4; cbn [andb]; unfold trip.

  Lemma sub_in p : x <= a/2 -> y <= b/2 ->
    sub_rect X Y A B 1 p = trip 1 (a/2 - x) (b/2 - y) /\ sub_rect X Y A B 2 p = trip 1 (a/2 + x) (b/2 - y) /\
    sub_rect X Y A B 3 p = trip 1 (a/2 + x) (b/2 + y) /\ sub_rect X Y A B 4 p = trip 1 (a/2 - x) (b/2 - y).
  Proof.
    intros H1 H2. pose proof (proj2 (Rleb_iff _ _) H1) as E1. pose proof (proj2 (Rltb_niff _ _) H1) as E2.
    pose proof (proj2 (Rleb_iff _ _) H2) as E3. pose proof (proj2 (Rltb_niff _ _) H2) as E4.
    repeat split; sub E1 E2 E3 E4; rewrite ?(Rabs_pos_eq (a/2 - x)), ?(Rabs_pos_eq (b/2 - y)), ?(Rabs_pos_eq (x + a/2)), ?(Rabs_pos_eq (y + b/2)) by lra;
      rewrite ?(Rplus_comm x), ?(Rplus_comm y); reflexivity.
  Qed.
  Lemma sub_b p : x <= a/2 -> b/2 < y ->
    sub_rect X Y A B 1 p = trip (-1) (a/2 - x) (y - b/2) /\ sub_rect X Y A B 2 p = trip (-1) (a/2 + x) (y - b/2) /\
    sub_rect X Y A B 3 p = trip 1 (a/2 + x) (b/2 + y) /\ sub_rect X Y A B 4 p = trip 1 (a/2 - x) (b/2 + y).
  Proof.
    intros H1 H2. pose proof (proj2 (Rleb_iff _ _) H1) as E1. pose proof (proj2 (Rltb_niff _ _) H1) as E2.
    pose proof (proj2 (Rleb_niff _ _) H2) as E3. pose proof (proj2 (Rltb_iff _ _) H2) as E4.
    repeat split; sub E1 E2 E3 E4; rewrite ?(Rabs_pos_eq (a/2 - x)), ?(Rabs_pos_eq (y - b/2)), ?(Rabs_pos_eq (a/2 + x)), ?(Rabs_pos_eq (b/2 + y)) by lra;
      reflexivity.
  Qed.
  Lemma sub_a p : a/2 < x -> y <= b/2 ->
    sub_rect X Y A B 1 p = trip (-1) (x - a/2) (b/2 - y) /\ sub_rect X Y A B 2 p = trip 1 (a/2 + x) (b/2 - y) /\
    sub_rect X Y A B 3 p = trip 1 (a/2 + x) (b/2 + y) /\ sub_rect X Y A B 4 p = trip (-1) (x - a/2) (b/2 + y).
  Proof.
    intros H1 H2. pose proof (proj2 (Rleb_niff _ _) H1) as E1. pose proof (proj2 (Rltb_iff _ _) H1) as E2.
    pose proof (proj2 (Rleb_iff _ _) H2) as E3. pose proof (proj2 (Rltb_niff _ _) H2) as E4.
    repeat split; sub E1 E2 E3 E4; rewrite ?(Rabs_pos_eq (x - a/2)), ?(Rabs_pos_eq (b/2 - y)), ?(Rabs_pos_eq (a/2 + x)), ?(Rabs_pos_eq (b/2 + y)) by lra;
      reflexivity.
  Qed.
  Lemma sub_ab p : a/2 < x -> b/2 < y ->
    sub_rect X Y A B 1 p = trip 1 (x - a/2) (y - b/2) /\ sub_rect X Y A B 2 p = trip (-1) (a/2 + x) (y - b/2) /\
    sub_rect X Y A B 3 p = trip 1 (a/2 + x) (b/2 + y) /\ sub_rect X Y A B 4 p = trip (-1) (x - a/2) (y + b/2).
  Proof.
    intros H1 H2. pose proof (proj2 (Rleb_niff _ _) H1) as E1. pose proof (proj2 (Rltb_iff _ _) H1) as E2.
    pose proof (proj2 (Rleb_niff _ _) H2) as E3. pose proof (proj2 (Rltb_iff _ _) H2) as E4.
    repeat split; sub E1 E2 E3 E4; rewrite ?(Rabs_pos_eq (x - a/2)), ?(Rabs_pos_eq (y - b/2)), ?(Rabs_pos_eq (a/2 + x)), ?(Rabs_pos_eq (b/2 + y)), ?(Rabs_pos_eq (y + b/2)) by lra;
      reflexivity.
  Qed.

  Let C (s l : R) : EN := corner (N:=EN) (Some z) (Some s) (Some l) (Some c) (Some t).

  Lemma rect_at_sum (add : EN -> EN -> EN -> EN) g1 s1 l1 g2 s2 l2 g3 s3 l3 g4 s4 l4 :
    (forall p, sub_rect X Y A B 1 p = trip g1 s1 l1 /\ sub_rect X Y A B 2 p = trip g2 s2 l2 /\
               sub_rect X Y A B 3 p = trip g3 s3 l3 /\ sub_rect X Y A B 4 p = trip g4 s4 l4) ->
    rect_at (N:=EN) add X Y (Some z) A B (Some c) (Some t) =
    add (add (add (add (Some 0) (Some g1) (C s1 l1)) (Some g2) (C s2 l2)) (Some g3) (C s3 l3)) (Some g4) (C s4 l4).
  Proof.
    intros Hs. unfold rect_at, rect_corner. cbv zeta.
    rewrite (proj1 (Hs _)). unfold trip at 1. cbv iota beta.
    rewrite (proj1 (proj2 (Hs _))). unfold trip at 1. cbv iota beta.
    rewrite (proj1 (proj2 (proj2 (Hs _)))). unfold trip at 1. cbv iota beta.
    rewrite (proj2 (proj2 (proj2 (Hs _)))). unfold trip at 1. reflexivity.
  Qed.

  Definition corner_is (s l v : R) : Prop := C s l = Some v /\ 0 <= v.

  (** The weighted sum for both versions of the accumulation. *)
  Lemma sum_cpu g1 s1 l1 v1 g2 s2 l2 v2 g3 s3 l3 v3 g4 s4 l4 v4 (add : EN -> EN -> EN -> EN) :
    add = add_cpu (N:=EN) \/ add = add_gpu (N:=EN) ->
    corner_is s1 l1 v1 -> corner_is s2 l2 v2 -> corner_is s3 l3 v3 -> corner_is s4 l4 v4 ->
    add (add (add (add (Some 0) (Some g1) (C s1 l1)) (Some g2) (C s2 l2)) (Some g3) (C s3 l3)) (Some g4) (C s4 l4)
    = Some (g1 * v1 + g2 * v2 + g3 * v3 + g4 * v4).
  Proof.
    intros Ha' [-> P1] [-> P2] [-> P3] [-> P4].
    assert (St : forall w g v, 0 <= v -> add (Some w) (Some g) (Some v) = Some (w + g * v)).
    { intros w g v Hv. destruct Ha' as [-> | ->]; [reflexivity|]. unfold add_gpu. encalc.
      destruct (Rltb 0 v) eqn:E; [reflexivity|]. apply Rltb_niff in E. assert (v = 0) by lra. subst v. f_equal. ring. }
    rewrite !St by assumption. f_equal. ring.
  Qed.

  Lemma quad_nonneg rho s l : 0 <= quad rho s l.
  Proof. unfold quad. apply Rmax_l. Qed.

  (** What every corner term is. *)
  Lemma corner_before_is s l : c * t < z -> 0 <= s -> 0 <= l -> corner_is s l 0.
  Proof. intros H Hs Hl. split; [apply corner_before; auto|lra]. Qed.
  Lemma corner_arrival_is s l : c * t = z -> 0 < s -> 0 < l -> corner_is s l (c / 4).
  Proof. intros H Hs Hl. split; [apply corner_arrival; auto; lra|lra]. Qed.
  Lemma corner_after_is s l : z < c * t -> 0 <= s -> 0 <= l ->
    corner_is s l (c / (2 * PI) * quad (sqrt ((c * t) ^ 2 - z ^ 2)) s l).
  Proof.
    intros H Hs Hl. split; [apply corner_after; auto|]. pose proof PI_RGT_0.
    apply Rmult_le_pos; [|apply quad_nonneg]. apply Rdiv_le_0_compat; lra.
  Qed.

  (** The missing part inside the aperture (sub-rectangle 4 has the wrong
      length). *)
  Definition missing : R :=
    if Rle_dec x (a/2) then if Rle_dec y (b/2) then if Rlt_dec z (c * t) then
      c / (2 * PI) * (quad (sqrt ((c * t) ^ 2 - z ^ 2)) (a/2 - x) (b/2 + y) - quad (sqrt ((c * t) ^ 2 - z ^ 2)) (a/2 - x) (b/2 - y))
    else 0 else 0 else 0.

  Lemma rect_at_exact (add : EN -> EN -> EN -> EN) : add = add_cpu (N:=EN) \/ add = add_gpu (N:=EN) ->
    ~ (c * t = z /\ (x = a/2 \/ y = b/2)) ->
    exists h, rect_at (N:=EN) add X Y (Some z) A B (Some c) (Some t) = Some h /\
      is_sir (rectangle a b) 1 c x y z t (h + missing).
  Proof.
    intros Hadd Hn. pose proof PI_RGT_0 as Hpi.
    set (rho := sqrt ((c * t) ^ 2 - z ^ 2)).
    destruct (Rtotal_order (c * t) z) as [Hb'|[He|Haft]].
    - (* before arrival *)
      assert (M0 : missing = 0).
      { unfold missing. repeat destruct (Rle_dec _ _); auto. destruct (Rlt_dec _ _); auto. lra. }
      exists 0. split; [|left; rewrite M0; lra].
      destruct (Rle_lt_dec x (a/2)) as [R1|R1]; destruct (Rle_lt_dec y (b/2)) as [R2|R2].
      + rewrite (rect_at_sum add _ _ _ _ _ _ _ _ _ _ _ _ (fun p => sub_in p R1 R2)).
        rewrite (sum_cpu _ _ _ 0 _ _ _ 0 _ _ _ 0 _ _ _ 0 add Hadd) by (apply corner_before_is; lra). f_equal; ring.
      + rewrite (rect_at_sum add _ _ _ _ _ _ _ _ _ _ _ _ (fun p => sub_b p R1 R2)).
        rewrite (sum_cpu _ _ _ 0 _ _ _ 0 _ _ _ 0 _ _ _ 0 add Hadd) by (apply corner_before_is; lra). f_equal; ring.
      + rewrite (rect_at_sum add _ _ _ _ _ _ _ _ _ _ _ _ (fun p => sub_a p R1 R2)).
        rewrite (sum_cpu _ _ _ 0 _ _ _ 0 _ _ _ 0 _ _ _ 0 add Hadd) by (apply corner_before_is; lra). f_equal; ring.
      + rewrite (rect_at_sum add _ _ _ _ _ _ _ _ _ _ _ _ (fun p => sub_ab p R1 R2)).
        rewrite (sum_cpu _ _ _ 0 _ _ _ 0 _ _ _ 0 _ _ _ 0 add Hadd) by (apply corner_before_is; lra). f_equal; ring.
    - (* at arrival *)
      assert (M0 : missing = 0).
      { unfold missing. repeat destruct (Rle_dec _ _); auto. destruct (Rlt_dec _ _); auto. lra. }
      assert (R0 : sqrt ((c * t) ^ 2 - z ^ 2) = 0).
      { rewrite He. replace (z ^ 2 - z ^ 2) with 0 by ring. apply sqrt_0. }
      assert (Nx : x <> a/2) by tauto. assert (Ny : y <> b/2) by tauto.
      assert (Out : a/2 < x \/ b/2 < y -> is_sir (rectangle a b) 1 c x y z t (0 + missing)).
      { intros Ho. rewrite M0. right. split; [lra|]. exists 0. rewrite R0. split; [|lra].
        apply point_arc_out. unfold rectangle. rewrite !Rabs_pos_eq by assumption.
        destruct Ho as [Ho|Ho]; [rewrite (proj2 (Rltb_niff x (a/2)))|rewrite (proj2 (Rltb_niff y (b/2)))]; try lra; auto.
        }
      destruct (Rle_lt_dec x (a/2)) as [R1|R1]; destruct (Rle_lt_dec y (b/2)) as [R2|R2].
      + rewrite (rect_at_sum add _ _ _ _ _ _ _ _ _ _ _ _ (fun p => sub_in p R1 R2)).
        rewrite (sum_cpu _ _ _ (c/4) _ _ _ (c/4) _ _ _ (c/4) _ _ _ (c/4) add Hadd) by (apply corner_arrival_is; lra).
        eexists. split; [reflexivity|]. rewrite M0. right. split; [lra|]. exists (2 * PI). rewrite R0. split; [|field; lra].
        apply point_arc_in. unfold rectangle. rewrite !Rabs_pos_eq by assumption.
        rewrite (proj2 (Rltb_iff x (a/2))), (proj2 (Rltb_iff y (b/2))) by lra. reflexivity.
      + rewrite (rect_at_sum add _ _ _ _ _ _ _ _ _ _ _ _ (fun p => sub_b p R1 R2)).
        rewrite (sum_cpu _ _ _ (c/4) _ _ _ (c/4) _ _ _ (c/4) _ _ _ (c/4) add Hadd) by (apply corner_arrival_is; lra).
        exists 0. split; [f_equal; field|]. apply Out. auto.
      + rewrite (rect_at_sum add _ _ _ _ _ _ _ _ _ _ _ _ (fun p => sub_a p R1 R2)).
        rewrite (sum_cpu _ _ _ (c/4) _ _ _ (c/4) _ _ _ (c/4) _ _ _ (c/4) add Hadd) by (apply corner_arrival_is; lra).
        exists 0. split; [f_equal; field|]. apply Out. auto.
      + rewrite (rect_at_sum add _ _ _ _ _ _ _ _ _ _ _ _ (fun p => sub_ab p R1 R2)).
        rewrite (sum_cpu _ _ _ (c/4) _ _ _ (c/4) _ _ _ (c/4) _ _ _ (c/4) add Hadd) by (apply corner_arrival_is; lra).
        exists 0. split; [f_equal; field|]. apply Out. auto.
    - (* after arrival *)
      assert (Hr : 0 < rho) by (apply sqrt_lt_R0; nra).
      assert (Wrap : forall theta h, is_arc (rectangle a b) x y rho theta -> h = c / (2 * PI) * theta ->
                is_sir (rectangle a b) 1 c x y z t h).
      { intros theta h Harc ->. right. split; [lra|]. exists theta. split; [exact Harc|]. field. lra. }
      unfold missing. fold rho.
      destruct (Rle_dec x (a/2)) as [R1|R1]; [|apply Rnot_le_lt in R1]; destruct (Rle_dec y (b/2)) as [R2|R2]; try apply Rnot_le_lt in R2.
      + rewrite (rect_at_sum add _ _ _ _ _ _ _ _ _ _ _ _ (fun p => sub_in p R1 R2)).
        erewrite (sum_cpu _ _ _ _ _ _ _ _ _ _ _ _ _ _ _ _ add Hadd); try (apply corner_after_is; lra).
        eexists. split; [reflexivity|]. fold rho. destruct (Rlt_dec z (c * t)); [|lra].
        eapply Wrap; [apply (rect_arc_in a b x y rho); lra|]. field. lra.
      + rewrite (rect_at_sum add _ _ _ _ _ _ _ _ _ _ _ _ (fun p => sub_b p R1 R2)).
        erewrite (sum_cpu _ _ _ _ _ _ _ _ _ _ _ _ _ _ _ _ add Hadd); try (apply corner_after_is; lra).
        eexists. split; [reflexivity|]. fold rho.
        eapply Wrap; [apply (rect_arc_b a b x y rho); lra|]. field. lra.
      + rewrite (rect_at_sum add _ _ _ _ _ _ _ _ _ _ _ _ (fun p => sub_a p R1 R2)).
        erewrite (sum_cpu _ _ _ _ _ _ _ _ _ _ _ _ _ _ _ _ add Hadd); try (apply corner_after_is; lra).
        eexists. split; [reflexivity|]. fold rho.
        eapply Wrap; [apply (rect_arc_a a b x y rho); lra|]. field. lra.
      + rewrite (rect_at_sum add _ _ _ _ _ _ _ _ _ _ _ _ (fun p => sub_ab p R1 R2)).
        erewrite (sum_cpu _ _ _ _ _ _ _ _ _ _ _ _ _ _ _ _ add Hadd); try (apply corner_after_is; lra).
        eexists. split; [reflexivity|]. fold rho.
        eapply Wrap; [apply (rect_arc_ab a b x y rho); lra|]. field. lra.
  Qed.
End RectAt.

(** ** In the units of the call *)
Lemma metre_abs x : metre (Rabs x) = Rabs (metre x).
Proof. unfold metre, Rdiv. rewrite Rabs_mult, (Rabs_pos_eq (/ 1000)) by lra. reflexivity. Qed.

Lemma is_sir_abs a b v c x y z t h :
  is_sir (rectangle a b) v c (Rabs x) (Rabs y) z t h -> is_sir (rectangle a b) v c x y z t h.
Proof.
  intros [H|(H & theta & Ha & E)]; [left; exact H|right]. split; [exact H|]. exists theta. split; [|exact E].
  apply rect_arc_abs. exact Ha.
Qed.

(** The part of the response that is missing at points over the aperture. *)
Definition shortfall (x y z a b c t : R) : R :=
  missing (Rabs (metre x)) (Rabs (metre y)) (metre z) (metre a) (metre b) c t.

Lemma rect_val_exact (add : EN -> EN -> EN -> EN) x y z a b dt delay c it :
  add = add_cpu (N:=EN) \/ add = add_gpu (N:=EN) ->
  0 <= z -> 0 < a -> 0 < b -> 0 < c ->
  ~ (c * second (IZR it * dt + delay) = metre z /\ (Rabs x = a/2 \/ Rabs y = b/2)) ->
  exists h, rect_val (N:=EN) add (Some x) (Some y) (Some z) (Some a) (Some b) (Some dt) (Some delay) (Some c) it = Some h /\
    is_sir (rectangle (metre a) (metre b)) 1 c (metre x) (metre y) (metre z) (second (IZR it * dt + delay))
      (h + shortfall x y z a b c (second (IZR it * dt + delay))).
Proof.
  intros Hadd Hz Ha Hb Hc Hn. unfold rect_val.
  assert (E : forall u, ndiv (n:=EN) (nabs (n:=EN) (Some u)) (nofZ 1000) = Some (Rabs (metre u))).
  { intros u. change (nabs (n:=EN) (Some u)) with (Some (Rabs u)). rewrite <- metre_abs. exact (milli (Rabs u)). }
  rewrite !E, !milli, t_at_EN.
  destruct (rect_at_exact (Rabs (metre x)) (Rabs (metre y)) (metre z) (metre a) (metre b) c (second (IZR it * dt + delay))
     (Rabs_pos _) (Rabs_pos _)) with (add := add) as (h & Eh & Hh); try (unfold metre; lra); try exact Hadd.
  { intros [G1 G2]. apply Hn. split; [exact G1|]. rewrite <- !metre_abs in G2. unfold metre in G2. lra. }
  exists h. split; [exact Eh|]. apply is_sir_abs. exact Hh.
Qed.

Lemma shortfall_0 x y z a b c t : y = 0 \/ a/2 < Rabs x \/ b/2 < Rabs y -> shortfall x y z a b c t = 0.
Proof.
  intros H. unfold shortfall, missing. rewrite <- !metre_abs.
  destruct (Rle_dec (metre (Rabs x)) (metre a / 2)) as [H1|H1]; [|reflexivity].
  destruct (Rle_dec (metre (Rabs y)) (metre b / 2)) as [H2|H2]; [|reflexivity].
  destruct (Rlt_dec _ _); [|reflexivity]. unfold metre in H1, H2.
  destruct H as [->|H]; [|lra]. rewrite Rabs_R0.
  replace (metre b / 2 + metre 0) with (metre b / 2 - metre 0) by (unfold metre; field).
  ring.
Qed.

Lemma is_sir_unique ap v c x y z t h1 h2 : is_sir ap v c x y z t h1 -> is_sir ap v c x y z t h2 -> h1 = h2.
Proof.
  intros [[A1 E1]|(A1 & u1 & I1 & E1)] [[A2 E2]|(A2 & u2 & I2 & E2)]; try lra; try congruence.
  rewrite E1, E2, <- (is_RInt_unique _ _ _ _ I1), <- (is_RInt_unique _ _ _ _ I2). reflexivity.
Qed.

Lemma is_sir_bound ap v c x y z t h : 0 <= v -> 0 <= c -> is_sir ap v c x y z t h -> 0 <= h <= v * c.
Proof.
  intros Hv Hc. pose proof PI_RGT_0 as Hpi. assert (Hvc : 0 <= v * c) by nra.
  intros [[A E]|(A & u & I & E)]; [lra|].
  assert (B : 0 <= u <= 2 * PI).
  { unfold is_arc in I. match type of I with is_RInt ?f _ _ _ => set (g := f) in I end. split.
    - apply (is_RInt_le (fun _ => 0) g 0 (2 * PI) 0 u); [lra| |exact I|].
      + pose proof (const_RInt (fun _ => 0) 0 (2 * PI) 0 ltac:(lra) (fun _ _ => eq_refl)) as K. rewrite Rmult_0_r in K. exact K.
      + intros w Hw. unfold g. destruct (ap _ _); lra.
    - apply (is_RInt_le g (fun _ => 1) 0 (2 * PI) u (2 * PI)); [lra|exact I| |].
      + pose proof (const_RInt (fun _ => 1) 0 (2 * PI) 1 ltac:(lra) (fun _ _ => eq_refl)) as K. rewrite Rmult_1_r, Rminus_0_r in K. exact K.
      + intros w Hw. unfold g. destruct (ap _ _); lra. }
  assert (D : v * c / (2 * PI) * (2 * PI) = v * c) by (field; lra).
  assert (0 <= v * c / (2 * PI)) by (apply Rdiv_le_0_compat; lra).
  rewrite E. split; [nra|]. rewrite <- D at 2. apply Rmult_le_compat_l; lra.
Qed.

Lemma acos_decr u w : -1 <= u <= 1 -> -1 <= w <= 1 -> u < w -> acos w < acos u.
Proof.
  intros Hu Hw H. pose proof (acos_bound u). pose proof (acos_bound w).
  apply cos_decreasing_0; try lra. rewrite !cos_acos by lra. exact H.
Qed.
Lemma alpha_mono rho s l : 0 < rho -> 0 <= s <= l -> alpha rho l <= alpha rho s.
Proof.
  intros Hr Hs. unfold alpha. destruct (Rle_dec l rho) as [H1|H1].
  - destruct (Rle_dec s rho) as [H2|H2]; [|lra].
    destruct (Req_dec s l) as [->|Hne]; [lra|].
    pose proof (div_bound rho s Hr (conj (proj1 Hs) H2)). pose proof (div_bound rho l Hr (conj (Rle_trans _ _ _ (proj1 Hs) (proj2 Hs)) H1)).
    apply Rlt_le. apply acos_decr; try lra. apply Rmult_lt_compat_r; [apply Rinv_0_lt_compat; lra|lra].
  - destruct (Rle_dec s rho) as [H2|H2]; [|lra]. pose proof (acos_bound (s / rho)). lra.
Qed.
Lemma quad_mono rho s l l' : 0 < rho -> 0 <= l <= l' -> quad rho s l <= quad rho s l'.
Proof.
  intros Hr Hl. unfold quad. pose proof (alpha_mono rho l l' Hr Hl). apply Rle_max_compat_l. lra.
Qed.
Lemma shortfall_nonneg x y z a b c t : 0 <= z -> 0 < c -> 0 <= shortfall x y z a b c t.
Proof.
  intros Hz Hc. unfold shortfall, missing. destruct (Rle_dec _ _) as [H1|H1]; [|lra].
  destruct (Rle_dec _ _) as [H2|H2]; [|lra]. destruct (Rlt_dec _ _) as [H3|H3]; [|lra].
  pose proof PI_RGT_0 as Hpi. assert (0 < c / (2 * PI)) by (apply Rdiv_lt_0_compat; lra).
  assert (Hm : 0 <= metre z) by (unfold metre; lra).
  pose proof (Rabs_pos (metre y)) as Hy.
  assert (Hr : 0 < sqrt ((c * t) ^ 2 - metre z ^ 2)) by (apply sqrt_lt_R0; nra).
  apply Rmult_le_pos; [lra|].
  pose proof (quad_mono _ (metre a / 2 - Rabs (metre x)) (metre b / 2 - Rabs (metre y)) (metre b / 2 + Rabs (metre y)) Hr). lra.
Qed.

Lemma acos_half : acos (1 / 2) = PI / 3.
Proof.
  pose proof PI_RGT_0. rewrite <- cos_PI3. apply acos_cos. lra.
Qed.
Lemma shortfall_ex : shortfall 0 1 0 4 4 1000 (second 2) = 1000 / 6.
Proof.
  pose proof PI_RGT_0 as Hpi. unfold shortfall, missing, metre, second.
  rewrite (Rabs_pos_eq (0 / 1000)), (Rabs_pos_eq (1 / 1000)) by lra.
  destruct (Rle_dec _ _) as [H1|H1]; [|lra]. destruct (Rle_dec _ _) as [H2|H2]; [|lra]. destruct (Rlt_dec _ _) as [H3|H3]; [|lra].
  assert (Er : sqrt ((1000 * (2 / 1000000)) ^ 2 - (0 / 1000) ^ 2) = 2 / 1000).
  { replace ((1000 * (2 / 1000000)) ^ 2 - (0 / 1000) ^ 2) with ((2 / 1000) * (2 / 1000)) by field. apply sqrt_square. lra. }
  rewrite Er. rewrite !quad_early by lra. unfold alpha.
  destruct (Rle_dec (4 / 1000 / 2 + 1 / 1000) (2 / 1000)) as [K1|K1]; [lra|].
  destruct (Rle_dec (4 / 1000 / 2 - 1 / 1000) (2 / 1000)) as [K2|K2]; [|lra].
  destruct (Rle_dec (4 / 1000 / 2 - 0 / 1000) (2 / 1000)) as [K3|K3]; [|lra].
  replace ((4 / 1000 / 2 - 1 / 1000) / (2 / 1000)) with (1 / 2) by field. rewrite acos_half.
  field. lra.
Qed.

(** ** The whole call *)
Lemma rect_call_exact (J : ajob EN) nthreads sch H0 H' n it a b dt c x y z d :
  wf_ajob J -> (1 <= nthreads)%Z -> length H0 = Z.to_nat (a_No J * a_nt J) ->
  ana_call J nthreads sch H0 = Ok (Some (H', true)) ->
  a_T J = @ARect EN (Some a) (Some b) -> a_dt J = Some dt -> a_cp J = Some c ->
  (0 <= n < a_No J)%Z -> (0 <= it < a_nt J)%Z ->
  obs_x J n = Some x -> obs_y J n = Some y -> obs_z J n = Some z -> obs_delay J n = Some d ->
  0 <= z -> 0 < a -> 0 < b -> 0 < c ->
  ~ (c * second (IZR it * dt + d) = metre z /\ (Rabs x = a/2 \/ Rabs y = b/2)) ->
  exists h, nth_error H' (Z.to_nat (n * a_nt J + it)) = Some (Some h) /\
    is_sir (rectangle (metre a) (metre b)) 1 c (metre x) (metre y) (metre z) (second (IZR it * dt + d))
      (h + shortfall x y z a b c (second (IZR it * dt + d))).
Proof.
  intros W Hth HL E ET Edt Ec Hn Hit Ex Ey Ez Ed Hz Ha Hb Hc Hne.
  destruct (ana_columns J W nthreads H0 Hth HL sch H' E) as [L B]. specialize (B n Hn).
  destruct (rect_val_exact (add_cpu (N:=EN)) x y z a b dt d c it (or_introl eq_refl) Hz Ha Hb Hc Hne) as (h & Eh & Hh).
  exists h. split; [|exact Hh].
  assert (X : nth_error (ProofsSmp.col (a_nt J) n H') (Z.to_nat it) = Some (Some h)).
  { rewrite B, nth_samples by exact Hit. unfold sample_of, ana_val. rewrite ET, Edt, Ec, Ex, Ey, Ez, Ed. f_equal. exact Eh. }
  rewrite ProofsSmp.col_nth in X. destruct (Nat.ltb_spec (Z.to_nat it) (Z.to_nat (a_nt J))); [|discriminate].
  rewrite <- X. f_equal. nia.
Qed.
