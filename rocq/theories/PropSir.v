(** PropSir.v - property theorems over exact arithmetic: the single-element
    responses are the discretised Rayleigh integral (C11), they are linear in
    the velocity (C14), mirror symmetric (C15) and shifted by a delay (C16). *)
From Coq Require Import Reals Lra Permutation.
From Verif Require Import Base BaseLemmas ModelSir ModelArr NumR SpecSir SpecRayleigh
  ProofsEnum ProofsErr ProofsR ProofsRayleigh ProofsTerm ProofsSirR.
Open Scope R_scope.

Lemma lvl_no_bail lvl : lvl = lvl_ignore \/ lvl = lvl_warn -> no_bail lvl.
Proof. unfold no_bail. intuition. Qed.

(** C11: sample k of the response of any single-element transducer is the old
    content (or 0) plus the discretised Rayleigh integral. *)
Theorem C11_rayleigh : forall K fuel q ntz g lvl delay o h,
  defined K fuel q ntz g delay o -> length h = Z.to_nat ntz -> lvl = lvl_ignore \/ lvl = lvl_warn ->
  exists out e,
    sir K fuel q ntz g lvl delay o h = Ok (map (@Some R) out, e) /\
    length out = Z.to_nat ntz /\
    forall k, (k < Z.to_nat ntz)%nat ->
      nth k out 0 = old g h k + rayleigh q 1 delay o (sources q g) (Z.of_nat k).
Proof.
  intros K fuel q ntz g lvl delay o h D Hh Hl. do 2 eexists. split; [|split].
  - rewrite sir_R; auto using lvl_no_bail.
  - apply length_tab.
  - intros k Hk. now rewrite nth_tab.
Qed.
Print Assumptions C11_rayleigh.

(** With 'stop' the same, if every source point arrives inside the record. *)
Theorem C11_rayleigh_stop : forall K fuel q ntz g lvl delay o h,
  defined K fuel q ntz g delay o -> length h = Z.to_nat ntz -> lvl = lvl_stop \/ lvl = lvl_parallel_stop ->
  (forall s, In s (sources q g) -> (0 <= arrives_at q delay o s < ntz)%Z) ->
  exists out,
    sir K fuel q ntz g lvl delay o h = Ok (map (@Some R) out, err_none) /\
    length out = Z.to_nat ntz /\
    forall k, (k < Z.to_nat ntz)%nat ->
      nth k out 0 = old g h k + rayleigh q 1 delay o (sources q g) (Z.of_nat k).
Proof.
  intros K fuel q ntz g lvl delay o h [] Hh Hl Hin. eexists. split; [|split].
  - rewrite sir_scanner, run_scanner_stop_R; auto.
    apply forallb_forall. intros s Hs. unfold in_rec. specialize (Hin s Hs). lia.
  - apply length_tab.
  - intros k Hk. rewrite nth_tab by auto. now rewrite old_clears.
Qed.
Print Assumptions C11_rayleigh_stop.

(** ... spelled out for dreamrect: the double sum over the midpoint grid. *)
Theorem C11_rect : forall K fuel q ntz a b lvl delay o h,
  defined K fuel q ntz (GRect a b) delay o -> length h = Z.to_nat ntz -> lvl = lvl_ignore \/ lvl = lvl_warn ->
  exists out e,
    sir K fuel q ntz (GRect a b) lvl delay o h = Ok (map (@Some R) out, e) /\
    forall k, (k < Z.to_nat ntz)%nat ->
      nth k out 0 = nth k h 0 +
        Rsum (map (fun y => Rsum (map (fun x =>
          let r := sqrt ((p_x o - x)^2 + (p_y o - y)^2 + p_z o ^2) in
          if Z.eqb (Zrint ((1000 * r / p_cp q - delay) / p_dt q)) (Z.of_nat k)
          then 1000 * p_v q * p_dx q * p_dy q / (2 * PI * r * p_dt q) else 0)
          (midpoints (- a / 2) (a / 2) (p_dx q)))) (midpoints (- b / 2) (b / 2) (p_dy q))).
Proof.
  intros K fuel q ntz a b lvl delay o h D Hh Hl.
  destruct (C11_rayleigh K fuel q ntz _ lvl delay o h D Hh Hl) as (out & e & E & _ & Hk).
  exists out, e. split; [exact E|]. intros k Hlt. rewrite (Hk k Hlt). cbn [old]. f_equal.
  unfold rayleigh. cbn [sources]. unfold rect_xy.
  induction (midpoints (- b / 2) (b / 2) (p_dy q)) as [|y Y IH]; [reflexivity|].
  cbn [flat_map]. rewrite !map_app. unfold Rsum at 1. rewrite fold_right_app. cbn [map].
  match goal with |- fold_right Rplus ?X _ = _ => change X with (Rsum (map (fun s => if (arrives_at q delay o s =? Z.of_nat k)%Z then strength q 1 o s else 0)
   (map (fun '(x, y0) => flat (p_dx q * p_dy q) x y0) (flat_map (fun y0 => map (fun x => (x, y0)) (midpoints (- a / 2) (a / 2) (p_dx q))) Y)))) end.
  rewrite IH. cbn [Rsum fold_right]. clear IH.
  match goal with |- fold_right Rplus ?c _ = _ + ?c' => change c' with c; generalize c end. intros c.
  rewrite !map_map. induction (midpoints (- a / 2) (a / 2) (p_dx q)) as [|x X IH]; [cbn; ring|].
  cbn [map fold_right Rsum]. rewrite IH. rewrite Rplus_assoc. f_equal.
  unfold arrives_at, arrival, strength, dist, flat. cbn [s_x s_y s_z s_ds s_tau].
  replace ((p_x o - x) ^ 2 + (p_y o - y) ^ 2 + (p_z o - 0) ^ 2) with ((p_x o - x) ^ 2 + (p_y o - y) ^ 2 + p_z o ^ 2) by ring.
  rewrite Rplus_0_r.
  destruct (Z.eqb _ _); [|reflexivity]. f_equal. ring.
Qed.
Print Assumptions C11_rect.

(** C14: multiplying the velocity by c multiplies the response by c. *)
Theorem C14_linear : forall c K fuel q ntz g lvl delay o out e,
  defined K fuel q ntz g delay o -> lvl = lvl_ignore \/ lvl = lvl_warn ->
  sir K fuel q ntz g lvl delay o (repeat 0 (Z.to_nat ntz)) = Ok (map (@Some R) out, e) ->
  sir K fuel (scale_v c q) ntz g lvl delay o (repeat 0 (Z.to_nat ntz)) = Ok (map (@Some R) (map (Rmult c) out), e).
Proof.
  intros c K fuel q ntz g lvl delay o out e D Hl.
  assert (Hz : length (repeat 0 (Z.to_nat ntz)) = Z.to_nat ntz) by apply repeat_length.
  rewrite (sir_R K fuel q) by auto using lvl_no_bail.
  rewrite (sir_R K fuel (scale_v c q)) by auto using lvl_no_bail, defined_scale.
  intros E. injection E as E1 <-. f_equal.
  replace (forallb (in_rec (scale_v c q) ntz delay o) (sources (scale_v c q) g))
    with (forallb (in_rec q ntz delay o) (sources q g)) by (rewrite sources_scale; reflexivity).
  f_equal.
  assert (Inj : forall l l' : list R, map (@Some R) l = map (@Some R) l' -> l = l').
  { induction l as [|x l IH]; intros [|y l'] H; try discriminate; auto. injection H as H1 H2. f_equal; auto. }
  apply Inj in E1. subst out. rewrite !map_tab. apply tab_ext. intros k Hk. f_equal.
  rewrite sources_scale, rayleigh_scale, Rmult_plus_distr_l. f_equal.
  unfold old. destruct g; rewrite ?nth_repeat; ring.
Qed.
Print Assumptions C14_linear.

(** C15: an aperture of a whole number of steps: the mirrored observation
    point has the same response and status, any buffer content. *)
Theorem C15_mirror_x : forall K fuel q ntz g lvl delay o h,
  defined K fuel q ntz g delay o -> length h = Z.to_nat ntz -> lvl = lvl_ignore \/ lvl = lvl_warn -> whole_x q g ->
  sir K fuel q ntz g lvl delay (mirror_x o) h = sir K fuel q ntz g lvl delay o h.
Proof.
  intros K fuel q ntz g lvl delay o h D Hh Hl Hw. pose proof D as [].
  apply (mirror_sir flip_x); auto using lvl_no_bail, dist_flip_x, sources_flip_x.
Qed.
Print Assumptions C15_mirror_x.
Theorem C15_mirror_y : forall K fuel q ntz g lvl delay o h,
  defined K fuel q ntz g delay o -> length h = Z.to_nat ntz -> lvl = lvl_ignore \/ lvl = lvl_warn -> whole_y q g ->
  sir K fuel q ntz g lvl delay (mirror_y o) h = sir K fuel q ntz g lvl delay o h.
Proof.
  intros K fuel q ntz g lvl delay o h D Hh Hl Hw. pose proof D as [].
  apply (mirror_sir flip_y); auto using lvl_no_bail, dist_flip_y, sources_flip_y.
Qed.
Print Assumptions C15_mirror_y.

(** C16: j more samples of delay (j even, or no source point arriving exactly
    half way between two samples) move every sample j places forward. *)
Theorem C16_shift_partial : forall K fuel q ntz g lvl delay o j out e out' e',
  defined K fuel q ntz g delay o -> defined K fuel q ntz g (delay + IZR j * p_dt q) o ->
  lvl = lvl_ignore \/ lvl = lvl_warn ->
  (Z.even j = true \/ forall s z, In s (sources q g) -> arrival q delay o s <> IZR z + 1 / 2) ->
  sir K fuel q ntz g lvl delay o (repeat 0 (Z.to_nat ntz)) = Ok (map (@Some R) out, e) ->
  sir K fuel q ntz g lvl (delay + IZR j * p_dt q) o (repeat 0 (Z.to_nat ntz)) = Ok (map (@Some R) out', e') ->
  forall k k' : nat, (k < Z.to_nat ntz)%nat -> (k' < Z.to_nat ntz)%nat -> Z.of_nat k' = (Z.of_nat k + j)%Z ->
  nth k out' 0 = nth k' out 0.
Proof.
  intros K fuel q ntz g lvl delay o j out e out' e' D D' Hl Hj E E' k k' Hk Hk' Hkk.
  assert (Hz : length (repeat 0 (Z.to_nat ntz)) = Z.to_nat ntz) by apply repeat_length.
  assert (Inj : forall l l' : list R, map (@Some R) l = map (@Some R) l' -> l = l').
  { induction l as [|x l IH]; intros [|y l'] H; try discriminate; auto. injection H as H1 H2. f_equal; auto. }
  rewrite sir_R in E by auto using lvl_no_bail. rewrite sir_R in E' by auto using lvl_no_bail.
  injection E as E _. injection E' as E' _. apply Inj in E, E'. subst out out'.
  rewrite !nth_tab by auto. rewrite rayleigh_shift, Hkk; auto.
  - f_equal. unfold old. destruct g; now rewrite ?nth_repeat.
  - destruct D as [[_ [_ [H _]]]]; exact H.
Qed.
Print Assumptions C16_shift_partial.

(** ** Witnesses *)
Lemma Rcount lo hi d m : 0 < d -> hi = lo + INR m * d -> SpecRayleigh.count (lo + d / 2) hi d = m.
Proof. intros Hd ->. now apply count_whole. Qed.

Lemma flat_eq d d' x x' y y' : d = d' -> x = x' -> y = y' -> flat d x y = flat d' x' y'.
Proof. now intros -> -> ->. Qed.
Lemma cons_eq {A} (x y : A) l l' : x = y -> l = l' -> x :: l = y :: l'.
Proof. now intros -> ->. Qed.
Ltac flat_list := repeat (apply cons_eq; [apply flat_eq; cbn; lra|]); reflexivity.

Definition exq : rpar := {| p_dx := 1; p_dy := 1; p_dt := 1; p_v := 1; p_cp := 1000 |}.
Definition exo : pos := {| p_x := 0; p_y := 0; p_z := 5 |}.
Lemma mid1 lo hi : hi = lo + INR 1 * 1 -> midpoints lo hi 1 = [lo + 1 / 2].
Proof. intros ->. unfold midpoints. rewrite (Rcount _ _ _ 1) by lra. cbn. unfold mid. f_equal. cbn. ring. Qed.
Lemma mid2 lo hi : hi = lo + INR 2 * 1 -> midpoints lo hi 1 = [lo + 1 / 2; lo + 3 / 2].
Proof.
  intros ->. unfold midpoints. rewrite (Rcount _ _ _ 2) by lra. cbn. unfold mid. f_equal; [cbn; ring|].
  f_equal. cbn. lra.
Qed.

Lemma ex_sources : sources exq (GRect 2 1) = [flat 1 (-1 / 2) 0; flat 1 (1 / 2) 0].
Proof.
  cbn [sources exq p_dx p_dy]. unfold rect_xy. cbn [exq p_dx p_dy].
  rewrite (mid1 (-(1) / 2)) by (cbn; lra). rewrite (mid2 (-(2) / 2)) by (cbn; lra).
  cbn [flat_map map app]. flat_list.
Qed.

(** The case C11, C14, C15 and C16 (even shift by 2 samples, and a shift by 1
    without ties) are applied to: a 2 x 1 mm rectangle, two source points, 5 mm
    away, ten samples. *)
Lemma ex_dist o s : In s (sources exq (GRect 2 1)) -> o = exo -> 5 < dist o s < 51 / 10.
Proof.
  rewrite ex_sources. intros [ <- | [ <- | [] ] ] ->; unfold dist, flat; cbn [exo p_x p_y p_z s_x s_y s_z].
  all: match goal with |- 5 < sqrt ?X < _ => replace X with (101 / 4) by field end.
  all: split.
  1,3: rewrite <- (sqrt_square 5) at 1 by lra; apply sqrt_lt_1; lra.
  all: rewrite <- (sqrt_square (51/10)) by lra; apply sqrt_lt_1; lra.
Qed.
Lemma ex_arr_at delay (z : Z) s : In s (sources exq (GRect 2 1)) -> IZR z = 5 - delay -> arrives_at exq delay exo s = z.
Proof.
  intros Hs Hz. pose proof (ex_dist exo s Hs eq_refl) as [H1 H2]. unfold arrives_at. apply Zrint_unique.
  unfold arrival. cbn [exq p_cp p_dt].
  replace (s_tau s) with 0 by (rewrite ex_sources in Hs; destruct Hs as [ <- | [ <- | [] ] ]; reflexivity).
  rewrite Hz. apply Rabs_def1; lra.
Qed.
Lemma ex_defined_gen z : (0 <= z <= 5)%Z -> forall K, defined K 10 exq 10 (GRect 2 1) (5 - IZR z) exo.
Proof.
  intros Hz K. constructor.
  - unfold par_ok; cbn; repeat split; lra.
  - exact I.
  - intros s Hs. pose proof (ex_dist exo s Hs eq_refl). lra.
  - intros s Hs. rewrite (ex_arr_at _ z s Hs) by lra. destruct K; lia.
  - cbn [enough exq p_dx p_dy]. rewrite (Rcount _ _ _ 2), (Rcount _ _ _ 1) by (cbn; lra). lia.
  - lia.
Qed.
Example ex_defined : forall K, defined K 10 exq 10 (GRect 2 1) 0 exo /\ defined K 10 exq 10 (GRect 2 1) (0 + IZR 2 * p_dt exq) exo.
Proof.
  intros K. split.
  - replace 0 with (5 - IZR 5) by lra. apply ex_defined_gen. lia.
  - replace (0 + IZR 2 * p_dt exq) with (5 - IZR 3) by (cbn; lra). apply ex_defined_gen. lia.
Qed.
Example ex_whole : whole_x exq (GRect 2 1) /\ whole_y exq (GRect 2 1).
Proof. split; [exists 2%nat|exists 1%nat]; cbn; lra. Qed.
Example ex_no_tie : forall s z, In s (sources exq (GRect 2 1)) -> arrival exq 0 exo s <> IZR z + 1 / 2.
Proof.
  intros s z Hs E. pose proof (ex_dist exo s Hs eq_refl) as [H1 H2]. unfold arrival in E. cbn [exq p_cp p_dt] in E.
  replace (s_tau s) with 0 in E by (rewrite ex_sources in Hs; destruct Hs as [ <- | [ <- | [] ] ]; reflexivity).
  assert (4 < z)%Z by (apply lt_IZR; lra). assert (z < 5)%Z by (apply lt_IZR; lra). lia.
Qed.

(** C16 is false of the code for odd shifts and ties: std::rint rounds halves
    to even.  A line source of one point at the origin, 10.5 samples away:
    without delay it arrives at sample 10, with a delay of one sample period
    again at sample 10. *)
Definition tieo : pos := {| p_x := 0; p_y := 0; p_z := 21 / 2 |}.
Lemma tie_sources : sources exq (GLine 1) = [flat 1 0 0].
Proof.
  cbn [sources exq p_dx p_dy]. rewrite (mid1 (-(1) / 2)) by (cbn; lra). cbn [map]. flat_list.
Qed.
Lemma tie_dist : dist tieo (flat 1 0 0) = 21 / 2.
Proof.
  unfold dist, flat. cbn [tieo p_x p_y p_z s_x s_y s_z].
  replace ((0 - 0) ^ 2 + (0 - 0) ^ 2 + (21 / 2 - 0) ^ 2) with ((21/2) * (21/2)) by ring. apply sqrt_square; lra.
Qed.
Lemma tie_even x z : x = IZR z + 1 / 2 -> Z.even z = true -> Zrint x = z.
Proof.
  intros -> He. unfold Zrint. rewrite (Zfloor_unique _ z) by lra. rewrite He.
  destruct (Rlt_dec _ _); [auto|]. destruct (Rlt_dec _ _); [lra|auto].
Qed.
Lemma tie_odd x z : x = IZR z + 1 / 2 -> Z.even z = false -> Zrint x = (z + 1)%Z.
Proof.
  intros -> He. unfold Zrint. rewrite (Zfloor_unique _ z) by lra. rewrite He.
  destruct (Rlt_dec _ _); [lra|]. destruct (Rlt_dec _ _); [lra|auto].
Qed.
Lemma tie_at_0 : arrives_at exq 0 tieo (flat 1 0 0) = 10%Z.
Proof. unfold arrives_at, arrival. rewrite tie_dist. apply tie_even; [cbn; lra|reflexivity]. Qed.
Lemma tie_at_1 : arrives_at exq 1 tieo (flat 1 0 0) = 10%Z.
Proof. unfold arrives_at, arrival. rewrite tie_dist. rewrite (tie_odd _ 9); [reflexivity|cbn; lra|reflexivity]. Qed.
Lemma tie_defined K d : d = 0 \/ d = 1 -> defined K 10 exq 20 (GLine 1) d tieo.
Proof.
  intros Hd. constructor.
  - unfold par_ok; cbn; repeat split; lra.
  - exact I.
  - intros s. rewrite tie_sources. intros [ <- | [] ]. rewrite tie_dist. lra.
  - intros s. rewrite tie_sources. intros [ <- | [] ]. destruct Hd as [ -> | -> ]; [rewrite tie_at_0|rewrite tie_at_1]; destruct K; lia.
  - cbn [enough exq p_dx p_dy]. rewrite (Rcount _ _ _ 1) by (cbn; lra). lia.
  - lia.
Qed.
Theorem C16_odd_refuted : exists out out' e e',
  sir SignedIdx 10 exq 20 (GLine 1) lvl_ignore 0 tieo (repeat 0 20) = Ok (map (@Some R) out, e) /\
  sir SignedIdx 10 exq 20 (GLine 1) lvl_ignore (0 + 1 * p_dt exq) tieo (repeat 0 20) = Ok (map (@Some R) out', e') /\
  nth 9 out' 0 = 0 /\ nth 10 out 0 = 1000 / (21 * PI).
Proof.
  do 4 eexists. split; [|split].
  - apply sir_R; auto using tie_defined. unfold no_bail; auto.
  - replace (0 + 1 * p_dt exq) with 1 by (cbn; ring). apply sir_R; auto using tie_defined. unfold no_bail; auto.
  - change (Z.to_nat 20) with 20%nat. rewrite !nth_tab by lia. rewrite tie_sources. unfold rayleigh. cbn [map Rsum fold_right old].
    rewrite tie_at_0, tie_at_1. change (Z.eqb 10 (Z.of_nat 9)) with false. change (Z.eqb 10 (Z.of_nat 10)) with true. cbn iota.
    unfold strength. rewrite tie_dist. cbn [exq p_v p_dt flat s_ds]. split; [ring|]. pose proof PI_RGT_0. field. lra.
Qed.
Print Assumptions C16_odd_refuted.

(** C15 without a whole number of steps: a line of width 1.4 with dx = 1 has
    its single source point at -0.2, so mirrored observation points get
    different responses. *)
Definition lineq : rpar := {| p_dx := 1; p_dy := 1; p_dt := 1 / 8; p_v := 1; p_cp := 1000 |}.
Definition mo (x : R) : pos := {| p_x := x; p_y := 0; p_z := 0 |}.
Lemma line_sources : sources lineq (GLine (14 / 10)) = [flat 1 (-2/10) 0].
Proof.
  cbn [sources lineq p_dx p_dy]. unfold midpoints. replace (SpecRayleigh.count _ _ _) with 1%nat.
  - cbn [seq map]. unfold mid. flat_list.
  - rewrite count_width by lra. rewrite (Zfloor_unique _ 1) by lra. reflexivity.
Qed.
Lemma line_dist x d : (x - -2/10) = d \/ (x - -2/10) = - d -> 0 <= d -> dist (mo x) (flat 1 (-2/10) 0) = d.
Proof.
  intros H Hd. unfold dist, flat, mo. cbn [p_x p_y p_z s_x s_y s_z].
  replace ((x - -2 / 10) ^ 2 + (0 - 0) ^ 2 + (0 - 0) ^ 2) with (d * d); [now apply sqrt_square|].
  destruct H as [H|H]; rewrite H; ring.
Qed.
Lemma line_at x (z : Z) d : (x - -2/10) = d \/ (x - -2/10) = - d -> 0 < d -> Rabs (8 * d - IZR z) < 1 / 2 ->
  arrives_at lineq 0 (mo x) (flat 1 (-2/10) 0) = z.
Proof.
  intros H Hd Hz. unfold arrives_at. apply Zrint_unique. unfold arrival. rewrite (line_dist x d) by (auto; lra).
  cbn [lineq p_cp p_dt flat s_tau]. replace ((1000 * d / 1000 - 0 + 0) / (1 / 8)) with (8 * d) by field. exact Hz.
Qed.
Lemma line_defined K x (z : Z) d : (x - -2/10) = d \/ (x - -2/10) = - d -> 0 < d -> Rabs (8 * d - IZR z) < 1 / 2 -> (0 <= z < 100)%Z ->
  defined K 10 lineq 100 (GLine (14 / 10)) 0 (mo x).
Proof.
  intros H Hd Hz Hz2. constructor.
  - unfold par_ok; cbn; repeat split; lra.
  - exact I.
  - intros s. rewrite line_sources. intros [ <- | [] ]. rewrite (line_dist x d) by (auto; lra). lra.
  - intros s. rewrite line_sources. intros [ <- | [] ]. rewrite (line_at x z d) by auto. destruct K; lia.
  - cbn [enough lineq p_dx]. rewrite count_width by lra. rewrite (Zfloor_unique _ 1) by lra. change (Z.to_nat 1) with 1%nat. lia.
  - lia.
Qed.
Theorem C15_partial_step_refuted : exists out out' e e',
  sir SignedIdx 10 lineq 100 (GLine (14 / 10)) lvl_ignore 0 (mo 10) (repeat 0 100) = Ok (map (@Some R) out, e) /\
  sir SignedIdx 10 lineq 100 (GLine (14 / 10)) lvl_ignore 0 (mirror_x (mo 10)) (repeat 0 100) = Ok (map (@Some R) out', e') /\
  nth 82 out' 0 = 0 /\ nth 82 out 0 <> 0.
Proof.
  assert (M : mirror_x (mo 10) = mo (-10)) by reflexivity. rewrite M.
  assert (A1 : 10 - -2/10 = 102/10 \/ 10 - -2/10 = - (102/10)) by (left; lra).
  assert (A2 : -10 - -2/10 = 98/10 \/ -10 - -2/10 = - (98/10)) by (right; lra).
  assert (B1 : Rabs (8 * (102/10) - IZR 82) < 1/2) by (apply Rabs_def1; lra).
  assert (B2 : Rabs (8 * (98/10) - IZR 78) < 1/2) by (apply Rabs_def1; lra).
  do 4 eexists. split; [|split].
  - apply sir_R; [apply (line_defined _ _ 82 (102/10)); auto; try lra; lia|reflexivity|unfold no_bail; auto].
  - apply sir_R; [apply (line_defined _ _ 78 (98/10)); auto; try lra; lia|reflexivity|unfold no_bail; auto].
  - change (Z.to_nat 100) with 100%nat. rewrite !nth_tab by lia. rewrite line_sources. unfold rayleigh. cbn [map Rsum fold_right old].
    rewrite (line_at 10 82 (102/10)), (line_at (-10) 78 (98/10)) by (auto; lra).
    change (Z.eqb 78 (Z.of_nat 82)) with false. change (Z.eqb 82 (Z.of_nat 82)) with true. cbn iota.
    split; [ring|]. unfold strength. rewrite (line_dist 10 (102/10)) by (auto; lra). cbn [lineq p_v p_dt flat s_ds].
    rewrite Rplus_0_l, Rplus_0_r. pose proof PI_RGT_0. apply Rgt_not_eq. apply Rdiv_lt_0_compat; [lra|].
    apply Rmult_lt_0_compat; [apply Rmult_lt_0_compat|]; lra.
Qed.
Print Assumptions C15_partial_step_refuted.

(** The disc is not mirror symmetric in x even if its diameter is a whole
    number of steps: the x grid of every row starts at the row's own left end.
    Radius 1, dx = 2, dy = 1: two rows of one point each at x = 1 - sqrt(3)/2. *)
Definition discq : rpar := {| p_dx := 2; p_dy := 1; p_dt := 1 / 8; p_v := 1; p_cp := 1000 |}.
Definition dw : R := sqrt (3 / 4).
Lemma dw_bounds : 86 / 100 < dw < 87 / 100.
Proof.
  unfold dw. split.
  - rewrite <- (sqrt_square (86/100)) by lra. apply sqrt_lt_1; lra.
  - rewrite <- (sqrt_square (87/100)) by lra. apply sqrt_lt_1; lra.
Qed.
Lemma disc_row y : y = 1 / 2 \/ y = -1 / 2 ->
  midpoints (- sqrt (1 ^ 2 - y ^ 2)) (sqrt (1 ^ 2 - y ^ 2)) 2 = [1 - dw].
Proof.
  intros Hy. replace (1 ^ 2 - y ^ 2) with (3 / 4) by (destruct Hy as [ -> | -> ]; field). fold dw.
  pose proof dw_bounds. unfold midpoints. replace (SpecRayleigh.count _ _ _) with 1%nat.
  - cbn [seq map]. unfold mid. apply cons_eq; [cbn; lra|reflexivity].
  - unfold SpecRayleigh.count. rewrite (Zfloor_unique _ 0) by lra. reflexivity.
Qed.
Lemma disc_sources : sources discq (GCirc 1) = [flat 2 (1 - dw) (-1 / 2); flat 2 (1 - dw) (1 / 2)].
Proof.
  cbn [sources discq p_dx p_dy]. unfold disc_xy. cbn [discq p_dx p_dy].
  rewrite (mid2 (-(1))) by (cbn; lra). cbn [flat_map]. rewrite !disc_row by lra. cbn [map app]. flat_list.
Qed.
Lemma disc_dist x s d : In s (sources discq (GCirc 1)) -> 0 < d -> d < Rabs (x - (1 - dw)) < d + 1/100 -> 9 < d ->
  d < dist (mo x) s < d + 3 / 100.
Proof.
  intros Hs Hd [H1 H2] H9. rewrite disc_sources in Hs.
  assert (E : dist (mo x) s = sqrt (Rabs (x - (1 - dw)) * Rabs (x - (1 - dw)) + 1 / 4)).
  { destruct Hs as [ <- | [ <- | [] ] ]; unfold dist, flat, mo; cbn [p_x p_y p_z s_x s_y s_z]; f_equal;
      rewrite <- (Rsqr_abs (x - (1 - dw))) || idtac; change (Rabs (x - (1 - dw)) * Rabs (x - (1 - dw))) with (Rsqr (Rabs (x - (1 - dw))));
      rewrite <- Rsqr_abs; unfold Rsqr; field. }
  rewrite E. set (r := Rabs (x - (1 - dw))) in *. split.
  - rewrite <- (sqrt_square d) at 1 by lra. apply sqrt_lt_1; try nra.
  - rewrite <- (sqrt_square (d + 3 / 100)) by lra. apply sqrt_lt_1; try nra.
Qed.
Lemma disc_at x s d (z : Z) : In s (sources discq (GCirc 1)) -> 9 < d -> d < Rabs (x - (1 - dw)) < d + 1/100 ->
  IZR z - 1/2 < 8 * d -> 8 * (d + 3 / 100) < IZR z + 1/2 -> arrives_at discq 0 (mo x) s = z.
Proof.
  intros Hs H9 H1 H2 H3. pose proof (disc_dist x s d Hs ltac:(lra) H1 H9) as [H4 H5].
  unfold arrives_at. apply Zrint_unique. unfold arrival. cbn [discq p_cp p_dt].
  replace (s_tau s) with 0 by (rewrite disc_sources in Hs; destruct Hs as [ <- | [ <- | [] ] ]; reflexivity).
  replace ((1000 * dist (mo x) s / 1000 - 0 + 0) / (1 / 8)) with (8 * dist (mo x) s) by field.
  apply Rabs_def1; lra.
Qed.
Lemma disc_defined x d (z : Z) : 9 < d -> d < Rabs (x - (1 - dw)) < d + 1/100 ->
  IZR z - 1/2 < 8 * d -> 8 * (d + 3 / 100) < IZR z + 1/2 -> (0 <= z < 100)%Z ->
  defined SignedIdx 10 discq 100 (GCirc 1) 0 (mo x).
Proof.
  intros H9 H1 H2 H3 Hz. constructor.
  - unfold par_ok; cbn; repeat split; lra.
  - exact I.
  - intros s Hs. pose proof (disc_dist x s d Hs ltac:(lra) H1 H9). lra.
  - intros s Hs. rewrite (disc_at x s d z) by auto. lia.
  - cbn [enough discq p_dx p_dy]. rewrite Rabs_R1. unfold SpecRayleigh.count.
    rewrite (Zfloor_unique _ 0), (Zfloor_unique _ 1) by lra. cbn. lia.
  - lia.
Qed.
Theorem C15_disc_x_refuted : exists out out' e e',
  sir SignedIdx 10 discq 100 (GCirc 1) lvl_ignore 0 (mo 10) (repeat 0 100) = Ok (map (@Some R) out, e) /\
  sir SignedIdx 10 discq 100 (GCirc 1) lvl_ignore 0 (mirror_x (mo 10)) (repeat 0 100) = Ok (map (@Some R) out', e') /\
  nth 79 out' 0 = 0 /\ 0 < nth 79 out 0.
Proof.
  assert (M : mirror_x (mo 10) = mo (-10)) by reflexivity. rewrite M. pose proof dw_bounds as [W1 W2].
  assert (A1 : 986/100 < Rabs (10 - (1 - dw)) < 986/100 + 1/100) by (rewrite Rabs_right; lra).
  assert (A2 : 1013/100 < Rabs (-10 - (1 - dw)) < 1013/100 + 1/100) by (rewrite Rabs_left; lra).
  do 4 eexists. split; [|split].
  - apply sir_R; [apply (disc_defined 10 (986/100) 79); try lra; lia|reflexivity|unfold no_bail; auto].
  - apply sir_R; [apply (disc_defined (-10) (1013/100) 81); try lra; lia|reflexivity|unfold no_bail; auto].
  - change (Z.to_nat 100) with 100%nat. rewrite !nth_tab by lia.
    assert (In1 : In (flat 2 (1 - dw) (-1/2)) (sources discq (GCirc 1))) by (rewrite disc_sources; now left).
    assert (In2 : In (flat 2 (1 - dw) (1/2)) (sources discq (GCirc 1))) by (rewrite disc_sources; right; now left).
    pose proof (disc_dist 10 _ (986/100) In1 ltac:(lra) A1 ltac:(lra)) as D1.
    pose proof (disc_dist 10 _ (986/100) In2 ltac:(lra) A1 ltac:(lra)) as D2.
    unfold rayleigh. rewrite disc_sources. cbn [map Rsum fold_right old].
    rewrite !(disc_at 10 _ (986/100) 79), !(disc_at (-10) _ (1013/100) 81) by (auto; lra).
    change (Z.eqb 81 (Z.of_nat 79)) with false. change (Z.eqb 79 (Z.of_nat 79)) with true. cbn iota.
    rewrite !nth_repeat. split; [ring|]. unfold strength. cbn [discq p_v p_dt flat s_ds] in *.
    pose proof PI_RGT_0.
    assert (P : forall r, 0 < r -> 0 < 1000 * 1 * 1 * 2 / (2 * PI * r * (1 / 8))).
    { intros r Hr. apply Rdiv_lt_0_compat; [lra|]. apply Rmult_lt_0_compat; [apply Rmult_lt_0_compat|]; lra. }
    assert (Q1 : 0 < dist (mo 10) (flat 2 (1 - dw) (-1/2))) by (destruct D1 as [D1 _]; lra).
    assert (Q2 : 0 < dist (mo 10) (flat 2 (1 - dw) (1/2))) by (destruct D2 as [D2 _]; lra).
    apply P in Q1, Q2. lra.
Qed.
Print Assumptions C15_disc_x_refuted.
