(** PropAnnuR.v - C22 and C44 for annular arrays in exact arithmetic. *)
From Coq Require Import Reals List ZArith Lra Lia.
From Verif Require Import Base BaseLemmas ModelSir ModelArr ModelSmp NumR SpecSmp ProofsSmp2 SpecSir SpecRayleigh SpecArr SpecAnnu SpecAnnuR
  ModelGw SpecGw SpecGwR ProofsLocalArr ProofsR ProofsRayleigh ProofsErr PropErr ProofsPhys ProofsSirR ProofsArr PropSir PropArr ProofsLoop ProofsAnnu PropAnnu ProofsGw5 PropGw ProofsGwR PropGwR.
Import ListNotations.
Open Scope R_scope.

Lemma sq2_ge0 a b : 0 <= a * a + b * b.
Proof. pose proof (Rle_0_sqr a); pose proof (Rle_0_sqr b). unfold Rsqr in *. lra. Qed.

Lemma rabs_inv a b : Rabs a <= b -> - b <= a <= b.
Proof. unfold Rabs. destruct (Rcase_abs a); lra. Qed.

Section A.
  Variables (p : annu_par EN) (A : annular) (q : rpar).
  Hypothesis HN : names_annular p A.
  Hypothesis OK : annular_ok q A.

  Lemma rings_same : rings (Gr p) = num_rings A.
  Proof. destruct HN as (E & _). unfold rings, num_rings. rewrite E. now rewrite map_length. Qed.
  Lemma gr_nth n : nth n (Gr p) (nofZ 0) = Some (nth n (an_radii A) 0).
  Proof. destruct HN as (E & _). rewrite E. apply (map_nth (@Some R)). Qed.
  Lemma mid_same j : mid_radius (Gr p) j = Some (ring_mid A j).
  Proof.
    unfold mid_radius, ring_mid. destruct j as [|j]; [reflexivity|]. rewrite !gr_nth. ered. now rewrite e_div_ok by lra.
  Qed.
  Lemma tau_same ntz j : (j < num_rings A)%nat -> ring_delay (emb_samp q ntz) p j = Some (ring_tau (p_cp q) A j).
  Proof.
    intros Hj. unfold ring_delay. rewrite rings_same, !mid_same. fold (ring_max A).
    destruct HN as (_ & HF & _). destruct OK as [_ (_ & _ & _ & Hc) _ Hu _ _].
    assert (X : forall F, (forall f, In f [foc_x; foc_y; foc_xy; foc_x_y] ->
       focusing_annular (N:=EN) f (Some F) (Some (ring_mid A j)) (Some (ring_max A)) (Some (p_cp q))
       = Some (1000 / p_cp q * (sqrt (ring_max A ^2 + F^2) - sqrt (ring_mid A j ^2 + F^2))))).
    { intros F f Hf. assert (E : focusing_annular (N:=EN) f (Some F) (Some (ring_mid A j)) (Some (ring_max A)) (Some (p_cp q)) =
        focusing_annular (N:=EN) foc_xy (Some F) (Some (ring_mid A j)) (Some (ring_max A)) (Some (p_cp q)))
        by (cbn [In] in Hf; destruct Hf as [ <- |[ <- |[ <- |[ <- |[]]]]]; reflexivity).
      rewrite E. cbn [focusing_annular]. ered. rewrite !e_sqrt_ok by apply sq2_ge0. ered. rewrite e_div_ok by exact Hc. f_equal.
      replace (ring_max A ^ 2 + F ^ 2) with (ring_max A * ring_max A + F * F) by ring.
      replace (ring_mid A j ^ 2 + F ^ 2) with (ring_mid A j * ring_mid A j + F * F) by ring. field. exact Hc. }
    unfold ring_tau. destruct (an_F A) as [|F|tau].
    - destruct HF as [-> _]. reflexivity.
    - destruct HF as [HI HF]. apply nth_error_nth with (d:=nofZ (n:=EN) 0) in HF.
      rewrite <- (X F _ HI). cbn [emb_samp cp].
      replace (FocusMet_is_ud (an_foc_met p)) with false by (cbn [In] in HI; destruct HI as [E|[E|[E|[E|[]]]]]; rewrite <- E; reflexivity).
      f_equal. exact HF.
    - destruct HF as [-> (rest & ->)]. cbn [FocusMet_is_ud focusing_annular].
      rewrite app_nth1 by (rewrite map_length; lia). apply (map_nth (@Some R)).
  Qed.
  Lemma weight_same j : (j < num_rings A)%nat -> ring_weight p j (Some (ring_w A j)).
  Proof.
    intros Hj. unfold ring_weight. rewrite rings_same, !mid_same. fold (ring_max A). unfold ring_w.
    destruct HN as (_ & _ & HW). destruct OK as [_ _ Hp _ Ha _].
    assert (Hm : 0 <= ring_mid A j).
    { unfold ring_mid. destruct j as [|j']; [lra|].
      assert (H1 : (2 * S j' < length (an_radii A))%nat) by (unfold num_rings in Hj; Zify.zify; lia).
      pose proof (Hp (2 * S j')%nat H1). pose proof (Hp (2 * S j' - 1)%nat ltac:(lia)). lra. }
    destruct (an_W A) as [|w| |x|x| | | |]; cbn [window].
    - rewrite HW. reflexivity.
    - destruct HW as (-> & -> & rest & ->). cbn [apodization_annular].
      change (buf_get (A:=option R) (map (@Some R) w ++ rest) (Z.of_nat j) = Ok (Some (nth j w 0))).
      rewrite (get_nth _ _ (Some 0)) by (rewrite app_length, map_length; lia). rewrite Nat2Z.id.
      rewrite app_nth1 by (rewrite map_length; lia). now rewrite (map_nth (@Some R)).
    - destruct HW as (-> & ->). cbn [apodization_annular]. ered. rewrite e_div_ok by exact Ha. ered. f_equal. rewrite Rabs_right by lra. reflexivity.
    - destruct HW as (-> & -> & ->). cbn [apodization_annular]. ered. rewrite e_div_ok by nra. ered. do 2 f_equal. f_equal. field. exact Ha.
    - destruct HW as (-> & -> & ->). cbn [apodization_annular]. ered. rewrite e_div_ok by exact Ha. ered. do 2 f_equal. f_equal. f_equal. field. exact Ha.
    - contradiction.
    - contradiction.
    - destruct HW as (-> & ->). cbn [apodization_annular]. ered. rewrite e_div_ok by nra. ered. do 2 f_equal. field. exact Ha.
    - destruct HW as (-> & ->). cbn [apodization_annular]. ered. rewrite e_div_ok by nra. ered. do 2 f_equal. field. exact Ha.
  Qed.
End A.

(** ** One observation point *)
Definition disc_list (q : rpar) (A : annular) (ntz : Z) (delay : R) (o : pos) (n : nat) : list R :=
  map (fun k => disc_sir q A delay o n (Z.of_nat k)) (seq 0 (Z.to_nat ntz)).
Lemma nth_disc_list q A ntz delay o n k : (k < Z.to_nat ntz)%nat ->
  nth k (map (@Some R) (disc_list q A ntz delay o n)) (nofZ (n:=EN) 0) = Some (disc_sir q A delay o n (Z.of_nat k)).
Proof.
  intros Hk. change (nofZ (n:=EN) 0) with (Some 0 : option R). rewrite (map_nth (@Some R)). f_equal. unfold disc_list.
  rewrite (nth_indep _ 0 ((fun k => disc_sir q A delay o n (Z.of_nat k)) 0%nat)) by (rewrite map_length, seq_length; exact Hk).
  rewrite (map_nth (fun k => disc_sir q A delay o n (Z.of_nat k))), seq_nth by exact Hk. reflexivity.
Qed.

Lemma disc_exact K fuel q ntz A l delay o n : (0 <= ntz)%Z ->
  (~ silent A n -> defined K fuel q ntz (GCirc (nth n (an_radii A) 0)) delay o) -> l = lvl_ignore \/ l = lvl_warn ->
  disc_response K fuel (emb_samp q ntz) None l (Some (p_x o)) (Some (p_y o)) (Some (p_z o)) (Some delay)
    (map (@Some R) (an_radii A)) n (map (@Some R) (disc_list q A ntz delay o n)).
Proof.
  intros Hnt Hd Hl. unfold disc_response.
  change (nth n (map (@Some R) (an_radii A)) (nofZ (n:=EN) 0)) with (nth n (map (@Some R) (an_radii A)) (Some 0)).
  rewrite (map_nth (@Some R)). cbn [nle EN ecmp neps].
  assert (EB : (Nat.eqb n 0 && Rleb (nth n (an_radii A) 0) (/ 2 ^ 52))%bool = (Nat.eqb n 0 && Rleb (nth 0 (an_radii A) 0) (/ 2 ^ 52))%bool).
  { destruct n; reflexivity. }
  rewrite EB. unfold disc_list, disc_sir. destruct (Nat.eqb n 0 && Rleb (nth 0 (an_radii A) 0) (/ 2 ^ 52))%bool eqn:B.
  - unfold zeros. cbn [nt emb_samp]. rewrite map_map. rewrite <- (seq_length (Z.to_nat ntz) 0) at 2.
    generalize (seq 0 (Z.to_nat ntz)). intros L. induction L; cbn; [reflexivity|]. f_equal. exact IHL.
  - assert (NS : ~ silent A n).
    { intros [-> H]. cbn [Nat.eqb andb] in B. unfold Rleb in B. destruct (Rle_dec (nth 0 (an_radii A) 0) (/ 2 ^ 52)); [discriminate|contradiction]. }
    specialize (Hd NS).
    destruct (C11_rayleigh K fuel q ntz (GCirc (nth n (an_radii A) 0)) l delay o (repeat 0 (Z.to_nat ntz)) Hd (repeat_length _ _) Hl)
      as (out & e & Es & Lo & Hv).
    assert (EO : out = map (fun k => rayleigh q 1 delay o (sources q (GCirc (nth n (an_radii A) 0))) (Z.of_nat k)) (seq 0 (Z.to_nat ntz))).
    { apply nth_ext with (d:=0) (d':=0); [now rewrite map_length, seq_length|].
      intros k Hk. rewrite Lo in Hk. rewrite (Hv k Hk), old_zeros by exact Hk.
      match goal with |- context [map ?f (seq 0 _)] => rewrite (nth_indep (map f _) 0 (f 0%nat)) by (rewrite map_length, seq_length; exact Hk); rewrite (map_nth f) end.
      rewrite seq_nth by exact Hk. cbn [plus]. ring. }
    exists e. split.
    + rewrite <- EO. unfold sir in Es. unfold zeros. cbn [nt emb_samp]. change (nofZ (n:=EN) 0) with (Some 0). rewrite <- (map_repeat (@Some R) 0).
      exact Es.
    + rewrite sir_R in Es by (auto using lvl_no_bail, repeat_length). injection Es as _ <-.
      unfold rec_status. destruct (forallb _ _); [discriminate|]. destruct Hl as [-> | ->]; discriminate.
Qed.

Lemma fold_sum (f : nat -> R) (g : nat -> option R) L : (forall j, In j L -> g j = Some (f j)) ->
  forall a, fold_left (fun acc j => nadd (n:=EN) acc (g j)) L (Some a) = Some (a + Rsum (map f L)).
Proof.
  induction L as [|j L IH]; intros H a; cbn [fold_left map Rsum fold_right].
  - f_equal. ring.
  - rewrite (H j) by (left; reflexivity). cbn [nadd EN e2]. etransitivity; [apply IH; intros i Hi; apply H; right; exact Hi|].
    f_equal. change (fold_right Rplus 0) with Rsum. ring.
Qed.

(** C22 in exact arithmetic, levels 'ignore' and 'warn': the response of an
    annular array is the sum over its rings of weight times (outer disc minus
    inner disc), each moved by its delay to the nearest sample and one sample
    more (the one sample: C22_late_refuted). *)
Theorem C22_exact_partial : forall K fuel q ntz p A l delay o,
  names_annular p A -> annular_ok q A -> annular_defined K fuel q ntz A delay o -> (0 <= ntz)%Z ->
  l = lvl_ignore \/ l = lvl_warn ->
  exists out e,
    serial K fuel (TArrAnnu p) (emb_samp q ntz) None l (Some (p_x o)) (Some (p_y o)) (Some (p_z o)) (Some delay) 0
      (map (@Some R) (repeat 0 (Z.to_nat ntz))) = Ok (map (@Some R) out, e) /\
    length out = Z.to_nat ntz /\
    forall k, (k < Z.to_nat ntz)%nat -> nth k out 0 = annular_sir 1 q A delay o (Z.of_nat k).
Proof.
  intros K fuel q ntz p A l delay o HN OK HD Hnt Hl.
  destruct (C22_annular_partial EN K fuel (emb_samp q ntz) None l (Some (p_x o)) (Some (p_y o)) (Some (p_z o)) (Some delay) p
     (fun n => map (@Some R) (disc_list q A ntz delay o n)) (fun j => Some (ring_w A j))
     (fun j => Z.to_nat (Zrint (ring_tau (p_cp q) A j / p_dt q) + 1)) (map (@Some R) (repeat 0 (Z.to_nat ntz)))) as (out' & e & E & Lo & Hv).
  - exact Hnt.
  - exact I.
  - rewrite map_length. apply repeat_length.
  - destruct HN as (-> & _). rewrite map_length. apply OK.
  - rewrite (rings_same p A HN). destruct HN as (_ & HF & _). pose proof (ak_ud q A OK) as Hu.
    destruct (an_F A) as [|F|tau].
    + destruct HF as [-> H]. exact H.
    + destruct HF as [HI HF]. replace (FocusMet_is_ud (an_foc_met p)) with false by (cbn [In] in HI; destruct HI as [X|[X|[X|[X|[]]]]]; rewrite <- X; reflexivity).
      assert (0 < length (an_focal p))%nat by (apply nth_error_Some; congruence). lia.
    + destruct HF as [-> (rest & ->)]. cbn [FocusMet_is_ud]. rewrite app_length, map_length. lia.
  - intros n Hn. destruct HN as (EG & _). rewrite EG in *. rewrite map_length in Hn.
    apply disc_exact; auto.
  - intros j Hj. rewrite (rings_same p A HN) in Hj. apply (weight_same p A q HN OK j Hj).
  - intros j Hj. rewrite (rings_same p A HN) in Hj. pose proof (ak_idx q A OK j Hj) as Hi.
    exists (Zrint (ring_tau (p_cp q) A j / p_dt q)). split; [|lia].
    rewrite (tau_same p A q HN OK ntz j Hj). cbn [dt emb_samp].
    destruct (ak_par q A OK) as (_ & _ & Hdt & _). ered. rewrite e_div_ok by exact Hdt. cbn [to_idx].
    destruct K; (match goal with |- (if ?b then _ else _) = _ => replace b with true; [reflexivity|] end);
      symmetry; apply andb_true_intro; split; try apply Z.leb_le; try apply Z.ltb_lt; lia.
  - exists (map (fun k => annular_sir 1 q A delay o (Z.of_nat k)) (seq 0 (Z.to_nat ntz))), e. split; [|split].
    + etransitivity; [exact E|]. do 2 f_equal. apply nth_ext with (d:=Some 0 : option R) (d':=Some 0 : option R).
      * rewrite !map_length, seq_length. exact Lo.
      * intros k Hk. cbn [nt emb_samp] in *. assert (Hk' : (k < Z.to_nat ntz)%nat) by (rewrite <- Lo; exact Hk).
        etransitivity; [exact (Hv k Hk')|]. rewrite (rings_same p A HN).
        rewrite map_map. match goal with |- context [map ?f (seq 0 (Z.to_nat ntz))] => rewrite (nth_indep (map f (seq 0 (Z.to_nat ntz))) (Some 0) (f 0%nat)) by (rewrite map_length, seq_length; exact Hk'); rewrite (map_nth f) end.
        rewrite seq_nth by exact Hk'. cbn [plus].
        change (nofZ (n:=EN) 0) with (Some 0 : option R).
        etransitivity; [apply (fold_sum (fun j => let m := (Z.of_nat k - (Zrint (ring_tau (p_cp q) A j / p_dt q) + 1))%Z in
                      if (0 <=? m)%Z then ring_w A j * ring_sir q A delay o j m else 0))|f_equal; unfold annular_sir; ring].
        intros j Hj. apply in_seq in Hj. pose proof (ak_idx q A OK j ltac:(lia)) as Hi.
        set (s := Zrint (ring_tau (p_cp q) A j / p_dt q)) in *. clearbody s. cbv zeta.
        unfold moved. destruct (Nat.leb_spec (Z.to_nat (s + 1)) k) as [Hs|Hs].
        -- replace (0 <=? Z.of_nat k - (s + 1))%Z with true by (symmetry; apply Z.leb_le; lia).
           unfold SpecAnnu.ring, ring_sir. destruct j as [|j].
           ++ rewrite nth_disc_list by lia. cbn [nmul EN e2]. do 3 f_equal. lia.
           ++ rewrite !nth_disc_list by lia. cbn [nmul nsub EN e2]. replace (Z.of_nat (k - Z.to_nat (s + 1))) with (Z.of_nat k - (s + 1))%Z by lia. reflexivity.
        -- replace (0 <=? Z.of_nat k - (s + 1))%Z with false by (symmetry; apply Z.leb_gt; lia).
           cbn [nmul nofZ EN e2]. f_equal. ring.
    + now rewrite map_length, seq_length.
    + intros k Hk. match goal with |- context [map ?f (seq 0 (Z.to_nat ntz))] => rewrite (nth_indep (map f (seq 0 (Z.to_nat ntz))) 0 (f 0%nat)) by (rewrite map_length, seq_length; exact Hk); rewrite (map_nth f) end.
      now rewrite seq_nth by exact Hk.
Qed.
Print Assumptions C22_exact_partial.

(** C44 for dream_arr_annu: the same for every entry of the matrix a call
    through any front end returns. *)
Theorem C44_annular_partial : forall fuel c2r fe nlhs hw env sch junk args p A q ntz l ps dty dl,
  documented fe FArrAnnu args (TArrAnnu p) (emb_samp q ntz) (Some 0 : EN) l (Z.of_nat (length ps)) (exact (coords ps)) dty (exact dl) ->
  names_annular p A -> annular_ok q A ->
  l = lvl_ignore \/ l = lvl_warn -> (0 <= nlhs <= 2)%Z -> (0 <= ntz)%Z -> keeps_length c2r -> (0 <= hw)%Z ->
  runs_to_end hw env (Z.of_nat (length ps)) sch ->
  (forall n, (n < length ps)%nat -> annular_defined (idx_of fe) fuel q ntz A (start_delay dty dl n) (nth n ps origin)) ->
  exists H w e,
    gateway fuel c2r fe FArrAnnu nlhs hw env sch junk args = Ok (Some (Returned H ntz (Z.of_nat (length ps)) w e)) /\
    matrix_is H (Z.to_nat ntz) (length ps)
      (fun n k => annular_sir 1 q A (start_delay dty dl n) (nth n ps origin) (Z.of_nat k)).
Proof.
  intros fuel c2r fe nlhs hw env sch junk args p A q ntz l ps dty dl D HN OK Hl Hlhs Hnt Hk Hhw Hsch Hdef.
  eapply exact_call; eauto.
  - intros p' [= <-]. right. intros j z Hj Ez. rewrite (rings_same p A HN) in Hj.
    rewrite (tau_same p A q HN OK ntz j Hj) in Ez. cbn [dt emb_samp] in Ez.
    destruct (ak_par q A OK) as (_ & _ & Hdt & _). ered. rewrite e_div_ok in Ez by exact Hdt.
    injection Ez as <-. pose proof (ak_idx q A OK j Hj). lia.
  - intros n Hn o.
    destruct (C22_exact_partial (idx_of fe) fuel q ntz p A l (start_delay dty dl n) o HN OK (Hdef n Hn) Hnt Hl) as (out & e & E & Lo & Hv).
    exists out, e. split; [exact E|]. split; [|split; [exact Lo|exact Hv]].
    intros ->. destruct (C07_code_any _ _ _ _ _ _ _ _ _ _ _ _ _ _ _ E) as [X|X]; [discriminate X|]. destruct Hl as [-> | ->]; discriminate X.
Qed.
Print Assumptions C44_annular_partial.

(** ** Non-vacuity: a disc of radius 1 mm and a ring from 2 to 3 mm, focused at
    5 mm, seen from 5 mm, in Octave. *)
Definition exA3 : annular := {| an_radii := [1; 2; 3]; an_F := RFocus 5; an_W := AGauss 1 |}.
Definition exp3 : annu_par EN :=
  @Build_annu_par EN (map (@Some R) [1; 2; 3]) foc_xy [Some 5; Some 0] true apod_gauss [Some 0; Some 0] (Some 1).
Lemma ex_disc_defined K r : 0 < r <= 3 -> defined K 10 exq 10 (GCirc r) 0 exo.
Proof.
  intros Hr.
  assert (HD : forall s, In s (sources exq (GCirc r)) -> 5 <= SpecRayleigh.dist exo s < 6 /\ s_tau s = 0).
  { intros s Hs. cbn [sources] in Hs. apply in_map_iff in Hs as ([x y] & <- & H).
    apply ProofsPhys.in_disc_xy in H as [_ H]; [|cbn; lra|cbn; lra].
    split; [|reflexivity]. unfold SpecRayleigh.dist, flat. cbn [exo p_x p_y p_z s_x s_y s_z].
    pose proof (pow2_ge_0 x). pose proof (pow2_ge_0 y).
    split.
    - replace 5 with (sqrt (5 * 5)) at 1 by (apply sqrt_square; lra). apply sqrt_le_1_alt. nra.
    - replace 6 with (sqrt (6 * 6)) by (apply sqrt_square; lra). apply sqrt_lt_1_alt. nra. }
  constructor.
  - unfold par_ok; cbn; repeat split; lra.
  - exact I.
  - intros s Hs. destruct (HD s Hs) as [H _]. lra.
  - intros s Hs. destruct (HD s Hs) as [H Ht]. unfold arrives_at, arrival. rewrite Ht. cbn [exq p_cp p_dt].
    replace ((1000 * SpecRayleigh.dist exo s / 1000 - 0 + 0) / 1) with (SpecRayleigh.dist exo s) by field.
    pose proof (Zrint_near (SpecRayleigh.dist exo s)) as Z1; apply rabs_inv in Z1.
    assert (4 < Zrint (SpecRayleigh.dist exo s) < 7)%Z by (split; apply lt_IZR; lra).
    destruct K; lia.
  - cbn [enough exq p_dx p_dy]. rewrite Rabs_right by lra. unfold SpecRayleigh.count.
    assert (Zfloor ((r - (- r + 1 / 2)) / 1) < 7)%Z; [|lia]. apply lt_IZR.
    destruct (Zfloor_spec ((r - (- r + 1 / 2)) / 1)). lra.
  - lia.
Qed.
Example C22_exact_ex : names_annular exp3 exA3 /\ annular_ok exq exA3 /\ forall K, annular_defined K 10 exq 10 exA3 0 exo.
Proof.
  split; [|split].
  - unfold names_annular. cbn. repeat split; auto.
  - constructor; [cbn; lia|unfold par_ok; cbn; repeat split; lra| |exact I| |].
    + intros n Hn. cbn in Hn. destruct n as [|[|[|n]]]; cbn; lra || lia.
    + change (ring_max exA3 <> 0). unfold ring_max, ring_mid, num_rings. cbn. lra.
    + intros j Hj. unfold num_rings in Hj. cbn in Hj. unfold ring_tau. cbn [exA3 an_F exq p_cp p_dt].
      assert (B : 0 <= 1000 / 1000 * (sqrt (ring_max exA3 ^2 + 5^2) - sqrt (ring_mid exA3 j ^2 + 5^2)) / 1 <= 1).
      { assert (E1 : ring_max exA3 = 5 / 2) by (unfold ring_max, ring_mid, num_rings; cbn; lra).
        assert (E2 : 0 <= ring_mid exA3 j <= 5 / 2) by (destruct j as [|[|j]]; [| |lia]; unfold ring_mid; cbn; lra).
        rewrite E1.
        assert (sqrt (ring_mid exA3 j ^2 + 5^2) <= sqrt ((5/2)^2 + 5^2)) by (apply sqrt_le_1_alt; nra).
        assert (sqrt ((5/2)^2 + 5^2) <= 6) by (replace 6 with (sqrt (6 * 6)) by (apply sqrt_square; lra); apply sqrt_le_1_alt; lra).
        assert (5 <= sqrt (ring_mid exA3 j ^2 + 5^2)) by (replace 5 with (sqrt (5 * 5)) at 1 by (apply sqrt_square; lra); apply sqrt_le_1_alt; nra).
        split; lra. }
      pose proof (Zrint_near (1000 / 1000 * (sqrt (ring_max exA3 ^2 + 5^2) - sqrt (ring_mid exA3 j ^2 + 5^2)) / 1)) as Z1; apply rabs_inv in Z1.
      set (z := Zrint _) in *. clearbody z. assert (-1 < z < 2)%Z by (split; apply lt_IZR; lra). lia.
  - intros K n Hn _. apply ex_disc_defined. cbn in Hn. destruct n as [|[|[|n]]]; cbn; lra || lia.
Qed.
From Coq Require Strings.String.
Import Coq.Strings.String.StringSyntax.
Local Open Scope string_scope.
Definition ex_annu_call : list (value EN) :=
  [@VNum EN Full 1 3 (exact (coords [exo])); erow [1; 2; 3]; erow [1; 1; 1; 10]; erow [0]; erow [1; 1000; 0];
   VStr "on"; erow [5]; VStr "gauss"; erow []; erow [1]; VStr "ignore"].
Example C44_annular_ex : forall fe, fe = Octave \/ fe = Matlab ->
  documented fe FArrAnnu ex_annu_call (TArrAnnu exp3) (emb_samp exq 10) (Some 0 : EN) lvl_ignore 1 (exact (coords [exo]))
    delay_single (exact [0]).
Proof.
  intros fe Hfe.
  apply (@doc_annu EN fe exp3 (Some 1) 2 (emb_samp exq 10) (Some 0) lvl_ignore 1 (exact (coords [exo])) delay_single (exact [0])
           _ _ _ _ _ _ _ _ _ _ [VStr "ignore"]).
  - destruct Hfe as [-> | ->]; reflexivity.
  - cbn. lia.
  - intros _. reflexivity.
  - intros ->. destruct Hfe; discriminate.
  - destruct Hfe as [-> | ->]; reflexivity.
  - exists Full. split; [reflexivity|]. split; [left; reflexivity|]. split; [lia|reflexivity].
  - apply row_vec.
  - exists (Some 10). split; [apply row_vec|]. change (ntrunc (n:=EN) (Some 10)) with (Some (Ztruncr (IZR 10))).
    rewrite trunc_IZR. destruct fe; reflexivity.
  - left. exists (Some 0). split; [apply row_vec|auto].
  - apply row_vec.
  - left. exists "on", (Some 5). split; [reflexivity|]. split; [cbn; auto 10|]. split; [discriminate|].
    split; [apply row_vec|reflexivity].
  - split; [apply row_vec|]. right. left. exists "gauss". split; [reflexivity|]. split; [left; reflexivity|].
    split; [reflexivity|]. split; [cbn; auto|]. split; [discriminate|reflexivity].
  - left. exists "ignore". cbn. auto.
Qed.
