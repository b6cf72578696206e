(** PropAtt2ex.v - concrete calls that meet the hypotheses of C115 - C118. *)
From Coq Require Strings.String Strings.Ascii.
Import Coq.Strings.String.StringSyntax.
From Coq Require Import Reals List ZArith Lra Lia.
From Verif Require Import Base BaseLemmas ModelSir ModelArr ModelSmp NumR SpecSmp SpecSir SpecRayleigh SpecArr ModelConv
  ModelGw SpecGw SpecGwR ProofsR ProofsRayleigh ProofsSirR PropSir PropArr PropGwR SpecPhys SpecPhysA PropPhys PropPhys2
  SpecDft SpecAtt ProofsAtt PropAtt SpecAtt2 ProofsAtt2 PropAtt2.
Import ListNotations.
Open Scope R_scope.
Local Open Scope string_scope.

(** A 2 x 1 mm plate seen from 5 mm, 0.5 dB/(cm MHz). *)
Definition ab_args (q : rpar) (nt : Z) (d alpha : R) (o : pos) : list (value EN) :=
  [@VNum EN Full 1 3 (exact (coords [o])); erow [2; 1]; erow [p_dx q; p_dy q; p_dt q; IZR nt]; erow [d];
   erow [p_v q; p_cp q; alpha]; VStr "ignore"].
Lemma ab_call fe q nt d alpha o : (0 < nt <= 1000)%Z -> / 2^52 < alpha ->
  absorbing_call fe FRect 1 1 None (round_robin 4 1) (ab_args q nt d alpha o) alpha (GRect 2 1) q nt [o] delay_single [d].
Proof.
  intros Hnt Ha. constructor; auto; try lia.
  - exists lvl_ignore. split; [left; reflexivity|].
    apply (@doc_single EN fe FRect (exact [2; 1]) (emb_geom (GRect 2 1)) (emb_samp q nt) (Some alpha) lvl_ignore 1
             (exact (coords [o])) delay_single (exact [d]) _ _ _ _ _ [VStr "ignore"]).
    + reflexivity.
    + exists Full. split; [reflexivity|]. split; [left; reflexivity|]. split; [lia|reflexivity].
    + apply row_vec.
    + exists (Some (IZR nt)). split; [apply row_vec|]. change (ntrunc (n:=EN) (Some (IZR nt))) with (Some (Ztruncr (IZR nt))).
      rewrite trunc_IZR. destruct fe; cbn; destruct (_ && _)%bool eqn:E; try reflexivity;
        (apply Bool.andb_false_iff in E; destruct E as [E|E]; [apply Z.leb_gt in E|apply Z.ltb_ge in E]; lia).
    + left. exists (Some d). split; [apply row_vec|auto].
    + apply row_vec.
    + left. exists "ignore". cbn. auto.
  - destruct (rect_exact_call fe 2 1 (exqt 1) 10 0 exo ltac:(lia)) as [_ _ _ _ _ H]. exact H.
Qed.
Lemma half_absorbs : / 2^52 < 1 / 2.
Proof. assert (2 < 2^52) by (rewrite <- (pow_1 2) at 1; apply Rlt_pow; [lra|lia]). replace (1 / 2) with (/ 2) by field. apply Rinv_lt_contravar; lra. Qed.
Example C115_ex : forall fe,
  absorbing_call fe FRect 1 1 None (round_robin 4 1) (ab_args exq 10 0 (1/2) exo) (1/2) (GRect 2 1) exq 10 [exo] delay_single [0] /\
  all_defined fe 10 exq 10 (GRect 2 1) [exo] delay_single [0] /\ 0 < p_dt exq /\
  (forall s, In s (sources exq (GRect 2 1)) -> 5 <= dist exo s) /\
  heard_sources exq 10 0 exo (sources exq (GRect 2 1)) = sources exq (GRect 2 1) /\ (2 * 4 < Z.to_nat 10)%nat.
Proof.
  intros fe. split; [apply ab_call; [lia|exact half_absorbs]|]. split; [|split; [cbn; lra|split; [|split]]].
  - intros n Hn. cbn in Hn. destruct n; [|lia]. cbn [nth start_delay]. apply ex_defined.
  - intros s Hs. pose proof (ex_dist exo s Hs eq_refl). lra.
  - unfold heard_sources. rewrite ex_sources. cbn [filter].
    assert (I1 : arrives_at exq 0 exo (flat 1 (-1 / 2) 0) = 5%Z) by (apply ex_arr_at; [rewrite ex_sources; cbn; auto|lra]).
    assert (I2 : arrives_at exq 0 exo (flat 1 (1 / 2) 0) = 5%Z) by (apply ex_arr_at; [rewrite ex_sources; cbn; auto|lra]).
    unfold inside. rewrite I1, I2. reflexivity.
  - cbn. lia.
Qed.
(** C118: two samples, both waves arrive at sample 1, sample 0 is not 0. *)
Example C118_ex : forall fe, exists V,
  returns (gateway 10 exact_ifft fe FRect 1 1 None (round_robin 4 1) [] (ab_args exq 2 4 (1/2) exo)) 2 1 V /\
  (forall s, In s (sources exq (GRect 2 1)) -> arrives_at exq 4 exo s = 1%Z) /\ 0 < V O O.
Proof.
  intros fe.
  assert (A : forall s, In s (sources exq (GRect 2 1)) -> arrives_at exq 4 exo s = 1%Z) by (intros s Hs; apply ex_arr_at; auto; lra).
  assert (D : all_defined fe 10 exq 2 (GRect 2 1) [exo] delay_single [4]).
  { intros n Hn. cbn in Hn. destruct n; [|lia]. cbn [nth start_delay].
    destruct (ex_defined_gen 1 ltac:(lia) (idx_of fe)) as [D1 D2 D3 D4 D5 _]. constructor; auto; [|lia].
    replace 4 with (5 - IZR 1) by lra. exact D4. }
  destruct (C118_before_arrival_refuted 10 fe FRect 1 1 None (round_robin 4 1) [] (ab_args exq 2 4 (1/2) exo) (1/2) 2 1 exq 2 [exo] delay_single [4]
    (ab_call fe exq 2 4 (1/2) exo ltac:(lia) half_absorbs) D) as (V & HV & H); [cbn; lra|cbn; lra|].
  exists V. split; [exact HV|]. split; [exact A|]. apply (H O 5); try lra; try (cbn; lia).
  - exists (flat 1 (1 / 2) 0). assert (I : In (flat 1 (1 / 2) 0) (sources exq (GRect 2 1))) by (rewrite ex_sources; cbn; auto).
    split; [exact I|]. cbn [nth start_delay]. rewrite (A _ I). lia.
  - intros s Hs. pose proof (ex_dist exo s Hs eq_refl). cbn [nth]. lra.
  - change (Z.to_nat 2) with 2%nat. unfold damping, frequency. cbn [INR exq p_dt].
    set (x := 1 / 2 / 86860 * (1 / ((1 + 1) * (1 / 1000000))) * (5 / 1000)). assert (0 < x) by (unfold x; lra).
    assert (exp (- x) < 1) by (rewrite <- exp_0; apply exp_increasing; lra). lra.
Qed.

(** A two element array focused at 5 mm, 0.5 dB/(cm MHz). *)
From Verif Require Import PropPhys4ex.
Definition ab2_args (a b : R) (q : rpar) (e1 e2 : pos) (F : R) (o : pos) (d alpha : R) : list (value EN) :=
  [@VNum EN Full 1 3 (exact (coords [o])); erow [a; b]; @VNum EN Full 2 3 (exact (coords [e1; e2]));
   erow [p_dx q; p_dy q; p_dt q; 10]; erow [d]; erow [p_v q; p_cp q; alpha];
   VStr "xy"; erow [F]; VStr "off"; erow [0; 0]; VStr "off"; erow [0]; erow [0]; VStr "ignore"].
Lemma ab2_call fe a b q e1 e2 F o d alpha : / 2^52 < alpha ->
  absorbing_array_call fe FArrRect 1 1 None (round_robin 4 1) (ab2_args a b q e1 e2 F o d alpha) alpha (GRect a b) (foc2 e1 e2 F) q 10 [o] delay_single [d].
Proof.
  intros Ha. constructor; auto; try lia.
  - set (p := @Build_arr_par EN 2 (exact (coords [e1; e2])) foc_xy [Some F; Some 0] steer_none
              (Some 0) (Some 0) false apod_gauss [Some 0; Some 0] (Some 0)).
    exists lvl_ignore, p, (@TArrRect EN (Some a) (Some b) p). split; [left; reflexivity|]. split; [reflexivity|]. split.
    { repeat split. }
    apply (@doc_array EN fe FArrRect (exact [a; b]) p (Some 0) _ (emb_samp q 10) (Some alpha) lvl_ignore 1
             (exact (coords [o])) delay_single (exact [d]) _ _ _ _ _ _ _ _ _ _ _ _ _ [VStr "ignore"]).
    + reflexivity.
    + cbn. lia.
    + destruct fe; reflexivity.
    + exists Full. split; [reflexivity|]. split; [left; reflexivity|]. split; [lia|reflexivity].
    + apply row_vec.
    + exists Full. split; [reflexivity|]. split; [left; reflexivity|]. split; [cbn; lia|reflexivity].
    + exists (Some 10). split; [apply row_vec|]. change (ntrunc (n:=EN) (Some 10)) with (Some (Ztruncr (IZR 10))).
      rewrite trunc_IZR. destruct fe; reflexivity.
    + left. exists (Some d). split; [apply row_vec|auto].
    + apply row_vec.
    + left. exists "xy", (Some F). split; [reflexivity|]. split; [cbn; auto 10|]. split; [discriminate|]. split; [apply row_vec|reflexivity].
    + exists "off". split; [reflexivity|]. split; [cbn; auto|apply row_vec].
    + split; [apply row_vec|]. left. split; [reflexivity|]. split; [left; reflexivity|]. auto.
    + left. exists "ignore". cbn. auto.
  - destruct (rect_exact_call fe 2 1 (exqt 1) 10 0 exo ltac:(lia)) as [_ _ _ _ _ H]. exact H.
Qed.
Example C115_array_ex : forall fe,
  absorbing_array_call fe FArrRect 1 1 None (round_robin 4 1) (ab2_args 2 1 exq (mk (-1) 0 0) (mk 1 0 0) 5 exo 0 (1/2)) (1/2) (GRect 2 1) A5 exq 10 [exo] delay_single [0] /\
  all_arr_defined fe 10 exq 10 (GRect 2 1) A5 [exo] delay_single [0] /\ 0 < p_dt exq.
Proof. intros fe. split; [apply ab2_call; exact half_absorbs|]. split; [apply A5_defined|cbn; lra]. Qed.
