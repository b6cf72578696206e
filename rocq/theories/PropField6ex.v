(** PropField6ex.v - non-vacuity of C113, and property C114: samples of the
    response of an annular array can be negative. *)
From Coq Require Strings.String Strings.Ascii.
Import Coq.Strings.String.StringSyntax.
From Coq Require Import Reals List ZArith Lra Lia.
From Verif Require Import Base BaseLemmas ModelSir ModelArr ModelSmp NumR SpecSmp SpecSir SpecRayleigh SpecArr
  ModelGw SpecGw SpecGwR ProofsR ProofsRayleigh ProofsSirR PropSir PropArr PropGwR SpecPhys ProofsPhys PropPhys PropPhys2
  SpecField PropField SpecAnnuR PropAnnuR SpecField4 PropField4 PropFieldEx SpecField6 PropField6.
Import ListNotations.
Local Open Scope string_scope.
Open Scope R_scope.

(** ** C113: the disc and ring of PropAnnuR, seen from 5 mm. *)
Lemma disc_times r z : 0 <= r -> 0 < z -> times_within 1000 (GCirc r) {| p_x := 0; p_y := 0; p_z := z |} z (sqrt (r^2 + z^2)).
Proof.
  intros Hr Hz0 p (Hp & Hz). unfold travel_time, distance. cbn [lens p_x p_y p_z]. rewrite Hz, Rplus_0_r.
  replace ((0 - p_x p)^2 + (0 - p_y p)^2 + (z - 0)^2) with (p_x p ^2 + p_y p ^2 + z^2) by ring.
  replace (1000 * sqrt (p_x p ^2 + p_y p ^2 + z^2) / 1000) with (sqrt (p_x p ^2 + p_y p ^2 + z^2)) by field.
  pose proof (pow2_ge_0 (p_x p)). pose proof (pow2_ge_0 (p_y p)). split.
  - rewrite <- (sqrt_pow2 z) at 1 by lra. apply sqrt_le_1_alt. lra.
  - apply sqrt_le_1_alt. lra.
Qed.
Lemma ex_annular_call fe : fe = Octave \/ fe = Matlab ->
  exact_annular_call (map fst) fe 1 1 None (round_robin 4 1) ex_annu_call exA3 exq 10 [exo] delay_single [0].
Proof.
  intros Hfe. destruct C22_exact_ex as (HN & OK & _). constructor; auto; try lia; try (intros xc; apply map_length).
  - exists lvl_ignore, exp3. split; [now left|]. split; [exact HN|]. now apply C44_annular_ex.
  - destruct (rect_exact_call fe 2 1 (exqt 1) 10 0 exo ltac:(lia)) as [_ _ _ _ _ H]. exact H.
Qed.
Example C113_ex : forall fe, fe = Octave \/ fe = Matlab ->
  exact_annular_call (map fst) fe 1 1 None (round_robin 4 1) ex_annu_call exA3 exq 10 [exo] delay_single [0] /\
  all_annular_defined fe 10 exq 10 exA3 [exo] delay_single [0] /\ Nat.Odd (length (an_radii exA3)) /\ centre_ok exA3 /\
  annular_inside exq 10 exA3 0 exo /\ smooth 1 1 triangle.
Proof.
  intros fe Hfe. destruct C22_exact_ex as (HN & OK & HD). split; [now apply ex_annular_call|]. split; [|split; [|split; [|split]]].
  - intros n Hn. cbn in Hn. destruct n; [|lia]. apply HD.
  - exists 1%nat. reflexivity.
  - right. cbn. lra.
  - assert (S6 : sqrt (3^2 + 5^2) <= 6) by (rewrite <- (sqrt_pow2 6) by lra; apply sqrt_le_1_alt; lra).
    exists 5, 6. split; [|cbn [exq p_dt p_cp]; split; [lra|split; [lra|]]].
    + intros n Hn p Hp. assert (Hr : 0 <= radius exA3 n <= 3) by (cbn in Hn; destruct n as [|[|[|n]]]; cbn; lra || lia).
      destruct (disc_times (radius exA3 n) 5 (proj1 Hr) ltac:(lra) p Hp) as [H1 H2]. split; [exact H1|].
      eapply Rle_trans; [exact H2|]. eapply Rle_trans; [|exact S6]. apply sqrt_le_1_alt. nra.
    + intros j Hj. unfold ring_tau. cbn [exA3 an_F].
      assert (E1 : ring_max exA3 = 5 / 2) by (unfold ring_max, ring_mid, num_rings; cbn; lra). rewrite E1.
      assert (sqrt ((5/2)^2 + 5^2) <= 6) by (rewrite <- (sqrt_pow2 6) by lra; apply sqrt_le_1_alt; lra).
      assert (5 <= sqrt (ring_mid exA3 j ^2 + 5^2)) by (rewrite <- (sqrt_pow2 5) at 1 by lra; apply sqrt_le_1_alt; pose proof (pow2_ge_0 (ring_mid exA3 j)); lra).
      lra.
  - exact triangle_smooth.
Qed.

(** ** C114 *)
(** An array that is only its centre disc is not negative anywhere. *)
Theorem C114_one_disc_partial : forall fuel c2r fe nlhs hw env sch junk args A q ntz ps dty dl r,
  exact_annular_call c2r fe nlhs hw env sch args A q ntz ps dty dl -> all_annular_defined fe fuel q ntz A ps dty dl ->
  an_radii A = [r] -> 0 <= ring_w A 0 -> 0 < p_dt q -> 0 <= p_v q ->
  exists V, returns (gateway fuel c2r fe FArrAnnu nlhs hw env sch junk args) ntz (length ps) V /\
  forall n k, (n < length ps)%nat -> (k < Z.to_nat ntz)%nat -> 0 <= V n k.
Proof.
  intros fuel c2r fe nlhs hw env sch junk args A q ntz ps dty dl r HC HD Er Hw Hdt Hv.
  eexists. split; [apply annular_call_returns; eassumption|]. cbv beta. intros n k Hn Hk.
  unfold annular_sir. replace (num_rings A) with 1%nat by (unfold num_rings; rewrite Er; reflexivity).
  cbn [seq map Rsum fold_right]. rewrite Rplus_0_r. destruct (0 <=? _)%Z; [|lra]. apply Rmult_le_pos; auto.
  cbn [ring_sir]. unfold disc_sir. destruct (_ && _)%bool eqn:E; [lra|].
  destruct (HD n Hn 0%nat) as [Hq Hg Ho _ _ _].
  - rewrite Er. cbn. lia.
  - intros [_ H]. cbn [Nat.eqb andb] in E. unfold Rleb in E. destruct (Rle_dec _ _); [discriminate E|contradiction].
  - apply Rsum_ge0. intros s Hs. destruct (Z.eqb _ _); [|lra]. eapply strength_ge0; eauto. lra.
Qed.
Print Assumptions C114_one_disc_partial.

(** A ring from 10 to 20 mm, steps of 20 mm, velocity 1, no focusing, no
    apodization, seen from 10 mm on the axis: the grids of the two discs have no
    common point, and the one source of the inner disc arrives alone. *)
Definition ringA : annular := {| an_radii := [0; 10; 20]; an_F := RNone; an_W := ANone |}.
Definition ringp : annu_par EN :=
  @Build_annu_par EN (map (@Some R) [0; 10; 20]) foc_none [Some 0; Some 0] false apod_gauss [Some 0; Some 0] (Some 0).
Definition ring_call : list (value EN) :=
  [@VNum EN Full 1 3 (exact (coords [centre 10])); erow [0; 10; 20]; erow [20; 20; 1; 30]; erow [0]; erow [1; 1000; 0];
   VStr "off"; erow [0]; VStr "off"; erow [0]; erow [0]; VStr "ignore"].
Lemma ring_doc fe : fe = Octave \/ fe = Matlab ->
  documented fe FArrAnnu ring_call (TArrAnnu ringp) (emb_samp (q1 20 20) 30) (Some 0 : EN) lvl_ignore 1 (exact (coords [centre 10]))
    delay_single (exact [0]).
Proof.
  intros Hfe.
  apply (@doc_annu EN fe ringp (Some 0) 2 (emb_samp (q1 20 20) 30) (Some 0) lvl_ignore 1 (exact (coords [centre 10])) delay_single (exact [0])
           _ _ _ _ _ _ _ _ _ _ [VStr "ignore"]).
  - destruct Hfe as [-> | ->]; reflexivity.
  - cbn. lia.
  - intros _. reflexivity.
  - intros ->. destruct Hfe; discriminate.
  - destruct Hfe as [-> | ->]; reflexivity.
  - exists Full. split; [reflexivity|]. split; [left; reflexivity|]. split; [lia|reflexivity].
  - apply row_vec.
  - exists (Some 30). split; [apply row_vec|]. change (ntrunc (n:=EN) (Some 30)) with (Some (Ztruncr (IZR 30))).
    rewrite trunc_IZR. destruct fe; reflexivity.
  - left. exists (Some 0). split; [apply row_vec|auto].
  - apply row_vec.
  - left. exists "off", (Some 0). split; [reflexivity|]. split; [cbn; auto 10|]. split; [discriminate|].
    split; [apply row_vec|reflexivity].
  - split; [apply row_vec|]. left. split; [reflexivity|]. split; [left; reflexivity|]. auto.
  - left. exists "ignore". cbn. auto.
Qed.
Lemma ring_defined fe : all_annular_defined fe 10 (q1 20 20) 30 ringA [centre 10] delay_single [0].
Proof.
  intros n Hn. cbn in Hn. destruct n; [|lia]. cbn [nth start_delay]. intros n Hn' Hs.
  assert (Hr : 0 <= nth n (an_radii ringA) 0 <= 20) by (cbn in Hn'; destruct n as [|[|[|n]]]; cbn; lra || lia).
  assert (S : sqrt (nth n (an_radii ringA) 0 ^2 + 10^2) <= 100).
  { rewrite <- (sqrt_pow2 100) by lra. apply sqrt_le_1_alt. nra. }
  apply (defined_of_times _ _ _ _ _ _ _ 10 100); try lra; try lia; try exact I; try reflexivity.
  - intros p Hp. destruct (disc_times (nth n (an_radii ringA) 0) 10 (proj1 Hr) ltac:(lra) p Hp) as [B1 B2]. split; [exact B1|]. eapply Rle_trans; [exact B2|exact S].
  - cbn [enough q1 p_dx p_dy]. rewrite Rabs_right by lra. unfold SpecRayleigh.count.
    set (r := nth n (an_radii ringA) 0) in *. clearbody r.
    assert (Zfloor ((r - (- r + 20 / 2)) / 20) < 7)%Z; [|lia]. apply lt_IZR.
    destruct (Zfloor_spec ((r - (- r + 20 / 2)) / 20)). lra.
Qed.
Lemma ring_exact_call fe : fe = Octave \/ fe = Matlab ->
  exact_annular_call (map fst) fe 1 1 None (round_robin 4 1) ring_call ringA (q1 20 20) 30 [centre 10] delay_single [0].
Proof.
  intros Hfe. constructor; auto; try lia; try (intros xc; apply map_length).
  - exists lvl_ignore, ringp. split; [now left|]. split; [|now apply ring_doc]. unfold names_annular. cbn. repeat split; auto.
  - constructor; [cbn; lia|unfold par_ok; cbn; repeat split; lra| |exact I|exact I|].
    + intros n Hn. cbn in Hn. destruct n as [|[|[|n]]]; cbn; lra || lia.
    + intros j _. unfold ring_tau. cbn [ringA an_F]. replace (0 / p_dt (q1 20 20)) with (IZR 0) by (cbn; field). rewrite Zrint_IZR. lia.
  - destruct (rect_exact_call fe 2 1 (exqt 1) 10 0 exo ltac:(lia)) as [_ _ _ _ _ H]. exact H.
Qed.
Lemma inner_sources : sources (q1 20 20) (GCirc 10) = [flat 400 0 0].
Proof.
  cbn [sources]. unfold disc_xy. cbn [q1 p_dx p_dy].
  replace (midpoints (- (10)) 10 20) with [0].
  2: { unfold midpoints. rewrite (Rcount _ _ _ 1) by (cbn; lra). cbn. unfold mid. f_equal. cbn. lra. }
  cbn [flat_map map app]. replace (10^2 - 0^2) with (10^2) by ring. rewrite sqrt_pow2 by lra.
  replace (midpoints (- (10)) 10 20) with [0].
  2: { unfold midpoints. rewrite (Rcount _ _ _ 1) by (cbn; lra). cbn. unfold mid. f_equal. cbn. lra. }
  cbn [map]. apply cons_eq; [apply flat_eq; cbn; lra|reflexivity].
Qed.
Lemma outer_sources s : In s (sources (q1 20 20) (GCirc 20)) -> (14 <= arrives_at (q1 20 20) 0 (centre 10) s)%Z.
Proof.
  intros Hs. cbn [sources] in Hs. apply in_map_iff in Hs as ([x y] & <- & H).
  unfold disc_xy in H. apply in_flat_map in H as (y' & H1 & H2). apply in_map_iff in H2 as (x' & E & _). injection E as -> ->.
  cbn [q1 p_dx p_dy] in H1.
  assert (Ey : y^2 = 100).
  { unfold midpoints in H1. rewrite (Rcount _ _ _ 2) in H1 by (cbn; lra). cbn [seq map In] in H1.
    unfold mid in H1. cbn [INR] in H1. destruct H1 as [<-|[<-|[]]]; lra. }
  unfold arrives_at, arrival. cbn [flat s_tau q1 p_cp p_dt].
  set (d := SpecRayleigh.dist _ _). replace ((1000 * d / 1000 - 0 + 0) / 1) with d by field.
  assert (Hd : 14 <= d).
  { unfold d, SpecRayleigh.dist, flat. cbn [centre p_x p_y p_z s_x s_y s_z]. rewrite <- (sqrt_pow2 14) at 1 by lra. apply sqrt_le_1_alt.
    replace ((0 - x)^2 + (0 - y)^2 + (10 - 0)^2) with (x^2 + y^2 + 100) by ring. pose proof (pow2_ge_0 x). lra. }
  apply Zrint_mono in Hd. rewrite (Zrint_IZR 14) in Hd. exact Hd.
Qed.
Theorem C114_ring_refuted : forall fe junk, fe = Octave \/ fe = Matlab ->
  exact_annular_call (map fst) fe 1 1 None (round_robin 4 1) ring_call ringA (q1 20 20) 30 [centre 10] delay_single [0] /\
  (forall j, ring_w ringA j = 1) /\ 0 <= p_v (q1 20 20) /\
  exists V, returns (gateway 10 (map fst) fe FArrAnnu 1 1 None (round_robin 4 1) junk ring_call) 30 1 V /\ V 0%nat 11%nat < 0.
Proof.
  intros fe junk Hfe. split; [now apply ring_exact_call|]. split; [reflexivity|]. split; [cbn; lra|].
  eexists. split; [apply (annular_call_returns _ _ _ _ _ _ _ _ _ _ _ _ _ _ _ (ring_exact_call fe Hfe) (ring_defined fe))|]. cbv beta.
  cbn [start_delay nth]. unfold annular_sir. change (num_rings ringA) with 2%nat. cbn [seq map].
  assert (Et : forall j, Zrint (ring_tau (p_cp (q1 20 20)) ringA j / p_dt (q1 20 20)) = 0%Z).
  { intros j. unfold ring_tau. cbn [ringA an_F]. replace (0 / p_dt (q1 20 20)) with (IZR 0) by (cbn; field). apply Zrint_IZR. }
  rewrite !Et. change (Z.of_nat 11 - (0 + 1))%Z with 10%Z. change (0 <=? 10)%Z with true. cbv zeta iota.
  change (ring_w ringA 0) with 1. change (ring_w ringA 1) with 1. cbn [Rsum fold_right].
  unfold ring_sir, disc_sir. change (2 * 1)%nat with 2%nat. change (2 - 1)%nat with 1%nat. change (2 =? 0)%nat with false. change (1 =? 0)%nat with false.
  change (0 =? 0)%nat with true. cbn [andb]. change (nth 0 (an_radii ringA) 0) with 0. change (nth 1 (an_radii ringA) 0) with 10. change (nth 2 (an_radii ringA) 0) with 20.
  assert (E0 : Rleb 0 (/ 2 ^ 52) = true).
  { unfold Rleb. destruct (Rle_dec 0 (/ 2 ^ 52)) as [|H]; [reflexivity|]. exfalso. apply H. left. apply Rinv_0_lt_compat. apply pow_lt. lra. }
  rewrite E0.
  assert (E2 : rayleigh (q1 20 20) 1 0 (centre 10) (sources (q1 20 20) (GCirc 20)) 10 = 0).
  { unfold rayleigh. transitivity (Rsum (map (fun _ : source => 0) (sources (q1 20 20) (GCirc 20)))).
    - apply Rsum_ext. intros s Hs. pose proof (outer_sources s Hs). destruct (Z.eqb_spec (arrives_at (q1 20 20) 0 (centre 10) s) 10); [lia|reflexivity].
    - induction (sources _ _) as [|s l IH]; [reflexivity|]. cbn [map]. change (Rsum (?a :: ?t)) with (a + Rsum t). rewrite IH. ring. }
  rewrite E2, inner_sources. unfold rayleigh. cbn [map Rsum fold_right].
  assert (Ed : SpecRayleigh.dist (centre 10) (flat 400 0 0) = 10).
  { unfold SpecRayleigh.dist, flat. cbn [centre p_x p_y p_z s_x s_y s_z]. replace ((0 - 0)^2 + (0 - 0)^2 + (10 - 0)^2) with (10^2) by ring. apply sqrt_pow2. lra. }
  assert (Ea : arrives_at (q1 20 20) 0 (centre 10) (flat 400 0 0) = 10%Z).
  { unfold arrives_at, arrival. rewrite Ed. cbn [flat s_tau q1 p_cp p_dt]. replace ((1000 * 10 / 1000 - 0 + 0) / 1) with (IZR 10) by field. apply Zrint_IZR. }
  rewrite Ea, Z.eqb_refl. unfold strength. rewrite Ed. cbn [flat s_ds q1 p_v p_dt].
  pose proof PI_RGT_0. assert (0 < 1000 * 1 * 1 * 400 / (2 * PI * 10 * 1)) by (apply Rdiv_lt_0_compat; lra). lra.
Qed.
Print Assumptions C114_ring_refuted.
(** The one-disc case: a disc of 10 mm alone. *)
Definition oneA : annular := {| an_radii := [10]; an_F := RNone; an_W := ANone |}.
Definition onep : annu_par EN :=
  @Build_annu_par EN (map (@Some R) [10]) foc_none [Some 0] false apod_gauss [Some 0] (Some 0).
Definition one_call : list (value EN) :=
  [@VNum EN Full 1 3 (exact (coords [centre 10])); erow [10]; erow [20; 20; 1; 30]; erow [0]; erow [1; 1000; 0];
   VStr "off"; erow [0]; VStr "off"; erow [0]; erow [0]; VStr "ignore"].
Example C114_one_disc_ex : forall fe, fe = Octave \/ fe = Matlab ->
  exact_annular_call (map fst) fe 1 1 None (round_robin 4 1) one_call oneA (q1 20 20) 30 [centre 10] delay_single [0] /\
  all_annular_defined fe 10 (q1 20 20) 30 oneA [centre 10] delay_single [0] /\ 0 <= ring_w oneA 0.
Proof.
  intros fe Hfe. split; [|split; [|cbn; lra]].
  - constructor; auto; try lia; try (intros xc; apply map_length).
    + exists lvl_ignore, onep. split; [now left|]. split.
      * unfold names_annular. cbn. repeat split; auto.
      * apply (@doc_annu EN fe onep (Some 0) 1 (emb_samp (q1 20 20) 30) (Some 0) lvl_ignore 1 (exact (coords [centre 10])) delay_single (exact [0])
           _ _ _ _ _ _ _ _ _ _ [VStr "ignore"]).
        -- destruct Hfe as [-> | ->]; reflexivity.
        -- cbn. lia.
        -- intros _. reflexivity.
        -- intros ->. destruct Hfe; discriminate.
        -- destruct Hfe as [-> | ->]; reflexivity.
        -- exists Full. split; [reflexivity|]. split; [left; reflexivity|]. split; [lia|reflexivity].
        -- apply row_vec.
        -- exists (Some 30). split; [apply row_vec|]. change (ntrunc (n:=EN) (Some 30)) with (Some (Ztruncr (IZR 30))).
           rewrite trunc_IZR. destruct fe; reflexivity.
        -- left. exists (Some 0). split; [apply row_vec|auto].
        -- apply row_vec.
        -- left. exists "off", (Some 0). split; [reflexivity|]. split; [cbn; auto 10|]. split; [discriminate|].
           split; [apply row_vec|reflexivity].
        -- split; [apply row_vec|]. left. split; [reflexivity|]. split; [left; reflexivity|]. auto.
        -- left. exists "ignore". cbn. auto.
    + constructor; [cbn; lia|unfold par_ok; cbn; repeat split; lra| |exact I|exact I|].
      * intros n Hn. cbn in Hn. destruct n as [|n]; cbn; lra || lia.
      * intros j _. unfold ring_tau. cbn [oneA an_F]. replace (0 / p_dt (q1 20 20)) with (IZR 0) by (cbn; field). rewrite Zrint_IZR. lia.
    + destruct (rect_exact_call fe 2 1 (exqt 1) 10 0 exo ltac:(lia)) as [_ _ _ _ _ H]. exact H.
  - intros n Hn. cbn in Hn. destruct n; [|lia]. intros n Hn' Hs. cbn in Hn'. destruct n; [|lia].
    exact (ring_defined fe 0%nat ltac:(cbn; lia) 1%nat ltac:(cbn; lia) ltac:(intros [H _]; discriminate H)).
Qed.
