(** PropAtt.v - property theorems about the attenuating medium (C23). *)
From Coq Require Import Reals Lra Lia ZArith List Bool.
From Coq Require Import ZifyBool ZifyNat.
From Verif Require Import Base BaseLemmas ModelSir ModelArr NumR SpecSir SpecRayleigh SpecArr SpecDft SpecConv SpecAtt
  ProofsLoop ProofsEnum ProofsR ProofsRayleigh ProofsSirR ProofsArr ProofsAtt PropSir PropArr.
Import ListNotations.
Open Scope R_scope.

(** C23: with attenuation coefficient 0 the attenuated single-element call
    gives the same samples and the same status as the lossless call, for every
    transducer, error level and previous content of the buffer. *)
Theorem C23_zero_alpha : forall K fuel q ntz g lvl delay o h,
  defined K fuel q ntz g delay o -> (0 < ntz)%Z -> length h = Z.to_nat ntz ->
  sir_att K fuel q ntz 0 g lvl delay o h = sir K fuel q ntz g lvl delay o h.
Proof.
  intros K fuel q ntz g lvl delay o h D Hn Hh.
  rewrite sir_att_scanner, sir_scanner.
  destruct (run_scanner_att_0 K fuel q g 1 delay o lvl ntz h D (fun _ => eq_refl) Hn Hh) as (h' & e & _ & E1 & E2).
  etransitivity; [exact E1|]. symmetry. exact E2.
Qed.
Print Assumptions C23_zero_alpha.

(** ... and for arrays of rectangles, discs and cylinder segments, from a zero
    buffer (the attenuated array functions for rectangles and discs clear the
    buffer, the lossless ones do not). *)
Lemma arr_att_0 K fuel q ntz g A lvl delay o ef ef' h :
  weighted g = true -> arr_defined K fuel q ntz g A delay o -> (0 < ntz)%Z -> length h = Z.to_nat ntz ->
  (forall (p : pos) (d w : R) h, ef (Some (p_x p)) (Some (p_y p)) (Some (p_z p)) (Some d) (Some w) h =
      run_scanner K fuel (scanner_of true (emb_samp q ntz) g w d p) (Some (exact_att ntz (p_dt q) 0)) lvl ntz 0 h) ->
  (forall (p : pos) (d w : R) h, ef' (Some (p_x p)) (Some (p_y p)) (Some (p_z p)) (Some d) (Some w) h =
      run_scanner K fuel (scanner_of false (emb_samp q ntz) g w d p) None lvl ntz 0 h) ->
  arr_serial (N:=EN) false ntz 0 (emb_arr A) (Some (p_cp q)) (Some (p_x o)) (Some (p_y o)) (Some (p_z o)) (Some delay) ef (map Some h) =
  arr_serial (N:=EN) false ntz 0 (emb_arr A) (Some (p_cp q)) (Some (p_x o)) (Some (p_y o)) (Some (p_z o)) (Some delay) ef' (map Some h).
Proof.
  intros W D Hn Hh H1 H2. destruct D as [OK DE]. pose proof OK as [Hone _ _].
  unfold arr_serial. cbn [bind]. rewrite (max_dim_E A OK). cbn [bind].
  cbn [emb_arr num_elements]. rewrite Nat2Z.id. fold (emb_arr A).
  change 0%Z with (Z.of_nat 0) at 1 2.
  assert (Hcp : p_cp q <> 0).
  { destruct (DE O ltac:(lia)) as [D1 _ _ _ _ _]. apply D1. }
  apply (elems_agree q ntz A delay o OK Hcp); auto.
  intros n h0 Hn0 Hh0.
  destruct (run_scanner_att_0 K fuel q g (weight A n) (elem_delay q A delay n) (rel o (elem A n)) lvl ntz h0
    (DE n Hn0) ltac:(congruence) Hn Hh0) as (h' & e & L & E1 & E2).
  exists h', e. split; [exact L|]. split.
  - etransitivity; [apply H1|exact E1].
  - etransitivity; [apply H2|exact E2].
Qed.

Lemma clear_first ntz p c xo yo zo d ef (h : list EN) : length h = Z.to_nat ntz ->
  arr_serial (N:=EN) true ntz 0 p c xo yo zo d ef h =
  arr_serial (N:=EN) false ntz 0 p c xo yo zo d ef (map (@Some R) (repeat 0 (Z.to_nat ntz))).
Proof.
  intros Hh. unfold arr_serial. rewrite (clear_zeros (N:=EN)) by exact Hh. cbn [bind].
  unfold zeros. change (nofZ (n:=EN) 0) with (Some 0). now rewrite <- (map_repeat Some 0).
Qed.

Theorem C23_zero_alpha_array : forall K fuel q ntz g A lvl delay o,
  array_shape g -> arr_defined K fuel q ntz g A delay o -> (0 < ntz)%Z ->
  let z := repeat 0 (Z.to_nat ntz) in
  sir_arr_att K fuel q ntz 0 g A lvl delay o z = sir_arr K fuel q ntz g A lvl delay o z /\
  sir_arr K fuel q ntz g A lvl delay o z <> None.
Proof.
  intros K fuel q ntz g A lvl delay o S D Hn z.
  assert (Hz : length z = Z.to_nat ntz) by apply repeat_length.
  split; [|destruct g; cbn in S; try contradiction; discriminate].
  unfold sir_arr_att, sir_arr.
  destruct g; cbn in S; try contradiction; cbn [emb_arr_geom serial attenuated]; f_equal.
  - etransitivity; [apply clear_first; now rewrite map_length|].
    eapply (arr_att_0 K fuel q ntz (GRect a b) A lvl delay o _ _ z eq_refl D Hn Hz); intros; reflexivity.
  - etransitivity; [apply clear_first; now rewrite map_length|].
    eapply (arr_att_0 K fuel q ntz (GCirc rad) A lvl delay o _ _ z eq_refl D Hn Hz); intros; reflexivity.
  - eapply (arr_att_0 K fuel q ntz (GCylind a b Rcurv) A lvl delay o _ _ z eq_refl D Hn Hz); intros; reflexivity.
Qed.
Print Assumptions C23_zero_alpha_array.

(** For any attenuation: every source point that arrives inside the record adds
    its strength times the Green's function of its distance and arrival sample
    to all samples. *)
Theorem C23_response : forall K fuel q ntz alpha g lvl delay o h,
  defined K fuel q ntz g delay o -> (0 < ntz)%Z -> length h = Z.to_nat ntz -> lvl = lvl_ignore \/ lvl = lvl_warn ->
  exists out e,
    sir_att K fuel q ntz alpha g lvl delay o h = Ok (map (@Some R) out, e) /\
    length out = Z.to_nat ntz /\
    (e = err_none <-> forall s, In s (sources q g) -> (0 <= arrives_at q delay o s < ntz)%Z) /\
    forall k, (k < Z.to_nat ntz)%nat ->
      nth k out 0 = old g h k + attenuated_sum q ntz alpha 1 delay o (sources q g) k.
Proof.
  intros K fuel q ntz alpha g lvl delay o h [] Hn Hh Hl. do 2 eexists. split; [|split; [|split]].
  - rewrite sir_att_scanner, run_scanner_any by auto. reflexivity.
  - apply length_tab.
  - unfold level_status. destruct (forallb _ _) eqn:F.
    + rewrite forallb_forall in F. split; [|reflexivity]. intros _ s Hs. specialize (F s Hs). unfold inside in F. lia.
    + split; [intros H; destruct Hl as [ -> | -> ]; discriminate|]. intros H.
      assert (T : forallb (inside q ntz delay o) (sources q g) = true).
      { apply forallb_forall. intros s Hs. specialize (H s Hs). unfold inside. lia. }
      congruence.
  - intros k Hk. rewrite nth_tab by exact Hk. rewrite old_clears.
    replace (heard lvl q ntz delay o (sources q g)) with (sources q g) by (destruct Hl as [-> | ->]; reflexivity).
    reflexivity.
Qed.
Print Assumptions C23_response.

(** The same for arrays. *)
Theorem C23_response_array : forall K fuel q ntz alpha g A lvl delay o h,
  array_shape g -> arr_defined K fuel q ntz g A delay o -> (0 < ntz)%Z -> length h = Z.to_nat ntz ->
  lvl = lvl_ignore \/ lvl = lvl_warn ->
  exists out e,
    sir_arr_att K fuel q ntz alpha g A lvl delay o h = Some (Ok (map (@Some R) out, e)) /\
    length out = Z.to_nat ntz /\
    forall k, (k < Z.to_nat ntz)%nat ->
      nth k out 0 = old_arr g h k + attenuated_superposition q ntz alpha A g delay o k.
Proof.
  intros K fuel q ntz alpha g A lvl delay o h S D Hn Hh Hl.
  destruct D as [OK DE]. pose proof OK as [Hone _ _].
  assert (Hcp : p_cp q <> 0).
  { destruct (DE O ltac:(lia)) as [D1 _ _ _ _ _]. apply D1. }
  set (St := fun n => level_status lvl (forallb (inside q ntz (elem_delay q A delay n) (rel o (elem A n))) (sources q g))).
  assert (E : forall ef (h : list R), length h = Z.to_nat ntz ->
    (forall (p : pos) (d w : R) h, ef (Some (p_x p)) (Some (p_y p)) (Some (p_z p)) (Some d) (Some w) h =
      run_scanner K fuel (scanner_of true (emb_samp q ntz) g w d p) (Some (exact_att ntz (p_dt q) alpha)) lvl ntz 0 h) ->
    arr_serial (N:=EN) false ntz 0 (emb_arr A) (Some (p_cp q)) (Some (p_x o)) (Some (p_y o)) (Some (p_z o)) (Some delay) ef (map Some h) =
    Ok (map (@Some R) (tab (Z.to_nat ntz) (fun k => nth k h 0 + attenuated_superposition q ntz alpha A g delay o k)),
        St (length (ar_pos A) - 1)%nat)).
  { intros ef h0 Hh0 Hef. unfold arr_serial. cbn [bind]. rewrite (max_dim_E A OK). cbn [bind].
    cbn [emb_arr num_elements]. rewrite Nat2Z.id. fold (emb_arr A). change 0%Z with (Z.of_nat 0) at 1.
    etransitivity.
    - apply (elems_sum q ntz A delay o OK Hcp ef
        (fun n k => attenuated_sum q ntz alpha (weight A n) (elem_delay q A delay n) (rel o (elem A n)) (sources q g) k) St); auto.
      + intros n h1 Hn1 Hh1. etransitivity; [apply Hef|]. destruct (DE n Hn1) as [D1 D2 D3 D4 D5 D6].
        etransitivity; [apply run_scanner_any; auto; destruct g; cbn in S; try contradiction; discriminate|].
        f_equal. f_equal. f_equal. apply tab_ext. intros k Hk.
        replace (clears g) with false by (destruct g; cbn in S; try contradiction; reflexivity).
        do 2 f_equal. destruct Hl as [-> | ->]; reflexivity.
      + intros n. unfold St, level_status. destruct (forallb _ _); [discriminate|]. destruct Hl as [-> | ->]; discriminate.
    - f_equal. f_equal. destruct (length (ar_pos A)) as [|m]; [lia|]. f_equal. lia. }
  exists (tab (Z.to_nat ntz) (fun k => old_arr g h k + attenuated_superposition q ntz alpha A g delay o k)).
  eexists. split; [|split; [apply length_tab|intros k Hk; now rewrite nth_tab]].
  unfold sir_arr_att. destruct g; cbn in S; try contradiction; cbn [emb_arr_geom serial attenuated]; f_equal.
  - etransitivity; [apply clear_first; now rewrite map_length|].
    etransitivity; [apply E; [apply repeat_length|intros; reflexivity]|]. f_equal. f_equal. f_equal.
    apply tab_ext. intros k Hk. f_equal. apply nth_repeat.
  - etransitivity; [apply clear_first; now rewrite map_length|].
    etransitivity; [apply E; [apply repeat_length|intros; reflexivity]|]. f_equal. f_equal. f_equal.
    apply tab_ext. intros k Hk. f_equal. apply nth_repeat.
  - apply E; [exact Hh|intros; reflexivity].
Qed.
Print Assumptions C23_response_array.

(** Linear in the source strength: multiplying the velocity by c multiplies
    what the call adds by c. *)
Theorem C23_linear : forall c K fuel q ntz alpha g lvl delay o h,
  defined K fuel q ntz g delay o -> (0 < ntz)%Z -> length h = Z.to_nat ntz -> lvl = lvl_ignore \/ lvl = lvl_warn ->
  exists out out' e,
    sir_att K fuel q ntz alpha g lvl delay o h = Ok (map (@Some R) out, e) /\
    sir_att K fuel (scale_v c q) ntz alpha g lvl delay o h = Ok (map (@Some R) out', e) /\
    forall k, (k < Z.to_nat ntz)%nat -> nth k out' 0 - old g h k = c * (nth k out 0 - old g h k).
Proof.
  intros c K fuel q ntz alpha g lvl delay o h D Hn Hh Hl.
  pose proof (defined_scale c K fuel q ntz g delay o D) as D'.
  destruct D as [D1 D2 D3 D4 D5 D6]. destruct D' as [E1 E2 E3 E4 E5 E6].
  do 3 eexists. split; [|split].
  - rewrite sir_att_scanner, run_scanner_any by auto. reflexivity.
  - rewrite sir_att_scanner, run_scanner_any by auto. rewrite sources_scale. reflexivity.
  - intros k Hk. rewrite !nth_tab by exact Hk. rewrite !old_clears.
    replace (heard lvl (scale_v c q) ntz delay o (sources q g)) with (sources q g)
      by (destruct Hl as [-> | ->]; reflexivity).
    replace (heard lvl q ntz delay o (sources q g)) with (sources q g) by (destruct Hl as [-> | ->]; reflexivity).
    assert (Hs : attenuated_sum (scale_v c q) ntz alpha 1 delay o (sources q g) k = c * attenuated_sum q ntz alpha 1 delay o (sources q g) k).
    { unfold attenuated_sum. induction (sources q g) as [|s l IH]; [cbn; ring|].
      cbn [map Rsum fold_right]. unfold Rsum in IH. rewrite IH. rewrite Rmult_plus_distr_l. f_equal.
      change (inside (scale_v c q) ntz delay o s) with (inside q ntz delay o s).
      destruct (inside q ntz delay o s); [|ring].
      change (arrives_at (scale_v c q) delay o s) with (arrives_at q delay o s).
      change (p_dt (scale_v c q)) with (p_dt q). unfold strength. cbn [scale_v p_v p_dt].
      match goal with |- _ * ?G = _ => generalize G end. intros G. unfold Rdiv. ring. }
    rewrite Hs. ring.
Qed.
Print Assumptions C23_linear.

(** Whatever the inverse transform and the arithmetic: the result does not
    depend on what the work buffer held (each thread reuses one), the spectrum
    is Hermitian, and the call adds ai * x[i] to sample i, where x depends only
    on the distance and the arrival sample. *)
Theorem C23_work_buffer : forall (N : Num) (p : att_plan N) r it xc0,
  (0 < att_len p)%Z -> length xc0 = Z.to_nat (att_len p) ->
  exists xc, att_spectrum p r it xc0 = Ok xc /\ length xc = Z.to_nat (att_len p) /\
    (forall xc1, length xc1 = Z.to_nat (att_len p) -> att_spectrum p r it xc1 = Ok xc) /\
    nth 0 xc (nofZ 0, nofZ 0) = (nofZ 1, nofZ 0) /\
    forall k, (0 < k)%Z -> (2 * k < att_len p)%Z ->
      nth (Z.to_nat (att_len p - k)) xc (nofZ 0, nofZ 0) =
      (fst (nth (Z.to_nat k) xc (nofZ 0, nofZ 0)), nopp (snd (nth (Z.to_nat k) xc (nofZ 0, nofZ 0)))).
Proof.
  intros N p r it xc0 Hp Hl. exists (spectrum p r it). split; [now apply att_spectrum_eq|].
  split; [unfold spectrum; now rewrite map_length, seq_length|].
  split; [intros xc1 H1; now apply att_spectrum_eq|]. split.
  - rewrite nth_spectrum by lia. reflexivity.
  - intros k H0 H1. rewrite !nth_spectrum by lia. unfold spectrum_bin.
    replace (Z.of_nat (Z.to_nat k) =? 0)%Z with false by lia.
    replace (Z.of_nat (Z.to_nat (att_len p - k)) =? 0)%Z with false by lia.
    replace (2 * Z.of_nat (Z.to_nat k) <? att_len p)%Z with true by lia.
    replace (2 * Z.of_nat (Z.to_nat (att_len p - k)) <? att_len p)%Z with false by lia.
    replace (att_len p - Z.of_nat (Z.to_nat (att_len p - k)))%Z with (Z.of_nat (Z.to_nat k)) by lia.
    destruct (att_bin p r it (Z.of_nat (Z.to_nat k))) as [re im]. reflexivity.
Qed.
Print Assumptions C23_work_buffer.

Theorem C23_adds : forall (N : Num) (p : att_plan N) it r,
  (0 < att_len p)%Z -> (forall X, length X = Z.to_nat (att_len p) -> length (att_c2r p X) = Z.to_nat (att_len p)) ->
  exists x, length x = Z.to_nat (att_len p) /\
    forall ai h, length h = Z.to_nat (att_len p) ->
      exists h', emit_att p 0 it r ai h = Ok h' /\ length h' = length h /\
        forall k, (k < length h)%nat -> nth k h' (nofZ 0) = nadd (nth k h (nofZ 0)) (nmul ai (nth k x (nofZ 0))).
Proof.
  intros N p it r Hp Hc. exists (att_c2r p (spectrum p r it)).
  assert (Hx : length (att_c2r p (spectrum p r it)) = Z.to_nat (att_len p)).
  { apply Hc. unfold spectrum. now rewrite map_length, seq_length. }
  split; [exact Hx|]. intros ai h Hh. now apply emit_att_eq.
Qed.
Print Assumptions C23_adds.

(** The hypotheses are met by the case of PropSir.v: 2 x 1 mm rectangle, ten
    samples, and by the focused three element array of PropArr.v. *)
Example C23_ex : forall K lvl, sir_att K 10 exq 10 0 (GRect 2 1) lvl 0 exo (repeat 0 10) = sir K 10 exq 10 (GRect 2 1) lvl 0 exo (repeat 0 10).
Proof. intros K lvl. apply C23_zero_alpha; [apply ex_defined|lia|reflexivity]. Qed.
Example C23_ex_response : forall K alpha, exists out e,
  sir_att K 10 exq 10 alpha (GRect 2 1) lvl_warn 0 exo (repeat 0 10) = Ok (map (@Some R) out, e) /\
  forall k, (k < 10)%nat -> nth k out 0 =
    2 * strength exq 1 exo (flat 1 (1 / 2) 0) * green 10 1 alpha (dist exo (flat 1 (1 / 2) 0)) 5 k.
Proof.
  intros K alpha.
  destruct (C23_response K 10 exq 10 alpha (GRect 2 1) lvl_warn 0 exo (repeat 0 10)) as (out & e & E & _ & _ & H);
    [apply ex_defined|lia|reflexivity|auto|].
  exists out, e. split; [exact E|]. intros k Hk. rewrite (H k) by (cbn; lia). unfold attenuated_sum.
  cbn [old]. rewrite nth_repeat. rewrite ex_sources.
  assert (I1 : arrives_at exq 0 exo (flat 1 (-1 / 2) 0) = 5%Z) by (apply ex_arr_at; [rewrite ex_sources; cbn; auto|lra]).
  assert (I2 : arrives_at exq 0 exo (flat 1 (1 / 2) 0) = 5%Z) by (apply ex_arr_at; [rewrite ex_sources; cbn; auto|lra]).
  cbn [map]. unfold inside. rewrite I1, I2.
  assert (Ed : dist exo (flat 1 (-1 / 2) 0) = dist exo (flat 1 (1 / 2) 0)).
  { unfold dist, flat. cbn [s_x s_y s_z exo p_x p_y p_z]. f_equal. field. }
  unfold strength at 1. rewrite Ed. fold (strength exq 1 exo (flat 1 (1 / 2) 0)).
  change (s_ds (flat 1 (-1 / 2) 0)) with (s_ds (flat 1 (1 / 2) 0)).
  fold (strength exq 1 exo (flat 1 (1 / 2) 0)).
  change (Z.to_nat 10) with 10%nat. change (p_dt exq) with 1.
  cbn [Z.leb Z.ltb Z.compare andb Rsum fold_right Pos.compare Pos.compare_cont]. ring.
Qed.
Example C23_ex_array : forall K lvl,
  sir_arr_att K 10 exq 10 0 (GRect 2 1) (exA (FX 5) SNone (AGauss 1)) lvl 0 exo (repeat 0 10) =
  sir_arr K 10 exq 10 (GRect 2 1) (exA (FX 5) SNone (AGauss 1)) lvl 0 exo (repeat 0 10).
Proof. intros K lvl. apply C23_zero_alpha_array; [exact I|apply C17_ex|lia]. Qed.
