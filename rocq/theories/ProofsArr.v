(** ProofsArr.v - arrays in exact arithmetic. *)
From Coq Require Import Reals Lra Lia ZArith List Bool.
From Coq Require Import ZifyBool ZifyNat.
From Verif Require Import Base BaseLemmas ModelSir ModelArr NumR SpecSir SpecRayleigh SpecArr ProofsEnum ProofsErr ProofsR
  ProofsRayleigh ProofsSirR.
Import ListNotations.
Open Scope R_scope.

Lemma buf_get_nth {A} (l : list A) k d : (k < length l)%nat -> buf_get l (Z.of_nat k) = Ok (nth k l d).
Proof.
  intros H. unfold buf_get, in_range. replace (_ && _) with true by lia.
  rewrite Nat2Z.id. rewrite (nth_error_nth' l d H). reflexivity.
Qed.
Lemma buf_get_nthZ {A} (l : list A) z d : (0 <= z < Z.of_nat (length l))%Z -> buf_get l z = Ok (nth (Z.to_nat z) l d).
Proof. intros H. rewrite <- (Z2Nat.id z) at 1 by lia. apply buf_get_nth. lia. Qed.

Section A.
  Variable A : array.
  Let P := ar_pos A.
  Let n := length P.

  Lemma G_length : length (G (emb_arr A)) = (3 * n)%nat.
  Proof. cbn [emb_arr G]. rewrite map_length, !app_length, !map_length. subst n P. lia. Qed.

  Lemma elem_nth i : nth i P {| p_x := 0; p_y := 0; p_z := 0 |} = elem A i.
  Proof. reflexivity. Qed.
  Lemma nth_px i : nth i (map p_x P) 0 = p_x (elem A i).
  Proof. change 0 with (p_x {| p_x := 0; p_y := 0; p_z := 0 |}). apply map_nth. Qed.
  Lemma nth_py i : nth i (map p_y P) 0 = p_y (elem A i).
  Proof. change 0 with (p_y {| p_x := 0; p_y := 0; p_z := 0 |}). apply map_nth. Qed.
  Lemma nth_pz i : nth i (map p_z P) 0 = p_z (elem A i).
  Proof. change 0 with (p_z {| p_x := 0; p_y := 0; p_z := 0 |}). apply map_nth. Qed.

  Lemma nth_mapSome (l : list R) i : nth i (map (@Some R) l) (Some 0) = Some (nth i l 0).
  Proof. apply (map_nth (@Some R)). Qed.

  Lemma gx_E i : (i < n)%nat -> gx (N:=EN) (emb_arr A) (Z.of_nat i) = Ok (Some (p_x (elem A i))).
  Proof.
    intros H. unfold gx. assert (L : (i < length (G (N:=EN) (emb_arr A)))%nat) by (rewrite G_length; lia).
    etransitivity; [exact (buf_get_nth _ i (Some 0) L)|]. f_equal.
    cbn [emb_arr G]. etransitivity; [apply nth_mapSome|]. f_equal. fold P. rewrite app_nth1 by (rewrite map_length; exact H). now rewrite nth_px.
  Qed.
  Lemma gy_E i : (i < n)%nat -> gy (N:=EN) (emb_arr A) (Z.of_nat i) = Ok (Some (p_y (elem A i))).
  Proof.
    intros H. unfold gy. cbn [emb_arr num_elements]. fold P. fold n. rewrite <- Nat2Z.inj_add.
    assert (L : (n + i < length (G (N:=EN) (emb_arr A)))%nat) by (rewrite G_length; lia).
    etransitivity; [exact (buf_get_nth _ (n + i) (Some 0) L)|]. f_equal.
    cbn [emb_arr G]. etransitivity; [apply nth_mapSome|]. f_equal. fold P. rewrite app_nth2 by (rewrite map_length; subst n; lia).
    rewrite map_length. fold n. replace (n + i - n)%nat with i by lia.
    rewrite app_nth1 by (rewrite map_length; exact H). now rewrite nth_py.
  Qed.
  Lemma gz_E i : (i < n)%nat -> gz (N:=EN) (emb_arr A) (Z.of_nat i) = Ok (Some (p_z (elem A i))).
  Proof.
    intros H. unfold gz. cbn [emb_arr num_elements]. fold P. fold n.
    replace (2 * Z.of_nat n + Z.of_nat i)%Z with (Z.of_nat (2 * n + i)) by lia.
    assert (L : (2 * n + i < length (G (N:=EN) (emb_arr A)))%nat) by (rewrite G_length; lia).
    etransitivity; [exact (buf_get_nth _ (2 * n + i) (Some 0) L)|]. f_equal.
    cbn [emb_arr G]. etransitivity; [apply nth_mapSome|]. f_equal. fold P. rewrite app_nth2 by (rewrite map_length; subst n; lia).
    rewrite map_length. fold n. rewrite app_nth2 by (rewrite map_length; subst n; lia). rewrite map_length. fold n.
    replace (2 * n + i - n - n)%nat with i by lia. now rewrite nth_pz.
  Qed.

  (** max_abs *)
  Lemma for_from_max (g : Z -> res EN) (f : nat -> R) : forall k i m,
    (forall j, (i <= j < i + k)%nat -> g (Z.of_nat j) = Ok (Some (f j))) ->
    for_from (Z.of_nat i) k (fun i m => do gi <- g i; Ok (if nlt (n:=EN) m (nabs (n:=EN) gi) then nabs (n:=EN) gi else m)) (Some m) =
    Ok (Some (fold_left (fun m j => Rmax m (Rabs (f j))) (seq i k) m)).
  Proof.
    induction k as [|k IH]; intros i m Hg; [reflexivity|].
    cbn [for_from seq fold_left]. rewrite Hg by lia. cbn [bind].
    replace (if nlt (n:=EN) (Some m) (nabs (n:=EN) (Some (f i))) then nabs (n:=EN) (Some (f i)) else Some m) with (Some (Rmax m (Rabs (f i)))).
    - replace (Z.of_nat i + 1)%Z with (Z.of_nat (S i)) by lia. apply IH. intros j Hj. apply Hg. lia.
    - ered. unfold Rltb. destruct (Rlt_dec m (Rabs (f i))).
      + now rewrite Rmax_right by lra.
      + now rewrite Rmax_left by lra.
  Qed.
  Lemma fold_left_max (l : list R) m : fold_left (fun m x => Rmax m (Rabs x)) l m = Rmax m (maxabs l) \/ m < 0.
  Proof.
    destruct (Rlt_dec m 0) as [H|H]; [now right|left]. revert m H.
    induction l as [|x l IH]; intros m H.
    - cbn. rewrite Rmax_left; lra.
    - cbn [fold_left]. unfold maxabs in *. cbn [map fold_right]. rewrite IH.
      + rewrite Rmax_assoc. reflexivity.
      + pose proof (Rmax_l m (Rabs x)). lra.
  Qed.
  Lemma max_abs_E (g : Z -> res EN) (l : list R) : l <> [] ->
    (forall j, (j < length l)%nat -> g (Z.of_nat j) = Ok (Some (nth j l 0))) ->
    max_abs (N:=EN) g (Z.of_nat (length l)) = Ok (Some (maxabs l)).
  Proof.
    intros Hl Hg. destruct l as [|x l]; [contradiction|]. unfold max_abs. cbn [length] in *.
    pose proof (Hg O ltac:(lia)) as E0; change (Z.of_nat 0) with 0%Z in E0; rewrite E0. cbn [bind nth]. replace (Z.to_nat (Z.of_nat (S (length l)) - 1)) with (length l) by lia.
    change (nabs (n:=EN) (Some x)) with (Some (Rabs x)). change 1%Z with (Z.of_nat 1).
    rewrite (for_from_max g (fun j => nth j (x :: l) 0)) by (intros j Hj; apply Hg; lia).
    f_equal. f_equal.
    transitivity (fold_left (fun m y => Rmax m (Rabs y)) l (Rabs x)).
    - clear Hg Hl E0. rewrite <- seq_shift.
      assert (E : forall k m, fold_left (fun m0 j => Rmax m0 (Rabs (nth j (x :: l) 0))) (map S (seq k (length l - k))) m =
                              fold_left (fun m0 y => Rmax m0 (Rabs y)) (map (fun j => nth j l 0) (seq k (length l - k))) m).
      { intros k. generalize (seq k (length l - k)). induction l0 as [|j l0 IH]; intros m; [reflexivity|].
        cbn [fold_left map nth]. apply IH. }
      specialize (E O (Rabs x)). rewrite Nat.sub_0_r in E. rewrite E. f_equal. exact (tab_nth l).
    - destruct (fold_left_max l (Rabs x)) as [E|E]; [|pose proof (Rabs_pos x); lra].
      rewrite E. reflexivity.
  Qed.

  Hypothesis OK : array_ok A.

  Lemma max_dim_E : max_dim_arr (N:=EN) (emb_arr A) = Ok (Some (extx A), Some (exty A), Some (extr A)).
  Proof.
    destruct OK as [H1 _ _]. fold P in H1. unfold max_dim_arr. cbn [emb_arr num_elements]. fold P.
    assert (Hx : max_abs (N:=EN) (gx (N:=EN) (emb_arr A)) (Z.of_nat (length P)) = Ok (Some (extx A))).
    { rewrite <- (map_length p_x P). apply max_abs_E.
      - destruct P; [cbn in H1; lia|discriminate].
      - intros j Hj. rewrite map_length in Hj. rewrite gx_E by exact Hj. now rewrite nth_px. }
    assert (Hy : max_abs (N:=EN) (gy (N:=EN) (emb_arr A)) (Z.of_nat (length P)) = Ok (Some (exty A))).
    { rewrite <- (map_length p_y P). apply max_abs_E.
      - destruct P; [cbn in H1; lia|discriminate].
      - intros j Hj. rewrite map_length in Hj. rewrite gy_E by exact Hj. now rewrite nth_py. }
    rewrite Hx, Hy. cbn [bind]. f_equal. f_equal. ered. rewrite e_sqrt_ok by nra.
    unfold extr. f_equal. f_equal. ring.
  Qed.


  Lemma sqrt2 a b : sqrt (a * a + b * b) = sqrt (a^2 + b^2).
  Proof. f_equal. ring. Qed.
  Lemma sqrt3 a b c : sqrt (a * a + b * b + c * c) = sqrt (a^2 + b^2 + c^2).
  Proof. f_equal. ring. Qed.

  Lemma focus_E cp i : cp <> 0 -> (i < n)%nat ->
    (if FocusMet_is_ud (foc_met (N:=EN) (emb_arr A)) then buf_get (focal (N:=EN) (emb_arr A)) (Z.of_nat i)
        else do f0 <- buf_get (focal (N:=EN) (emb_arr A)) 0;
             Ok (focusing (N:=EN) (foc_met (N:=EN) (emb_arr A)) f0 (Some (p_x (elem A i))) (Some (p_y (elem A i))) (Some (extx A)) (Some (exty A)) (Some (extr A)) (Some cp)))
      = Ok (Some (focus_delay cp A i)).
  Proof.
    intros Hc Hi. destruct OK as [H1 H2 H3]. fold P in H1, H2, H3. fold n in H1, H2, H3.
    unfold focus_delay. cbn [emb_arr foc_met focal].
    destruct (ar_focus A) as [|F|F|F|F|tau]; cbn [FocusMet_is_ud]; [ | | | | |
        (etransitivity; [apply (buf_get_nth _ i (Some 0)); rewrite map_length, H2; exact Hi|]); f_equal; apply nth_mapSome ].
    all: match goal with |- context [buf_get [?x] 0] => change (buf_get [x] 0%Z) with (@Ok EN x) end; cbn [bind focusing];
           ered; rewrite ?e_sqrt_ok by nra; cbn [e2]; rewrite ?e_div_ok by exact Hc; try reflexivity.
    all: do 2 f_equal; rewrite ?sqrt2, ?sqrt3; field; exact Hc.
  Qed.

  Lemma steer_E cp i : cp <> 0 ->
    beamsteering (N:=EN) (steer_met (N:=EN) (emb_arr A)) (theta (N:=EN) (emb_arr A)) (phi (N:=EN) (emb_arr A))
      (Some (p_x (elem A i))) (Some (p_y (elem A i))) (Some (extx A)) (Some (exty A)) (Some cp) = Some (steer_delay cp A i).
  Proof.
    intros Hc. unfold steer_delay, rad. cbn [emb_arr steer_met theta phi].
    destruct (ar_steer A) as [|th|ph|th ph]; cbn [beamsteering]; ered;
      rewrite ?(e_div_ok PI) by lra; cbn [e1 e2]; rewrite ?e_div_ok by exact Hc; cbn [e1 e2]; try reflexivity.
    all: f_equal; field; exact Hc.
  Qed.

  Lemma cos_shift r m : m <> 0 -> cos ((r + m) * PI / m) = - cos (PI * (r / m)).
  Proof.
    intros H. replace ((r + m) * PI / m) with (PI * (r / m) + PI) by (field; exact H). apply neg_cos.
  Qed.

  Lemma weight_E i : (i < n)%nat ->
    (if do_apod (N:=EN) (emb_arr A) then apodization (N:=EN) (apod_met (N:=EN) (emb_arr A)) (Z.of_nat i) (apod (N:=EN) (emb_arr A))
         (Some (p_x (elem A i))) (Some (p_y (elem A i))) (Some (extr A)) (apod_par (N:=EN) (emb_arr A))
     else Ok (nofZ (n:=EN) 1)) = Ok (Some (weight A i)).
  Proof.
    intros Hi. destruct OK as [H1 H2 H3]. fold P in H1, H2, H3. fold n in H1, H2, H3.
    unfold weight, window, rel_radius. cbn [emb_arr do_apod apod_met apod apod_par].
    destruct (ar_apo A) as [|w| |p|p| | | |]; cbn [apodization]; [reflexivity| | | | | | | |].
    { etransitivity; [apply (buf_get_nth _ i (Some 0)); rewrite map_length, H3; exact Hi|]. f_equal. apply nth_mapSome. }
    all: ered; rewrite ?e_sqrt_ok by nra; rewrite ?sqrt2; cbn [e2 e1].
    all: pose proof (sqrt_pos (p_x (elem A i) ^ 2 + p_y (elem A i) ^ 2)) as Hs.
    all: set (r := sqrt (p_x (elem A i) ^ 2 + p_y (elem A i) ^ 2)) in *.
    all: assert (H4 : extr A * extr A <> 0) by (apply Rmult_integral_contrapositive; auto).
    all: rewrite ?(e_div_ok _ (extr A)) by exact H3; cbn [e2 e1].
    all: rewrite ?(e_div_ok _ (extr A * extr A)) by exact H4; cbn [e2 e1].
    all: rewrite ?(e_div_ok 1 2), ?(e_div_ok 25 46) by lra; cbn [e2 e1].
    all: do 2 f_equal.
    - rewrite (Rabs_right r) by lra. reflexivity.
    - f_equal. field. exact H3.
    - f_equal. f_equal. field. exact H3.
    - rewrite cos_shift by exact H3. field.
    - rewrite cos_shift by exact H3. field.
    - field. exact H3.
    - field. exact H3.
  Qed.

  Lemma delays_E cp i : cp <> 0 -> (i < n)%nat ->
    elem_delays (N:=EN) (emb_arr A) (Some cp) (Some (extx A)) (Some (exty A)) (Some (extr A)) (Z.of_nat i) =
    Ok (Some (focus_delay cp A i), Some (steer_delay cp A i), Some (weight A i)).
  Proof.
    intros Hc Hi. unfold elem_delays. rewrite gx_E, gy_E by exact Hi. cbn [bind].
    rewrite focus_E by auto. cbn [bind]. rewrite weight_E by auto. cbn [bind]. rewrite steer_E by auto. reflexivity.
  Qed.
End A.

Definition arr_status (q : rpar) (ntz : Z) (g : geom) (A : array) (delay : R) (o : pos) (lvl : ErrorLevel) (n : nat) : SIRError :=
  rec_status lvl (forallb (in_rec q ntz (elem_delay q A delay n) (rel o (elem A n))) (sources q g)).

Section Loop.
  Variables (K : idx_kind) (fuel : nat) (q : rpar) (ntz : Z) (g : geom) (A : array) (lvl : ErrorLevel) (delay : R) (o : pos).
  Hypothesis D : arr_defined K fuel q ntz g A delay o.
  Hypothesis W : weighted g = true.
  Hypothesis L : no_bail lvl.

  (** the element function with displaced point *)
  Variable ef : EN -> EN -> EN -> EN -> EN -> list EN -> res (list EN * SIRError).
  Hypothesis Hef : forall (p : pos) (d w : R) h,
    ef (Some (p_x p)) (Some (p_y p)) (Some (p_z p)) (Some d) (Some w) h =
    run_scanner K fuel (scanner_of false (emb_samp q ntz) g w d p) None lvl ntz 0 h.

  Lemma rec_status_not_oob b : rec_status lvl b <> err_oob.
  Proof. unfold rec_status. destruct b; destruct L as [ -> | [ -> | -> ] ]; cbn; discriminate. Qed.

  Lemma arr_elems_R : forall left n0 h e0, (n0 + left = length (ar_pos A))%nat -> length h = Z.to_nat ntz ->
    arr_elems (N:=EN) (emb_arr A) (Some (p_cp q)) (Some (extx A)) (Some (exty A)) (Some (extr A))
      (Some (p_x o)) (Some (p_y o)) (Some (p_z o)) (Some delay) ef (Z.of_nat n0) left (map Some h, e0) =
    Ok (map Some (tab (Z.to_nat ntz) (fun k => nth k h 0 +
          Rsum (map (fun n => rayleigh q (weight A n) (elem_delay q A delay n) (rel o (elem A n)) (sources q g) (Z.of_nat k)) (seq n0 left)))),
        match left with O => e0 | S l => arr_status q ntz g A delay o lvl (n0 + l) end).
  Proof.
    induction left as [|left IH]; intros n0 h e0 Hn Hh.
    - cbn [arr_elems seq map Rsum fold_right]. f_equal. f_equal. f_equal.
      rewrite <- (tab_nth h) at 1. rewrite Hh. apply tab_ext. intros k _. ring.
    - destruct D as [OK DE]. specialize (DE n0 ltac:(lia)) as Dn. destruct Dn as [D1 D2 D3 D4 D5 D6].
      assert (Hcp : p_cp q <> 0) by (destruct D1 as (_ & _ & _ & H); exact H).
      cbn [arr_elems]. rewrite (delays_E A OK (p_cp q) n0) by (auto; lia). cbn [bind].
      rewrite gx_E, gy_E, gz_E by lia. cbn [bind].
      change (nsub (n:=EN) (Some (p_x o)) (Some (p_x (elem A n0)))) with (Some (p_x (rel o (elem A n0)))).
      change (nsub (n:=EN) (Some (p_y o)) (Some (p_y (elem A n0)))) with (Some (p_y (rel o (elem A n0)))).
      change (nsub (n:=EN) (Some (p_z o)) (Some (p_z (elem A n0)))) with (Some (p_z (rel o (elem A n0)))).
      change (nsub (n:=EN) (nsub (n:=EN) (Some delay) (Some (focus_delay (p_cp q) A n0))) (Some (steer_delay (p_cp q) A n0)))
        with (Some (elem_delay q A delay n0)).
      rewrite Hef. rewrite run_scanner_R by (auto; congruence). cbn [bind snd].
      replace (SIRError_eqb _ err_oob) with false
        by (pose proof (rec_status_not_oob (forallb (in_rec q ntz (elem_delay q A delay n0) (rel o (elem A n0))) (sources q g)));
            destruct (rec_status _ _); try reflexivity; congruence).
      replace (clears g) with false by (destruct g; try discriminate; reflexivity).
      replace (Z.of_nat n0 + 1)%Z with (Z.of_nat (S n0)) by lia.
      rewrite IH by (rewrite ?length_tab; lia). f_equal. f_equal.
      + f_equal. apply tab_ext. intros k Hk. rewrite nth_tab by exact Hk. cbn [seq map Rsum fold_right]. unfold Rsum. ring.
      + destruct left; [|f_equal; lia]. unfold arr_status. now rewrite Nat.add_0_r.
  Qed.
End Loop.

Theorem sir_arr_R K fuel q ntz g A lvl delay o h :
  arr_defined K fuel q ntz g A delay o -> weighted g = true -> length h = Z.to_nat ntz -> no_bail lvl ->
  sir_arr K fuel q ntz g A lvl delay o h =
  Some (Ok (map Some (tab (Z.to_nat ntz) (fun k => nth k h 0 + superposition q A g delay o (Z.of_nat k))),
            arr_status q ntz g A delay o lvl (length (ar_pos A) - 1))).
Proof.
  intros D W Hh L. pose proof D as [OK _]. pose proof OK as [H1 _ _].
  assert (E : forall ef, (forall (p : pos) (d w : R) h,
      ef (Some (p_x p)) (Some (p_y p)) (Some (p_z p)) (Some d) (Some w) h =
      run_scanner K fuel (scanner_of false (emb_samp q ntz) g w d p) None lvl ntz 0 h) ->
    arr_serial (N:=EN) false ntz 0 (emb_arr A) (Some (p_cp q)) (Some (p_x o)) (Some (p_y o)) (Some (p_z o)) (Some delay) ef (map Some h) =
    Ok (map Some (tab (Z.to_nat ntz) (fun k => nth k h 0 + superposition q A g delay o (Z.of_nat k))),
            arr_status q ntz g A delay o lvl (length (ar_pos A) - 1))).
  { intros ef Hef. unfold arr_serial. cbn [bind]. rewrite (max_dim_E A OK). cbn [bind].
    cbn [emb_arr num_elements]. rewrite Nat2Z.id. fold (emb_arr A).
    change 0%Z with (Z.of_nat 0) at 1.
    rewrite (arr_elems_R K fuel q ntz g A lvl delay o D W L ef Hef) by (auto; lia).
    f_equal. f_equal. destruct (length (ar_pos A)); [lia|]. f_equal. lia. }
  unfold sir_arr. destruct g; try discriminate; cbn [emb_arr_geom serial attenuated]; f_equal; apply E; intros; reflexivity.
Qed.
