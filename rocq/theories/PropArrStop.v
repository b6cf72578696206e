(** PropArrStop.v - property theorems C17 and C44 for arrays and the error
    levels 'stop' and 'parallel_stop', when every arrival lies in the record. *)
From Coq Require Import Reals List ZArith Lra Lia Bool.
From Verif Require Import Base BaseLemmas ModelSir ModelArr ModelSmp NumR SpecSmp SpecSir SpecRayleigh SpecArr
  ProofsEnum ProofsR ProofsRayleigh ProofsSirR ProofsErr ProofsArr PropSir PropArr ModelGw SpecGw ProofsGw SpecGwR ProofsGwR PropGwR SpecPhysA.
Import ListNotations.
Open Scope R_scope.

(** Every source of every element arrives inside the record. *)
Definition all_inside (q : rpar) (ntz : Z) (g : geom) (A : array) (delay : R) (o : pos) : Prop :=
  forall n s, (n < length (ar_pos A))%nat -> In s (sources q g) ->
    (0 <= arrives_at q (elem_delay q A delay n) (rel o (elem A n)) s < ntz)%Z.

Lemma arr_elems_stop K fuel q ntz g A lvl delay o :
  arr_defined K fuel q ntz g A delay o -> weighted g = true -> bails lvl -> all_inside q ntz g A delay o ->
  forall ef, (forall (p : pos) (d w : R) h,
    ef (Some (p_x p)) (Some (p_y p)) (Some (p_z p)) (Some d) (Some w) h =
    run_scanner K fuel (scanner_of false (emb_samp q ntz) g w d p) None lvl ntz 0 h) ->
  forall left n0 h e0, (n0 + left = length (ar_pos A))%nat -> length h = Z.to_nat ntz ->
    arr_elems (N:=EN) (emb_arr A) (Some (p_cp q)) (Some (extx A)) (Some (exty A)) (Some (extr A))
      (Some (p_x o)) (Some (p_y o)) (Some (p_z o)) (Some delay) ef (Z.of_nat n0) left (map Some h, e0) =
    Ok (map Some (tab (Z.to_nat ntz) (fun k => nth k h 0 +
          Rsum (map (fun n => rayleigh q (weight A n) (elem_delay q A delay n) (rel o (elem A n)) (sources q g) (Z.of_nat k)) (seq n0 left)))),
        match left with O => e0 | S _ => err_none end).
Proof.
  intros D W L Hin ef Hef. induction left as [|left IH]; intros n0 h e0 Hn Hh.
  - cbn [arr_elems seq map Rsum fold_right]. f_equal. f_equal. f_equal.
    rewrite <- (tab_nth h) at 1. rewrite Hh. apply tab_ext. intros k _. ring.
  - destruct D as [OK DE]. specialize (DE n0 ltac:(lia)) as Dn. destruct Dn as [D1 D2 D3 D4 D5 D6].
    assert (Hcp : p_cp q <> 0) by (destruct D1 as (_ & _ & _ & H); exact H).
    cbn [arr_elems]. rewrite (delays_E A OK (p_cp q) n0) by (auto; lia). cbn [bind].
    rewrite gx_E, gy_E, gz_E by lia. cbn [bind].
    change (nsub (n:=EN) (Some (p_x o)) (Some (p_x (elem A n0)))) with (Some (p_x (rel o (elem A n0)))).
    change (nsub (n:=EN) (Some (p_y o)) (Some (p_y (elem A n0)))) with (Some (p_y (rel o (elem A n0)))).
    change (nsub (n:=EN) (Some (p_z o)) (Some (p_z (elem A n0)))) with (Some (p_z (rel o (elem A n0)))).
    change (nsub (n:=EN) (nsub (n:=EN) (Some delay) (Some (focus_delay (p_cp q) A n0))) (Some (steer_delay (p_cp q) A n0)))
      with (Some (elem_delay q A delay n0)).
    rewrite Hef. rewrite run_scanner_stop_R; auto; try congruence.
    2: { apply forallb_forall. intros s Hs. specialize (Hin n0 s ltac:(lia) Hs). unfold in_rec. lia. }
    cbn [bind snd]. change (SIRError_eqb err_none err_oob) with false. cbv iota.
    replace (clears g) with false by (destruct g; try discriminate; reflexivity).
    replace (Z.of_nat n0 + 1)%Z with (Z.of_nat (S n0)) by lia.
    rewrite IH by (rewrite ?length_tab; lia). f_equal. f_equal.
    + f_equal. apply tab_ext. intros k Hk. rewrite nth_tab by exact Hk. cbn [seq map Rsum fold_right]. unfold Rsum. ring.
    + now destruct left.
Qed.

Lemma sir_arr_stop_R K fuel q ntz g A lvl delay o h :
  arr_defined K fuel q ntz g A delay o -> weighted g = true -> length h = Z.to_nat ntz -> bails lvl -> all_inside q ntz g A delay o ->
  sir_arr K fuel q ntz g A lvl delay o h =
  Some (Ok (map Some (tab (Z.to_nat ntz) (fun k => nth k h 0 + superposition q A g delay o (Z.of_nat k))), err_none)).
Proof.
  intros D W Hh L Hin. pose proof D as [OK _]. pose proof OK as [H1 _ _].
  assert (E : forall ef, (forall (p : pos) (d w : R) h,
      ef (Some (p_x p)) (Some (p_y p)) (Some (p_z p)) (Some d) (Some w) h =
      run_scanner K fuel (scanner_of false (emb_samp q ntz) g w d p) None lvl ntz 0 h) ->
    arr_serial (N:=EN) false ntz 0 (emb_arr A) (Some (p_cp q)) (Some (p_x o)) (Some (p_y o)) (Some (p_z o)) (Some delay) ef (map Some h) =
    Ok (map Some (tab (Z.to_nat ntz) (fun k => nth k h 0 + superposition q A g delay o (Z.of_nat k))), err_none)).
  { intros ef Hef. unfold arr_serial. cbn [bind]. rewrite (max_dim_E A OK). cbn [bind].
    cbn [emb_arr num_elements]. rewrite Nat2Z.id. fold (emb_arr A).
    change 0%Z with (Z.of_nat 0) at 1.
    rewrite (arr_elems_stop K fuel q ntz g A lvl delay o D W L Hin ef Hef) by (auto; lia).
    f_equal. f_equal. destruct (length (ar_pos A)); [lia|]. reflexivity. }
  unfold sir_arr. destruct g; try discriminate; cbn [emb_arr_geom serial attenuated]; f_equal; apply E; intros; reflexivity.
Qed.

(** C17 at 'stop' and 'parallel_stop'. *)
Theorem C17_superposition_stop : forall K fuel q ntz g A lvl delay o h,
  array_shape g -> arr_defined K fuel q ntz g A delay o -> length h = Z.to_nat ntz ->
  lvl = lvl_stop \/ lvl = lvl_parallel_stop -> all_inside q ntz g A delay o ->
  exists out,
    sir_arr K fuel q ntz g A lvl delay o h = Some (Ok (map (@Some R) out, err_none)) /\
    length out = Z.to_nat ntz /\
    forall k, (k < Z.to_nat ntz)%nat -> nth k out 0 = nth k h 0 + superposition q A g delay o (Z.of_nat k).
Proof.
  intros K fuel q ntz g A lvl delay o h S D Hh Hl Hin. eexists. split; [|split].
  - apply sir_arr_stop_R; auto using shape_weighted.
  - apply length_tab.
  - intros k Hk. now rewrite nth_tab.
Qed.
Print Assumptions C17_superposition_stop.

(** C44 for arrays at 'stop', through every front end. *)
Theorem C44_array_stop : forall fuel c2r fe f nlhs hw env sch junk args g A p T q ntz ps dty dl,
  documented fe f args T (emb_samp q ntz) (Some 0 : EN) lvl_stop (Z.of_nat (length ps)) (exact (coords ps)) dty (exact dl) ->
  array_of g p = Some T -> names p A ->
  (0 <= nlhs <= 2)%Z -> (0 <= ntz)%Z -> keeps_length c2r -> (0 <= hw)%Z ->
  runs_to_end hw env (Z.of_nat (length ps)) sch ->
  (forall n, (n < length ps)%nat -> arr_defined (idx_of fe) fuel q ntz g A (start_delay dty dl n) (nth n ps origin) /\
     all_inside q ntz g A (start_delay dty dl n) (nth n ps origin)) ->
  exists H w e,
    gateway fuel c2r fe f nlhs hw env sch junk args = Ok (Some (Returned H ntz (Z.of_nat (length ps)) w e)) /\
    matrix_is H (Z.to_nat ntz) (length ps)
      (fun n k => superposition q A g (start_delay dty dl n) (nth n ps origin) (Z.of_nat k)).
Proof.
  intros fuel c2r fe f nlhs hw env sch junk args g A p T q ntz ps dty dl D HT HA Hlhs Hnt Hk Hhw Hsch Hdef.
  assert (S : array_shape g) by (destruct g; try discriminate HT; exact I).
  eapply exact_call; eauto.
  - intros p' ->. exfalso. destruct g; discriminate HT.
  - intros n Hn o. destruct (Hdef n Hn) as [Hd Hin].
    pose proof (names_serial (idx_of fe) fuel g p A T q ntz lvl_stop (start_delay dty dl n) o (repeat 0 (Z.to_nat ntz)) HA HT) as EN1.
    destruct (C17_superposition_stop (idx_of fe) fuel q ntz g A lvl_stop (start_delay dty dl n) o (repeat 0 (Z.to_nat ntz)) S Hd
                (repeat_length _ _) (or_introl eq_refl) Hin) as (out & Es & Lo & Hv).
    rewrite EN1 in Es. injection Es as Es.
    exists out, err_none. split; [exact Es|]. split; [discriminate|]. split; [exact Lo|].
    intros k Hk'. rewrite (Hv k Hk'), nth_repeat. fold o. ring.
Qed.
Print Assumptions C44_array_stop.
