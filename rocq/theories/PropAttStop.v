(** PropAttStop.v - property theorem C115 for the error level 'stop', when every
    arrival lies inside the record. *)
From Coq Require Import Reals List ZArith Lra Lia.
From Verif Require Import Base BaseLemmas ModelSir ModelArr ModelSmp NumR SpecSmp SpecSir SpecRayleigh SpecArr ModelConv
  ModelGw SpecGw SpecGwR ProofsR ProofsRayleigh ProofsSirR ProofsArr PropSir PropArr PropErr ProofsGwR PropGwR SpecPhys SpecPhysA ProofsPhys PropPhys PropArrStop
  SpecDft ProofsDft ProofsDft2 SpecAtt ProofsAtt PropAtt SpecAtt2 ProofsAtt2.
From Coq Require Import ZifyBool ZifyNat.
Import ListNotations.
Open Scope R_scope.

Lemma upto_all q ntz delay o l : forallb (inside q ntz delay o) l = true -> upto q ntz delay o l = l.
Proof.
  induction l as [|s l IH]; [reflexivity|]. cbn [forallb upto]. intros H. apply andb_prop in H as [H1 H2]. rewrite H1. now rewrite IH.
Qed.
Lemma inside_all q ntz delay o l : (forall s, In s l -> (0 <= arrives_at q delay o s < ntz)%Z) -> forallb (inside q ntz delay o) l = true.
Proof. intros H. apply forallb_forall. intros s Hs. specialize (H s Hs). unfold inside. lia. Qed.

Theorem C115_single_stop : forall fuel fe f nlhs hw env sch junk args alpha g q ntz ps dty dl,
  documented fe f args (emb_geom g) (emb_samp q ntz) (Some alpha : EN) lvl_stop (Z.of_nat (length ps)) (exact (coords ps)) dty (exact dl) ->
  / 2^52 < alpha -> (0 <= nlhs <= 2)%Z -> (0 < ntz)%Z -> (0 <= hw)%Z -> runs_to_end hw env (Z.of_nat (length ps)) sch ->
  (forall n, (n < length ps)%nat -> defined (idx_of fe) fuel q ntz g (start_delay dty dl n) (nth n ps origin) /\
     forall s, In s (sources q g) -> (0 <= arrives_at q (start_delay dty dl n) (nth n ps origin) s < ntz)%Z) ->
  returns (gateway fuel exact_ifft fe f nlhs hw env sch junk args) ntz (length ps)
    (fun n k => attenuated_sum q ntz alpha 1 (start_delay dty dl n) (nth n ps origin) (sources q g) k).
Proof.
  intros fuel fe f nlhs hw env sch junk args alpha g q ntz ps dty dl D Ha Hl Hnt Hhw Hsch HD.
  eapply exact_call_att; eauto.
  - intros p X. exfalso. destruct g; discriminate X.
  - intros n Hn o. destruct (HD n Hn) as [[D1 D2 D3 D4 D5 D6] Hin].
    set (C := fun k => attenuated_sum q ntz alpha 1 (start_delay dty dl n) (nth n ps origin) (sources q g) k).
    exists (tab (Z.to_nat ntz) (fun k => (if clears g then 0 else nth k (repeat 0 (Z.to_nat ntz)) 0) + C k)), err_none.
    split; [|split; [discriminate|split; [apply length_tab|]]].
    + etransitivity; [apply sir_att_scanner|].
      rewrite run_scanner_any by (auto using repeat_length). rewrite inside_all by exact Hin.
      cbn [level_status heard]. rewrite upto_all by (apply inside_all; exact Hin). reflexivity.
    + intros k Hk. rewrite nth_tab, nth_repeat by exact Hk. unfold C. destruct (clears g); ring.
Qed.
Print Assumptions C115_single_stop.

Theorem C115_array_stop : forall fuel fe f nlhs hw env sch junk args alpha g A p T q ntz ps dty dl,
  documented fe f args T (emb_samp q ntz) (Some alpha : EN) lvl_stop (Z.of_nat (length ps)) (exact (coords ps)) dty (exact dl) ->
  array_of g p = Some T -> names p A ->
  / 2^52 < alpha -> (0 <= nlhs <= 2)%Z -> (0 < ntz)%Z -> (0 <= hw)%Z -> runs_to_end hw env (Z.of_nat (length ps)) sch ->
  (forall n, (n < length ps)%nat -> arr_defined (idx_of fe) fuel q ntz g A (start_delay dty dl n) (nth n ps origin) /\
     all_inside q ntz g A (start_delay dty dl n) (nth n ps origin)) ->
  returns (gateway fuel exact_ifft fe f nlhs hw env sch junk args) ntz (length ps)
    (fun n k => attenuated_superposition q ntz alpha A g (start_delay dty dl n) (nth n ps origin) k).
Proof.
  intros fuel fe f nlhs hw env sch junk args alpha g A p T q ntz ps dty dl D HT HA Ha Hl Hnt Hhw Hsch HD.
  assert (S : array_shape g) by (destruct g; try discriminate HT; exact I).
  eapply exact_call_att; eauto.
  - intros p' ->. exfalso. destruct g; discriminate HT.
  - intros n Hn o0. destruct (HD n Hn) as [[OK DE] Hin].
    set (o := nth n ps origin) in *. set (delay := start_delay dty dl n) in *.
    assert (Hcp : p_cp q <> 0).
    { pose proof OK as [Hone _ _]. destruct (DE O ltac:(lia)) as [D1 _ _ _ _ _]. apply D1. }
    pose proof OK as [Hone _ _].
    assert (E : forall ef (h : list R), length h = Z.to_nat ntz ->
      (forall (p : pos) (d w : R) h, ef (Some (p_x p)) (Some (p_y p)) (Some (p_z p)) (Some d) (Some w) h =
        run_scanner (idx_of fe) fuel (scanner_of true (emb_samp q ntz) g w d p) (Some (exact_att ntz (p_dt q) alpha)) lvl_stop ntz 0 h) ->
      arr_serial (N:=EN) false ntz 0 (emb_arr A) (Some (p_cp q)) (Some (p_x o)) (Some (p_y o)) (Some (p_z o)) (Some delay) ef (map Some h) =
      Ok (map (@Some R) (tab (Z.to_nat ntz) (fun k => nth k h 0 + attenuated_superposition q ntz alpha A g delay o k)), err_none)).
    { intros ef h0 Hh0 Hef. unfold arr_serial. cbn [bind]. rewrite (max_dim_E A OK). cbn [bind].
      cbn [emb_arr num_elements]. rewrite Nat2Z.id. fold (emb_arr A). change 0%Z with (Z.of_nat 0) at 1.
      etransitivity.
      - apply (elems_sum q ntz A delay o OK Hcp ef
          (fun n k => attenuated_sum q ntz alpha (weight A n) (elem_delay q A delay n) (rel o (elem A n)) (sources q g) k) (fun _ => err_none)); auto.
        + intros m h1 Hm Hh1. etransitivity; [apply Hef|]. destruct (DE m Hm) as [D1 D2 D3 D4 D5 D6].
          etransitivity; [apply run_scanner_any; auto; destruct g; cbn in S; try contradiction; discriminate|].
          rewrite inside_all by (intros s Hs; apply Hin; auto). cbn [level_status heard].
          rewrite upto_all by (apply inside_all; intros s Hs; apply Hin; auto).
          f_equal. f_equal. f_equal. apply tab_ext. intros k Hk.
          now replace (clears g) with false by (destruct g; cbn in S; try contradiction; reflexivity).
        + discriminate.
      - f_equal. f_equal. destruct (length (ar_pos A)) as [|m]; [lia|]. reflexivity. }
    exists (tab (Z.to_nat ntz) (fun k => 0 + attenuated_superposition q ntz alpha A g delay o k)), err_none.
    split; [|split; [discriminate|split; [apply length_tab|]]].
    + pose proof (names_serial_att (idx_of fe) fuel g p A T q ntz alpha lvl_stop delay o (repeat 0 (Z.to_nat ntz)) HA HT) as EN1.
      enough (EE : sir_arr_att (idx_of fe) fuel q ntz alpha g A lvl_stop delay o (repeat 0 (Z.to_nat ntz)) =
        Some (Ok (map (@Some R) (tab (Z.to_nat ntz) (fun k => 0 + attenuated_superposition q ntz alpha A g delay o k)), err_none))).
      { rewrite EE in EN1. injection EN1 as EN1. symmetry. exact EN1. }
      assert (Z0 : tab (Z.to_nat ntz) (fun k => nth k (repeat 0 (Z.to_nat ntz)) 0 + attenuated_superposition q ntz alpha A g delay o k) =
        tab (Z.to_nat ntz) (fun k => 0 + attenuated_superposition q ntz alpha A g delay o k)).
      { apply tab_ext. intros k Hk. now rewrite nth_repeat. }
      unfold sir_arr_att. destruct g; cbn in S; try contradiction; cbn [emb_arr_geom serial attenuated]; f_equal.
      * etransitivity; [apply clear_first; now rewrite map_length, repeat_length|].
        etransitivity; [apply E; [apply repeat_length|intros; reflexivity]|]. exact (f_equal (fun l => Ok (map (@Some R) l, err_none)) Z0).
      * etransitivity; [apply clear_first; now rewrite map_length, repeat_length|].
        etransitivity; [apply E; [apply repeat_length|intros; reflexivity]|]. exact (f_equal (fun l => Ok (map (@Some R) l, err_none)) Z0).
      * etransitivity; [apply E; [apply repeat_length|intros; reflexivity]|]. exact (f_equal (fun l => Ok (map (@Some R) l, err_none)) Z0).
    + intros k Hk. rewrite nth_tab by exact Hk. ring.
Qed.
Print Assumptions C115_array_stop.
