(** ProofsGwR.v - end-to-end correctness of calls with exact arguments. *)
From Coq Require Import Reals List ZArith Lra Lia.
From Verif Require Import Base BaseLemmas ModelSir ModelArr ModelSmp NumR ProofsLocal ProofsLocalArr ProofsSmp ProofsCall
  SpecSmp ProofsSmp2 SpecSir ProofsEnum SpecRayleigh SpecArr ModelGw SpecGw ProofsGw ProofsGw3 ProofsGw4 ProofsGw5 SpecGwR PropGw.
From Coq Require Import ZifyBool ZifyNat.
Import ListNotations.
Open Scope R_scope.
Ltac Zify.zify_post_hook ::= Z.div_mod_to_equations.

Lemma map_rep {A B} (f : A -> B) x n : map f (repeat x n) = repeat (f x) n.
Proof. induction n; cbn; congruence. Qed.
Lemma zeros_E ntz : zeros (N:=EN) ntz = map (@Some R) (repeat 0 (Z.to_nat ntz)).
Proof. unfold zeros. change (nofZ (n:=EN) 0) with (Some 0). symmetry. apply map_rep. Qed.

Lemma nlt_eps_0 : nlt (n:=EN) neps (Some 0) = false.
Proof.
  assert (E : nlt (n:=EN) neps (Some 0) = (if Rlt_dec (/ 2 ^ 52) 0 then true else false)) by reflexivity.
  rewrite E. destruct (Rlt_dec (/ 2^52) 0) as [H|]; [|reflexivity].
  assert (0 < / 2^52) by (apply Rinv_0_lt_compat, pow_lt; lra). lra.
Qed.

Lemma nth_error_exact (l : list R) n : (n < length l)%nat -> nth_error (exact l) n = Some (Some (nth n l 0)).
Proof. intros H. unfold exact. rewrite nth_error_map. rewrite (nth_error_nth' l 0 H). reflexivity. Qed.
Lemma nth_map_pos (f : pos -> R) ps n : (n < length ps)%nat -> nth n (map f ps) 0 = f (nth n ps origin).
Proof. intros H. rewrite (nth_indep _ 0 (f origin)) by (rewrite map_length; exact H). apply map_nth. Qed.

Lemma coords_nth ps n : (n < length ps)%nat ->
  nth_error (exact (coords ps)) n = Some (Some (p_x (nth n ps origin))) /\
  nth_error (exact (coords ps)) (n + length ps) = Some (Some (p_y (nth n ps origin))) /\
  nth_error (exact (coords ps)) (n + 2 * length ps) = Some (Some (p_z (nth n ps origin))).
Proof.
  intros H. unfold coords. rewrite !nth_error_exact by (rewrite !app_length, !map_length; lia).
  rewrite app_nth1 by (rewrite map_length; lia). rewrite !nth_map_pos by exact H.
  rewrite app_nth2 by (rewrite map_length; lia). rewrite app_nth1 by (rewrite !map_length; lia).
  rewrite app_nth2 by (rewrite map_length; lia). rewrite app_nth2 by (rewrite !map_length; lia).
  rewrite !map_length. replace (n + length ps - length ps)%nat with n by lia.
  replace (n + 2 * length ps - length ps - length ps)%nat with n by lia.
  rewrite !nth_map_pos by exact H. auto.
Qed.

Section Exact.
  Variables (fuel : nat) (c2r : list (EN * EN) -> list EN) (fe : front) (f : func) (nlhs hw : Z) (env : option Z)
    (sch : list event) (junk : list EN) (args : list (value EN)) (T : transducer EN) (q : rpar) (ntz : Z)
    (l : ErrorLevel) (ps : list pos) (dty : DelayType) (dl : list R) (V : nat -> nat -> R).
  Local Notation No := (Z.of_nat (length ps)).
  Hypothesis D : documented fe f args T (emb_samp q ntz) (Some 0 : EN) l No (exact (coords ps)) dty (exact dl).
  Hypothesis Hl : (0 <= nlhs <= 2)%Z.
  Hypothesis Hnt : (0 <= ntz)%Z.
  Hypothesis Hk : keeps_length c2r.
  Hypothesis Hhw : (0 <= hw)%Z.
  Hypothesis Hf : rings_in_time fe T (emb_samp q ntz).
  Hypothesis Hsch : runs_to_end hw env No sch.
  Hypothesis Hpts : forall n, (n < length ps)%nat -> let o := nth n ps origin in
    exists out e,
      serial (idx_of fe) fuel T (emb_samp q ntz) None l (Some (p_x o)) (Some (p_y o)) (Some (p_z o))
        (Some (start_delay dty dl n)) 0 (map (@Some R) (repeat 0 (Z.to_nat ntz))) = Ok (map (@Some R) out, e) /\
      e <> err_oob /\ length out = Z.to_nat ntz /\ forall k, (k < Z.to_nat ntz)%nat -> nth k out 0 = V n k.

  Local Notation J := (requested fuel c2r T (emb_samp q ntz) (Some 0 : EN) l No (exact (coords ps)) dty (exact dl)).

  Lemma dl_len : (match dty with delay_single => 1 <= length dl | delay_multiple => length dl = length ps end)%nat.
  Proof.
    assert (X : exists vd, delay_given (N:=EN) fe No vd dty (exact dl)) by (destruct D; eauto).
    destruct X as (vd & [(d & _ & -> & E)|(_ & E & _ & ->)]).
    - assert (length (exact dl) = 1%nat) by (rewrite E; reflexivity). unfold exact in H. rewrite map_length in H. lia.
    - unfold exact in E. rewrite map_length in E. lia.
  Qed.

  Lemma exact_point n : (n < length ps)%nat -> let o := nth n ps origin in
    point_is (N:=EN) J (Z.of_nat n) (Some (p_x o)) (Some (p_y o)) (Some (p_z o)) (Some (start_delay dty dl n)).
  Proof.
    intros Hn o. destruct (coords_nth ps n Hn) as (E1 & E2 & E3). pose proof dl_len as HD.
    unfold point_is. cbn [j_Ro j_No j_delay j_delay_type requested asks].
    rewrite Nat2Z.id. replace (Z.to_nat (Z.of_nat n + No)) with (n + length ps)%nat by lia.
    replace (Z.to_nat (Z.of_nat n + 2 * No)) with (n + 2 * length ps)%nat by lia.
    split; [exact E1|]. split; [exact E2|]. split; [exact E3|].
    unfold start_delay. destruct dty; apply nth_error_exact; lia.
  Qed.

  Lemma att_none : j_att J = None.
  Proof. unfold requested, asks. cbn [j_att]. now rewrite nlt_eps_0. Qed.

  Lemma point_unique n xo yo zo d : (0 <= n < No)%Z -> point_is (N:=EN) J n xo yo zo d -> let o := nth (Z.to_nat n) ps origin in
    xo = Some (p_x o) /\ yo = Some (p_y o) /\ zo = Some (p_z o) /\ d = Some (start_delay dty dl (Z.to_nat n)).
  Proof.
    intros Hn (A1 & A2 & A3 & A4) o. destruct (exact_point (Z.to_nat n) ltac:(lia)) as (B1 & B2 & B3 & B4).
    rewrite Z2Nat.id in * by lia. fold o in B1, B2, B3.
    repeat split; congruence.
  Qed.

  Lemma exact_call : exists H w e,
    gateway fuel c2r fe f nlhs hw env sch junk args = Ok (Some (Returned H ntz No w e)) /\
    matrix_is H (Z.to_nat ntz) (length ps) V.
  Proof.
    destruct Hsch as [Hc Hfair].
    destruct (C41_completes EN fuel c2r fe f nlhs hw env sch junk args T (emb_samp q ntz) (Some 0) l No _ dty _ D Hl Hnt Hk Hhw Hf)
      as (o & E & Hr & Hm).
    { intros n xo yo zo d Hn Hp. destruct (point_unique n xo yo zo d Hn Hp) as (-> & -> & -> & ->).
      destruct (Hpts (Z.to_nat n) ltac:(lia)) as (out & e & Es & _). rewrite att_none.
      cbn [nt emb_samp]. rewrite zeros_E, Es. eauto. }
    { exact Hfair. }
    destruct (C41_documented EN fuel c2r fe f nlhs hw env sch junk args T (emb_samp q ntz) (Some 0) l No _ dty _ o D Hl Hnt Hk Hhw Hf Hc E)
      as [(H & w & e & -> & HL & Hcol)|(_ & n & c & Hn & Hp)]; cbn [nt emb_samp] in *.
    - exists H, w, e. split; [exact E|]. split.
      + unfold EN in *. cbn [car] in *. etransitivity; [exact HL|]. nia.
      + intros n k Hn Hk'. destruct (Hcol (Z.of_nat n) ltac:(lia)) as (e' & _ & Hs).
        specialize (Hs _ _ _ _ (exact_point n Hn)). cbv beta in Hs. rewrite att_none, zeros_E in Hs.
        destruct (Hpts n Hn) as (out & e2 & Es & _ & Lo & Hv). rewrite Hs in Es. injection Es as Ec _.
        rewrite <- (Hv k Hk'). unfold col in Ec.
        assert (Ek : nth_error (firstn (Z.to_nat ntz) (skipn (Z.to_nat (Z.of_nat n * ntz)) H)) k = Some (Some (nth k out 0))).
        { etransitivity; [exact (f_equal (fun x => nth_error x k) Ec)|]. apply (nth_error_exact out k). lia. }
        rewrite nth_error_firstn' in Ek. rewrite (proj2 (Nat.ltb_lt _ _) Hk') in Ek. rewrite nth_error_skipn' in Ek.
        replace (n * Z.to_nat ntz + k)%nat with (Z.to_nat (Z.of_nat n * ntz) + k)%nat by nia. exact Ek.
    - exfalso. specialize (Hp _ _ _ _ (eq_rect _ (fun z => point_is (N:=EN) J z _ _ _ _) (exact_point (Z.to_nat n) ltac:(lia)) _ (Z2Nat.id n (proj1 Hn)))).
      rewrite att_none, zeros_E in Hp.
      destruct (Hpts (Z.to_nat n) ltac:(lia)) as (out & e & Es & He & _). rewrite Hp in Es. injection Es as _ <-. now apply He.
  Qed.
End Exact.

(** ** Arrays: the fields the chosen methods do not use do not matter. *)
Section Equiv.
  Context {N : Num} (K : idx_kind) (p p' : arr_par N).
  Hypothesis Hn : num_elements p = num_elements p'.
  Hypothesis HG : G p = G p'.
  Hypothesis Hd : forall c x y r n, elem_delays p c x y r n = elem_delays p' c x y r n.

  Lemma max_dim_eq : max_dim_arr p = max_dim_arr p'.
  Proof. unfold max_dim_arr, gx, gy. now rewrite Hn, HG. Qed.
  Lemma arr_elems_eq c x y r xo yo zo d elem left : forall n s,
    arr_elems p c x y r xo yo zo d elem n left s = arr_elems p' c x y r xo yo zo d elem n left s.
  Proof.
    induction left as [|left IH]; intros n [h e]; [reflexivity|]. cbn [arr_elems]. rewrite Hd.
    apply bind_ext. intros [[? ?] ?] _. unfold gx, gy, gz. rewrite Hn, HG.
    repeat (apply bind_ext; intros ? _). now rewrite IH.
  Qed.
  Lemma arr_serial_eq cf ntz base c xo yo zo d elem h :
    arr_serial cf ntz base p c xo yo zo d elem h = arr_serial cf ntz base p' c xo yo zo d elem h.
  Proof.
    unfold arr_serial. apply bind_ext. intros h' _. rewrite max_dim_eq. apply bind_ext. intros [[? ?] ?] _.
    rewrite Hn. apply arr_elems_eq.
  Qed.
End Equiv.

Lemma buf_get_0 {A} (l : list A) x : nth_error l 0 = Some x -> buf_get l 0 = Ok x.
Proof. destruct l as [|y l]; [discriminate|]. cbn. intros [= ->]. reflexivity. Qed.

Lemma names_delays p A : names p A -> forall c x y r n,
  elem_delays p c x y r n = elem_delays (emb_arr A) c x y r n.
Proof.
  intros (Hn & HG & HF & HS & HA) c x y r n. unfold elem_delays.
  change (num_elements (emb_arr A)) with (Z.of_nat (length (ar_pos A))) in *.
  assert (Egx : gx p n = gx (emb_arr A) n) by (unfold gx; rewrite HG; reflexivity).
  assert (Egy : gy p n = gy (emb_arr A) n) by (unfold gy; rewrite HG, Hn; reflexivity).
  rewrite Egx, Egy. apply bind_ext. intros gxn _. apply bind_ext. intros gyn _.
  assert (E1 : (if FocusMet_is_ud (foc_met p) then buf_get (focal p) n
        else do f0 <- buf_get (focal p) 0; Ok (focusing (foc_met p) f0 gxn gyn x y r c)) =
        (if FocusMet_is_ud (foc_met (emb_arr A)) then buf_get (focal (emb_arr A)) n
        else do f0 <- buf_get (focal (emb_arr A)) 0; Ok (focusing (foc_met (emb_arr A)) f0 gxn gyn x y r c))).
  { unfold emb_arr. cbn [foc_met focal].
    destruct (ar_focus A); destruct HF as [HF1 HF2]; rewrite HF1; cbn [FocusMet_is_ud].
    1:{ destruct (focal p) as [|f0 fr]; [cbn in HF2; lia|]. rewrite (buf_get_0 (f0 :: fr) f0 eq_refl).
        reflexivity. }
    1-4: rewrite (buf_get_0 _ _ HF2); reflexivity.
    rewrite HF2. reflexivity. }
  rewrite E1. apply bind_ext. intros fd _.
  assert (E2 : beamsteering (steer_met p) (theta p) (phi p) gxn gyn x y c =
               beamsteering (steer_met (emb_arr A)) (theta (emb_arr A)) (phi (emb_arr A)) gxn gyn x y c).
  { unfold emb_arr. cbn [steer_met theta phi]. destruct (ar_steer A).
    - rewrite HS. reflexivity.
    - destruct HS as [-> ->]. reflexivity.
    - destruct HS as [-> ->]. reflexivity.
    - destruct HS as (-> & -> & ->). reflexivity. }
  cbv zeta. rewrite E2. apply (f_equal (fun m => bind m _)).
  unfold emb_arr. cbn [do_apod apod_met apod apod_par]. destruct (ar_apo A).
  - rewrite HA. reflexivity.
  - destruct HA as (-> & -> & ->). reflexivity.
  - destruct HA as (-> & ->). reflexivity.
  - destruct HA as (-> & -> & ->). reflexivity.
  - destruct HA as (-> & -> & ->). reflexivity.
  - destruct HA as (-> & ->). reflexivity.
  - destruct HA as (-> & ->). reflexivity.
  - destruct HA as (-> & ->). reflexivity.
  - destruct HA as (-> & ->). reflexivity.
Qed.

Lemma names_serial K fuel g p A T q ntz l delay o h : names p A -> array_of g p = Some T ->
  sir_arr K fuel q ntz g A l delay o h =
  Some (serial K fuel T (emb_samp q ntz) None l (Some (p_x o)) (Some (p_y o)) (Some (p_z o)) (Some delay) 0 (map (@Some R) h)).
Proof.
  intros Hp HT. pose proof Hp as (Hn & HG & _). unfold sir_arr.
  destruct g; try discriminate HT; injection HT as <-; cbn [emb_arr_geom serial]; f_equal; symmetry;
    apply (arr_serial_eq (N:=EN)); auto; exact (names_delays p A Hp).
Qed.
