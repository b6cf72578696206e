(** ProofsAtt2.v - calls with exact arguments in an absorbing medium. *)
From Coq Require Import Reals List ZArith Lra Lia FunctionalExtensionality.
From Verif Require Import Base BaseLemmas ModelSir ModelArr ModelSmp NumR ProofsLocal ProofsLocalArr ProofsSmp ProofsCall
  SpecSmp ProofsSmp2 SpecSir ProofsEnum SpecRayleigh SpecArr ModelGw SpecGw ProofsGw ProofsGw3 ProofsGw4 ProofsGw5 SpecGwR PropGw ProofsGwR
  SpecDft SpecConv SpecAtt ProofsR ProofsAtt ModelConv SpecAtt2 ProofsDft2.
From Coq Require Import ZifyBool ZifyNat.
Import ListNotations.
Open Scope R_scope.
Ltac Zify.zify_post_hook ::= Z.div_mod_to_equations.

Lemma ifft_length X : length (exact_ifft X) = length X.
Proof.
  unfold exact_ifft. rewrite map_length. cbn [dft_plan fp_c2r].
  match goal with |- length (match ?a with _ => _ end) = _ => destruct a end.
  - match goal with |- length (match ?a with _ => _ end) = _ => destruct a end.
    + now rewrite map_length, seq_length.
    + now rewrite repeat_length.
  - now rewrite repeat_length.
Qed.

(** Two attenuation objects whose transforms agree on spectra. *)
Section Ext.
  Context {N : Num} (a b : att_plan N).
  Hypothesis Hl : att_len a = att_len b.
  Hypothesis Hd : att_dt a = att_dt b.
  Hypothesis Ha : att_alpha a = att_alpha b.
  Hypothesis Hp : (0 < att_len a)%Z.
  Hypothesis Hc : forall X, length X = Z.to_nat (att_len a) -> att_c2r a X = att_c2r b X.
  Lemma emit_ext base it r ai h : emit_att a base it r ai h = emit_att b base it r ai h.
  Proof.
    unfold emit_att.
    assert (E : att_spectrum a r it (repeat (nofZ 0, nofZ 0) (Z.to_nat (att_len a))) = att_spectrum b r it (repeat (nofZ 0, nofZ 0) (Z.to_nat (att_len b)))).
    { unfold att_spectrum, att_bin. rewrite Hl, Hd, Ha. reflexivity. }
    rewrite <- E. rewrite att_spectrum_eq by (auto; apply repeat_length). cbn [bind].
    rewrite Hc by (unfold spectrum; now rewrite map_length, seq_length). rewrite <- Hl. reflexivity.
  Qed.
  Lemma emit_fun : emit (N:=N) (Some a) = emit (Some b).
  Proof. do 5 (apply functional_extensionality; intros ?). cbn [emit]. apply emit_ext. Qed.
  Lemma put_fun K by_level lvl ntz base : put (N:=N) K by_level (Some a) lvl ntz base = put K by_level (Some b) lvl ntz base.
  Proof. apply functional_extensionality; intros c. apply functional_extensionality; intros [h e]. unfold put. now rewrite emit_fun. Qed.
  Lemma scan_ext K fuel S lvl ntz base h : run_scanner (N:=N) K fuel S (Some a) lvl ntz base h = run_scanner K fuel S (Some b) lvl ntz base h.
  Proof. unfold run_scanner. now rewrite put_fun. Qed.
  Lemma serial_ext K fuel T q lvl xo yo zo d base h :
    serial (N:=N) K fuel T q (Some a) lvl xo yo zo d base h = serial K fuel T q (Some b) lvl xo yo zo d base h.
  Proof.
    destruct T; cbn [serial attenuated]; try apply scan_ext.
    all: f_equal; repeat (apply functional_extensionality; intros ?); apply scan_ext.
  Qed.
End Ext.

(** ** The whole call *)
Section ExactAtt.
  Variables (fuel : nat) (alpha : R) (fe : front) (f : func) (nlhs hw : Z) (env : option Z)
    (sch : list event) (junk : list EN) (args : list (value EN)) (T : transducer EN) (q : rpar) (ntz : Z)
    (l : ErrorLevel) (ps : list pos) (dty : DelayType) (dl : list R) (V : nat -> nat -> R).
  Local Notation No := (Z.of_nat (length ps)).
  Hypothesis D : documented fe f args T (emb_samp q ntz) (Some alpha : EN) l No (exact (coords ps)) dty (exact dl).
  Hypothesis Hl : (0 <= nlhs <= 2)%Z.
  Hypothesis Hnt : (0 < ntz)%Z.
  Hypothesis Hal : / 2^52 < alpha.
  Hypothesis Hhw : (0 <= hw)%Z.
  Hypothesis Hf : rings_in_time fe T (emb_samp q ntz).
  Hypothesis Hsch : runs_to_end hw env No sch.
  Hypothesis Hpts : forall n, (n < length ps)%nat -> let o := nth n ps origin in
    exists out e,
      serial (idx_of fe) fuel T (emb_samp q ntz) (Some (exact_att ntz (p_dt q) alpha)) l (Some (p_x o)) (Some (p_y o)) (Some (p_z o))
        (Some (start_delay dty dl n)) 0 (map (@Some R) (repeat 0 (Z.to_nat ntz))) = Ok (map (@Some R) out, e) /\
      e <> err_oob /\ length out = Z.to_nat ntz /\ forall k, (k < Z.to_nat ntz)%nat -> nth k out 0 = V n k.

  Local Notation J := (requested fuel exact_ifft T (emb_samp q ntz) (Some alpha : EN) l No (exact (coords ps)) dty (exact dl)).

  Lemma dl_len' : (match dty with delay_single => 1 <= length dl | delay_multiple => length dl = length ps end)%nat.
  Proof.
    assert (X : exists vd, delay_given (N:=EN) fe No vd dty (exact dl)) by (destruct D; eauto).
    destruct X as (vd & [(d & _ & -> & E)|(_ & E & _ & ->)]).
    - assert (length (exact dl) = 1%nat) by (rewrite E; reflexivity). unfold exact in H. rewrite map_length in H. lia.
    - unfold exact in E. rewrite map_length in E. lia.
  Qed.

  Lemma exact_point' n : (n < length ps)%nat -> let o := nth n ps origin in
    point_is (N:=EN) J (Z.of_nat n) (Some (p_x o)) (Some (p_y o)) (Some (p_z o)) (Some (start_delay dty dl n)).
  Proof.
    intros Hn o. destruct (coords_nth ps n Hn) as (E1 & E2 & E3). pose proof dl_len' as HD.
    unfold point_is. cbn [j_Ro j_No j_delay j_delay_type requested asks].
    rewrite Nat2Z.id. replace (Z.to_nat (Z.of_nat n + No)) with (n + length ps)%nat by lia.
    replace (Z.to_nat (Z.of_nat n + 2 * No)) with (n + 2 * length ps)%nat by lia.
    split; [exact E1|]. split; [exact E2|]. split; [exact E3|].
    unfold start_delay. destruct dty; apply nth_error_exact; lia.
  Qed.

  Lemma att_some : j_att J = Some (@Build_att_plan EN ntz (Some (p_dt q)) (Some alpha) exact_ifft).
  Proof.
    unfold requested, asks. cbn [j_att]. unfold make_att.
    assert (E : nlt (n:=EN) neps (Some alpha) = (if Rlt_dec (/ 2 ^ 52) alpha then true else false)) by reflexivity.
    rewrite E. destruct (Rlt_dec (/ 2 ^ 52) alpha); [reflexivity|contradiction].
  Qed.
  Lemma att_same xo yo zo d h :
    serial (idx_of fe) fuel T (emb_samp q ntz) (j_att J) l xo yo zo d 0 h =
    serial (idx_of fe) fuel T (emb_samp q ntz) (Some (exact_att ntz (p_dt q) alpha)) l xo yo zo d 0 h.
  Proof.
    rewrite att_some. apply serial_ext; try reflexivity; [exact Hnt|]. intros X HX. cbn [att_c2r exact_att att_len] in *.
    unfold exact_ifft. rewrite HX. reflexivity.
  Qed.

  Lemma point_unique' n xo yo zo d : (0 <= n < No)%Z -> point_is (N:=EN) J n xo yo zo d -> let o := nth (Z.to_nat n) ps origin in
    xo = Some (p_x o) /\ yo = Some (p_y o) /\ zo = Some (p_z o) /\ d = Some (start_delay dty dl (Z.to_nat n)).
  Proof.
    intros Hn (A1 & A2 & A3 & A4) o. destruct (exact_point' (Z.to_nat n) ltac:(lia)) as (B1 & B2 & B3 & B4).
    rewrite Z2Nat.id in * by lia. fold o in B1, B2, B3.
    repeat split; congruence.
  Qed.

  Lemma exact_call_att : exists H w e,
    gateway fuel exact_ifft fe f nlhs hw env sch junk args = Ok (Some (Returned H ntz No w e)) /\
    matrix_is H (Z.to_nat ntz) (length ps) V.
  Proof.
    destruct Hsch as [Hc Hfair].
    destruct (C41_completes EN fuel exact_ifft fe f nlhs hw env sch junk args T (emb_samp q ntz) (Some alpha) l No _ dty _ D Hl (Z.lt_le_incl _ _ Hnt) ifft_length Hhw Hf)
      as (o & E & Hr & Hm).
    { intros n xo yo zo d Hn Hp. destruct (point_unique' n xo yo zo d Hn Hp) as (-> & -> & -> & ->).
      destruct (Hpts (Z.to_nat n) ltac:(lia)) as (out & e & Es & _). rewrite att_same.
      cbn [nt emb_samp]. rewrite zeros_E, Es. eauto. }
    { exact Hfair. }
    destruct (C41_documented EN fuel exact_ifft fe f nlhs hw env sch junk args T (emb_samp q ntz) (Some alpha) l No _ dty _ o D Hl (Z.lt_le_incl _ _ Hnt) ifft_length Hhw Hf Hc E)
      as [(H & w & e & -> & HL & Hcol)|(_ & n & c & Hn & Hp)]; cbn [nt emb_samp] in *.
    - exists H, w, e. split; [exact E|]. split.
      + unfold EN in *. cbn [car] in *. etransitivity; [exact HL|]. nia.
      + intros n k Hn Hk'. destruct (Hcol (Z.of_nat n) ltac:(lia)) as (e' & _ & Hs).
        specialize (Hs _ _ _ _ (exact_point' n Hn)). cbv beta in Hs. rewrite att_same, zeros_E in Hs.
        destruct (Hpts n Hn) as (out & e2 & Es & _ & Lo & Hv). rewrite Hs in Es. injection Es as Ec _.
        rewrite <- (Hv k Hk'). unfold col in Ec.
        assert (Ek : nth_error (firstn (Z.to_nat ntz) (skipn (Z.to_nat (Z.of_nat n * ntz)) H)) k = Some (Some (nth k out 0))).
        { etransitivity; [exact (f_equal (fun x => nth_error x k) Ec)|]. apply (nth_error_exact out k). lia. }
        rewrite nth_error_firstn' in Ek. rewrite (proj2 (Nat.ltb_lt _ _) Hk') in Ek. rewrite nth_error_skipn' in Ek.
        replace (n * Z.to_nat ntz + k)%nat with (Z.to_nat (Z.of_nat n * ntz) + k)%nat by nia. exact Ek.
    - exfalso. specialize (Hp _ _ _ _ (eq_rect _ (fun z => point_is (N:=EN) J z _ _ _ _) (exact_point' (Z.to_nat n) ltac:(lia)) _ (Z2Nat.id n (proj1 Hn)))).
      rewrite att_same, zeros_E in Hp.
      destruct (Hpts (Z.to_nat n) ltac:(lia)) as (out & e & Es & He & _). rewrite Hp in Es. injection Es as _ <-. now apply He.
  Qed.
End ExactAtt.

Lemma names_serial_att K fuel g p A T q ntz alpha l delay o h : names p A -> array_of g p = Some T ->
  sir_arr_att K fuel q ntz alpha g A l delay o h =
  Some (serial K fuel T (emb_samp q ntz) (Some (exact_att ntz (p_dt q) alpha)) l (Some (p_x o)) (Some (p_y o)) (Some (p_z o)) (Some delay) 0 (map (@Some R) h)).
Proof.
  intros Hp HT. pose proof Hp as (Hn & HG & _). unfold sir_arr_att.
  destruct g; try discriminate HT; injection HT as <-; cbn [emb_arr_geom serial]; f_equal; symmetry;
    apply (arr_serial_eq (N:=EN)); auto; exact (names_delays p A Hp).
Qed.
