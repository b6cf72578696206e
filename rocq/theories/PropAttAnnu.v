(** PropAttAnnu.v - C115 for annular arrays: the response in an absorbing medium,
    one sample late as in a lossless one (C22). *)
From Coq Require Import Reals List ZArith Lra Lia.
From Verif Require Import Base BaseLemmas ModelSir ModelArr ModelSmp NumR SpecSmp ProofsSmp2 SpecSir SpecRayleigh SpecArr SpecAnnu SpecAnnuR ModelConv
  ModelGw SpecGw SpecGwR ProofsLocalArr ProofsR ProofsRayleigh ProofsErr PropErr ProofsPhys ProofsSirR ProofsArr PropSir PropArr ProofsLoop ProofsAnnu PropAnnu ProofsGw5 PropGw ProofsGwR PropGwR
  SpecPhys SpecPhysA PropPhys SpecDft ProofsDft ProofsDft2 SpecAtt ProofsAtt PropAtt SpecAtt2 ProofsAtt2 PropAnnuR SpecAttAnnu.
Import ListNotations.
Open Scope R_scope.

(** ** One observation point *)
Definition disc_list (q : rpar) (alpha : R) (A : annular) (ntz : Z) (delay : R) (o : pos) (n : nat) : list R :=
  map (fun k => absorbed_disc q ntz alpha A delay o n k) (seq 0 (Z.to_nat ntz)).
Lemma nth_disc_list q alpha A ntz delay o n k : (k < Z.to_nat ntz)%nat ->
  nth k (map (@Some R) (disc_list q alpha A ntz delay o n)) (nofZ (n:=EN) 0) = Some (absorbed_disc q ntz alpha A delay o n k).
Proof.
  intros Hk. change (nofZ (n:=EN) 0) with (Some 0 : option R). rewrite (map_nth (@Some R)). f_equal. unfold disc_list.
  rewrite (nth_indep _ 0 ((fun k => absorbed_disc q ntz alpha A delay o n k) 0%nat)) by (rewrite map_length, seq_length; exact Hk).
  rewrite (map_nth (fun k => absorbed_disc q ntz alpha A delay o n k)), seq_nth by exact Hk. reflexivity.
Qed.

Lemma disc_exact K fuel q ntz alpha A l delay o n : (0 < ntz)%Z ->
  (~ silent A n -> defined K fuel q ntz (GCirc (nth n (an_radii A) 0)) delay o) -> l = lvl_ignore \/ l = lvl_warn ->
  disc_response K fuel (emb_samp q ntz) (Some (exact_att ntz (p_dt q) alpha)) l (Some (p_x o)) (Some (p_y o)) (Some (p_z o)) (Some delay)
    (map (@Some R) (an_radii A)) n (map (@Some R) (disc_list q alpha A ntz delay o n)).
Proof.
  intros Hnt Hd Hl. unfold disc_response.
  change (nth n (map (@Some R) (an_radii A)) (nofZ (n:=EN) 0)) with (nth n (map (@Some R) (an_radii A)) (Some 0)).
  rewrite (map_nth (@Some R)). cbn [nle EN ecmp neps].
  assert (EB : (Nat.eqb n 0 && Rleb (nth n (an_radii A) 0) (/ 2 ^ 52))%bool = (Nat.eqb n 0 && Rleb (nth 0 (an_radii A) 0) (/ 2 ^ 52))%bool).
  { destruct n; reflexivity. }
  rewrite EB. unfold disc_list, absorbed_disc. destruct (Nat.eqb n 0 && Rleb (nth 0 (an_radii A) 0) (/ 2 ^ 52))%bool eqn:B.
  - unfold zeros. cbn [nt emb_samp]. rewrite map_map. rewrite <- (seq_length (Z.to_nat ntz) 0) at 2.
    generalize (seq 0 (Z.to_nat ntz)). intros L. induction L; cbn; [reflexivity|]. f_equal. exact IHL.
  - assert (NS : ~ silent A n).
    { intros [-> H]. cbn [Nat.eqb andb] in B. unfold Rleb in B. destruct (Rle_dec (nth 0 (an_radii A) 0) (/ 2 ^ 52)); [discriminate|contradiction]. }
    specialize (Hd NS).
    destruct (C23_response K fuel q ntz alpha (GCirc (nth n (an_radii A) 0)) l delay o (repeat 0 (Z.to_nat ntz)) Hd Hnt (repeat_length _ _) Hl)
      as (out & e & Es & Lo & _ & Hv).
    assert (EO : out = map (fun k => attenuated_sum q ntz alpha 1 delay o (sources q (GCirc (nth n (an_radii A) 0))) k) (seq 0 (Z.to_nat ntz))).
    { apply nth_ext with (d:=0) (d':=0); [now rewrite map_length, seq_length|].
      intros k Hk. rewrite Lo in Hk. rewrite (Hv k Hk), old_zeros by exact Hk.
      match goal with |- context [map ?f (seq 0 _)] => rewrite (nth_indep (map f _) 0 (f 0%nat)) by (rewrite map_length, seq_length; exact Hk); rewrite (map_nth f) end.
      rewrite seq_nth by exact Hk. cbn [plus]. ring. }
    exists e. split.
    + rewrite <- EO. unfold sir_att in Es. unfold zeros. cbn [nt emb_samp]. change (nofZ (n:=EN) 0) with (Some 0). rewrite <- (map_repeat (@Some R) 0).
      exact Es.
    + unfold sir_att in Es. pose proof (C07_code_any EN _ _ _ _ _ _ _ _ _ _ _ _ _ _ Es) as He.
      destruct He as [-> | ->]; destruct Hl as [-> | ->]; discriminate.
Qed.

(** One point, levels 'ignore' and 'warn': the response of an
    annular array is the sum over its rings of weight times (outer disc minus
    inner disc), each moved by its delay to the nearest sample and one sample
    more (the one sample: C22_late_refuted). *)
Lemma annular_att : forall K fuel q ntz alpha p A l delay o,
  names_annular p A -> annular_ok q A -> annular_defined K fuel q ntz A delay o -> (0 < ntz)%Z ->
  l = lvl_ignore \/ l = lvl_warn ->
  exists out e,
    serial K fuel (TArrAnnu p) (emb_samp q ntz) (Some (exact_att ntz (p_dt q) alpha)) l (Some (p_x o)) (Some (p_y o)) (Some (p_z o)) (Some delay) 0
      (map (@Some R) (repeat 0 (Z.to_nat ntz))) = Ok (map (@Some R) out, e) /\
    length out = Z.to_nat ntz /\
    forall k, (k < Z.to_nat ntz)%nat -> nth k out 0 = absorbed_annular 1 q ntz alpha A delay o k.
Proof.
  intros K fuel q ntz alpha p A l delay o HN OK HD Hnt Hl.
  destruct (C22_annular_partial EN K fuel (emb_samp q ntz) (Some (exact_att ntz (p_dt q) alpha)) l (Some (p_x o)) (Some (p_y o)) (Some (p_z o)) (Some delay) p
     (fun n => map (@Some R) (disc_list q alpha A ntz delay o n)) (fun j => Some (ring_w A j))
     (fun j => Z.to_nat (Zrint (ring_tau (p_cp q) A j / p_dt q) + 1)) (map (@Some R) (repeat 0 (Z.to_nat ntz)))) as (out' & e & E & Lo & Hv).
  - apply Z.lt_le_incl; exact Hnt.
  - apply exact_att_ok; exact Hnt.
  - rewrite map_length. apply repeat_length.
  - destruct HN as (-> & _). rewrite map_length. apply OK.
  - rewrite (rings_same p A HN). destruct HN as (_ & HF & _). pose proof (ak_ud q A OK) as Hu.
    destruct (an_F A) as [|F|tau].
    + destruct HF as [-> H]. exact H.
    + destruct HF as [HI HF]. replace (FocusMet_is_ud (an_foc_met p)) with false by (cbn [In] in HI; destruct HI as [X|[X|[X|[X|[]]]]]; rewrite <- X; reflexivity).
      assert (0 < length (an_focal p))%nat by (apply nth_error_Some; congruence). lia.
    + destruct HF as [-> (rest & ->)]. cbn [FocusMet_is_ud]. rewrite app_length, map_length. lia.
  - intros n Hn. destruct HN as (EG & _). rewrite EG in *. rewrite map_length in Hn.
    apply disc_exact; auto.
  - intros j Hj. rewrite (rings_same p A HN) in Hj. apply (weight_same p A q HN OK j Hj).
  - intros j Hj. rewrite (rings_same p A HN) in Hj. pose proof (ak_idx q A OK j Hj) as Hi.
    exists (Zrint (ring_tau (p_cp q) A j / p_dt q)). split; [|lia].
    rewrite (tau_same p A q HN OK ntz j Hj). cbn [dt emb_samp].
    destruct (ak_par q A OK) as (_ & _ & Hdt & _). ered. rewrite e_div_ok by exact Hdt. cbn [to_idx].
    destruct K; (match goal with |- (if ?b then _ else _) = _ => replace b with true; [reflexivity|] end);
      symmetry; apply andb_true_intro; split; try apply Z.leb_le; try apply Z.ltb_lt; lia.
  - exists (map (fun k => absorbed_annular 1 q ntz alpha A delay o k) (seq 0 (Z.to_nat ntz))), e. split; [|split].
    + etransitivity; [exact E|]. do 2 f_equal. apply nth_ext with (d:=Some 0 : option R) (d':=Some 0 : option R).
      * rewrite !map_length, seq_length. exact Lo.
      * intros k Hk. cbn [nt emb_samp] in *. assert (Hk' : (k < Z.to_nat ntz)%nat) by (rewrite <- Lo; exact Hk).
        etransitivity; [exact (Hv k Hk')|]. rewrite (rings_same p A HN).
        rewrite map_map. match goal with |- context [map ?f (seq 0 (Z.to_nat ntz))] => rewrite (nth_indep (map f (seq 0 (Z.to_nat ntz))) (Some 0) (f 0%nat)) by (rewrite map_length, seq_length; exact Hk'); rewrite (map_nth f) end.
        rewrite seq_nth by exact Hk'. cbn [plus].
        change (nofZ (n:=EN) 0) with (Some 0 : option R).
        etransitivity; [apply (fold_sum (fun j => let m := (Z.of_nat k - (Zrint (ring_tau (p_cp q) A j / p_dt q) + 1))%Z in
                      if (0 <=? m)%Z then ring_w A j * absorbed_ring q ntz alpha A delay o j (Z.to_nat m) else 0))|f_equal; unfold absorbed_annular; ring].
        intros j Hj. apply in_seq in Hj. pose proof (ak_idx q A OK j ltac:(lia)) as Hi.
        set (s := Zrint (ring_tau (p_cp q) A j / p_dt q)) in *. clearbody s. cbv zeta.
        unfold moved. destruct (Nat.leb_spec (Z.to_nat (s + 1)) k) as [Hs|Hs].
        -- replace (0 <=? Z.of_nat k - (s + 1))%Z with true by (symmetry; apply Z.leb_le; lia).
           unfold SpecAnnu.ring, absorbed_ring. destruct j as [|j].
           ++ rewrite nth_disc_list by lia. cbn [nmul EN e2]. do 3 f_equal. lia.
           ++ rewrite !nth_disc_list by lia. cbn [nmul nsub EN e2]. replace (Z.to_nat (Z.of_nat k - (s + 1))) with (k - Z.to_nat (s + 1))%nat by lia. reflexivity.
        -- replace (0 <=? Z.of_nat k - (s + 1))%Z with false by (symmetry; apply Z.leb_gt; lia).
           cbn [nmul nofZ EN e2]. f_equal. ring.
    + now rewrite map_length, seq_length.
    + intros k Hk. match goal with |- context [map ?f (seq 0 (Z.to_nat ntz))] => rewrite (nth_indep (map f (seq 0 (Z.to_nat ntz))) 0 (f 0%nat)) by (rewrite map_length, seq_length; exact Hk); rewrite (map_nth f) end.
      now rewrite seq_nth by exact Hk.
Qed.

(** C115 for dream_arr_annu: every entry of the matrix a call through any front
    end returns. *)
Theorem C115_annular_partial : forall fuel fe nlhs hw env sch junk args alpha p A q ntz l ps dty dl,
  documented fe FArrAnnu args (TArrAnnu p) (emb_samp q ntz) (Some alpha : EN) l (Z.of_nat (length ps)) (exact (coords ps)) dty (exact dl) ->
  names_annular p A -> annular_ok q A ->
  l = lvl_ignore \/ l = lvl_warn -> / 2^52 < alpha -> (0 <= nlhs <= 2)%Z -> (0 < ntz)%Z -> (0 <= hw)%Z ->
  runs_to_end hw env (Z.of_nat (length ps)) sch ->
  (forall n, (n < length ps)%nat -> annular_defined (idx_of fe) fuel q ntz A (start_delay dty dl n) (nth n ps origin)) ->
  returns (gateway fuel exact_ifft fe FArrAnnu nlhs hw env sch junk args) ntz (length ps)
    (fun n k => absorbed_annular 1 q ntz alpha A (start_delay dty dl n) (nth n ps origin) k).
Proof.
  intros fuel fe nlhs hw env sch junk args alpha p A q ntz l ps dty dl D HN OK Hl Ha Hlhs Hnt Hhw Hsch Hdef.
  eapply exact_call_att; eauto.
  - intros p' [= <-]. right. intros j z Hj Ez. rewrite (rings_same p A HN) in Hj.
    rewrite (tau_same p A q HN OK ntz j Hj) in Ez. cbn [dt emb_samp] in Ez.
    destruct (ak_par q A OK) as (_ & _ & Hdt & _). ered. rewrite e_div_ok in Ez by exact Hdt.
    injection Ez as <-. pose proof (ak_idx q A OK j Hj). lia.
  - intros n Hn o.
    destruct (annular_att (idx_of fe) fuel q ntz alpha p A l (start_delay dty dl n) o HN OK (Hdef n Hn) Hnt Hl) as (out & e & E & Lo & Hv).
    exists out, e. split; [exact E|]. split; [|split; [exact Lo|exact Hv]].
    intros ->. destruct (C07_code_any _ _ _ _ _ _ _ _ _ _ _ _ _ _ _ E) as [X|X]; [discriminate X|]. destruct Hl as [-> | ->]; discriminate X.
Qed.
Print Assumptions C115_annular_partial.

(** ** Non-vacuity: the array of C22_exact_ex in a medium of 1/2 dB/(cm MHz). *)
From Coq Require Strings.String.
Import Coq.Strings.String.StringSyntax.
Local Open Scope string_scope.
Definition ex_absorbing_annu : list (value EN) :=
  [@VNum EN Full 1 3 (exact (coords [exo])); erow [1; 2; 3]; erow [1; 1; 1; 10]; erow [0]; erow [1; 1000; 1/2];
   VStr "on"; erow [5]; VStr "gauss"; erow []; erow [1]; VStr "ignore"].
Example C115_annular_ex : forall fe, fe = Octave \/ fe = Matlab ->
  documented fe FArrAnnu ex_absorbing_annu (TArrAnnu exp3) (emb_samp exq 10) (Some (1/2) : EN) lvl_ignore 1 (exact (coords [exo]))
    delay_single (exact [0]).
Proof.
  intros fe Hfe.
  apply (@doc_annu EN fe exp3 (Some 1) 2 (emb_samp exq 10) (Some (1/2)) lvl_ignore 1 (exact (coords [exo])) delay_single (exact [0])
           _ _ _ _ _ _ _ _ _ _ [VStr "ignore"]).
  - destruct Hfe as [-> | ->]; reflexivity.
  - cbn. lia.
  - intros _. reflexivity.
  - intros ->. destruct Hfe; discriminate.
  - destruct Hfe as [-> | ->]; reflexivity.
  - exists Full. split; [reflexivity|]. split; [left; reflexivity|]. split; [lia|reflexivity].
  - apply row_vec.
  - exists (Some 10). split; [apply row_vec|]. change (ntrunc (n:=EN) (Some 10)) with (Some (Ztruncr (IZR 10))).
    rewrite trunc_IZR. destruct fe; reflexivity.
  - left. exists (Some 0). split; [apply row_vec|auto].
  - apply row_vec.
  - left. exists "on", (Some 5). split; [reflexivity|]. split; [cbn; auto 10|]. split; [discriminate|].
    split; [apply row_vec|reflexivity].
  - split; [apply row_vec|]. right. left. exists "gauss". split; [reflexivity|]. split; [left; reflexivity|].
    split; [reflexivity|]. split; [cbn; auto|]. split; [discriminate|reflexivity].
  - left. exists "ignore". cbn. auto.
Qed.
