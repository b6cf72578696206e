(** ProofsAgw.v - proofs about the gateways of the analytic functions. *)
From Coq Require Import Reals.
From Coq Require Strings.String.
Import Coq.Strings.String.StringSyntax.
From Verif Require Import Base BaseLemmas NumR ModelSir ModelArr ModelSmp ModelAna SpecAna ModelGw SpecGw SpecGwR
  ModelAgw SpecAgw ProofsLocal ProofsLocalArr ProofsSmp ProofsSmp2 SpecSmp ProofsCallG SpecSir ProofsEnum ProofsAna ProofsGw.
From Coq Require Import ZifyBool ZifyNat.
Local Open Scope string_scope.
Local Open Scope Z_scope.

Section Agw.
  Context {N : Num}.
  Local Notation buf := (list N).
  Implicit Type v : value N.

  Definition ajob_fits (o : option (ajob N * string)) : Prop :=
    match o with Some (J, _) => 0 <= a_nt J -> wf_ajob J /\ 1 <= Z.of_nat (length (a_delay J)) | None => True end.

  Lemma entry_good fe v i : numval fe v -> 0 <= i < get_m v * get_n v -> good (fun _ => True) (entry fe v i).
  Proof.
    intros Nv Hi. unfold entry. eapply good_bind; [apply (gw_data_good fe v Nv)|]. intros d Hd. cbv beta in Hd.
    apply get_good. lia.
  Qed.

  Lemma ana_geom_good fe f v : numval fe v -> good (fun _ => True) (ana_geom fe f v).
  Proof.
    intros Nv. unfold ana_geom. destruct f.
    - destruct (check_vec fe 1 v) eqn:E; [|exact I]. apply check_vec_len in E.
      eapply good_bind; [apply entry_good; [exact Nv|lia]|]. intros; exact I.
    - destruct (check_vec fe 1 v) eqn:E; [|exact I]. apply check_vec_len in E.
      eapply good_bind; [apply entry_good; [exact Nv|lia]|]. intros; exact I.
    - eapply good_bind; [apply parse_geometry_good; [exact Nv|lia]|]. intros; exact I.
  Qed.

  Lemma ana_numval fe f args i v : ana_tidy fe f args -> nth_error args i = Some v -> (i < 5)%nat \/ f = KSCirc ->
    numval fe v.
  Proof.
    intros [T1 T2] E S. specialize (T2 i v E S). destruct v as [st m n d|s]; [|contradiction].
    destruct (T1 _ (nth_error_In _ _ E)) as [(A & B & C) D]. cbn in D. exists st, m, n, d. auto.
  Qed.

  Lemma parse_ana_good fe f nlhs args : ana_tidy fe f args -> ana_delay_nonempty args ->
    good ajob_fits (parse_ana fe f nlhs args).
  Proof.
    intros T Dn. unfold parse_ana.
    apply require_good; [exact I|]. intros Hlen.
    apply require_good; [exact I|]. intros _.
    assert (HL : (5 <= length args)%nat /\ (f = KSCirc -> (6 <= length args)%nat)).
    { unfold in_bounds in Hlen. destruct f; cbn [ana_arity fst snd] in Hlen; split; intros; try discriminate; lia. }
    destruct HL as [HL HL6].
    eapply good_bind; [apply arg_good; lia|]. intros vo Eo.
    pose proof (ana_numval fe f args 0 vo T Eo ltac:(lia)) as No_.
    apply require_good; [exact I|]. intros Ho. unfold check_obs_points in Ho. cbv zeta.
    eapply good_bind; [apply (gw_data_good fe vo No_)|]. intros ro Hro. cbv beta in Hro.
    eapply good_bind; [apply arg_good; lia|]. intros vg Eg.
    eapply good_bind; [apply ana_geom_good, (ana_numval fe f args 1 vg T Eg); lia|]. intros g _.
    apply andthen_good; [exact I|]. intros _. destruct (p_val g) as [g1 g2].
    eapply good_bind; [apply arg_good; lia|]. intros vs Es.
    pose proof (ana_numval fe f args 2 vs T Es ltac:(lia)) as Ns.
    apply require_good; [exact I|]. intros Hs. apply check_vec_len in Hs.
    eapply good_bind; [apply entry_good; [exact Ns|lia]|]. intros dt _.
    eapply good_bind; [apply entry_good; [exact Ns|lia]|]. intros ntf _.
    eapply good_bind; [apply to_idx_good|]. intros nt _.
    eapply good_bind; [apply arg_good; lia|]. intros vd Ed.
    pose proof (ana_numval fe f args 3 vd T Ed ltac:(lia)) as Nd.
    apply require_good; [exact I|]. intros Hd.
    eapply good_bind; [apply (gw_data_good fe vd Nd)|]. intros del Hdel. cbv beta in Hdel.
    eapply good_bind; [apply arg_good; lia|]. intros vm Em.
    pose proof (ana_numval fe f args 4 vm T Em ltac:(lia)) as Nm.
    apply require_good; [exact I|]. intros Hm. apply check_vec_len in Hm.
    eapply good_bind; [apply entry_good; [exact Nm|lia]|]. intros v _.
    eapply good_bind; [apply entry_good; [exact Nm|lia]|]. intros c _.
    eapply (good_bind (fun _ => True)).
    { unfold ana_int_len. destruct f; try exact I.
      eapply good_bind; [apply arg_good; specialize (HL6 eq_refl); lia|]. intros vn En.
      pose proof (ana_numval fe KSCirc args 5 vn T En (or_intror eq_refl)) as Nn.
      match goal with |- good _ (if ?b then _ else _) => destruct b eqn:Eb end; [|exact I].
      assert (get_m vn * get_n vn = 1) by (destruct fe; lia).
      eapply good_bind; [apply get_good; rewrite (get_data_len fe vn Nn); lia|]. intros x _.
      eapply good_bind; [apply to_idx_good|]. intros n _. destruct (n <? 1); exact I. }
    intros il _. destruct il as [il|]; [|exact I]. destruct (ana_device fe f args) as [dev|]; [|exact I].
    cbn. intros Hnt. specialize (Dn vd Ed). destruct Nd as (st & m & n & d & -> & Hm' & Hn' & Hl & _).
    cbn in Dn, Hdel, Hd |- *. unfold check_delay in Hd. cbn in Hd.
    destruct No_ as (st' & m' & n' & d' & -> & Hm0 & _). cbn in *.
    assert (n' = 3) by lia. subst n'. split; [|lia]. constructor; cbn [a_nt a_No a_Ro a_delay_type a_delay]; try lia.
    unfold delay_type_of. cbn [get_m get_n]. destruct (Z.eqb_spec (m * n) 1); lia.
  Qed.

  Lemma ana_threads_pos (T : analytic N) hw env No : 0 <= hw -> 0 <= No -> 1 <= ana_threads T hw env No.
  Proof.
    intros Hh HN. destruct T; cbn [ana_threads]; apply num_threads_ok; auto.
  Qed.

  Lemma zeros_len (J : ajob N) : length (zeros (N:=N) (a_nt J * a_No J)) = Z.to_nat (a_No J * a_nt J).
  Proof. unfold zeros. rewrite repeat_length. f_equal. lia. Qed.

  Lemma rs_items_any (J : ajob N) items H : wf_ajob J -> 1 <= Z.of_nat (length (a_delay J)) ->
    (forall n, In n items -> 0 <= n < a_No J) -> length H = Z.to_nat (a_No J * a_nt J) ->
    exists H', rs_items J items H = Ok H'.
  Proof.
    intros W Hd Hin HL.
    assert (X : exists a b, a_T J = ARect a b \/ match a_T J with ARect _ _ => False | _ => True end).
    { destruct (a_T J); try (exists (nofZ 0), (nofZ 0); right; exact I). eauto. }
    destruct X as (a & b & [ET|ET]).
    - (* the kernel does not look at the delay type *)
      set (J' := {| a_T := a_T J; a_dt := a_dt J; a_nt := a_nt J; a_v := a_v J; a_cp := a_cp J; a_No := a_No J;
                    a_Ro := a_Ro J; a_delay_type := delay_single; a_delay := a_delay J |}).
      assert (W' : wf_ajob J') by (destruct W; constructor; cbn; auto).
      destruct (rs_items_cols J' a b W' ET eq_refl items Hin H HL) as (H' & E & _).
      exists H'. rewrite <- E. clear. revert H. induction items as [|m items IH]; intros H; cbn [rs_items]; [reflexivity|].
      change (rs_item J' m H) with (rs_item J m H). destruct (rs_item J m H); cbn [bind]; auto.
    - revert H HL. induction items as [|m items IH]; intros H HL; cbn [rs_items]; [eauto|].
      assert (E : rs_item J m H = Ok H).
      { unfold rs_item. destruct (Hin m (or_introl eq_refl)) as [Hm1 Hm2]. pose proof (wa_Ro J W) as R.
        destruct (buf_get_ok (a_delay J) 0) as (? & _ & ->); [lia|]. cbn [bind].
        destruct (buf_get_ok (a_Ro J) m) as (? & _ & ->); [lia|]. cbn [bind].
        destruct (buf_get_ok (a_Ro J) (m + a_No J * 1)%Z) as (? & _ & ->); [lia|]. cbn [bind].
        destruct (buf_get_ok (a_Ro J) (m + a_No J * 2)%Z) as (? & _ & ->); [lia|]. cbn [bind].
        destruct (a_T J); [reflexivity|reflexivity|contradiction]. }
      rewrite E. cbn [bind]. apply IH; auto. intros n Hn. apply Hin. right. exact Hn.
  Qed.

  (** The run, for a well-formed job. *)
  Lemma run_ana_ok fe f cl hw env sch (junk : buf) items dev (J : ajob N) device :
    wf_ajob J -> 1 <= Z.of_nat (length (a_delay J)) -> 0 <= hw -> (forall n, In n items -> 0 <= n < a_No J) ->
    exists o, run_ana fe f cl hw env sch junk items dev J device = Ok o.
  Proof.
    intros W Hd Hh Hin. unfold run_ana. pose proof (wa_nt J W) as Hnt. pose proof (wa_No J W) as HN.
    destruct (Z.ltb_spec (a_nt J) 0); [lia|]. rewrite sir_clear_alloc by auto. cbn [bind].
    destruct (cl && String.eqb device "gpu").
    - destruct (buf_get_ok (a_delay J) 0) as (? & _ & ->); [lia|]. cbn [bind]. unfold rs_gpu.
      destruct (_ =? 0); [|cbn [bind]; eauto].
      destruct (rs_items_any J items (alloc dev (Z.to_nat (a_nt J * a_No J))) W Hd Hin) as (H' & ->).
      { rewrite alloc_length. f_equal. lia. }
      cbn [bind]. eauto.
    - destruct (ana_ok J W _ _ (ana_threads_pos (a_T J) hw env (a_No J) Hh HN) (zeros_len J) (ana_sees f sch)) as (r & -> & _).
      cbn [bind]. destruct r as [[Hr' r]|]; eauto.
  Qed.

  Lemma ana_gateway_good fe f cl nlhs hw env sch (junk : buf) items dev args :
    ana_tidy fe f args -> ana_delay_nonempty args -> 0 <= hw ->
    (forall n vo, In n items -> nth_error args 0 = Some vo -> 0 <= n < get_m vo) ->
    good (fun _ => True) (ana_gateway fe f cl nlhs hw env sch junk items dev args).
  Proof.
    intros T D Hh Hin. unfold ana_gateway.
    destruct (parse_ana fe f nlhs args) as [[[J device]|]|u|] eqn:E; cbn [bind good]; try exact I.
    2:{ pose proof (parse_ana_good fe f nlhs args T D) as X. rewrite E in X. exact X. }
    assert (HNo : exists vo, nth_error args 0 = Some vo /\ a_No J = get_m vo).
    { unfold parse_ana in E. unfold require in E.
      destruct (in_bounds (Z.of_nat (length args)) _ _); [|discriminate].
      destruct (in_bounds nlhs 0 1); [|discriminate].
      unfold arg in E at 1. destruct (nth_error args 0) as [vo|]; [|discriminate]. cbn [bind] in E.
      exists vo. split; [reflexivity|]. revert E.
      destruct (check_obs_points vo); [|discriminate]. cbv zeta.
      repeat match goal with
      | |- bind ?m _ = _ -> _ => destruct m; cbn [bind]; [|discriminate..]
      | |- andthen _ ?p _ = _ -> _ => unfold andthen; destruct (goes_on _ p); [|discriminate]
      | |- (let '(_, _) := ?p in _) = _ -> _ => destruct p
      | |- (if ?b then _ else _) = _ -> _ => destruct b; [|discriminate]
      | |- match ?o with Some _ => _ | None => _ end = _ -> _ => destruct o; [|discriminate]
      end. intros E. injection E as <- _. reflexivity. }
    destruct HNo as (vo & Eo & ENo).
    pose proof (parse_ana_good fe f nlhs args T D) as X. rewrite E in X. cbn [good ajob_fits] in X.
    destruct (Z.ltb_spec (a_nt J) 0) as [Hn|Hn].
    - unfold run_ana. destruct (Z.ltb_spec (a_nt J) 0); [exact I|lia].
    - destruct (X Hn) as [W Hd].
      destruct (run_ana_ok fe f cl hw env sch junk items dev J device W Hd Hh) as (o & ->); [|exact I].
      intros n Hi. rewrite ENo. eauto.
  Qed.

  (** ** Documented calls *)
  Lemma vec_data fe (d : buf) v : vec fe d v -> gw_data fe v = Ok d /\ get_data v = d /\
    get_m v * get_n v = Z.of_nat (length d) /\ ((get_m v = 1 /\ get_n v = Z.of_nat (length d)) \/ (get_m v = Z.of_nat (length d) /\ get_n v = 1)).
  Proof.
    intros (st & m & n & -> & _ & H). cbn. destruct fe; (split; [reflexivity|]); (split; [reflexivity|]); split; auto; nia.
  Qed.
  Lemma vec_check fe (d : buf) v num : has_analytic fe -> vec fe d v -> num = Z.of_nat (length d) -> check_vec fe num v = true.
  Proof.
    intros F V ->. destruct (vec_data fe d v V) as (_ & _ & _ & H). unfold check_vec.
    destruct F as [->| ->]; destruct H as [[E1 E2]|[E1 E2]]; rewrite E1, E2; rewrite !Z.eqb_refl; cbn [andb]; now rewrite ?Bool.orb_true_r.
  Qed.
  Lemma vec_entry fe (d : buf) v i x : vec fe d v -> nth_error d (Z.to_nat i) = Some x -> 0 <= i -> entry fe v i = Ok x.
  Proof.
    intros V E Hi. unfold entry. destruct (vec_data fe d v V) as (-> & _). cbn [bind].
    assert (Hl : (Z.to_nat i < length d)%nat) by (apply nth_error_Some; congruence).
    destruct (buf_get_ok d i) as (y & Ey & ->); [lia|]. congruence.
  Qed.

  Lemma to_idx_ok (K : idx_kind) n : 0 <= n < 2^63 -> to_idx K (Some n) = Ok n.
  Proof.
    intros H. unfold to_idx. destruct K.
    - destruct (Z.leb_spec (-2^63) n); [|lia]. destruct (Z.ltb_spec n (2^63)); [reflexivity|lia].
    - destruct (Z.leb_spec 0 n); [|lia]. destruct (Z.ltb_spec n (2^64)); [reflexivity|lia].
  Qed.

  Lemma ana_documented_call fe f nlhs args (J : ajob N) dev : has_analytic fe -> 0 <= nlhs <= 1 ->
    ana_documented fe f args J dev -> parse_ana fe f nlhs args = Ok (Some (J, dev)).
  Proof.
    intros F Hl (vo & vg & vs & vd & vm & tail & g & ntf & -> & (sto & -> & Oo & HN & Lo) & Vg & Nm & Vs & Et & Hnt & Dg & Vm).
    unfold parse_ana.
    assert (B1 : in_bounds (Z.of_nat (length (VNum sto (a_No J) 3 (a_Ro J) :: vg :: vs :: vd :: vm :: tail)))
                   (fst (ana_arity f)) (snd (ana_arity f)) = true).
    { unfold in_bounds. destruct Nm; cbn [length ana_arity fst snd]; lia. }
    rewrite B1. unfold require at 1.
    assert (B2 : in_bounds nlhs 0 1 = true) by (unfold in_bounds; lia). rewrite B2. unfold require at 1.
    unfold arg. cbn [nth_error bind]. unfold check_obs_points. cbn [get_n get_m]. cbn [Z.eqb Pos.eqb]. unfold require at 1.
    assert (E0 : gw_data fe (VNum sto (a_No J) 3 (a_Ro J)) = Ok (a_Ro J)) by (destruct F as [->| ->]; reflexivity).
    rewrite E0. cbn [bind].
    assert (Eg : exists g1 g2, ana_geom fe f vg = Ok (accept (g1, g2)) /\
       a_T J = match f with KCirc => ACirc g1 | KSCirc => ASCirc g1 (match a_T J with ASCirc _ n => n | _ => 0 end) | KRect => ARect g1 g2 end).
    { destruct Nm as [r|r x vn n ? ? ?|a b|a b s].
      1,2: exists r, (nofZ 0); split; [|reflexivity]; unfold ana_geom;
           rewrite (vec_check fe [r] vg 1 F Vg eq_refl), (vec_entry fe [r] vg 0 r Vg eq_refl) by lia; reflexivity.
      all: exists a, b; split; [|reflexivity]; unfold ana_geom, parse_geometry;
           rewrite (vec_check fe [a; b] vg 2 F Vg eq_refl); cbn [negb];
           destruct Vg as (st & m & n & -> & Og & Hg); cbn [length] in Hg;
           assert (Ep : parser_data fe (VNum st m n [a; b]) = Ok [a; b])
             by (cbn in Og; destruct Og as [->|(_ & -> & -> & _)]; [destruct fe; reflexivity|lia]);
           change (2 =? 1) with false; cbv iota; rewrite Ep; reflexivity. }
    destruct Eg as (g1 & g2 & Eg & ET). rewrite Eg. cbn [bind]. unfold andthen, goes_on.
    assert (Eok : (match fe with Matlab => negb (p_msg (accept (g1, g2))) | _ => p_ok (accept (g1, g2)) end) = true) by (destruct F as [->| ->]; reflexivity).
    rewrite Eok. cbn [p_val accept].
    rewrite (vec_check fe _ vs 2 F Vs eq_refl). unfold require at 1.
    rewrite (vec_entry fe _ vs 0 (a_dt J) Vs eq_refl) by lia. cbn [bind].
    rewrite (vec_entry fe _ vs 1 ntf Vs eq_refl) by lia. cbn [bind].
    rewrite Et, to_idx_ok by lia. cbn [bind].
    assert (Ed : check_delay vd (a_No J) = true /\ gw_data fe vd = Ok (a_delay J) /\ delay_type_of vd = a_delay_type J).
    { destruct Dg as [(d & Vd & -> & ->)|(Vd & Ld & Hn1 & ->)]; destruct (vec_data fe _ vd Vd) as (A & _ & B & _);
        unfold check_delay, delay_type_of; rewrite B; cbn [length]; (split; [|split; [exact A|]]).
      - reflexivity.
      - reflexivity.
      - lia.
      - destruct (Z.eqb_spec (Z.of_nat (length (a_delay J))) 1); [lia|reflexivity]. }
    destruct Ed as (Ed1 & Ed2 & Ed3). rewrite Ed1. unfold require at 1. rewrite Ed2. cbn [bind].
    rewrite (vec_check fe _ vm 2 F Vm eq_refl). unfold require at 1.
    rewrite (vec_entry fe _ vm 0 (a_v J) Vm eq_refl) by lia. cbn [bind].
    rewrite (vec_entry fe _ vm 1 (a_cp J) Vm eq_refl) by lia. cbn [bind].
    assert (El : exists il, ana_int_len fe f (VNum sto (a_No J) 3 (a_Ro J) :: vg :: vs :: vd :: vm :: tail) = Ok (Some il) /\
      ana_device fe f (VNum sto (a_No J) 3 (a_Ro J) :: vg :: vs :: vd :: vm :: tail) = Some dev /\
      match f with KCirc => ACirc g1 | KSCirc => ASCirc g1 il | KRect => ARect g1 g2 end = a_T J).
    { destruct Nm as [r|r x vn n Vn En Hn|a b|a b s]; cbn in ET.
      - exists 1. split; [reflexivity|]. split; [destruct F as [->| ->]; reflexivity|now symmetry].
      - exists n. split; [|split; [destruct F as [->| ->]; reflexivity|now symmetry]].
        unfold ana_int_len, arg. cbn [nth_error bind]. destruct (vec_data fe _ vn Vn) as (_ & Gd & B & C). cbn [length] in B, C.
        assert (Eb : (match fe with Octave => get_m vn * get_n vn =? 1 | _ => (get_m vn =? 1) && (get_n vn =? 1) end) = true)
          by (destruct fe; lia).
        rewrite Eb, Gd. change (buf_get [x] 0) with (Ok x). cbn [bind]. rewrite En, to_idx_ok by lia. cbn [bind].
        destruct (Z.ltb_spec n 1); [lia|reflexivity].
      - exists 1. split; [reflexivity|]. split; [destruct F as [->| ->]; reflexivity|now symmetry].
      - exists 1. split; [reflexivity|]. split; [destruct F as [->| ->]; reflexivity|now symmetry]. }
    destruct El as (il & E1 & E2 & E3). rewrite E1. cbn [bind]. rewrite E2, E3, Ed3.
    destruct J; reflexivity.
  Qed.

  Lemma ana_documented_wf fe f args (J : ajob N) dev : ana_documented fe f args J dev ->
    wf_ajob J /\ 1 <= Z.of_nat (length (a_delay J)) \/ (wf_ajob J /\ a_No J = 0).
  Proof.
    intros (vo & vg & vs & vd & vm & tail & g & ntf & -> & (sto & -> & Oo & HN & Lo) & Vg & Nm & Vs & Et & Hnt & Dg & Vm).
    destruct Dg as [(d & Vd & E1 & E2)|(Vd & Ld & Hn1 & E1)].
    - left. split; [|rewrite E2; cbn; lia]. constructor; rewrite ?E1, ?E2; cbn [length]; lia.
    - assert (W : wf_ajob J) by (constructor; rewrite ?E1; lia).
      destruct (Z.eq_dec (a_No J) 0); [right; auto|left; split; [exact W|lia]].
  Qed.
  Lemma ana_documented_wf' fe f args (J : ajob N) dev : ana_documented fe f args J dev -> wf_ajob J.
  Proof. intros D. destruct (ana_documented_wf fe f args J dev D) as [[W _]|[W _]]; exact W. Qed.

  (** The outcome of a documented call on the CPU. *)
  Lemma ana_cpu_run fe f cl nlhs hw env sch (junk : buf) items dv args (J : ajob N) dev :
    has_analytic fe -> 0 <= nlhs <= 1 -> ana_documented fe f args J dev -> cl = false \/ dev <> "gpu" ->
    ana_gateway fe f cl nlhs hw env sch junk items dv args =
    do r <- ana_call J (ana_threads (a_T J) hw env (a_No J)) (ana_sees f sch) (zeros (a_nt J * a_No J));
    match r with
    | None => Ok None
    | Some (H, running) =>
      Ok (Some (if running then AReturned H (a_nt J) (a_No J) false
                else match fe with Matlab => ACtrlC | _ => AReturned H (a_nt J) (a_No J) true end))
    end.
  Proof.
    intros F Hl D Hcpu. unfold ana_gateway. rewrite (ana_documented_call fe f nlhs args J dev F Hl D). cbn [bind].
    pose proof (ana_documented_wf' fe f args J dev D) as W.
    unfold run_ana. pose proof (wa_nt J W). pose proof (wa_No J W).
    destruct (Z.ltb_spec (a_nt J) 0); [lia|]. rewrite sir_clear_alloc by auto. cbn [bind].
    assert (E : cl && String.eqb dev "gpu" = false).
    { destruct Hcpu as [->|Hg]; [reflexivity|]. destruct (String.eqb_spec dev "gpu"); [contradiction|]. now rewrite Bool.andb_false_r. }
    rewrite E. reflexivity.
  Qed.

  Lemma sees_no_ctrlc f sch : f = KRect \/ no_ctrlc sch -> existsb is_ctrlc (ana_sees f sch) = false.
  Proof.
    intros H. assert (X : no_ctrlc (ana_sees f sch)).
    { destruct H as [->|H].
      - unfold no_ctrlc, ana_sees. rewrite filter_In. intros [_ H]. discriminate.
      - destruct f; cbn [ana_sees]; auto. unfold no_ctrlc. rewrite filter_In. intros [_ X]. discriminate. }
    exact (existsb_ctrlc _ X).
  Qed.
  Lemma steps_sees f sch i : steps_of i (ana_sees f sch) = steps_of i sch.
  Proof.
    destruct f; cbn [ana_sees]; try reflexivity.
    unfold steps_of. f_equal. f_equal. induction sch as [|e sch IH]; [reflexivity|]. destruct e as [j|]; cbn [filter]; [|exact IH].
    destruct (Nat.eqb i j); [f_equal|]; exact IH.
  Qed.
End Agw.
