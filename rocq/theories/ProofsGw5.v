(** ProofsGw5.v - documented calls through the gateways. *)
From Coq Require Strings.String Strings.Ascii.
Import Coq.Strings.String.StringSyntax.
From Verif Require Import Base BaseLemmas ModelSir ModelArr ModelSmp ProofsLocal ProofsLocalArr
  ProofsSmp ProofsCall SpecSmp ProofsSmp2 ProofsErr ProofsStatus SpecSir ProofsEnum
  ModelGw SpecGw ProofsGw ProofsGw3 ProofsGw4 SpecAnnu ProofsAnnu ProofsLoop.
From Coq Require Import ZifyBool ZifyNat.
Local Open Scope Z_scope.
Ltac Zify.zify_post_hook ::= Z.div_mod_to_equations.

Section Doc.
  Context {N : Num}.
  Local Notation buf := (list N).

  Lemma documented_call fuel c2r fe f nlhs args T (q : samp N) alpha l No ro dty del :
    0 <= nlhs <= 2 -> documented fe f args T q alpha l No ro dty del ->
    parse_call fuel c2r fe f nlhs args = Ok (Some (requested fuel c2r T q alpha l No ro dty del)).
  Proof.
    intros Hl D. unfold requested.
    destruct D as [f g T q alpha l No ro dty del vo vg vs vd vm tail H1 H2 H3 (ntf & H4 & H4') H5 H6 H7
                  |f g m x T q alpha l No ro dty del vo vg vs vd vm v5 v6 tail H1 H2 H3 (ntf & H4 & H4') H5 H6 H7 H8
                  |f g p w T q alpha l No ro dty del vo vg va vs vd vm v6 v7 v8 v9 v10 v11 v12 tail
                     H1 Hn Hw H2 H3 H3' (ntf & H4 & H4') H5 H6 H7 H8 H9 H10
                  |p w num q alpha l No ro dty del vo vr vs vd vm v5 v6 v7 v8 v9 tail
                     Hn H1 Hj Hp Hw H2 H3 (ntf & H4 & H4') H5 H6 H7 H8 H9].
    - eapply single_call; eassumption.
    - eapply focused_call; eassumption.
    - eapply array_call; try eassumption. destruct p. cbn in *. subst. exact H1.
    - destruct p. cbn in *. rewrite Hw. subst num. eapply annu_call; try eassumption.
  Qed.

  Lemma delay_given_fits fe No vd dty (del : buf) : 0 <= No -> delay_given fe No vd dty del ->
    match dty with delay_single => 1 | delay_multiple => No end <= Z.of_nat (length del).
  Proof.
    intros HN [(d & _ & -> & ->)|(_ & E & _ & ->)]; cbn [length]; lia.
  Qed.

  Lemma focus_given_len fe num vs v m (fb : buf) : 1 <= num -> focus_given fe num vs v m fb ->
    Z.of_nat (length fb) = num.
  Proof.
    intros Hn [(s & x & _ & _ & _ & _ & ->)|(_ & _ & _ & E & _)]; [|exact E].
    cbn [length]. rewrite repeat_length. lia.
  Qed.
  Lemma apod_given_len fe num vs v vp on m (ab : buf) w : 1 <= num -> apod_given fe num vs v vp on m ab w ->
    Z.of_nat (length ab) = num.
  Proof.
    intros Hn [_ [(_ & _ & _ & _ & ->)|[(s & _ & _ & _ & _ & _ & ->)|(_ & _ & _ & _ & E & _)]]];
      rewrite ?repeat_length; lia.
  Qed.

  Lemma documented_wf fuel c2r fe f args T (q : samp N) alpha l No ro dty del :
    keeps_length c2r -> 0 <= nt q -> rings_in_time fe T q ->
    documented fe f args T q alpha l No ro dty del ->
    wf_job (idx_of fe) (requested fuel c2r T q alpha l No ro dty del).
  Proof.
    intros Hk Hnt Hu D.
    assert (Hb : 0 <= No /\ Z.of_nat (length ro) = 3 * No /\
                 match dty with delay_single => 1 | delay_multiple => No end <= Z.of_nat (length del)).
    { assert (X : exists vo vd, mat3 fe No ro vo /\ delay_given fe No vd dty del) by (destruct D; eauto).
      destruct X as (vo & vd & (st & _ & _ & H0 & H3) & Hd). split; [exact H0|]. split; [lia|].
      eapply delay_given_fits; eauto. }
    destruct Hb as (HN & Hr & Hd).
    split; cbn [requested asks j_q j_No j_Ro j_delay_type j_delay j_att j_T nt]; auto.
    - apply (att_wf_make c2r (nt q) (dt q) alpha Hk).
    - destruct D as [f g T q alpha l No ro dty del vo vg vs vd vm tail H1 _ _ _ _ _ _
                  |f g m x T q alpha l No ro dty del vo vg vs vd vm v5 v6 tail H1 _ _ _ _ _ _ _
                  |f g p w T q alpha l No ro dty del vo vg va vs vd vm v6 v7 v8 v9 v10 v11 v12 tail
                     H1 Hn Hw _ _ Ma _ _ _ Fo _ Ap _
                  |p w num q alpha l No ro dty del vo vr vs vd vm v5 v6 v7 v8 v9 tail
                     En H1 _ _ _ _ _ _ _ _ Fo Ap _].
      + destruct f; cbn in H1; try discriminate H1; destruct g as [|a [|b [|c [|]]]]; try discriminate H1;
          injection H1 as <-; exact I.
      + destruct f; cbn in H1; try discriminate H1; destruct g as [|a [|b [|c [|]]]]; try discriminate H1;
          injection H1 as <-; exact I.
      + assert (W : wf_arr p).
        { pose proof (focus_given_len _ _ _ _ _ _ Hn Fo). pose proof (apod_given_len _ _ _ _ _ _ _ _ _ Hn Ap).
          destruct Ma as (st & _ & _ & _ & E). split; auto; try lia. destruct (FocusMet_is_ud (foc_met p)); lia. }
        destruct f; cbn in H1; try discriminate H1; destruct g as [|a [|b [|c [|]]]]; try discriminate H1;
          injection H1 as <-; exact W.
      + assert (Hn : 1 <= num) by (subst num; destruct fe; lia).
        assert (Hn' : annu_num p <= num) by (unfold annu_num; subst num; destruct fe; lia).
        pose proof (focus_given_len _ _ _ _ _ _ Hn Fo). pose proof (apod_given_len _ _ _ _ _ _ _ _ _ Hn Ap).
        assert (Hlen : (if FocusMet_is_ud (an_foc_met p) then annu_num p else 1) <= Z.of_nat (length (an_focal p)))
          by (destruct (FocusMet_is_ud (an_foc_met p)); lia).
        cbn [wf_transducer]. split; auto; try lia. cbn [dt cp].
        destruct (Hu p eq_refl) as [Hu'|Hu']; [left; exact Hu'|right]. intros n fo rr ring rmax z Er Hrr Hmax Hfo Hz.
        destruct (radii_E (Gr p) H1) as (r & Er' & Lr & Hr'). rewrite Er in Er'. injection Er' as <-.
        assert (Hn0 : 0 <= n < Z.of_nat (length ring)).
        { apply buf_get_inv in Hrr. lia. }
        rewrite (get_nth ring n (nofZ 0)) in Hrr by lia. injection Hrr as <-.
        rewrite (get_nth ring _ (nofZ 0)) in Hmax by (unfold annu_num, rings in *; lia). injection Hmax as <-.
        rewrite (get_nth (an_focal p) _ (nofZ 0)) in Hfo by (unfold annu_num, rings in *; destruct (FocusMet_is_ud (an_foc_met p)); lia).
        injection Hfo as <-. rewrite !Hr' in Hz by (unfold annu_num, rings in *; lia).
        apply (Hu' (Z.to_nat n)); [lia|]. unfold ring_delay.
        replace (rings (Gr p) - 1)%nat with (Z.to_nat (annu_num p - 1)) by (unfold annu_num, rings; lia).
        replace (if FocusMet_is_ud (an_foc_met p) then Z.to_nat n else 0%nat)
          with (Z.to_nat (if FocusMet_is_ud (an_foc_met p) then n else 0)) by (destruct (FocusMet_is_ud (an_foc_met p)); lia).
        exact Hz.
  Qed.

  (** One point of the call. *)
  Lemma one_point_serial fe (J : job N) n xo yo zo d : 0 <= n -> 0 <= j_No J -> point_is J n xo yo zo d ->
    one_point fe J n = serial (idx_of fe) (j_fuel J) (j_T J) (j_q J) (j_att J) (j_lvl J) xo yo zo d 0 (zeros (nt (j_q J))).
  Proof.
    intros Hn HN (E1 & E2 & E3 & E4).
    assert (G : forall (b : buf) k x, 0 <= k -> nth_error b (Z.to_nat k) = Some x -> buf_get b k = Ok x).
    { intros b k x Hk E. destruct (buf_get_ok b k) as (y & E' & Ey).
      - split; [exact Hk|]. assert (Z.to_nat k < length b)%nat by (apply nth_error_Some; congruence). lia.
      - congruence. }
    unfold one_point, alone. rewrite (G _ _ _ Hn E1). cbn [bind].
    rewrite (G _ (n + 1 * j_No J) yo) by (try lia; rewrite Z.mul_1_l; exact E2). cbn [bind].
    rewrite (G _ (n + 2 * j_No J) zo) by (try lia; exact E3). cbn [bind].
    rewrite (G _ _ d).
    - reflexivity.
    - destruct (j_delay_type J); lia.
    - destruct (j_delay_type J); exact E4.
  Qed.

  Lemma point_is_ex K (J : job N) n : wf_job K J -> 0 <= n < j_No J -> exists xo yo zo d, point_is J n xo yo zo d.
  Proof.
    intros W Hn. destruct (point_args K J W n Hn) as (xo & yo & zo & d & E1 & E2 & E3 & E4).
    exists xo, yo, zo, d. apply buf_get_inv in E1 as [_ E1], E2 as [_ E2], E3 as [_ E3], E4 as [_ E4].
    rewrite Z.mul_1_l in E2. unfold point_is. repeat split; auto. destruct (j_delay_type J); exact E4.
  Qed.
End Doc.

(** Calls that differ in one argument only. *)
Section Ignored.
  Context {N : Num}.
  Variables (fe : front) (a b : list (value N)) (k : nat).
  Hypothesis Hlen : length a = length b.
  Hypothesis Hsame : forall i, i <> k -> nth_error a i = nth_error b i.

  Lemma arg_same i : i <> k -> arg a i = arg b i.
  Proof. intros H. unfold arg. now rewrite Hsame. Qed.
  Lemma num_arg_same i : i <> k -> num_arg fe a i = num_arg fe b i.
  Proof. intros H. unfold num_arg. now rewrite arg_same. Qed.
  Lemma common_same {B} p No (f g : samp N * N * DelayType * list N -> res (option B)) :
    p <> k -> (p + 1)%nat <> k -> (p + 2)%nat <> k -> (forall x, f x = g x) ->
    parse_common fe a p No f = parse_common fe b p No g.
  Proof.
    intros H1 H2 H3 Hfg. unfold parse_common. rewrite !num_arg_same by assumption.
    apply bind_ext. intros vs _. apply bind_ext. intros sp _. unfold andthen.
    destruct (goes_on fe sp); [|reflexivity]. destruct (p_val sp) as [[[? ?] ?] ?].
    apply bind_ext. intros vd _. unfold require. destruct (check_delay vd No); [|reflexivity].
    apply bind_ext. intros del _. apply bind_ext. intros vm _. apply bind_ext. intros mp _.
    destruct (goes_on fe mp); [|reflexivity]. destruct (p_val mp) as [[? ?] ?]. apply Hfg.
  Qed.
  Lemma level_same {B} f (h g : ErrorLevel -> res (option B)) : err_pos f <> k -> (forall x, h x = g x) ->
    parse_level fe f a h = parse_level fe f b g.
  Proof.
    intros H1 Hfg. unfold parse_level. rewrite Hlen. destruct (reads_err fe f (Z.of_nat (length b))); [|apply Hfg].
    rewrite arg_same by assumption. apply bind_ext. intros v _. unfold andthen.
    destruct (goes_on fe (parse_error_arg fe v)); [apply Hfg|reflexivity].
  Qed.

  Lemma andthen_same {A B} (p : parsed A) (f g : A -> res (option B)) :
    (forall x, f x = g x) -> andthen fe p f = andthen fe p g.
  Proof. intros H. unfold andthen. now rewrite H. Qed.
  Lemma require_same {B} c (x y : res (option B)) : x = y -> require c x = require c y.
  Proof. intros ->. reflexivity. Qed.

  Lemma parse_same fuel c2r f nlhs : (fe = Python \/ fe = Julia) ->
    match apod_pos f with Some p => k = (p + 2)%nat | None => False end -> (k < length a)%nat ->
    parse_call fuel c2r fe f nlhs a = parse_call fuel c2r fe f nlhs b.
  Proof.
    intros Hfe Hk Hka.
    assert (HA : forall vs v x x' num ap0, parse_apod_args fe vs v x num ap0 = parse_apod_args (N:=N) fe vs v x' num ap0)
      by (intros; destruct Hfe as [-> | ->]; reflexivity).
    assert (exists x x', arg a k = Ok x /\ arg b k = Ok x') as (x & x' & Ex & Ex').
    { unfold arg. destruct (nth_error a k) eqn:E1; [|apply nth_error_None in E1; lia].
      destruct (nth_error b k) eqn:E2; [|apply nth_error_None in E2; lia]. eauto. }
    unfold parse_call. rewrite Hlen. cbv zeta.
    apply require_same. apply require_same.
    assert (Hk' : k = 12%nat \/ k = 9%nat) by (destruct f; cbn in Hk; lia).
    rewrite !num_arg_same by (destruct Hk' as [-> | ->]; lia).
    apply bind_ext. intros vo _. apply require_same.
    apply bind_ext. intros ro _.
    destruct f; cbn in Hk; try contradiction; rewrite Hk in Ex, Ex'.
    1-3: apply bind_ext; intros vg _; apply bind_ext; intros g _; apply andthen_same; intros [[? ?] ?];
      rewrite ?num_arg_same by lia; apply bind_ext; intros va _; apply require_same; apply bind_ext; intros gg _;
      (apply common_same; [lia|lia|lia|]); intros [[[q alpha] dty] del];
      rewrite ?(arg_same 6), ?(arg_same 8), ?(arg_same 10), ?(arg_same 11), ?num_arg_same by lia;
      apply bind_ext; intros v6 _; apply bind_ext; intros v7 _; apply bind_ext; intros fo _;
      apply andthen_same; intros [? ?]; 
      apply bind_ext; intros v8 _; apply bind_ext; intros v9 _; apply bind_ext; intros st _;
      apply andthen_same; intros [[? ?] ?]; rewrite ?(arg_same 10), ?(arg_same 11) by lia;
      apply bind_ext; intros v10 _; apply bind_ext; intros v11 _; rewrite Ex, Ex'; cbn [bind];
      rewrite (HA v10 v11 x x'); apply bind_ext; intros ap _; apply andthen_same; intros [[[? ?] ?] ?];
      (apply level_same; [cbn; lia|]); reflexivity.
    apply bind_ext; intros vr _. apply require_same. apply require_same.
    apply bind_ext; intros gr _.
    match goal with |- (if ?c then _ else _) = _ => destruct c; [reflexivity|] end.
    apply common_same; [lia|lia|lia|]. intros [[[q alpha] dty] del].
    rewrite ?(arg_same 5), ?(arg_same 7), ?(arg_same 8), ?num_arg_same by lia.
    apply bind_ext; intros v5 _; apply bind_ext; intros v6 _; apply bind_ext; intros fo _.
    apply andthen_same; intros [? ?].
    rewrite ?(arg_same 7), ?(arg_same 8) by lia.
    apply bind_ext; intros v7 _; apply bind_ext; intros v8 _. rewrite Ex, Ex'. cbn [bind].
    rewrite (HA v7 v8 x x'). apply bind_ext; intros ap _. apply andthen_same; intros [[[? ?] ?] ?].
    apply level_same; [cbn; lia|]. reflexivity.
  Qed.
End Ignored.
