(** PropSig.v - property theorems about signal handling: the host's handlers
    after a call (C81), CTRL-C during a call (C82), CTRL-C after a call (C83). *)
From Verif Require Import Base ModelGw ModelSig SpecSig ProofsSig.

(** ** C81: a call leaves the process's signal handlers as it found them *)

(** copy_p, add_p, conv_p, fftconv_p, fftconv_ola, sum_fftconv, circ_sir and
    scirc_sir in every front end that has them: whatever signals arrive and
    when, a call that computed - with or without CTRL-C - leaves every handler
    as it was.  (What is missing: the other functions, and calls refused after
    the handlers were replaced.) *)
Theorem C81_restored_partial : forall fe f p evs p' out,
  In f tidy_functions -> offered fe f = true ->
  call fe f p evs = Some (p', out) -> out <> Refused ->
  forall s, tbl p' s = tbl p s.
Proof.
  intros fe f p evs p' out Hf Ho H Hr s. rewrite (call_tbl _ _ _ _ _ _ H Hr).
  destruct Hf as [<-|[<-|[<-|[<-|[<-|[<-|[<-|[<-|[]]]]]]]]]; destruct fe; try discriminate; destruct s; reflexivity.
Qed.
Print Assumptions C81_restored_partial.

(** circ_sir and scirc_sir restore them however the call ends. *)
Theorem C81_analytic : forall fe f p evs p' out,
  f = SCircSir \/ f = SScircSir -> call fe f p evs = Some (p', out) ->
  forall s, tbl p' s = tbl p s.
Proof.
  intros fe f p evs p' out Hf H s.
  assert (D : out = Refused \/ out <> Refused) by (destruct out; auto; right; discriminate).
  destruct D as [->|Hr].
  - clear -Hf H. unfold call in H.
    assert (Hs : exists v, script fe f = Test :: (take_all ++ [Start; Work] ++ give_all ++ [Verdict v]))
      by (destruct Hf as [-> | ->]; eexists; reflexivity).
    destruct Hs as [v Hs]. rewrite Hs in H. clear Hs.
    assert (G : forall evs ops saved pr p, ~ In Test ops -> run_call f ops saved pr p evs <> Some (p', Refused)).
    { clear. induction evs as [|e r IH]; intros ops saved pr p Hn; cbn [run_call]; [discriminate|].
      assert (Hn' : forall o l, ops = o :: l -> ~ In Test l) by (intros o l -> Hi; apply Hn; right; exact Hi).
      destruct e as [| | |s].
      - destruct ops as [|[|s|s| | |v] o]; try (apply IH; exact (Hn' _ _ eq_refl)).
        + destruct r, pr; discriminate.
        + destruct (flag p f); [apply IH; exact (Hn' _ _ eq_refl)|].
          destruct v; [destruct r; discriminate|apply IH; exact (Hn' _ _ eq_refl)].
      - destruct ops as [|[]]; try discriminate. exfalso. apply Hn. left; reflexivity.
      - destruct ops as [|[]]; try discriminate. destruct (can_stop f); [|discriminate].
        apply IH; exact (Hn' _ _ eq_refl).
      - apply IH, Hn. }
    assert (Hn : ~ In Test (take_all ++ [Start; Work] ++ give_all ++ [Verdict v])).
    { cbn. intros Hi. repeat (destruct Hi as [Hi|Hi]; [discriminate|]). exact Hi. }
    revert p H. generalize (fun _ : signal => Host) as sv.
    induction evs as [|e r IH]; intros sv p H; cbn [run_call] in H; [discriminate|].
    destruct e as [| | |x].
    + exfalso. exact (G _ _ _ _ _ Hn H).
    + destruct r; [|discriminate]. injection H as <-. reflexivity.
    + discriminate.
    + rewrite (IH _ _ H), deliver_tbl. reflexivity.
  - rewrite (call_tbl _ _ _ _ _ _ H Hr). destruct Hf as [-> | ->]; destruct fe, s; reflexivity.
Qed.
Print Assumptions C81_analytic.

(** No function changes a handler before its arguments have passed the first
    checks. *)
Theorem C81_rejected : forall fe f p sigs p' out,
  call fe f p (map Sig sigs ++ [Fail]) = Some (p', out) ->
  out = Refused /\ forall s, tbl p' s = tbl p s.
Proof.
  intros fe f p sigs p' out. unfold call.
  assert (Hs : exists o, script fe f = Test :: o) by (destruct f as [[]| | | | | | | | | | |], fe; eexists; reflexivity).
  destruct Hs as [o ->]. generalize (fun _ : signal => Host) as sv. revert p.
  induction sigs as [|x r IH]; intros p sv; cbn [map app run_call].
  - intros [= <- <-]. auto.
  - intros H. destruct (IH _ _ H) as [H1 H2]. split; [exact H1|].
    intros s. rewrite H2, deliver_tbl. reflexivity.
Qed.
Print Assumptions C81_rejected.

(** The statement is false for the transducer functions: after every call that
    passed its checks CTRL-C is in the hands of the library, for das and
    rect_sir SIGABRT is. *)
Theorem C81_refuted_kept : forall fe f p evs p' out,
  call fe f p evs = Some (p', out) -> out <> Refused ->
  (transducer_call fe f -> tbl p' SigInt = Lib f) /\
  (f = SDas \/ f = SRectSir -> tbl p' SigAbrt = Lib f).
Proof.
  intros fe f p evs p' out H Hr. rewrite (call_tbl _ _ _ _ _ _ H Hr). split.
  - intros (t & -> & Ht). destruct t; try reflexivity. destruct (Ht eq_refl) as [-> | ->]; reflexivity.
  - intros [-> | ->]; destruct fe; reflexivity.
Qed.
Print Assumptions C81_refuted_kept.

(** And false for calls refused after the handlers were replaced, e.g. an output
    matrix of the wrong size in conv_p (Octave), fftconv_p, fftconv_ola and
    sum_fftconv (Octave, MATLAB), or a wisdom string FFTW does not accept. *)
Theorem C81_refuted_early_exit : forall fe f p,
  (fe = Octave /\ In f [SConv; SFft; SOla; SSum]) \/ (fe = Matlab /\ In f [SFft; SOla; SSum]) ->
  exists p', call fe f p [Next; Next; Next; Next; Fail] = Some (p', Refused) /\
    forall s, tbl p' s = Lib f.
Proof.
  intros fe f p [[-> Hf]|[-> Hf]]; cbn in Hf;
    repeat (destruct Hf as [<-|Hf]; [eexists; split; [reflexivity|intros []; reflexivity]|]); destruct Hf.
Qed.
Print Assumptions C81_refuted_early_exit.

(** ** C82: CTRL-C during a call stops it *)

(** Pressed while the workers run, whatever happens before and after: the
    transducer functions and, in MATLAB, all others that take the signal end
    with an error; so do copy_p, add_p, fftconv_p and fftconv_ola in Octave,
    where the rest prints the message and returns. *)
Theorem C82_stops_partial : forall fe f p e1 e2 p' out,
  offered fe f = true -> computing fe f e1 ->
  call fe f p (e1 ++ Sig SigInt :: e2) = Some (p', out) ->
  (transducer_call fe f -> out = Failed) /\
  (fe = Matlab -> In f tidy_functions -> out = Failed) /\
  (fe = Octave -> In f [SCopy; SAdd; SFft; SOla] -> out = Failed) /\
  (fe = Octave -> In f [SConv; SSum; SCircSir; SScircSir] -> out = Printed).
Proof.
  intros fe f p e1 e2 p' out Ho Hc H.
  assert (K : forall d o, script fe f = d ++ Work :: o -> ~ In Work d -> ~ In Work o ->
     eff f d (fun _ => Host) (tbl p) SigInt = Lib f -> forall w, (forall pr, low_end o pr = Some w) -> out = w).
  { intros d o Hs Hd Hw He w Hl.
    destruct (computing_low fe f e1 e2 p p' out d o Hc H Hs Hd Hw He) as [pr Hp]; [rewrite Hl; discriminate..|].
    rewrite Hl in Hp. congruence. }
  assert (N : forall d, existsb (fun o => match o with Work => true | _ => false end) d = false -> ~ In Work d).
  { intros d Hd Hi. assert (existsb (fun o => match o with Work => true | _ => false end) d = true)
      by (apply existsb_exists; exists Work; auto). congruence. }
  repeat apply conj.
  - intros (t & -> & Ht). destruct t; try (apply (K [Test; Take SigInt; Start] [Verdict VError]); try reflexivity; apply N; reflexivity).
    destruct (Ht eq_refl) as [-> | ->]; apply (K [Test; Take SigInt; Start] [Verdict VError]); try reflexivity; apply N; reflexivity.
  - intros -> Hf. cbn in Hf.
    destruct Hf as [<-|[<-|[<-|[<-|[<-|[<-|[<-|[<-|[]]]]]]]]]; try discriminate;
    solve [apply (K ([Test] ++ take_all ++ [Start]) (give_all ++ [Verdict VError])); try reflexivity; apply N; reflexivity
          |apply (K ([Test] ++ take_all ++ [Start; Test]) (give_all ++ [Verdict VError])); try reflexivity; apply N; reflexivity
          |apply (K ([Test] ++ take_all ++ [Test; Start]) (give_all ++ [Verdict VError])); try reflexivity; apply N; reflexivity
          |apply (K ([Test] ++ take_all ++ [Test; Start; Test]) (give_all ++ [Verdict VError])); try reflexivity; apply N; reflexivity].
  - intros -> Hf. cbn in Hf.
    destruct Hf as [<-|[<-|[<-|[<-|[]]]]]; try discriminate;
    solve [apply (K ([Test] ++ take_all ++ [Start]) (give_all ++ [Verdict VError])); try reflexivity; apply N; reflexivity
          |apply (K ([Test] ++ take_all ++ [Start; Test]) (give_all ++ [Verdict VError])); try reflexivity; apply N; reflexivity
          |apply (K ([Test] ++ take_all ++ [Test; Start]) (give_all ++ [Verdict VError])); try reflexivity; apply N; reflexivity
          |apply (K ([Test] ++ take_all ++ [Test; Start; Test]) (give_all ++ [Verdict VError])); try reflexivity; apply N; reflexivity].
  - intros -> Hf. cbn in Hf.
    destruct Hf as [<-|[<-|[<-|[<-|[]]]]]; try discriminate;
    solve [apply (K ([Test] ++ take_all ++ [Start]) (give_all ++ [Verdict VPrint])); try reflexivity; apply N; reflexivity
          |apply (K ([Test] ++ take_all ++ [Test; Start; Test]) (give_all ++ [Verdict VPrint])); try reflexivity; apply N; reflexivity].
Qed.
Print Assumptions C82_stops_partial.

(** False in the window between the replacement of the handler and the start of
    the computation: every function that takes CTRL-C has a course of events in
    which the user presses it once, the call ends normally and the host is not
    told. *)
Theorem C82_window_refuted : forall fe f p,
  transducer_call fe f \/ (In f tidy_functions /\ offered fe f = true /\ (f = SFft -> fe <> Python)) ->
  exists evs p', call fe f p evs = Some (p', Normal) /\ presses evs = 1%nat /\
    ctrl_c_seen p' = ctrl_c_seen p.
Proof.
  intros fe f p [(t & -> & Ht)|(Hf & Ho & Hp)].
  - exists [Next; Next; Sig SigInt; Next; Next; Next; Next].
    assert (Hs : script fe (STr t) = [Test; Take SigInt; Start; Work; Verdict VError]).
    { destruct t; try reflexivity. destruct (Ht eq_refl) as [-> | ->]; reflexivity. }
    unfold call. rewrite Hs. cbn. unfold deliver; cbn. unfold sfun_dec.
    destruct t; eexists; cbn; split; reflexivity || (split; reflexivity).
  - cbn in Hf. destruct Hf as [<-|[<-|[<-|[<-|[<-|[<-|[<-|[<-|[]]]]]]]]]; destruct fe; try discriminate;
      try (exfalso; apply Hp; reflexivity);
    first [exists [Next; Next; Next; Next; Sig SigInt; Next; Next; Next; Next; Next; Next]; eexists; split; [reflexivity|]; split; reflexivity
          |exists [Next; Next; Next; Next; Sig SigInt; Next; Next; Next; Next; Next; Next; Next]; eexists; split; [reflexivity|]; split; reflexivity
          |exists [Next; Next; Next; Next; Sig SigInt; Next; Next; Next; Next; Next; Next; Next; Next]; eexists; split; [reflexivity|]; split; reflexivity
          |exists [Next; Next; Next; Next; Sig SigInt; Next; Next; Next; Next; Next; Next; Next; Next; Next]; eexists; split; [reflexivity|]; split; reflexivity].
Qed.
Print Assumptions C82_window_refuted.

(** False for das, das_uni, rect_sir, fftconv_p in Python and the annular array
    in Octave and MATLAB: in every session, whatever happens during the call,
    it ends exactly as if CTRL-C had not been pressed. *)
Theorem C82_ignored_refuted : forall fe f acts p evs p' out,
  (f = SDas \/ f = SDasUni \/ f = SRectSir \/ (f = SFft /\ fe = Python) \/
   (f = STr FArrAnnu /\ (fe = Octave \/ fe = Matlab))) ->
  session fe fresh acts = Some p ->
  call fe f p evs = Some (p', out) ->
  (exists q, call fe f p (without_ctrl_c evs) = Some (q, out)) /\
  (tbl p SigInt = Host -> ctrl_c_seen p' = (ctrl_c_seen p + presses evs)%nat) /\
  (tbl p SigInt <> Host -> ctrl_c_seen p' = ctrl_c_seen p).
Proof.
  intros fe f acts p evs p' out Hf Hs H.
  assert (Hk : takes (script fe f) SigInt = false /\ forall o, In o (script fe f) -> o <> Give SigInt).
  { destruct Hf as [->|[->|[->|[[-> ->]|[-> [-> | ->]]]]]]; try destruct fe; (split; [reflexivity|]);
      cbn; intros o Hi ->; repeat (destruct Hi as [Hi|Hi]; [discriminate|]); destruct Hi. }
  destruct Hk as [Hk Hg].
  assert (Hh : honest fe (tbl p)) by (apply (session_honest _ _ _ _ Hs); intros s g; discriminate).
  assert (Ht : tbl p SigInt <> Lib f) by (intros E; rewrite (Hh _ _ E) in Hk; discriminate).
  destruct (run_deaf _ _ _ _ _ _ p _ _ H Hk Hg Ht eq_refl eq_refl) as (q & Hq & Hc).
  split; [exists q; exact Hq|]. split; intros E.
  - rewrite E in Hc. exact Hc.
  - destruct (tbl p SigInt); [congruence|lia].
Qed.
Print Assumptions C82_ignored_refuted.

(** ** C83: after a call CTRL-C works again *)

(** False: once any transducer call has got past its checks, in any state, no
    CTRL-C ever reaches the host again, whatever is called and pressed
    afterwards. *)
Theorem C83_lost_refuted : forall fe f p evs p1 out acts p2,
  transducer_call fe f -> call fe f p evs = Some (p1, out) -> out <> Refused ->
  session fe p1 acts = Some p2 ->
  ctrl_c_seen p2 = ctrl_c_seen p1 /\ ctrl_c_seen (deliver p2 SigInt) = ctrl_c_seen p2.
Proof.
  intros fe f p evs p1 out acts p2 Ht H Hr Hs.
  destruct (C81_refuted_kept _ _ _ _ _ _ H Hr) as [K _]. specialize (K Ht).
  destruct (session_lost _ _ _ _ Hs) as [H1 H2]; [congruence|].
  split; [exact H2|]. apply deliver_lost, H1.
Qed.
Print Assumptions C83_lost_refuted.

(** True as long as only the other functions are used and no call is refused
    after the handlers were replaced. *)
Theorem C83_works_partial : forall fe acts p,
  session fe fresh acts = Some p ->
  (forall f evs, In (ACall f evs) acts ->
     (In f tidy_functions /\ forall q q', call fe f q evs <> Some (q', Refused)) \/
     In f [SDas; SDasUni; SRectSir]) ->
  tbl p SigInt = Host /\ ctrl_c_seen (deliver p SigInt) = S (ctrl_c_seen p).
Proof.
  intros fe acts p Hs Ha.
  assert (G : forall acts p0, tbl p0 SigInt = Host -> session fe p0 acts = Some p ->
    (forall f evs, In (ACall f evs) acts ->
     (In f tidy_functions /\ forall q q', call fe f q evs <> Some (q', Refused)) \/
     In f [SDas; SDasUni; SRectSir]) -> tbl p SigInt = Host).
  { clear. induction acts as [|[f evs|s] r IH]; intros p0 Ht; cbn [session].
    - intros [= <-] _. exact Ht.
    - destruct (offered fe f) eqn:Ho; [|discriminate].
      destruct (call fe f p0 evs) as [[q out]|] eqn:E; [|discriminate].
      intros H Ha. refine (IH q _ H _).
      + destruct (Ha f evs (or_introl eq_refl)) as [[Hf Hn]|Hf].
        * rewrite (C81_restored_partial fe f p0 evs q out Hf Ho E); [exact Ht|].
          intros ->. exact (Hn _ _ E).
        * destruct (tbl q SigInt) eqn:Eq; [reflexivity|]. exfalso.
          assert (D : forall evs ops saved pr p p' out, run_call f ops saved pr p evs = Some (p', out) ->
             (forall o, In o ops -> o <> Take SigInt /\ o <> Give SigInt) -> tbl p' SigInt = tbl p SigInt).
          { clear. induction evs as [|e r IH]; intros ops saved pr p p' out; cbn [run_call]; [discriminate|].
            destruct e as [| | |s].
            - destruct ops as [|o ops].
              + destruct r; [|discriminate]. intros [= <- _] _. reflexivity.
              + intros H Hn. assert (Hn' : forall x, In x ops -> x <> Take SigInt /\ x <> Give SigInt)
                  by (intros x Hx; apply Hn; right; exact Hx).
                destruct (Hn o (or_introl eq_refl)) as [N1 N2].
                destruct o as [|s|s| | |v]; try exact (IH _ _ _ _ _ _ H Hn').
                * rewrite (IH _ _ _ _ _ _ H Hn'). destruct s; [congruence|reflexivity|reflexivity].
                * rewrite (IH _ _ _ _ _ _ H Hn'). destruct s; [congruence|reflexivity|reflexivity].
                * destruct (flag p f); [exact (IH _ _ _ _ _ _ H Hn')|].
                  destruct v; [|exact (IH _ _ _ _ _ _ H Hn')].
                  destruct r; [|discriminate]. injection H as <- _. reflexivity.
            - destruct ops as [|[]]; try discriminate. destruct r; [|discriminate].
              intros [= <- _] _. reflexivity.
            - destruct ops as [|[]]; try discriminate. destruct (can_stop f); [|discriminate].
              intros H Hn. refine (IH _ _ _ _ _ _ H _). intros x Hx; apply Hn; right; exact Hx.
            - intros H Hn. rewrite (IH _ _ _ _ _ _ H Hn), deliver_tbl. reflexivity. }
          assert (tbl q SigInt = tbl p0 SigInt); [|congruence].
          apply (D _ _ _ _ _ _ _ E). cbn in Hf.
          destruct Hf as [<-|[<-|[<-|[]]]]; cbn; intros o Hi;
            repeat (destruct Hi as [<-|Hi]; [split; discriminate|]); destruct Hi.
      + intros g ev Hi. apply Ha. right; exact Hi.
    - intros H Ha. refine (IH (deliver p0 s) _ H _); [rewrite deliver_tbl; exact Ht|].
      intros g ev Hi. apply Ha. right; exact Hi. }
  pose proof (G acts fresh eq_refl Hs Ha) as K. split; [exact K|].
  unfold deliver, ctrl_c_seen. rewrite K. reflexivity.
Qed.
Print Assumptions C83_works_partial.

(** ** Cases that meet the hypotheses *)

(** dreamrect in Python, CTRL-C during the computation, then das, then an idle
    CTRL-C: the first ends dreamrect with an error, the other two are lost. *)
Definition ex_interrupted := [Next; Next; Next; Sig SigInt; Next; Next].
Definition ex_das := [Next; Next; Next; Sig SigInt; Next; Next; Next].

Example C83_ex : exists p1 p2 p3,
  call Python (STr FRect) fresh ex_interrupted = Some (p1, Failed) /\
  call Python SDas p1 ex_das = Some (p2, Normal) /\
  session Python p1 [ACall SDas ex_das; AIdle SigInt] = Some p3 /\
  ctrl_c_seen p3 = 0%nat /\ computing Python (STr FRect) [Next; Next; Next] /\ transducer_call Python (STr FRect).
Proof.
  do 3 eexists. repeat apply conj; try reflexivity.
  - eexists; reflexivity.
  - exists FRect. split; [reflexivity|discriminate].
Qed.

(** An interrupted and a complete conv_p call in Octave. *)
Example C81_ex : exists p1 p2,
  call Octave SConv fresh [Next; Next; Next; Next; Next; Next; Next; Sig SigInt; Next; Next; Next; Next; Next; Next] = Some (p1, Printed) /\
  call Octave SConv p1 [Next; Next; Next; Next; Next; Next; Next; Next; Next; Next; Next; Next; Next] = Some (p2, Normal) /\
  tbl p2 SigInt = Host /\ computing Octave SConv [Next; Next; Next; Next; Next; Next; Next] /\
  session Octave fresh [ACall SConv [Next; Next; Next; Next; Next; Next; Next; Next; Next; Next; Next; Next; Next]] <> None.
Proof. do 2 eexists. repeat apply conj; try reflexivity; [eexists; reflexivity|discriminate]. Qed.
