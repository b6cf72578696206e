(** PropGw.v - property theorems: the gateways of the four front ends, from the
    user's argument list to the returned matrix (C33-C35, C41-C43). *)
From Coq Require Strings.String Strings.Ascii.
Import Coq.Strings.String.StringSyntax.
From Coq Require Import Floats.
From Verif Require Import Base BaseLemmas ModelSir ModelArr ModelSmp NumF ProofsLocal ProofsLocalArr
  ProofsSmp ProofsCall SpecSmp ProofsSmp2 SpecSir ProofsEnum ProofsErr ProofsStatus ExJob
  ModelGw SpecGw ProofsGw ProofsGw2 ProofsGw3 ProofsGw4 ProofsGw5 PropErr.
Local Open Scope string_scope.
Local Open Scope Z_scope.

(** ** C33: option strings *)

(** A call that is not rejected had a documented string in every option
    position, and the computation that runs uses exactly the methods and the
    error level they name.  (MATLAB: strings without NUL characters; the error
    level of a 7 argument dreamrect/dreamcirc call excepted.) *)
Theorem C33_accepted_options_partial : forall (N : Num) fuel c2r fe f nlhs hw env sch (junk : list N) args o,
  (forall s, In (VStr s) args -> printable fe s) ->
  gateway fuel c2r fe f nlhs hw env sch junk args = Ok (Some o) -> o <> Rejected ->
  exists J, run_gateway fe nlhs hw env sch junk J = Ok (Some o) /\ options_ok fe f args J /\
    (~ (fe = Matlab /\ (f = FRect \/ f = FCirc) /\ length args = 7%nat) -> level_ok f args J).
Proof.
  intros N fuel c2r fe f nlhs hw env sch junk args o P E Ho. unfold gateway in E.
  apply bind_Ok_inv in E as ([J|] & Ep & E).
  - destruct (parse_call_inv fuel c2r fe f nlhs args J P Ep) as (_ & Oo & Lo & _). eauto.
  - injection E as <-. congruence.
Qed.
Print Assumptions C33_accepted_options_partial.

(** So an unknown string in an option position is rejected. *)
Theorem C33_unknown_rejected : forall (N : Num) fuel c2r fe f nlhs hw env sch (junk : list N) args o p s,
  (forall s, In (VStr s) args -> printable fe s) ->
  nth_error args p = Some (VStr s) ->
  (focus_pos f = Some p /\ ~ In s (map fst foc_doc)) \/
  (steer_pos f = Some p /\ ~ In s (map fst steer_doc)) \/
  (apod_pos f = Some p /\ ~ In s ("off" :: map fst apod_doc)) \/
  (err_pos f = p /\ ~ In s (map fst err_doc) /\ ~ (fe = Matlab /\ (f = FRect \/ f = FCirc) /\ length args = 7%nat)) ->
  gateway fuel c2r fe f nlhs hw env sch junk args = Ok (Some o) -> o = Rejected.
Proof.
  intros N fuel c2r fe f nlhs hw env sch junk args o p s P Es H E.
  assert (D : o = Rejected \/ o <> Rejected) by (destruct o; auto; right; discriminate).
  destruct D as [D|D]; [exact D|]. exfalso.
  destruct (C33_accepted_options_partial _ _ _ _ _ _ _ _ _ _ _ _ P E D) as (J & _ & [Of Os Oa] & Ol).
  destruct H as [(Hp & Hn)|[(Hp & Hn)|[(Hp & Hn)|(Hp & Hn & Hx)]]].
  - destruct (Of p Hp) as (s' & m & Es' & Hi & _). rewrite Es in Es'. injection Es' as <-.
    apply Hn. exact (in_map fst _ _ Hi).
  - destruct (Os p Hp) as (s' & m & Es' & Hi & _). rewrite Es in Es'. injection Es' as <-.
    apply Hn. exact (in_map fst _ _ Hi).
  - destruct (Oa p Hp) as (s' & Es' & Hi). rewrite Es in Es'. injection Es' as <-. apply Hn.
    destruct Hi as [[-> _]|(m & Hi & _)]; [left; reflexivity|right; exact (in_map fst _ _ Hi)].
  - specialize (Ol Hx). unfold level_ok in Ol. rewrite Hp, Es in Ol. destruct Ol as (s' & [= <-] & Hi).
    apply Hn. exact (in_map fst _ _ Hi).
Qed.
Print Assumptions C33_unknown_rejected.

(** Concrete calls over IEEE doubles. *)
Local Ltac by_vm := match goal with |- @eq ?A ?x ?y => vm_cast_no_check (@eq_refl A y) end.
Definition num1 (x : float) : value FI := @VNum FI Full 1 1 [x].
Definition row (l : list float) : value FI := @VNum FI Full 1 (Z.of_nat (length l)) l.
Definition ex_Ro : value FI := @VNum FI Full 3 3 ([0; 1; 2] ++ [0; 0; 0] ++ [10; 10; 10])%float.
Definition ex_s : value FI := row [0.5; 0.5; 0x1.47ae147ae147bp-5; 25]%float.
Definition ex_m : value FI := row [1; 1500; 0]%float.
Definition no_c2r : list (FI * FI) -> list FI := map fst.
Definition rect_args (tail : list (value FI)) : list (value FI) :=
  [ex_Ro; row [1; 1]%float; ex_s; num1 6%float; ex_m] ++ tail.
Definition ex_junk : list FI := repeat 7%float 100.
Definition run_ex (fe : front) (f : func) (hw : Z) (args : list (value FI)) : res (option (outcome FI)) :=
  gateway 10 no_c2r fe f 1 hw None (round_robin 10 2) ex_junk args.
Definition returned (r : res (option (outcome FI))) : bool :=
  match r with Ok (Some (Returned _ _ _ _ _)) => true | _ => false end.
Definition rejected (r : res (option (outcome FI))) : bool :=
  match r with Ok (Some Rejected) => true | _ => false end.

Example C33_nonvacuous :
  returned (run_ex Octave FRect 2 (rect_args [VStr "warn"])) = true /\
  rejected (run_ex Octave FRect 2 (rect_args [VStr "Warn"])) = true /\
  returned (run_ex Matlab FRect 2 (rect_args [VStr "ignore"])) = true /\
  returned (run_ex Julia FRect 2 (rect_args [VStr "ignore"])) = true.
Proof. repeat (match goal with |- _ /\ _ => split end); by_vm. Qed.

(** MATLAB: the string "stop" followed by a NUL and more is taken for "stop". *)
Theorem C33_matlab_nul_refuted : exists s,
  ~ In s (map fst err_doc) /\ rejected (run_ex Matlab FRect 2 (rect_args [VStr s])) = false /\
  run_ex Matlab FRect 2 (rect_args [VStr s]) = run_ex Matlab FRect 2 (rect_args [VStr "stop"]).
Proof.
  exists (String.append "stop" (String.String Ascii.zero "ignore")). split; [|split; by_vm].
  cbn. intros [H|[H|[H|[]]]]; discriminate H.
Qed.
Print Assumptions C33_matlab_nul_refuted.

(** MATLAB dreamrect/dreamcirc with a 7th argument: the error level is never
    read; any string is accepted and the level is 'stop'. *)
Theorem C33_matlab_level_ignored_refuted : forall (N : Num) fuel c2r f nlhs hw env sch (junk : list N) l6 l7 l6' args,
  f = FRect \/ f = FCirc -> length args = 5%nat ->
  gateway fuel c2r Matlab f nlhs hw env sch junk (args ++ [l6; l7]) =
  gateway fuel c2r Matlab f nlhs hw env sch junk (args ++ [l6'; l7]).
Proof.
  intros N fuel c2r f nlhs hw env sch junk l6 l7 l6' args Hf Hl.
  do 5 (destruct args as [|? args]; [discriminate Hl|]). destruct args; [|discriminate Hl].
  unfold gateway. apply (f_equal (fun r => bind r _)).
  destruct Hf as [-> | ->]; reflexivity.
Qed.
Print Assumptions C33_matlab_level_ignored_refuted.
Example C33_matlab_level_ignored_nonvacuous :
  rejected (run_ex Matlab FRect 2 (rect_args [VStr "nonsense"; VStr "cpu"])) = false.
Proof. by_vm. Qed.

(** dream_arr_annu accepts the array strings 'x', 'y', 'xy' and 'x+y', which its
    documentation does not list. *)
Definition annu_args (gr : value FI) (foc : string) (tail : list (value FI)) : list (value FI) :=
  [ex_Ro; gr; ex_s; num1 6%float; ex_m; VStr foc; num1 10%float; VStr "off"; row []; num1 1%float] ++ tail.
Definition annu_doc : list string := ["on"; "off"; "ud"].
Theorem C33_annular_strings_refuted : exists s, ~ In s annu_doc /\
  rejected (run_ex Matlab FArrAnnu 2 (annu_args (row [1; 2; 3]%float) s [VStr "ignore"])) = false.
Proof.
  exists "x". split; [|by_vm]. cbn. intros [H|[H|[H|[]]]]; discriminate H.
Qed.
Print Assumptions C33_annular_strings_refuted.

(** ** C34: memory safety of a whole call *)
Theorem C34_gateway_safe_partial : forall (N : Num) fuel c2r fe f nlhs hw env sch (junk : list N) args,
  tidy fe f args -> delay_nonempty f args -> array_nonempty f args ->
  (fe = Octave -> ~ scalar_ud args) -> keeps_length c2r -> 0 <= hw ->
  (f = FArrAnnu -> idx_of fe = UnsignedIdx) ->
  gateway fuel c2r fe f nlhs hw env sch junk args <> UB UB_oob_read /\
  gateway fuel c2r fe f nlhs hw env sch junk args <> UB UB_oob_write.
Proof.
  intros N fuel c2r fe f nlhs hw env sch junk args T D A U Hk Hh Hf.
  eapply good_no_oob. apply gateway_good; eauto.
  intros Ho i v E1 E2 E3. apply (U Ho). exists i, v. auto.
Qed.
Print Assumptions C34_gateway_safe_partial.
Example C34_nonvacuous :
  tidy Octave FRect (rect_args [VStr "stop"]) /\ delay_nonempty FRect (rect_args [VStr "stop"]) /\
  array_nonempty FRect (rect_args [VStr "stop"]) /\ ~ scalar_ud (rect_args [VStr "stop"]).
Proof.
  split; [split|split; [|split]].
  - intros v H. cbn in H. repeat (destruct H as [<-|H]; [cbn; repeat split; auto; lia|]). destruct H.
  - intros i v E S. do 7 (destruct i as [|i]; [cbn in E, S; first [discriminate S|injection E as <-; exact I]|]).
    destruct i; discriminate S.
  - intros v E. cbn in E. injection E as <-. cbn. lia.
  - intros p v E. discriminate E.
  - intros (i & v & E & E' & _). do 6 (destruct i as [|i]; [cbn in E; discriminate E|]). destruct i; discriminate E.
Qed.

(** What goes wrong outside those hypotheses. *)

(** An empty delay vector passes the length check (all four front ends). *)
Theorem C34_empty_delay_refuted : forall fe,
  run_ex fe FRect 2 [ex_Ro; row [1; 1]%float; ex_s; @VNum FI Full 0 0 []; ex_m; VStr "ignore"] = UB UB_oob_read.
Proof. intros []; by_vm. Qed.
Print Assumptions C34_empty_delay_refuted.

(** An array without elements: the focal distance is written to an empty buffer. *)
Definition arr_args (G : value FI) (foc : value FI) (fo : value FI) (apod w : value FI) : list (value FI) :=
  [ex_Ro; row [1; 1]%float; G; ex_s; num1 6%float; ex_m; foc; fo; VStr "off"; row [0; 0]%float;
   apod; w; num1 1%float; VStr "ignore"].
Theorem C34_empty_array_refuted : forall fe,
  run_ex fe FArrRect 2 (arr_args (@VNum FI Full 0 3 []) (VStr "off") (num1 10%float) (VStr "off") (row [])) = UB UB_oob_write.
Proof. intros []; by_vm. Qed.
Print Assumptions C34_empty_array_refuted.

(** Octave, one-element array, user defined focusing with its one delay: Octave
    stores a 1 x 1 matrix as a scalar, and the parser reads it through a
    pointer into a destroyed temporary. *)
Theorem C34_octave_scalar_ud_refuted :
  run_ex Octave FArrRect 2 (arr_args (row [0; 0; 0]%float) (VStr "ud") (@VNum FI Temp 1 1 [0%float]) (VStr "off") (row []))
  = UB UB_oob_read.
Proof. by_vm. Qed.
Print Assumptions C34_octave_scalar_ud_refuted.

(** Octave, a range such as 1:2 as the geometry: the same. *)
Theorem C34_octave_range_refuted :
  run_ex Octave FRect 2 [ex_Ro; @VNum FI Temp 1 2 [1; 2]%float; ex_s; num1 6%float; ex_m] = UB UB_oob_read.
Proof. by_vm. Qed.
Print Assumptions C34_octave_range_refuted.

(** MATLAB, a string of two characters as the geometry. *)
Theorem C34_matlab_string_refuted :
  run_ex Matlab FRect 2 [ex_Ro; VStr "11"; ex_s; num1 6%float; ex_m] = UB UB_oob_read.
Proof. by_vm. Qed.
Print Assumptions C34_matlab_string_refuted.

(** Python, a one-dimensional array. *)
Theorem C34_python_one_dimensional_refuted :
  run_ex Python FRect 2 [ex_Ro; @VNum FI OneD 2 1 [1; 1]%float; ex_s; num1 6%float; ex_m; VStr "stop"] = UB UB_oob_read.
Proof. by_vm. Qed.
Print Assumptions C34_python_one_dimensional_refuted.

(** ** C35: the number of radii of an annular array *)
Theorem C35_julia_odd : forall (N : Num) fuel c2r nlhs hw env sch (junk : list N) args o gr,
  nth_error args 1 = Some gr ->
  gateway fuel c2r Julia FArrAnnu nlhs hw env sch junk args = Ok (Some o) -> o <> Rejected ->
  entries gr mod 2 = 1.
Proof.
  intros N fuel c2r nlhs hw env sch junk args o gr Eg E Ho. unfold gateway in E.
  apply bind_Ok_inv in E as ([J|] & Ep & E); [|injection E as <-; congruence].
  unfold parse_call in Ep. apply require_inv in Ep as [_ Ep]. apply require_inv in Ep as [_ Ep].
  apply bind_Ok_inv in Ep as (vo & _ & Ep). apply require_inv in Ep as [_ Ep].
  apply bind_Ok_inv in Ep as (ro & _ & Ep). apply bind_Ok_inv in Ep as (vr & Evr & Ep).
  apply num_arg_inv in Evr. apply require_inv in Ep as [Hr _]. rewrite Eg in Evr. injection Evr as <-.
  cbn [check_array_annu] in Hr. unfold entries. destruct (Z.eqb_spec ((get_m gr * get_n gr) mod 2) 0); [discriminate|].
  pose proof (Z.mod_pos_bound (get_m gr * get_n gr) 2). lia.
Qed.
Print Assumptions C35_julia_odd.

(** Octave rejects a matrix that is not a vector. *)
Theorem C35_octave_vector_partial : forall (N : Num) fuel c2r nlhs hw env sch (junk : list N) args o gr,
  nth_error args 1 = Some gr ->
  gateway fuel c2r Octave FArrAnnu nlhs hw env sch junk args = Ok (Some o) -> o <> Rejected ->
  get_m gr <= 1 \/ get_n gr <= 1.
Proof.
  intros N fuel c2r nlhs hw env sch junk args o gr Eg E Ho. unfold gateway in E.
  apply bind_Ok_inv in E as ([J|] & Ep & E); [|injection E as <-; congruence].
  unfold parse_call in Ep. apply require_inv in Ep as [_ Ep]. apply require_inv in Ep as [_ Ep].
  apply bind_Ok_inv in Ep as (vo & _ & Ep). apply require_inv in Ep as [_ Ep].
  apply bind_Ok_inv in Ep as (ro & _ & Ep). apply bind_Ok_inv in Ep as (vr & Evr & Ep).
  apply num_arg_inv in Evr. apply require_inv in Ep as [_ Ep]. apply require_inv in Ep as [Hr _].
  rewrite Eg in Evr. injection Evr as <-. lia.
Qed.
Print Assumptions C35_octave_vector_partial.

(** Octave, MATLAB and Python accept two radii ... *)
Theorem C35_even_accepted_refuted : forall fe, fe <> Julia ->
  rejected (run_ex fe FArrAnnu 2 (annu_args (@VNum FI Full 2 1 [1; 2]%float) "off" [VStr "ignore"])) = false.
Proof. intros [] H; try (exfalso; apply H; reflexivity); by_vm. Qed.
Print Assumptions C35_even_accepted_refuted.

(** ... and Python uses only the first radius of a row vector: it computes the
    response of a disc. *)
Theorem C35_python_row_refuted :
  run_ex Python FArrAnnu 2 (annu_args (row [1; 2; 3]%float) "off" [VStr "ignore"]) =
  run_ex Python FArrAnnu 2 (annu_args (row [1]%float) "off" [VStr "ignore"]) /\
  returned (run_ex Python FArrAnnu 2 (annu_args (row [1]%float) "off" [VStr "ignore"])) = true.
Proof. repeat (match goal with |- _ /\ _ => split end); by_vm. Qed.
Print Assumptions C35_python_row_refuted.

(** ** C41: shapes are checked, documented calls are computed as asked *)
Theorem C41_accepted_shapes_partial : forall (N : Num) fuel c2r fe f nlhs hw env sch (junk : list N) args o,
  (forall s, In (VStr s) args -> printable fe s) ->
  gateway fuel c2r fe f nlhs hw env sch junk args = Ok (Some o) -> o <> Rejected ->
  exists J, run_gateway fe nlhs hw env sch junk J = Ok (Some o) /\ shapes_ok fe f args J /\
    (fe <> Matlab -> weights_ok fe f args).
Proof.
  intros N fuel c2r fe f nlhs hw env sch junk args o P E Ho. unfold gateway in E.
  apply bind_Ok_inv in E as ([J|] & Ep & E).
  - destruct (parse_call_inv fuel c2r fe f nlhs args J P Ep) as (So & _ & _ & Wo). eauto.
  - injection E as <-. congruence.
Qed.
Print Assumptions C41_accepted_shapes_partial.

(** A documented call is accepted and its result is, column by column, the
    single-point computation for the transducer, the parameters, the point and
    the start delay the arguments name - for every number of workers, every
    schedule and whatever the freshly allocated matrix held. *)
Theorem C41_documented : forall (N : Num) fuel c2r fe f nlhs hw env sch (junk : list N) args T q alpha l No ro dty del o,
  documented fe f args T q alpha l No ro dty del -> 0 <= nlhs <= 2 -> 0 <= nt q -> keeps_length c2r -> 0 <= hw ->
  rings_in_time fe T q -> no_ctrlc sch ->
  gateway fuel c2r fe f nlhs hw env sch junk args = Ok (Some o) ->
  let J := requested fuel c2r T q alpha l No ro dty del in
  let at_point n := fun r => forall xo yo zo d, point_is J n xo yo zo d ->
    serial (idx_of fe) fuel T q (j_att J) l xo yo zo d 0 (zeros (nt q)) = r in
  (exists H w e, o = Returned H (nt q) No w e /\ length H = Z.to_nat (nt q * No) /\
     forall n, 0 <= n < No -> exists e, e <> err_oob /\ at_point n (Ok (col (nt q) n H, e))) \/
  ((o = ErrOutOfBounds \/ o = ErrCtrlC) /\ exists n c, 0 <= n < No /\ at_point n (Ok (c, err_oob))).
Proof.
  intros N fuel c2r fe f nlhs hw env sch junk args T q alpha l No ro dty del o D Hl Hnt Hk Hhw Hf Hc E J at_point.
  pose proof (documented_wf fuel c2r fe f args T q alpha l No ro dty del Hk Hnt Hf D) as W. fold J in W.
  rewrite (gateway_runs _ _ _ _ _ _ _ _ _ _ J (documented_call fuel c2r fe f nlhs args T q alpha l No ro dty del Hl D)) in E.
  assert (EQ : j_q J = q) by (destruct q; reflexivity).
  assert (HN : 0 <= No) by exact (wj_No _ _ W).
  assert (AP : forall n r, 0 <= n < No -> one_point fe J n = r -> at_point n r).
  { intros n r Hn Er xo yo zo d Hp. rewrite (one_point_serial fe J n xo yo zo d (proj1 Hn) HN Hp) in Er.
    rewrite EQ in Er. exact Er. }
  destruct (run_outcome fe nlhs hw env junk J W Hhw sch o Hc E) as [(H & w & e & -> & HL & Hno & Hcol)|(-> & n & c & Hn & Hp)];
    change (j_No J) with No in *.
  - rewrite EQ in HL, Hcol. rewrite EQ. left. exists H, w, e. split; [reflexivity|]. split; [exact HL|]. intros n Hn.
    destruct (Hcol n Hn) as (e' & He). exists e'. split; [|exact (AP n _ Hn He)].
    intros ->. exact (Hno n _ Hn He).
  - right. split; [destruct (1 <? num_threads hw env No); auto|]. exists n, c. split; [exact Hn|]. exact (AP n _ Hn Hp).
Qed.
Print Assumptions C41_documented.

(** ... and it gives an outcome: if no point's computation is undefined, the
    call ends as soon as every worker has had enough steps. *)
Theorem C41_completes : forall (N : Num) fuel c2r fe f nlhs hw env sch (junk : list N) args T q alpha l No ro dty del,
  documented fe f args T q alpha l No ro dty del -> 0 <= nlhs <= 2 -> 0 <= nt q -> keeps_length c2r -> 0 <= hw ->
  rings_in_time fe T q ->
  let J := requested fuel c2r T q alpha l No ro dty del in
  (forall n xo yo zo d, 0 <= n < No -> point_is J n xo yo zo d -> exists c e,
     serial (idx_of fe) fuel T q (j_att J) l xo yo zo d 0 (zeros (nt q)) = Ok (c, e)) ->
  (forall i, 0 <= i < num_threads hw env No ->
     3 * (part_stop i No (num_threads hw env No) - part_start i No (num_threads hw env No)) + 1 <= steps_of (Z.to_nat i) sch) ->
  exists o, gateway fuel c2r fe f nlhs hw env sch junk args = Ok (Some o) /\ o <> Rejected /\ o <> NoMemory.
Proof.
  intros N fuel c2r fe f nlhs hw env sch junk args T q alpha l No ro dty del D Hl Hnt Hk Hhw Hf J Hok Hs.
  pose proof (documented_wf fuel c2r fe f args T q alpha l No ro dty del Hk Hnt Hf D) as W. fold J in W.
  rewrite (gateway_runs _ _ _ _ _ _ _ _ _ _ J (documented_call fuel c2r fe f nlhs args T q alpha l No ro dty del Hl D)).
  assert (EQ : j_q J = q) by (destruct q; reflexivity).
  destruct (run_completes fe nlhs hw env junk J W Hhw sch) as (r & Er & Hr).
  { intros n Hn. destruct (point_is_ex _ J n W Hn) as (xo & yo & zo & d & Hp).
    rewrite (one_point_serial fe J n xo yo zo d (proj1 Hn) (wj_No _ _ W) Hp), EQ. exact (Hok n xo yo zo d Hn Hp). }
  specialize (Hr Hs). destruct r as [o|]; [|congruence]. exists o. split; [exact Er|].
  rewrite (run_gateway_eq fe nlhs hw env junk J W) in Er.
  apply bind_Ok_inv in Er as (x & _ & E). destruct x as [[[H e] []]|]; cbn [negb] in E; try discriminate E; injection E as <-.
  - split; discriminate.
  - destruct (SIRError_eqb e err_oob); split; discriminate.
Qed.
Print Assumptions C41_completes.

Lemma ex_row_vec fe (l : list float) : @vec FI fe l (row l).
Proof. exists Full, 1, (Z.of_nat (length l)). split; [reflexivity|]. split; [left; reflexivity|]. left. auto. Qed.
Definition ex_q : samp FI := @Build_samp FI 0.5%float 0.5%float 0x1.47ae147ae147bp-5%float 25 1%float 1500%float.
Example C41_nonvacuous : forall fe,
  documented fe FRect (rect_args [VStr "warn"]) (@TRect FI 1%float 1%float) ex_q 0%float lvl_warn 3
    ([0; 1; 2] ++ [0; 0; 0] ++ [10; 10; 10])%float delay_single [6%float] /\
  returned (run_ex fe FRect 2 (rect_args [VStr "warn"])) = true.
Proof.
  intros fe. split; [|destruct fe; by_vm].
  apply (@doc_single FI fe FRect [1; 1]%float).
  - reflexivity.
  - exists Full. repeat split; auto; try (cbn; lia). left; reflexivity.
  - apply ex_row_vec.
  - exists 25%float. split; [apply ex_row_vec|destruct fe; by_vm].
  - left. exists 6%float. split; [apply (ex_row_vec fe [6%float])|auto].
  - apply ex_row_vec.
  - left. exists "warn". cbn. auto.
Qed.

(** The length of a user defined weight vector is checked - except in MATLAB,
    where the call goes on with weights that are all zero. *)
Theorem C41_matlab_weights_refuted :
  let call := arr_args (@VNum FI Full 2 3 [-1; 1; 0; 0; 0; 0]%float) (VStr "off") (num1 10%float) (VStr "ud") in
  run_ex Matlab FArrRect 2 (call (row [1; 1; 1]%float)) = run_ex Matlab FArrRect 2 (call (row [0; 0]%float)) /\
  returned (run_ex Matlab FArrRect 2 (call (row [1; 1; 1]%float))) = true /\
  rejected (run_ex Octave FArrRect 2 (call (row [1; 1; 1]%float))) = true.
Proof. intros call. repeat (match goal with |- _ /\ _ => split end); by_vm. Qed.
Print Assumptions C41_matlab_weights_refuted.

(** ** C42: the window parameter of the apodization *)

(** Octave and MATLAB: the last apodization argument reaches the computation. *)
Theorem C42_window_parameter_partial : forall (N : Num) fuel c2r fe f nlhs (args : list (value N)) T q alpha l No ro dty del p vp w,
  fe = Octave \/ fe = Matlab ->
  documented fe f args T q alpha l No ro dty del -> 0 <= nlhs <= 2 ->
  apod_pos f = Some p -> nth_error args (p + 2) = Some vp -> vec fe [w] vp ->
  exists J, parse_call fuel c2r fe f nlhs args = Ok (Some J) /\
    match j_T J with
    | TArrRect _ _ a | TArrCirc _ a | TArrCylind _ _ _ a => apod_par a = w
    | TArrAnnu a => an_apod_par a = w
    | _ => False
    end.
Proof.
  intros N fuel c2r fe f nlhs args T q alpha l No ro dty del p vp w Hfe D Hl Hp Ev Vw.
  exists (requested fuel c2r T q alpha l No ro dty del). split; [apply documented_call; assumption|].
  change (j_T (requested fuel c2r T q alpha l No ro dty del)) with T.
  assert (V1 : forall w', vec fe [w'] vp -> w' = w).
  { intros w' (st & m & n & -> & _ & _). destruct Vw as (st' & m' & n' & [= <- <- <- <-] & _). reflexivity. }
  assert (Wp : forall x : N, window_par fe x = x) by (intros; destruct Hfe as [-> | ->]; reflexivity).
  destruct D as [f g T q alpha l No ro dty del vo vg vs vd vm tail H1
                |f g m x T q alpha l No ro dty del vo vg vs vd vm v5 v6 tail H1
                |f g a w' T q alpha l No ro dty del vo vg va vs vd vm v6 v7 v8 v9 v10 v11 v12 tail
                     H1 Hn Hw _ _ _ _ _ _ _ _ Ap _
                |a w' num q alpha l No ro dty del vo vr vs vd vm v5 v6 v7 v8 v9 tail
                     En H1 _ _ Hw _ _ _ _ _ _ Ap _].
  - destruct f; cbn in H1; try discriminate H1; discriminate Hp.
  - destruct f; cbn in H1; try discriminate H1; discriminate Hp.
  - destruct Ap as [Vp _]. assert (E : vp = v12) by (destruct f; cbn in H1; try discriminate H1; injection Hp as <-; cbn in Ev; congruence).
    subst v12. rewrite (V1 _ Vp), Wp in Hw.
    destruct f; cbn in H1; try discriminate H1; destruct g as [|? [|? [|? [|]]]]; try discriminate H1; injection H1 as <-; exact Hw.
  - destruct Ap as [Vp _]. assert (E : vp = v9) by (injection Hp as <-; cbn in Ev; congruence).
    subst v9. rewrite (V1 _ Vp), Wp in Hw. exact Hw.
Qed.
Print Assumptions C42_window_parameter_partial.

(** Python and Julia: the argument is never looked at; whatever is passed, the
    outcome of the call is the same. *)
Theorem C42_python_julia_ignored_refuted : forall (N : Num) fuel c2r fe f nlhs hw env sch (junk : list N) args1 vp vp' args2 p,
  fe = Python \/ fe = Julia -> apod_pos f = Some p -> length args1 = (p + 2)%nat ->
  gateway fuel c2r fe f nlhs hw env sch junk (args1 ++ vp :: args2) =
  gateway fuel c2r fe f nlhs hw env sch junk (args1 ++ vp' :: args2).
Proof.
  intros N fuel c2r fe f nlhs hw env sch junk args1 vp vp' args2 p Hfe Hp Hl.
  unfold gateway. apply (f_equal (fun r => bind r _)).
  apply (parse_same fe _ _ (p + 2)); auto.
  - rewrite !app_length. reflexivity.
  - intros i Hi. destruct (Nat.lt_ge_cases i (p + 2)).
    + rewrite !nth_error_app1 by lia. reflexivity.
    + rewrite !nth_error_app2 by lia. replace (i - length args1)%nat with (S (i - length args1 - 1)) by lia. reflexivity.
  - now rewrite Hp.
  - rewrite app_length. cbn [length]. lia.
Qed.
Print Assumptions C42_python_julia_ignored_refuted.
Example C42_nonvacuous :
  let call w := [ex_Ro; row [1; 1]%float; row [0; 0; 0]%float; ex_s; num1 6%float; ex_m; VStr "off"; num1 10%float;
                 VStr "off"; row [0; 0]%float; VStr "gauss"; row []; num1 w; VStr "ignore"] in
  returned (run_ex Python FArrRect 2 (call 1%float)) = true.
Proof. intros call. by_vm. Qed.

(** ** C43: 'stop' *)

(** Whatever the number of workers, the call delivers the matrix exactly when
    nothing is out of bounds; the error it ends with otherwise depends on the
    number of workers only. *)
Theorem C43_any_workers : forall (N : Num) fuel c2r fe f nlhs hw env sch (junk : list N) args T q alpha No ro dty del o,
  documented fe f args T q alpha lvl_stop No ro dty del -> nlt neps alpha = false ->
  0 <= nlhs <= 2 -> 0 <= nt q -> keeps_length c2r -> 0 <= hw -> rings_in_time fe T q ->
  no_ctrlc sch ->
  let J := requested fuel c2r T q alpha lvl_stop No ro dty del in
  (forall n xo yo zo d, 0 <= n < No -> point_is J n xo yo zo d -> exists pts,
     visited fuel T q xo yo zo d = Some pts /\ representable (idx_of fe) pts) ->
  gateway fuel c2r fe f nlhs hw env sch junk args = Ok (Some o) ->
  let outside := exists n xo yo zo d pts c, 0 <= n < No /\ point_is J n xo yo zo d /\
    visited fuel T q xo yo zo d = Some pts /\ In c pts /\ in_window (nt q) c = false in
  (outside /\ o = if 1 <? num_threads hw env No then ErrOutOfBounds else ErrCtrlC) \/
  (~ outside /\ exists H w e, o = Returned H (nt q) No w e).
Proof.
  intros N fuel c2r fe f nlhs hw env sch junk args T q alpha No ro dty del o D Ha Hl Hnt Hk Hhw Hf Hc J Hv E outside.
  assert (Hatt : j_att J = None) by (unfold J, requested, asks; cbn [j_att]; now rewrite Ha).
  pose proof (documented_wf fuel c2r fe f args T q alpha lvl_stop No ro dty del Hk Hnt Hf D) as W. fold J in W.
  pose proof (wj_No _ _ W) as HN. change (j_No J) with No in HN.
  assert (Z0 : length (zeros (N:=N) (nt q)) = Z.to_nat (nt q)) by apply repeat_length.
  destruct (C41_documented N fuel c2r fe f nlhs hw env sch junk args T q alpha lvl_stop No ro dty del o D Hl Hnt Hk Hhw Hf Hc E)
    as [(H & w & e & -> & _ & Hcol)|(Ho & n & c & Hn & Hp)].
  - cbv zeta in Hcol. fold J in Hcol. right. split; [|eauto]. intros (n & xo & yo & zo & d & pts & c & Hn & Hp & Hvis & Hin & Hout).
    destruct (Hv n xo yo zo d Hn Hp) as (pts' & Hvis' & Hr). rewrite Hvis in Hvis'. injection Hvis' as <-.
    destruct (Hcol n Hn) as (e' & Hne & Hs). specialize (Hs xo yo zo d Hp). rewrite Hatt in Hs.
    destruct (C06_stop N (idx_of fe) fuel T q lvl_stop xo yo zo d pts _ Hvis Hr Z0 (or_introl eq_refl)) as (e'' & Es & Hiff & _).
    rewrite Hs in Es. injection Es as _ <-. apply Hne, Hiff. eauto.
  - cbv zeta in Hp. fold J in Hp. left. split.
    + destruct (point_is_ex _ J n W Hn) as (xo & yo & zo & d & Hpt).
      destruct (Hv n xo yo zo d Hn Hpt) as (pts & Hvis & Hr).
      specialize (Hp xo yo zo d Hpt). rewrite Hatt in Hp.
      destruct (C06_stop N (idx_of fe) fuel T q lvl_stop xo yo zo d pts _ Hvis Hr Z0 (or_introl eq_refl)) as (e'' & Es & Hiff & _).
      rewrite Hp in Es. injection Es as _ <-. destruct (proj1 Hiff eq_refl) as (c' & Hin & Hout).
      exists n, xo, yo, zo, d, pts, c'. auto.
    + rewrite (gateway_runs _ _ _ _ _ _ _ _ _ _ J (documented_call fuel c2r fe f nlhs args T q alpha lvl_stop No ro dty del Hl D)) in E.
      destruct (run_outcome fe nlhs hw env junk J W Hhw sch o Hc E) as [(H & w & e & -> & _)|(-> & _)].
      * destruct Ho; discriminate.
      * change (j_No J) with No. reflexivity.
Qed.
Print Assumptions C43_any_workers.

(** Level 'stop' (the default), lossless, more than one worker, no CTRL-C: the
    call ends in the error "SIR out-of-bounds!" if and only if some observation
    point has a source point whose sample is outside the record; otherwise it
    returns the matrix. *)
Theorem C43_stop_partial : forall (N : Num) fuel c2r fe f nlhs hw env sch (junk : list N) args T q alpha No ro dty del o,
  documented fe f args T q alpha lvl_stop No ro dty del -> nlt neps alpha = false ->
  0 <= nlhs <= 2 -> 0 <= nt q -> keeps_length c2r -> 0 <= hw -> rings_in_time fe T q ->
  no_ctrlc sch -> 1 < num_threads hw env No ->
  let J := requested fuel c2r T q alpha lvl_stop No ro dty del in
  (forall n xo yo zo d, 0 <= n < No -> point_is J n xo yo zo d -> exists pts,
     visited fuel T q xo yo zo d = Some pts /\ representable (idx_of fe) pts) ->
  gateway fuel c2r fe f nlhs hw env sch junk args = Ok (Some o) ->
  let outside := exists n xo yo zo d pts c, 0 <= n < No /\ point_is J n xo yo zo d /\
    visited fuel T q xo yo zo d = Some pts /\ In c pts /\ in_window (nt q) c = false in
  (outside /\ o = ErrOutOfBounds) \/
  (~ outside /\ exists H w e, o = Returned H (nt q) No w e).
Proof.
  intros N fuel c2r fe f nlhs hw env sch junk args T q alpha No ro dty del o D Ha Hl Hnt Hk Hhw Hf Hc Hw J Hv E outside.
  destruct (C43_any_workers N fuel c2r fe f nlhs hw env sch junk args T q alpha No ro dty del o D Ha Hl Hnt Hk Hhw Hf Hc Hv E)
    as [[A B]|A]; [left|right; exact A].
  split; [exact A|]. rewrite B. destruct (Z.ltb_spec 1 (num_threads hw env No)); [reflexivity|lia].
Qed.
Print Assumptions C43_stop_partial.

(** With one worker (one core, one observation point, or DREAM_NUM_THREADS=1)
    the same call ends in the error "CTRL-C pressed!". *)
Definition late_args : list (value FI) := [ex_Ro; row [1; 1]%float; row [0.5; 0.5; 0x1.47ae147ae147bp-5; 18]%float; num1 6%float; ex_m; VStr "stop"].
Definition outcome_is_oob (r : res (option (outcome FI))) : bool :=
  match r with Ok (Some ErrOutOfBounds) => true | _ => false end.
Definition outcome_is_ctrlc (r : res (option (outcome FI))) : bool :=
  match r with Ok (Some ErrCtrlC) => true | _ => false end.
Theorem C43_one_worker_refuted : forall fe,
  outcome_is_oob (run_ex fe FRect 2 late_args) = true /\ outcome_is_ctrlc (run_ex fe FRect 1 late_args) = true.
Proof. intros []; split; by_vm. Qed.
Print Assumptions C43_one_worker_refuted.
Example C43_nonvacuous : no_ctrlc (round_robin 10 2) /\ num_threads 2 None 3 = 2 /\
  nlt (n:=FI) neps 0%float = false.
Proof.
  split; [|split; by_vm]. intros H. assert (E : existsb (fun e => match e with CtrlC => true | _ => false end) (round_robin 10 2) = false) by reflexivity.
  assert (T : existsb (fun e => match e with CtrlC => true | _ => false end) (round_robin 10 2) = true)
    by (apply existsb_exists; exists CtrlC; auto). congruence.
Qed.
