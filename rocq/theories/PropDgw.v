(** PropDgw.v - property theorems: whole das calls through the front ends
    (C63-C67). *)
From Coq Require Strings.String Strings.Ascii.
Import Coq.Strings.String.StringSyntax.
From Coq Require Import Reals Lra Lia ZArith List Bool ZifyBool ZifyNat.
From Verif Require Import Base BaseLemmas ModelSir ModelArr ModelSmp ModelDas NumR SpecSmp SpecDft SpecDas
  ProofsLocal ProofsLocalArr ProofsSmp ProofsLoop ProofsCallG ProofsSmp2 ProofsR ProofsDft ProofsDas ProofsDasR ProofsRca ProofsDasJ PropDas PropDas2
  ModelGw SpecGw ProofsGw ProofsGw2 ModelDgw SpecDgw ProofsDgw ProofsDgw2.
Import ListNotations.
Local Open Scope string_scope.
Local Open Scope Z_scope.
Ltac Zify.zify_post_hook ::= Z.div_mod_to_equations.

(** What the user sees of a call: everything but the object kept for later. *)
Definition seen {N : Num} (r : res (option (doutcome N * option das_obj))) : res (option (doutcome N)) :=
  do x <- r; Ok (match x with Some (o, _) => Some o | None => None end).

(** ** C63: calls do not depend on earlier calls *)
Lemma object_fields opencl old t len No nt nr gpu :
  let o := das_object opencl old t len No nt nr gpu in
  o_type o = t /\ o_len o = len /\ o_No o = No /\ o_num_t o = nt.
Proof.
  cbv zeta. unfold das_object.
  assert (H : forall o, das_setup_has_changed o t len No nt nr gpu = false -> o_type o = t /\ o_len o = len /\ o_No o = No /\ o_num_t o = nt).
  { intros o. unfold das_setup_has_changed. rewrite !orb_false_iff, !negb_false_iff, !Z.eqb_eq.
    intros (((((Ht & Hl) & Hn) & Hnt) & _) & _). repeat split; auto. revert Ht. destruct t, (o_type o); cbn; congruence. }
  destruct old as [o|]; [destruct (das_setup_has_changed o t len No nt nr gpu) eqn:E; [|now apply H]|];
    unfold das_new; destruct opencl; repeat split.
Qed.
Lemma cl_das_saft {N : Num} (J1 J2 : das_job N) junk : d_type J1 = das_saft -> d_type J2 = das_saft ->
  d_len J1 = d_len J2 -> d_No J1 = d_No J2 -> d_num_t J1 = d_num_t J2 -> d_Y J1 = d_Y J2 -> d_Ro J1 = d_Ro J2 -> d_Gt J1 = d_Gt J2 ->
  d_dt J1 = d_dt J2 -> d_delay J1 = d_delay J2 -> d_cp J1 = d_cp J2 -> cl_das J1 junk = cl_das J2 junk.
Proof.
  intros T1 T2 E1 E2 E3 E4 E5 E6 E7 E8 E9. unfold cl_das, cl_value. rewrite T1, T2, E1, E2, E3, E4, E5, E6, E7, E8, E9. reflexivity.
Qed.
(** The object left over from earlier calls - any object whatever - does not
    change what the user sees of the next call. *)
Theorem C63_history : forall (N : Num) fe opencl nlhs hw env sch (junk : list N) old1 old2 args,
  seen (das_gateway fe opencl nlhs hw env sch junk old1 args) = seen (das_gateway fe opencl nlhs hw env sch junk old2 args).
Proof.
  intros N fe opencl nlhs hw env sch junk old1 old2 args. unfold das_gateway.
  destruct (parse_das fe nlhs args) as [[| |c]|u|]; try reflexivity. cbn [bind].
  unfold run_das. set (J := c_job c). set (gpu := opencl && c_gpu c).
  destruct gpu eqn:Eg.
  - destruct (with_object_any opencl old1 old2 J true) as [E|(Eo & _ & Et)].
    + rewrite E. destruct (buf_get _ 0) as [x|u|]; try reflexivity. cbn [bind]. destruct (cl_das _ _); reflexivity.
    + pose proof (object_fields opencl old1 (d_type J) (d_len J) (d_No J) (d_num_t J) (d_num_r J) true) as (A1 & A2 & A3 & A4).
      pose proof (object_fields opencl old2 (d_type J) (d_len J) (d_No J) (d_num_t J) (d_num_r J) true) as (B1 & B2 & B3 & B4).
      set (o1 := das_object _ old1 _ _ _ _ _ _) in *. set (o2 := das_object _ old2 _ _ _ _ _ _) in *.
      assert (El : d_No (with_object o1 J) = d_No (with_object o2 J)) by (cbn; congruence).
      rewrite El.
      rewrite (cl_das_saft (with_object o1 J) (with_object o2 J)) by (cbn; congruence).
      change (d_delay (with_object o1 J)) with (d_delay (with_object o2 J)).
      destruct (buf_get _ 0) as [x|u|]; try reflexivity. cbn [bind]. destruct (cl_das _ _); reflexivity.
  - rewrite !with_object_new. destruct (das_call _ _ _ _ _) as [[[[Im e] r]|]|u|]; reflexivity.
Qed.
Print Assumptions C63_history.

(** ** C64: documented calls *)

(** Any arithmetic: the documented arguments for the job J give exactly the
    threaded computation of J, reported as [user_sees] says. *)
Theorem C64_call : forall (N : Num) fe opencl nlhs hw env sch (junk : list N) old (J : das_job N) ny args,
  das_args fe opencl J ny args -> 0 <= nlhs <= 2 ->
  seen (das_gateway fe opencl nlhs hw env sch junk old args) =
  do r <- das_call (idx_of fe) J (num_threads hw env (d_No J)) sch (alloc junk (Z.to_nat (d_No J)));
  Ok (match r with Some (Im, stt, running) => Some (user_sees fe nlhs Im stt running) | None => None end).
Proof.
  intros N fe opencl nlhs hw env sch junk old J ny args D Hn.
  destruct (parse_das_doc fe opencl nlhs J ny args D Hn) as (c & Ep & Ec & Eg).
  unfold das_gateway. rewrite Ep. cbn [bind]. unfold run_das. rewrite Ec, Eg, with_object_new. unfold seen, user_sees.
  destruct (das_call _ _ _ _ _) as [[[[Im e] r]|]|u|]; try reflexivity. cbn [bind]. destruct r; reflexivity.
Qed.
Print Assumptions C64_call.

Section Exact.
  Variables (fe : front) (opencl : bool) (nlhs hw : Z) (env : option Z) (sch : list event) (junk : list EN) (old : option das_obj).
  Variables (J : rjob) (ny : Z) (args : list (darg EN)).
  Hypothesis D : das_args fe opencl (emb_das J) ny args.
  Hypothesis Hn : 0 <= nlhs <= 2.
  Hypothesis Hhw : 0 <= hw.
  Local Notation workers := (num_threads hw env (Z.of_nat (q_No J))).
  Lemma workers_ok : 1 <= workers.
  Proof. apply num_threads_ok; lia. Qed.
  Lemma image_len : length (alloc junk (Z.to_nat (d_No (emb_das J)))) = q_No J.
  Proof. rewrite alloc_length. cbn. lia. Qed.
  Lemma seen_call Im stt r :
    das_call (N:=EN) (idx_of fe) (emb_das J) workers sch (alloc junk (Z.to_nat (d_No (emb_das J)))) = Ok (Some (Im, stt, r)) ->
    seen (das_gateway fe opencl nlhs hw env sch junk old args) = Ok (Some (user_sees fe nlhs Im stt r)).
  Proof. intros E. rewrite (C64_call EN fe opencl nlhs hw env sch junk old (emb_das J) ny args D Hn). cbn [d_No emb_das] in *. rewrite E. reflexivity. Qed.
  Lemma seen_stopped Im stt : rjob_ok J -> no_ctrlc sch ->
    das_call (N:=EN) (idx_of fe) (emb_das J) workers sch (alloc junk (Z.to_nat (d_No (emb_das J)))) = Ok (Some (Im, stt, false)) ->
    seen (das_gateway fe opencl nlhs hw env sch junk old args) =
      Ok (Some (if 1 <? workers then DErrOutOfBounds else DErrCtrlC)).
  Proof.
    intros OK Hc E. rewrite (seen_call _ _ _ E). unfold user_sees. do 2 f_equal.
    destruct (1 <? workers) eqn:E1.
    - assert (X : stt = err_oob); [|rewrite X; reflexivity].
      refine (das_call_stopped (idx_of fe) (emb_das J) workers _ sch Im stt (emb_wf J OK) ltac:(lia) _ Hc E).
      rewrite image_len. reflexivity.
    - pose proof workers_ok. replace workers with 1 in E by lia. rewrite (das_call_one _ _ _ _ _ _ _ E). reflexivity.
  Qed.
End Exact.

(** TFM, exact arithmetic: with level ignore or warn, or whenever every pair's
    sample lies inside the record, the user gets the delay-and-sum image ... *)
Theorem C64_tfm : forall fe opencl nlhs hw env sch junk old J ny args,
  das_args fe opencl (emb_das J) ny args -> 0 <= nlhs <= 2 -> 0 <= hw ->
  rjob_ok J -> q_type J = das_tfm -> (1 <= q_nr J)%nat ->
  (q_nt J * q_nr J * q_len J <= length (q_Y J))%nat -> tfm_fits (idx_of fe) J ->
  fair (Z.of_nat (q_No J)) (num_threads hw env (Z.of_nat (q_No J))) sch ->
  let all_in := forall n, (n < q_No J)%nat ->
       das_all_inside (Z.of_nat (q_len J)) (q_nt J) (q_nr J) (tx_dist J n) (rx_dist J n) (q_dt J) (q_cp J) (delay_of J n) in
  (~ is_stop (q_lvl J) \/ all_in ->
   exists Im w e, seen (das_gateway fe opencl nlhs hw env sch junk old args) = Ok (Some (DReturned Im w e)) /\
     length Im = q_No J /\
     forall n, (n < q_No J)%nat -> nth n Im None =
       Some (das_sum (q_Y J) (Z.of_nat (q_len J)) (q_nt J) (q_nr J) (tx_dist J n) (rx_dist J n) (q_dt J) (q_cp J) (delay_of J n))) /\
  (* ... and with level stop and a sample outside, an error and no image. *)
  (is_stop (q_lvl J) -> ~ all_in ->
   seen (das_gateway fe opencl nlhs hw env sch junk old args) =
     Ok (Some (if 1 <? num_threads hw env (Z.of_nat (q_No J)) then DErrOutOfBounds else DErrCtrlC))).
Proof.
  intros fe opencl nlhs hw env sch junk old J ny args D Hn Hhw OK Ht Hr HY Hf Hs all_in.
  pose proof (workers_ok hw env J Hhw) as Hw. pose proof (image_len junk J) as HL.
  destruct (C24_tfm_ends (idx_of fe) J _ _ sch OK Ht Hr HY Hf Hw HL Hs) as (Im & stt & r & E & Hrun).
  split.
  - intros H. rewrite (Hrun H) in E.
    destruct (C24_tfm (idx_of fe) J _ _ sch Im stt OK Ht Hr HY Hf Hw HL E) as (L & V & _).
    eexists Im, _, _. split; [exact (seen_call fe opencl nlhs hw env sch junk old J ny args D Hn Im stt true E)|]. split; assumption.
  - intros Hst Hna. destruct r.
    + exfalso. apply Hna. exact (proj2 (proj2 (proj2 (C24_tfm (idx_of fe) J _ _ sch Im stt OK Ht Hr HY Hf Hw HL E))) Hst).
    + eapply seen_stopped; eauto. apply Hs.
Qed.
Print Assumptions C64_tfm.

(** SAFT: the image is the SAFT sum for twice the user's delay. *)
Theorem C64_saft_partial : forall fe opencl nlhs hw env sch junk old J ny args,
  das_args fe opencl (emb_das J) ny args -> 0 <= nlhs <= 2 -> 0 <= hw ->
  rjob_ok J -> q_type J = das_saft ->
  (q_nt J * q_len J <= length (q_Y J))%nat -> saft_fits (idx_of fe) J -> ~ is_stop (q_lvl J) ->
  fair (Z.of_nat (q_No J)) (num_threads hw env (Z.of_nat (q_No J))) sch ->
  exists Im w e, seen (das_gateway fe opencl nlhs hw env sch junk old args) = Ok (Some (DReturned Im w e)) /\
     length Im = q_No J /\
     (forall n, (n < q_No J)%nat -> nth n Im None =
       Some (saft_sum (q_Y J) (Z.of_nat (q_len J)) (q_nt J) (tx_dist J n) (q_dt J) (q_cp J) (2 * delay_of J n))) /\
     (forall n, (n < q_No J)%nat -> delay_of J n = 0%R -> nth n Im None =
       Some (saft_sum (q_Y J) (Z.of_nat (q_len J)) (q_nt J) (tx_dist J n) (q_dt J) (q_cp J) (delay_of J n))).
Proof.
  intros fe opencl nlhs hw env sch junk old J ny args D Hn Hhw OK Ht HY Hf Hl Hs.
  pose proof (workers_ok hw env J Hhw) as Hw. pose proof (image_len junk J) as HL.
  destruct Hs as [Hc Hs].
  destruct (call_ends (idx_of fe) J _ _
    (fun n => map (fun i => (i, g_saft (q_dt J) (q_cp J) (delay_of J n) (tx_dist J n) i)) (seq 0 (q_nt J)))
    OK Hw HL (fun n Hn => value_saft (idx_of fe) J OK n Hn (or_introl Ht) HY (fun t => Hf n t Hn)) sch Hc Hs) as (Im & stt & r & E & H).
  assert (r = true) as -> by (apply H; left; unfold is_stop in Hl; tauto).
  destruct (C24_saft_partial (idx_of fe) J _ _ sch Im stt OK (or_introl Ht) HY Hf Hw HL E) as (L & V & V0 & _).
  eexists Im, _, _. split; [exact (seen_call fe opencl nlhs hw env sch junk old J ny args D Hn Im stt true E)|]. auto.
Qed.
Print Assumptions C64_saft_partial.

(** Square row-column arrays with ordered elements. *)
Theorem C64_rca_partial : forall fe opencl nlhs hw env sch junk old J ny args dcol drow,
  das_args fe opencl (emb_das J) ny args -> 0 <= nlhs <= 2 -> 0 <= hw ->
  rjob_ok J -> q_type J = das_rca_coltx \/ q_type J = das_rca_rowtx ->
  q_nt J = q_nr J -> (1 <= q_nr J)%nat ->
  (vy (row3 (q_Gr J) (q_nr J) 0) <= vy (row3 (q_Gr J) (q_nr J) (q_nr J - 1)))%R ->
  (vx (row3 (q_Gt J) (q_nt J) 0) <= vx (row3 (q_Gt J) (q_nt J) (q_nt J - 1)))%R ->
  (q_nt J * q_nr J * q_len J <= length (q_Y J))%nat -> rca_dists J dcol drow -> rca_fits (idx_of fe) J dcol drow ->
  ~ is_stop (q_lvl J) ->
  fair (Z.of_nat (q_No J)) (num_threads hw env (Z.of_nat (q_No J))) sch ->
  exists Im w e, seen (das_gateway fe opencl nlhs hw env sch junk old args) = Ok (Some (DReturned Im w e)) /\
     length Im = q_No J /\
     forall n, (n < q_No J)%nat ->
      (q_type J = das_rca_coltx -> nth n Im None =
        Some (das_sum (q_Y J) (Z.of_nat (q_len J)) (q_nt J) (q_nr J) (dcol n) (drow n) (q_dt J) (q_cp J) (delay_of J n))) /\
      (q_type J = das_rca_rowtx -> nth n Im None =
        Some (das_sum (q_Y J) (Z.of_nat (q_len J)) (q_nr J) (q_nt J) (drow n) (dcol n) (q_dt J) (q_cp J) (delay_of J n))).
Proof.
  intros fe opencl nlhs hw env sch junk old J ny args dcol drow D Hn Hhw OK Ht Hsq Hr Hy Hx HY Hd Hf Hl Hs.
  pose proof (workers_ok hw env J Hhw) as Hw. pose proof (image_len junk J) as HL.
  destruct (C26_square_ends_partial (idx_of fe) J _ _ sch dcol drow OK Ht Hsq Hr Hy Hx HY Hd Hf Hw HL Hs) as (Im & stt & r & E & H).
  rewrite (H Hl) in E.
  destruct (C26_square_partial (idx_of fe) J _ _ sch Im stt dcol drow OK Ht Hsq Hr Hy Hx HY Hd Hf Hw HL E) as (L & V).
  eexists Im, _, _. split; [exact (seen_call fe opencl nlhs hw env sch junk old J ny args D Hn Im stt true E)|]. auto.
Qed.
Print Assumptions C64_rca_partial.

(** Hypotheses are satisfiable in every front end: the TFM job of C24. *)
Definition ex_tfm_args (J : rjob) : list (darg EN) :=
  [dmat Full 10 4 (d_Y (emb_das J)); dmat Full 2 3 (d_Gt (emb_das J)); dmat Full 2 3 (d_Gr (emb_das J));
   dmat Full 1 3 (d_Ro (emb_das J)); dmat Full 1 1 [d_dt (emb_das J)]; dmat Full 1 1 (d_delay (emb_das J)); dmat Full 1 1 [d_cp (emb_das J)];
   dtext "tfm"; dtext "ignore"; dtext "cpu"; dtext ""].
Lemma ex_tfm_args_ok fe opencl : das_args fe opencl (emb_das (ex_tfm lvl_ignore)) 4 (ex_tfm_args (ex_tfm lvl_ignore)).
Proof.
  exists "tfm", 3, Full, Full, Full, 1, 1, [dtext "ignore"; dtext "cpu"; dtext ""]. split; [reflexivity|].
  split; [cbn; auto|]. split.
  { right; right; right. exists "ignore", "cpu", "". split; [reflexivity|]. split; [cbn; auto|]. left; reflexivity. }
  split; [left; reflexivity|]. split; [discriminate|]. split; [discriminate|]. split; [reflexivity|]. split; [reflexivity|].
  split; [left; reflexivity|]. destruct fe; try exact I; try reflexivity; discriminate.
Qed.
Example C64_ex : forall fe opencl junk old, exists Im w e,
  seen (das_gateway fe opencl 1 1 None one_round junk old (ex_tfm_args (ex_tfm lvl_ignore))) = Ok (Some (DReturned Im w e)) /\
  length Im = 1%nat.
Proof.
  intros fe opencl junk old.
  assert (OK : rjob_ok (ex_tfm lvl_ignore)) by (apply ex_das_ok; reflexivity).
  assert (F : tfm_fits (idx_of fe) (ex_tfm lvl_ignore)).
  { intros n t r Hn Ht Hr. cbn in Hn, Ht, Hr. destruct (ex_tfm_dist lvl_ignore n t Hn Ht) as [E1 _].
    destruct (ex_tfm_dist lvl_ignore n r Hn Hr) as [_ E2]. rewrite E1, E2.
    change (q_dt (ex_tfm lvl_ignore)) with 1%R. change (q_cp (ex_tfm lvl_ignore)) with 1000%R. rewrite ex_sample.
    apply fits_small. change (delay_of (ex_tfm lvl_ignore) n) with 0%R. destruct (Nat.eqb t 0), (Nat.eqb r 0); lra. }
  destruct (C64_tfm fe opencl 1 1 None one_round junk old (ex_tfm lvl_ignore) 4 _ (ex_tfm_args_ok fe opencl) ltac:(lia) ltac:(lia)
    OK eq_refl ltac:(cbn; lia) ltac:(cbn; lia) F) as [H _].
  { replace (num_threads 1 None (Z.of_nat (q_No (ex_tfm lvl_ignore)))) with 1 by reflexivity. exact one_round_fair. }
  assert (Hns : ~ is_stop (q_lvl (ex_tfm lvl_ignore))) by (unfold is_stop; intros [X|X]; discriminate X).
  destruct (H (or_introl Hns)) as (Im & w & e & E & L & _). eauto.
Qed.

(** ** C65: the method string *)
Lemma das_of_string_doc s t : das_of_string s = Some t <-> In (s, t) das_doc.
Proof.
  unfold das_of_string. split.
  - destruct (String.eqb_spec s "saft"); [intros [= <-]; subst; cbn; auto|].
    destruct (String.eqb_spec s "tfm"); [intros [= <-]; subst; cbn; auto|].
    destruct (String.eqb_spec s "rca"); [intros [= <-]; subst; cbn; auto|].
    destruct (String.eqb_spec s "rca_coltx"); [intros [= <-]; subst; cbn; auto|].
    destruct (String.eqb_spec s "rca_rowtx"); [intros [= <-]; subst; cbn; auto 10|]. discriminate.
  - cbn. intros [H|[H|[H|[H|[H|[]]]]]]; injection H as <- <-; reflexivity.
Qed.
Lemma das_short t x : das_of_string t = Some x -> (String.length t < 50)%nat.
Proof.
  intros H. apply das_of_string_doc in H. cbn in H. destruct H as [H|[H|[H|[H|[H|[]]]]]]; injection H; intros _ <-; cbn; lia.
Qed.
Lemma parse_das_arg_inv {N : Num} fe (v : value N) : (forall s, v = VStr s -> printable fe s) -> goes_on fe (parse_das_arg fe v) = true ->
  (fe = Matlab -> exists s, v = VStr s) -> exists s, v = VStr s /\ In (s, p_val (parse_das_arg fe v)) das_doc.
Proof.
  intros P G _. unfold parse_das_arg in *. destruct v as [st m n d|s]; cbn [is_string negb str_of] in *.
  - destruct fe; discriminate G.
  - exists s. split; [reflexivity|]. destruct (das_of_string (get_string_arg fe s)) as [t|] eqn:E; [|destruct fe; discriminate G].
    cbn. apply das_of_string_doc. apply (through_arg das_of_string fe s t (P s eq_refl) eq_refl); auto. intros a b. apply das_short.
Qed.

Lemma dreq_call {N : Num} b (k : res (dparse (N:=N))) c : dreq b k = Ok (PCall c) -> b = true /\ k = Ok (PCall c).
Proof. destruct b; [auto|discriminate]. Qed.
Lemma dthen_call {N : Num} {A} fe (p : parsed A) k (c : dcall (N:=N)) : dthen fe p k = Ok (PCall c) -> goes_on fe p = true /\ k (p_val p) = Ok (PCall c).
Proof. unfold dthen. destruct (goes_on fe p); [auto|discriminate]. Qed.
Lemma darg_at_ok {N : Num} (args : list (darg N)) i a : darg_at args i = Ok a -> nth_error args i = Some a.
Proof. unfold darg_at. destruct (nth_error args i); congruence. Qed.
Lemma dnum_ok {N : Num} fe (args : list (darg N)) i a : dnum fe args i = Ok a -> nth_error args i = Some a.
Proof.
  unfold dnum. intros E. apply bind_Ok_inv in E as (x & Ex & E). apply bind_Ok_inv in E as (u & _ & E). injection E as <-.
  now apply darg_at_ok.
Qed.

(** Whatever the arguments: a call that is accepted carries one of the five
    documented method strings (and, if given, one of the three level strings)
    and computes that method at that level; the level is 'stop' if none is
    given. *)
Theorem C65_options : forall (N : Num) fe nlhs (args : list (darg N)) c,
  (forall a s, In a args -> g_val a = VStr s -> printable fe s) ->
  parse_das fe nlhs args = Ok (PCall c) ->
  (exists a s, nth_error args 7 = Some a /\ g_val a = VStr s /\ In (s, d_type (c_job c)) das_doc) /\
  match nth_error args 8 with
  | Some a => exists s, g_val a = VStr s /\ In (s, d_lvl (c_job c)) err_doc
  | None => d_lvl (c_job c) = lvl_stop
  end.
Proof.
  intros N fe nlhs args c P.
  assert (P' : forall i a, nth_error args i = Some a -> forall s, g_val a = VStr s -> printable fe s).
  { intros i a Hi s Hs. exact (P a s (nth_error_In _ _ Hi) Hs). }
  assert (Om : fe = Octave \/ fe = Matlab -> parse_das_om fe nlhs args = Ok (PCall c) ->
    (exists a s, nth_error args 7 = Some a /\ g_val a = VStr s /\ In (s, d_type (c_job c)) das_doc) /\
    match nth_error args 8 with
    | Some a => exists s, g_val a = VStr s /\ In (s, d_lvl (c_job c)) err_doc
    | None => d_lvl (c_job c) = lvl_stop
    end).
  { intros _ E. unfold parse_das_om in E. apply dreq_call in E as (_ & E). apply dreq_call in E as (_ & E).
    do 7 (apply bind_Ok_inv in E as (? & _ & E)). apply bind_Ok_inv in E as (a7 & E7 & E). apply darg_at_ok in E7.
    match type of E with (if ?b then _ else _) = _ => destruct b end.
    { exfalso. unfold dreq in E. match type of E with (if ?b then _ else _) = _ => destruct b end; discriminate. }
    do 5 (apply dreq_call in E as (_ & E)). apply bind_Ok_inv in E as (dt & _ & E). do 2 (apply dreq_call in E as (_ & E)).
    apply bind_Ok_inv in E as (cp & _ & E). apply dthen_call in E as (G7 & E).
    destruct (parse_das_arg_inv fe (g_val a7) (P' 7%nat a7 E7) G7) as (s & Es & Hs).
    { intros ->. unfold parse_das_arg in G7. destruct (g_val a7); [discriminate G7|eauto]. }
    assert (L : forall lvl, (forall l : ErrorLevel, l = lvl -> 
       (do dev <- (if Z.of_nat (length args) =? 10 then do a <- darg_at args 9; Ok (Some (g_val a)) else Ok None);
      dreq (match dev with Some v => is_string v | None => true end) (
      do verb <- (if Z.of_nat (length args) =? 11 then do a <- darg_at args 10; Ok (Some (g_val a)) else Ok None);
      dreq (match verb with Some v => is_string v | None => true end) (
      let device := match dev with Some v => get_string_arg fe (str_of v) | None => "" end in
      Ok (PCall {| c_job := {| d_type := p_val (parse_das_arg fe (g_val a7)); d_len := get_m (g_val x); d_No := get_m (g_val x2); d_num_t := get_m (g_val x0); 
          d_num_r := if match fe with Octave => negb (get_m (g_val x1) =? 0) | _ => negb (get_n (g_val x1) =? 0) end then get_m (g_val x1) else 0;
                               d_Y := kept fe x; d_Ro := kept fe x2; d_Gt := kept fe x0; 
          d_Gr := if match fe with Octave => negb (get_m (g_val x1) =? 0) | _ => negb (get_n (g_val x1) =? 0) end then kept fe x1 else [];
                               d_dt := dt; d_delay_type := delay_type_of (g_val x4); d_delay := kept fe x4; d_cp := cp; d_lvl := l |};
                   c_gpu := String.eqb device "gpu" |})))) = Ok (PCall c)) ->
       d_type (c_job c) = p_val (parse_das_arg fe (g_val a7)) /\ d_lvl (c_job c) = lvl).
    { intros lvl H. specialize (H lvl eq_refl). apply bind_Ok_inv in H as (dev & _ & H). apply dreq_call in H as (_ & H).
      apply bind_Ok_inv in H as (verb & _ & H). apply dreq_call in H as (_ & H). injection H as <-. split; reflexivity. }
    destruct (9 <=? Z.of_nat (length args)) eqn:E9.
    - apply bind_Ok_inv in E as (a8 & E8 & E). apply darg_at_ok in E8. apply dthen_call in E as (G8 & E).
      destruct (parse_error_inv fe (g_val a8) G8 (P' 8%nat a8 E8)) as (s8 & Es8 & Hs8).
      destruct (L (p_val (parse_error_arg fe (g_val a8)))) as (T & V); [intros l ->; exact E|].
      split; [exists a7, s; rewrite T; auto|]. rewrite E8, V. eauto.
    - destruct (L lvl_stop) as (T & V); [intros l ->; exact E|].
      split; [exists a7, s; rewrite T; auto|]. replace (nth_error args 8) with (@None (darg N)); [exact V|].
      symmetry. apply nth_error_None. lia. }
  destruct fe; intros E; try (apply Om; [auto|exact E]); clear Om.
  all: unfold parse_das, parse_das_pj in E; apply dreq_call in E as (_ & E); apply bind_Ok_inv in E as (a0 & _ & E);
    apply bind_Ok_inv in E as (a1 & _ & E); apply dreq_call in E as (_ & E); apply bind_Ok_inv in E as (a7 & E7 & E); apply darg_at_ok in E7;
    apply dthen_call in E as (G7 & E); destruct (parse_das_arg_inv _ (g_val a7) (P' 7%nat a7 E7) G7 ltac:(discriminate)) as (s & Es & Hs);
    assert (R : exists num_r Gr a3 a5, (do a4 <- darg_at args 4; do dt <- buf_get (read_now Python a4) 0;
      do a6 <- darg_at args 6; do cp <- buf_get (read_now Python a6) 0;
      do a8 <- darg_at args 8;
      dthen Python (parse_error_arg Python (g_val a8)) (fun lvl =>
      do a9 <- darg_at args 9;
      let device := get_string_arg Python (str_of (g_val a9)) in
      dreq (negb (negb (String.eqb device "cpu") && String.eqb device "gpu")) (
      Ok (PCall {| c_job := {| d_type := p_val (parse_das_arg Python (g_val a7)); d_len := get_m (g_val a0); d_No := get_m (g_val a3); d_num_t := get_m (g_val a1); d_num_r := num_r;
                               d_Y := kept Python a0; d_Ro := kept Python a3; d_Gt := kept Python a1; d_Gr := Gr;
                               d_dt := dt; d_delay_type := delay_type_of (g_val a5); d_delay := kept Python a5; d_cp := cp; d_lvl := lvl |};
                   c_gpu := String.eqb device "gpu" |})))) = Ok (PCall c)).
  all: try (cbv beta zeta in E; cbv beta zeta;
    destruct (p_val (parse_das_arg _ (g_val a7))) eqn:Et;
    [|apply bind_Ok_inv in E as (a2 & _ & E); apply dreq_call in E as (_ & E)..];
    apply bind_Ok_inv in E as (a3 & _ & E); apply dreq_call in E as (_ & E);
    apply bind_Ok_inv in E as (a5 & _ & E); apply dreq_call in E as (_ & E);
    eexists _, _, a3, a5; unfold parse_das_arg in Et |- *; rewrite ?Et; exact E).
  all: clear E; destruct R as (num_r & Gr & a3 & a5 & E);
    apply bind_Ok_inv in E as (a4 & _ & E); apply bind_Ok_inv in E as (dt & _ & E); apply bind_Ok_inv in E as (a6 & _ & E);
    apply bind_Ok_inv in E as (cp & _ & E); apply bind_Ok_inv in E as (a8 & E8 & E); apply darg_at_ok in E8; apply dthen_call in E as (G8 & E);
    apply bind_Ok_inv in E as (a9 & _ & E); apply dreq_call in E as (_ & E); injection E as <-; cbn [c_job d_type d_lvl];
    (split; [exists a7, s; auto|]); rewrite E8.
  - destruct (parse_error_inv Python (g_val a8) G8 (P' 8%nat a8 E8)) as (s8 & Es8 & Hs8). eauto.
  - destruct (parse_error_inv Julia (g_val a8) G8 (P' 8%nat a8 E8)) as (s8 & Es8 & Hs8). eauto.
Qed.
Print Assumptions C65_options.
