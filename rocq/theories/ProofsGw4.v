(** ProofsGw4.v - the outcome of a call through a gateway. *)
From Verif Require Import Base BaseLemmas ModelSir ModelArr ModelSmp ProofsLocal ProofsLocalArr
  ProofsSmp ProofsCall SpecSmp ProofsSmp2 ProofsErr ProofsStatus SpecSir ProofsEnum ModelGw SpecGw ProofsGw.
Local Open Scope Z_scope.
Ltac Zify.zify_post_hook ::= Z.div_mod_to_equations.

Section Done.
  Context {N : Num} (K : idx_kind) (J : job N).
  Hypothesis W : wf_job K J.
  Local Notation nt := (nt (j_q J)).
  Local Notation No := (j_No J).
  Variables (nthreads : Z) (H0 : list N).
  Hypothesis Hth : 1 <= nthreads.
  Hypothesis HH0 : length H0 = Z.to_nat (No * nt).

  (** A call that ran to its end saw no stopping point. *)
  Lemma done_no_oob sch H' stt : call K J nthreads sch H0 = Ok (Some (H', stt, true)) ->
    forall n c, 0 <= n < No -> alone K J n (col nt n H0) <> Ok (c, err_oob).
  Proof.
    intros E n c Hn HA. apply (call_inv K J) in E as (s & Es & E).
    destruct (all_done s) eqn:Ed; [|discriminate]. injection E as -> Est Er.
    pose proof (gsteps_inv nt No nthreads (point K J) (colf K J) H0 (wj_nt K J W) (wj_No K J W) Hth HH0 (Hpt K J W) (Hlen K J W)
                  sch _ _ _ (init_inv nt No nthreads (point K J) (colf K J) H0 (wj_No K J W) Hth HH0 (Hpt K J W) (Hlen K J W)) Es) as GI.
    destruct (owner nt No nthreads (point K J) (colf K J) H0 Hth HH0 (Hpt K J W) (Hlen K J W) n s _ GI Hn) as (i & t & Et & Hrng).
    pose proof (gi_t _ _ _ _ _ _ _ GI i t Et) as T. pose proof (proj1 (all_done_spec s) Ed i t Et) as Hpc.
    assert (Hp : processed t n).
    { left. destruct (Z_lt_dec (t_n t) (t_stop t)) as [Hl|Hl].
      - pose proof (ti_bail _ _ _ _ _ _ _ _ _ T Hpc Hl). congruence.
      - pose proof (ti_stop _ _ _ _ _ _ _ _ _ T). lia. }
    apply (result_alone K J H0) in HA; auto.
    destruct (ti_oob _ _ _ _ _ _ _ _ _ T n c Hrng Hp HA) as [Hf|[_ Hf]]; congruence.
  Qed.
End Done.

Section Out.
  Context {N : Num}.
  Local Notation buf := (list N).

  Lemma col_zeros (len No n : Z) : 0 <= len -> 0 <= n < No ->
    col len n (zeros (N:=N) (len * No)) = zeros len.
  Proof.
    intros Hl Hn. unfold col, zeros.
    replace (Z.to_nat (len * No)) with (Z.to_nat (n * len) + (Z.to_nat len + Z.to_nat ((No - n - 1) * len)))%nat.
    2:{ assert (0 <= n * len) by nia. assert (0 <= (No - n - 1) * len) by nia. nia. }
    rewrite !repeat_app. rewrite skipn_app, repeat_length, Nat.sub_diag, skipn_all2 by (rewrite repeat_length; lia).
    cbn [skipn app]. rewrite firstn_app, repeat_length, Nat.sub_diag, firstn_all2 by (rewrite repeat_length; lia).
    cbn [firstn]. apply app_nil_r.
  Qed.

  (** The computation of observation point n into a zeroed column. *)
  Definition one_point (fe : front) (J : job N) (n : Z) : res (buf * SIRError) :=
    alone (idx_of fe) J n (zeros (nt (j_q J))).

  Section Run.
    Variables (fe : front) (nlhs hw : Z) (env : option Z) (junk : buf) (J : job N).
    Hypothesis W : wf_job (idx_of fe) J.
    Hypothesis Hhw : 0 <= hw.
    Local Notation ntz := (nt (j_q J)).
    Local Notation No := (j_No J).
    Local Notation workers := (num_threads hw env No).

    Lemma workers_pos : 1 <= workers.
    Proof. apply num_threads_ok; auto. exact (wj_No _ _ W). Qed.
    Lemma zeros_len : length (zeros (N:=N) (ntz * No)) = Z.to_nat (No * ntz).
    Proof. unfold zeros. rewrite repeat_length. f_equal. lia. Qed.

    Lemma run_gateway_eq sch : run_gateway fe nlhs hw env sch junk J =
      do r <- call (idx_of fe) J workers sch (zeros (ntz * No));
      match r with
      | None => Ok None
      | Some (H, err, running) =>
        Ok (Some (if negb running then
                    if SIRError_eqb err err_oob then ErrOutOfBounds else ErrCtrlC
                  else Returned H ntz No (SIRError_eqb err err_warn_oob)
                         (match fe with
                          | Octave | Matlab => if nlhs =? 2 then Some err else None
                          | _ => None
                          end)))
      end.
    Proof.
      unfold run_gateway. pose proof (wj_nt _ _ W). pose proof (wj_No _ _ W).
      destruct (Z.ltb_spec ntz 0); [lia|]. rewrite sir_clear_alloc by auto. reflexivity.
    Qed.

    Lemma run_completes sch :
      (forall n, 0 <= n < No -> exists c e, one_point fe J n = Ok (c, e)) ->
      exists r, run_gateway fe nlhs hw env sch junk J = Ok r /\
      ((forall i, 0 <= i < workers ->
         3 * (part_stop i No workers - part_start i No workers) + 1 <= steps_of (Z.to_nat i) sch) -> r <> None).
    Proof.
      intros Hok. rewrite run_gateway_eq.
      destruct (call_completes (idx_of fe) J W workers (zeros (ntz * No)) workers_pos zeros_len sch) as (r & E & Hr).
      { intros n Hn. rewrite col_zeros by (auto; apply (wj_nt _ _ W)). exact (Hok n Hn). }
      rewrite E. cbn [bind]. destruct r as [[[H e] rr]|].
      - eexists. split; [reflexivity|discriminate].
      - eexists. split; [reflexivity|]. intros Hf _. exact (Hr Hf eq_refl).
    Qed.

    (** No CTRL-C: a matrix is returned iff no point stops; its columns are the
        single-point computations. *)
    Lemma run_outcome sch o : no_ctrlc sch ->
      run_gateway fe nlhs hw env sch junk J = Ok (Some o) ->
      (exists H w e, o = Returned H ntz No w e /\ length H = Z.to_nat (ntz * No) /\
         (forall n c, 0 <= n < No -> one_point fe J n <> Ok (c, err_oob)) /\
         (forall n, 0 <= n < No -> exists e, one_point fe J n = Ok (col ntz n H, e))) \/
      (o = (if 1 <? workers then ErrOutOfBounds else ErrCtrlC) /\
       exists n c, 0 <= n < No /\ one_point fe J n = Ok (c, err_oob)).
    Proof.
      intros Hc. rewrite run_gateway_eq. intros E. apply bind_Ok_inv in E as (r & E & E2).
      destruct r as [[[H e] rr]|]; [|discriminate].
      assert (Hcol : forall n, 0 <= n < No -> col ntz n (zeros (N:=N) (ntz * No)) = zeros ntz).
      { intros n Hn. apply col_zeros; auto. apply (wj_nt _ _ W). }
      destruct rr; cbn [negb] in E2; injection E2 as <-.
      - left. do 3 eexists. split; [reflexivity|].
        destruct (call_columns (idx_of fe) J W workers _ workers_pos zeros_len sch H e E) as [HL HC].
        rewrite zeros_len in HL. split; [rewrite HL; f_equal; lia|]. split.
        + intros n c Hn. unfold one_point. rewrite <- (Hcol n Hn).
          exact (done_no_oob (idx_of fe) J W workers _ workers_pos zeros_len sch H e E n c Hn).
        + intros n Hn. destruct (HC n Hn) as (e' & He). exists e'. unfold one_point. rewrite <- (Hcol n Hn). exact He.
      - right. split.
        + destruct (Z.ltb_spec 1 workers) as [Hw|Hw].
          * rewrite (call_stopped_status (idx_of fe) J W workers _ workers_pos zeros_len sch H e (existsb_ctrlc sch Hc) Hw E).
            reflexivity.
          * assert (He : e = err_none).
            { apply (call_inv (idx_of fe) J) in E as (s & Es & E). destruct (all_done s); [|discriminate].
              injection E as _ Est _. unfold call_status in Est. pose proof workers_pos.
              destruct (Z.ltb_spec 1 workers); [lia|]. exact Est. }
            rewrite He. reflexivity.
        + apply (call_inv (idx_of fe) J) in E as (s & Es & E). destruct (all_done s) eqn:Ed; [|discriminate].
          injection E as -> Est Er.
          pose proof (gsteps_inv ntz No workers (point (idx_of fe) J) (colf (idx_of fe) J) (zeros (ntz * No))
             (wj_nt _ _ W) (wj_No _ _ W) workers_pos zeros_len (Hpt _ J W) (Hlen _ J W) sch _ _ _
             (init_inv ntz No workers (point (idx_of fe) J) (colf (idx_of fe) J) (zeros (ntz * No))
               (wj_No _ _ W) workers_pos zeros_len (Hpt _ J W) (Hlen _ J W)) Es) as GI.
          destruct (gi_run _ _ _ _ _ _ _ GI (eq_sym Er)) as [Hx|(n & c & Hn & HR & _)].
          * rewrite (existsb_ctrlc sch Hc) in Hx. discriminate.
          * apply (result_alone (idx_of fe) J _) in HR; auto. exists n, c. split; [exact Hn|].
            unfold one_point. rewrite <- (Hcol n Hn). exact HR.
    Qed.
  End Run.

  Lemma gateway_runs fuel c2r fe f nlhs hw env sch (junk : buf) args J :
    parse_call fuel c2r fe f nlhs args = Ok (Some J) ->
    gateway fuel c2r fe f nlhs hw env sch junk args = run_gateway fe nlhs hw env sch junk J.
  Proof. intros E. unfold gateway. rewrite E. reflexivity. Qed.
End Out.
