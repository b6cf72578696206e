(** ProofsCall.v - the drivers instantiated with the SIR functions. *)
From Verif Require Import Base BaseLemmas ModelSir ModelArr ModelSmp ProofsLocal ProofsLocalArr ProofsSmp.
From Coq Require Import ZifyBool ZifyNat.
Ltac Zify.zify_post_hook ::= Z.div_mod_to_equations.

Section Call.
  Context {N : Num} (K : idx_kind).
  Local Notation buf := (list N).
  Local Notation st := (buf * SIRError)%type.

  (** What the gateways check before they call the driver. *)
  Record wf_job (J : job N) : Prop := {
    wj_nt : 0 <= nt (j_q J);
    wj_No : 0 <= j_No J;
    wj_Ro : Z.of_nat (length (j_Ro J)) = 3 * j_No J;
    wj_delay : match j_delay_type J with delay_single => 1 | delay_multiple => j_No J end
               <= Z.of_nat (length (j_delay J));
    wj_att : att_wf (nt (j_q J)) (j_att J);
    wj_T : wf_transducer K (j_q J) (j_T J)
  }.

  (** Observation point n computed on its own, into a buffer of its own. *)
  Definition alone (J : job N) (n : Z) (c : buf) : res st :=
    do xo <- buf_get (j_Ro J) n;
    do yo <- buf_get (j_Ro J) (n + 1 * j_No J);
    do zo <- buf_get (j_Ro J) (n + 2 * j_No J);
    do dlay <- buf_get (j_delay J) (match j_delay_type J with delay_single => 0 | delay_multiple => n end);
    serial K (j_fuel J) (j_T J) (j_q J) (j_att J) (j_lvl J) xo yo zo dlay 0 c.

  Variable J : job N.
  Hypothesis W : wf_job J.
  Local Notation nt := (nt (j_q J)).
  Local Notation No := (j_No J).

  Lemma point_args n : 0 <= n < No -> exists xo yo zo dl,
    buf_get (j_Ro J) n = Ok xo /\ buf_get (j_Ro J) (n + 1 * No) = Ok yo /\
    buf_get (j_Ro J) (n + 2 * No) = Ok zo /\
    buf_get (j_delay J) (match j_delay_type J with delay_single => 0 | delay_multiple => n end) = Ok dl.
  Proof.
    intros Hn. destruct W as [W1 W2 W3 W4 W5 W6].
    destruct (buf_get_ok (j_Ro J) n ltac:(lia)) as (xo & _ & Ex).
    destruct (buf_get_ok (j_Ro J) (n + 1 * No) ltac:(lia)) as (yo & _ & Ey).
    destruct (buf_get_ok (j_Ro J) (n + 2 * No) ltac:(lia)) as (zo & _ & Ez).
    destruct (buf_get_ok (j_delay J) (match j_delay_type J with delay_single => 0 | delay_multiple => n end)
                ltac:(destruct (j_delay_type J); lia)) as (dl & _ & Ed).
    exists xo, yo, zo, dl. auto.
  Qed.

  Lemma point_serial n : 0 <= n < No -> exists xo yo zo dl,
    (forall c, alone J n c = serial K (j_fuel J) (j_T J) (j_q J) (j_att J) (j_lvl J) xo yo zo dl 0 c) /\
    (forall H, point K J n H = serial K (j_fuel J) (j_T J) (j_q J) (j_att J) (j_lvl J) xo yo zo dl (n * nt) H).
  Proof.
    intros Hn. destruct (point_args n Hn) as (xo & yo & zo & dl & Ex & Ey & Ez & Ed).
    exists xo, yo, zo, dl. unfold alone, point. rewrite Ex, Ey, Ez. cbn [bind]. split; intros.
    - rewrite Ed. reflexivity.
    - destruct (j_delay_type J); rewrite Ed; reflexivity.
  Qed.

  Lemma alone_good n c : 0 <= n < No -> length c = Z.to_nat nt ->
    good (fun s => length (fst s) = Z.to_nat nt) (alone J n c).
  Proof.
    intros Hn Hc. destruct (point_serial n Hn) as (xo & yo & zo & dl & E & _). rewrite E.
    destruct W. apply (serial_local K (j_fuel J) (j_T J) (j_q J) (j_att J) (j_lvl J) xo yo zo dl); auto.
  Qed.

  Lemma point_col n H : 0 <= n < No -> length H = Z.to_nat (No * nt) ->
    point K J n H = rmap (fun s => (set_col nt n (fst s) H, snd s)) (alone J n (col nt n H)).
  Proof.
    intros Hn HL. destruct (point_serial n Hn) as (xo & yo & zo & dl & E & E'). rewrite E, E'.
    destruct W as [W1 W2 W3 W4 W5 W6].
    assert (Lc : length (col nt n H) = Z.to_nat nt) by (apply (length_col nt n No); auto).
    destruct (serial_local K (j_fuel J) (j_T J) (j_q J) (j_att J) (j_lvl J) xo yo zo dl W1 W5 W6
                (col nt n H) Lc) as [_ L].
    rewrite (col_split nt n H) at 1.
    specialize (L (firstn (Z.to_nat (n * nt)) H) (skipn (Z.to_nat (n * nt) + Z.to_nat nt) H)).
    unfold emb in L at 1. 
    rewrite firstn_length in L. replace (Z.of_nat (Nat.min (Z.to_nat (n * nt)) (length H))) with (n * nt) in L by nia.
    rewrite L. destruct (serial _ _ _ _ _ _ _ _ _ _ _ _) as [[c e]|u|]; reflexivity.
  Qed.

  Lemma alone_len n c c' e : 0 <= n < No -> length c = Z.to_nat nt -> alone J n c = Ok (c', e) ->
    length c' = Z.to_nat nt.
  Proof. intros Hn Hc E. pose proof (alone_good n c Hn Hc) as Hg. rewrite E in Hg. exact Hg. Qed.

  (** Length fact in the shape Section Sched wants (total in n). *)
  Definition colf (n : Z) (c : buf) : res st :=
    if (0 <=? n) && (n <? No) then alone J n c else Diverge.

  Lemma colf_alone n c : 0 <= n < No -> colf n c = alone J n c.
  Proof. intros Hn. unfold colf. destruct (_ && _) eqn:E; auto. lia. Qed.

  Lemma Hpt n H : 0 <= n < No -> length H = Z.to_nat (No * nt) ->
    point K J n H = rmap (fun s => (set_col nt n (fst s) H, snd s)) (colf n (col nt n H)).
  Proof. intros Hn HL. rewrite colf_alone by exact Hn. now apply point_col. Qed.
  Lemma Hlen n c c' e : length c = Z.to_nat nt -> colf n c = Ok (c', e) -> length c' = Z.to_nat nt.
  Proof.
    intros Hc E. unfold colf in E. destruct ((0 <=? n) && (n <? No)) eqn:En; [|discriminate].
    eapply (alone_len n); eauto. lia.
  Qed.

  Variables (nthreads : Z) (H0 : buf).
  Hypothesis Hth : 1 <= nthreads.
  Hypothesis HH0 : length H0 = Z.to_nat (No * nt).

  (** *** A call never touches memory outside the matrix, whatever the
      schedule. *)
  Lemma gsteps_good sch : forall cc s, GInv (N:=N) nt No nthreads colf H0 cc s ->
    good (fun _ => True) (gsteps (point K J) s sch).
  Proof.
    induction sch as [|e sch IH]; intros cc s G; cbn [gsteps]; [exact I|].
    assert (Hg : good (fun _ => True) (gstep (point K J) s e)).
    { destruct e as [i|]; cbn [gstep]; [|exact I].
      destruct (nth_error (g_threads s) i) as [t|] eqn:Et; [|exact I].
      eapply good_bind with (P := fun _ => True).
      - unfold thread_step. destruct (t_pc t) eqn:Ep; try exact I.
        + destruct (t_n t <? t_stop t) eqn:El; [|exact I].
          pose proof (gi_t _ _ _ _ _ _ _ G i t Et) as T.
          assert (Hi : (i < Z.to_nat nthreads)%nat).
          { rewrite <- (gi_num _ _ _ _ _ _ _ G). apply nth_error_Some. congruence. }
          pose proof (part_range No nthreads ltac:(destruct W; lia) Hth (Z.of_nat i) ltac:(lia)) as [R0 R1].
          fold (t_start No nthreads i) in R0. fold (t_end No nthreads i) in R1.
          pose proof (ti_n _ _ _ _ _ _ _ _ _ T). pose proof (ti_stop _ _ _ _ _ _ _ _ _ T).
          eapply good_bind with (P := fun _ => True).
          * rewrite point_col by (try apply (gi_len _ _ _ _ _ _ _ G); lia).
            pose proof (alone_good (t_n t) (col nt (t_n t) (g_H s)) ltac:(lia)) as Hag.
            destruct (alone J (t_n t) (col nt (t_n t) (g_H s))) as [s1|u|]; cbn; auto.
            cbn in Hag. apply Hag. apply (length_col nt (t_n t) No); try (destruct W; lia).
            apply (gi_len _ _ _ _ _ _ _ G).
          * intros [h er] _. exact I.
        + destruct (g_running s); exact I.
      - intros [[h r] t'] _. exact I. }
    destruct (gstep (point K J) s e) as [s'|u|] eqn:Es; cbn in *; auto.
    eapply IH. eapply (gstep_inv nt No nthreads (point K J) colf H0); eauto using Hpt, Hlen; destruct W; auto.
  Qed.

  (** *** Nothing goes wrong when every single point is fine. *)
  Lemma gsteps_ok sch : (forall n, 0 <= n < No -> exists c e, alone J n (col nt n H0) = Ok (c, e)) ->
    forall cc s, GInv (N:=N) nt No nthreads colf H0 cc s ->
    exists s', gsteps (point K J) s sch = Ok s'.
  Proof.
    intros Hok. induction sch as [|e sch IH]; intros cc s G; cbn [gsteps]; [eauto|].
    assert (Hg : exists s', gstep (point K J) s e = Ok s').
    { destruct e as [i|]; cbn [gstep]; [|eauto].
      destruct (nth_error (g_threads s) i) as [t|] eqn:Et; [|eauto].
      unfold thread_step. destruct (t_pc t) eqn:Ep; cbn [bind]; eauto.
      - destruct (t_n t <? t_stop t) eqn:El; [|cbn; eauto].
        pose proof (gi_t _ _ _ _ _ _ _ G i t Et) as T.
        assert (Hi : (i < Z.to_nat nthreads)%nat).
        { rewrite <- (gi_num _ _ _ _ _ _ _ G). apply nth_error_Some. congruence. }
        pose proof (part_range No nthreads ltac:(destruct W; lia) Hth (Z.of_nat i) ltac:(lia)) as [R0 R1].
          fold (t_start No nthreads i) in R0. fold (t_end No nthreads i) in R1.
        pose proof (ti_n _ _ _ _ _ _ _ _ _ T) as Tn. pose proof (ti_stop _ _ _ _ _ _ _ _ _ T) as Ts.
        rewrite point_col by (try apply (gi_len _ _ _ _ _ _ _ G); lia).
        assert (Hc : col nt (t_n t) (g_H s) = col nt (t_n t) H0).
        { apply (ti_todo _ _ _ _ _ _ _ _ _ T); [lia|]. intros [Hp|(_ & _ & Hp)]; [lia|congruence]. }
        rewrite Hc. destruct (Hok (t_n t) ltac:(lia)) as (c & e & ->). cbn. eauto.
      - destruct (g_running s); cbn; eauto. }
    destruct Hg as (s' & Es). rewrite Es. cbn [bind].
    eapply IH. eapply (gstep_inv nt No nthreads (point K J) colf H0); eauto using Hpt, Hlen; destruct W; auto.
  Qed.

  Let Gi := init_inv nt No nthreads (point K J) colf H0 (wj_No J W) Hth HH0 Hpt Hlen.

  Lemma call_inv sch r : call K J nthreads sch H0 = Ok r ->
    exists s, gsteps (point K J) (init No nthreads H0) sch = Ok s /\
      r = (if all_done s then Some (g_H s, call_status (j_T J) nthreads (g_threads s), g_running s) else None).
  Proof.
    unfold call. intros E. apply bind_Ok_inv in E as (s & Es & E). exists s. split; auto.
    destruct (all_done s); injection E as <-; reflexivity.
  Qed.

  Lemma call_good sch : good (fun _ => True) (call K J nthreads sch H0).
  Proof.
    unfold call. eapply good_bind; [apply (gsteps_good sch false); exact Gi|].
    intros s _. destruct (all_done s); exact I.
  Qed.

  Lemma result_alone n c e : 0 <= n < No ->
    (result nt colf H0 n c e <-> alone J n (col nt n H0) = Ok (c, e)).
  Proof. intros Hn. unfold result. rewrite colf_alone by exact Hn. reflexivity. Qed.

  Lemma call_columns sch H' stt : call K J nthreads sch H0 = Ok (Some (H', stt, true)) ->
    length H' = length H0 /\
    forall n, 0 <= n < No -> exists e, alone J n (col nt n H0) = Ok (col nt n H', e).
  Proof.
    intros E. apply call_inv in E as (s & Es & E). destruct (all_done s) eqn:Ed; [|discriminate].
    injection E as -> _ Er. split.
    - apply (reach_columns nt No nthreads (point K J) colf H0 (wj_nt J W) (wj_No J W) Hth HH0 Hpt Hlen sch s Es).
    - intros n Hn.
      destruct (done_columns nt No nthreads (point K J) colf H0 (wj_nt J W) (wj_No J W) Hth HH0 Hpt Hlen
                  sch s Es Ed (eq_sym Er) n Hn) as (e & He).
      exists e. now apply result_alone.
  Qed.

  (** Every reachable state, also after an abort. *)
  Lemma call_prefix sch s : gsteps (point K J) (init No nthreads H0) sch = Ok s ->
    length (g_H s) = length H0 /\
    forall n, 0 <= n < No -> col nt n (g_H s) = col nt n H0 \/
      exists e, alone J n (col nt n H0) = Ok (col nt n (g_H s), e).
  Proof.
    intros Es.
    destruct (reach_columns nt No nthreads (point K J) colf H0 (wj_nt J W) (wj_No J W) Hth HH0 Hpt Hlen sch s Es)
      as [L R].
    split; auto. intros n Hn. destruct (R n Hn) as [|(e & He)]; auto.
    right. exists e. now apply result_alone.
  Qed.

  Lemma call_running sch H' stt r : existsb is_ctrlc sch = false ->
    (forall n c, 0 <= n < No -> alone J n (col nt n H0) <> Ok (c, err_oob)) ->
    call K J nthreads sch H0 = Ok (Some (H', stt, r)) -> r = true.
  Proof.
    intros Hcc Hno E. apply call_inv in E as (s & Es & E). destruct (all_done s) eqn:Ed; [|discriminate].
    injection E as _ _ ->.
    apply (done_running nt No nthreads (point K J) colf H0 (wj_nt J W) (wj_No J W) Hth HH0 Hpt Hlen sch s); auto.
    intros n c Hn HR. apply result_alone in HR; auto. exact (Hno n c Hn HR).
  Qed.

  Lemma call_completes sch :
    (forall n, 0 <= n < No -> exists c e, alone J n (col nt n H0) = Ok (c, e)) ->
    exists r, call K J nthreads sch H0 = Ok r /\
    ((forall i, 0 <= i < nthreads ->
       3 * (part_stop i No nthreads - part_start i No nthreads) + 1 <= count_run (Z.to_nat i) sch) -> r <> None).
  Proof.
    intros Hok. destruct (gsteps_ok sch Hok false _ Gi) as (s & Es).
    unfold call. rewrite Es. cbn [bind].
    destruct (all_done s) eqn:Ed; eexists; (split; [reflexivity|]).
    - intros _; discriminate.
    - intros Hf _.
      assert (Hd : all_done s = true); [|congruence].
      apply (fair_done nt No nthreads (point K J) colf H0 (wj_nt J W) (wj_No J W) Hth HH0 Hpt Hlen sch s); auto.
      intros i Hi. unfold t_end, t_start. specialize (Hf (Z.of_nat i) ltac:(lia)).
      rewrite Nat2Z.id in Hf. exact Hf.
  Qed.

  (** Status, more than one worker, no stop. *)
  Lemma call_status_spec sch H' stt : 1 < nthreads -> is_sphere (j_T J) = false ->
    call K J nthreads sch H0 = Ok (Some (H', stt, true)) ->
    (stt = err_none <-> forall n c e, 0 <= n < No -> alone J n (col nt n H0) = Ok (c, e) -> e = err_none) /\
    (stt <> err_none -> exists n c, 0 <= n < No /\ alone J n (col nt n H0) = Ok (c, stt)).
  Proof.
    intros Hgt Hsp E. apply call_inv in E as (s & Es & E). destruct (all_done s) eqn:Ed; [|discriminate].
    injection E as -> Est Er. unfold call_status in Est. rewrite Hsp in Est.
    replace (1 <? nthreads) with true in Est by lia.
    pose proof (gsteps_inv nt No nthreads (point K J) colf H0 (wj_nt J W) (wj_No J W) Hth HH0 Hpt Hlen
                  sch _ _ _ Gi Es) as GI.
    assert (Hproc : forall i t n, nth_error (g_threads s) i = Some t ->
              t_start No nthreads i <= n < t_end No nthreads i -> processed t n).
    { intros i t n Ht Hn. pose proof (gi_t _ _ _ _ _ _ _ GI i t Ht) as T.
      left. destruct (Z_lt_dec (t_n t) (t_stop t)) as [Hl|Hl].
      - pose proof (ti_bail _ _ _ _ _ _ _ _ _ T (proj1 (all_done_spec s) Ed i t Ht) Hl). congruence.
      - pose proof (ti_stop _ _ _ _ _ _ _ _ _ T). lia. }
    split.
    - rewrite Est, (status_none nt No nthreads (point K J) colf H0 (wj_nt J W) (wj_No J W) Hth HH0 Hpt Hlen sch s Es).
      split.
      + intros Hall n c e Hn Ha. destruct (owner nt No nthreads (point K J) colf H0 Hth HH0 Hpt Hlen n s _ GI Hn) as (i & t & Et & Hr).
        eapply (Hall i t Et n c e Hr); [eapply Hproc; eauto|]. now apply result_alone.
      + intros Hall i t Et n c e Hr Hp HR.
        assert (Hn : 0 <= n < No).
        { assert (Hi : (i < Z.to_nat nthreads)%nat).
          { rewrite <- (gi_num _ _ _ _ _ _ _ GI). apply nth_error_Some. congruence. }
          pose proof (part_range No nthreads (wj_No J W) Hth (Z.of_nat i) ltac:(lia)) as [R0 R1].
          unfold t_start, t_end in Hr. lia. }
        apply (Hall n c e Hn). now apply result_alone.
    - intros Hne. rewrite Est in Hne. destruct (join_any_in _ Hne) as (t & Ht & Et).
      apply In_nth_error in Ht as (i & Hi). rewrite <- Est in Et.
      destruct (ti_err _ _ _ _ _ _ _ _ _ (gi_t _ _ _ _ _ _ _ GI i t Hi)) as (n & c & Hr & Hp & HR).
      { rewrite Et. rewrite Est. exact Hne. }
      assert (Hn : 0 <= n < No).
      { assert (Hi' : (i < Z.to_nat nthreads)%nat).
        { rewrite <- (gi_num _ _ _ _ _ _ _ GI). apply nth_error_Some. congruence. }
        pose proof (part_range No nthreads (wj_No J W) Hth (Z.of_nat i) ltac:(lia)) as [R0 R1].
        unfold t_start, t_end in Hr. lia. }
      exists n, c. split; auto. apply result_alone; auto. rewrite <- Et. exact HR.
  Qed.
End Call.
