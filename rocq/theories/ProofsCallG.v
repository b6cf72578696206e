(** ProofsCallG.v - a threaded driver over any per-point function that only
    works on its own column. *)
From Verif Require Import Base BaseLemmas ModelSir ModelArr ModelSmp ProofsLocal ProofsLocalArr ProofsSmp SpecSmp.
From Coq Require Import ZifyBool ZifyNat.
Ltac Zify.zify_post_hook ::= Z.div_mod_to_equations.

Section CallG.
  Context {N : Num}.
  Local Notation buf := (list N).
  Local Notation st := (buf * SIRError)%type.

  Variables (nt No nthreads : Z) (pt : Z -> buf -> res st) (colf : Z -> buf -> res st) (H0 : buf).
  Hypothesis Hnt : 0 <= nt.
  Hypothesis HNo : 0 <= No.
  Hypothesis Hth : 1 <= nthreads.
  Hypothesis HH0 : length H0 = Z.to_nat (No * nt).
  Hypothesis Hpt : forall n H, 0 <= n < No -> length H = Z.to_nat (No * nt) ->
    pt n H = rmap (fun s => (set_col nt n (fst s) H, snd s)) (colf n (col nt n H)).
  Hypothesis Hlen : forall n c c' e, length c = Z.to_nat nt -> colf n c = Ok (c', e) -> length c' = Z.to_nat nt.

  Definition gcall (sch : list event) : res (option (buf * SIRError * bool)) :=
    do s <- gsteps pt (init No nthreads H0) sch;
    if all_done s
    then Ok (Some (g_H s, (if 1 <? nthreads then join_any (g_threads s) else err_none), g_running s))
    else Ok None.

  Let Gi := init_inv nt No nthreads pt colf H0 HNo Hth HH0 Hpt Hlen.

  Lemma g_in_range (s : gstate (N:=N)) cc i t : GInv nt No nthreads colf H0 cc s ->
    nth_error (g_threads s) i = Some t -> t_n t < t_stop t -> 0 <= t_n t < No.
  Proof.
    intros G Et El. pose proof (gi_t _ _ _ _ _ _ _ G i t Et) as T.
    assert (Hi : (i < Z.to_nat nthreads)%nat).
    { rewrite <- (gi_num _ _ _ _ _ _ _ G). apply nth_error_Some. congruence. }
    pose proof (part_range No nthreads HNo Hth (Z.of_nat i) ltac:(lia)) as [R0 R1].
    fold (t_start No nthreads i) in R0. fold (t_end No nthreads i) in R1.
    pose proof (ti_n _ _ _ _ _ _ _ _ _ T). pose proof (ti_stop _ _ _ _ _ _ _ _ _ T). lia.
  Qed.

  Lemma g_gsteps_good sch :
    (forall n c, 0 <= n < No -> length c = Z.to_nat nt -> good (fun _ => True) (colf n c)) ->
    forall cc s, GInv (N:=N) nt No nthreads colf H0 cc s -> good (fun _ => True) (gsteps pt s sch).
  Proof.
    intros Hgood. induction sch as [|e sch IH]; intros cc s G; cbn [gsteps]; [exact I|].
    assert (Hg : good (fun _ => True) (gstep pt s e)).
    { destruct e as [i|]; cbn [gstep]; [|exact I].
      destruct (nth_error (g_threads s) i) as [t|] eqn:Et; [|exact I].
      eapply good_bind with (P := fun _ => True).
      - unfold thread_step. destruct (t_pc t) eqn:Ep; try exact I.
        + destruct (t_n t <? t_stop t) eqn:El; [|exact I].
          pose proof (g_in_range s cc i t G Et ltac:(lia)) as Hr.
          eapply good_bind with (P := fun _ => True).
          * rewrite Hpt by (try apply (gi_len _ _ _ _ _ _ _ G); lia).
            pose proof (Hgood (t_n t) (col nt (t_n t) (g_H s)) ltac:(lia)
                          (length_col nt (t_n t) No (g_H s) Hnt Hr (gi_len _ _ _ _ _ _ _ G))) as Hag.
            destruct (colf (t_n t) (col nt (t_n t) (g_H s))) as [s1|u|]; cbn; auto.
          * intros [h er] _. exact I.
        + destruct (g_running s); exact I.
      - intros [[h r] t'] _. exact I. }
    destruct (gstep pt s e) as [s'|u|] eqn:Es; cbn in *; auto.
    eapply IH. eapply (gstep_inv nt No nthreads pt colf H0); eauto.
  Qed.

  Lemma gcall_good sch :
    (forall n c, 0 <= n < No -> length c = Z.to_nat nt -> good (fun _ => True) (colf n c)) ->
    good (fun _ => True) (gcall sch).
  Proof.
    intros Hgood. unfold gcall. eapply good_bind; [apply (g_gsteps_good sch Hgood false); exact Gi|].
    intros s _. destruct (all_done s); exact I.
  Qed.

  Lemma g_gsteps_ok sch : (forall n, 0 <= n < No -> exists c e, colf n (col nt n H0) = Ok (c, e)) ->
    forall cc s, GInv (N:=N) nt No nthreads colf H0 cc s -> exists s', gsteps pt s sch = Ok s'.
  Proof.
    intros Hok. induction sch as [|e sch IH]; intros cc s G; cbn [gsteps]; [eauto|].
    assert (Hg : exists s', gstep pt s e = Ok s').
    { destruct e as [i|]; cbn [gstep]; [|eauto].
      destruct (nth_error (g_threads s) i) as [t|] eqn:Et; [|eauto].
      unfold thread_step. destruct (t_pc t) eqn:Ep; cbn [bind]; eauto.
      - destruct (t_n t <? t_stop t) eqn:El; [|cbn; eauto].
        pose proof (g_in_range s cc i t G Et ltac:(lia)) as Hr.
        pose proof (gi_t _ _ _ _ _ _ _ G i t Et) as T.
        rewrite Hpt by (try apply (gi_len _ _ _ _ _ _ _ G); lia).
        assert (Hc : col nt (t_n t) (g_H s) = col nt (t_n t) H0).
        { apply (ti_todo _ _ _ _ _ _ _ _ _ T).
          - pose proof (ti_n _ _ _ _ _ _ _ _ _ T). pose proof (ti_stop _ _ _ _ _ _ _ _ _ T). lia.
          - intros [Hp|(_ & _ & Hp)]; [lia|congruence]. }
        rewrite Hc. destruct (Hok (t_n t) ltac:(lia)) as (c & e & ->). cbn. eauto.
      - destruct (g_running s); cbn; eauto. }
    destruct Hg as (s' & Es). rewrite Es. cbn [bind].
    eapply IH. eapply (gstep_inv nt No nthreads pt colf H0); eauto.
  Qed.

  Lemma gcall_inv sch r : gcall sch = Ok r ->
    exists s, gsteps pt (init No nthreads H0) sch = Ok s /\
      r = (if all_done s then Some (g_H s, (if 1 <? nthreads then join_any (g_threads s) else err_none), g_running s) else None).
  Proof.
    unfold gcall. intros E. apply bind_Ok_inv in E as (s & Es & E). exists s. split; auto.
    destruct (all_done s); injection E as <-; reflexivity.
  Qed.

  Lemma gcall_columns sch H' stt : gcall sch = Ok (Some (H', stt, true)) ->
    length H' = length H0 /\
    forall n, 0 <= n < No -> exists e, colf n (col nt n H0) = Ok (col nt n H', e).
  Proof.
    intros E. apply gcall_inv in E as (s & Es & E). destruct (all_done s) eqn:Ed; [|discriminate].
    injection E as -> _ Er. split.
    - apply (reach_columns nt No nthreads pt colf H0 Hnt HNo Hth HH0 Hpt Hlen sch s Es).
    - intros n Hn. exact (done_columns nt No nthreads pt colf H0 Hnt HNo Hth HH0 Hpt Hlen
                  sch s Es Ed (eq_sym Er) n Hn).
  Qed.

  Lemma gcall_prefix sch s : gsteps pt (init No nthreads H0) sch = Ok s ->
    length (g_H s) = length H0 /\
    forall n, 0 <= n < No -> col nt n (g_H s) = col nt n H0 \/
      exists e, colf n (col nt n H0) = Ok (col nt n (g_H s), e).
  Proof. exact (reach_columns nt No nthreads pt colf H0 Hnt HNo Hth HH0 Hpt Hlen sch s). Qed.

  Lemma gcall_running sch H' stt r : existsb is_ctrlc sch = false ->
    (forall n c, 0 <= n < No -> colf n (col nt n H0) <> Ok (c, err_oob)) ->
    gcall sch = Ok (Some (H', stt, r)) -> r = true.
  Proof.
    intros Hcc Hno E. apply gcall_inv in E as (s & Es & E). destruct (all_done s) eqn:Ed; [|discriminate].
    injection E as _ _ ->.
    apply (done_running nt No nthreads pt colf H0 Hnt HNo Hth HH0 Hpt Hlen sch s); auto.
  Qed.

  Lemma gcall_completes sch :
    (forall n, 0 <= n < No -> exists c e, colf n (col nt n H0) = Ok (c, e)) ->
    exists r, gcall sch = Ok r /\
    ((forall i, 0 <= i < nthreads ->
       3 * (part_stop i No nthreads - part_start i No nthreads) + 1 <= steps_of (Z.to_nat i) sch) -> r <> None).
  Proof.
    intros Hok. destruct (g_gsteps_ok sch Hok false _ Gi) as (s & Es).
    unfold gcall. rewrite Es. cbn [bind].
    destruct (all_done s) eqn:Ed; eexists; (split; [reflexivity|]).
    - intros _; discriminate.
    - intros Hf _.
      assert (Hd : all_done s = true); [|congruence].
      apply (fair_done nt No nthreads pt colf H0 Hnt HNo Hth HH0 Hpt Hlen sch s); auto.
      intros i Hi. unfold t_end, t_start. specialize (Hf (Z.of_nat i) ltac:(lia)).
      rewrite Nat2Z.id in Hf. exact Hf.
  Qed.

  Lemma gcall_status sch H' stt : 1 < nthreads ->
    gcall sch = Ok (Some (H', stt, true)) ->
    (stt = err_none <-> forall n c e, 0 <= n < No -> colf n (col nt n H0) = Ok (c, e) -> e = err_none) /\
    (stt <> err_none -> exists n c, 0 <= n < No /\ colf n (col nt n H0) = Ok (c, stt)).
  Proof.
    intros Hgt E. apply gcall_inv in E as (s & Es & E). destruct (all_done s) eqn:Ed; [|discriminate].
    injection E as -> Est Er. replace (1 <? nthreads) with true in Est by lia.
    pose proof (gsteps_inv nt No nthreads pt colf H0 Hnt HNo Hth HH0 Hpt Hlen sch _ _ _ Gi Es) as GI.
    assert (Hown : forall i t n, nth_error (g_threads s) i = Some t ->
              t_start No nthreads i <= n < t_end No nthreads i -> 0 <= n < No).
    { intros i t n Ht Hr.
      assert (Hi : (i < Z.to_nat nthreads)%nat).
      { rewrite <- (gi_num _ _ _ _ _ _ _ GI). apply nth_error_Some. congruence. }
      pose proof (part_range No nthreads HNo Hth (Z.of_nat i) ltac:(lia)) as [R0 R1].
      unfold t_start, t_end in Hr. lia. }
    assert (Hproc : forall i t n, nth_error (g_threads s) i = Some t ->
              t_start No nthreads i <= n < t_end No nthreads i -> processed t n).
    { intros i t n Ht Hn. pose proof (gi_t _ _ _ _ _ _ _ GI i t Ht) as T.
      left. destruct (Z_lt_dec (t_n t) (t_stop t)) as [Hl|Hl].
      - pose proof (ti_bail _ _ _ _ _ _ _ _ _ T (proj1 (all_done_spec s) Ed i t Ht) Hl). congruence.
      - pose proof (ti_stop _ _ _ _ _ _ _ _ _ T). lia. }
    split.
    - rewrite Est, (status_none nt No nthreads pt colf H0 Hnt HNo Hth HH0 Hpt Hlen sch s Es).
      split.
      + intros Hall n c e Hn Ha. destruct (owner nt No nthreads pt colf H0 Hth HH0 Hpt Hlen n s _ GI Hn) as (i & t & Et & Hr).
        eapply (Hall i t Et n c e Hr); [eapply Hproc; eauto|]. exact Ha.
      + intros Hall i t Et n c e Hr Hp HR. apply (Hall n c e (Hown i t n Et Hr)). exact HR.
    - intros Hne. rewrite Est in Hne. destruct (join_any_in _ Hne) as (t & Ht & Et).
      apply In_nth_error in Ht as (i & Hi). rewrite <- Est in Et.
      destruct (ti_err _ _ _ _ _ _ _ _ _ (gi_t _ _ _ _ _ _ _ GI i t Hi)) as (n & c & Hr & Hp & HR).
      { rewrite Et. rewrite Est. exact Hne. }
      exists n, c. split; [exact (Hown i t n Hi Hr)|]. rewrite <- Et. exact HR.
  Qed.

  (** A call that ends with the flag up met no stop condition at any point. *)
  Lemma gcall_clean sch H' stt n c : gcall sch = Ok (Some (H', stt, true)) -> 0 <= n < No ->
    colf n (col nt n H0) <> Ok (c, err_oob).
  Proof.
    intros E Hn HR. apply gcall_inv in E as (s & Es & E). destruct (all_done s) eqn:Ed; [|discriminate].
    injection E as -> Est Er.
    pose proof (gsteps_inv nt No nthreads pt colf H0 Hnt HNo Hth HH0 Hpt Hlen sch _ _ _ Gi Es) as GI.
    destruct (owner nt No nthreads pt colf H0 Hth HH0 Hpt Hlen n s _ GI Hn) as (i & t & Et & Hr).
    pose proof (gi_t _ _ _ _ _ _ _ GI i t Et) as T.
    assert (Hd : t_pc t = PDone) by exact (proj1 (all_done_spec s) Ed i t Et).
    assert (Hp : processed t n).
    { left. destruct (Z_lt_dec (t_n t) (t_stop t)) as [Hl|Hl].
      - pose proof (ti_bail _ _ _ _ _ _ _ _ _ T Hd Hl). congruence.
      - pose proof (ti_stop _ _ _ _ _ _ _ _ _ T). lia. }
    destruct (ti_oob _ _ _ _ _ _ _ _ _ T n c Hr Hp HR) as [Hx|[_ Hx]]; congruence.
  Qed.
End CallG.
