(** ProofsSmp2.v - consequences of ProofsSmp in the vocabulary of SpecSmp. *)
From Verif Require Import Base BaseLemmas ModelSir ModelArr ModelSmp ProofsLocal ProofsLocalArr ProofsSmp ProofsCall SpecSmp.
From Coq Require Import ZifyBool ZifyNat.
Ltac Zify.zify_post_hook ::= Z.div_mod_to_equations.

Lemma owners_unique No n m : 0 <= No -> 1 <= n -> 0 <= m < No -> exists t, owners No n m = [t].
Proof.
  intros HNo Hn Hm. destruct (part_cover No n Hn m Hm) as (t & Ht & Hr).
  assert (Hin : forall u, In u (owners No n m) <-> u = Z.to_nat t).
  { intros u. unfold owners. rewrite filter_In, in_seq. split.
    - intros [Hu Hb]. assert (Hu2 : part_start (Z.of_nat u) No n <= m < part_stop (Z.of_nat u) No n) by lia.
      destruct (Z.lt_trichotomy (Z.of_nat u) t) as [Hl|[Hl|Hl]]; [|lia|].
      + exfalso. exact (part_disjoint No n HNo Hn _ _ m Hl Hu2 Hr).
      + exfalso. exact (part_disjoint No n HNo Hn _ _ m Hl Hr Hu2).
    - intros ->. replace (Z.of_nat (Z.to_nat t)) with t by lia. lia. }
  assert (ND : NoDup (owners No n m)) by (apply NoDup_filter, seq_NoDup).
  exists (Z.to_nat t). destruct (owners No n m) as [|u [|v l]] eqn:E.
  - destruct (proj2 (Hin (Z.to_nat t)) eq_refl).
  - f_equal. apply Hin. left; reflexivity.
  - exfalso. inversion ND as [|? ? Hnin _]; subst. apply Hnin. left.
    transitivity (Z.to_nat t); [|symmetry]; apply Hin; cbn; auto.
Qed.

Lemma num_threads_ok hw env No : 0 <= hw -> 0 <= No ->
  (1 <= num_threads hw env No) /\
  (1 <= No -> num_threads hw env No <= No) /\
  (forall e, env = Some e -> 1 <= e -> num_threads hw env No <= e) /\
  (1 <= hw -> num_threads hw env No <= hw).
Proof.
  intros Hh HN. unfold num_threads.
  destruct env as [x|]; repeat split; intros; try discriminate;
    try (match goal with H : Some _ = Some _ |- _ => injection H as -> end);
    repeat match goal with
           | |- context [if ?b then _ else _] => destruct b eqn:?
           | H : context [if ?b then _ else _] |- _ => destruct b eqn:?
           end; lia.
Qed.

Lemma existsb_ctrlc sch : no_ctrlc sch -> existsb is_ctrlc sch = false.
Proof.
  intros H. destruct (existsb is_ctrlc sch) eqn:E; auto.
  apply existsb_exists in E as (e & He & Ee). destruct e; [discriminate|]. contradiction.
Qed.

(** Memory reading of [good]: no out-of-bounds access. *)
Definition no_oob {A} (r : res A) : Prop := r <> UB UB_oob_read /\ r <> UB UB_oob_write.
Lemma good_no_oob {A} (P : A -> Prop) (r : res A) : good P r -> no_oob r.
Proof. destruct r as [a|[]|]; cbn; intros H; split; try discriminate; contradiction. Qed.

Section Serial.
  Context {N : Num} (K : idx_kind).
  Local Notation buf := (list N).

  Lemma serial_frame fuel (T : transducer N) q att lvl xo yo zo delay base (H : buf) :
    0 <= nt q -> att_wf (nt q) att -> wf_transducer K q T ->
    0 <= base -> base + nt q <= Z.of_nat (length H) ->
    no_oob (serial K fuel T q att lvl xo yo zo delay base H) /\
    (forall H' e, serial K fuel T q att lvl xo yo zo delay base H = Ok (H', e) ->
       length H' = length H /\
       forall k, (Z.of_nat k < base \/ base + nt q <= Z.of_nat k) -> nth_error H' k = nth_error H k).
  Proof.
    intros Hn Ha W Hb Hl.
    pose proof (local_st_frame (Z.to_nat (nt q)) _ H base
      (serial_local K fuel T q att lvl xo yo zo delay Hn Ha W) Hb ltac:(lia)) as G.
    split; [exact (good_no_oob _ _ G)|].
    cbv beta in G. intros H' e E. rewrite E in G. cbn [good fst] in G. unfold same_outside in G.
    rewrite Z2Nat.id in G by exact Hn. exact G.
  Qed.

  (** Nothing else is read either: two matrices with the same column give the
      same column and the same status. *)
  Lemma serial_reads fuel (T : transducer N) q att lvl xo yo zo delay (pre post col pre' post' : buf) :
    0 <= nt q -> att_wf (nt q) att -> wf_transducer K q T -> Z.of_nat (length col) = nt q ->
    forall H1 e, serial K fuel T q att lvl xo yo zo delay (Z.of_nat (length pre)) (pre ++ col ++ post) = Ok (H1, e) ->
    exists c, H1 = pre ++ c ++ post /\
      serial K fuel T q att lvl xo yo zo delay (Z.of_nat (length pre')) (pre' ++ col ++ post') = Ok (pre' ++ c ++ post', e).
  Proof.
    intros Hn Ha W Hc H1 e E.
    destruct (serial_local K fuel T q att lvl xo yo zo delay Hn Ha W col ltac:(lia)) as [_ L].
    pose proof (L pre post) as L1. pose proof (L pre' post') as L2. unfold emb in L1 at 1, L2 at 1.
    rewrite E in L1.
    destruct (serial K fuel T q att lvl xo yo zo delay 0 col) as [[c e0]|u|]; cbn in L1; try discriminate.
    injection L1 as -> ->. exists c. split; [reflexivity|]. rewrite L2. reflexivity.
  Qed.
End Serial.

Section CallDet.
  Context {N : Num} (K : idx_kind).
  Local Notation buf := (list N).

  (** Two finished calls give the same matrix. *)
  Lemma call_deterministic (J : job N) n1 n2 s1 s2 (H0 H1 H2 : buf) st1 st2 :
    wf_job K J -> 1 <= n1 -> 1 <= n2 -> length H0 = Z.to_nat (j_No J * nt (j_q J)) ->
    call K J n1 s1 H0 = Ok (Some (H1, st1, true)) ->
    call K J n2 s2 H0 = Ok (Some (H2, st2, true)) -> H1 = H2.
  Proof.
    intros W Hn1 Hn2 HL E1 E2.
    destruct (call_columns K J W n1 H0 Hn1 HL s1 H1 st1 E1) as [L1 C1].
    destruct (call_columns K J W n2 H0 Hn2 HL s2 H2 st2 E2) as [L2 C2].
    apply (cols_ext (nt (j_q J)) (j_No J)); try (destruct W; auto; fail); try congruence.
    intros n Hn. destruct (C1 n Hn) as (e1 & A1). destruct (C2 n Hn) as (e2 & A2).
    rewrite A1 in A2. injection A2; auto.
  Qed.

  (** Abort. *)
  Lemma call_abort (J : job N) nthreads (H0 : buf) sch1 sch2 s s' :
    wf_job K J -> 1 <= nthreads -> length H0 = Z.to_nat (j_No J * nt (j_q J)) ->
    gsteps (point K J) (init (j_No J) nthreads H0) sch1 = Ok s -> g_running s = false ->
    gsteps (point K J) s sch2 = Ok s' ->
    g_running s' = false /\
    (forall i t, nth_error (g_threads s) i = Some t ->
       exists t', nth_error (g_threads s') i = Some t' /\ t_n t' = t_n t /\
         (3 <= steps_of i sch2 -> t_pc t' = PDone)).
  Proof.
    intros W Hn HL E1 Hr E2.
    eapply (abort_no_progress (nt (j_q J)) (j_No J) nthreads (point K J) (colf K J) H0
              (wj_nt K J W) (wj_No K J W) Hn HL (Hpt K J W) (Hlen K J W)); eauto.
    eapply (gsteps_inv (nt (j_q J)) (j_No J) nthreads (point K J) (colf K J) H0
              (wj_nt K J W) (wj_No K J W) Hn HL (Hpt K J W) (Hlen K J W)); eauto.
    apply (init_inv (nt (j_q J)) (j_No J) nthreads (point K J) (colf K J) H0
              (wj_No K J W) Hn HL (Hpt K J W) (Hlen K J W)).
  Qed.
End CallDet.
