(** ProofsFine6.v - from calls by columns to calls by accesses. *)
From Verif Require Import Base BaseLemmas ModelSir ModelArr ModelSmp ModelConv ModelCgw ModelFine ModelFine2 ModelFine3 SpecSmp SpecConv SpecFine SpecFine3
  ProofsLocal ProofsSmp ProofsFine ProofsFine2 ProofsFine3 ProofsFine4 ProofsFine5 PropFine.
From Coq Require Import ZifyBool ZifyNat.
Ltac Zify.zify_post_hook ::= Z.div_mod_to_equations.

Section Quiet.
  Context {N : Num}.
  (** The program of a point does not end with the error that stops the call. *)
  Fixpoint quiet (m : prog N SIRError) : Prop :=
    match m with
    | Done e => e <> err_oob
    | Fail _ | Spin => True
    | Read _ k => forall x, quiet (k x)
    | Write _ _ k => quiet k
    end.
  Lemma quiet_bind {A} (m : prog N A) f : (forall a, quiet (f a)) -> quiet (pbind m f).
  Proof. intros H. induction m as [a|u| |i k IH|i v k IH]; cbn [pbind quiet]; auto. Qed.

  Variables (nt : Z) (P : Z -> prog N SIRError).
  Hypothesis HP : forall n, quiet (P n).
  Definition calm (t : fthread (N:=N)) : Prop := match f_pc t with FRun p => quiet p | FFlag e => e <> err_oob | _ => True end.
  Lemma fine_running sch : forall s s', no_ctrlc sch -> f_running s = true -> Forall calm (f_threads s) -> fsteps nt P s sch = Ok s' -> f_running s' = true.
  Proof.
    induction sch as [|e sch IH]; intros s s' Hc Hr Ht E; cbn [fsteps] in E; [now injection E as <-|].
    apply bind_Ok_inv in E as (s1 & E1 & E). assert (Hc' : no_ctrlc sch) by (intros X; apply Hc; now right).
    destruct e as [j|]; [|exfalso; apply Hc; now left]. cbn [fstep] in E1.
    destruct (nth_error (f_threads s) j) as [t|] eqn:Ej; [|injection E1 as <-; eauto].
    apply bind_Ok_inv in E1 as ([[H' r'] t'] & Es & E1). injection E1 as <-.
    rewrite Forall_forall in Ht. pose proof (Ht t (nth_error_In _ _ Ej)) as Hct.
    assert (Q : r' = true /\ calm t').
    { rewrite Hr in Es. unfold fthread_step in Es. unfold calm in Hct.
      destruct (f_pc t) as [|[err|u| |a k|a v k]|err| |] eqn:Epc.
      - destruct (f_n t <? f_stop t); injection Es as _ <- <-; split; auto; try exact I. apply HP.
      - injection Es as _ <- <-. auto.
      - discriminate.
      - discriminate.
      - apply bind_Ok_inv in Es as (x & _ & Es). injection Es as _ <- <-. split; [reflexivity|]. apply Hct.
      - apply bind_Ok_inv in Es as (x & _ & Es). injection Es as _ <- <-. split; [reflexivity|]. apply Hct.
      - injection Es as _ <- <-. split; [|exact I]. destruct err; try reflexivity. congruence.
      - injection Es as _ <- <-. auto.
      - injection Es as _ <- <-. split; [reflexivity|]. unfold calm. rewrite Epc. exact I. }
    destruct Q as [-> Q]. refine (IH _ s' Hc' _ _ E); [reflexivity|]. cbn [f_threads]. apply Forall_forall. intros x Hx.
    apply In_nth_error in Hx as (i & Hx). rewrite upd_nth in Hx. destruct (Nat.eqb_spec j i) as [->|Hn].
    - rewrite Ej in Hx. cbn in Hx. now injection Hx as <-.
    - apply Ht. eapply nth_error_In, Hx.
  Qed.
End Quiet.

Section All.
  Context {N : Num}.
  Variables (len No nthreads : Z) (pt : Z -> list N -> res (list N * SIRError)) (P : Z -> prog N SIRError) (Y0 : list N) (F : Z -> nat -> N -> N).
  Hypothesis Hl : 0 <= len.
  Hypothesis HNo : 0 <= No.
  Hypothesis Hth : 1 <= nthreads.
  Hypothesis Hin : forall n, 0 <= n < No -> inside len (P n).
  Hypothesis Hpt : forall n H, 0 <= n < No -> length H = Z.to_nat (No * len) -> pt n H = exec (P n) (n * len) H.
  Hypothesis HL : length Y0 = Z.to_nat (No * len).
  Hypothesis HQ : forall n, quiet (P n).
  Hypothesis Hcoarse : forall sch', every_column len No nthreads sch' Y0 F (cols_call pt No nthreads sch' Y0).
  Lemma fine_all : fine_every_column len No nthreads Y0 F (fun sch => fine_cols_call len P No nthreads sch Y0).
  Proof.
    exists (fine_bound len No nthreads P Y0). intros sch.
    assert (Hok : forall sch', exists cs, gsteps pt (init No nthreads Y0) sch' = Ok cs).
    { intros sch'. destruct (Hcoarse sch') as (r & E & _). unfold cols_call in E. apply bind_Ok_inv in E as (cs & E & _). eauto. }
    destruct (fine_completes len No nthreads pt P Hl HNo Hth Hin Hpt sch Y0 HL Hok) as (fs & E & D).
    assert (Ef : fine_cols_call len P No nthreads sch Y0 = Ok (if f_all_done fs then Some (f_H fs, f_running fs) else None)).
    { unfold fine_cols_call. rewrite E. cbn [bind]. destruct (f_all_done fs); reflexivity. }
    exists (if f_all_done fs then Some (f_H fs, f_running fs) else None). split; [exact Ef|]. split.
    - intros Hs. rewrite (D Hs). discriminate.
    - intros Y' running Er. destruct (f_all_done fs) eqn:Ed; [|discriminate]. injection Er as <- <-.
      destruct (proj1 (fine_cols len pt P No nthreads Y0 sch Hl HNo Hth Hin Hpt HL) _ Ef) as (sch' & Ec).
      destruct (Hcoarse sch') as (r & Er & _ & Hr). rewrite Ec in Er. injection Er as <-.
      destruct (Hr _ _ eq_refl) as (A & _ & C & G). split; [exact A|]. split; [|split; [exact C|exact G]].
      intros Hc. refine (fine_running len P HQ sch (finit No nthreads Y0) fs Hc eq_refl _ E).
      cbn [finit f_threads]. apply Forall_forall. intros t Ht. apply in_map_iff in Ht as (i & <- & _). exact I.
  Qed.
End All.

Section Copy.
  Context {N : Num}.
  Local Notation buf := (list N).
  Lemma in_copy_point f AM BM r len (B : buf) n : 0 <= r -> r + len <= AM -> inside AM (p_copy_point f AM BM r 0 len B n).
  Proof.
    intros Hr Hl. unfold p_copy_point. apply inside_bind; [|intros; exact I]. destruct f.
    - destruct (len <? 0); [exact I|]. apply inside_pfor. intros j s Hj. apply inside_bind; [apply inside_pure|]. intros b. cbn. lia.
    - apply inside_pfor. intros j s Hj. apply inside_bind; [apply inside_pure|]. intros b. cbn. split; [lia|]. intros _. lia.
  Qed.
  Lemma x_copy_point f AM BM r len (B : buf) n A No : 0 <= r -> 0 <= len -> r + len <= AM -> 0 <= n < No -> length A = Z.to_nat (No * AM) ->
    copy_point f AM BM r 0 len B n A = exec (p_copy_point f AM BM r 0 len B n) (n * AM) A.
  Proof.
    intros Hr Hl Hrl Hn HL. unfold copy_point, p_copy_point. symmetry. rewrite exec_bind. destruct f.
    - replace (len <? 0) with false by lia.
      match goal with |- context [for_loop len ?g A] => rewrite (exec_pfor_tt (n * AM) _ g (length A)); [|..] end.
      + destruct (for_loop _ _ A); reflexivity.
      + intros l h Hj HLh. rewrite exec_bind, exec_pure. destruct (buf_get B (0 + n * BM + l)) as [b|u|]; cbn [rmap bind fst snd]; try reflexivity.
        rewrite exec_write. do 2 f_equal. lia.
      + reflexivity.
    - match goal with |- context [for_loop len ?g A] => rewrite (exec_pfor_tt (n * AM) _ g (length A)); [|..] end.
      + destruct (for_loop _ _ A); reflexivity.
      + intros l h Hj HLh. rewrite exec_bind, exec_pure. destruct (buf_get B (l + n * BM)) as [b|u|]; cbn [rmap bind fst snd]; try reflexivity.
        rewrite (exec_rmw (n * AM) (r + 0 * AM + l) (fun v => nadd v b)) by nia. do 2 f_equal. lia.
      + reflexivity.
  Qed.
End Copy.
