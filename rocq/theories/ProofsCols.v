(** ProofsCols.v - threaded drivers whose per-column work is a pure function
    of the column: any worker count, any schedule. *)
From Verif Require Import Base BaseLemmas ModelSir ModelArr ModelSmp ModelConv ProofsLoop ProofsSmp SpecSmp NumR SpecDft SpecConv.
From Coq Require Import ZifyBool ZifyNat.
Ltac Zify.zify_post_hook ::= Z.div_mod_to_equations.

Lemma nth_nth_nth_error {A} (l : list A) k d : nth k l d = match nth_error l k with Some x => x | None => d end.
Proof. revert k; induction l as [|a l IH]; intros [|k]; cbn; auto. Qed.

Section NewCol.
  Context {N : Num}.
  Local Notation buf := (list N).
  Variables (len : Z) (F : Z -> nat -> N -> N).
  Definition newcol (n : Z) (c : buf) : buf := map (fun k => F n k (nth k c (nofZ 0))) (seq 0 (Z.to_nat len)).
  Lemma length_newcol n c : length (newcol n c) = Z.to_nat len.
  Proof. unfold newcol. now rewrite map_length, seq_length. Qed.
  Lemma nth_newcol n c k : (k < Z.to_nat len)%nat -> nth k (newcol n c) (nofZ 0) = F n k (nth k c (nofZ 0)).
  Proof.
    intros H. unfold newcol.
    rewrite (nth_indep _ (nofZ 0) (F n (Z.to_nat len) (nth (Z.to_nat len) c (nofZ 0)))) by (rewrite map_length, seq_length; lia).
    rewrite (map_nth (fun k => F n k (nth k c (nofZ 0)))), seq_nth by lia. reflexivity.
  Qed.
  Lemma nth_col (H : buf) n k : nth k (col len n H) (nofZ 0) =
    if (k <? Z.to_nat len)%nat then nth (Z.to_nat (n * len) + k) H (nofZ 0) else nofZ 0.
  Proof.
    rewrite !nth_nth_nth_error, col_nth. destruct (k <? Z.to_nat len)%nat; reflexivity.
  Qed.

End NewCol.

Section Cols.
  Context {N : Num}.
  Local Notation buf := (list N).
  Local Notation st := (buf * SIRError)%type.
  Variables (len No nthreads : Z) (pt : Z -> buf -> res st) (F : Z -> nat -> N -> N).
  Hypothesis Hlen0 : 0 <= len.
  Hypothesis HNo : 0 <= No.
  Hypothesis Hth : 1 <= nthreads.
  Hypothesis Hk : forall n Y, 0 <= n < No -> length Y = Z.to_nat (No * len) ->
    exists Y', pt n Y = Ok (Y', err_none) /\ length Y' = length Y /\
      forall j, nth j Y' (nofZ 0) =
        if ((Z.to_nat (n * len) <=? j) && (j <? Z.to_nat (n * len) + Z.to_nat len))%nat
        then F n (j - Z.to_nat (n * len)) (nth j Y (nofZ 0)) else nth j Y (nofZ 0).

  Definition pcol (n : Z) (c : buf) : res st := Ok (newcol len F n c, err_none).

  Lemma pure_pt n Y : 0 <= n < No -> length Y = Z.to_nat (No * len) ->
    pt n Y = rmap (fun s => (set_col len n (fst s) Y, snd s)) (pcol n (col len n Y)).
  Proof.
    intros Hn HY. destruct (Hk n Y Hn HY) as (Y' & -> & L & Hj). cbn [pcol rmap fst snd]. do 2 f_equal.
    assert (Lc : length (newcol len F n (col len n Y)) = Z.to_nat len) by apply length_newcol.
    assert (Hle : (Z.to_nat (n * len) + Z.to_nat len <= length Y)%nat) by nia.
    apply (nth_ext_len (nofZ 0)).
    - rewrite (length_set_col len n No) by auto. exact L.
    - intros k Hk'. rewrite Hj. unfold set_col.
      assert (Lf : length (firstn (Z.to_nat (n * len)) Y) = Z.to_nat (n * len)) by (rewrite firstn_length; lia).
      destruct ((Z.to_nat (n * len) <=? k) && (k <? Z.to_nat (n * len) + Z.to_nat len))%nat eqn:E.
      + rewrite app_nth2 by lia. rewrite app_nth1 by lia. rewrite Lf, nth_newcol by lia.
        f_equal. rewrite nth_col. replace (_ <? Z.to_nat len)%nat with true by lia. f_equal. lia.
      + destruct (Nat.lt_ge_cases k (Z.to_nat (n * len))) as [Hl|Hl].
        * rewrite app_nth1 by lia. rewrite !nth_nth_nth_error, nth_error_firstn'. replace (k <? _)%nat with true by lia. reflexivity.
        * rewrite app_nth2 by lia. rewrite app_nth2 by lia. rewrite Lf, Lc, !nth_nth_nth_error, nth_error_skipn'.
          replace (Z.to_nat (n * len) + Z.to_nat len + (k - Z.to_nat (n * len) - Z.to_nat len))%nat with k by lia. reflexivity.
  Qed.
  Lemma pure_len n c c' e : length c = Z.to_nat len -> pcol n c = Ok (c', e) -> length c' = Z.to_nat len.
  Proof. intros _ [= <- _]. apply length_newcol. Qed.

  Variable Y0 : buf.
  Hypothesis HY0 : length Y0 = Z.to_nat (No * len).
  Let Gi := init_inv len No nthreads pt pcol Y0 HNo Hth HY0 pure_pt pure_len.

  Lemma cols_steps_ok sch : forall cc s, GInv (N:=N) len No nthreads pcol Y0 cc s -> exists s', gsteps pt s sch = Ok s'.
  Proof.
    induction sch as [|e sch IH]; intros cc s G; cbn [gsteps]; [eauto|].
    assert (Hg : exists s', gstep pt s e = Ok s').
    { destruct e as [i|]; cbn [gstep]; [|eauto].
      destruct (nth_error (g_threads s) i) as [t|] eqn:Et; [|eauto].
      unfold thread_step. destruct (t_pc t) eqn:Ep; cbn [bind]; eauto.
      - destruct (t_n t <? t_stop t) eqn:El; [|cbn; eauto].
        pose proof (gi_t _ _ _ _ _ _ _ G i t Et) as T.
        assert (Hi : (i < Z.to_nat nthreads)%nat).
        { rewrite <- (gi_num _ _ _ _ _ _ _ G). apply nth_error_Some. congruence. }
        pose proof (part_range No nthreads HNo Hth (Z.of_nat i) ltac:(lia)) as [R0 R1].
        fold (t_start No nthreads i) in R0. fold (t_end No nthreads i) in R1.
        pose proof (ti_n _ _ _ _ _ _ _ _ _ T) as Tn. pose proof (ti_stop _ _ _ _ _ _ _ _ _ T) as Ts.
        destruct (Hk (t_n t) (g_H s) ltac:(lia) (gi_len _ _ _ _ _ _ _ G)) as (Y' & -> & _). cbn. eauto.
      - destruct (g_running s); cbn; eauto. }
    destruct Hg as (s' & Es). rewrite Es. cbn [bind].
    eapply IH. eapply (gstep_inv len No nthreads pt pcol Y0); eauto using pure_pt, pure_len.
  Qed.

  Lemma nth_of_col (H : buf) n k c : 0 <= n -> (k < Z.to_nat len)%nat -> col len n H = c ->
    nth (Z.to_nat (n * len) + k) H (nofZ 0) = nth k c (nofZ 0).
  Proof. intros Hn Hk' <-. rewrite nth_col. replace (_ <? _)%nat with true by lia. reflexivity. Qed.

  (** Every call returns (no bad access), whatever the schedule; if it ran to
      the end every element is the kernel applied to its old value; columns of
      an interrupted call are untouched or complete. *)
  Theorem cols_call_spec sch :
    every_column len No nthreads sch Y0 F (cols_call pt No nthreads sch Y0).
  Proof.
    unfold every_column. destruct (cols_steps_ok sch false _ Gi) as (s & Es). unfold cols_call. rewrite Es. cbn [bind].
    assert (R : forall n, 0 <= n < No -> forall e, result len pcol Y0 n (col len n (g_H s)) e ->
       forall k, (k < Z.to_nat len)%nat -> nth (Z.to_nat (n * len) + k) (g_H s) (nofZ 0) = F n k (nth (Z.to_nat (n * len) + k) Y0 (nofZ 0))).
    { intros n Hn e HR k Hk'. unfold result, pcol in HR. injection HR as HR _.
      rewrite (nth_of_col _ n k _ ltac:(lia) Hk' (eq_sym HR)), nth_newcol by exact Hk'.
      rewrite nth_col. replace (_ <? _)%nat with true by lia. reflexivity. }
    destruct (all_done s) eqn:Ed; eexists; (split; [reflexivity|]); split.
    - intros _; discriminate.
    - intros Y' running [= <- <-].
      destruct (reach_columns len No nthreads pt pcol Y0 Hlen0 HNo Hth HY0 pure_pt pure_len sch s Es) as [L RC].
      split; [exact L|]. split.
      + intros Hcc. apply (done_running len No nthreads pt pcol Y0 Hlen0 HNo Hth HY0 pure_pt pure_len sch s); auto.
        * destruct (existsb is_ctrlc sch) eqn:E; auto. apply existsb_exists in E as (e & He & Ee). destruct e; [discriminate|]. contradiction.
        * intros n c Hn HR. unfold result, pcol in HR. discriminate.
      + split.
        * intros Hr n k Hn Hk'.
          destruct (done_columns len No nthreads pt pcol Y0 Hlen0 HNo Hth HY0 pure_pt pure_len sch s Es Ed Hr n Hn) as (e & HR).
          exact (R n Hn e HR k Hk').
        * intros n Hn. destruct (RC n Hn) as [E|(e & HR)]; [left|right].
          -- intros k Hk'. rewrite (nth_of_col _ n k _ ltac:(lia) Hk' E). rewrite nth_col. replace (_ <? _)%nat with true by lia. reflexivity.
          -- exact (R n Hn e HR).
    - intros Hf _. assert (Hd : all_done s = true); [|congruence].
      apply (fair_done len No nthreads pt pcol Y0 Hlen0 HNo Hth HY0 pure_pt pure_len sch s Es).
      intros i Hi. unfold t_end, t_start. specialize (Hf (Z.of_nat i) ltac:(lia)). rewrite Nat2Z.id in Hf. exact Hf.
    - intros Y' running HH. discriminate.
  Qed.
End Cols.


(** If the work for one column goes wrong whatever the buffer holds, no call
    completes. *)
Section Bad.
  Context {N : Num}.
  Variables (len No nthreads : Z) (pt : Z -> list N -> res (list N * SIRError)) (F : Z -> nat -> N -> N) (bad : Z -> bool) (u : ub).
  Hypothesis Hlen0 : 0 <= len.
  Hypothesis HNo : 0 <= No.
  Hypothesis Hth : 1 <= nthreads.
  Hypothesis Hk : forall n Y, 0 <= n < No -> bad n = false -> length Y = Z.to_nat (No * len) ->
    exists Y', pt n Y = Ok (Y', err_none) /\ length Y' = length Y /\
      forall j, nth j Y' (nofZ 0) =
        if ((Z.to_nat (n * len) <=? j) && (j <? Z.to_nat (n * len) + Z.to_nat len))%nat
        then F n (j - Z.to_nat (n * len)) (nth j Y (nofZ 0)) else nth j Y (nofZ 0).
  Hypothesis Hbad : forall n Y, 0 <= n < No -> bad n = true -> length Y = Z.to_nat (No * len) -> pt n Y = UB u.

  Lemma cols_bad Y0 sch Y' : length Y0 = Z.to_nat (No * len) -> (exists n, 0 <= n < No /\ bad n = true) ->
    cols_call pt No nthreads sch Y0 <> Ok (Some (Y', true)).
  Proof.
    intros HY0 (n0 & Hn0 & Hb0) E.
    set (colf := fun n c => if bad n then UB u else Ok (newcol len F n c, err_none)).
    assert (Hpt : forall n H, 0 <= n < No -> length H = Z.to_nat (No * len) ->
      pt n H = rmap (fun s => (set_col len n (fst s) H, snd s)) (colf n (col len n H))).
    { intros n H Hn HH. unfold colf. destruct (bad n) eqn:Eb; [cbn; auto|].
      destruct (Hk n H Hn Eb HH) as (H' & E1 & L & Hj). rewrite E1. cbn [rmap fst snd]. do 2 f_equal.
      assert (Lc : length (newcol len F n (col len n H)) = Z.to_nat len) by apply length_newcol.
      assert (Hle : (Z.to_nat (n * len) + Z.to_nat len <= length H)%nat) by nia.
      apply (nth_ext_len (nofZ 0)).
      - rewrite (length_set_col len n No) by auto. exact L.
      - intros k Hk'. rewrite Hj. unfold set_col.
        assert (Lf : length (firstn (Z.to_nat (n * len)) H) = Z.to_nat (n * len)) by (rewrite firstn_length; lia).
        destruct ((Z.to_nat (n * len) <=? k) && (k <? Z.to_nat (n * len) + Z.to_nat len))%nat eqn:Ei.
        + rewrite app_nth2 by lia. rewrite app_nth1 by lia. rewrite Lf, nth_newcol by lia.
          f_equal. rewrite nth_col. replace (_ <? Z.to_nat len)%nat with true by lia. f_equal. lia.
        + destruct (Nat.lt_ge_cases k (Z.to_nat (n * len))) as [Hl|Hl].
          * rewrite app_nth1 by lia. rewrite !nth_nth_nth_error, nth_error_firstn'. replace (k <? _)%nat with true by lia. reflexivity.
          * rewrite app_nth2 by lia. rewrite app_nth2 by lia. rewrite Lf, Lc, !nth_nth_nth_error, nth_error_skipn'.
            replace (Z.to_nat (n * len) + Z.to_nat len + (k - Z.to_nat (n * len) - Z.to_nat len))%nat with k by lia. reflexivity. }
    assert (Hlenf : forall n c c' e, length c = Z.to_nat len -> colf n c = Ok (c', e) -> length c' = Z.to_nat len).
    { intros n c c' e _. unfold colf. destruct (bad n); [discriminate|]. intros [= <- _]. apply length_newcol. }
    unfold cols_call in E. destruct (gsteps pt (init No nthreads Y0) sch) as [s|?|] eqn:Es; try discriminate E. cbn [bind] in E.
    destruct (all_done s) eqn:Ed; [|discriminate E]. injection E as _ Er.
    destruct (done_columns len No nthreads pt colf Y0 Hlen0 HNo Hth HY0 Hpt Hlenf sch s Es Ed Er n0 Hn0) as (e & HR).
    unfold result, colf in HR. rewrite Hb0 in HR. discriminate HR.
  Qed.
End Bad.
