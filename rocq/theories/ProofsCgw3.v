(** ProofsCgw3.v - convolution calls: columns transformed as a whole, empty
    matrices, output equal to an input, CTRL-C. *)
From Coq Require Strings.String.
From Coq Require Import Reals Lra.
From Verif Require Import Base BaseLemmas ModelSir ModelArr ModelSmp ModelConv NumR SpecDft SpecSmp SpecConv
  ProofsLoop ProofsSmp ProofsSmp2 ProofsDft ProofsConv ProofsConvR ProofsCols ProofsOla PropConv ModelGw ProofsGw SpecGwR ModelCgw SpecCgw ProofsCgw ProofsCgw2 ProofsR.
From Coq Require Import ZifyBool ZifyNat.
Ltac Zify.zify_post_hook ::= Z.div_mod_to_equations.
Open Scope Z_scope.

Section ColG.
  Context {N : Num}.
  Local Notation buf := (list N).
  Variables (len No nthreads : Z) (pt : Z -> buf -> res (buf * SIRError)) (G : Z -> buf -> buf).
  Hypothesis Hlen0 : 0 <= len.
  Hypothesis HNo : 0 <= No.
  Hypothesis Hth : 1 <= nthreads.
  Hypothesis HGl : forall n c, length c = Z.to_nat len -> length (G n c) = Z.to_nat len.
  Hypothesis Hk : forall n Y, 0 <= n < No -> length Y = Z.to_nat (No * len) ->
    exists Y', pt n Y = Ok (Y', err_none) /\ length Y' = length Y /\
      forall j, nth j Y' (nofZ 0) =
        if ((Z.to_nat (n * len) <=? j) && (j <? Z.to_nat (n * len) + Z.to_nat len))%nat
        then nth (j - Z.to_nat (n * len)) (G n (col len n Y)) (nofZ 0) else nth j Y (nofZ 0).
  Definition gcol (n : Z) (c : buf) : res (buf * SIRError) := Ok (G n c, err_none).
  Lemma gcol_pt n Y : 0 <= n < No -> length Y = Z.to_nat (No * len) ->
    pt n Y = rmap (fun s => (set_col len n (fst s) Y, snd s)) (gcol n (col len n Y)).
  Proof.
    intros Hn HY. destruct (Hk n Y Hn HY) as (Y' & -> & L & Hj). cbn [gcol rmap fst snd]. do 2 f_equal.
    assert (Lc : length (G n (col len n Y)) = Z.to_nat len) by (apply HGl, (length_col len n No); auto).
    assert (Hle : (Z.to_nat (n * len) + Z.to_nat len <= length Y)%nat) by nia.
    apply (nth_ext_len (nofZ 0)).
    - rewrite (length_set_col len n No) by auto. exact L.
    - intros k Hk'. rewrite Hj. unfold set_col.
      assert (Lf : length (firstn (Z.to_nat (n * len)) Y) = Z.to_nat (n * len)) by (rewrite firstn_length; lia).
      destruct ((Z.to_nat (n * len) <=? k) && (k <? Z.to_nat (n * len) + Z.to_nat len))%nat eqn:E.
      + rewrite app_nth2 by lia. rewrite app_nth1 by lia. rewrite Lf. reflexivity.
      + destruct (Nat.lt_ge_cases k (Z.to_nat (n * len))) as [Hl|Hl].
        * rewrite app_nth1 by lia. rewrite !nth_nth_nth_error, nth_error_firstn'. replace (k <? _)%nat with true by lia. reflexivity.
        * rewrite app_nth2 by lia. rewrite app_nth2 by lia. rewrite Lf, Lc, !nth_nth_nth_error, nth_error_skipn'.
          replace (Z.to_nat (n * len) + Z.to_nat len + (k - Z.to_nat (n * len) - Z.to_nat len))%nat with k by lia. reflexivity.
  Qed.
  Lemma gcol_len n c c' e : length c = Z.to_nat len -> gcol n c = Ok (c', e) -> length c' = Z.to_nat len.
  Proof. intros Hc [= <- _]. now apply HGl. Qed.

  Variable Y0 : buf.
  Hypothesis HY0 : length Y0 = Z.to_nat (No * len).
  Let Gi := init_inv len No nthreads pt gcol Y0 HNo Hth HY0 gcol_pt gcol_len.
  Lemma colg_steps_ok sch : forall cc s, GInv (N:=N) len No nthreads gcol Y0 cc s -> exists s', gsteps pt s sch = Ok s'.
  Proof.
    induction sch as [|e sch IH]; intros cc s Gs; cbn [gsteps]; [eauto|].
    assert (Hg : exists s', gstep pt s e = Ok s').
    { destruct e as [i|]; cbn [gstep]; [|eauto].
      destruct (nth_error (g_threads s) i) as [t|] eqn:Et; [|eauto].
      unfold thread_step. destruct (t_pc t) eqn:Ep; cbn [bind]; eauto.
      - destruct (t_n t <? t_stop t) eqn:El; [|cbn; eauto].
        pose proof (gi_t _ _ _ _ _ _ _ Gs i t Et) as T.
        assert (Hi : (i < Z.to_nat nthreads)%nat).
        { rewrite <- (gi_num _ _ _ _ _ _ _ Gs). apply nth_error_Some. congruence. }
        pose proof (part_range No nthreads HNo Hth (Z.of_nat i) ltac:(lia)) as [R0 R1].
        fold (t_start No nthreads i) in R0. fold (t_end No nthreads i) in R1.
        pose proof (ti_n _ _ _ _ _ _ _ _ _ T) as Tn. pose proof (ti_stop _ _ _ _ _ _ _ _ _ T) as Ts.
        destruct (Hk (t_n t) (g_H s) ltac:(lia) (gi_len _ _ _ _ _ _ _ Gs)) as (Y' & -> & _). cbn. eauto.
      - destruct (g_running s); cbn; eauto. }
    destruct Hg as (s' & Es). rewrite Es. cbn [bind].
    eapply IH. eapply (gstep_inv len No nthreads pt gcol Y0); eauto using gcol_pt, gcol_len.
  Qed.
  Lemma colg_call_spec sch : exists r, cols_call pt No nthreads sch Y0 = Ok r /\
      ((forall i, (0 <= i < nthreads)%Z ->
         (3 * (part_stop i No nthreads - part_start i No nthreads) + 1 <= steps_of (Z.to_nat i) sch)%Z) -> r <> None) /\
      forall Y' running, r = Some (Y', running) -> length Y' = length Y0 /\ (no_ctrlc sch -> running = true) /\
        (running = true -> forall n, 0 <= n < No -> col len n Y' = G n (col len n Y0)).
  Proof.
    destruct (colg_steps_ok sch false _ Gi) as (s & Es). unfold cols_call. rewrite Es. cbn [bind].
    destruct (all_done s) eqn:Ed; eexists; (split; [reflexivity|]); split.
    - intros _; discriminate.
    - intros Y' running [= <- <-].
      destruct (reach_columns len No nthreads pt gcol Y0 Hlen0 HNo Hth HY0 gcol_pt gcol_len sch s Es) as [L RC].
      split; [exact L|]. split.
      + intros Hcc. apply (done_running len No nthreads pt gcol Y0 Hlen0 HNo Hth HY0 gcol_pt gcol_len sch s); auto.
        * now apply existsb_ctrlc.
        * intros n c Hn HR. unfold result, gcol in HR. discriminate.
      + intros Hr n Hn.
        destruct (done_columns len No nthreads pt gcol Y0 Hlen0 HNo Hth HY0 gcol_pt gcol_len sch s Es Ed Hr n Hn) as (e & HR).
        unfold result, gcol in HR. injection HR as HR _. now symmetry.
    - intros Hf _. assert (Hd : all_done s = true); [|congruence].
      apply (fair_done len No nthreads pt gcol Y0 Hlen0 HNo Hth HY0 gcol_pt gcol_len sch s Es).
      intros i Hi. unfold t_end, t_start. specialize (Hf (Z.of_nat i) ltac:(lia)). rewrite Nat2Z.id in Hf. exact Hf.
    - intros Y' running HH. discriminate.
  Qed.
End ColG.

(** ** CTRL-C leaves the flag down *)
Lemma gsteps_stopped {N : Num} (pt : Z -> list N -> res (list N * SIRError)) sch : forall s s', gsteps pt s sch = Ok s' ->
  g_running s = false \/ In CtrlC sch -> g_running s' = false.
Proof.
  induction sch as [|e sch IH]; intros s s' E H; cbn [gsteps] in E.
  - injection E as <-. destruct H as [H|[]]. exact H.
  - destruct (gstep pt s e) as [s1|?|] eqn:Es; try discriminate E. cbn [bind] in E. apply (IH s1 s' E).
    destruct e as [i|]; cbn [gstep] in Es.
    + destruct H as [H|[H|H]]; [left|discriminate|now right].
      destruct (nth_error (g_threads s) i) as [t|]; [|now injection Es as <-].
      destruct (thread_step pt (g_H s) (g_running s) t) as [[[H' r'] t']|?|] eqn:Et; try discriminate Es. cbn [bind] in Es. injection Es as <-. cbn [g_running].
      unfold thread_step in Et. destruct (t_pc t).
      * destruct (t_n t <? t_stop t); [|injection Et as _ <- _; exact H].
        destruct (pt _ _) as [[? ?]|?|]; try discriminate Et. cbn [bind] in Et. injection Et as _ <- _. exact H.
      * injection Et as _ <- _. destruct (SIRError_eqb err err_oob); auto.
      * rewrite H in Et. injection Et as _ <- _. reflexivity.
      * injection Et as _ <- _. exact H.
    + injection Es as <-. now left.
Qed.
Lemma cols_call_stopped {N : Num} (pt : Z -> list N -> res (list N * SIRError)) No nthreads sch Y0 Y' r :
  cols_call pt No nthreads sch Y0 = Ok (Some (Y', r)) -> In CtrlC sch -> r = false.
Proof.
  unfold cols_call. destruct (gsteps pt (init No nthreads Y0) sch) as [s|?|] eqn:E; try discriminate. cbn [bind].
  destruct (all_done s); [|discriminate]. intros [= _ <-] H. apply (gsteps_stopped _ _ _ _ E). now right.
Qed.

(** ** Copying more than fits *)
Section Overflow.
  Context {N : Num}.
  Lemma copy_overflow_from (s : list N) so : forall k i (d : list N) r, (i <= length d < i + k)%nat ->
    for_from (Z.of_nat i) k (fun n d => do v <- buf_get s (so + n)%Z; buf_upd d n (fun _ => v)) d <> Ok r.
  Proof.
    induction k as [|k IH]; intros i d r H; [lia|]. cbn [for_from].
    destruct (buf_get s (so + Z.of_nat i)) as [v|?|]; cbn [bind]; try discriminate.
    destruct (Nat.eq_dec i (length d)) as [->|Hi].
    - unfold buf_upd, in_range. replace ((0 <=? Z.of_nat (length d)) && (Z.of_nat (length d) <? Z.of_nat (length d))) with false by lia. discriminate.
    - rewrite buf_upd_ok by lia. cbn [bind]. replace (Z.of_nat i + 1) with (Z.of_nat (S i)) by lia.
      apply IH. rewrite length_upd. lia.
  Qed.
  Lemma copy_overflow (s : list N) so m d r : Z.of_nat (length d) < m -> copy_in s so m d <> Ok r.
  Proof. intros H. unfold copy_in, for_loop. apply (copy_overflow_from s so (Z.to_nat m) O). lia. Qed.

  Lemma fftconv_point_none p M mode scr n (Y : list N) Y' e : fftconv_point p M mode scr n Y = Ok (Y', e) -> e = err_none.
  Proof. unfold fftconv_point. destruct (if 1 <? m_BN M then _ else _); cbn [bind]; try discriminate. now intros [= _ <-]. Qed.
  Lemma fftconv_empty p (x : list N) xo nx y yo ny mode zo s z r :
    scratch_ok (nx + ny - 1) s -> (nx = 0 /\ 1 <= ny) \/ (1 <= nx /\ ny = 0) -> fftconv p x xo nx y yo ny mode zo s z <> Ok r.
  Proof.
    intros (S1 & S2 & _) H. unfold fftconv. destruct H as [[-> Hy]|[Hx ->]].
    - destruct (copy_in x xo 0 (s_a s)); cbn [bind]; try discriminate.
      destruct (zero_pad _ _ _); cbn [bind]; try discriminate.
      destruct (copy_in y yo ny (s_b s)) eqn:E; cbn [bind]; try discriminate. exfalso. revert E. apply copy_overflow. lia.
    - destruct (copy_in x xo nx (s_a s)) eqn:E; cbn [bind]; try discriminate. exfalso. revert E. apply copy_overflow. lia.
  Qed.
  Lemma fftconv_point_empty p M mode scr n (Y : list N) r : scratch_ok (m_AM M + m_BM M - 1) (scr n) ->
    (m_AM M = 0 /\ 1 <= m_BM M) \/ (1 <= m_AM M /\ m_BM M = 0) -> fftconv_point p M mode scr n Y <> Ok r.
  Proof.
    intros Hs H. unfold fftconv_point.
    destruct (1 <? m_BN M); match goal with |- context [fftconv ?p ?x ?xo ?nx ?y ?yo ?ny ?mode ?zo ?s ?z] =>
      destruct (fftconv p x xo nx y yo ny mode zo s z) as [?|?|] eqn:E end; cbn [bind]; try discriminate;
      exfalso; exact (fftconv_empty _ _ _ _ _ _ _ _ _ _ _ _ Hs H E).
  Qed.
End Overflow.

(** ** conv_p with matrices of any size *)
Lemma conv_any_size {N : Num} (A B : list N) AM AN bm bn BM BN mode nthreads sch (Y0 : list N) :
  0 <= AM -> 0 <= AN -> 0 <= bm -> 0 <= bn -> Z.of_nat (length A) = AM * AN -> Z.of_nat (length B) = bm * bn ->
  check_B AN bm bn = Some (BM, BN) -> 0 <= AM + BM - 1 -> 1 <= nthreads -> length Y0 = Z.to_nat (AN * (AM + BM - 1)) ->
  exists r, cols_call (conv_mem_point false false {| m_A := A; m_AM := AM; m_AN := AN; m_B := B; m_BM := BM; m_BN := BN |} mode) AN nthreads sch Y0 = Ok r.
Proof.
  intros HAM HAN Hbm Hbn LA LB Hc Hr Hth HY.
  change (conv_mem_point false false {| m_A := A; m_AM := AM; m_AN := AN; m_B := B; m_BM := BM; m_BN := BN |} mode)
    with (conv_point {| m_A := A; m_AM := AM; m_AN := AN; m_B := B; m_BM := BM; m_BN := BN |} mode).
  assert (HB : 0 <= BM /\ (AN = 0 \/ (BN <= 1 /\ BM <= bm * bn) \/ (1 < BN /\ BM = bm /\ bn = AN))).
  { unfold check_B in Hc. destruct (negb (bm =? 1) && negb (bn =? 1) && negb (bn =? AN)) eqn:E; [discriminate|].
    destruct ((bm =? 1) || (bn =? 1)) eqn:E2; injection Hc as <- <-; [split; [nia|right; left; lia]|].
    split; [lia|]. destruct (Z.eq_dec AN 0); [now left|]. right. destruct (Z_lt_le_dec 1 bn); [right; lia|]. exfalso. lia. }
  destruct HB as (HBM & HB).
  destruct (Z.eq_dec AN 0) as [HA0|HA0].
  { edestruct (cols_call_spec (AM + BM - 1) AN nthreads (conv_point {| m_A := A; m_AM := AM; m_AN := AN; m_B := B; m_BM := BM; m_BN := BN |} mode)
      (fun _ _ v => v) Hr HAN Hth) with (Y0 := Y0) (sch := sch) as (r & Er & _); auto; try lia. eauto. }
  set (bo := fun n => if 1 <? BN then n * BM else 0).
  edestruct (cols_call_spec (AM + BM - 1) AN nthreads (conv_point {| m_A := A; m_AM := AM; m_AN := AN; m_B := B; m_BM := BM; m_BN := BN |} mode)
      (fun n k v => conv_sample mode (slice (n * AM) AM A) (slice (bo n) BM B) v k) Hr HAN Hth) with (Y0 := Y0) (sch := sch) as (r & Er & _); auto; eauto.
  intros n Y Hn LY. unfold conv_point. cbn [m_BN m_AM m_BM m_A m_B].
  assert (HYn : 0 <= n * (AM + BM - 1) /\ n * (AM + BM - 1) + (AM + BM - 1) <= Z.of_nat (length Y)).
  { rewrite LY, Z2Nat.id by nia. nia. }
  assert (Hb : (if 1 <? BN then conv A (n * AM) AM B (n * BM) BM mode (n * (AM + BM - 1)) Y
                           else conv A (n * AM) AM B 0 BM mode (n * (AM + BM - 1)) Y)
                          = conv A (n * AM) AM B (bo n) BM mode (n * (AM + BM - 1)) Y /\
                          0 <= bo n /\ bo n + BM <= Z.of_nat (length B)).
  { unfold bo. destruct (1 <? BN) eqn:E; (split; [reflexivity|]); destruct HB as [?|[?|?]]; nia. }
  destruct Hb as (-> & Hb0 & Hb1).
  destruct (conv_spec A (n * AM) AM B (bo n) BM mode (n * (AM + BM - 1)) Y) as (Y' & E & L & Hj); try nia.
  rewrite E. cbn [bind]. exists Y'. split; [reflexivity|]. split; [exact L|]. exact Hj.
Qed.
