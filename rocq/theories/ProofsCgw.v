(** ProofsCgw.v - lemmas about the gateways of the convolution functions,
    copy_p and add_p. *)
From Coq Require Strings.String.
From Coq Require Import Reals Lra.
From Verif Require Import Base BaseLemmas ModelSir ModelArr ModelSmp ModelConv NumR SpecDft SpecSmp SpecConv
  ProofsLoop ProofsSmp ProofsSmp2 ProofsConv ProofsConvR ProofsCols ModelGw SpecGwR ModelCgw SpecCgw ProofsR.
From Coq Require Import ZifyBool ZifyNat.
Ltac Zify.zify_post_hook ::= Z.div_mod_to_equations.
Open Scope Z_scope.

Lemma available_has fe f : available fe f <-> has_fun fe f = true.
Proof.
  unfold available. split.
  - intros H. destruct H as [H|[H|[[H H']|[H H']]]]; subst; try destruct f; cbn; congruence.
  - destruct fe, f; cbn; intros; try discriminate; auto.
    + right; right; left. split; congruence.
    + right; right; left. split; congruence.
Qed.

(** ** A column whose work always goes wrong *)
Section GenBad.
  Context {N : Num}.
  Variables (pt : Z -> list N -> res (list N * SIRError)) (No nthreads n0 : Z).
  Hypothesis Hno : forall n Y Y' e, pt n Y = Ok (Y', e) -> e = err_none.
  Hypothesis Hbad : forall Y s, pt n0 Y <> Ok s.
  Hypothesis Hn0 : 0 <= n0 < No.
  Hypothesis Hth : 1 <= nthreads.

  Definition todo (t : thread) : Z :=
    match t_pc t with
    | PHead => 3 * (n0 - t_n t) + 1
    | PFlag _ => 3 * (n0 - t_n t)
    | _ => 3 * (n0 - t_n t) - 1
    end.
  Definition BInv (i : nat) (s : gstate (N:=N)) : Prop :=
    exists t, nth_error (g_threads s) i = Some t /\ t_n t <= n0 < t_stop t /\
      (t_pc t = PHead \/ ((t_pc t = PFlag err_none \/ t_pc t = PCheck) /\ t_n t < n0) \/ (t_pc t = PDone /\ g_running s = false)).

  Lemma upd_same {A} (l : list A) i x f : nth_error l i = Some x -> nth_error (upd l i f) i = Some (f x).
  Proof. revert i; induction l as [|a l IH]; intros [|i] H; cbn in *; try discriminate; [congruence|auto]. Qed.
  Lemma upd_other {A} (l : list A) i j f : i <> j -> nth_error (upd l i f) j = nth_error l j.
  Proof. revert i j; induction l as [|a l IH]; intros [|i] [|j] H; cbn; auto; try lia; try congruence. Qed.

  Lemma gstep_bad i s e s' : BInv i s -> gstep pt s e = Ok s' ->
    (forall k t, nth_error (g_threads s) k = Some t -> t_pc t = PHead \/ t_pc t = PFlag err_none \/ t_pc t = PCheck \/ t_pc t = PDone) ->
    (forall k t, nth_error (g_threads s') k = Some t -> t_pc t = PHead \/ t_pc t = PFlag err_none \/ t_pc t = PCheck \/ t_pc t = PDone) /\
    BInv i s' /\ (e <> CtrlC -> g_running s' = g_running s) /\
    (e = Run i -> g_running s = true -> forall t t', nth_error (g_threads s) i = Some t -> nth_error (g_threads s') i = Some t' -> todo t' = todo t - 1) /\
    (e <> Run i -> nth_error (g_threads s') i = nth_error (g_threads s) i).
  Proof.
    intros (t & Et & Hr & Hpc) Es Hall. destruct e as [j|]; cbn [gstep] in Es.
    2:{ injection Es as <-. cbn. split; [exact Hall|]. split; [|split; [congruence|split; [congruence|reflexivity]]].
        exists t. cbn. split; [exact Et|]. split; [exact Hr|]. tauto. }
    destruct (nth_error (g_threads s) j) as [tj|] eqn:Ej.
    2:{ injection Es as <-. split; [exact Hall|]. split; [exists t; auto|]. split; [reflexivity|]. split; [intros [= ->]; congruence|reflexivity]. }
    pose proof (Hall j tj Ej) as Hj.
    destruct (thread_step pt (g_H s) (g_running s) tj) as [[[H' run'] t']| |] eqn:Ts; try discriminate Es. cbn [bind] in Es. injection Es as <-. cbn [g_threads g_running].
    assert (Q : (t_pc t' = PHead \/ t_pc t' = PFlag err_none \/ t_pc t' = PCheck \/ t_pc t' = PDone) /\ run' = g_running s /\
      (t_n tj <= n0 < t_stop tj -> (t_pc tj = PHead \/ ((t_pc tj = PFlag err_none \/ t_pc tj = PCheck) /\ t_n tj < n0) \/ (t_pc tj = PDone /\ g_running s = false)) ->
        t_n t' <= n0 < t_stop t' /\ (t_pc t' = PHead \/ ((t_pc t' = PFlag err_none \/ t_pc t' = PCheck) /\ t_n t' < n0) \/ (t_pc t' = PDone /\ g_running s = false)) /\
        (g_running s = true -> todo t' = todo tj - 1))).
    { unfold thread_step in Ts. unfold todo. destruct Hj as [Hj|[Hj|[Hj|Hj]]]; rewrite Hj in *.
      - destruct (t_n tj <? t_stop tj) eqn:El.
        + destruct (pt (t_n tj) (g_H s)) as [[Y' e]| |] eqn:Ep; try discriminate Ts. cbn [bind] in Ts. pose proof (Hno _ _ _ _ Ep) as ->.
          injection Ts as <- <- <-. cbn [t_pc t_n t_stop]. split; [tauto|]. split; [reflexivity|]. intros Hr' _.
          assert (t_n tj <> n0) by (intros E0; rewrite E0 in Ep; exact (Hbad _ _ Ep)).
          split; [lia|]. split; [right; left; split; [now left|lia]|]. intros _. lia.
        + injection Ts as <- <- <-. cbn [t_pc t_n t_stop]. split; [tauto|]. split; [reflexivity|]. intros Hr' _. lia.
      - injection Ts as <- <- <-. cbn [t_pc t_n t_stop]. split; [tauto|]. split; [reflexivity|]. intros Hr' [Hx|[[_ Hx]|[Hx _]]]; try congruence.
        split; [lia|]. split; [right; left; split; [now right|lia]|]. intros _. lia.
      - destruct (g_running s) eqn:Er; injection Ts as <- <- <-; cbn [t_pc t_n t_stop]; (split; [tauto|]); (split; [reflexivity|]); intros Hr' [Hx|[[_ Hx]|[Hx _]]]; try congruence.
        + split; [lia|]. split; [now left|]. intros _. lia.
        + split; [lia|]. split; [right; right; split; reflexivity|]. intros; discriminate.
      - injection Ts as <- <- <-. rewrite Hj. split; [tauto|]. split; [reflexivity|]. intros Hr' [Hx|[[[Hx|Hx] _]|[_ Hx]]]; try congruence.
        split; [lia|]. split; [right; right; split; [reflexivity|exact Hx]|]. intros; congruence. }
    destruct Q as (Qpc & Qr & Qi). subst run'.
    split.
    { intros k tk Hk. destruct (Nat.eq_dec j k) as [->|Hjk].
      - rewrite (upd_same _ _ _ _ Ej) in Hk. injection Hk as <-. exact Qpc.
      - rewrite upd_other in Hk by exact Hjk. exact (Hall k tk Hk). }
    split.
    { destruct (Nat.eq_dec j i) as [->|Hji].
      - rewrite Et in Ej. injection Ej as <-. destruct (Qi Hr Hpc) as (A1 & A2 & _). exists t'. cbn [g_threads g_running]. rewrite (upd_same _ _ _ _ Et). auto.
      - exists t. cbn [g_threads g_running]. rewrite upd_other by exact Hji. auto. }
    split; [reflexivity|]. split.
    - intros [= ->] Hrun u u' Hu Hu'. rewrite (upd_same _ _ _ _ Ej) in Hu'. injection Hu' as <-.
      rewrite Et in Ej, Hu. injection Ej as <-. injection Hu as <-. exact (proj2 (proj2 (Qi Hr Hpc)) Hrun).
    - intros Hne. rewrite upd_other; [reflexivity|congruence].
  Qed.

  Lemma gsteps_bad i sch : forall s s', BInv i s -> gsteps pt s sch = Ok s' ->
    (forall k t, nth_error (g_threads s) k = Some t -> t_pc t = PHead \/ t_pc t = PFlag err_none \/ t_pc t = PCheck \/ t_pc t = PDone) ->
    BInv i s' /\
    (no_ctrlc sch -> g_running s = true -> g_running s' = true /\
       forall t t', nth_error (g_threads s) i = Some t -> nth_error (g_threads s') i = Some t' -> todo t' = todo t - steps_of i sch).
  Proof.
    induction sch as [|e sch IH]; intros s s' Hi E Hall; cbn [gsteps] in E.
    - injection E as <-. split; [exact Hi|]. intros _ Hr. split; [exact Hr|]. intros t t' -> [= ->]. unfold steps_of. cbn. lia.
    - destruct (gstep pt s e) as [s1| |] eqn:Es; try discriminate E. cbn [bind] in E.
      destruct (gstep_bad i s e s1 Hi Es Hall) as (Hall1 & Hi1 & Hr1 & Hm & Ho).
      destruct (IH s1 s' Hi1 E Hall1) as (Hi' & Hd). split; [exact Hi'|]. intros Hcc Hr.
      assert (Hcc' : no_ctrlc sch) by (intros H; apply Hcc; now right).
      assert (He : e <> CtrlC) by (intros ->; apply Hcc; now left).
      specialize (Hr1 He). rewrite Hr in Hr1. destruct (Hd Hcc' Hr1) as (Hr' & Hd'). split; [exact Hr'|].
      intros t t' Ht Ht'. destruct Hi1 as (t1 & Et1 & _). specialize (Hd' t1 t' Et1 Ht').
      unfold steps_of in *. cbn [filter]. destruct e as [j|]; [|congruence]. destruct (Nat.eqb i j) eqn:Eij.
      + apply Nat.eqb_eq in Eij. subst j. cbn [length]. rewrite (Hm eq_refl Hr t t1 Ht Et1) in Hd'. lia.
      + apply Nat.eqb_neq in Eij. rewrite Ho, Ht in Et1 by congruence. injection Et1 as <-. exact Hd'.
  Qed.

  (** No execution runs to the end; an uninterrupted one in which every worker
      gets its steps performs the bad access. *)
  Lemma gen_bad Y0 sch :
    (forall Y', cols_call pt No nthreads sch Y0 <> Ok (Some (Y', true))) /\
    (no_ctrlc sch -> (forall Y' r, cols_call pt No nthreads sch Y0 <> Ok (Some (Y', r))) /\
      ((forall i, 0 <= i < nthreads -> 3 * (part_stop i No nthreads - part_start i No nthreads) + 1 <= steps_of (Z.to_nat i) sch) ->
       forall r, cols_call pt No nthreads sch Y0 <> Ok r)).
  Proof.
    destruct (part_cover No nthreads Hth n0 Hn0) as (t & Ht & Hp).
    set (i := Z.to_nat t).
    assert (Ei : nth_error (g_threads (init No nthreads Y0)) i = Some (init_thread No nthreads i)).
    { cbn [init g_threads]. rewrite nth_error_map, (nth_error_nth' _ O) by (rewrite seq_length; lia).
      rewrite seq_nth by lia. reflexivity. }
    assert (Hi0 : BInv i (init No nthreads Y0)).
    { exists (init_thread No nthreads i). split; [exact Ei|]. cbn [init_thread t_n t_stop t_pc]. unfold i. rewrite Z2Nat.id by lia. split; [exact (conj (proj1 Hp) (proj2 Hp))|]. now left. }
    assert (Hall : forall k u, nth_error (g_threads (init No nthreads Y0)) k = Some u -> t_pc u = PHead \/ t_pc u = PFlag err_none \/ t_pc u = PCheck \/ t_pc u = PDone).
    { intros k u Hk. cbn [init g_threads] in Hk. rewrite nth_error_map in Hk. destruct (nth_error (seq 0 (Z.to_nat nthreads)) k); [|discriminate]. injection Hk as <-. now left. }
    unfold cols_call.
    destruct (gsteps pt (init No nthreads Y0) sch) as [s| |] eqn:Es; cbn [bind].
    2,3: split; [discriminate|]; intros _; split; [discriminate|]; intros _; discriminate.
    destruct (gsteps_bad i sch _ _ Hi0 Es Hall) as ((u & Eu & Hr & Hpc) & Hm).
    assert (Hnd : g_running s = true -> all_done s = false).
    { intros Hrun. destruct (all_done s) eqn:Ed; [|reflexivity]. rewrite all_done_spec in Ed. specialize (Ed i u Eu). rewrite Ed in Hpc.
      destruct Hpc as [H|[[[H|H] _]|[_ H]]]; congruence. }
    split.
    { intros Y'. destruct (all_done s) eqn:Ed; [|discriminate]. intros Er. injection Er as _ Er. specialize (Hnd Er). congruence. }
    intros Hcc. destruct (Hm Hcc eq_refl) as (Hrun & Htodo). split.
    { intros Y' r. rewrite (Hnd Hrun). discriminate. }
    intros Hf r _. specialize (Htodo _ _ Ei Eu). specialize (Hf t Ht). fold i in Hf.
    unfold todo in Htodo at 2. cbn [init_thread t_pc t_n] in Htodo. unfold i in Htodo at 1. rewrite Z2Nat.id in Htodo by lia.
    unfold todo in Htodo. rewrite Hrun in Hpc. destruct Hpc as [H|[[[H|H] Hlt]|[_ H]]]; try discriminate; rewrite H in Htodo; lia.
  Qed.
End GenBad.

(** ** copy_p and add_p *)
Lemma trunc_IZR z : Ztruncr (IZR z) = z.
Proof.
  unfold Ztruncr. destruct (Rle_dec 0 (IZR z)).
  - apply Zfloor_IZR.
  - rewrite <- opp_IZR, Zfloor_IZR. lia.
Qed.
Lemma cast_int fe z : fits z -> (idx_of fe = SignedIdx \/ 0 <= z) -> to_idx (idx_of fe) (Some (Ztruncr (IZR z))) = Ok z.
Proof.
  unfold fits. intros H1 H2. rewrite trunc_IZR. unfold to_idx. destruct (idx_of fe).
  - replace (_ && _) with true by lia. reflexivity.
  - destruct H2; [discriminate|]. replace (_ && _) with true by lia. reflexivity.
Qed.
Lemma cast_bad fe z : to_idx (idx_of fe) (Some (Ztruncr (IZR z))) = Ok z \/ to_idx (idx_of fe) (Some (Ztruncr (IZR z))) = UB UB_cast.
Proof. rewrite trunc_IZR. unfold to_idx. destruct (idx_of fe); destruct (_ && _); auto. Qed.

Section Copy.
  Context {N : Num}.
  Lemma copy_point_none f AM BM r k len (B : list N) n Y Y' e : copy_point f AM BM r k len B n Y = Ok (Y', e) -> e = err_none.
  Proof.
    unfold copy_point. destruct f.
    - destruct (len <? 0); [discriminate|]. destruct (for_loop _ _ _); cbn [bind]; try discriminate. now intros [= _ <-].
    - destruct (for_loop _ _ _); cbn [bind]; try discriminate. now intros [= _ <-].
  Qed.
  Lemma copy_point_bad_read f AM BM r k len (B : list N) n Y s : 1 <= len -> ~ (0 <= n * BM < Z.of_nat (length B)) ->
    copy_point f AM BM r k len B n Y <> Ok s.
  Proof.
    intros Hl Hb. unfold copy_point, for_loop. destruct (Z.to_nat len) as [|m] eqn:Em; [lia|]. cbn [for_from].
    destruct f; [replace (len <? 0) with false by lia|];
      unfold buf_get, in_range; [replace (0 + n * BM + 0) with (n * BM) by lia|replace (0 + n * BM) with (n * BM) by lia];
      replace ((0 <=? n * BM) && (n * BM <? Z.of_nat (length B))) with false by lia; discriminate.
  Qed.
  Lemma copy_point_bad_write f AM BM r k len (B : list N) n Y s : 1 <= len -> r + (k + n) * AM < 0 ->
    copy_point f AM BM r k len B n Y <> Ok s.
  Proof.
    intros Hl Hb. unfold copy_point, for_loop. destruct (Z.to_nat len) as [|m] eqn:Em; [lia|]. cbn [for_from].
    destruct f; [replace (len <? 0) with false by lia|];
      (destruct (buf_get _ _); cbn [bind]; try discriminate; unfold buf_upd, in_range;
       replace ((0 <=? r + (k + n) * AM + 0) && (r + (k + n) * AM + 0 <? Z.of_nat (length Y))) with false by lia; discriminate).
  Qed.
  Definition pv (f : pfun) (v b : N) : N := match f with PCopy => b | PAdd => nadd v b end.
  Lemma copy_point_ok f AM AN BM r len (B : list N) n Y : 0 <= r -> 0 <= len -> r + len <= AM -> len <= BM -> 0 <= n < AN ->
    Z.of_nat (length B) = BM * AN -> length Y = Z.to_nat (AN * AM) ->
    exists Y', copy_point f AM BM r 0 len B n Y = Ok (Y', err_none) /\ length Y' = length Y /\
      forall j, nth j Y' (nofZ 0) =
        if ((Z.to_nat (n * AM) <=? j) && (j <? Z.to_nat (n * AM) + Z.to_nat AM))%nat
        then (if (r <=? Z.of_nat (j - Z.to_nat (n * AM))) && (Z.of_nat (j - Z.to_nat (n * AM)) <? r + len)
              then pv f (nth j Y (nofZ 0)) (nth (Z.to_nat (n * BM + (Z.of_nat (j - Z.to_nat (n * AM)) - r))) B (nofZ 0))
              else nth j Y (nofZ 0))
        else nth j Y (nofZ 0).
  Proof.
    intros Hr Hl Hrl Hlb Hn LB LY.
    destruct (for_upd (nofZ 0) (Z.to_nat (r + n * AM)) len
      (fun l A => do b <- buf_get B (n * BM + l)%Z; buf_upd A (r + n * AM + l) (fun v => pv f v b))
      (fun j v => pv f v (nth (Z.to_nat (n * BM + Z.of_nat j)) B (nofZ 0))) Y) as (Y' & E & L & H).
    - nia.
    - intros j h Hj Hh. rewrite (get_nth B _ (nofZ 0)) by nia. cbn [bind]. rewrite buf_upd_ok by nia. do 2 f_equal. nia.
    - exists Y'. split; [|split; [exact L|]].
      + unfold copy_point. destruct f.
        * replace (len <? 0) with false by lia. 
          assert (Eq : for_loop len (fun l A => do b <- buf_get B (0 + n * BM + l); buf_upd A (r + (0 + n) * AM + l) (fun _ => b)) Y = Ok Y').
          { rewrite <- E. reflexivity. }
          rewrite Eq. reflexivity.
        * assert (Eq : for_loop len (fun l A => do b <- buf_get B (l + n * BM); buf_upd A (r + (0 + n) * AM + l) (fun v => nadd v b)) Y = Ok Y').
          { rewrite <- E. unfold for_loop. apply for_from_ext. intros i y _. rewrite (Z.add_comm i (n * BM)). reflexivity. }
          rewrite Eq. reflexivity.
      + intros j. rewrite H.
        destruct ((Z.to_nat (n * AM) <=? j) && (j <? Z.to_nat (n * AM) + Z.to_nat AM))%nat eqn:E1.
        * destruct ((r <=? Z.of_nat (j - Z.to_nat (n * AM))) && (Z.of_nat (j - Z.to_nat (n * AM)) <? r + len)) eqn:E2.
          -- replace (_ && _)%bool with true by nia. f_equal. f_equal. nia.
          -- replace (_ && _)%bool with false by nia. reflexivity.
        * replace (_ && _)%bool with false by nia. reflexivity.
  Qed.
End Copy.
