(** ProofsGpu.v - lemmas about the OpenCL dreamrect and dreamcirc. *)
From Coq Require Import Permutation.
From Verif Require Import Base BaseLemmas ModelSir ModelArr ModelSmp ModelDas ModelGpu SpecSir
  ProofsLocal ProofsLocalArr ProofsSmp ProofsCall ProofsEnum ProofsErr.
From Coq Require Import ZifyBool ZifyNat.
Ltac Zify.zify_post_hook ::= Z.div_mod_to_equations.

Section Gpu.
  Context {N : Num}.
  Local Notation buf := (list N).
  Local Notation st := (buf * SIRError)%type.

  Lemma to_int_inv o z : to_int o = Ok z -> o = Some z /\ -2^31 <= z < 2^31.
  Proof.
    unfold to_int. destruct o as [y|]; [|discriminate].
    destruct ((-2^31 <=? y) && (y <? 2^31))%Z eqn:E; [|discriminate].
    intros [= <-]. split; auto. lia.
  Qed.
  Lemma to_int_idx o z : to_int o = Ok z -> to_idx SignedIdx o = Ok z.
  Proof.
    intros E. apply to_int_inv in E as (-> & H). unfold to_idx.
    destruct ((-2^63 <=? z) && (z <? 2^63))%Z eqn:F; auto. lia.
  Qed.

  (** Two scans in lock step, the first of which never returns early. *)
  Lemma scan_rel {S1 S2 A1 A2} (R : S1 -> S2 -> Prop) (xmax d : N)
    (pt1 : N -> S1 -> res (ctl S1 A1)) (pt2 : N -> S2 -> res (ctl S2 A2)) :
    (forall x s1 s2 c, R s1 s2 -> pt1 x s1 = Ok c ->
       exists s1' s2', c = Go s1' /\ pt2 x s2 = Ok (Go s2') /\ R s1' s2') ->
    forall fuel x0 s1 s2 c, R s1 s2 -> scan fuel x0 xmax d pt1 s1 = Ok c ->
    exists s1' s2', c = Go s1' /\ scan fuel x0 xmax d pt2 s2 = Ok (Go s2') /\ R s1' s2'.
  Proof.
    intros Hp. unfold scan.
    induction fuel as [|f IH]; intros x0 s1 s2 c HR; cbn [while]; destruct (nle x0 xmax); cbn [bind].
    - discriminate.
    - intros [= <-]. eauto.
    - destruct (pt1 x0 s1) as [c1|u|] eqn:E1; cbn [bind]; try discriminate.
      destruct (Hp _ _ _ _ HR E1) as (t1 & t2 & -> & E2 & HR'). rewrite E2. cbn [bind].
      intros E. apply (IH (nadd x0 d) t1 t2 c HR' E).
    - intros [= <-]. eauto.
  Qed.

  Lemma cl_put_put lvl nt base c (s1 s2 : st) r : no_bail lvl -> fst s1 = fst s2 ->
    cl_sir_put nt base c s1 = Ok r ->
    exists s1' s2', r = Go s1' /\ put SignedIdx false None lvl nt base c s2 = Ok (Go s2') /\ fst s1' = fst s2'.
  Proof.
    intros Hl Es E. destruct s1 as [h e1], s2 as [h2 e2]. cbn [fst] in Es. subst h2.
    unfold cl_sir_put in E. unfold put.
    destruct (to_int (nrint (c_arg c))) as [it|u|] eqn:Ei; cbn [bind] in E; try discriminate.
    rewrite (to_int_idx _ _ Ei). cbn [bind].
    destruct ((it <? nt)%Z && (0 <=? it)%Z) eqn:W.
    - unfold emit. destruct (emit_plain base it (c_r c) (c_ai c) h) as [h'|u|]; cbn [bind] in E |- *; try discriminate.
      injection E as <-. eauto.
    - injection E as <-.
      assert (B : bail false lvl (dream_out_of_bounds_err lvl) = false)
        by (destruct Hl as [->|[->| ->]]; reflexivity).
      rewrite B. eauto.
  Qed.

  Lemma cl_loops_put lvl fuel (Sc : scanner N) nt base (h : buf) r : no_bail lvl ->
    run_loops fuel Sc (cl_sir_put nt base) (h, err_none) = Ok r ->
    exists h' e1 e2, r = Go (h', e1) /\ run_loops fuel Sc (put SignedIdx false None lvl nt base) (h, err_none) = Ok (Go (h', e2)).
  Proof.
    intros Hl. unfold run_loops. set (R := fun s1 s2 : st => fst s1 = fst s2).
    assert (Hin : forall y, forall s1 s2 c, R s1 s2 ->
      scan fuel (row_x0 (sc_row Sc y)) (row_xmax (sc_row Sc y)) (row_dx (sc_row Sc y))
        (fun x => cl_sir_put nt base (sc_pt Sc y x)) s1 = Ok c ->
      exists s1' s2', c = Go s1' /\
      scan fuel (row_x0 (sc_row Sc y)) (row_xmax (sc_row Sc y)) (row_dx (sc_row Sc y))
        (fun x => put SignedIdx false None lvl nt base (sc_pt Sc y x)) s2 = Ok (Go s2') /\ R s1' s2').
    { intros y. apply (scan_rel R). intros x s1 s2 c HR E. exact (cl_put_put lvl nt base _ s1 s2 c Hl HR E). }
    intros E. destruct (sc_outer Sc) as [o|].
    - destruct (scan_rel R (row_xmax o) (row_dx o) _ _ (fun y s1 s2 c => Hin y s1 s2 c) fuel (row_x0 o) _ (h, err_none) r (eq_refl : R _ _) E)
        as ([h1 e1] & [h2 e2] & -> & E2 & HR). unfold R in HR. cbn [fst] in HR. subst h2. eauto.
    - destruct (Hin _ _ (h, err_none) r (eq_refl : R _ _) E) as ([h1 e1] & [h2 e2] & -> & E2 & HR).
      unfold R in HR. cbn [fst] in HR. subst h2. eauto.
  Qed.

  Definition has_kernel (T : transducer N) : Prop :=
    match T with TRect _ _ | TCirc _ => True | _ => False end.

  (** The kernel's scanner does on any column what the CPU's does on zeros. *)
  Lemma cl_scanner_cpu K fuel (T : transducer N) (q : samp N) delay xo yo zo Sc lvl (c : buf) :
    nmul (nofZ 1) (vel q) = vel q -> length c = Z.to_nat (nt q) ->
    cl_scanner T q delay xo yo zo = Some Sc ->
    run_scanner K fuel Sc None lvl (nt q) 0 c =
    serial K fuel T q None lvl xo yo zo delay 0 (zeros (nt q)).
  Proof.
    intros Hv Hc E. destruct T; try discriminate; injection E as <-; unfold serial, run_scanner;
      cbn [sc_clear rect_cl circ_cl rect_scanner circ_scanner]; rewrite clear_zeros by exact Hc; cbn [bind].
    - f_equal. unfold rect_cl, rect_scanner, amp_w, tof. rewrite Hv. reflexivity.
    - f_equal. unfold circ_cl, circ_scanner, amp_w, tof. rewrite Hv. reflexivity.
  Qed.

  Variable J : job N.
  Hypothesis W : wf_job SignedIdx J.
  Hypothesis HT : has_kernel (j_T J).
  Hypothesis Hatt : j_att J = None.
  Hypothesis Hone : j_delay_type J = delay_single.
  Hypothesis Hv : nmul (nofZ 1) (vel (j_q J)) = vel (j_q J).
  Local Notation nt := (nt (j_q J)).
  Local Notation No := (j_No J).

  (** The kernel computes the single-point response of the CPU. *)
  Definition with_lvl (l : ErrorLevel) : job N :=
    {| j_fuel := j_fuel J; j_T := j_T J; j_q := j_q J; j_att := j_att J; j_lvl := l;
       j_No := j_No J; j_Ro := j_Ro J; j_delay_type := j_delay_type J; j_delay := j_delay J |}.

  Lemma cl_item_args n : 0 <= n < No -> exists xo yo zo dl Sc,
    buf_get (j_delay J) 0 = Ok dl /\ buf_get (j_Ro J) n = Ok xo /\ buf_get (j_Ro J) (n + No * 1) = Ok yo /\
    buf_get (j_Ro J) (n + No * 2) = Ok zo /\ cl_scanner (j_T J) (j_q J) dl xo yo zo = Some Sc /\
    (forall c, alone SignedIdx J n c = serial SignedIdx (j_fuel J) (j_T J) (j_q J) None (j_lvl J) xo yo zo dl 0 c).
  Proof.
    intros Hn. destruct (point_args SignedIdx J W n Hn) as (xo & yo & zo & dl & Ex & Ey & Ez & Ed).
    rewrite Hone in Ed.
    assert (S : exists Sc, cl_scanner (j_T J) (j_q J) dl xo yo zo = Some Sc).
    { unfold has_kernel in HT. destruct (j_T J); try contradiction; cbn; eauto. }
    destruct S as (Sc & ES). exists xo, yo, zo, dl, Sc.
    replace (No * 1) with (1 * No) by lia. replace (No * 2) with (2 * No) by lia.
    repeat split; auto. intros c. unfold alone. rewrite Ex, Ey, Ez. cbn [bind]. rewrite Hone, Ed, Hatt. reflexivity.
  Qed.

  Lemma cl_item_col n H H' : 0 <= n < No -> length H = Z.to_nat (No * nt) -> no_bail (j_lvl J) ->
    cl_item J n H = Ok H' ->
    exists c e, alone SignedIdx J n (zeros nt) = Ok (c, e) /\ length c = Z.to_nat nt /\ H' = set_col nt n c H.
  Proof.
    intros Hn HL Hl E. destruct (cl_item_args n Hn) as (xo & yo & zo & dl & Sc & Ed & Ex & Ey & Ez & ES & EA).
    unfold cl_item in E. rewrite Ed, Ex, Ey, Ez in E. cbn [bind] in E. rewrite ES in E. cbv zeta in E.
    replace (0 + nt * n) with (n * nt) in E by lia.
    destruct (clear_h (n * nt) nt H) as [h0|u|] eqn:E0; cbn [bind] in E; try discriminate.
    destruct (run_loops (j_fuel J) Sc (cl_sir_put nt (n * nt)) (h0, err_none)) as [r|u|] eqn:E1; cbn [bind] in E; try discriminate.
    injection E as <-. destruct (cl_loops_put (j_lvl J) _ _ _ _ _ _ Hl E1) as (h' & e1 & e2 & -> & E2).
    cbn [finish fst].
    assert (SC : sc_clear Sc = true /\ sc_by_level Sc = false).
    { destruct (j_T J); try discriminate; injection ES as <-; split; reflexivity. }
    assert (E3 : run_scanner SignedIdx (j_fuel J) Sc None (j_lvl J) nt (n * nt) H = Ok (h', e2)).
    { unfold run_scanner. destruct SC as [-> ->]. rewrite E0. cbn [bind]. rewrite E2. reflexivity. }
    assert (Lc : length (col nt n H) = Z.to_nat nt) by (destruct W; apply (length_col nt n No); auto).
    destruct (run_scanner_local SignedIdx (j_fuel J) Sc None (j_lvl J) nt I (col nt n H) Lc) as [G L].
    rewrite (col_split nt n H) in E3.
    specialize (L (firstn (Z.to_nat (n * nt)) H) (skipn (Z.to_nat (n * nt) + Z.to_nat nt) H)).
    unfold emb in L at 1. rewrite firstn_length in L.
    replace (Z.of_nat (Nat.min (Z.to_nat (n * nt)) (length H))) with (n * nt) in L
      by (destruct W as [? ? _ _ _ _]; assert (0 <= n * nt) by nia; assert (n * nt <= No * nt) by nia; lia).
    rewrite E3 in L.
    destruct (run_scanner SignedIdx (j_fuel J) Sc None (j_lvl J) nt 0 (col nt n H)) as [[c e]|u|] eqn:E4; cbn [rmap] in L; try discriminate.
    exists c, e. rewrite EA, <- (cl_scanner_cpu SignedIdx _ _ _ _ _ _ _ _ _ _ Hv Lc ES), E4.
    split; [reflexivity|]. split; [exact G|]. injection L as -> _. reflexivity.
  Qed.

  Lemma cl_items_cols items : no_bail (j_lvl J) -> (forall n, In n items -> 0 <= n < No) ->
    forall H H', length H = Z.to_nat (No * nt) -> cl_items J items H = Ok H' ->
    length H' = length H /\
    (forall n, In n items -> exists e, alone SignedIdx J n (zeros nt) = Ok (col nt n H', e)) /\
    (forall n, 0 <= n < No -> ~ In n items -> col nt n H' = col nt n H).
  Proof.
    intros Hl. induction items as [|m items IH]; intros Hin H H' HL E; cbn [cl_items] in E.
    { injection E as <-. split; auto. split; [intros n []|auto]. }
    destruct (cl_item J m H) as [H1|u|] eqn:E1; cbn [bind] in E; try discriminate.
    assert (Hm : 0 <= m < No) by (apply Hin; left; reflexivity).
    destruct (cl_item_col m H H1 Hm HL Hl E1) as (c & e & Ea & Lc & ->).
    pose proof (wj_nt _ _ W) as Hnt.
    assert (HL1 : length (set_col nt m c H) = Z.to_nat (No * nt)) by (rewrite (length_set_col nt m No); auto).
    destruct (IH (fun n Hn => Hin n (or_intror Hn)) _ _ HL1 E) as (A & B & C).
    split; [rewrite A, HL1; auto|]. split.
    - intros n Hn. destruct (in_dec Z.eq_dec n items) as [I|NI]; [exact (B n I)|].
      destruct Hn as [<-|Hn]; [|contradiction]. exists e. rewrite (C m Hm NI).
      rewrite (col_set_same nt m No); auto.
    - intros n Hn Hni. rewrite (C n Hn) by (intros X; apply Hni; right; exact X).
      rewrite (col_set_other nt m n No); auto. intros ->. apply Hni. left. reflexivity.
  Qed.

  (** *** The kernel on its source points. *)
  Lemma feed_cl_put nt0 (l : list (contrib N)) :
    Forall (fun c => exists z, sample_of c = Some z /\ -2^31 <= z < 2^31) l ->
    forall pre (c : buf) post e, length c = Z.to_nat nt0 ->
    feed (cl_sir_put nt0 (Z.of_nat (length pre))) l (pre ++ c ++ post, e) = Ok (Go (pre ++ accumulate nt0 l c ++ post, e)).
  Proof.
    induction 1 as [|x l (z & Ez & Hz) _ IH]; intros pre c post e Hc; cbn [feed]; [reflexivity|].
    unfold cl_sir_put at 1. unfold sample_of in Ez. rewrite Ez. unfold to_int.
    replace ((-2^31 <=? z) && (z <? 2^31))%Z with true by lia. cbn [bind].
    rewrite accumulate_cons. unfold in_window, sample_of. rewrite Ez.
    replace ((0 <=? z) && (z <? nt0)) with ((z <? nt0) && (0 <=? z)) by lia.
    destruct ((z <? nt0) && (0 <=? z)) eqn:Wd; cbn [bind].
    - unfold emit_plain. rewrite buf_upd_mid by lia. rewrite buf_upd_ok by lia. cbn [rmap bind].
      apply IH. now rewrite length_upd.
    - apply IH. exact Hc.
  Qed.

  Lemma cl_points fuel (T : transducer N) (q : samp N) delay xo yo zo Sc pts :
    nmul (nofZ 1) (vel q) = vel q -> cl_scanner T q delay xo yo zo = Some Sc ->
    visited fuel T q xo yo zo delay = Some pts -> source_points fuel Sc = Some pts.
  Proof.
    intros Hv' E. destruct T; try discriminate; injection E as <-; unfold visited, scanner_of_T.
    - intros <-.
      unfold source_points, source_row, rect_cl, rect_scanner, amp_w, tof. cbn [sc_outer sc_row sc_pt]. rewrite Hv'. reflexivity.
    - intros <-.
      unfold source_points, source_row, circ_cl, circ_scanner, amp_w, tof. cbn [sc_outer sc_row sc_pt]. rewrite Hv'. reflexivity.
  Qed.

  Lemma cl_item_points n H pts xo yo zo dl : 0 <= n < No -> length H = Z.to_nat (No * nt) ->
    buf_get (j_Ro J) n = Ok xo -> buf_get (j_Ro J) (n + 1 * No) = Ok yo -> buf_get (j_Ro J) (n + 2 * No) = Ok zo ->
    buf_get (j_delay J) 0 = Ok dl ->
    visited (j_fuel J) (j_T J) (j_q J) xo yo zo dl = Some pts ->
    Forall (fun c => exists z, sample_of c = Some z /\ -2^31 <= z < 2^31) pts ->
    cl_item J n H = Ok (set_col nt n (accumulate nt pts (zeros nt)) H).
  Proof.
    intros Hn HL Ex Ey Ez Ed Hp Hr. destruct (cl_item_args n Hn) as (xo' & yo' & zo' & dl' & Sc & Ed' & Ex' & Ey' & Ez' & ES & _).
    unfold cl_item. rewrite Ed', Ex', Ey', Ez'. cbn [bind]. rewrite ES. cbv zeta.
    replace (No * 1) with (1 * No) in Ey' by lia. replace (No * 2) with (2 * No) in Ez' by lia.
    assert (xo' = xo) by congruence. assert (yo' = yo) by congruence. assert (zo' = zo) by congruence.
    assert (dl' = dl) by congruence. clear Ex' Ey' Ez' Ed'. destruct H0, H1, H2, H3.
    pose proof (cl_points _ _ _ _ _ _ _ _ _ Hv ES Hp) as HS.
    assert (Lc : length (col nt n H) = Z.to_nat nt) by (destruct W; apply (length_col nt n No); auto).
    destruct (clear_local (N:=N) nt (col nt n H) Lc) as [_ L].
    specialize (L (firstn (Z.to_nat (n * nt)) H) (skipn (Z.to_nat (n * nt) + Z.to_nat nt) H)).
    unfold emb in L at 1. rewrite <- (col_split nt n H) in L. 
    assert (B : Z.of_nat (length (firstn (Z.to_nat (n * nt)) H)) = n * nt).
    { rewrite firstn_length. destruct W as [? ? _ _ _ _]; assert (0 <= n * nt) by nia; assert (n * nt <= No * nt) by nia; lia. }
    replace (0 + nt * n) with (n * nt) by lia.
    rewrite B in L. rewrite L. rewrite (clear_zeros nt _ Lc). cbn [rmap bind]. unfold emb.
    rewrite (run_loops_feed _ _ _ _ _ HS).
    pose proof (feed_cl_put nt pts Hr (firstn (Z.to_nat (n * nt)) H) (zeros nt)
      (skipn (Z.to_nat (n * nt) + Z.to_nat nt) H) err_none (repeat_length _ _)) as F.
    rewrite B in F. rewrite F. reflexivity.
  Qed.

  Lemma cl_items_points items : (forall n, In n items -> 0 <= n < No) ->
    (forall n xo yo zo dl, 0 <= n < No ->
       buf_get (j_Ro J) n = Ok xo -> buf_get (j_Ro J) (n + 1 * No) = Ok yo -> buf_get (j_Ro J) (n + 2 * No) = Ok zo ->
       buf_get (j_delay J) 0 = Ok dl ->
       exists pts, visited (j_fuel J) (j_T J) (j_q J) xo yo zo dl = Some pts /\
         Forall (fun c => exists z, sample_of c = Some z /\ -2^31 <= z < 2^31) pts) ->
    forall H, length H = Z.to_nat (No * nt) -> exists H', cl_items J items H = Ok H'.
  Proof.
    intros Hin Hp. induction items as [|m items IH]; intros H HL; cbn [cl_items]; [eauto|].
    assert (Hm : 0 <= m < No) by (apply Hin; left; reflexivity).
    destruct (cl_item_args m Hm) as (xo & yo & zo & dl & Sc & Ed & Ex & Ey & Ez & ES & _).
    replace (No * 1) with (1 * No) in Ey by lia. replace (No * 2) with (2 * No) in Ez by lia.
    destruct (Hp m xo yo zo dl Hm Ex Ey Ez Ed) as (pts & Hv' & Hr).
    rewrite (cl_item_points m H pts xo yo zo dl Hm HL Ex Ey Ez Ed Hv' Hr). cbn [bind].
    apply IH; [intros n Hn; apply Hin; right; exact Hn|].
    pose proof (wj_nt _ _ W). rewrite (length_set_col nt m No); auto.
    rewrite length_accumulate. unfold zeros. now rewrite repeat_length.
  Qed.
End Gpu.
