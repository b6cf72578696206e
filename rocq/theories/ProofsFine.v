(** ProofsFine.v - every interleaving of single accesses has the effect of an
    interleaving of whole observation points. *)
From Verif Require Import Base BaseLemmas ModelSir ModelArr ModelSmp ModelFine SpecFine ProofsLocal ProofsSmp.
From Coq Require Import ZifyBool ZifyNat.
Ltac Zify.zify_post_hook ::= Z.div_mod_to_equations.

Section Exec.
  Context {V : Type}.

  Fixpoint exec {A} (p : prog V A) (base : Z) (h : list V) : res (list V * A) :=
    match p with
    | Done a => Ok (h, a)
    | Fail u => UB u
    | Spin => Diverge
    | Read i k => do x <- buf_get h (base + i); exec (k x) base h
    | Write i v k => do h' <- buf_upd h (base + i) (fun _ => v); exec k base h'
    end.

  Fixpoint inside {A} (n : Z) (p : prog V A) : Prop :=
    match p with
    | Done _ | Fail _ | Spin => True
    | Read i k => 0 <= i < n /\ forall x, inside n (k x)
    | Write i _ k => 0 <= i < n /\ inside n k
    end.

  Lemma exec_len {A} (p : prog V A) base : forall h h' a, exec p base h = Ok (h', a) -> length h' = length h.
  Proof.
    induction p as [a0|u| |i k IH|i v k IH]; intros h h' a E; cbn [exec] in E; try discriminate.
    - injection E as <- _. reflexivity.
    - apply bind_Ok_inv in E as (x & _ & E). exact (IH x h h' a E).
    - apply bind_Ok_inv in E as (h1 & E1 & E). apply IH in E. rewrite E.
      apply buf_upd_inv in E1 as [_ ->]. apply length_upd.
  Qed.

  Lemma exec_bind {A B} (p : prog V A) (f : A -> prog V B) base : forall h,
    exec (pbind p f) base h = do r <- exec p base h; exec (f (snd r)) base (fst r).
  Proof.
    induction p as [a|u| |i k IH|i v k IH]; intros h; cbn [pbind exec]; try reflexivity.
    - destruct (buf_get h (base + i)); cbn [bind]; auto.
    - destruct (buf_upd h (base + i) _); cbn [bind]; auto.
  Qed.
  Lemma exec_pure {A} (r : res A) base h : exec (pure r) base h = rmap (fun a => (h, a)) r.
  Proof. destruct r; reflexivity. Qed.

  Lemma inside_bind {A B} n (p : prog V A) (f : A -> prog V B) :
    inside n p -> (forall a, inside n (f a)) -> inside n (pbind p f).
  Proof.
    intros Hp Hf. induction p as [a|u| |i k IH|i v k IH]; cbn [pbind inside] in *; auto.
    - destruct Hp as [Hi Hk]. split; [exact Hi|]. intros x. exact (IH x (Hk x)).
    - destruct Hp as [Hi Hk]. auto.
  Qed.
  Lemma inside_pure {A} n (r : res A) : inside n (pure r).
  Proof. destruct r; exact I. Qed.

  (** A program that stays inside its window behaves there as on a buffer of its own. *)
  Lemma exec_local {A} (p : prog V A) : forall pre c post, inside (Z.of_nat (length c)) p ->
    exec p (Z.of_nat (length pre)) (pre ++ c ++ post) = rmap (fun r => (pre ++ fst r ++ post, snd r)) (exec p 0 c).
  Proof.
    induction p as [a|u| |i k IH|i v k IH]; intros pre c post Hi; cbn [exec inside] in *; try reflexivity.
    - destruct Hi as [Hi Hk]. rewrite Z.add_0_l.
      assert (E : buf_get (pre ++ c ++ post) (Z.of_nat (length pre) + i) = buf_get c i).
      { unfold buf_get, in_range. rewrite !app_length.
        replace ((0 <=? Z.of_nat (length pre) + i) && _) with true by lia.
        replace ((0 <=? i) && _) with true by lia.
        rewrite nth_error_app2 by lia. rewrite nth_error_app1 by lia.
        replace (Z.to_nat (Z.of_nat (length pre) + i) - length pre)%nat with (Z.to_nat i) by lia.
        reflexivity. }
      rewrite E. destruct (buf_get c i) as [x|u|]; cbn [bind]; try reflexivity.
      apply IH. apply Hk.
    - destruct Hi as [Hi Hk]. rewrite Z.add_0_l. rewrite buf_upd_mid by lia.
      destruct (buf_upd c i (fun _ => v)) as [c'|u|] eqn:E; cbn [bind rmap]; try reflexivity.
      apply IH. apply buf_upd_inv in E as [_ ->]. rewrite length_upd. exact Hk.
  Qed.

  Lemma exec_col {A} (p : prog V A) nt No n H : 0 <= nt -> 0 <= n < No -> length H = Z.to_nat (No * nt) ->
    inside nt p ->
    exec p (n * nt) H = rmap (fun r => (set_col nt n (fst r) H, snd r)) (exec p 0 (col nt n H)).
  Proof.
    intros Hnt Hn HL Hp. rewrite (col_split nt n H) at 1.
    pose proof (length_col nt n No H Hnt Hn HL) as Lc.
    assert (Lp : Z.of_nat (length (firstn (Z.to_nat (n * nt)) H)) = n * nt).
    { rewrite firstn_length. nia. }
    rewrite <- Lp at 1. rewrite exec_local.
    - reflexivity.
    - rewrite Lc. replace (Z.of_nat (Z.to_nat nt)) with nt by lia. exact Hp.
  Qed.
End Exec.

Section Fine.
  Context {N : Num}.
  Local Notation buf := (list N).
  Local Notation st := (buf * SIRError)%type.
  Variables (nt No nthreads : Z) (pt : Z -> buf -> res st) (P : Z -> prog N SIRError).
  Hypothesis Hnt : 0 <= nt.
  Hypothesis HNo : 0 <= No.
  Hypothesis Hth : 1 <= nthreads.
  Hypothesis Hin : forall n, 0 <= n < No -> inside nt (P n).
  Hypothesis Hpt : forall n H, 0 <= n < No -> length H = Z.to_nat (No * nt) -> pt n H = exec (P n) (n * nt) H.

  Record TRel (Hf Hc : buf) (ft : fthread (N:=N)) (ct : thread) : Prop := {
    tr_n : f_n ft = t_n ct; tr_stop : f_stop ft = t_stop ct; tr_err : f_err ft = t_err ct;
    tr_lo : 0 <= f_n ft; tr_hi : f_stop ft <= No;
    tr_pc : match f_pc ft with
            | FHead => t_pc ct = PHead
            | FRun p => t_pc ct = PHead /\ f_n ft < f_stop ft /\ inside nt p /\
                        exec p 0 (col nt (f_n ft) Hf) = exec (P (f_n ft)) 0 (col nt (f_n ft) Hc)
            | FFlag e => t_pc ct = PFlag e
            | FCheck => t_pc ct = PCheck
            | FDone => t_pc ct = PDone
            end }.

  Record Rel (fs : fstate (N:=N)) (cs : gstate (N:=N)) : Prop := {
    rl_lf : length (f_H fs) = Z.to_nat (No * nt);
    rl_lc : length (g_H cs) = Z.to_nat (No * nt);
    rl_run : f_running fs = g_running cs;
    rl_num : length (f_threads fs) = length (g_threads cs);
    rl_t : forall i ft, nth_error (f_threads fs) i = Some ft ->
           exists ct, nth_error (g_threads cs) i = Some ct /\ TRel (f_H fs) (g_H cs) ft ct;
    rl_ord : forall i j fi fj, (i < j)%nat -> nth_error (f_threads fs) i = Some fi ->
             nth_error (f_threads fs) j = Some fj -> f_stop fi <= f_n fj;
    rl_cols : forall n, 0 <= n < No ->
             (forall i ft p, nth_error (f_threads fs) i = Some ft -> f_pc ft = FRun p -> f_n ft <> n) ->
             col nt n (f_H fs) = col nt n (g_H cs) }.

  Lemma rel_init H : length H = Z.to_nat (No * nt) -> Rel (finit No nthreads H) (init No nthreads H).
  Proof.
    intros HL. unfold finit, init. split; cbn [f_H g_H f_running g_running f_threads g_threads]; auto.
    - now rewrite !map_length.
    - intros i ft E. rewrite nth_error_map in E. rewrite nth_error_map.
      destruct (nth_error (seq 0 (Z.to_nat nthreads)) i) as [k|] eqn:Ek; [|discriminate].
      cbn in E. injection E as <-. eexists. split; [reflexivity|].
      apply nth_error_In in Ek as Hk. apply in_seq in Hk.
      pose proof (part_range No nthreads HNo Hth (Z.of_nat k) ltac:(lia)) as [R1 R2].
      split; cbn; auto.
    - intros i j fi fj Hij Ei Ej. rewrite nth_error_map in Ei, Ej.
      destruct (nth_error (seq 0 (Z.to_nat nthreads)) i) as [ki|] eqn:Eki; [|discriminate].
      destruct (nth_error (seq 0 (Z.to_nat nthreads)) j) as [kj|] eqn:Ekj; [|discriminate].
      cbn in Ei, Ej. injection Ei as <-. injection Ej as <-. cbn [f_stop f_n finit_thread].
      assert (L : forall a k, nth_error (seq 0 (Z.to_nat nthreads)) a = Some k -> k = a).
      { intros a k Ea. assert (La : (a < length (seq 0 (Z.to_nat nthreads)))%nat)
          by (apply nth_error_Some; rewrite Ea; discriminate).
        rewrite seq_length in La.
        pose proof (nth_error_nth _ _ 0%nat Ea) as En. rewrite seq_nth in En by exact La. lia. }
      apply L in Eki, Ekj. subst. rewrite part_stop_next. apply part_start_mono; lia.
  Qed.

  Lemma upd_nth {A} (l : list A) i (x : A) j : nth_error (upd l i (fun _ => x)) j =
    if Nat.eqb i j then option_map (fun _ => x) (nth_error l j) else nth_error l j.
  Proof. rewrite nth_error_upd. destruct (Nat.eqb i j) eqn:E; auto. Qed.

  (** Thread i makes a step; other columns are untouched. *)
  Lemma rel_upd fs cs i ft ft' ct' Hf' Hc' run' :
    Rel fs cs -> nth_error (f_threads fs) i = Some ft ->
    f_n ft <= f_n ft' -> f_stop ft' = f_stop ft ->
    length Hf' = Z.to_nat (No * nt) -> length Hc' = Z.to_nat (No * nt) ->
    (forall n, 0 <= n < No -> (n <> f_n ft \/ f_stop ft <= f_n ft) ->
       col nt n Hf' = col nt n (f_H fs) /\ col nt n Hc' = col nt n (g_H cs)) ->
    TRel Hf' Hc' ft' ct' ->
    (forall p, f_pc ft' = FRun p -> f_n ft' = f_n ft) ->
    ((forall p, f_pc ft' <> FRun p) -> f_n ft < f_stop ft -> col nt (f_n ft) Hf' = col nt (f_n ft) Hc') ->
    Rel {| f_H := Hf'; f_running := run'; f_threads := upd (f_threads fs) i (fun _ => ft') |}
        {| g_H := Hc'; g_running := run'; g_threads := upd (g_threads cs) i (fun _ => ct') |}.
  Proof.
    intros R Ei Hn Hs Lf Lc Fr T Hrun Hcol.
    destruct (rl_t fs cs R i ft Ei) as (ct & Ect & T0).
    split; cbn [f_H g_H f_running g_running f_threads g_threads]; auto.
    - rewrite !length_upd. apply (rl_num fs cs R).
    - intros j fj Ej. rewrite upd_nth in Ej. rewrite upd_nth. destruct (Nat.eqb_spec i j) as [<-|Hij].
      + rewrite Ei in Ej. cbn in Ej. injection Ej as <-. rewrite Ect. cbn. exists ct'. auto.
      + destruct (rl_t fs cs R j fj Ej) as (cj & Ecj & Tj). exists cj. split; [exact Ecj|].
        destruct Tj as [h1 h2 h3 h4 h5 h6]. split; auto.
        destruct (f_pc fj) as [|p|e| |]; auto. destruct h6 as (h6 & h7 & h8 & h9).
        split; [exact h6|]. split; [exact h7|]. split; [exact h8|].
        assert (Hne : f_n fj <> f_n ft \/ f_stop ft <= f_n ft).
        { destruct (Nat.lt_ge_cases i j) as [Hl|Hl].
          - pose proof (rl_ord fs cs R i j ft fj Hl Ei Ej).
            destruct (Z_lt_dec (f_n ft) (f_stop ft)); [left|right]; lia.
          - pose proof (rl_ord fs cs R j i fj ft ltac:(lia) Ej Ei). left. lia. }
        destruct (Fr (f_n fj) ltac:(lia) Hne) as [-> ->]. exact h9.
    - intros a b fa fb Hab Ea Eb. rewrite upd_nth in Ea, Eb.
      destruct (Nat.eqb_spec i a) as [<-|Ha]; destruct (Nat.eqb_spec i b) as [<-|Hb]; try lia.
      + rewrite Ei in Ea. cbn in Ea. injection Ea as <-. rewrite Hs. exact (rl_ord fs cs R i b ft fb Hab Ei Eb).
      + rewrite Ei in Eb. cbn in Eb. injection Eb as <-. pose proof (rl_ord fs cs R a i fa ft Hab Ea Ei). lia.
      + exact (rl_ord fs cs R a b fa fb Hab Ea Eb).
    - intros n Hn0 Hno.
      assert (Hmine : forall p, f_pc ft' = FRun p -> f_n ft' <> n).
      { intros p Ep. apply (Hno i ft' p); [|exact Ep]. rewrite upd_nth, Nat.eqb_refl, Ei. reflexivity. }
      assert (Hoth : forall j fj p, j <> i -> nth_error (f_threads fs) j = Some fj -> f_pc fj = FRun p -> f_n fj <> n).
      { intros j fj p Hj Ej Ep. apply (Hno j fj p); [|exact Ep]. rewrite upd_nth.
        destruct (Nat.eqb_spec i j); [congruence|exact Ej]. }
      assert (Hd : (n = f_n ft /\ f_n ft < f_stop ft) \/ (n <> f_n ft \/ f_stop ft <= f_n ft)) by lia.
      destruct Hd as [[-> Hlt]|Hne].
      + apply Hcol; [|exact Hlt]. intros p Ep. apply (Hmine p Ep). exact (Hrun p Ep).
      + destruct (Fr n Hn0 Hne) as [-> ->]. apply (rl_cols fs cs R n Hn0).
        intros j fj p Ej Ep. destruct (Nat.eq_dec j i) as [->|Hj].
        * rewrite Ei in Ej. injection Ej as <-. pose proof (tr_pc _ _ _ _ T0) as Hpc. rewrite Ep in Hpc. lia.
        * exact (Hoth j fj p Hj Ej Ep).
  Qed.

  Lemma gsteps_app l1 : forall l2 (s : gstate (N:=N)), gsteps pt s (l1 ++ l2) = do s' <- gsteps pt s l1; gsteps pt s' l2.
  Proof.
    induction l1 as [|e l1 IH]; intros l2 s; cbn [app gsteps bind]; auto.
    destruct (gstep pt s e); cbn [bind]; auto.
  Qed.

  Definition follows (cs : gstate (N:=N)) (r : res (fstate (N:=N))) : Prop :=
    match r with
    | Ok fs => exists l cs', gsteps pt cs l = Ok cs' /\ Rel fs cs'
    | UB u => exists l, gsteps pt cs l = UB u
    | Diverge => exists l, gsteps pt cs l = Diverge
    end.

  (** Columns of a matrix one element of which has been stored. *)
  Lemma write_cols (H : buf) n i v : 0 <= n < No -> 0 <= i < nt -> length H = Z.to_nat (No * nt) ->
    exists H', buf_upd H (n * nt + i) (fun _ => v) = Ok H' /\ length H' = length H /\
      buf_upd (col nt n H) i (fun _ => v) = Ok (col nt n H') /\
      forall m, 0 <= m < No -> m <> n -> col nt m H' = col nt m H.
  Proof.
    intros Hn Hi HL. pose proof (length_col nt n No H Hnt Hn HL) as Lc.
    pose proof (exec_col (Write i v (Done tt)) nt No n H Hnt Hn HL ltac:(cbn; auto)) as E.
    cbn [exec] in E. rewrite Z.add_0_l in E.
    rewrite (buf_upd_ok (col nt n H) i) in E by lia. cbn [bind rmap fst snd] in E.
    set (c' := upd (col nt n H) (Z.to_nat i) (fun _ => v)) in *.
    assert (Lc' : length c' = Z.to_nat nt) by (unfold c'; rewrite length_upd; exact Lc).
    exists (set_col nt n c' H).
    destruct (buf_upd H (n * nt + i) (fun _ => v)) as [H'|u|]; cbn [bind] in E; try discriminate.
    injection E as ->. split; [reflexivity|]. split; [exact (length_set_col nt n No c' H Hnt Hn HL Lc')|].
    split.
    - rewrite (col_set_same nt n No c' H Hnt Hn HL Lc'). apply buf_upd_ok. lia.
    - intros m Hm Hne. exact (col_set_other nt n m No c' H Hnt Hn Hm (fun E => Hne (eq_sym E)) HL Lc').
  Qed.
  Lemma read_col (H : buf) n i : 0 <= n < No -> 0 <= i < nt -> length H = Z.to_nat (No * nt) ->
    exists x, buf_get H (n * nt + i) = Ok x /\ buf_get (col nt n H) i = Ok x.
  Proof.
    intros Hn Hi HL. pose proof (length_col nt n No H Hnt Hn HL) as Lc.
    pose proof (exec_col (Read i (fun x : N => Done x)) nt No n H Hnt Hn HL ltac:(cbn; auto)) as E.
    cbn [exec] in E. rewrite Z.add_0_l in E.
    destruct (buf_get_ok (col nt n H) i ltac:(lia)) as (x & _ & Ex). rewrite Ex in *. cbn [bind rmap fst snd] in E.
    exists x. split; [|reflexivity].
    destruct (buf_get H (n * nt + i)) as [y|u|]; cbn [bind] in E; try discriminate.
    injection E as _ ->. reflexivity.
  Qed.

  Ltac fin := cbn [f_n f_stop f_err f_pc t_n t_stop t_err t_pc].

  Lemma step_follows fs cs e : Rel fs cs -> follows cs (fstep nt P fs e).
  Proof.
    intros R. destruct e as [i|].
    2:{ cbn [fstep follows]. exists [CtrlC]. eexists. split; [reflexivity|].
        destruct R; split; cbn [f_H g_H f_running g_running f_threads g_threads]; auto. }
    cbn [fstep]. destruct (nth_error (f_threads fs) i) as [ft|] eqn:Ei.
    2:{ cbn [follows]. exists [], cs. split; [reflexivity|exact R]. }
    destruct (rl_t fs cs R i ft Ei) as (ct & Ect & T).
    pose proof (rl_run fs cs R) as Er. pose proof (rl_lf fs cs R) as Lf. pose proof (rl_lc fs cs R) as Lc.
    (* one coarse step of the same worker *)
    assert (G1 : forall H' r' t', thread_step pt (g_H cs) (g_running cs) ct = Ok (H', r', t') ->
              gsteps pt cs [Run i] = Ok {| g_H := H'; g_running := r'; g_threads := upd (g_threads cs) i (fun _ => t') |}).
    { intros H' r' t' E. cbn [gsteps gstep]. rewrite Ect, E. reflexivity. }
    assert (Hself : cs = {| g_H := g_H cs; g_running := g_running cs; g_threads := upd (g_threads cs) i (fun _ => ct) |}).
    { destruct cs as [h r ts]. cbn [g_H g_running g_threads] in *. f_equal.
      apply nth_error_ext. intros j. rewrite upd_nth. destruct (Nat.eqb_spec i j) as [<-|]; auto. now rewrite Ect. }
    assert (Same : forall n, 0 <= n < No -> (n <> f_n ft \/ f_stop ft <= f_n ft) ->
              col nt n (f_H fs) = col nt n (f_H fs) /\ col nt n (g_H cs) = col nt n (g_H cs)) by auto.
    assert (Idle : forall p', f_pc ft = p' -> (forall p, p' <> FRun p) -> f_n ft < f_stop ft ->
              col nt (f_n ft) (f_H fs) = col nt (f_n ft) (g_H cs)).
    { intros p' Ep' Hp' Hlt. apply (rl_cols fs cs R).
      - destruct T; lia.
      - intros j fj p Ej Ep. destruct (Nat.eq_dec j i) as [->|Hj].
        + rewrite Ei in Ej. injection Ej as <-. exfalso. apply (Hp' p). congruence.
        + destruct (rl_t fs cs R j fj Ej) as (cj & _ & Tj). pose proof (tr_pc _ _ _ _ Tj) as Hpc.
          rewrite Ep in Hpc. destruct (Nat.lt_ge_cases i j) as [Hl|Hl].
          * pose proof (rl_ord fs cs R i j ft fj Hl Ei Ej). lia.
          * pose proof (rl_ord fs cs R j i fj ft ltac:(lia) Ej Ei). lia. }
    destruct T as [T1 T2 T3 T4 T5 T6]. unfold fthread_step.
    destruct (f_pc ft) as [|p|e| |] eqn:Epc.
    - (* loop head *)
      destruct (Z.ltb_spec (f_n ft) (f_stop ft)) as [Hlt|Hge]; cbn [bind follows].
      + exists [], cs. split; [reflexivity|]. rewrite Hself at 1. rewrite <- Er.
        apply (rel_upd fs cs i ft); fin; auto; try lia.
        * split; fin; auto. split; [exact T6|]. split; [exact Hlt|]. split; [apply Hin; lia|].
          rewrite (Idle FHead); auto; discriminate.
        * intros Hp. exfalso. apply (Hp _ eq_refl).
      + exists [Run i]. eexists. split.
        * apply G1. unfold thread_step. rewrite T6, <- T1, <- T2.
          destruct (Z.ltb_spec (f_n ft) (f_stop ft)); [lia|]. reflexivity.
        * rewrite <- Er. apply (rel_upd fs cs i ft); fin; auto; try lia; try discriminate.
          split; fin; auto.
    - (* inside the serial function *)
      destruct T6 as (T6 & Hlt & Hip & Hex).
      assert (Hn : 0 <= f_n ft < No) by lia.
      destruct p as [err|u| |a k|a v k].
      + cbn [exec] in Hex. cbn [bind follows].
        assert (Ept : pt (t_n ct) (g_H cs) = Ok (set_col nt (f_n ft) (col nt (f_n ft) (f_H fs)) (g_H cs), err)).
        { rewrite <- T1, Hpt by assumption. rewrite (exec_col _ nt No) by (auto; apply Hin; auto).
          rewrite <- Hex. reflexivity. }
        pose proof (length_col nt (f_n ft) No (f_H fs) Hnt Hn Lf) as Lcf.
        exists [Run i]. eexists. split.
        * apply G1. unfold thread_step. rewrite T6, <- T2.
          destruct (Z.ltb_spec (t_n ct) (f_stop ft)); [|lia]. rewrite Ept. cbn [bind]. reflexivity.
        * rewrite <- Er. apply (rel_upd fs cs i ft); fin; auto; try lia; try discriminate.
          -- rewrite (length_set_col nt (f_n ft) No); auto.
          -- intros n Hn0 Hne. split; [reflexivity|]. apply (col_set_other nt (f_n ft) n No); auto.
             destruct Hne; [auto|lia].
          -- split; fin; auto. rewrite T3. reflexivity.
          -- intros _ _. symmetry. apply (col_set_same nt (f_n ft) No); auto.
      + cbn [bind follows]. exists [Run i]. cbn [gsteps gstep]. rewrite Ect. unfold thread_step.
        rewrite T6, <- T1, <- T2. destruct (Z.ltb_spec (f_n ft) (f_stop ft)); [|lia].
        rewrite Hpt by assumption. rewrite (exec_col _ nt No) by (auto; apply Hin; auto).
        rewrite <- Hex. reflexivity.
      + cbn [bind follows]. exists [Run i]. cbn [gsteps gstep]. rewrite Ect. unfold thread_step.
        rewrite T6, <- T1, <- T2. destruct (Z.ltb_spec (f_n ft) (f_stop ft)); [|lia].
        rewrite Hpt by assumption. rewrite (exec_col _ nt No) by (auto; apply Hin; auto).
        rewrite <- Hex. reflexivity.
      + cbn [inside] in Hip. destruct Hip as [Ha Hk].
        destruct (read_col (f_H fs) (f_n ft) a Hn Ha Lf) as (x & Ex & Exc).
        rewrite Ex. cbn [bind follows]. exists [], cs. split; [reflexivity|]. rewrite Hself at 1. rewrite <- Er.
        apply (rel_upd fs cs i ft); fin; auto; try lia.
        * split; fin; auto. split; [exact T6|]. split; [exact Hlt|]. split; [apply Hk|].
          cbn [exec] in Hex. rewrite Z.add_0_l, Exc in Hex. exact Hex.
        * intros Hp. exfalso. apply (Hp _ eq_refl).
      + cbn [inside] in Hip. destruct Hip as [Ha Hk].
        destruct (write_cols (f_H fs) (f_n ft) a v Hn Ha Lf) as (H' & EH & LH & Ec & Eo).
        rewrite EH. cbn [bind follows]. exists [], cs. split; [reflexivity|]. rewrite Hself at 1. rewrite <- Er.
        apply (rel_upd fs cs i ft); fin; auto; try lia.
        * intros n Hn0 Hne. split; [|reflexivity]. apply Eo; auto. destruct Hne; [auto|lia].
        * split; fin; auto. split; [exact T6|]. split; [exact Hlt|]. split; [exact Hk|].
          cbn [exec] in Hex. rewrite Z.add_0_l, Ec in Hex. exact Hex.
        * intros Hp. exfalso. apply (Hp _ eq_refl).
    - (* flag *)
      cbn [bind follows]. exists [Run i]. eexists. split.
      + apply G1. unfold thread_step. rewrite T6. reflexivity.
      + rewrite <- Er. apply (rel_upd fs cs i ft); fin; auto; try lia; try discriminate.
        * split; fin; auto.
        * intros _ Hlt. apply (Idle (FFlag e)); auto; discriminate.
    - (* check *)
      rewrite Er. destruct (g_running cs) eqn:Eg; cbn [bind follows]; exists [Run i]; eexists; (split;
        [apply G1; unfold thread_step; rewrite T6; reflexivity|]).
      + apply (rel_upd fs cs i ft); fin; auto; try lia; try discriminate.
        * split; fin; auto; lia.
        * intros _ Hlt. apply (Idle FCheck); auto; discriminate.
      + apply (rel_upd fs cs i ft); fin; auto; try lia; try discriminate.
        * split; fin; auto.
        * intros _ Hlt. apply (Idle FCheck); auto; discriminate.
    - (* done *)
      cbn [bind follows]. exists [], cs. split; [reflexivity|]. rewrite Hself at 1. rewrite <- Er.
      apply (rel_upd fs cs i ft); auto; try lia; try discriminate.
      + split; auto. rewrite Epc. exact T6.
      + intros _ Hlt. apply (Idle FDone); auto; discriminate.
  Qed.

  Lemma steps_follow sch : forall fs cs, Rel fs cs -> follows cs (fsteps nt P fs sch).
  Proof.
    induction sch as [|e sch IH]; intros fs cs R; cbn [fsteps].
    - exists [], cs. split; [reflexivity|exact R].
    - pose proof (step_follows fs cs e R) as S.
      destruct (fstep nt P fs e) as [fs'|u|]; cbn [bind follows] in *; auto.
      destruct S as (l & cs' & E & R'). specialize (IH fs' cs' R').
      destruct (fsteps nt P fs' sch) as [fs''|u|]; cbn [follows] in *.
      + destruct IH as (l2 & cs'' & E2 & R2). exists (l ++ l2), cs''. split; [|exact R2].
        rewrite gsteps_app, E. exact E2.
      + destruct IH as (l2 & E2). exists (l ++ l2). rewrite gsteps_app, E. exact E2.
      + destruct IH as (l2 & E2). exists (l ++ l2). rewrite gsteps_app, E. exact E2.
  Qed.

  (** When all workers have finished the two states are the same. *)
  Lemma rel_done fs cs : Rel fs cs -> f_all_done fs = true ->
    all_done cs = true /\ g_H cs = f_H fs /\ g_running cs = f_running fs /\ g_threads cs = map f_result (f_threads fs).
  Proof.
    intros R D. unfold f_all_done in D. rewrite forallb_forall in D.
    assert (Dn : forall i ft, nth_error (f_threads fs) i = Some ft -> f_pc ft = FDone).
    { intros i ft E. pose proof (D ft (nth_error_In _ _ E)) as Hd. unfold f_is_done in Hd.
      destruct (f_pc ft); try discriminate. reflexivity. }
    assert (Et : g_threads cs = map f_result (f_threads fs)).
    { apply nth_error_ext. intros i. rewrite nth_error_map.
      destruct (nth_error (f_threads fs) i) as [ft|] eqn:E.
      - destruct (rl_t fs cs R i ft E) as (ct & -> & [T1 T2 T3 _ _ T6]). rewrite (Dn i ft E) in T6. cbn.
        unfold f_result. destruct ct as [pc n s e]. cbn in *. congruence.
      - cbn. apply nth_error_None. rewrite <- (rl_num fs cs R). apply nth_error_None. exact E. }
    split; [|split; [|split; [symmetry; exact (rl_run fs cs R)|exact Et]]].
    - unfold all_done. rewrite Et. apply forallb_forall. intros t Ht. apply in_map_iff in Ht as (ft & <- & _). reflexivity.
    - apply (cols_ext nt No); auto.
      + exact (rl_lf fs cs R).
      + rewrite (rl_lc fs cs R), (rl_lf fs cs R). reflexivity.
      + intros n Hn. symmetry. apply (rl_cols fs cs R n Hn). intros i ft p E Ep. rewrite (Dn i ft E) in Ep. discriminate.
  Qed.

  (** No two workers are ever about to access the same element. *)
  Lemma rel_no_conflict fs cs : Rel fs cs -> ~ conflict nt fs.
  Proof.
    intros R (i & j & ti & tj & a & Hij & Ei & Ej & Ai & Aj).
    assert (W : forall k t, nth_error (f_threads fs) k = Some t -> next_access nt t = Some a ->
              f_n t < f_stop t /\ f_n t * nt <= a < (f_n t + 1) * nt).
    { intros k t E A. destruct (rl_t fs cs R k t E) as (ct & _ & T). destruct T as [_ _ _ _ _ T6].
      unfold next_access in A. destruct (f_pc t) as [|p|e| |]; try discriminate.
      destruct T6 as (_ & Hlt & Hip & _). destruct p; try discriminate; injection A as <-;
        cbn [inside] in Hip; destruct Hip as [Hi _]; split; lia. }
    destruct (W i ti Ei Ai) as [Li Wi]. destruct (W j tj Ej Aj) as [Lj Wj].
    assert (f_n ti <> f_n tj).
    { destruct (Nat.lt_ge_cases i j) as [Hl|Hl].
      - pose proof (rl_ord fs cs R i j ti tj Hl Ei Ej). lia.
      - pose proof (rl_ord fs cs R j i tj ti ltac:(lia) Ej Ei). lia. }
    nia.
  Qed.

  Lemma fine_done sch H fs : length H = Z.to_nat (No * nt) ->
    fsteps nt P (finit No nthreads H) sch = Ok fs -> f_all_done fs = true ->
    exists sch' cs, gsteps pt (init No nthreads H) sch' = Ok cs /\
      all_done cs = true /\ g_H cs = f_H fs /\ g_running cs = f_running fs /\ g_threads cs = map f_result (f_threads fs).
  Proof.
    intros HL E D. pose proof (steps_follow sch _ _ (rel_init H HL)) as F. rewrite E in F.
    destruct F as (l & cs & El & R). exists l, cs. split; [exact El|]. exact (rel_done fs cs R D).
  Qed.
  Lemma fine_fails sch H : length H = Z.to_nat (No * nt) ->
    (forall u, fsteps nt P (finit No nthreads H) sch = UB u -> exists sch', gsteps pt (init No nthreads H) sch' = UB u) /\
    (fsteps nt P (finit No nthreads H) sch = Diverge -> exists sch', gsteps pt (init No nthreads H) sch' = Diverge).
  Proof.
    intros HL. pose proof (steps_follow sch _ _ (rel_init H HL)) as F. split.
    - intros u E. rewrite E in F. exact F.
    - intros E. rewrite E in F. exact F.
  Qed.
  Lemma fine_race sch H fs : length H = Z.to_nat (No * nt) ->
    fsteps nt P (finit No nthreads H) sch = Ok fs -> ~ conflict nt fs.
  Proof.
    intros HL E. pose proof (steps_follow sch _ _ (rel_init H HL)) as F. rewrite E in F.
    destruct F as (l & cs & El & R). exact (rel_no_conflict fs cs R).
  Qed.
End Fine.
