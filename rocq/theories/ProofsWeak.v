(** ProofsWeak.v - every execution with delayed stores and late flag reads has
    the outcome of an execution without. *)
From Verif Require Import Base BaseLemmas ModelSir ModelArr ModelSmp ModelDas ModelConv ModelCgw ModelFine ModelWeak SpecSmp SpecConv SpecFine3 SpecWeak ProofsLocal ProofsSmp ProofsFine ProofsFine5 ProofsFine6.
From Coq Require Import ZifyBool ZifyNat.
Ltac Zify.zify_post_hook ::= Z.div_mod_to_equations.

Section Seen.
  Context {N : Num}.
  Local Notation buf := (list N).
  Lemma take_seen k : forall (b : list (Z * N)) a v b', take_out k b = Some (a, v, b') ->
    forall x y, seen b x y = seen b' x (if (x =? a)%Z then v else y).
  Proof.
    induction k as [|k IH]; intros [|[a0 v0] b] a v b' E x y; cbn [take_out] in E; try discriminate.
    - injection E as -> -> ->. reflexivity.
    - destruct (take_out k b) as [[[a' v'] b'']|] eqn:Et; [|discriminate].
      destruct (a' =? a0)%Z eqn:Ea; [discriminate|]. injection E as -> -> <-. cbn [seen].
      rewrite (IH _ _ _ _ Et). f_equal. destruct (x =? a0)%Z eqn:E1, (x =? a)%Z eqn:E2; try reflexivity. lia.
  Qed.
  Lemma take_in k : forall (b : list (Z * N)) a v b', take_out k b = Some (a, v, b') ->
    In (a, v) b /\ forall q, In q b' -> In q b.
  Proof.
    induction k as [|k IH]; intros [|[a0 v0] b] a v b' E; cbn [take_out] in E; try discriminate.
    - injection E as -> -> ->. split; [now left|now right].
    - destruct (take_out k b) as [[[a' v'] b'']|] eqn:Et; [|discriminate].
      destruct (a' =? a0)%Z eqn:Ea; [discriminate|]. injection E as -> -> <-.
      destruct (IH _ _ _ _ Et) as [H1 H2]. split; [now right|]. intros q [H|H]; [now left|right; auto].
  Qed.
  Lemma take_len k : forall (b : list (Z * N)) a v b', take_out k b = Some (a, v, b') -> length b = S (length b').
  Proof.
    induction k as [|k IH]; intros [|[a0 v0] b] a v b' E; cbn [take_out] in E; try discriminate.
    - injection E as -> -> ->. reflexivity.
    - destruct (take_out k b) as [[[a' v'] b'']|] eqn:Et; [|discriminate].
      destruct (a' =? a0)%Z eqn:Ea; [discriminate|]. injection E as -> -> <-. cbn. f_equal. exact (IH _ _ _ _ Et).
  Qed.
  Lemma seen_snoc (b : list (Z * N)) a v x y : seen (b ++ [(a, v)]) x y = if (x =? a)%Z then v else seen b x y.
  Proof. revert y; induction b as [|[a0 v0] b IH]; intros y; cbn [app seen]; [reflexivity|apply IH]. Qed.
  Lemma seen_not_in (b : list (Z * N)) x y : (forall v, ~ In (x, v) b) -> seen b x y = y.
  Proof.
    revert y; induction b as [|[a0 v0] b IH]; intros y H; cbn [seen]; [reflexivity|].
    rewrite IH by (intros v Hv; apply (H v); now right). destruct (x =? a0)%Z eqn:E; [|reflexivity].
    exfalso. apply (H v0). left. f_equal. lia.
  Qed.
End Seen.

Lemma nth_upd_ne {A} (l : list A) i j f d : i <> j -> nth j (upd l i f) d = nth j l d.
Proof. revert i j; induction l as [|a l IH]; intros [|i] [|j] H; cbn; auto; try lia; try congruence. Qed.
Lemma nth_upd_eq {A} (l : list A) i f d : (i < length l)%nat -> nth i (upd l i f) d = f (nth i l d).
Proof. revert i; induction l as [|a l IH]; intros [|i] H; cbn in *; auto; try lia. apply IH. lia. Qed.

Lemma upd_same {A} (l : list A) i x f : nth_error l i = Some x -> nth_error (upd l i f) i = Some (f x).
Proof. revert i; induction l as [|a l IH]; intros [|i] H; cbn in *; try discriminate; [congruence|auto]. Qed.
Lemma upd_other {A} (l : list A) i j f : i <> j -> nth_error (upd l i f) j = nth_error l j.
Proof. revert i j; induction l as [|a l IH]; intros [|i] [|j] H; cbn; auto; try lia; try congruence. Qed.

Section Sim.
  Context {N : Num}.
  Local Notation buf := (list N).
  Variables (len No nthreads : Z) (P : Z -> prog N SIRError).
  Hypothesis Hl : 0 <= len.
  Hypothesis HNo : 0 <= No.
  Hypothesis Hth : 1 <= nthreads.

  Definition own (i : nat) (a : Z) : Prop :=
    part_start (Z.of_nat i) No nthreads * len <= a < part_stop (Z.of_nat i) No nthreads * len.
  Lemma own_range i a : (i < Z.to_nat nthreads)%nat -> own i a -> 0 <= a < No * len.
  Proof. intros Hi [H1 H2]. pose proof (part_range No nthreads HNo Hth (Z.of_nat i)). nia. Qed.
  Lemma own_disjoint i j a : i <> j -> own i a -> own j a -> False.
  Proof.
    intros Hne [H1 H2] [H3 H4].
    pose proof (part_stop_next No nthreads (Z.of_nat i)) as E1. pose proof (part_stop_next No nthreads (Z.of_nat j)) as E2.
    destruct (Nat.lt_ge_cases i j).
    - pose proof (part_start_mono No nthreads HNo Hth (Z.of_nat i + 1) (Z.of_nat j)). rewrite E1 in *. nia.
    - pose proof (part_start_mono No nthreads HNo Hth (Z.of_nat j + 1) (Z.of_nat i)). rewrite E2 in *. nia.
  Qed.

  (** The executed worker [t] stands still where worker [w] goes on after the
      flag has been cleared. *)
  Inductive link (running : bool) (w : wthread (N:=N)) (t : fthread (N:=N)) : Prop :=
  | l_same : t = w_t w -> w_knows w = false -> link running w t
  | l_flag : running = false -> w_knows w = true -> f_pc t = FFlag err_oob ->
      (f_pc (w_t w) = FCheck \/ f_pc (w_t w) = FDone) ->
      f_n (w_t w) = f_n t -> f_stop (w_t w) = f_stop t -> f_err (w_t w) = f_err t -> link running w t
  | l_check : running = false -> w_knows w = false -> f_pc t = FCheck -> f_pc (w_t w) = FDone ->
      f_n (w_t w) = f_n t -> f_stop (w_t w) = f_stop t -> f_err (w_t w) = f_err t -> link running w t.

  Definition at_work (pc : fpc (N:=N)) : bool := match pc with FHead | FDone => false | _ => true end.
  Record place (i : nat) (t : fthread (N:=N)) : Prop := {
    p_stop : f_stop t = part_stop (Z.of_nat i) No nthreads;
    p_lo : part_start (Z.of_nat i) No nthreads <= f_n t;
    p_hi : f_n t <= f_stop t;
    p_in : at_work (f_pc t) = true -> f_n t < f_stop t;
    p_prog : match f_pc t with FRun p => inside len p | _ => True end }.

  Record sim (ctrlc : bool) (w : wstate (N:=N)) (s : fstate (N:=N)) : Prop := {
    s_on : f_running s = true;
    s_nw : length (w_threads w) = Z.to_nat nthreads;
    s_nf : length (f_threads s) = Z.to_nat nthreads;
    s_lw : length (w_H w) = Z.to_nat (No * len);
    s_lf : length (f_H s) = Z.to_nat (No * len);
    s_thread : forall i wt t, nth_error (w_threads w) i = Some wt -> nth_error (f_threads s) i = Some t ->
      link (w_running w) wt t /\ place i t /\ (forall a v, In (a, v) (w_buf wt) -> own i a) /\
      forall a, own i a -> nth (Z.to_nat a) (f_H s) (nofZ 0) = seen (w_buf wt) a (nth (Z.to_nat a) (w_H w) (nofZ 0));
    s_off : w_running w = false -> ctrlc = true \/
      exists i wt t, nth_error (w_threads w) i = Some wt /\ nth_error (f_threads s) i = Some t /\ w_knows wt = true;
    s_c : ctrlc = true -> w_running w = false }.

  Lemma fsteps_app s l1 l2 : fsteps len P s (l1 ++ l2) = do s' <- fsteps len P s l1; fsteps len P s' l2.
  Proof. revert s; induction l1 as [|e l1 IH]; intros s; cbn [app fsteps]; [reflexivity|]. destruct (fstep len P s e); cbn [bind]; auto. Qed.
  Lemma get_in (H : buf) a : 0 <= a < Z.of_nat (length H) -> buf_get H a = Ok (nth (Z.to_nat a) H (nofZ 0)).
  Proof.
    intros Ha. destruct (buf_get_ok H a Ha) as (x & E & ->). f_equal. symmetry. now apply nth_error_nth.
  Qed.
  Lemma link_mono r r' wt t : link r wt t -> r' = r \/ r' = false -> link r' wt t.
  Proof.
    intros [] Hr; [now apply l_same|apply l_flag; auto|apply l_check; auto]; destruct Hr; congruence.
  Qed.
  Lemma own_here i t j : place i t -> f_n t < f_stop t -> 0 <= j < len -> own i (f_n t * len + j).
  Proof. intros [E1 E2 E3 _ _] H Hj. unfold own. rewrite E1 in *. nia. Qed.

  Lemma nth_ex {A} (l : list A) i : (i < length l)%nat -> exists x, nth_error l i = Some x.
  Proof. intros H. destruct (nth_error l i) as [x|] eqn:E; [eauto|]. apply nth_error_None in E. lia. Qed.
  Lemma nth_lt {A} (l : list A) i x : nth_error l i = Some x -> (i < length l)%nat.
  Proof. intros H. apply nth_error_Some. congruence. Qed.
  Lemma twin c w s i wt : sim c w s -> nth_error (w_threads w) i = Some wt -> exists t, nth_error (f_threads s) i = Some t.
  Proof. intros S H. apply nth_ex. rewrite (s_nf _ _ _ S), <- (s_nw _ _ _ S). exact (nth_lt _ _ _ H). Qed.

  (** One worker moves. *)
  Lemma put c w s i wt t wt' t' run' Hf' : sim c w s ->
    nth_error (w_threads w) i = Some wt -> nth_error (f_threads s) i = Some t ->
    run' = w_running w \/ run' = false ->
    link run' wt' t' -> place i t' -> (forall a v, In (a, v) (w_buf wt') -> own i a) ->
    length Hf' = length (f_H s) ->
    (forall a, own i a -> nth (Z.to_nat a) Hf' (nofZ 0) = seen (w_buf wt') a (nth (Z.to_nat a) (w_H w) (nofZ 0))) ->
    (forall j a, j <> i -> (j < Z.to_nat nthreads)%nat -> own j a -> nth (Z.to_nat a) Hf' (nofZ 0) = nth (Z.to_nat a) (f_H s) (nofZ 0)) ->
    (run' = false -> (w_running w = false /\ (w_knows wt = true -> w_knows wt' = true)) \/ w_knows wt' = true) ->
    sim c {| w_H := w_H w; w_running := run'; w_threads := upd (w_threads w) i (fun _ => wt') |}
          {| f_H := Hf'; f_running := true; f_threads := upd (f_threads s) i (fun _ => t') |}.
  Proof.
    intros S Ew Et Hr Hlk Hpl Hbf HlH Hown Hoth Hkn. pose proof S as [A1 A2 A3 A4 A5 A6 A7 A8].
    split; cbn [w_H w_running w_threads f_H f_running f_threads]; rewrite ?length_upd; try congruence.
    - intros j wj tj Hwj Htj. destruct (Nat.eq_dec i j) as [<-|Hne].
      + rewrite (upd_same _ _ _ _ Ew) in Hwj. rewrite (upd_same _ _ _ _ Et) in Htj. injection Hwj as <-. injection Htj as <-. auto.
      + rewrite upd_other in Hwj by exact Hne. rewrite upd_other in Htj by exact Hne.
        destruct (A6 j wj tj Hwj Htj) as (B1 & B2 & B3 & B4). split; [exact (link_mono _ _ _ _ B1 Hr)|]. split; [exact B2|]. split; [exact B3|].
        intros a Ha. rewrite (Hoth j a) by (auto; rewrite <- A2; exact (nth_lt _ _ _ Hwj)). auto.
    - intros Hf. destruct (Hkn Hf) as [[K1 K2]|K].
      + destruct (A7 K1) as [->|(j & wj & tj & J1 & J2 & J3)]; [now left|]. right.
        destruct (Nat.eq_dec i j) as [<-|Hne].
        * exists i, wt', t'. rewrite (upd_same _ _ _ _ Ew), (upd_same _ _ _ _ Et). split; [reflexivity|]. split; [reflexivity|].
          apply K2. rewrite Ew in J1. injection J1 as <-. exact J3.
        * exists j, wj, tj. rewrite !upd_other by exact Hne. auto.
      + right. exists i, wt', t'. rewrite (upd_same _ _ _ _ Ew), (upd_same _ _ _ _ Et). auto.
    - intros Hc. specialize (A8 Hc). destruct Hr; congruence.
  Qed.

  Lemma step_run s i t H' t' : nth_error (f_threads s) i = Some t ->
    fthread_step len P (f_H s) (f_running s) t = Ok (H', f_running s, t') ->
    fsteps len P s [Run i] = Ok {| f_H := H'; f_running := f_running s; f_threads := upd (f_threads s) i (fun _ => t') |}.
  Proof. intros E1 E2. cbn [fsteps fstep]. rewrite E1, E2. reflexivity. Qed.

  Definition is_wctrlc (e : wevent) : bool := match e with WCtrlC => true | _ => false end.
  Definition b2z (b : bool) : Z := if b then 1 else 0.

  Lemma upd_id {A} (l : list A) i x : nth_error l i = Some x -> upd l i (fun _ => x) = l.
  Proof. revert i; induction l as [|a l IH]; intros [|i] H; cbn in *; try discriminate; [congruence|f_equal; auto]. Qed.
  Lemma eta_w (w : wstate (N:=N)) : w = {| w_H := w_H w; w_running := w_running w; w_threads := w_threads w |}.
  Proof. now destruct w. Qed.
  Lemma eta_f (s : fstate (N:=N)) : s = {| f_H := f_H s; f_running := f_running s; f_threads := f_threads s |}.
  Proof. now destruct s. Qed.

  (** What worker i counts as: [l] is what the execution without delays does. *)
  Definition counted (w w' : wstate (N:=N)) (e : wevent) (l : list event) : Prop :=
    forall j wj', nth_error (w_threads w') j = Some wj' -> f_pc (w_t wj') <> FDone ->
      exists wj, nth_error (w_threads w) j = Some wj /\ f_pc (w_t wj) <> FDone /\
        wsteps_of j [e] + b2z (w_knows wj) <= steps_of j l + b2z (w_knows wj').
  Lemma counted_run w i late run' wt wt' l : nth_error (w_threads w) i = Some wt ->
    (forall j, j <> i -> steps_of j l = 0) ->
    (f_pc (w_t wt') <> FDone -> f_pc (w_t wt) <> FDone /\ 1 + b2z (w_knows wt) <= steps_of i l + b2z (w_knows wt')) ->
    counted w {| w_H := w_H w; w_running := run'; w_threads := upd (w_threads w) i (fun _ => wt') |} (WRun i late) l.
  Proof.
    intros Ew Hl0 H j wj' Hj Hd. cbn [w_threads] in Hj. destruct (Nat.eq_dec i j) as [<-|Hne].
    - rewrite (upd_same _ _ _ _ Ew) in Hj. injection Hj as <-. exists wt. split; [exact Ew|].
      destruct (H Hd) as [H1 H2]. split; [exact H1|]. unfold wsteps_of. cbn [filter]. rewrite Nat.eqb_refl. cbn [length]. lia.
    - rewrite upd_other in Hj by exact Hne. exists wj'. split; [exact Hj|]. split; [exact Hd|].
      rewrite Hl0 by congruence. unfold wsteps_of. cbn [filter]. rewrite (proj2 (Nat.eqb_neq j i)) by congruence. cbn [length]. lia.
  Qed.
  Lemma one_run i j : steps_of j [Run i] = if Nat.eqb j i then 1 else 0.
  Proof. unfold steps_of. cbn [filter]. destruct (Nat.eqb j i); reflexivity. Qed.

  (** A step that both executions make. *)
  Lemma mirror c w s i wt t wt' t' Hf' late : sim c w s ->
    nth_error (w_threads w) i = Some wt -> nth_error (f_threads s) i = Some t ->
    w_knows wt' = w_knows wt -> f_pc (w_t wt) <> FDone ->
    fthread_step len P (f_H s) true t = Ok (Hf', true, t') ->
    link (w_running w) wt' t' -> place i t' -> (forall a v, In (a, v) (w_buf wt') -> own i a) ->
    length Hf' = length (f_H s) ->
    (forall a, own i a -> nth (Z.to_nat a) Hf' (nofZ 0) = seen (w_buf wt') a (nth (Z.to_nat a) (w_H w) (nofZ 0))) ->
    (forall j a, j <> i -> (j < Z.to_nat nthreads)%nat -> own j a -> nth (Z.to_nat a) Hf' (nofZ 0) = nth (Z.to_nat a) (f_H s) (nofZ 0)) ->
    let w' := {| w_H := w_H w; w_running := w_running w; w_threads := upd (w_threads w) i (fun _ => wt') |} in
    exists l s', fsteps len P s l = Ok s' /\ sim c w' s' /\ ~ In CtrlC l /\ counted w w' (WRun i late) l.
  Proof.
    intros S Ew Et Hk Hd E Hlk Hpl Hbf HlH Hown Hoth w'. exists [Run i].
    eexists. split; [apply step_run with (1 := Et); rewrite (s_on _ _ _ S); exact E|]. split; [|split].
    - rewrite (s_on _ _ _ S). apply (put c w s i wt t); auto. intros Hf. left. split; [exact Hf|congruence].
    - intros [X|[]]; discriminate.
    - apply (counted_run w i late (w_running w) wt); auto.
      + intros j Hj. rewrite one_run. rewrite (proj2 (Nat.eqb_neq j i)) by congruence. reflexivity.
      + intros _. split; [exact Hd|]. rewrite one_run, Nat.eqb_refl, Hk. lia.
  Qed.

  Hypothesis Hin : forall n, 0 <= n < No -> inside len (P n).

  Lemma own_bound c (w : wstate (N:=N)) s i a : sim c w s -> (i < Z.to_nat nthreads)%nat -> own i a ->
    0 <= a < Z.of_nat (length (f_H s)) /\ 0 <= a < Z.of_nat (length (w_H w)).
  Proof.
    intros S Hi Ha. pose proof (own_range i a Hi Ha).
    rewrite (s_lf _ _ _ S), (s_lw _ _ _ S). lia.
  Qed.

  Lemma step_run_w c (w : wstate (N:=N)) s i late : sim c w s ->
    (forall w', wstep len P w (WRun i late) = Ok w' ->
       exists l s', fsteps len P s l = Ok s' /\ sim c w' s' /\ ~ In CtrlC l /\ counted w w' (WRun i late) l) /\
    (forall u, wstep len P w (WRun i late) = UB u -> fsteps len P s [Run i] = UB u) /\
    (wstep len P w (WRun i late) = Diverge -> fsteps len P s [Run i] = Diverge).
  Proof.
    intros S. cbn [wstep]. destruct (nth_error (w_threads w) i) as [wt|] eqn:Ew.
    2:{ split; [|split; discriminate]. intros w' E. injection E as <-. exists [], s. split; [reflexivity|]. split; [exact S|]. split; [intros []|].
        intros j wj Hj Hd. exists wj. split; [exact Hj|]. split; [exact Hd|].
        unfold wsteps_of. cbn [filter]. assert (j <> i) by congruence. rewrite (proj2 (Nat.eqb_neq j i)) by auto. cbn. lia. }
    destruct (twin _ _ _ _ _ S Ew) as (t & Et).
    destruct (s_thread _ _ _ S i wt t Ew Et) as (Hlk & Hpl & Hbf & Hvw).
    assert (Hi : (i < Z.to_nat nthreads)%nat) by (rewrite <- (s_nw _ _ _ S); exact (nth_lt _ _ _ Ew)).
    pose proof (s_on _ _ _ S) as Hon.
    assert (Ef : forall r, fthread_step len P (f_H s) true t = r ->
      match r with UB u => fsteps len P s [Run i] = UB u | Diverge => fsteps len P s [Run i] = Diverge | _ => True end).
    { intros r Er. destruct r; [exact I| |]; cbn [fsteps fstep]; rewrite Et, Hon, Er; reflexivity. }
    inversion Hlk as [E0 Hk|Hr Hk Hpt Hpw Hn Hs He|Hr Hk Hpt Hpw Hn Hs He].
    - (* both at the same place *)
      subst t. assert (Hlk' : forall t' b, link (w_running w) {| w_t := t'; w_buf := b; w_knows := w_knows wt |} t') by (intros; now apply l_same).
      unfold wthread_step. unfold fthread_step in Ef.
      destruct Hpl as [P1 P2 P3 P4 P5].
      destruct (f_pc (w_t wt)) as [|p|err| |] eqn:Epc.
      + split; [|split; destruct (f_n (w_t wt) <? f_stop (w_t wt)); discriminate].
        intros w' E. destruct (f_n (w_t wt) <? f_stop (w_t wt)) eqn:Eh; cbn [bind] in E; injection E as <-.
        * eapply (mirror c w s i wt (w_t wt)); try eassumption; eauto; try congruence.
          -- unfold fthread_step. rewrite Epc, Eh. reflexivity.
          -- split; cbn; auto; try lia. apply Hin. pose proof (part_range No nthreads HNo Hth (Z.of_nat i)). lia.
        * eapply (mirror c w s i wt (w_t wt)); try eassumption; eauto; try congruence.
          -- unfold fthread_step. rewrite Epc, Eh. reflexivity.
          -- split; cbn; auto; try lia.
      + specialize (P4 eq_refl). destruct p as [err|u| |j k|j v k].
        * split; [|split; discriminate]. intros w' E. cbn [bind] in E. injection E as <-.
          eapply (mirror c w s i wt (w_t wt)); try eassumption; eauto; try congruence.
          -- unfold fthread_step. rewrite Epc. reflexivity.
          -- split; cbn; auto; try lia.
        * split; [discriminate|]. split; [|discriminate]. intros u' E. injection E as ->. exact (Ef _ eq_refl).
        * split; [discriminate|]. split; [discriminate|]. intros _. exact (Ef _ eq_refl).
        * cbn [inside] in P5. destruct P5 as [Hj P5].
          assert (Ho : own i (f_n (w_t wt) * len + j)) by (unfold own; rewrite P1 in *; nia).
          destruct (own_bound c w s i _ S Hi Ho) as [B1 B2].
          rewrite (get_in _ _ B2). split; [|split; discriminate]. intros w' E. cbn [bind] in E. injection E as <-.
          rewrite <- (Hvw _ Ho).
          eapply (mirror c w s i wt (w_t wt)); try eassumption; eauto; try congruence.
          -- unfold fthread_step. rewrite Epc, (get_in _ _ B1). reflexivity.
          -- split; cbn; auto; try lia.
        * cbn [inside] in P5. destruct P5 as [Hj P5].
          assert (Ho : own i (f_n (w_t wt) * len + j)) by (unfold own; rewrite P1 in *; nia).
          destruct (own_bound c w s i _ S Hi Ho) as [B1 B2].
          rewrite (buf_upd_ok _ _ _ B2). split; [|split; discriminate]. intros w' E. cbn [bind] in E. injection E as <-.
          eapply (mirror c w s i wt (w_t wt)); try eassumption; try congruence.
          -- reflexivity.
          -- unfold fthread_step. rewrite Epc, (buf_upd_ok _ _ _ B1). reflexivity.
          -- cbn. apply l_same; auto.
          -- split; cbn; auto; try lia.
          -- cbn [w_buf]. intros a v' Ha. apply in_app_or in Ha as [Ha|[Ha|[]]]; [eauto|]. injection Ha as <- <-. exact Ho.
          -- apply length_upd.
          -- intros a Ha. cbn [w_buf]. rewrite seen_snoc. destruct (own_bound c w s i a S Hi Ha) as [B3 _].
             destruct (a =? _) eqn:Ea.
             ++ replace (f_n (w_t wt) * len + j) with a by lia. rewrite nth_upd_eq by lia. reflexivity.
             ++ rewrite nth_upd_ne by lia. auto.
          -- intros j' a Hne Hj' Ha. apply nth_upd_ne. intros Ec. destruct (own_bound c w s j' a S Hj' Ha) as [B3 _].
             apply (own_disjoint j' i a Hne Ha). replace a with (f_n (w_t wt) * len + j) by lia. exact Ho.
      + specialize (P4 eq_refl). split; [|split; destruct (SIRError_eqb err err_oob); discriminate].
        intros w' E. destruct (SIRError_eqb err err_oob) eqn:Ee; cbn [bind] in E; injection E as <-.
        * (* the worker clears the flag; the other execution waits *)
          exists [], s. split; [reflexivity|]. split; [|split; [intros []|]].
          -- rewrite (eta_f s), Hon. rewrite <- (upd_id _ _ _ Et) at 1.
             apply (put c w s i wt (w_t wt)); auto; try congruence.
             ++ apply l_flag; cbn; auto. rewrite Epc. destruct err; try discriminate. reflexivity.
             ++ split; rewrite ?Epc; auto.
          -- apply (counted_run w i late _ wt); auto; cbn.
             ++ intros. rewrite Epc, Hk. split; [discriminate|]. unfold steps_of. cbn. lia.
        * eapply (mirror c w s i wt (w_t wt)); try eassumption; eauto; try congruence.
          -- unfold fthread_step. rewrite Epc, Ee. reflexivity.
          -- split; cbn; auto; try lia.
      + specialize (P4 eq_refl). rewrite Hk. cbn [negb]. rewrite andb_true_r. split; [|split; destruct (w_running w || late); discriminate].
        intros w' E. destruct (w_running w || late) eqn:Ee; cbn [bind] in E; injection E as <-.
        * eapply (mirror c w s i wt (w_t wt)); try eassumption; eauto; try congruence.
          -- unfold fthread_step. rewrite Epc. reflexivity.
          -- cbn. apply l_same; auto.
          -- split; cbn; auto; try lia; discriminate.
        * apply orb_false_iff in Ee as [Ee _].
          exists [], s. split; [reflexivity|]. split; [|split; [intros []|]].
          -- rewrite (eta_f s), Hon. rewrite <- (upd_id _ _ _ Et) at 1.
             apply (put c w s i wt (w_t wt)); auto; try congruence.
             ++ apply l_check; cbn; auto.
             ++ split; rewrite ?Epc; auto.
             ++ intros _. left. cbn. split; [exact Ee|congruence].
          -- apply (counted_run w i late _ wt); auto; cbn. congruence.
      + split; [|split; discriminate]. intros w' E. cbn [bind] in E. injection E as <-.
        exists [], s. split; [reflexivity|]. split; [|split; [intros []|]].
        * rewrite (upd_id _ _ _ Ew). rewrite <- eta_w. exact S.
        * apply (counted_run w i late _ wt); auto; cbn. congruence.
    - (* the worker has cleared the flag itself *)
      unfold wthread_step. rewrite Hr, Hk. cbn [negb]. rewrite andb_false_r. cbn [orb].
      destruct Hpw as [Hpw|Hpw]; rewrite Hpw; (split; [|split; discriminate]); intros w' E; cbn [bind] in E; injection E as <-.
      + exists [], s. split; [reflexivity|]. split; [|split; [intros []|]].
        * rewrite (eta_f s), Hon. rewrite <- (upd_id _ _ _ Et) at 1.
          apply (put c w s i wt t); auto; cbn.
          -- apply l_flag; cbn; auto.
        * apply (counted_run w i late _ wt); auto; cbn. congruence.
      + exists [], s. split; [reflexivity|]. split; [|split; [intros []|]].
        * rewrite (upd_id _ _ _ Ew), <- Hr, <- eta_w. exact S.
        * apply (counted_run w i late _ wt); auto; cbn. congruence.
    - unfold wthread_step. rewrite Hpw. (split; [|split; discriminate]). intros w' E. cbn [bind] in E. injection E as <-.
      exists [], s. split; [reflexivity|]. split; [|split; [intros []|]].
      + rewrite (upd_id _ _ _ Ew), <- eta_w. exact S.
      + apply (counted_run w i late _ wt); auto; cbn. congruence.
  Qed.

  Lemma put_H c w s H' i b (wt : wthread (N:=N)) : sim c w s -> nth_error (w_threads w) i = Some wt ->
    length H' = length (w_H w) ->
    (forall a v, In (a, v) b -> In (a, v) (w_buf wt)) ->
    (forall a, own i a -> seen b a (nth (Z.to_nat a) H' (nofZ 0)) = seen (w_buf wt) a (nth (Z.to_nat a) (w_H w) (nofZ 0))) ->
    (forall j a, j <> i -> (j < Z.to_nat nthreads)%nat -> own j a -> nth (Z.to_nat a) H' (nofZ 0) = nth (Z.to_nat a) (w_H w) (nofZ 0)) ->
    sim c {| w_H := H'; w_running := w_running w;
             w_threads := upd (w_threads w) i (fun w => {| w_t := w_t w; w_buf := b; w_knows := w_knows w |}) |} s.
  Proof.
    intros S Ew HlH Hb Hown Hoth. pose proof S as [A1 A2 A3 A4 A5 A6 A7 A8].
    split; cbn [w_H w_running w_threads]; rewrite ?length_upd; auto; try congruence.
    - intros j wj tj Hwj Htj. destruct (Nat.eq_dec i j) as [<-|Hne].
      + rewrite (upd_same _ _ _ _ Ew) in Hwj. injection Hwj as <-. cbn [w_buf].
        destruct (A6 i wt tj Ew Htj) as (B1 & B2 & B3 & B4). split; [|split; [exact B2|split]].
        * destruct B1; [now apply l_same|apply l_flag; auto|apply l_check; auto].
        * intros a v Ha. eauto.
        * intros a Ha. rewrite Hown by exact Ha. auto.
      + rewrite upd_other in Hwj by exact Hne. destruct (A6 j wj tj Hwj Htj) as (B1 & B2 & B3 & B4). split; [exact B1|]. split; [exact B2|]. split; [exact B3|].
        intros a Ha. rewrite (Hoth j a) by (auto; rewrite <- A2; exact (nth_lt _ _ _ Hwj)). auto.
    - intros Hf. destruct (A7 Hf) as [->|(j & wj & tj & J1 & J2 & J3)]; [now left|]. right.
      destruct (Nat.eq_dec i j) as [<-|Hne].
      + rewrite Ew in J1. injection J1 as <-. eexists i, _, tj. rewrite (upd_same _ _ _ _ Ew). split; [reflexivity|]. auto.
      + exists j, wj, tj. rewrite upd_other by exact Hne. auto.
  Qed.

  Lemma step_reach c w s i k wt a v b : sim c w s -> nth_error (w_threads w) i = Some wt -> take_out k (w_buf wt) = Some (a, v, b) ->
    exists H', buf_upd (w_H w) a (fun _ => v) = Ok H' /\
      sim c {| w_H := H'; w_running := w_running w;
               w_threads := upd (w_threads w) i (fun w => {| w_t := w_t w; w_buf := b; w_knows := w_knows w |}) |} s.
  Proof.
    intros S Ew Ek. destruct (twin _ _ _ _ _ S Ew) as (t & Et).
    destruct (s_thread _ _ _ S i wt t Ew Et) as (_ & _ & Hbf & _).
    assert (Hi : (i < Z.to_nat nthreads)%nat) by (rewrite <- (s_nw _ _ _ S); exact (nth_lt _ _ _ Ew)).
    destruct (take_in _ _ _ _ _ Ek) as [I1 I2]. pose proof (Hbf a v I1) as Ho.
    destruct (own_bound c w s i a S Hi Ho) as [_ B]. exists (upd (w_H w) (Z.to_nat a) (fun _ => v)).
    split; [apply buf_upd_ok; exact B|]. apply (put_H c w s _ i b wt); auto.
    - apply length_upd.
    - intros x Hx. rewrite (take_seen _ _ _ _ _ Ek). destruct (own_bound c w s i x S Hi Hx) as [_ B'].
      destruct (x =? a)%Z eqn:E.
      + replace x with a by lia. rewrite nth_upd_eq by lia. reflexivity.
      + rewrite nth_upd_ne by lia. reflexivity.
    - intros j x Hne Hj Hx. apply nth_upd_ne. intros E. destruct (own_bound c w s j x S Hj Hx) as [_ B'].
      apply (own_disjoint j i x Hne Hx). replace x with a by lia. exact Ho.
  Qed.

  Lemma sim_step c w s e : sim c w s ->
    (forall w', wstep len P w e = Ok w' ->
       exists l s', fsteps len P s l = Ok s' /\ sim (c || is_wctrlc e) w' s' /\ ~ In CtrlC l /\ counted w w' e l) /\
    (forall u, wstep len P w e = UB u -> exists l, ~ In CtrlC l /\ fsteps len P s l = UB u) /\
    (wstep len P w e = Diverge -> exists l, ~ In CtrlC l /\ fsteps len P s l = Diverge).
  Proof.
    intros S. destruct e as [i late|i k|]; cbn [is_wctrlc]; rewrite ?orb_false_r, ?orb_true_r.
    - destruct (step_run_w c w s i late S) as (A & B & C). split; [exact A|].
      assert (Hn : ~ In CtrlC [Run i]) by (intros [X|[]]; discriminate). split; [intros u Hu|intros Hu]; exists [Run i]; auto.
    - cbn [wstep]. assert (Same : exists l s', fsteps len P s l = Ok s' /\ sim c w s' /\ ~ In CtrlC l /\ counted w w (WReach i k) l).
      { exists [], s. split; [reflexivity|]. split; [exact S|]. split; [intros []|]. intros j wj Hj Hd. exists wj.
        split; [exact Hj|]. split; [exact Hd|]. unfold wsteps_of, steps_of. cbn. lia. }
      destruct (nth_error (w_threads w) i) as [wt|] eqn:Ew; [|split; [intros w' E; injection E as <-; exact Same|split; discriminate]].
      destruct (take_out k (w_buf wt)) as [[[a v] b]|] eqn:Ek; [|split; [intros w' E; injection E as <-; exact Same|split; discriminate]].
      destruct (step_reach c w s i k wt a v b S Ew Ek) as (H' & E & S'). rewrite E. cbn [bind].
      split; [|split; discriminate]. intros w' E'. injection E' as <-. exists [], s. split; [reflexivity|]. split; [exact S'|]. split; [intros []|].
      intros j wj Hj Hd. cbn [w_threads] in Hj. destruct (Nat.eq_dec i j) as [<-|Hne].
      + rewrite (upd_same _ _ _ _ Ew) in Hj. injection Hj as <-. exists wt. cbn in *. split; [exact Ew|]. split; [exact Hd|]. unfold wsteps_of, steps_of. cbn. lia.
      + rewrite upd_other in Hj by exact Hne. exists wj. split; [exact Hj|]. split; [exact Hd|]. unfold wsteps_of, steps_of. cbn. lia.
    - cbn [wstep]. split; [|split; discriminate]. intros w' E. injection E as <-. exists [], s. split; [reflexivity|]. split; [|split; [intros []|]].
      + destruct S as [A1 A2 A3 A4 A5 A6 A7 A8]. split; cbn [w_H w_running w_threads]; auto.
        intros i wt t H1 H2. destruct (A6 i wt t H1 H2) as (B1 & B2). split; [|exact B2]. apply (link_mono _ _ _ _ B1). now right.
      + intros j wj Hj Hd. exists wj. split; [exact Hj|]. split; [exact Hd|]. unfold wsteps_of, steps_of. cbn. lia.
  Qed.

  Lemma steps_app i l1 l2 : steps_of i (l1 ++ l2) = steps_of i l1 + steps_of i l2.
  Proof. unfold steps_of. rewrite filter_app, app_length. lia. Qed.
  Lemma wsteps_cons i e l : wsteps_of i (e :: l) = wsteps_of i [e] + wsteps_of i l.
  Proof. unfold wsteps_of. cbn [filter]. destruct (match e with WRun _ _ => _ | _ => _ end); cbn [length]; lia. Qed.

  Definition count_all (w w' : wstate (N:=N)) (sch : list wevent) (l : list event) : Prop :=
    forall j wj', nth_error (w_threads w') j = Some wj' -> f_pc (w_t wj') <> FDone ->
      exists wj, nth_error (w_threads w) j = Some wj /\ f_pc (w_t wj) <> FDone /\
        wsteps_of j sch + b2z (w_knows wj) <= steps_of j l + b2z (w_knows wj').

  Lemma sim_steps sch : forall c w s, sim c w s ->
    (forall w', wsteps len P w sch = Ok w' ->
       exists l s', fsteps len P s l = Ok s' /\ sim (c || existsb is_wctrlc sch) w' s' /\ ~ In CtrlC l /\ count_all w w' sch l) /\
    (forall u, wsteps len P w sch = UB u -> exists l, ~ In CtrlC l /\ fsteps len P s l = UB u) /\
    (wsteps len P w sch = Diverge -> exists l, ~ In CtrlC l /\ fsteps len P s l = Diverge).
  Proof.
    induction sch as [|e sch IH]; intros c w s S; cbn [wsteps existsb].
    - split; [|split; discriminate]. intros w' E. injection E as <-. rewrite orb_false_r. exists [], s. split; [reflexivity|]. split; [exact S|]. split; [intros []|].
      intros j wj Hj Hd. exists wj. split; [exact Hj|]. split; [exact Hd|]. unfold wsteps_of, steps_of. cbn. lia.
    - destruct (sim_step c w s e S) as (A & B & C). destruct (wstep len P w e) as [w1|u|]; cbn [bind].
      + destruct (A w1 eq_refl) as (l1 & s1 & E1 & S1 & N1 & K1). destruct (IH _ _ _ S1) as (A' & B' & C'). split; [|split].
        * intros w' E. destruct (A' w' E) as (l2 & s2 & E2 & S2 & N2 & K2). exists (l1 ++ l2), s2.
          split; [rewrite fsteps_app, E1; exact E2|]. rewrite orb_assoc. split; [exact S2|]. split; [intros X; apply in_app_or in X as [X|X]; auto|].
          intros j wj' Hj Hd. destruct (K2 j wj' Hj Hd) as (wj & Hj1 & Hd1 & L1). destruct (K1 j wj Hj1 Hd1) as (w0 & Hj0 & Hd0 & L0).
          exists w0. split; [exact Hj0|]. split; [exact Hd0|]. rewrite wsteps_cons, steps_app. lia.
        * intros u E. destruct (B' u E) as (l2 & N2 & E2). exists (l1 ++ l2). split; [intros X; apply in_app_or in X as [X|X]; auto|]. rewrite fsteps_app, E1. exact E2.
        * intros E. destruct (C' E) as (l2 & N2 & E2). exists (l1 ++ l2). split; [intros X; apply in_app_or in X as [X|X]; auto|]. rewrite fsteps_app, E1. exact E2.
      + split; [discriminate|]. split; [|discriminate]. intros u' E. injection E as <-. exact (B u eq_refl).
      + split; [discriminate|]. split; [discriminate|]. intros _. exact (C eq_refl).
  Qed.

  Lemma sim_init Y0 : length Y0 = Z.to_nat (No * len) -> sim false (winit No nthreads Y0) (finit No nthreads Y0).
  Proof.
    intros HL. split; cbn [winit finit w_H w_running w_threads f_H f_running f_threads]; rewrite ?map_length, ?seq_length; auto; try discriminate.
    intros i wt t Hw Ht. rewrite nth_error_map in Hw, Ht. destruct (nth_error (seq 0 (Z.to_nat nthreads)) i) as [x|] eqn:E; [|discriminate].
    pose proof (nth_lt _ _ _ E) as Hi. rewrite seq_length in Hi. rewrite (nth_error_nth' _ 0%nat) in E by (now rewrite seq_length). rewrite seq_nth in E by exact Hi. injection E as <-.
    injection Hw as <-. injection Ht as <-. cbn [option_map w_t w_buf w_knows]. split; [now apply l_same|]. split; [|split; [intros ? ? []|reflexivity]].
    split; cbn [finit_thread f_pc f_n f_stop at_work]; auto; try lia; try discriminate. apply part_start_le_stop; auto.
  Qed.

  (** The waiting workers go on once the flag is cleared. *)
  Inductive hops (H : buf) : fthread -> fthread -> Prop :=
  | h_here t : hops H t t
  | h_go t t1 t2 : fthread_step len P H false t = Ok (H, false, t1) -> hops H t1 t2 -> hops H t t2.
  Lemma hops_run s i t t' : f_running s = false -> nth_error (f_threads s) i = Some t -> hops (f_H s) t t' ->
    exists l, fsteps len P s l = Ok {| f_H := f_H s; f_running := false; f_threads := upd (f_threads s) i (fun _ => t') |} /\ ~ In CtrlC l.
  Proof.
    intros Hr Ht Hh. remember (f_H s) as H eqn:EH. revert s Hr Ht EH. induction Hh as [t|t t1 t2 E Hh IH]; intros s Hr Ht ->.
    - exists []. split; [|intros []]. cbn. rewrite (upd_id _ _ _ Ht). rewrite (eta_f s) at 1. now rewrite Hr.
    - pose proof (step_run s i t (f_H s) t1 Ht) as E1. rewrite Hr in E1. specialize (E1 E).
      destruct (IH {| f_H := f_H s; f_running := false; f_threads := upd (f_threads s) i (fun _ => t1) |}) as (l & El & Nl); cbn [f_H f_running f_threads]; auto.
      { now rewrite (upd_same _ _ _ _ Ht). }
      exists ([Run i] ++ l). split; [rewrite fsteps_app, E1; cbn [bind]; rewrite El; cbn [f_H f_threads]|].
      + do 2 f_equal. clear. revert i; induction (f_threads s) as [|x ts IH]; intros [|i]; cbn; f_equal; auto.
      + intros X. apply in_app_or in X as [[X|[]]|X]; [discriminate|auto].
  Qed.
  Lemma nth_ext_error {A} (l l' : list A) : (forall i, nth_error l i = nth_error l' i) -> l = l'.
  Proof.
    revert l'; induction l as [|a l IH]; intros [|b l'] H; auto; try (specialize (H 0%nat); discriminate).
    pose proof (H 0%nat) as H0. injection H0 as ->. f_equal. apply IH. intros i. exact (H (S i)).
  Qed.
  Lemma hops_all s ts : f_running s = false -> length ts = length (f_threads s) ->
    (forall i t t', nth_error (f_threads s) i = Some t -> nth_error ts i = Some t' -> hops (f_H s) t t') ->
    exists l, fsteps len P s l = Ok {| f_H := f_H s; f_running := false; f_threads := ts |} /\ ~ In CtrlC l.
  Proof.
    intros Hr HLt Hh.
    assert (G : forall m, (m <= length ts)%nat -> exists l s1, fsteps len P s l = Ok s1 /\ ~ In CtrlC l /\ f_H s1 = f_H s /\ f_running s1 = false /\
      forall i, nth_error (f_threads s1) i = if (i <? m)%nat then nth_error ts i else nth_error (f_threads s) i).
    { induction m as [|m IH]; intros Hm.
      - exists [], s. repeat split; auto; try (intros []).
      - destruct IH as (l & s1 & E & Nl & EH & ER & ET); [lia|].
        destruct (nth_ex ts m) as (t' & Ht'); [lia|]. destruct (nth_ex (f_threads s) m) as (t & Ht); [lia|].
        assert (Ht1 : nth_error (f_threads s1) m = Some t) by (rewrite ET, Nat.ltb_irrefl; exact Ht).
        destruct (hops_run s1 m t t' ER Ht1) as (l2 & E2 & N2); [rewrite EH; eauto|].
        eexists (l ++ l2), _. split; [rewrite fsteps_app, E; exact E2|]. cbn [f_H f_running f_threads].
        split; [intros X; apply in_app_or in X as [X|X]; auto|]. split; [exact EH|]. split; [reflexivity|].
        intros i. destruct (Nat.eq_dec m i) as [<-|Hne].
        + rewrite (upd_same _ _ _ _ Ht1). replace (m <? S m)%nat with true by lia. now rewrite Ht'.
        + rewrite upd_other by exact Hne. rewrite ET. destruct (i <? m)%nat eqn:E3.
          * replace (i <? S m)%nat with true by lia. reflexivity.
          * replace (i <? S m)%nat with false by lia. reflexivity. }
    destruct (G (length ts) ltac:(lia)) as (l & s1 & E & Nl & EH & ER & ET). exists l. split; [|exact Nl].
    rewrite E. f_equal. rewrite (eta_f s1), EH, ER. f_equal. apply nth_ext_error. intros i. rewrite ET.
    destruct (i <? length ts)%nat eqn:E3; [reflexivity|].
    rewrite (proj2 (nth_error_None ts i)) by lia. apply nth_error_None. lia.
  Qed.

  Lemma thread_eq (t t' : fthread (N:=N)) : f_pc t = f_pc t' -> f_n t = f_n t' -> f_stop t = f_stop t' -> f_err t = f_err t' -> t = t'.
  Proof. destruct t, t'; cbn; congruence. Qed.

  Lemma hops_link wt t : link false wt t -> forall H, hops H t (w_t wt).
  Proof.
    intros [E _|_ _ Ep Ew En Es Ee|_ _ Ep Ew En Es Ee] H.
    - subst t. apply h_here.
    - eapply h_go; [unfold fthread_step; rewrite Ep; cbn; reflexivity|]. destruct Ew as [Ew|Ew].
      + match goal with |- hops _ ?x _ => replace x with (w_t wt) by (apply thread_eq; cbn; congruence) end. apply h_here.
      + eapply h_go; [unfold fthread_step; cbn; reflexivity|].
        match goal with |- hops _ ?x _ => replace x with (w_t wt) by (apply thread_eq; cbn; congruence) end. apply h_here.
    - eapply h_go; [unfold fthread_step; rewrite Ep; cbn; reflexivity|].
      match goal with |- hops _ ?x _ => replace x with (w_t wt) by (apply thread_eq; cbn; congruence) end. apply h_here.
  Qed.

  Lemma sim_close c w s : sim c w s ->
    exists l s', fsteps len P s l = Ok s' /\ (c = false -> ~ In CtrlC l) /\ f_H s' = f_H s /\ f_running s' = w_running w /\
      f_threads s' = map w_t (w_threads w).
  Proof.
    intros S. destruct (w_running w) eqn:Er.
    - exists [], s. split; [reflexivity|]. split; [intros _ []|]. split; [reflexivity|]. split; [exact (s_on _ _ _ S)|].
      apply nth_ext_error. intros i. rewrite nth_error_map. destruct (nth_error (w_threads w) i) as [wt|] eqn:Ew.
      + destruct (twin _ _ _ _ _ S Ew) as (t & Et). destruct (s_thread _ _ _ S i wt t Ew Et) as (Hlk & _). rewrite Er in Hlk.
        inversion Hlk; [subst; cbn; congruence|discriminate|discriminate].
      + cbn. apply nth_error_None. apply nth_error_None in Ew. rewrite (s_nf _ _ _ S), <- (s_nw _ _ _ S). exact Ew.
    - assert (T : exists l s1, fsteps len P s l = Ok s1 /\ (c = false -> ~ In CtrlC l) /\ f_H s1 = f_H s /\ f_running s1 = false /\
                length (f_threads s1) = length (f_threads s) /\
                forall i wt t, nth_error (w_threads w) i = Some wt -> nth_error (f_threads s1) i = Some t -> hops (f_H s) t (w_t wt)).
      { assert (Hall : forall i wt t, nth_error (w_threads w) i = Some wt -> nth_error (f_threads s) i = Some t -> hops (f_H s) t (w_t wt)).
        { intros i wt t Hw Ht. destruct (s_thread _ _ _ S i wt t Hw Ht) as (Hlk & _). rewrite Er in Hlk. apply hops_link. exact Hlk. }
        destruct (s_off _ _ _ S Er) as [->|(i & wt & t & Hw & Ht & Hk)].
        - exists [CtrlC]. eexists. split; [reflexivity|]. split; [discriminate|]. cbn. auto.
        - destruct (s_thread _ _ _ S i wt t Hw Ht) as (Hlk & _). rewrite Er in Hlk.
          inversion Hlk as [_ X|_ _ Ep Ew En Es Ee|_ X]; [congruence| |congruence].
          pose (t1 := {| f_pc := FCheck (N:=N); f_n := f_n t; f_stop := f_stop t; f_err := f_err t |}).
          exists [Run i], {| f_H := f_H s; f_running := false; f_threads := upd (f_threads s) i (fun _ => t1) |}.
          split; [cbn [fsteps fstep]; rewrite Ht; unfold fthread_step; rewrite Ep; reflexivity|].
          split; [intros _ [X|[]]; discriminate|]. cbn [f_H f_running f_threads]. split; [reflexivity|]. split; [reflexivity|]. split; [apply length_upd|].
          intros j wj tj Hwj Htj. destruct (Nat.eq_dec i j) as [<-|Hne].
          + rewrite (upd_same _ _ _ _ Ht) in Htj. injection Htj as <-. rewrite Hw in Hwj. injection Hwj as <-. destruct Ew as [Ew|Ew].
            * replace t1 with (w_t wt) by (apply thread_eq; cbn; congruence). apply h_here.
            * eapply h_go; [unfold fthread_step; cbn; reflexivity|].
              match goal with |- hops _ ?x _ => replace x with (w_t wt) by (apply thread_eq; cbn; congruence) end. apply h_here.
          + rewrite upd_other in Htj by exact Hne. eauto. }
      destruct T as (l & s1 & E & Nl & EH & ER & EL & ET).
      destruct (hops_all s1 (map w_t (w_threads w)) ER) as (l2 & E2 & N2).
      + rewrite map_length, EL, (s_nf _ _ _ S), (s_nw _ _ _ S). reflexivity.
      + intros i t t' Ht Ht'. rewrite nth_error_map in Ht'. destruct (nth_error (w_threads w) i) as [wt|] eqn:Ew; [|discriminate]. injection Ht' as <-.
        rewrite EH. eauto.
      + exists (l ++ l2). eexists. split; [rewrite fsteps_app, E; exact E2|]. cbn [f_H f_running f_threads].
        split; [intros Hc X; apply in_app_or in X as [X|X]; [now apply (Nl Hc)|auto]|]. auto.
  Qed.

  Lemma all_there c w s : sim c w s -> (forall i wt, nth_error (w_threads w) i = Some wt -> w_buf wt = []) -> f_H s = w_H w.
  Proof.
    intros S Hb. apply (nth_ext _ _ (nofZ 0) (nofZ 0)).
    - rewrite (s_lf _ _ _ S), (s_lw _ _ _ S). reflexivity.
    - intros k Hk. rewrite (s_lf _ _ _ S) in Hk.
      destruct (Z.eq_dec len 0) as [->|Hl0]; [lia|].
      assert (Hc : 0 <= Z.of_nat k / len < No) by (split; [apply Z.div_pos; lia|apply Z.div_lt_upper_bound; lia]).
      destruct (part_cover No nthreads Hth _ Hc) as (t & Ht & Hr).
      pose proof (Z.div_mod (Z.of_nat k) len Hl0) as Dm. pose proof (Z.mod_pos_bound (Z.of_nat k) len ltac:(lia)) as Mm.
      assert (Ho : own (Z.to_nat t) (Z.of_nat k)) by (unfold own; rewrite Z2Nat.id by lia; clear -Hr Dm Mm Hl0 Hl; nia).
      destruct (nth_ex (w_threads w) (Z.to_nat t)) as (wt & Ew); [rewrite (s_nw _ _ _ S); lia|].
      destruct (twin _ _ _ _ _ S Ew) as (ft & Et). destruct (s_thread _ _ _ S _ wt ft Ew Et) as (_ & _ & _ & Hv).
      specialize (Hv _ Ho). rewrite Nat2Z.id, (Hb _ _ Ew) in Hv. exact Hv.
  Qed.
  Lemma wctrlc_none sch : no_wctrlc sch <-> existsb is_wctrlc sch = false.
  Proof.
    unfold no_wctrlc. split; intros H.
    - destruct (existsb is_wctrlc sch) eqn:E; [|reflexivity]. exfalso. apply existsb_exists in E as (e & Hi & He).
      destruct e; try discriminate. auto.
    - intros X. assert (existsb is_wctrlc sch = true) by (apply existsb_exists; exists WCtrlC; auto). congruence.
  Qed.



  Variable pt : Z -> buf -> res (buf * SIRError).
  Hypothesis Hpt : forall n H, 0 <= n < No -> length H = Z.to_nat (No * len) -> pt n H = exec (P n) (n * len) H.

  Lemma wsteps_app w l1 l2 : wsteps len P w (l1 ++ l2) = do w' <- wsteps len P w l1; wsteps len P w' l2.
  Proof. revert w; induction l1 as [|e l1 IH]; intros w; cbn [app wsteps]; [reflexivity|]. destruct (wstep len P w e); cbn [bind]; auto. Qed.
  Definition reaching (l : list wevent) : Prop := forall e, In e l -> exists i k, e = WReach i k.
  Lemma reaching_app l1 l2 : reaching l1 -> reaching l2 -> reaching (l1 ++ l2).
  Proof. intros H1 H2 e X. apply in_app_or in X as [X|X]; auto. Qed.

  Lemma reach_one c s i : forall b (w : wstate (N:=N)) wt, sim c w s -> nth_error (w_threads w) i = Some wt -> w_buf wt = b ->
    exists l w', wsteps len P w l = Ok w' /\ reaching l /\ sim c w' s /\ w_running w' = w_running w /\
      w_threads w' = upd (w_threads w) i (fun x => {| w_t := w_t x; w_buf := []; w_knows := w_knows x |}).
  Proof.
    induction b as [|[a v] b IH]; intros w wt S Ew Eb.
    - exists [], w. split; [reflexivity|]. split; [intros e []|]. split; [exact S|]. split; [reflexivity|].
      rewrite <- (upd_id _ _ _ Ew) at 1. clear -Ew Eb. revert i Ew; induction (w_threads w) as [|x ts IH]; intros [|i] Ew; cbn in *; try discriminate.
      + injection Ew as ->. f_equal. destruct wt; cbn in *; congruence.
      + f_equal. auto.
    - assert (Ek : take_out 0 (w_buf wt) = Some (a, v, b)) by (rewrite Eb; reflexivity).
      destruct (step_reach c w s i 0%nat wt a v b S Ew Ek) as (H' & EH & S1).
      set (w1 := {| w_H := H'; w_running := w_running w; w_threads := _ |}) in S1.
      assert (E1 : wsteps len P w [WReach i 0] = Ok w1).
      { cbn [wsteps wstep]. rewrite Ew, Ek, EH. reflexivity. }
      assert (Ew1 : nth_error (w_threads w1) i = Some {| w_t := w_t wt; w_buf := b; w_knows := w_knows wt |}).
      { cbn [w1 w_threads]. now rewrite (upd_same _ _ _ _ Ew). }
      destruct (IH w1 _ S1 Ew1 eq_refl) as (l & w' & E & Rl & S' & Rr & Et).
      exists ([WReach i 0] ++ l), w'. split; [rewrite wsteps_app, E1; exact E|]. split; [apply reaching_app; [|exact Rl]|].
      { intros e [<-|[]]. eauto. }
      split; [exact S'|]. split; [exact Rr|]. rewrite Et. cbn [w1 w_threads]. clear. revert i. induction (w_threads w) as [|x ts IH]; intros [|i]; cbn; f_equal; auto.
  Qed.

  Lemma reach_all c w s : sim c w s ->
    exists l w', wsteps len P w l = Ok w' /\ reaching l /\ w_running w' = w_running w /\
      map w_t (w_threads w') = map w_t (w_threads w) /\ forall i wt, nth_error (w_threads w') i = Some wt -> w_buf wt = [].
  Proof.
    intros S.
    assert (G : forall m, (m <= length (w_threads w))%nat -> exists l w', wsteps len P w l = Ok w' /\ reaching l /\ sim c w' s /\ w_running w' = w_running w /\
      map w_t (w_threads w') = map w_t (w_threads w) /\ forall i wt, (i < m)%nat -> nth_error (w_threads w') i = Some wt -> w_buf wt = []).
    { induction m as [|m IH]; intros Hm.
      - exists [], w. split; [reflexivity|]. split; [intros e []|]. split; [exact S|]. split; [reflexivity|]. split; [reflexivity|]. intros i wt Hi. lia.
      - destruct IH as (l & w1 & E & Rl & S1 & Rr & Em & Hb); [lia|].
        assert (HL1 : length (w_threads w1) = length (w_threads w)) by (rewrite <- (map_length w_t), Em; apply map_length).
        destruct (nth_ex (w_threads w1) m) as (wt & Ew); [lia|].
        destruct (reach_one c s m _ w1 wt S1 Ew eq_refl) as (l2 & w2 & E2 & Rl2 & S2 & Rr2 & Et2).
        exists (l ++ l2), w2. split; [rewrite wsteps_app, E; exact E2|]. split; [apply reaching_app; auto|]. split; [exact S2|]. split; [congruence|]. split.
        + rewrite Et2, <- Em. clear. revert m. induction (w_threads w1) as [|x ts IH]; intros [|m]; cbn; f_equal; auto.
        + intros i x Hi Hx. rewrite Et2 in Hx. destruct (Nat.eq_dec m i) as [<-|Hne].
          * rewrite (upd_same _ _ _ _ Ew) in Hx. now injection Hx as <-.
          * rewrite upd_other in Hx by exact Hne. apply (Hb i x); [lia|exact Hx]. }
    destruct (G (length (w_threads w)) ltac:(lia)) as (l & w' & E & Rl & _ & Rr & Em & Hb). exists l, w'. split; [exact E|]. split; [exact Rl|]. split; [exact Rr|]. split; [exact Em|].
    intros i wt Hi. apply (Hb i wt); [|exact Hi]. rewrite <- (map_length w_t), <- Em, map_length. exact (nth_lt _ _ _ Hi).
  Qed.

  Lemma joined_done (w : wstate (N:=N)) : w_all_joined w = true -> f_all_done {| f_H := w_H w; f_running := w_running w; f_threads := map w_t (w_threads w) |} = true /\
    forall i wt, nth_error (w_threads w) i = Some wt -> w_buf wt = [].
  Proof.
    unfold w_all_joined, f_all_done. cbn [f_threads]. intros H. rewrite forallb_forall in H. split.
    - apply forallb_forall. intros t Ht. apply in_map_iff in Ht as (wt & <- & Hw). specialize (H wt Hw). unfold w_joined in H. apply andb_true_iff in H. apply H.
    - intros i wt Hi. specialize (H wt (nth_error_In _ _ Hi)). unfold w_joined in H. destruct (w_buf wt); [reflexivity|]. now rewrite andb_false_r in H.
  Qed.

  (** The outcome of an execution with delays is one of an execution without. *)
  Lemma weak_done sch Y0 w : length Y0 = Z.to_nat (No * len) -> wsteps len P (winit No nthreads Y0) sch = Ok w -> w_all_joined w = true ->
    exists sch' s, fsteps len P (finit No nthreads Y0) sch' = Ok s /\ f_all_done s = true /\ f_H s = w_H w /\ f_running s = w_running w /\
      f_threads s = map w_t (w_threads w) /\ (no_wctrlc sch -> no_ctrlc sch').
  Proof.
    intros HL E Hj. pose proof (sim_init Y0 HL) as S0.
    destruct (proj1 (sim_steps sch false _ _ S0) w E) as (l & s & Es & S & Nl & _).
    destruct (sim_close _ w s S) as (l2 & s2 & E2 & N2 & EH & ER & ET). cbn [orb] in *.
    destruct (joined_done w Hj) as [D B]. exists (l ++ l2), s2. split; [rewrite fsteps_app, Es; exact E2|].
    split; [unfold f_all_done in *; cbn [f_threads] in D; now rewrite ET|]. split; [rewrite EH; exact (all_there _ w s S B)|].
    split; [exact ER|]. split; [exact ET|]. intros Hc X. apply in_app_or in X as [X|X]; [auto|]. apply (N2 (proj1 (wctrlc_none sch) Hc) X).
  Qed.
  Lemma weak_fails sch Y0 : length Y0 = Z.to_nat (No * len) ->
    (forall u, wsteps len P (winit No nthreads Y0) sch = UB u -> exists sch', fsteps len P (finit No nthreads Y0) sch' = UB u) /\
    (wsteps len P (winit No nthreads Y0) sch = Diverge -> exists sch', fsteps len P (finit No nthreads Y0) sch' = Diverge).
  Proof.
    intros HL. pose proof (sim_init Y0 HL) as S0.
    destruct (sim_steps sch false _ _ S0) as (_ & B & C).
    split; [intros u E; destruct (B u E) as (l & _ & El); eauto|intros E; destruct (C E) as (l & _ & El); eauto].
  Qed.

  (** If the executions of whole points do not fail, then nor do those with
      delays, and they return. *)
  Lemma weak_completes Y0 : length Y0 = Z.to_nat (No * len) ->
    (forall sch', exists cs, gsteps pt (init No nthreads Y0) sch' = Ok cs) ->
    exists B, forall sch, exists w, wsteps len P (winit No nthreads Y0) sch = Ok w /\
      ((forall i, 0 <= i < nthreads -> B <= wsteps_of (Z.to_nat i) sch) ->
       exists reach w', reaching reach /\ wsteps len P (winit No nthreads Y0) (sch ++ reach) = Ok w' /\ w_all_joined w' = true).
  Proof.
    intros HL Hok. exists (fine_bound len No nthreads P Y0 + 1). intros sch.
    pose proof (sim_init Y0 HL) as S0.
    destruct (sim_steps sch false _ _ S0) as (A & B & C).
    pose proof (fun sch' => fine_completes1 len No nthreads pt P Hl HNo Hth Hin Hpt sch' Y0 HL Hok) as F.
    destruct (wsteps len P (winit No nthreads Y0) sch) as [w|u|] eqn:E.
    2:{ destruct (B u eq_refl) as (l & _ & El). destruct (F l) as (fs & Ef & _). congruence. }
    2:{ destruct (C eq_refl) as (l & _ & El). destruct (F l) as (fs & Ef & _). congruence. }
    exists w. split; [reflexivity|]. intros Hs. destruct (A w eq_refl) as (l & s & Es & S & Nl & K).
    assert (D : forall i wt, nth_error (w_threads w) i = Some wt -> f_pc (w_t wt) = FDone).
    { intros i wt Ew. assert (Hdec : f_pc (w_t wt) = FDone \/ f_pc (w_t wt) <> FDone) by (destruct (f_pc (w_t wt)); auto; right; discriminate).
      destruct Hdec as [Hd|Hd]; [exact Hd|]. exfalso. destruct (K i wt Ew Hd) as (w0 & _ & _ & Kc).
      destruct (twin _ _ _ _ _ S Ew) as (t & Et).
      destruct (F l) as (fs & Ef & Df). rewrite Es in Ef. injection Ef as <-.
      assert (Hi : (i < Z.to_nat nthreads)%nat) by (rewrite <- (s_nw _ _ _ S); exact (nth_lt _ _ _ Ew)).
      specialize (Hs (Z.of_nat i) ltac:(lia)). rewrite Nat2Z.id in Hs.
      assert (Dt : f_is_done t = true) by (apply (Df i t Et); unfold b2z in Kc; destruct (w_knows w0), (w_knows wt); lia).
      destruct (s_thread _ _ _ S i wt t Ew Et) as (Hlk & _). unfold f_is_done in Dt.
      inversion Hlk as [E0 _|_ _ Ep|_ _ Ep]; [subst t; destruct (f_pc (w_t wt)); congruence|rewrite Ep in Dt; discriminate|rewrite Ep in Dt; discriminate]. }
    destruct (reach_all _ w s S) as (r & w' & Er & Rr & _ & Em & Hb). exists r, w'. split; [exact Rr|]. split; [rewrite wsteps_app, E; exact Er|].
    unfold w_all_joined. apply forallb_forall. intros wt Hw. apply In_nth_error in Hw as (i & Hw). unfold w_joined. rewrite (Hb i wt Hw), andb_true_r.
    assert (Hm : nth_error (map w_t (w_threads w)) i = Some (w_t wt)) by (rewrite <- Em, nth_error_map, Hw; reflexivity).
    rewrite nth_error_map in Hm. destruct (nth_error (w_threads w) i) as [wt0|] eqn:E0; [|discriminate]. cbn in Hm. injection Hm as Hm.
    unfold f_is_done. rewrite <- Hm, (D i wt0 E0). reflexivity.
  Qed.

  (** A call by columns. *)
  Lemma weak_cols sch Y0 r : length Y0 = Z.to_nat (No * len) -> weak_cols_call len P No nthreads sch Y0 = Ok (Some r) ->
    exists sch', fine_cols_call len P No nthreads sch' Y0 = Ok (Some r) /\ (no_wctrlc sch -> no_ctrlc sch').
  Proof.
    intros HL E. unfold weak_cols_call in E. apply bind_Ok_inv in E as (w & Ew & E). destruct (w_all_joined w) eqn:Hj; [|discriminate]. injection E as <-.
    destruct (weak_done sch Y0 w HL Ew Hj) as (sch' & s & Es & D & EH & ER & _ & Nc). exists sch'. split; [|exact Nc].
    unfold fine_cols_call. rewrite Es. cbn [bind]. rewrite D, EH, ER. reflexivity.
  Qed.

  Lemma weak_all Y0 F : length Y0 = Z.to_nat (No * len) ->
    (forall sch', exists cs, gsteps pt (init No nthreads Y0) sch' = Ok cs) ->
    fine_every_column len No nthreads Y0 F (fun sch => fine_cols_call len P No nthreads sch Y0) ->
    weak_every_column len No nthreads Y0 F (fun sch => weak_cols_call len P No nthreads sch Y0).
  Proof.
    intros HL Hok (B0 & HF). destruct (weak_completes Y0 HL Hok) as (B & HW). split.
    - exists B. intros sch Hs. destruct (HW sch) as (w & _ & R). destruct (R Hs) as (reach & w' & Rr & Ew & Hj). exists reach. split; [exact Rr|].
      eexists. unfold weak_cols_call. rewrite Ew. cbn [bind]. rewrite Hj. reflexivity.
    - intros sch. destruct (HW sch) as (w & Ew & _). exists (if w_all_joined w then Some (w_H w, w_running w) else None). split; [unfold weak_cols_call; rewrite Ew; cbn [bind]; destruct (w_all_joined w); reflexivity|].
      intros Y' running Er.
      assert (Ec : weak_cols_call len P No nthreads sch Y0 = Ok (Some (Y', running))).
      { unfold weak_cols_call. rewrite Ew. cbn [bind]. rewrite <- Er. destruct (w_all_joined w); reflexivity. }
      destruct (weak_cols sch Y0 _ HL Ec) as (sch' & Es & Nc). destruct (HF sch') as (r & E' & _ & HR).
      rewrite Es in E'. injection E' as <-. destruct (HR Y' running eq_refl) as (A1 & A2 & A3 & A4). auto.
  Qed.
End Sim.

(** From calls by columns to calls with delayed stores. *)
Lemma weak_from_columns {N : Num} (len No nthreads : Z) pt (P : Z -> prog N SIRError) (Y0 : list N) F :
  0 <= len -> 0 <= No -> 1 <= nthreads -> (forall n, 0 <= n < No -> inside len (P n)) ->
  (forall n H, 0 <= n < No -> length H = Z.to_nat (No * len) -> pt n H = exec (P n) (n * len) H) ->
  length Y0 = Z.to_nat (No * len) -> (forall n, quiet (P n)) ->
  (forall sch', every_column len No nthreads sch' Y0 F (cols_call pt No nthreads sch' Y0)) ->
  weak_every_column len No nthreads Y0 F (fun sch => weak_cols_call len P No nthreads sch Y0).
Proof.
  intros Hl HNo Hth Hin Hpt HL HQ Hc. apply (weak_all len No nthreads P Hl HNo Hth Hin pt Hpt Y0 F HL).
  - intros sch'. destruct (Hc sch') as (r & E & _). unfold cols_call in E. apply bind_Ok_inv in E as (cs & E & _). eauto.
  - exact (fine_all len No nthreads pt P Y0 F Hl HNo Hth Hin Hpt HL HQ Hc).
Qed.
