(** ProofsStatus.v - the possible status codes, and the status of a stopped call. *)
From Coq Require Import ZifyBool ZifyNat.
From Verif Require Import Base BaseLemmas ModelSir ModelArr ModelSmp ProofsLocal ProofsLocalArr ProofsSmp ProofsCall.

(** Partial correctness: the result, if there is one, satisfies P. *)
Definition okp {A} (P : A -> Prop) (m : res A) : Prop := forall a, m = Ok a -> P a.

Lemma okp_bind {A B} (P : A -> Prop) (Q : B -> Prop) (m : res A) (f : A -> res B) :
  okp P m -> (forall a, P a -> okp Q (f a)) -> okp Q (bind m f).
Proof. intros Hm Hf b Hb. apply bind_Ok_inv in Hb as (a & Ha & Hb). exact (Hf a (Hm a Ha) b Hb). Qed.
Lemma okp_any {A} (m : res A) : okp (fun _ => True) m.
Proof. intros a _. exact I. Qed.
Lemma okp_Ok {A} (P : A -> Prop) a : P a -> okp P (Ok a).
Proof. intros H b [= <-]. exact H. Qed.

Lemma okp_while {S A} (I : S -> Prop) (Q : A -> Prop) cond body :
  (forall s, I s -> okp (call_ I Q) (body s)) ->
  forall fuel s, I s -> okp (call_ I Q) (while (A:=A) fuel cond body s).
Proof.
  intros Hb. induction fuel as [|f IH]; intros s Hs r; cbn [while]; destruct (cond s); try discriminate.
  - intros [= <-]. exact Hs.
  - destruct (body s) as [[s'|a]|u|] eqn:E; try discriminate.
    + apply IH. exact (Hb s Hs _ E).
    + intros [= <-]. exact (Hb s Hs _ E).
  - intros [= <-]. exact Hs.
Qed.

Section Status.
  Context {N : Num} (K : idx_kind).
  Local Notation buf := (list N).
  Local Notation st := (buf * SIRError)%type.
  Context (lvl : ErrorLevel).

  (** 0 or the code of the requested level. *)
  Definition code_ok (e : SIRError) : Prop := e = err_none \/ e = dream_out_of_bounds_err lvl.
  Definition sok (s : st) : Prop := code_ok (snd s).

  Lemma put_code bl att n base c s : sok s -> okp (call_ sok sok) (put (N:=N) K bl att lvl n base c s).
  Proof.
    intros Hs. unfold put. destruct s as [h e]. apply (okp_bind (fun _ => True)); [apply okp_any|].
    intros it _. destruct (_ && _).
    - apply (okp_bind (fun _ => True)); [apply okp_any|]. intros h' _. apply okp_Ok. exact Hs.
    - destruct (bail _ _ _); apply okp_Ok; right; reflexivity.
  Qed.

  Lemma scan_code {A} (Q : A -> Prop) fuel x0 xmax d (pt : N -> st -> res (ctl st A)) s :
    (forall x s, sok s -> okp (call_ sok Q) (pt x s)) -> sok s ->
    okp (call_ sok Q) (scan fuel x0 xmax d pt s).
  Proof.
    intros Hpt Hs. unfold scan. apply (okp_bind (call_ (fun xs : N * st => sok (snd xs)) Q)).
    - apply okp_while; [|exact Hs]. intros [x s0] Hs0. apply (okp_bind (call_ sok Q)); [now apply Hpt|].
      intros [s1|a] H1; apply okp_Ok; exact H1.
    - intros [[x s1]|a] H1; apply okp_Ok; exact H1.
  Qed.

  Lemma scanner_code fuel Sc att n base h : okp sok (run_scanner (N:=N) K fuel Sc att lvl n base h).
  Proof.
    unfold run_scanner. apply (okp_bind (fun _ => True)); [apply okp_any|]. intros h' _.
    apply (okp_bind (call_ sok sok)).
    - unfold run_loops.
      assert (H0 : sok (h', err_none)) by (left; reflexivity).
      destruct (sc_outer Sc).
      + apply scan_code; [|exact H0]. intros y s Hs. apply scan_code; [|exact Hs].
        intros x s0 Hs0. now apply put_code.
      + apply scan_code; [|exact H0]. intros x s0 Hs0. now apply put_code.
    - intros [s|s] Hs; apply okp_Ok; exact Hs.
  Qed.

  Lemma arr_code p c xm ym rm xo yo zo delay elem :
    (forall x y z d w h, okp sok (elem x y z d w h)) ->
    forall left n s, sok s -> okp sok (arr_elems (N:=N) p c xm ym rm xo yo zo delay elem n left s).
  Proof.
    intros He. induction left as [|l IH]; intros n s Hs; cbn [arr_elems]; [now apply okp_Ok|].
    destruct s as [h e]. apply (okp_bind (fun _ => True)); [apply okp_any|]. intros [[f s] w] _.
    do 3 (apply (okp_bind (fun _ => True)); [apply okp_any|]; intros ? _).
    apply (okp_bind sok); [apply He|]. intros s' Hs'. destruct (SIRError_eqb _ _); [now apply okp_Ok|now apply IH].
  Qed.

  Lemma discs_code gr n disc : (forall R i h, okp sok (disc R i h)) ->
    forall left i s, sok s -> okp (call_ sok sok) (annu_discs (N:=N) gr n disc i left s).
  Proof.
    intros Hd. induction left as [|l IH]; intros i s Hs; cbn [annu_discs]; [now apply okp_Ok|].
    apply (okp_bind (fun _ => True)); [apply okp_any|]. intros g _. destruct (_ && _).
    - apply (okp_bind (fun _ => True)); [apply okp_any|]. intros hd _. apply IH. exact Hs.
    - apply (okp_bind sok); [apply Hd|]. intros s' Hs'. destruct (SIRError_eqb _ _); [now apply okp_Ok|now apply IH].
  Qed.

  Theorem serial_code fuel T q att xo yo zo delay base h :
    okp sok (serial (N:=N) K fuel T q att lvl xo yo zo delay base h).
  Proof.
    destruct T; cbn [serial].
    1-7: apply scanner_code.
    1-3: unfold arr_serial; (apply (okp_bind (fun _ => True)); [apply okp_any|]; intros h' _;
         apply (okp_bind (fun _ => True)); [apply okp_any|]; intros [[xm ym] rm] _;
         apply arr_code; [intros; apply scanner_code|left; reflexivity]).
    unfold annu_serial. apply (okp_bind (fun _ => True)); [apply okp_any|]. intros h' _.
    apply (okp_bind (call_ sok sok)); [apply discs_code; [intros; apply scanner_code|left; reflexivity]|].
    intros [[hd e]|[hd e]] Hs; [|apply okp_Ok; exact Hs].
    do 3 (apply (okp_bind (fun _ => True)); [apply okp_any|]; intros ? _).
    apply okp_Ok. exact Hs.
  Qed.
End Status.

(** ** A stopped call *)
Section Stop.
  Context {N : Num}.
  Local Notation buf := (list N).
  Local Notation st := (buf * SIRError)%type.
  Variable pt : Z -> buf -> res st.

  (** The flag goes down only through CTRL-C or through a worker that has
      recorded an error. *)
  Definition recorded (t : thread) : Prop :=
    match t_pc t with PFlag err => err <> err_none -> t_err t <> err_none | _ => True end.
  Record SInv (cc : bool) (s : gstate (N:=N)) : Prop := {
    si_rec : forall t, In t (g_threads s) -> recorded t;
    si_stop : g_running s = false -> cc = true \/ exists t, In t (g_threads s) /\ t_err t <> err_none
  }.

  Lemma upd_in {A} (l : list A) i x y : In y (upd l i (fun _ => x)) -> y = x \/ In y l.
  Proof.
    revert i; induction l as [|a l IH]; intros [|i]; cbn; auto.
    - intros [ -> |H]; auto.
    - intros [ -> |H]; auto. destruct (IH i H); auto.
  Qed.
  Lemma in_upd_new {A} (l : list A) i x t : nth_error l i = Some t -> In x (upd l i (fun _ => x)).
  Proof. revert i; induction l as [|a l IH]; intros [|i]; cbn; try discriminate; [auto|intros E; right; eapply IH; eauto]. Qed.
  Lemma in_upd_other {A} (l : list A) i x t u : nth_error l i = Some t -> In u l -> u = t \/ In u (upd l i (fun _ => x)).
  Proof.
    revert i; induction l as [|a l IH]; intros [|i]; cbn; try discriminate.
    - intros [= ->] [ -> |H]; auto.
    - intros E [ -> |H]; auto. destruct (IH i E H); auto.
  Qed.

  Lemma thread_step_rec H r t H' r' t' : recorded t -> thread_step pt H r t = Ok (H', r', t') ->
    recorded t' /\ (t_err t <> err_none -> t_err t' <> err_none) /\
    (r' = false -> r = false \/ t_err t' <> err_none).
  Proof.
    intros Hrec. unfold thread_step. unfold recorded in Hrec. destruct (t_pc t) as [|err| |] eqn:Epc.
    - destruct (t_n t <? t_stop t).
      + intros E. apply bind_Ok_inv in E as ([h1 e1] & _ & E). injection E as <- <- <-.
        unfold recorded; cbn [t_pc t_err]. split; [|split; [|auto]].
        * intros He. destruct (SIRError_eqb_spec e1 err_none); [contradiction|exact He].
        * intros Ht. destruct (SIRError_eqb_spec e1 err_none); auto.
      + intros [= <- <- <-]. unfold recorded; cbn. auto.
    - intros [= <- <- <-]. unfold recorded; cbn [t_pc t_err]. split; auto. split; auto.
      destruct (SIRError_eqb_spec err err_oob) as [ -> |]; auto. intros _. right. apply Hrec. discriminate.
    - destruct r; intros [= <- <- <-]; unfold recorded; cbn; auto.
    - intros [= <- <- <-]. unfold recorded. rewrite Epc. auto.
  Qed.

  Lemma gstep_sinv cc s e s' : SInv cc s -> gstep pt s e = Ok s' -> SInv (cc || is_ctrlc e) s'.
  Proof.
    intros [Hr Hs] E. destruct e as [i|]; cbn [gstep is_ctrlc] in *.
    - rewrite orb_false_r. destruct (nth_error (g_threads s) i) as [t|] eqn:Ei.
      + apply bind_Ok_inv in E as ([[H' r'] t'] & Et & E). injection E as <-. cbn.
        destruct (thread_step_rec _ _ _ _ _ _ (Hr t (nth_error_In _ _ Ei)) Et) as (R1 & R2 & R3).
        split; cbn [g_threads g_running].
        * intros u Hu. apply upd_in in Hu as [ -> |Hu]; auto.
        * intros Hf. destruct (R3 Hf) as [Hf0|He].
          -- destruct (Hs Hf0) as [|(u & Hu & Eu)]; auto. right.
             destruct (in_upd_other _ i t' t u Ei Hu) as [ -> |Hu'].
             ++ exists t'. split; [eapply in_upd_new; eauto|auto].
             ++ exists u. auto.
          -- right. exists t'. split; auto. eapply in_upd_new; eauto.
      + injection E as <-. split; auto.
    - injection E as <-. split; cbn; auto. intros _. left. apply orb_true_r.
  Qed.

  Lemma gsteps_sinv sch : forall cc s s', SInv cc s -> gsteps pt s sch = Ok s' -> SInv (cc || existsb is_ctrlc sch) s'.
  Proof.
    induction sch as [|e sch IH]; intros cc s s' Hi E; cbn [gsteps existsb] in *.
    - injection E as <-. now rewrite orb_false_r.
    - apply bind_Ok_inv in E as (s1 & E1 & E2). rewrite orb_assoc. eapply IH; eauto. eapply gstep_sinv; eauto.
  Qed.

  Lemma init_sinv No n H : SInv false (init No n H).
  Proof.
    split; cbn; [|discriminate]. intros t Ht. apply in_map_iff in Ht as (i & <- & _). exact I.
  Qed.
End Stop.

Section StopCall.
  Context {N : Num} (K : idx_kind) (J : job N).
  Hypothesis W : wf_job K J.
  Local Notation nt := (nt (j_q J)).
  Local Notation No := (j_No J).
  Variables (nthreads : Z) (H0 : list N).
  Hypothesis Hth : 1 <= nthreads.
  Hypothesis HH0 : length H0 = Z.to_nat (No * nt).

  Lemma alone_code n c c' e : alone K J n c = Ok (c', e) -> code_ok (j_lvl J) e.
  Proof.
    unfold alone. intros E. do 4 (apply bind_Ok_inv in E as (? & _ & E)).
    exact (serial_code K (j_lvl J) _ _ _ _ _ _ _ _ _ _ _ E).
  Qed.

  (** A call stopped by an out-of-bounds condition (no CTRL-C) reports it. *)
  Theorem call_stopped_status sch H' stt : existsb is_ctrlc sch = false -> 1 < nthreads ->
    call K J nthreads sch H0 = Ok (Some (H', stt, false)) -> stt = err_oob.
  Proof.
    intros Hcc Hgt E. apply (call_inv K J) in E as (s & Es & E).
    destruct (all_done s) eqn:Ed; [|discriminate]. injection E as -> Est Er.
    pose proof (gsteps_inv nt No nthreads (point K J) (colf K J) H0 (wj_nt K J W) (wj_No K J W) Hth HH0 (Hpt K J W) (Hlen K J W)
                  sch _ _ _ (init_inv nt No nthreads (point K J) (colf K J) H0 (wj_No K J W) Hth HH0 (Hpt K J W) (Hlen K J W)) Es) as GI.
    pose proof (gsteps_sinv (point K J) sch _ _ _ (init_sinv No nthreads H0) Es) as SI.
    rewrite Hcc in SI. cbn [orb] in SI.
    destruct (si_stop _ _ SI (eq_sym Er)) as [|(t & Ht & Hte)]; [discriminate|].
    assert (Hcode : dream_out_of_bounds_err (j_lvl J) = err_oob).
    { destruct (gi_run _ _ _ _ _ _ _ GI (eq_sym Er)) as [Hx|(n & c & Hn & HR & _)]; [rewrite Hcc in Hx; discriminate|].
      apply (result_alone K J H0) in HR; auto. apply alone_code in HR as [|]; congruence. }
    assert (Hall : forall u, In u (g_threads s) -> t_err u = err_none \/ t_err u = err_oob).
    { intros u Hu. apply In_nth_error in Hu as (i & Hi).
      destruct (SIRError_eqb_spec (t_err u) err_none) as [|Hne]; auto. right.
      destruct (ti_err _ _ _ _ _ _ _ _ _ (gi_t _ _ _ _ _ _ _ GI i u Hi) Hne) as (n & c & Hr & Hp & HR).
      assert (Hn : 0 <= n < No).
      { assert (Hi' : (i < Z.to_nat nthreads)%nat).
        { rewrite <- (gi_num _ _ _ _ _ _ _ GI). apply nth_error_Some. congruence. }
        pose proof (part_range No nthreads (wj_No K J W) Hth (Z.of_nat i) ltac:(lia)) as [R0 R1].
        unfold t_start, t_end in Hr. lia. }
      apply (result_alone K J H0) in HR; auto. apply alone_code in HR as [|]; congruence. }
    unfold call_status in Est. replace (1 <? nthreads) with true in Est by lia. rewrite Est.
    destruct (is_sphere (j_T J)).
    - apply (proj1 (join_sphere_spec (g_threads s))). exists t. split; auto. destruct (Hall t Ht); [contradiction|auto].
    - destruct (SIRError_eqb_spec (join_any (g_threads s)) err_none) as [E0|Hne].
      + exfalso. apply Hte. apply (proj1 (join_any_none (g_threads s)) E0 t Ht).
      + destruct (join_any_in _ Hne) as (u & Hu & Eu). rewrite <- Eu. destruct (Hall u Hu); congruence.
  Qed.
End StopCall.
