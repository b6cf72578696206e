(** ProofsDgw2.v - status of stopped calls; das status codes. *)
From Coq Require Import Lia ZifyBool ZifyNat.
From Verif Require Import Base BaseLemmas ModelSir ModelArr ModelSmp ModelDas SpecSmp ProofsLocal ProofsLocalArr ProofsSmp ProofsStatus ProofsCallG ProofsSmp2 ProofsDas.

Section Stopped.
  Context {N : Num}.
  Local Notation buf := (list N).
  Local Notation st := (buf * SIRError)%type.
  Variables (nt No nthreads : Z) (pt : Z -> buf -> res st) (colf : Z -> buf -> res st) (H0 : buf).
  Hypothesis Hnt : 0 <= nt.
  Hypothesis HNo : 0 <= No.
  Hypothesis Hth : 1 <= nthreads.
  Hypothesis HH0 : length H0 = Z.to_nat (No * nt).
  Hypothesis Hpt : forall n H, 0 <= n < No -> length H = Z.to_nat (No * nt) ->
    pt n H = rmap (fun s => (set_col nt n (fst s) H, snd s)) (colf n (col nt n H)).
  Hypothesis Hlen : forall n c c' e, length c = Z.to_nat nt -> colf n c = Ok (c', e) -> length c' = Z.to_nat nt.
  Variable code : SIRError.
  Hypothesis Hcode : forall n c e, 0 <= n < No -> colf n (col nt n H0) = Ok (c, e) -> e = err_none \/ e = code.

  Lemma gcall_stopped sch H' stt : existsb is_ctrlc sch = false -> 1 < nthreads ->
    gcall No nthreads pt H0 sch = Ok (Some (H', stt, false)) -> stt = err_oob.
  Proof.
    intros Hcc Hgt E. apply gcall_inv in E as (s & Es & E).
    destruct (all_done s) eqn:Ed; [|discriminate]. injection E as -> Est Er.
    pose proof (gsteps_inv nt No nthreads pt colf H0 Hnt HNo Hth HH0 Hpt Hlen sch _ _ _
      (init_inv nt No nthreads pt colf H0 HNo Hth HH0 Hpt Hlen) Es) as GI.
    pose proof (gsteps_sinv pt sch _ _ _ (init_sinv No nthreads H0) Es) as SI.
    rewrite Hcc in SI. cbn [orb] in SI.
    destruct (si_stop _ _ SI (eq_sym Er)) as [|(t & Ht & Hte)]; [discriminate|].
    assert (Hc : code = err_oob).
    { destruct (gi_run _ _ _ _ _ _ _ GI (eq_sym Er)) as [Hx|(n & c & Hn & HR & _)]; [rewrite Hcc in Hx; discriminate|].
      destruct (Hcode n c err_oob Hn HR); congruence. }
    assert (Hall : forall u, In u (g_threads s) -> t_err u = err_none \/ t_err u = err_oob).
    { intros u Hu. apply In_nth_error in Hu as (i & Hi).
      destruct (SIRError_eqb_spec (t_err u) err_none) as [|Hne]; auto. right.
      destruct (ti_err _ _ _ _ _ _ _ _ _ (gi_t _ _ _ _ _ _ _ GI i u Hi) Hne) as (n & c & Hr & Hp & HR).
      assert (Hn : 0 <= n < No).
      { assert (Hi' : (i < Z.to_nat nthreads)%nat).
        { rewrite <- (gi_num _ _ _ _ _ _ _ GI). apply nth_error_Some. congruence. }
        pose proof (part_range No nthreads HNo Hth (Z.of_nat i) ltac:(lia)) as [R0 R1].
        unfold t_start, t_end in Hr. lia. }
      destruct (Hcode n c _ Hn HR); congruence. }
    replace (1 <? nthreads) with true in Est by lia. rewrite Est.
    destruct (SIRError_eqb_spec (join_any (g_threads s)) err_none) as [E0|Hne].
    - exfalso. apply Hte. apply (proj1 (join_any_none (g_threads s)) E0 t Ht).
    - destruct (join_any_in _ Hne) as (u & Hu & Eu). rewrite <- Eu. destruct (Hall u Hu); congruence.
  Qed.
End Stopped.

Section DasCode.
  Context {N : Num} (K : idx_kind).
  Local Notation buf := (list N).
  Local Notation ist := (N * SIRError)%type.
  Variable lvl : ErrorLevel.
  Definition dok (s : ist) : Prop := snd s = err_none \/ snd s = dream_out_of_bounds_err lvl.
  Definition dctl (c : ctl ist ist) : Prop := match c with Go s => dok s | Ret s => dok s end.
  Definition okd {A} (P : A -> Prop) (r : res A) : Prop := forall a, r = Ok a -> P a.
  Lemma okd_bind {A B} (P : A -> Prop) (Q : B -> Prop) (m : res A) (f : A -> res B) :
    okd P m -> (forall a, P a -> okd Q (f a)) -> okd Q (bind m f).
  Proof. intros Hm Hf b E. apply bind_Ok_inv in E as (a & Ea & E). exact (Hf a (Hm a Ea) b E). Qed.
  Lemma okd_any {A} (m : res A) : okd (fun _ => True) m.  Proof. intros a _. exact I. Qed.
  Lemma okd_Ok {A} (P : A -> Prop) a : P a -> okd P (Ok a).  Proof. intros H b [= <-]. exact H. Qed.
  Lemma okd_for n (body : Z -> ist -> res (ctl ist ist)) : (forall i s, dok s -> okd dctl (body i s)) ->
    forall i s, dok s -> okd dctl (for_ctl_from i n body s).
  Proof.
    intros Hb. induction n as [|n IH]; intros i s Hs; cbn [for_ctl_from]; [now apply okd_Ok|].
    apply (okd_bind dctl); [now apply Hb|]. intros [s'|a] Ha; [now apply IH|now apply okd_Ok].
  Qed.
  Lemma okd_put Y len off arg s : dok s -> okd dctl (das_put (N:=N) K Y len off lvl arg s).
  Proof.
    intros Hs. unfold das_put. destruct s as [im e]. apply (okd_bind (fun _ => True)); [apply okd_any|]. intros k _.
    destruct (_ && _).
    - apply (okd_bind (fun _ => True)); [apply okd_any|]. intros y _. apply okd_Ok. exact Hs.
    - destruct (SIRError_eqb _ _); apply okd_Ok; right; reflexivity.
  Qed.
  Lemma okd_finish (m : res (ctl ist ist)) : okd dctl m -> okd dok (do c <- m; Ok (finish c)).
  Proof. intros H. apply (okd_bind dctl); [exact H|]. intros [s|s] Hs; now apply okd_Ok. Qed.
  Ltac dany := apply (okd_bind (fun _ => True)); [apply okd_any|]; intros ? _.
  Lemma das_value_code (J : das_job N) n : d_lvl J = lvl -> okd dok (das_value K J n).
  Proof.
    intros EL. assert (H0 : dok (nofZ 0, err_none)) by (left; reflexivity).
    unfold das_value. do 4 dany. rewrite EL. destruct (das_method J).
    - apply okd_finish. apply okd_for; [|exact H0]. intros i s Hs. apply (okd_bind (fun _ => True)); [apply okd_any|]. intros [[gx gy] gz] _.
      now apply okd_put.
    - apply okd_finish. apply okd_for; [|exact H0]. intros i s Hs. apply (okd_bind (fun _ => True)); [apply okd_any|]. intros [[gx gy] gz] _.
      apply okd_for; [|exact Hs]. intros j s' Hs'. apply (okd_bind (fun _ => True)); [apply okd_any|]. intros [[hx hy] hz] _. now apply okd_put.
    - unfold das_rca_serial_coltx. apply (okd_bind (fun _ => True)); [apply okd_any|]. intros [[[y1 y2] x1] x2] _.
      apply okd_finish. apply okd_for; [|exact H0]. intros i s Hs. dany.
      apply okd_for; [|exact Hs]. intros j s' Hs'. dany. now apply okd_put.
    - unfold das_rca_serial_rowtx. apply (okd_bind (fun _ => True)); [apply okd_any|]. intros [[[y1 y2] x1] x2] _.
      apply okd_finish. apply okd_for; [|exact H0]. intros i s Hs. dany.
      apply okd_for; [|exact Hs]. intros j s' Hs'. dany. now apply okd_put.
  Qed.
End DasCode.

(** A das call with several workers that was stopped, and not by CTRL-C,
    reports an out-of-bounds error. *)
Lemma das_call_stopped {N : Num} K (J : das_job N) nthreads Im0 sch Im stt : das_wf J -> 1 < nthreads ->
  Z.of_nat (length Im0) = d_No J -> no_ctrlc sch ->
  das_call K J nthreads sch Im0 = Ok (Some (Im, stt, false)) -> stt = err_oob.
Proof.
  intros W Hth HI Hc E.
  refine (gcall_stopped 1 (d_No J) nthreads (das_point K J) (das_col K J) Im0 ltac:(lia) (dw_No J W) ltac:(lia) ltac:(lia)
    (das_Hpt K J) (das_Hlen K J) (dream_out_of_bounds_err (d_lvl J)) _ sch Im stt (existsb_ctrlc sch Hc) Hth E).
  intros n c e Hn Ec. unfold das_col in Ec. replace ((0 <=? n) && (n <? d_No J))%bool with true in Ec by lia.
  apply bind_Ok_inv in Ec as ([im e'] & Ev & Ec). cbn in Ec. injection Ec as _ <-.
  exact (das_value_code K (d_lvl J) J n eq_refl _ Ev).
Qed.
Lemma das_call_one {N : Num} K (J : das_job N) Im0 sch Im stt r : das_call K J 1 sch Im0 = Ok (Some (Im, stt, r)) -> stt = err_none.
Proof.
  unfold das_call. intros E. apply bind_Ok_inv in E as (s & _ & E). destruct (all_done s); [|discriminate]. now injection E.
Qed.
