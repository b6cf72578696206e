(** PropStopAny.v - property theorems C06 and C43 in every medium, lossless or
    absorbing. *)
From Coq Require Strings.String Strings.Ascii.
Import Coq.Strings.String.StringSyntax.
From Coq Require Import Floats.
From Verif Require Import Base BaseLemmas ModelSir ModelArr ModelSmp NumF ProofsLocal ProofsLocalArr
  ProofsSmp ProofsCall SpecSmp ProofsSmp2 SpecSir ProofsEnum ProofsErr ProofsStatus ExJob
  ModelGw SpecGw ProofsGw ProofsGw2 ProofsGw3 ProofsGw4 ProofsGw5 PropErr PropGw.
Local Open Scope string_scope.
Local Open Scope Z_scope.

(** C06 with or without attenuation: the out-of-bounds error iff some source
    point is outside the record; only the contributions before the first such
    point have been accumulated; without one, the response of 'ignore'. *)
Theorem C06_stop_any_medium : forall (N : Num) K fuel (T : transducer N) q att lvl xo yo zo delay pts h h' e,
  visited fuel T q xo yo zo delay = Some pts -> representable K pts -> length h = Z.to_nat (nt q) ->
  (lvl = lvl_stop \/ lvl = lvl_parallel_stop) ->
  serial K fuel T q att lvl xo yo zo delay 0 h = Ok (h', e) ->
  emit_all att (nt q) (before_first_out (nt q) pts) (start T (nt q) h) = Ok h' /\
  (e = err_oob <-> exists c, In c pts /\ in_window (nt q) c = false) /\
  ((forall c, In c pts -> in_window (nt q) c = true) ->
     e = err_none /\ rmap fst (serial K fuel T q att lvl_ignore xo yo zo delay 0 h) = Ok h').
Proof.
  intros N K fuel T q att lvl xo yo zo delay pts h h' e Hv Hr Hh Hl E.
  rewrite (serial_bail K fuel T q att lvl xo yo zo delay pts h Hv Hr Hh Hl) in E.
  destruct (emit_all att (nt q) (before_first_out (nt q) pts) (start T (nt q) h)) as [h1| |] eqn:EE; try discriminate.
  cbn [bind] in E. injection E as -> <-. split; [reflexivity|]. split.
  - unfold all_in. destruct (forallb (in_window (nt q)) pts) eqn:E.
    + split; [discriminate|]. intros (c & Hc & F). rewrite forallb_forall in E. rewrite (E c Hc) in F. discriminate.
    + split; auto. intros _. clear - E. induction pts as [|c pts IH]; [discriminate|].
      cbn [forallb] in E. destruct (in_window (nt q) c) eqn:F.
      * destruct (IH E) as (c' & Hin & Hc'). exists c'. split; [right; exact Hin|exact Hc'].
      * exists c. split; [left; reflexivity|exact F].
  - intros Hall. assert (E : all_in (nt q) pts = true) by (apply forallb_forall; exact Hall).
    rewrite E. split; [reflexivity|].
    rewrite (serial_nobail K fuel T q att lvl_ignore xo yo zo delay pts h Hv Hr Hh) by (unfold no_bail; auto).
    rewrite before_first_out_all in EE by exact E. rewrite EE. reflexivity.
Qed.
Print Assumptions C06_stop_any_medium.

(** C43 with or without attenuation, any number of workers: the matrix exactly
    when nothing is out of bounds. *)
Theorem C43_any_medium : forall (N : Num) fuel c2r fe f nlhs hw env sch (junk : list N) args T q alpha No ro dty del o,
  documented fe f args T q alpha lvl_stop No ro dty del ->
  0 <= nlhs <= 2 -> 0 <= nt q -> keeps_length c2r -> 0 <= hw -> rings_in_time fe T q ->
  no_ctrlc sch ->
  let J := requested fuel c2r T q alpha lvl_stop No ro dty del in
  (forall n xo yo zo d, 0 <= n < No -> point_is J n xo yo zo d -> exists pts,
     visited fuel T q xo yo zo d = Some pts /\ representable (idx_of fe) pts) ->
  gateway fuel c2r fe f nlhs hw env sch junk args = Ok (Some o) ->
  let outside := exists n xo yo zo d pts c, 0 <= n < No /\ point_is J n xo yo zo d /\
    visited fuel T q xo yo zo d = Some pts /\ In c pts /\ in_window (nt q) c = false in
  (outside /\ o = if 1 <? num_threads hw env No then ErrOutOfBounds else ErrCtrlC) \/
  (~ outside /\ exists H w e, o = Returned H (nt q) No w e).
Proof.
  intros N fuel c2r fe f nlhs hw env sch junk args T q alpha No ro dty del o D Hl Hnt Hk Hhw Hf Hc J Hv E outside.
  pose proof (documented_wf fuel c2r fe f args T q alpha lvl_stop No ro dty del Hk Hnt Hf D) as W. fold J in W.
  pose proof (wj_No _ _ W) as HN. change (j_No J) with No in HN.
  assert (Z0 : length (zeros (N:=N) (nt q)) = Z.to_nat (nt q)) by apply repeat_length.
  destruct (C41_documented N fuel c2r fe f nlhs hw env sch junk args T q alpha lvl_stop No ro dty del o D Hl Hnt Hk Hhw Hf Hc E)
    as [(H & w & e & -> & _ & Hcol)|(Ho & n & c & Hn & Hp)].
  - cbv zeta in Hcol. fold J in Hcol. right. split; [|eauto]. intros (n & xo & yo & zo & d & pts & c & Hn & Hp & Hvis & Hin & Hout).
    destruct (Hv n xo yo zo d Hn Hp) as (pts' & Hvis' & Hr). rewrite Hvis in Hvis'. injection Hvis' as <-.
    destruct (Hcol n Hn) as (e' & Hne & Hs). specialize (Hs xo yo zo d Hp).
    destruct (C06_stop_any_medium N (idx_of fe) fuel T q _ lvl_stop xo yo zo d pts _ _ _ Hvis Hr Z0 (or_introl eq_refl) Hs) as (_ & Hiff & _).
    apply Hne, Hiff. eauto.
  - cbv zeta in Hp. fold J in Hp. left. split.
    + destruct (point_is_ex _ J n W Hn) as (xo & yo & zo & d & Hpt).
      destruct (Hv n xo yo zo d Hn Hpt) as (pts & Hvis & Hr).
      specialize (Hp xo yo zo d Hpt).
      destruct (C06_stop_any_medium N (idx_of fe) fuel T q _ lvl_stop xo yo zo d pts _ _ _ Hvis Hr Z0 (or_introl eq_refl) Hp) as (_ & Hiff & _).
      destruct (proj1 Hiff eq_refl) as (c' & Hin & Hout).
      exists n, xo, yo, zo, d, pts, c'. auto.
    + rewrite (gateway_runs _ _ _ _ _ _ _ _ _ _ J (documented_call fuel c2r fe f nlhs args T q alpha lvl_stop No ro dty del Hl D)) in E.
      destruct (run_outcome fe nlhs hw env junk J W Hhw sch o Hc E) as [(H & w & e & -> & _)|(-> & _)].
      * destruct Ho; discriminate.
      * change (j_No J) with No. reflexivity.
Qed.
Print Assumptions C43_any_medium.

(** Both outcomes occur in an absorbing medium, through every front end: 25
    samples hold all arrivals, 18 do not; one worker reports CTRL-C. *)
Definition ex_mat : value FI := row [1; 1500; 0.5]%float.
Definition absorbing_args (nt : float) : list (value FI) :=
  [ex_Ro; row [1; 1]%float; row [0.5; 0.5; 0x1.47ae147ae147bp-5; nt]%float; num1 6%float; ex_mat; VStr "stop"].
Local Ltac by_vm := match goal with |- ?a = ?b => vm_cast_no_check (eq_refl b) end.
Example C43_any_medium_ex : forall fe,
  nlt (n:=FI) neps 0.5%float = true /\
  returned (run_ex fe FRect 2 (absorbing_args 25%float)) = true /\
  outcome_is_oob (run_ex fe FRect 2 (absorbing_args 18%float)) = true /\
  outcome_is_ctrlc (run_ex fe FRect 1 (absorbing_args 18%float)) = true.
Proof. intros fe. split; [by_vm|]. destruct fe; repeat split; by_vm. Qed.
