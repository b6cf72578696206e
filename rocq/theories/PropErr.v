(** PropErr.v - property theorems: error levels (C05-C08, C10), termination
    (C12) and non-termination (C13). *)
From Coq Require Import Reals Floats Lra.
From Verif Require Import Base BaseLemmas ModelSir ModelArr ModelSmp NumF NumR SpecSir SpecSmp SpecRayleigh
  ProofsLocal ProofsLocalArr ProofsSmp ProofsCall ProofsSmp2 ProofsEnum ProofsErr ProofsStatus ProofsR
  ProofsRayleigh ProofsTerm ExJob PropSmp.
Open Scope Z_scope.

(** C05: levels 'ignore' and 'warn', any arithmetic, lossless: exactly the
    source points inside the record are accumulated, in order; the samples do
    not depend on the level. *)
Theorem C05_ignore_warn : forall (N : Num) K fuel (T : transducer N) q xo yo zo delay pts h,
  visited fuel T q xo yo zo delay = Some pts -> representable K pts -> length h = Z.to_nat (nt q) ->
  exists e1 e2,
    serial K fuel T q None lvl_ignore xo yo zo delay 0 h = Ok (accumulate (nt q) pts (start T (nt q) h), e1) /\
    serial K fuel T q None lvl_warn xo yo zo delay 0 h = Ok (accumulate (nt q) pts (start T (nt q) h), e2).
Proof.
  intros N K fuel T q xo yo zo delay pts h Hv Hr Hh.
  rewrite !(serial_nobail K fuel T q None _ xo yo zo delay pts h Hv Hr Hh) by (unfold no_bail; auto).
  rewrite !emit_all_lossless by (apply length_start; exact Hh). cbn [bind]. eauto.
Qed.
Print Assumptions C05_ignore_warn.

(** With attenuation too, the two levels give the same samples. *)
Theorem C05_attenuated : forall (N : Num) K fuel (T : transducer N) q att xo yo zo delay pts h,
  visited fuel T q xo yo zo delay = Some pts -> representable K pts -> length h = Z.to_nat (nt q) ->
  rmap fst (serial K fuel T q att lvl_ignore xo yo zo delay 0 h) =
  rmap fst (serial K fuel T q att lvl_warn xo yo zo delay 0 h).
Proof.
  intros N K fuel T q att xo yo zo delay pts h Hv Hr Hh.
  rewrite !(serial_nobail K fuel T q att _ xo yo zo delay pts h Hv Hr Hh) by (unfold no_bail; auto).
  destruct (emit_all att (nt q) pts (start T (nt q) h)); reflexivity.
Qed.
Print Assumptions C05_attenuated.

(** C06: 'stop' and 'parallel_stop': the out-of-bounds error iff some source
    point is outside the record; the contributions before the first such point
    have been accumulated; without one the response is that of 'ignore'. *)
Theorem C06_stop : forall (N : Num) K fuel (T : transducer N) q lvl xo yo zo delay pts h,
  visited fuel T q xo yo zo delay = Some pts -> representable K pts -> length h = Z.to_nat (nt q) ->
  (lvl = lvl_stop \/ lvl = lvl_parallel_stop) ->
  exists e, serial K fuel T q None lvl xo yo zo delay 0 h =
            Ok (accumulate (nt q) (before_first_out (nt q) pts) (start T (nt q) h), e) /\
    (e = err_oob <-> exists c, In c pts /\ in_window (nt q) c = false) /\
    ((forall c, In c pts -> in_window (nt q) c = true) ->
       e = err_none /\
       rmap fst (serial K fuel T q None lvl xo yo zo delay 0 h) =
       rmap fst (serial K fuel T q None lvl_ignore xo yo zo delay 0 h)).
Proof.
  intros N K fuel T q lvl xo yo zo delay pts h Hv Hr Hh Hl.
  rewrite (serial_bail K fuel T q None lvl xo yo zo delay pts h Hv Hr Hh Hl).
  rewrite (serial_nobail K fuel T q None lvl_ignore xo yo zo delay pts h Hv Hr Hh) by (unfold no_bail; auto).
  rewrite !emit_all_lossless by (apply length_start; exact Hh). cbn [bind].
  eexists. split; [reflexivity|]. split.
  - unfold all_in. destruct (forallb (in_window (nt q)) pts) eqn:E.
    + split; [discriminate|]. intros (c & Hc & F). rewrite forallb_forall in E. rewrite (E c Hc) in F. discriminate.
    + split; auto. intros _. clear Hv Hr. induction pts as [|c pts IH]; [discriminate|].
      cbn [forallb] in E. destruct (in_window (nt q) c) eqn:F.
      * destruct (IH E) as (c' & Hin & Hc'). exists c'. split; [right; exact Hin|exact Hc'].
      * exists c. split; [left; reflexivity|exact F].
  - intros Hall. assert (E : all_in (nt q) pts = true) by (apply forallb_forall; exact Hall).
    rewrite E. split; [reflexivity|]. cbn [rmap fst]. now rewrite before_first_out_all by exact E.
Qed.
Print Assumptions C06_stop.

(** C07: the status of one observation point, every level. *)
Theorem C07_code : forall (N : Num) K fuel (T : transducer N) q lvl xo yo zo delay pts h h' e,
  visited fuel T q xo yo zo delay = Some pts -> representable K pts -> length h = Z.to_nat (nt q) ->
  serial K fuel T q None lvl xo yo zo delay 0 h = Ok (h', e) ->
  e = if forallb (in_window (nt q)) pts then err_none
      else match lvl with
           | lvl_ignore => err_ignore_oob
           | lvl_warn => err_warn_oob
           | lvl_stop | lvl_parallel_stop => err_oob
           | lvl_none => err_none
           end.
Proof.
  intros N K fuel T q lvl xo yo zo delay pts h h' e Hv Hr Hh E.
  assert (D : no_bail lvl \/ bails lvl) by (unfold no_bail, bails; destruct lvl; auto).
  destruct D as [D|D].
  - rewrite (serial_nobail K fuel T q None lvl xo yo zo delay pts h Hv Hr Hh D) in E.
    rewrite emit_all_lossless in E by (apply length_start; exact Hh). cbn [bind] in E. injection E as _ <-.
    unfold all_in. destruct (forallb _ _); destruct lvl; reflexivity.
  - rewrite (serial_bail K fuel T q None lvl xo yo zo delay pts h Hv Hr Hh D) in E.
    rewrite emit_all_lossless in E by (apply length_start; exact Hh). cbn [bind] in E. injection E as _ <-.
    unfold all_in. destruct (forallb _ _); destruct D as [ -> | -> ]; reflexivity.
Qed.
Print Assumptions C07_code.

(** ... and for every transducer, arrays and attenuation included, it is 0 or
    that code. *)
Theorem C07_code_any : forall (N : Num) K fuel (T : transducer N) q att lvl xo yo zo delay base h h' e,
  serial K fuel T q att lvl xo yo zo delay base h = Ok (h', e) ->
  e = err_none \/ e = dream_out_of_bounds_err lvl.
Proof. intros N K fuel T q att lvl xo yo zo delay base h h' e E. exact (serial_code K lvl fuel T q att xo yo zo delay base h _ E). Qed.
Print Assumptions C07_code_any.

(** The hypotheses of C05-C07 on a dreamrect call over doubles, with points
    inside and outside the record. *)
Example C05_ex :
  match visited 10 ex_rect (ex_samp 20) 2%float 0%float 10%float 6%float with
  | Some pts => map sample_of pts = [Some 21; Some 19; Some 21; Some 19] /\ map (in_window 20) pts = [false; true; false; true]
  | None => False
  end.
Proof. vm_compute. split; reflexivity. Qed.

(** C08, a call with several workers stopped by an out-of-bounds condition
    (and not by CTRL-C) reports it: every transducer, dreamsphere included. *)
Theorem C08_stopped_partial : forall (N : Num) K (J : job N) nthreads H0 sch H' stt,
  wf_job K J -> 1 < nthreads -> length H0 = Z.to_nat (j_No J * nt (j_q J)) -> no_ctrlc sch ->
  call K J nthreads sch H0 = Ok (Some (H', stt, false)) -> stt = err_oob.
Proof.
  intros N K J n H0 sch H' stt W Hn HL Hc E.
  exact (call_stopped_status K J W n H0 (Z.lt_le_incl _ _ Hn) HL sch H' stt (existsb_ctrlc sch Hc) Hn E).
Qed.
Print Assumptions C08_stopped_partial.
Example C08_stopped_ex : exists H',
  call SignedIdx (ex_job ex_rect lvl_stop 18) 2 (round_robin 10 2) (ex_H 18) = Ok (Some (H', err_oob, false)).
Proof. eexists. vm_compute. reflexivity. Qed.

(** C10 is false: a two-element array whose first element is out of range
    (alone it warns) and whose second one is not has status 0. *)
Definition ex_arr (g : list FI) (n : Z) : transducer FI :=
  @TArrRect FI 1%float 1%float
    (@Build_arr_par FI n g foc_none [0%float] steer_none 0%float 0%float false apod_ud [] 0%float).
Theorem C10_array_refuted : exists h1 h2,
  serial SignedIdx 10 (ex_arr [100; 0; 0]%float 1) (ex_samp 25) None lvl_warn 0%float 0%float 10%float 6%float 0 (repeat 0%float 25)
    = Ok (h1, err_warn_oob) /\
  serial SignedIdx 10 (ex_arr [100; 0; 0; 0; 0; 0]%float 2) (ex_samp 25) None lvl_warn 0%float 0%float 10%float 6%float 0 (repeat 0%float 25)
    = Ok (h2, err_none).
Proof. do 2 eexists. split; vm_compute; reflexivity. Qed.
Print Assumptions C10_array_refuted.

(** C12: for positive steps every SIR function (any parameters, any
    observation point) terminates, in exact arithmetic ... *)
Theorem C12_terminates : forall K (T : transducer EN) (dxx dyy : R) dtt ntz v c, (0 < dxx)%R -> (0 < dyy)%R ->
  exists f0, forall f, (f0 <= f)%nat -> forall att lvl xo yo zo delay base h,
    serial K f T (@Build_samp EN (Some dxx) (Some dyy) dtt ntz v c) att lvl xo yo zo delay base h <> Diverge.
Proof. exact terminates. Qed.
Print Assumptions C12_terminates.

(** ... and dreamrect visits round(a/dx) x round(b/dy) source points (halves
    rounded up). *)
Theorem C12_rect_points : forall K (q : rpar) (a b delay : R) (o : pos) ntz,
  par_ok q -> off_source q (GRect a b) o -> idx_ok K q delay (GRect a b) o ->
  exists f0, forall fuel, (f0 <= fuel)%nat -> exists pts,
    visited fuel (@TRect EN (Some a) (Some b)) (emb_samp q ntz) (Some (p_x o)) (Some (p_y o)) (Some (p_z o)) (Some delay) = Some pts /\
    length pts = (Z.to_nat (Zfloor (a / p_dx q + 1 / 2)) * Z.to_nat (Zfloor (b / p_dy q + 1 / 2)))%nat.
Proof.
  intros K q a b delay o ntz Hq Hoff Hi.
  exists (Nat.max (SpecRayleigh.count (- a / 2 + p_dx q / 2) (a / 2) (p_dx q)) (SpecRayleigh.count (- b / 2 + p_dy q / 2) (b / 2) (p_dy q))).
  intros fuel Hf. eexists. split.
  - unfold visited. cbn [scanner_of_T].
    refine (points_E q ntz fuel delay o false (GRect a b) 1 Hq I Hoff _ _); [cbn [enough]; lia|discriminate].
  - rewrite map_length. now apply rect_count.
Qed.
Print Assumptions C12_rect_points.

(** C13: the argument checks accept any dx.  For a step that does not move the
    loop variable (zero, or absorbed by rounding) no budget lets dreamrect
    return at levels 'ignore' and 'warn'; any arithmetic. *)
Theorem C13_rect_stuck_refuted : forall (N : Num) K (a b dxx dyy dtt v c : N) ntz att lvl xo yo zo delay base h,
  (lvl = lvl_ignore \/ lvl = lvl_warn) ->
  nle (nadd (ndiv (nopp b) (nofZ 2)) (ndiv dyy (nofZ 2))) (ndiv b (nofZ 2)) = true ->
  nle (nadd (ndiv (nopp a) (nofZ 2)) (ndiv dxx (nofZ 2))) (ndiv a (nofZ 2)) = true ->
  nadd (nadd (ndiv (nopp a) (nofZ 2)) (ndiv dxx (nofZ 2))) dxx = nadd (ndiv (nopp a) (nofZ 2)) (ndiv dxx (nofZ 2)) ->
  forall fuel r,
  serial K fuel (TRect a b) {| dx := dxx; dy := dyy; dt := dtt; nt := ntz; vel := v; cp := c |} att lvl xo yo zo delay base h <> Ok r.
Proof.
  intros N K a b dxx dyy dtt v c ntz att lvl xo yo zo delay base h Hl Hy Hx Hd fuel r.
  eapply (serial_stuck K (fun x => x = nadd (ndiv (nopp a) (nofZ 2)) (ndiv dxx (nofZ 2)))) with (y := nadd (ndiv (nopp b) (nofZ 2)) (ndiv dyy (nofZ 2))).
  - unfold no_bail; destruct Hl; auto.
  - reflexivity.
  - cbn. split; [exact Hy|reflexivity].
  - reflexivity.
  - intros x ->. cbn [rect_scanner sc_row row_xmax row_dx dx]. split; assumption.
Qed.
Print Assumptions C13_rect_stuck_refuted.
(** dx = 1e-20 on a 1 mm wide rectangle, over doubles; dx = 0. *)
Example C13_ex : forall fuel r dxx, dxx = 0x1.79ca10c924223p-67%float \/ dxx = 0%float ->
  serial SignedIdx fuel (@TRect FI 1%float 1%float) (@Build_samp FI dxx 0.5%float 1%float 10 1%float 1500%float)
    None lvl_warn 0%float 0%float 10%float 0%float 0 (repeat 0%float 10) <> Ok r.
Proof. intros fuel r dxx [ -> | -> ]; (apply C13_rect_stuck_refuted; [auto|vm_compute; reflexivity..]). Qed.

(** In exact arithmetic a zero or negative step never returns normally
    (levels 'ignore' and 'warn'): it loops, or the sample number leaves the
    range of the index type. *)
Theorem C13_rect_negative_refuted : forall K (a b dxx dyy : R) dtt v c ntz att lvl xo yo zo delay base h,
  (lvl = lvl_ignore \/ lvl = lvl_warn) -> (0 <= a)%R -> (dyy / 2 <= b)%R -> (dxx <= 0)%R ->
  forall fuel r,
  serial K fuel (@TRect EN (Some a) (Some b)) (@Build_samp EN (Some dxx) (Some dyy) dtt ntz v c) att lvl xo yo zo delay base h <> Ok r.
Proof.
  intros K a b dxx dyy dtt v c ntz att lvl xo yo zo delay base h Hl Ha Hb Hd fuel r.
  eapply (serial_stuck K (fun x : EN => exists s, x = Some s /\ (s <= a / 2)%R))
    with (y := Some (- b / 2 + dyy / 2)%R).
  - unfold no_bail; destruct Hl; auto.
  - reflexivity.
  - cbn [rect_scanner sc_outer row_x0 row_xmax dy]. ered. rewrite !half_E. cbn [e2 ecmp].
    split; [apply Rleb_true; lra|reflexivity].
  - cbn [rect_scanner sc_row row_x0 dx]. ered. rewrite !half_E. cbn [e2]. eexists. split; [reflexivity|lra].
  - intros x (s & -> & Hs). cbn [rect_scanner sc_row row_xmax row_dx dx]. ered. rewrite !half_E. cbn [ecmp e2].
    split; [apply Rleb_true; lra|]. eexists. split; [reflexivity|lra].
Qed.
Print Assumptions C13_rect_negative_refuted.
