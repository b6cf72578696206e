(** PropAgw.v - property theorems: whole calls of circ_sir, scirc_sir and
    rect_sir from Octave and MATLAB (C72-C75). *)
From Coq Require Import Floats Reals Lra.
From Coq Require Strings.String.
Import Coq.Strings.String.StringSyntax.
From Coquelicot Require Import Coquelicot.
From Verif Require Import Base BaseLemmas NumR NumF ModelSir ModelArr ModelSmp ModelAna SpecAna SpecRayleigh SpecArr ModelGw SpecGw
  SpecGwR ModelAgw SpecAgw ProofsLocal ProofsLocalArr ProofsSmp ProofsSmp2 SpecSmp ProofsCallG SpecSir ProofsEnum ProofsAna
  ProofsR ProofsArc ProofsArc2 ProofsAnaR ProofsAnaR2 ProofsGw ProofsGwR ExJob ProofsAgw ProofsTrap ProofsScirc PropAna PropScirc PropGwR.
From Coq Require Import ZifyBool ZifyNat.
Local Open Scope string_scope.
Local Open Scope Z_scope.
Local Ltac by_vm := match goal with |- @eq ?A ?x ?y => vm_cast_no_check (@eq_refl A y) end.

(** ** C72: memory safety

    Ordinary double arguments of consistent shape, of any values, numbers and
    sizes, with a non-empty delay: no access outside an array, on the CPU or
    the GPU, for any schedule. *)
Theorem C72_safe_partial : forall (N : Num) fe f cl nlhs hw env sch (junk : list N) items dev args,
  has_analytic fe -> ana_tidy fe f args -> ana_delay_nonempty args -> 0 <= hw ->
  (forall n vo, In n items -> nth_error args 0 = Some vo -> 0 <= n < get_m vo) ->
  no_oob (ana_gateway fe f cl nlhs hw env sch junk items dev args).
Proof.
  intros N fe f cl nlhs hw env sch junk items dev args _ T D Hh Hi.
  apply (good_no_oob (fun _ => True)). apply ana_gateway_good; auto.
Qed.
Print Assumptions C72_safe_partial.

Definition anum (x : float) : value FI := @VNum FI Full 1 1 [x].
Definition arow (l : list float) : value FI := @VNum FI Full 1 (Z.of_nat (length l)) l.
Definition apts : value FI := @VNum FI Full 2 3 ([0; 1] ++ [0; 0] ++ [10; 10])%float.
Definition arun (fe : front) (f : afunc) (hw : Z) (sch : list event) (args : list (value FI)) : res (option (ana_outcome FI)) :=
  ana_gateway fe f false 1 hw None sch [] [] [] args.

(** An empty delay is accepted and read. *)
Theorem C72_empty_delay_refuted : forall fe, has_analytic fe ->
  arun fe KCirc 2 (round_robin 10 2) [apts; anum 5; arow [0.5; 8]; @VNum FI Full 0 0 []; arow [1; 1000]]%float = UB UB_oob_read /\
  arun fe KSCirc 2 (round_robin 10 2) [apts; anum 5; arow [0.5; 8]; @VNum FI Full 0 0 []; arow [1; 1000]; anum 3]%float = UB UB_oob_read /\
  arun fe KRect 2 (round_robin 10 2) [apts; arow [5; 5]; arow [0.5; 8]; @VNum FI Full 0 0 []; arow [1; 1000]]%float = UB UB_oob_read.
Proof. intros fe [->| ->]; split; [|split| |split]; by_vm. Qed.
Print Assumptions C72_empty_delay_refuted.
(** Octave: rect_sir's geometry given as a range (5:6) is read after it was
    freed; MATLAB: given as a string it is read as doubles. *)
Theorem C72_geometry_refuted :
  arun Octave KRect 2 (round_robin 10 2) [apts; @VNum FI Temp 1 2 [5; 6]; arow [0.5; 8]; anum 0; arow [1; 1000]]%float = UB UB_oob_read /\
  arun Matlab KRect 2 (round_robin 10 2) [apts; VStr (N:=FI) "ab"; arow [0.5; 8]; anum 0; arow [1; 1000]]%float = UB UB_oob_read.
Proof. split; by_vm. Qed.
Print Assumptions C72_geometry_refuted.

(** ** C73: documented calls *)

(** Any arithmetic: without CTRL-C a call given enough steps returns a
    nt x No matrix that is the same for every number of workers, environment,
    schedule and contents of the fresh memory. *)
Theorem C73_call : forall (N : Num) fe f cl nlhs hw env sch (junk : list N) items dv args (J : ajob N) dev,
  has_analytic fe -> 0 <= nlhs <= 1 -> 0 <= hw -> ana_documented fe f args J dev -> cl = false \/ dev <> "gpu" ->
  no_ctrlc sch -> ana_fair (ana_threads (a_T J) hw env (a_No J)) (a_No J) sch ->
  exists H, ana_gateway fe f cl nlhs hw env sch junk items dv args = Ok (Some (AReturned H (a_nt J) (a_No J) false)) /\
    forall n1 s1 H1 H1', 1 <= n1 -> length H1 = Z.to_nat (a_No J * a_nt J) ->
      ana_call J n1 s1 H1 = Ok (Some (H1', true)) -> H = H1'.
Proof.
  intros N fe f cl nlhs hw env sch junk items dv args J dev F Hl Hh D Hcpu Hc Hf.
  pose proof (ana_documented_wf' fe f args J dev D) as W.
  rewrite (ana_cpu_run fe f cl nlhs hw env sch junk items dv args J dev F Hl D Hcpu).
  pose proof (ana_threads_pos (a_T J) hw env (a_No J) Hh (wa_No J W)) as Hth.
  destruct (ana_ok J W _ _ Hth (zeros_len J) (ana_sees f sch)) as (r & Er & Hr).
  assert (Hn : r <> None).
  { apply Hr. intros i Hi. rewrite steps_sees. exact (Hf i Hi). }
  destruct r as [[H b]|]; [|contradiction]. rewrite Er. cbn [bind].
  assert (Hb : b = true) by exact (ana_running J W _ _ Hth (zeros_len J) _ H b (sees_no_ctrlc f sch (or_intror Hc)) Er).
  subst b. exists H. split; [reflexivity|]. intros n1 s1 H1 H1' Hn1 L1 E1.
  exact (C46_schedule_independent N J _ n1 _ s1 _ H1 H H1' W Hth Hn1 (zeros_len J) L1 Er E1).
Qed.
Print Assumptions C73_call.

(** Exact arithmetic: the observation points ps, the delays dl. *)
Definition ana_exact (T : analytic EN) (dt v c : R) (nt : Z) (ps : list pos) (dty : DelayType) (dl : list R) : ajob EN :=
  {| a_T := T; a_dt := Some dt; a_nt := nt; a_v := Some v; a_cp := Some c; a_No := Z.of_nat (length ps);
     a_Ro := exact (coords ps); a_delay_type := dty; a_delay := exact dl |}.

Lemma obs_exact T dt v c nt ps dty dl n : wf_ajob (ana_exact T dt v c nt ps dty dl) -> (n < length ps)%nat ->
  let J := ana_exact T dt v c nt ps dty dl in let o := nth n ps origin in
  obs_x J (Z.of_nat n) = Some (p_x o) /\ obs_y J (Z.of_nat n) = Some (p_y o) /\ obs_z J (Z.of_nat n) = Some (p_z o) /\
  obs_delay J (Z.of_nat n) = Some (start_delay dty dl n).
Proof.
  intros W Hn J o. destruct (coords_nth ps n Hn) as (E1 & E2 & E3).
  unfold obs_x, obs_y, obs_z, obs_delay, J. cbn [a_Ro a_No a_delay_type a_delay ana_exact].
  replace (Z.to_nat (Z.of_nat n)) with n by lia. replace (Z.to_nat (Z.of_nat n + Z.of_nat (length ps))) with (n + length ps)%nat by lia.
  replace (Z.to_nat (Z.of_nat n + 2 * Z.of_nat (length ps))) with (n + 2 * length ps)%nat by lia.
  split; [exact (nth_error_nth _ _ _ E1)|]. split; [exact (nth_error_nth _ _ _ E2)|]. split; [exact (nth_error_nth _ _ _ E3)|].
  pose proof (wa_delay _ W) as Wd. cbn [a_delay_type a_delay a_No ana_exact] in Wd. unfold exact in Wd. rewrite map_length in Wd.
  apply nth_error_nth. unfold start_delay. destruct dty; [apply (nth_error_exact dl 0%nat); lia|]. rewrite Nat2Z.id. apply nth_error_exact; lia.
Qed.

Section Exact.
  Variables (fe : front) (f : afunc) (cl : bool) (nlhs hw : Z) (env : option Z) (sch : list event)
            (junk : list EN) (items : list Z) (dv : list EN) (args : list (value EN)) (dev : string)
            (T : analytic EN) (dt v c : R) (nt : Z) (ps : list pos) (dty : DelayType) (dl : list R).
  Let J := ana_exact T dt v c nt ps dty dl.
  Hypothesis F : has_analytic fe.
  Hypothesis Hl : 0 <= nlhs <= 1.
  Hypothesis Hh : 0 <= hw.
  Hypothesis D : ana_documented fe f args J dev.
  Hypothesis Hcpu : cl = false \/ dev <> "gpu".
  Hypothesis Hc : no_ctrlc sch.
  Hypothesis Hf : ana_fair (ana_threads T hw env (Z.of_nat (length ps))) (Z.of_nat (length ps)) sch.

  Lemma exact_run : exists H, ana_gateway fe f cl nlhs hw env sch junk items dv args =
      Ok (Some (AReturned H nt (Z.of_nat (length ps)) false)) /\
    exists n s, 1 <= n /\ ana_call J n s (zeros (N:=EN) (nt * Z.of_nat (length ps))) = Ok (Some (H, true)).
  Proof.
    pose proof (ana_documented_wf' fe f args J dev D) as W.
    pose proof (ana_cpu_run fe f cl nlhs hw env sch junk items dv args J dev F Hl D Hcpu) as E.
    pose proof (ana_threads_pos (a_T J) hw env (a_No J) Hh (wa_No J W)) as Hth.
    destruct (ana_ok J W _ _ Hth (zeros_len J) (ana_sees f sch)) as (r & Er & Hr).
    assert (Hn : r <> None).
    { apply Hr. intros i Hi. rewrite steps_sees. exact (Hf i Hi). }
    destruct r as [[H b]|]; [|contradiction]. rewrite Er in E. cbn [bind] in E.
    assert (Hb : b = true) by exact (ana_running J W _ _ Hth (zeros_len J) _ H b (sees_no_ctrlc f sch (or_intror Hc)) Er).
    subst b. exists H. split; [exact E|]. exists (ana_threads (a_T J) hw env (a_No J)), (ana_sees f sch). split; [exact Hth|exact Er].
  Qed.
End Exact.

(** circ_sir: row it of column n is the exact impulse response of the disk at
    point n and time it*dt + delay (except, as in C47, at exactly the arrival
    time of a point exactly above the edge). *)
Theorem C73_circ : forall fe cl nlhs hw env sch junk items dv args dev r dt v c nt ps dty dl,
  let J := ana_exact (@ACirc EN (Some r)) dt v c nt ps dty dl in
  has_analytic fe -> 0 <= nlhs <= 1 -> 0 <= hw -> ana_documented fe KCirc args J dev ->
  no_ctrlc sch -> ana_fair (num_threads hw env (Z.of_nat (length ps))) (Z.of_nat (length ps)) sch ->
  (0 < r)%R -> (forall p, In p ps -> (0 <= p_z p)%R) ->
  exists H, ana_gateway fe KCirc cl nlhs hw env sch junk items dv args =
      Ok (Some (AReturned H nt (Z.of_nat (length ps)) false)) /\
    forall n it, (n < length ps)%nat -> 0 <= it < nt ->
      let o := nth n ps origin in let t := second (IZR it * dt + start_delay dty dl n) in
      ~ (sqrt (p_x o ^ 2 + p_y o ^ 2) = r /\ c * t = metre (p_z o))%R ->
      exists h, nth_error H (Z.to_nat (Z.of_nat n * nt + it)) = Some (Some h) /\
        is_sir (disk (metre r)) v c (metre (p_x o)) (metre (p_y o)) (metre (p_z o)) t h.
Proof.
  intros fe cl nlhs hw env sch junk items dv args dev r dt v c nt ps dty dl J F Hl Hh D Hc Hf Hr Hz.
  assert (Hcpu : cl = false \/ dev <> "gpu").
  { right. destruct D as (? & ? & ? & ? & ? & ? & ? & ? & _ & _ & _ & Nm & _). inversion Nm. discriminate. }
  pose proof (ana_documented_wf' fe KCirc args J dev D) as W.
  destruct (exact_run fe KCirc cl nlhs hw env sch junk items dv args dev _ dt v c nt ps dty dl F Hl Hh D Hcpu Hc Hf)
    as (H & E & k & s & Hk & Ec).
  exists H. split; [exact E|]. intros n it Hn Hit o t Hne.
  destruct (obs_exact _ dt v c nt ps dty dl n W Hn) as (E1 & E2 & E3 & E4).
  apply (C47_circ_sir J k s _ H (Z.of_nat n) it r dt v c (p_x o) (p_y o) (p_z o) (start_delay dty dl n) W Hk (zeros_len J) Ec);
    auto; try (cbn; lia); try reflexivity. apply Hz, nth_In, Hn.
Qed.
Print Assumptions C73_circ.

(** rect_sir: the exact response for unit velocity, short of it by [shortfall],
    which is zero outside the aperture and on the line y = 0 (see C48). *)
Theorem C73_rect_partial : forall fe cl nlhs hw env sch junk items dv args dev a b dt v c nt ps dty dl,
  let J := ana_exact (@ARect EN (Some a) (Some b)) dt v c nt ps dty dl in
  has_analytic fe -> 0 <= nlhs <= 1 -> 0 <= hw -> ana_documented fe KRect args J dev -> cl = false \/ dev <> "gpu" ->
  no_ctrlc sch -> ana_fair (num_threads hw env (Z.of_nat (length ps))) (Z.of_nat (length ps)) sch ->
  (0 < a)%R -> (0 < b)%R -> (0 < c)%R -> (forall p, In p ps -> (0 <= p_z p)%R) ->
  exists H, ana_gateway fe KRect cl nlhs hw env sch junk items dv args =
      Ok (Some (AReturned H nt (Z.of_nat (length ps)) false)) /\
    forall n it, (n < length ps)%nat -> 0 <= it < nt ->
      let o := nth n ps origin in let t := second (IZR it * dt + start_delay dty dl n) in
      ~ (c * t = metre (p_z o) /\ (Rabs (p_x o) = a/2 \/ Rabs (p_y o) = b/2))%R ->
      exists h, nth_error H (Z.to_nat (Z.of_nat n * nt + it)) = Some (Some h) /\
        is_sir (rectangle (metre a) (metre b)) 1 c (metre (p_x o)) (metre (p_y o)) (metre (p_z o)) t
          (h + shortfall (p_x o) (p_y o) (p_z o) a b c t) /\
        ((p_y o = 0 \/ a/2 < Rabs (p_x o) \/ b/2 < Rabs (p_y o))%R -> shortfall (p_x o) (p_y o) (p_z o) a b c t = 0%R).
Proof.
  intros fe cl nlhs hw env sch junk items dv args dev a b dt v c nt ps dty dl J F Hl Hh D Hcpu Hc Hf Ha Hb Hcp Hz.
  pose proof (ana_documented_wf' fe KRect args J dev D) as W.
  destruct (exact_run fe KRect cl nlhs hw env sch junk items dv args dev _ dt v c nt ps dty dl F Hl Hh D Hcpu Hc Hf)
    as (H & E & k & s & Hk & Ec).
  exists H. split; [exact E|]. intros n it Hn Hit o t Hne.
  destruct (obs_exact _ dt v c nt ps dty dl n W Hn) as (E1 & E2 & E3 & E4).
  destruct (C48_shortfall J k s _ H (Z.of_nat n) it a b dt c (p_x o) (p_y o) (p_z o) (start_delay dty dl n) W Hk (zeros_len J) Ec)
    as (h & A & B & _); auto; try (cbn; lia); try reflexivity. { apply Hz, nth_In, Hn. }
  exists h. split; [exact A|]. split; [exact B|]. intros Hout. apply shortfall_0. exact Hout.
Qed.
Print Assumptions C73_rect_partial.

(** scirc_sir: for every point and time there is a sequence that converges to
    the mean of the exact response over the sampling interval (see C49), and a
    call with n_int = k+1 returns its member k. *)
Theorem C73_scirc_partial : forall r dt v c nt ps dty dl n it,
  let J k := ana_exact (@ASCirc EN (Some r) (Z.of_nat (S k))) dt v c nt ps dty dl in
  let o := nth n ps origin in let t := second (IZR it * dt + start_delay dty dl n) in
  (0 < r)%R -> (0 < c)%R -> (0 < dt)%R -> (0 <= p_z o)%R -> (n < length ps)%nat -> 0 <= it < nt ->
  (0 < p_z o \/ r <= sqrt (p_x o ^ 2 + p_y o ^ 2) \/ 0 <= t + second dt / 2)%R ->
  exists I h,
    is_RInt (SpecAna.sir (disk (metre r)) v c (metre (p_x o)) (metre (p_y o)) (metre (p_z o))) (t - second dt / 2)%R (t + second dt / 2)%R I /\
    is_lim_seq h (I / second dt)%R /\
    forall k fe cl nlhs hw env sch junk items dv args dev,
      has_analytic fe -> 0 <= nlhs <= 1 -> 0 <= hw -> ana_documented fe KSCirc args (J k) dev ->
      no_ctrlc sch -> ana_fair (num_threads hw None (Z.of_nat (length ps))) (Z.of_nat (length ps)) sch ->
      exists H, ana_gateway fe KSCirc cl nlhs hw env sch junk items dv args =
          Ok (Some (AReturned H nt (Z.of_nat (length ps)) false)) /\
        nth_error H (Z.to_nat (Z.of_nat n * nt + it)) = Some (Some (h k)).
Proof.
  intros r dt v c nt ps dty dl n it J o t Hr Hcp Hdt Hz Hn Hit Hex.
  destruct (scirc_val_lim (p_x o) (p_y o) (p_z o) r dt (start_delay dty dl n) v c it Hz Hr Hcp Hdt Hex) as (I & h & HI & Hv & Hl).
  exists I, h. split; [exact HI|]. split; [exact Hl|].
  intros k fe cl nlhs hw env sch junk items dv args dev F Hlh Hh D Hc Hf.
  assert (Hcpu : cl = false \/ dev <> "gpu").
  { right. destruct D as (? & ? & ? & ? & ? & ? & ? & ? & _ & _ & _ & Nm & _). inversion Nm. discriminate. }
  pose proof (ana_documented_wf' fe KSCirc args (J k) dev D) as W.
  destruct (exact_run fe KSCirc cl nlhs hw env sch junk items dv args dev _ dt v c nt ps dty dl F Hlh Hh D Hcpu Hc Hf)
    as (H & E & m & s & Hm & Ec).
  exists H. split; [exact E|].
  destruct (obs_exact _ dt v c nt ps dty dl n W Hn) as (E1 & E2 & E3 & E4).
  destruct (ana_columns (J k) W m _ Hm (zeros_len (J k)) s H Ec) as [_ B].
  specialize (B (Z.of_nat n) ltac:(cbn; lia)).
  assert (X : nth_error (col nt (Z.of_nat n) H) (Z.to_nat it) = Some (Some (h k))).
  { change (a_nt (J k)) with nt in B. rewrite B, nth_samples by exact Hit. unfold ProofsAna.sample_of, ana_val.
    change (a_T (J k)) with (@ASCirc EN (Some r) (Z.of_nat (S k))). cbv iota.
    change (obs_x (J k) (Z.of_nat n) = Some (p_x o)) in E1. change (obs_y (J k) (Z.of_nat n) = Some (p_y o)) in E2.
    change (obs_z (J k) (Z.of_nat n) = Some (p_z o)) in E3. change (obs_delay (J k) (Z.of_nat n) = Some (start_delay dty dl n)) in E4.
    rewrite E1, E2, E3, E4. f_equal. exact (Hv k). }
  rewrite col_nth in X. destruct (Nat.ltb_spec (Z.to_nat it) (Z.to_nat nt)); [|discriminate].
  rewrite <- X. f_equal. nia.
Qed.
Print Assumptions C73_scirc_partial.

(** Documented calls exist. *)
Definition emat (m n : Z) (d : list R) : value EN := @VNum EN Full m n (exact d).
Definition two_pts : list pos := [{| p_x := 0; p_y := 0; p_z := 10 |}; {| p_x := 3; p_y := 4; p_z := 5 |}].
Lemma evec fe d : vec fe (exact d) (emat 1 (Z.of_nat (length d)) d).
Proof.
  exists Full, 1, (Z.of_nat (length d)). split; [reflexivity|]. split; [left; reflexivity|]. left.
  unfold exact. rewrite map_length. auto.
Qed.
Example C73_ex : forall fe, has_analytic fe ->
  let Ro := emat 2 3 (coords two_pts) in
  ana_documented fe KCirc [Ro; emat 1 1 [5]; emat 1 2 [1; 20]; emat 1 1 [2]; emat 1 2 [1; 1000]]%R
    (ana_exact (@ACirc EN (Some 5%R)) 1 1 1000 20 two_pts delay_single [2%R]) "" /\
  ana_documented fe KRect [Ro; emat 1 2 [5; 6]; emat 1 2 [1; 20]; emat 1 2 [2; 3]; emat 1 2 [1; 1000]]%R
    (ana_exact (@ARect EN (Some 5%R) (Some 6%R)) 1 1 1000 20 two_pts delay_multiple [2%R; 3%R]) "" /\
  (forall k, Z.of_nat (S k) < 2^63 -> ana_documented fe KSCirc
    [Ro; emat 1 1 [5]; emat 1 2 [1; 20]; emat 1 1 [2]; emat 1 2 [1; 1000]; emat 1 1 [IZR (Z.of_nat (S k))]]%R
    (ana_exact (@ASCirc EN (Some 5%R) (Z.of_nat (S k))) 1 1 1000 20 two_pts delay_single [2%R]) "") /\
  ana_fair (num_threads 4 None 2) 2 (round_robin 4 2) /\ no_ctrlc (round_robin 4 2).
Proof.
  intros fe F Ro.
  assert (M : mat3 fe 2 (exact (coords two_pts)) Ro).
  { exists Full. split; [reflexivity|]. split; [left; reflexivity|]. split; [lia|reflexivity]. }
  assert (Et : ntrunc (n:=EN) (Some 20%R) = Some 20%Z) by exact (f_equal Some (trunc_IZR 20)).
  split; [|split; [|split; [|split]]].
  - exists Ro, (emat 1 1 [5%R]), (emat 1 2 [1%R; 20%R]), (emat 1 1 [2%R]), (emat 1 2 [1%R; 1000%R]), [], (exact [5%R]), (Some 20%R).
    split; [reflexivity|]. split; [exact M|]. split; [exact (evec fe [5%R])|]. split; [constructor|].
    split; [exact (evec fe [1%R; 20%R])|]. split; [exact Et|]. split; [cbn; lia|].
    split; [left; exists (Some 2%R); split; [exact (evec fe [2%R])|auto]|exact (evec fe [1%R; 1000%R])].
  - exists Ro, (emat 1 2 [5%R; 6%R]), (emat 1 2 [1%R; 20%R]), (emat 1 2 [2%R; 3%R]), (emat 1 2 [1%R; 1000%R]), [], (exact [5%R; 6%R]), (Some 20%R).
    split; [reflexivity|]. split; [exact M|]. split; [exact (evec fe [5%R; 6%R])|]. split; [constructor|].
    split; [exact (evec fe [1%R; 20%R])|]. split; [exact Et|]. split; [cbn; lia|].
    split; [right; split; [exact (evec fe [2%R; 3%R])|split; [reflexivity|split; [cbn; lia|reflexivity]]]|exact (evec fe [1%R; 1000%R])].
  - intros k Hk.
    exists Ro, (emat 1 1 [5%R]), (emat 1 2 [1%R; 20%R]), (emat 1 1 [2%R]), (emat 1 2 [1%R; 1000%R]), [emat 1 1 [IZR (Z.of_nat (S k))]], (exact [5%R]), (Some 20%R).
    split; [reflexivity|]. split; [exact M|]. split; [exact (evec fe [5%R])|].
    split; [apply (@nm_scirc EN fe (Some 5%R) (Some (IZR (Z.of_nat (S k)))) (emat 1 1 [IZR (Z.of_nat (S k))]) (Z.of_nat (S k))); [exact (evec fe [IZR (Z.of_nat (S k))])|exact (f_equal Some (trunc_IZR (Z.of_nat (S k))))|lia]|].
    split; [exact (evec fe [1%R; 20%R])|]. split; [exact Et|]. split; [cbn; lia|].
    split; [left; exists (Some 2%R); split; [exact (evec fe [2%R])|auto]|exact (evec fe [1%R; 1000%R])].
  - intros i Hi. change (num_threads 4 None 2) with 2 in *. assert (X : i = 0 \/ i = 1) by lia.
    destruct X as [->| ->]; vm_compute; discriminate.
  - intros H. cbn in H. repeat destruct H as [H|H]; try discriminate; exact H.
Qed.
