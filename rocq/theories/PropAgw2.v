(** PropAgw2.v - property theorems: the argument order in the help texts of
    circ_sir and scirc_sir (C74) and CTRL-C during an analytic function (C75). *)
From Coq Require Import Floats Reals Lra.
From Coq Require Strings.String.
Import Coq.Strings.String.StringSyntax.
From Verif Require Import Base BaseLemmas NumR NumF ModelSir ModelArr ModelSmp ModelAna SpecAna SpecRayleigh SpecArr ModelGw SpecGw
  SpecGwR ModelAgw SpecAgw ProofsLocal ProofsLocalArr ProofsSmp ProofsSmp2 SpecSmp ProofsCallG SpecSir ProofsEnum ProofsAna
  ProofsGw ExJob ProofsAgw PropAna PropGwR PropAgw.
From Coq Require Import ZifyBool ZifyNat.
Local Open Scope string_scope.
Local Open Scope Z_scope.
Local Ltac by_vm := match goal with |- @eq ?A ?x ?y => vm_cast_no_check (@eq_refl A y) end.

(** ** C74: a call in the order of the help text

    circ_sir and scirc_sir: rejected, unless there are exactly two observation
    points and two delays. *)
Theorem C74_help_order_refuted : forall (N : Num) fe f cl nlhs hw env sch (junk : list N) items dv args (J : ajob N) dev,
  has_analytic fe -> f = KCirc \/ f = KSCirc -> ana_documented fe f args J dev -> length (a_delay J) <> 2%nat ->
  ana_gateway fe f cl nlhs hw env sch junk items dv (help_order f args) = Ok (Some ARejected).
Proof.
  intros N fe f cl nlhs hw env sch junk items dv args J dev F Hf D H2.
  destruct D as (vo & vg & vs & vd & vm & tail & g & ntf & -> & (sto & -> & Oo & HN & Lo) & Vg & Nm & Vs & Et & Hnt & Dg & Vm).
  assert (Eh : help_order f (VNum sto (a_No J) 3 (a_Ro J) :: vg :: vs :: vd :: vm :: tail) =
               VNum sto (a_No J) 3 (a_Ro J) :: vg :: vd :: vs :: vm :: tail) by (destruct Hf as [->| ->]; reflexivity).
  rewrite Eh. unfold ana_gateway.
  enough (E : parse_ana fe f nlhs (VNum sto (a_No J) 3 (a_Ro J) :: vg :: vd :: vs :: vm :: tail) = Ok None) by (rewrite E; reflexivity).
  unfold parse_ana. unfold require at 1. destruct (in_bounds _ _ _); [|reflexivity].
  unfold require at 1. destruct (in_bounds _ _ _); [|reflexivity].
  unfold arg. cbn [nth_error bind]. unfold check_obs_points. cbn [get_n get_m]. cbn [Z.eqb Pos.eqb]. unfold require at 1.
  assert (E0 : gw_data fe (VNum sto (a_No J) 3 (a_Ro J)) = Ok (a_Ro J)) by (destruct F as [->| ->]; reflexivity).
  rewrite E0. cbn [bind].
  assert (Eg : exists r, ana_geom fe f vg = Ok (accept (r, nofZ 0))).
  { destruct Nm as [r|r x vn n ? ? ?|a b|a b s]; try (destruct Hf; discriminate).
    all: exists r; unfold ana_geom;
         rewrite (vec_check fe [r] vg 1 F Vg eq_refl), (vec_entry fe [r] vg 0 r Vg eq_refl) by lia; reflexivity. }
  destruct Eg as (r & ->). cbn [bind]. unfold andthen, goes_on.
  assert (Eok : (match fe with Matlab => negb (p_msg (accept (r, nofZ (n:=N) 0))) | _ => p_ok (accept (r, nofZ (n:=N) 0)) end) = true)
    by (destruct F as [->| ->]; reflexivity).
  rewrite Eok. cbn [p_val accept].
  assert (Ec : check_vec fe 2 vd = false).
  { assert (X : exists d, vec fe d vd /\ length d <> 2%nat).
    { destruct Dg as [(d & V & _ & E)|(V & _)]; [exists [d]|exists (a_delay J)]; (split; [exact V|]); [cbn; discriminate|exact H2]. }
    destruct X as (d & V & Hd). destruct (vec_data fe d vd V) as (_ & _ & P & _).
    unfold check_vec. destruct F as [->| ->]; nia. }
  rewrite Ec. reflexivity.
Qed.
Print Assumptions C74_help_order_refuted.

(** With exactly two observation points and two delays it is accepted: the
    delays are taken for [dt nt] and [dt nt] for the delays.  (C73 says what is
    then computed.) *)
Theorem C74_swapped_refuted : forall (N : Num) fe f args (J : ajob N) dev d0 d1 n1,
  f = KCirc \/ f = KSCirc -> ana_documented fe f args J dev ->
  a_delay J = [d0; d1] -> ntrunc d1 = Some n1 -> 0 <= n1 < 2^63 ->
  exists x, ntrunc x = Some (a_nt J) /\
  ana_documented fe f (help_order f args)
    {| a_T := a_T J; a_dt := d0; a_nt := n1; a_v := a_v J; a_cp := a_cp J; a_No := a_No J; a_Ro := a_Ro J;
       a_delay_type := delay_multiple; a_delay := [a_dt J; x] |} dev.
Proof.
  intros N fe f args J dev d0 d1 n1 Hf D Ed Et1 Hn1.
  destruct D as (vo & vg & vs & vd & vm & tail & g & ntf & -> & Mo & Vg & Nm & Vs & Et & Hnt & Dg & Vm).
  exists ntf. split; [exact Et|].
  exists vo, vg, vd, vs, vm, tail, g, d1. cbn [a_T a_dt a_nt a_v a_cp a_No a_Ro a_delay_type a_delay].
  destruct Dg as [(d & _ & _ & E)|(V & L & HNo & _)]; [rewrite E in Ed; discriminate|].
  rewrite Ed in V, L. cbn [length] in L.
  split; [destruct Hf as [->| ->]; reflexivity|]. repeat (split; [assumption|]). split; [|exact Vm].
  right. cbn [length]. auto.
Qed.
Print Assumptions C74_swapped_refuted.

(** ** C75: CTRL-C *)
Lemma ana_len_any (N : Num) (J : ajob N) nthreads H0 sch H' b : wf_ajob J -> 1 <= nthreads ->
  length H0 = Z.to_nat (a_No J * a_nt J) -> ana_call J nthreads sch H0 = Ok (Some (H', b)) -> length H' = length H0.
Proof.
  intros W Hth HH0 E. destruct (ana_gcall J nthreads H0 sch H' b E) as (e & Eg).
  apply gcall_inv in Eg as (s & Es & Er). destruct (all_done s); [|discriminate]. injection Er as -> _ _.
  exact (proj1 (gcall_prefix (a_nt J) (a_No J) nthreads (ana_point J) (colf J) H0 (wa_nt J W) (wa_No J W) Hth HH0
                  (ana_pt J W) (ana_len J) sch s Es)).
Qed.

(** MATLAB, and every function: the call either raises the CTRL-C error or
    returns the complete matrix. *)
Theorem C75_matlab : forall (N : Num) f nlhs hw env sch (junk : list N) items dv args (J : ajob N) dev o,
  0 <= nlhs <= 1 -> 0 <= hw -> ana_documented Matlab f args J dev ->
  ana_gateway Matlab f false nlhs hw env sch junk items dv args = Ok (Some o) ->
  o = ACtrlC /\ f <> KRect /\ ~ no_ctrlc sch \/
  exists H, o = AReturned H (a_nt J) (a_No J) false /\
    forall n1 s1 H1 H1', 1 <= n1 -> length H1 = Z.to_nat (a_No J * a_nt J) ->
      ana_call J n1 s1 H1 = Ok (Some (H1', true)) -> H = H1'.
Proof.
  intros N f nlhs hw env sch junk items dv args J dev o Hl Hh D E.
  pose proof (ana_documented_wf' Matlab f args J dev D) as W.
  rewrite (ana_cpu_run Matlab f false nlhs hw env sch junk items dv args J dev (or_intror eq_refl) Hl D (or_introl eq_refl)) in E.
  pose proof (ana_threads_pos (a_T J) hw env (a_No J) Hh (wa_No J W)) as Hth.
  destruct (ana_call J _ _ _) as [[[H b]|]|u|] eqn:Er; cbn [bind] in E; try discriminate. injection E as <-.
  destruct b.
  - right. exists H. split; [reflexivity|]. intros n1 s1 H1 H1' Hn1 L1 E1.
    exact (C46_schedule_independent N J _ n1 _ s1 _ H1 H H1' W Hth Hn1 (zeros_len J) L1 Er E1).
  - left. split; [reflexivity|].
    assert (X : ~ (f = KRect \/ no_ctrlc sch)).
    { intros X. pose proof (ana_running J W _ _ Hth (zeros_len J) _ H false (sees_no_ctrlc f sch X) Er). discriminate. }
    tauto.
Qed.
Print Assumptions C75_matlab.

(** Octave: the matrix is always returned.  When nothing was printed it is
    complete; otherwise every column is complete or all zero. *)
Theorem C75_octave_partial : forall (N : Num) f cl nlhs hw env sch (junk : list N) items dv args (J : ajob N) dev o,
  0 <= nlhs <= 1 -> 0 <= hw -> ana_documented Octave f args J dev -> cl = false \/ dev <> "gpu" ->
  ana_gateway Octave f cl nlhs hw env sch junk items dv args = Ok (Some o) ->
  exists H printed, o = AReturned H (a_nt J) (a_No J) printed /\ (printed = true -> f <> KRect /\ ~ no_ctrlc sch) /\
    length H = Z.to_nat (a_No J * a_nt J) /\
    forall n1 s1 H1 H1', 1 <= n1 -> length H1 = Z.to_nat (a_No J * a_nt J) ->
      ana_call J n1 s1 H1 = Ok (Some (H1', true)) ->
      (printed = false -> H = H1') /\
      forall n, 0 <= n < a_No J ->
        (forall it, 0 <= it < a_nt J -> nth_error H (Z.to_nat (n * a_nt J + it)) = Some (nofZ 0)) \/
        (forall it, 0 <= it < a_nt J ->
           nth_error H (Z.to_nat (n * a_nt J + it)) = nth_error H1' (Z.to_nat (n * a_nt J + it))).
Proof.
  intros N f cl nlhs hw env sch junk items dv args J dev o Hl Hh D Hcpu E.
  pose proof (ana_documented_wf' Octave f args J dev D) as W.
  rewrite (ana_cpu_run Octave f cl nlhs hw env sch junk items dv args J dev (or_introl eq_refl) Hl D Hcpu) in E.
  pose proof (ana_threads_pos (a_T J) hw env (a_No J) Hh (wa_No J W)) as Hth.
  destruct (ana_call J _ _ _) as [[[H b]|]|u|] eqn:Er; cbn [bind] in E; try discriminate. injection E as <-.
  exists H, (negb b). split; [destruct b; reflexivity|]. split.
  { intros Hb. destruct b; [discriminate|].
    assert (X : ~ (f = KRect \/ no_ctrlc sch)).
    { intros X. pose proof (ana_running J W _ _ Hth (zeros_len J) _ H false (sees_no_ctrlc f sch X) Er). discriminate. }
    tauto. }
  assert (HL : length H = Z.to_nat (a_No J * a_nt J)).
  { rewrite (ana_len_any N J _ _ _ H b W Hth (zeros_len J) Er). apply zeros_len. }
  split; [exact HL|]. intros n1 s1 H1 H1' Hn1 L1 E1. split.
  - intros Hb. destruct b; [|discriminate].
    exact (C46_schedule_independent N J _ n1 _ s1 _ H1 H H1' W Hth Hn1 (zeros_len J) L1 Er E1).
  - intros n Hn. pose proof (wa_nt J W) as Hnt.
    destruct (C46_interrupted N J _ n1 _ s1 _ H1 H H1' b n W Hth Hn1 (zeros_len J) L1 Er E1 Hn) as [_ [X|X]].
    + left. intros it Hit. assert (Y : nth_error (col (a_nt J) n H) (Z.to_nat it) = Some (nofZ 0)).
      { rewrite X, col_nth. destruct (Nat.ltb_spec (Z.to_nat it) (Z.to_nat (a_nt J))); [|lia].
        unfold zeros. apply nth_error_repeat. nia. }
      rewrite col_nth in Y. destruct (Nat.ltb_spec (Z.to_nat it) (Z.to_nat (a_nt J))); [|lia].
      rewrite <- Y. f_equal. nia.
    + right. intros it Hit. pose proof (f_equal (fun l => nth_error l (Z.to_nat it)) X) as Y. cbv beta in Y.
      rewrite !col_nth in Y. destruct (Nat.ltb_spec (Z.to_nat it) (Z.to_nat (a_nt J))); [|lia].
      replace (Z.to_nat (n * a_nt J + it)) with (Z.to_nat (n * a_nt J) + Z.to_nat it)%nat by nia. exact Y.
Qed.
Print Assumptions C75_octave_partial.

(** rect_sir never notices CTRL-C: with enough steps it runs to its end. *)
Theorem C75_rect_ignores : forall (N : Num) fe cl nlhs hw env sch (junk : list N) items dv args (J : ajob N) dev,
  has_analytic fe -> 0 <= nlhs <= 1 -> 0 <= hw -> ana_documented fe KRect args J dev -> cl = false \/ dev <> "gpu" ->
  ana_fair (num_threads hw env (a_No J)) (a_No J) sch ->
  exists H, ana_gateway fe KRect cl nlhs hw env sch junk items dv args = Ok (Some (AReturned H (a_nt J) (a_No J) false)).
Proof.
  intros N fe cl nlhs hw env sch junk items dv args J dev F Hl Hh D Hcpu Hf.
  pose proof (ana_documented_wf' fe KRect args J dev D) as W.
  rewrite (ana_cpu_run fe KRect cl nlhs hw env sch junk items dv args J dev F Hl D Hcpu).
  assert (ET : ana_threads (a_T J) hw env (a_No J) = num_threads hw env (a_No J)).
  { destruct D as (? & ? & ? & ? & ? & ? & ? & ? & _ & _ & _ & Nm & _). inversion Nm; reflexivity. }
  pose proof (ana_threads_pos (a_T J) hw env (a_No J) Hh (wa_No J W)) as Hth.
  destruct (ana_ok J W _ _ Hth (zeros_len J) (ana_sees KRect sch)) as (r & Er & Hr).
  assert (Hn : r <> None).
  { apply Hr. rewrite ET. intros i Hi. rewrite steps_sees. exact (Hf i Hi). }
  destruct r as [[H b]|]; [|contradiction]. rewrite Er. cbn [bind].
  rewrite (ana_running J W _ _ Hth (zeros_len J) _ H b (sees_no_ctrlc KRect sch (or_introl eq_refl)) Er).
  eauto.
Qed.
Print Assumptions C75_rect_ignores.

(** In Octave an interrupted call does return a matrix with columns missing
    (the second column is zero although the points are the same). *)
Definition axis2 : value FI := @VNum FI Full 2 3 ([0; 0] ++ [0; 0] ++ [10; 10])%float.
Definition interrupted (fe : front) (stop : bool) : res (option (ana_outcome FI)) :=
  arun fe KCirc 1 (repeat (Run 0) 1 ++ (if stop then [CtrlC] else []) ++ repeat (Run 0) 8)
    [axis2; anum 5; arow [1; 2]; anum 10; arow [1; 1000]]%float.
Theorem C75_octave_matrix_refuted :
  interrupted Octave true = Ok (Some (@AReturned FI [1000; 1000; 0; 0]%float 2 2 true)) /\
  interrupted Octave false = Ok (Some (@AReturned FI [1000; 1000; 1000; 1000]%float 2 2 false)) /\
  interrupted Matlab true = Ok (Some (@ACtrlC FI)).
Proof. split; [|split]; by_vm. Qed.
Print Assumptions C75_octave_matrix_refuted.

(** Calls as in C74 exist: one delay, and two delays for two points. *)
Example C74_ex : forall fe, has_analytic fe ->
  let Ro := emat 2 3 (coords two_pts) in
  let args := [Ro; emat 1 1 [5]; emat 1 2 [1; 20]; emat 1 2 [2; 3]; emat 1 2 [1; 1000]]%R in
  ana_documented fe KCirc args (ana_exact (@ACirc EN (Some 5%R)) 1 1 1000 20 two_pts delay_multiple [2; 3]%R) "" /\
  help_order KCirc args = [Ro; emat 1 1 [5]; emat 1 2 [2; 3]; emat 1 2 [1; 20]; emat 1 2 [1; 1000]]%R.
Proof.
  intros fe F Ro args. split; [|reflexivity].
  assert (M : mat3 fe 2 (exact (coords two_pts)) Ro).
  { exists Full. split; [reflexivity|]. split; [left; reflexivity|]. split; [lia|reflexivity]. }
  exists Ro, (emat 1 1 [5%R]), (emat 1 2 [1%R; 20%R]), (emat 1 2 [2%R; 3%R]), (emat 1 2 [1%R; 1000%R]), [], (exact [5%R]), (Some 20%R).
  split; [reflexivity|]. split; [exact M|]. split; [exact (evec fe [5%R])|]. split; [constructor|].
  split; [exact (evec fe [1%R; 20%R])|]. split; [exact (f_equal Some (PropGwR.trunc_IZR 20))|]. split; [cbn; lia|].
  split; [right; split; [exact (evec fe [2%R; 3%R])|split; [reflexivity|split; [cbn; lia|reflexivity]]]|exact (evec fe [1%R; 1000%R])].
Qed.
