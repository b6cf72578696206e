(** PropRoundSir.v - property theorem C99: accuracy of dreamrect, dreamcirc and
    dreamline in double precision. *)
From Coq Require Strings.String Strings.Ascii.
Import Coq.Strings.String.StringSyntax.
From Coq Require Import Floats Uint63.
From Coq Require Import Reals Lra Lia ZArith List Bool.
From Flocq Require Import Core BinarySingleNaN PrimFloat.
From Verif Require Import Base BaseLemmas NumF NumR ModelSir ModelArr ModelSmp SpecSmp ModelGw SpecGw SpecGwR SpecSir ProofsEnum ProofsErr SpecRayleigh
  ProofsTermF SpecRound ProofsRound ProofsRel SpecRoundSir ProofsRoundSir ProofsSmp ProofsSmp2 ProofsGw5 ProofsGwR ProofsR ExJob PropGw.
Import ListNotations.
Open Scope R_scope.

#[local] Instance fe_valid : Valid_exp fe := fexp_correct prec emax Hprec.
#[local] Instance p53 : Prec_gt_0 53 := eq_refl.

(** A whole call, for any number system, if no point fails. *)
Lemma call_columns (N : Num) fuel c2r fe f nlhs hw env sch (junk : list N) args T q alpha l No ro dty del (P : Z -> N -> N -> N -> N -> list N -> Prop) :
  documented fe f args T q alpha l No ro dty del -> (0 <= nlhs <= 2)%Z -> (0 <= nt q)%Z -> keeps_length c2r -> (0 <= hw)%Z ->
  rings_in_time fe T q -> runs_to_end hw env No sch ->
  let J := requested fuel c2r T q alpha l No ro dty del in
  (forall n xo yo zo d, (0 <= n < No)%Z -> point_is J n xo yo zo d -> exists out e,
     serial (idx_of fe) fuel T q (j_att J) l xo yo zo d 0 (zeros (nt q)) = Ok (out, e) /\ e <> err_oob /\ P n xo yo zo d out) ->
  exists H w e, gateway fuel c2r fe f nlhs hw env sch junk args = Ok (Some (Returned H (nt q) No w e)) /\
    length H = Z.to_nat (nt q * No) /\
    forall n xo yo zo d, (0 <= n < No)%Z -> point_is J n xo yo zo d -> P n xo yo zo d (col (nt q) n H).
Proof.
  intros D Hl Hnt Hk Hhw Hf [Hc Hfair] J Hpts.
  destruct (C41_completes N fuel c2r fe f nlhs hw env sch junk args T q alpha l No ro dty del D Hl Hnt Hk Hhw Hf) as (o & E & _).
  { intros n xo yo zo d Hn Hp. destruct (Hpts n xo yo zo d Hn Hp) as (out & e & Es & _). eauto. }
  { exact Hfair. }
  pose proof (documented_wf fuel c2r fe f args T q alpha l No ro dty del Hk Hnt Hf D) as W. fold J in W.
  destruct (C41_documented N fuel c2r fe f nlhs hw env sch junk args T q alpha l No ro dty del o D Hl Hnt Hk Hhw Hf Hc E)
    as [(H & w & e & -> & HL & Hcol)|(_ & n & c & Hn & Hp)].
  - exists H, w, e. split; [exact E|]. split; [exact HL|]. intros n xo yo zo d Hn Hp.
    destruct (Hcol n Hn) as (e' & _ & Hs). specialize (Hs _ _ _ _ Hp). destruct (Hpts n xo yo zo d Hn Hp) as (out & e2 & Es & _ & HP).
    fold J in Hs. rewrite Hs in Es. injection Es as <- _. exact HP.
  - exfalso. destruct (point_is_ex _ J n W Hn) as (xo & yo & zo & d & Hpt). specialize (Hp _ _ _ _ Hpt).
    destruct (Hpts n xo yo zo d Hn Hpt) as (out & e2 & Es & He & _). fold J in Hp. rewrite Hp in Es. injection Es as _ <-. now apply He.
Qed.

Section Libm.
  Context (fsin fcos fatan fasin facos fexp flog : PrimFloat.float -> PrimFloat.float).
  Local Notation F := (FN fsin fcos fatan fasin facos fexp flog).
  Local Notation points := (double_points fsin fcos fatan fasin facos fexp flog).
  Local Notation Q := (val_par fsin fcos fatan fasin facos fexp flog).
  Local Notation O := (val_pos fsin fcos fatan fasin facos fexp flog).
  Local Notation src := (val_source fsin fcos fatan fasin facos fexp flog).
  Local Notation flat_T := (flat_T fsin fcos fatan fasin facos fexp flog).
  Local Notation ordinary_par := (ordinary_par fsin fcos fatan fasin facos fexp flog).
  Local Notation pt_of := (pt_of fsin fcos fatan fasin facos fexp flog).

  (** ** The grid *)
  Definition low (x : PrimFloat.float) : Prop := (fin x = true /\ - bpow radix2 102 <= V x) \/ Prim2B x = B754_infinity false.
  Lemma grid_moderate (d xmax : F) : fin d = true -> 0 < V d -> (fin xmax = true /\ V xmax <= bpow radix2 102) \/ Prim2B xmax = B754_nan ->
    forall f (x : F) l, low x -> grid (N:=F) f x xmax d = Some l -> Forall moderate l.
  Proof.
    intros Fd Pd Hm. induction f as [|f IH]; intros x l Hx; cbn [grid nle FN]; destruct (PrimFloat.leb x xmax) eqn:E;
      try discriminate; try (intros [= <-]; constructor).
    destruct (grid (N:=F) f (nadd (n:=F) x d) xmax d) as [r|] eqn:Er; [|discriminate]. intros [= <-].
    destruct Hm as [[Fm Vm]|Nm]; [|rewrite (leb_nan_r _ _ Nm) in E; discriminate].
    destruct Hx as [[Fx Lx]|Ix].
    2:{ rewrite (leb_inf _ _ Ix) in E; [discriminate|]. unfold fin in Fm. intros K; rewrite K in Fm; discriminate. }
    pose proof (leb_fin _ _ Fx Fm E) as L.
    constructor; [split; [exact Fx|apply Rabs_le; lra]|]. apply (IH _ _ (or_introl (conj eq_refl (Rle_refl _))) ) || idtac.
    refine (IH (x + d)%float r _ Er). destruct (add_up x d Fx Fd (V_sign_pos d Fd Pd)) as [[A1 A2]|A]; [left|right; exact A].
    split; [exact A1|]. rewrite A2. apply Rle_trans with (1 := Lx). apply round_ge_generic; [typeclasses eauto..|apply V_format|lra].
  Qed.
  Lemma midpoints_moderate fuel (lo hi d : F) l : ordinary_pos d -> (fin hi = true /\ V hi <= bpow radix2 102) \/ Prim2B hi = B754_nan ->
    (fin lo = true /\ Rabs (V lo) <= bpow radix2 101) \/ Prim2B hi = B754_nan ->
    double_midpoints fsin fcos fatan fasin facos fexp flog fuel lo hi d = Some l -> Forall moderate l.
  Proof.
    intros Hd Hh Hl. apply ordinary_pos_rel in Hd. destruct (rel_pos _ _ _ _ _ Hd) as [Pd _]. destruct Hd as (Fd & Bd & _).
    unfold double_midpoints. destruct Hl as [[Fl Bl]|Nh].
    - apply (grid_moderate d hi Fd Pd Hh). destruct (half_F d Fd) as (F2 & V2 & S2). rewrite (V_sign_pos d Fd Pd) in S2.
      destruct (add_up lo (d / 2)%float Fl F2 S2) as [[A1 A2]|A]; [left|right; exact A].
      split; [exact A1|]. rewrite A2. apply Rle_trans with (- bpow radix2 101); [apply Ropp_le_contravar, bpow_le; lia|].
      apply round_ge_generic; [typeclasses eauto..| |].
      + apply generic_format_opp, generic_format_bpow. unfold SpecFloat.fexp, SpecFloat.emin. change prec with 53%Z. change emax with 1024%Z. lia.
      + assert (0 <= V (d / 2)%float).
        { rewrite V2. apply round_ge_generic; [typeclasses eauto..|apply generic_format_0|lra]. }
        apply Rabs_le_inv in Bl. lra.
    - destruct fuel; cbn [grid nle FN]; rewrite (leb_nan_r _ _ Nh); intros [= <-]; constructor.
  Qed.
  Lemma half_small (a : F) : ordinary a -> fin (a / 2)%float = true /\ Rabs (V (a / 2)%float) <= bpow radix2 100.
  Proof.
    intros H. apply ordinary_V in H. destruct H as [Fa Ba]. destruct (half_F a Fa) as (F1 & V1 & _). split; [exact F1|].
    rewrite V1. apply rnd_small; [lia|]. unfold Rdiv. rewrite Rabs_mult, (Rabs_pos_eq (/ 2)) by lra. pose proof (Rabs_pos (V a)). lra.
  Qed.
  Lemma ordinary_opp (a : F) : ordinary a -> ordinary (- a)%float.
  Proof.
    intros [Fa Ba]. split.
    - apply finite_fin. rewrite ProofsRound.fin_opp. now apply finite_fin.
    - rewrite val_V in *. now rewrite ProofsRound.V_opp, Rabs_Ropp.
  Qed.
  Lemma straight_moderate fuel (a d : F) l : ordinary a -> ordinary_pos d ->
    double_midpoints fsin fcos fatan fasin facos fexp flog fuel (- a / 2)%float (a / 2)%float d = Some l -> Forall moderate l.
  Proof.
    intros Ha Hd. destruct (half_small a Ha) as [F1 B1]. destruct (half_small _ (ordinary_opp a Ha)) as [F2 B2].
    apply midpoints_moderate; [exact Hd|left|left]; (split; [assumption|]).
    - apply Rle_trans with (1 := Rle_abs _), Rle_trans with (1 := B1), bpow_le. lia.
    - apply Rle_trans with (1 := B2), bpow_le. lia.
  Qed.
  Lemma radial_moderate fuel (s d : F) l : (fin s = true /\ Rabs (V s) <= bpow radix2 101) \/ Prim2B s = B754_nan -> ordinary_pos d ->
    double_midpoints fsin fcos fatan fasin facos fexp flog fuel (- s)%float s d = Some l -> Forall moderate l.
  Proof.
    intros Hs Hd. apply midpoints_moderate; [exact Hd| |]; (destruct Hs as [[F1 B1]|Hs]; [left|right; exact Hs]).
    - split; [exact F1|]. apply Rle_trans with (1 := Rle_abs _), Rle_trans with (1 := B1), bpow_le. lia.
    - rewrite ProofsRound.fin_opp, ProofsRound.V_opp, Rabs_Ropp. auto.
  Qed.

  Lemma concat_inv {A} (P : A -> Prop) (l : list (option (list A))) r : concat_opt l = Some r ->
    (forall m, In (Some m) l -> Forall P m) -> Forall P r.
  Proof.
    revert r. induction l as [|[a|] l IH]; intros r; cbn [concat_opt]; try discriminate; [intros [= <-]; constructor|].
    destruct (concat_opt l) as [b|]; [|discriminate]. intros [= <-] H. apply Forall_app. split; [apply H; now left|].
    apply IH; [reflexivity|]. intros m Hm. apply H. now right.
  Qed.
  Lemma row_moderate (ms : option (list F)) (y : F) l : moderate y -> (forall m, ms = Some m -> Forall moderate m) ->
    option_map (map (fun x : F => (x, y))) ms = Some l -> Forall (fun xy => moderate (fst xy) /\ moderate (snd xy)) l.
  Proof.
    intros My Hm. destruct ms as [m|]; [|discriminate]. cbn [option_map]. intros [= <-]. specialize (Hm m eq_refl).
    rewrite Forall_map. eapply Forall_impl; [|exact Hm]. intros x Hx. split; [exact Hx|exact My].
  Qed.

  Lemma points_moderate fuel (T : transducer F) (q : samp F) l : flat_T T -> ordinary_pos (dx q) -> ordinary_pos (dy q) ->
    points fuel T q = Some l -> Forall (fun xy => moderate (fst xy) /\ moderate (snd xy)) l.
  Proof.
    intros HT Hdx Hdy. destruct T as [a b| |rad| |a| | | | | |]; try contradiction; cbn [double_points].
    - destruct HT as [Ha Hb]. destruct (double_midpoints _ _ _ _ _ _ _ fuel (- b / 2)%float _ _) as [ys|] eqn:Ey; [|discriminate].
      intros H. apply (concat_inv _ _ _ H). intros m Hm. apply in_map_iff in Hm. destruct Hm as (y & E & Hy).
      pose proof (straight_moderate _ _ _ _ Hb Hdy Ey) as My. rewrite Forall_forall in My.
      apply (row_moderate _ y m (My y Hy)) with (2 := E). intros xs Ex. exact (straight_moderate _ _ _ _ Ha Hdx Ex).
    - destruct (ordinary_V _ HT) as [FR BR]. destruct (double_midpoints _ _ _ _ _ _ _ fuel (- rad)%float _ _) as [ys|] eqn:Ey; [|discriminate].
      intros H. apply (concat_inv _ _ _ H). intros m Hm. apply in_map_iff in Hm. destruct Hm as (y & E & Hy).
      assert (B101 : bpow radix2 101 = 2 * bpow radix2 100) by (change 101%Z with (1 + 100)%Z; rewrite bpow_plus; reflexivity).
      assert (My : Forall moderate ys).
      { apply (radial_moderate fuel rad (dy q)); [left; split; [exact FR|pose proof (bpow_gt_0 radix2 100); lra]|exact Hdy|exact Ey]. }
      rewrite Forall_forall in My. cbv zeta in E.
      apply (row_moderate _ y m (My y Hy)) with (2 := E). intros xs Ex. apply (radial_moderate _ _ _ _) with (3 := Ex); [|exact Hdx].
      assert (B2 : Rabs (2 * V rad) <= bpow radix2 101) by (rewrite Rabs_mult, (Rabs_pos_eq 2) by lra; lra).
      destruct (disc_half fsin fcos fatan fasin facos fexp flog rad y) as [C|[C1 C2]].
      + apply fin_mul; auto. apply rnd_nover. rewrite Rabs_mult. apply Rle_trans with (bpow radix2 100 * bpow radix2 100).
        * apply Rmult_le_compat; auto using Rabs_pos.
        * rewrite <- bpow_plus. apply bpow_le. lia.
      + apply Rle_lt_trans with (1 := B2). apply bpow_lt. reflexivity.
      + right. exact C.
      + left. split; [exact C1|]. rewrite Rabs_pos_eq; lra.
    - intros H. apply (row_moderate _ 0%float l) with (3 := H).
      + split; [reflexivity|]. rewrite V0, Rabs_R0. apply bpow_ge_0.
      + intros xs Ex. exact (straight_moderate _ _ _ _ HT Hdx Ex).
  Qed.

  (** ** The loops visit those points *)
  Lemma concat_map {A B} (f : A -> B) (l : list (option (list A))) :
    concat_opt (map (option_map (map f)) l) = option_map (map f) (concat_opt l).
  Proof.
    induction l as [|[a|] l IH]; cbn [map option_map concat_opt]; auto. rewrite IH. destruct (concat_opt l); cbn [option_map]; [|reflexivity].
    now rewrite map_app.
  Qed.
  Lemma map_row {B} (f : F -> F -> B) fuel (lo hi d y : F) :
    option_map (map (fun xy => f (snd xy) (fst xy))) (double_row fsin fcos fatan fasin facos fexp flog fuel lo hi d y) =
    match grid (N:=F) fuel (lo + d / 2)%float hi d with Some xs => Some (map (f y) xs) | None => None end.
  Proof.
    unfold double_row, double_midpoints. destruct (grid (N:=F) fuel (lo + d / 2)%float hi d); [|reflexivity].
    cbn [option_map]. rewrite map_map. reflexivity.
  Qed.
  Lemma visited_points fuel (T : transducer F) (q : samp F) (xo yo zo delay : F) : flat_T T ->
    visited fuel T q xo yo zo delay = option_map (map (pt_of q xo yo zo delay T)) (points fuel T q).
  Proof.
    intros HT. destruct T as [a b| |rad| |a| | | | | |]; try contradiction; unfold visited; cbn [scanner_of_T double_points].
    - unfold source_points. cbn [sc_outer rect_scanner row_x0 row_xmax row_dx]. unfold double_midpoints.
      change (nadd (n:=F) (ndiv (n:=F) (nopp (n:=F) b) (nofZ (n:=F) 2)) (ndiv (n:=F) (dy q) (nofZ (n:=F) 2))) with (- b / 2 + dy q / 2)%float.
      change (ndiv (n:=F) b (nofZ (n:=F) 2)) with (b / 2)%float.
      destruct (grid (N:=F) fuel (- b / 2 + dy q / 2)%float (b / 2)%float (dy q)) as [ys|]; [|reflexivity].
      rewrite <- concat_map. f_equal. rewrite map_map. apply map_ext. intros y.
      exact (eq_sym (map_row (sc_pt (rect_scanner q a b delay (nofZ (n:=F) 1) xo yo zo)) fuel (- a / 2)%float (a / 2)%float (dx q) y)).
    - unfold source_points. cbn [sc_outer circ_scanner row_x0 row_xmax row_dx]. unfold double_midpoints.
      change (nadd (n:=F) (nopp (n:=F) rad) (ndiv (n:=F) (dy q) (nofZ (n:=F) 2))) with (- rad + dy q / 2)%float.
      destruct (grid (N:=F) fuel (- rad + dy q / 2)%float rad (dy q)) as [ys|]; [|reflexivity].
      rewrite <- concat_map. f_equal. rewrite map_map. apply map_ext. intros y. cbv zeta.
      exact (eq_sym (map_row (sc_pt (circ_scanner q rad delay (nofZ (n:=F) 1) xo yo zo)) fuel _ _ (dx q) y)).
    - unfold source_points. cbn [sc_outer line_scanner].
      exact (eq_sym (map_row (sc_pt (line_scanner q a delay xo yo zo)) fuel (- a / 2)%float (a / 2)%float (dx q) (nofZ (n:=F) 0))).
  Qed.
  Lemma line_y fuel (a : F) (q : samp F) l : points fuel (TLine a) q = Some l -> Forall (fun xy => snd xy = (0%float : F)) l.
  Proof.
    cbn [double_points]. unfold double_row. destruct (double_midpoints _ _ _ _ _ _ _ _ _ _ _); [|discriminate].
    cbn [option_map]. intros [= <-]. rewrite Forall_map. apply Forall_forall. reflexivity.
  Qed.

  Lemma zeros_inv ntz k : (k < Z.to_nat ntz)%nat -> inv 0 (nth k (zeros (N:=F) ntz) (0%float : F)) 0.
  Proof. intros H. unfold zeros. rewrite nth_repeat. exact inv_zero. Qed.

  (** One observation point. *)
  Lemma flat_point K fuel (T : transducer F) (q : samp F) lvl (xo yo zo delay : F) pts :
    flat_T T -> ordinary_par q -> ordinary xo -> ordinary yo -> ordinary zo -> ordinary delay -> lvl = lvl_ignore \/ lvl = lvl_warn ->
    points fuel T q = Some pts -> ordinary_call K (Q q) (val delay) (O xo yo zo) (map (src q) pts) ->
    exists out e, serial K fuel T q None lvl xo yo zo delay 0 (zeros (nt q)) = Ok (out, e) /\ e <> err_oob /\ length out = Z.to_nat (nt q) /\
      forall k, (k < Z.to_nat (nt q))%nat ->
        close_sample (length pts) (rayleigh (Q q) 1 (val delay) (O xo yo zo) (map (src q) pts) (Z.of_nat k)) (nth k out (0%float : F)).
  Proof.
    intros HT Hq Hx Hy Hz Hd Hl Hp [Hc Ht Hf Hm]. set (cs := map (pt_of q xo yo zo delay T) pts).
    assert (Hv : visited fuel T q xo yo zo delay = Some cs) by (rewrite visited_points, Hp by exact HT; reflexivity).
    pose proof (points_moderate fuel T q pts HT (proj1 Hq) (proj1 (proj2 Hq)) Hp) as Hmod.
    assert (W : Forall2 (well fsin fcos fatan fasin facos fexp flog q xo yo zo delay) (map (src q) pts) cs).
    { unfold cs. assert (Hy0 : match T with TLine _ => Forall (fun xy => snd xy = (0%float : F)) pts | _ => True end).
      { destruct T; auto. exact (line_y _ _ _ _ Hp). }
      assert (G : forall l, incl l pts -> Forall2 (well fsin fcos fatan fasin facos fexp flog q xo yo zo delay) (map (src q) l) (map (pt_of q xo yo zo delay T) l));
        [|apply G; intros z Hz'; exact Hz'].
      induction l as [|[x y] l IH]; intros Hi; cbn [map]; constructor.
      - assert (Hin : In (x, y) pts) by (apply Hi; now left). rewrite Forall_forall in Hmod. destruct (Hmod _ Hin) as [Mx My]. cbn [fst snd] in Mx, My.
        apply well_pt; auto.
        + destruct T as [a b| |rad| |a| | | | | |]; try contradiction; try exact I. rewrite Forall_forall in Hy0. exact (Hy0 _ Hin).
        + assert (Hs : In (src q (x, y)) (map (src q) pts)) by (apply in_map; exact Hin). split.
          * rewrite bpow_val. apply Hc, Hs.
          * apply Ht, Hs.
      - apply IH. intros z Hz'. apply Hi. now right. }
    assert (Hr : representable K cs).
    { clear - W Hf. unfold samples_fit in Hf. unfold representable. remember (map (src q) pts) as ss. clear Heqss.
      induction W as [|s c ss cs Hs W IH]; constructor.
      - exists (arrives_at (Q q) (val delay) (O xo yo zo) s). split; [exact (proj1 Hs)|]. apply Hf. now left.
      - apply IH. intros z Hz. apply Hf. now right. }
    assert (Z0 : length (zeros (N:=F) (nt q)) = Z.to_nat (nt q)) by apply repeat_length.
    assert (Es : start T (nt q) (zeros (nt q)) = zeros (nt q)) by (unfold start; destruct (adds_up T); reflexivity).
    assert (NB : no_bail lvl) by (unfold no_bail; tauto).
    rewrite (serial_nobail K fuel T q None lvl xo yo zo delay cs _ Hv Hr Z0 NB). rewrite Es, emit_all_lossless by exact Z0. cbn [bind].
    eexists _, _. split; [reflexivity|]. split; [|split].
    - destruct (all_in (nt q) cs); [discriminate|]. destruct Hl as [-> | ->]; discriminate.
    - rewrite length_accumulate. exact Z0.
    - intros k Hk. assert (Lc : length cs = length pts) by (unfold cs; apply map_length).
      rewrite map_length, <- bpow_val in Hm.
      apply (inv_close (length pts)); [lia|exact Hm|]. rewrite <- Lc.
      pose proof (accumulate_inv fsin fcos fatan fasin facos fexp flog q xo yo zo delay (nt q) cs _ W (zeros (nt q)) 0 (fun _ => 0) Z0) as A.
      cbn [Nat.add] in A. rewrite Lc in A at 1. specialize (A Hm (fun j Hj => zeros_inv (nt q) j Hj) k Hk). rewrite Rplus_0_l in A. exact A.
  Qed.

  (** C99: what the user gets from dreamrect, dreamcirc and dreamline, in
      doubles, for every front end, number of workers, schedule and content of
      fresh memory. *)
  Theorem C99_flat_accuracy : forall fuel c2r fe f nlhs hw env sch (junk : list F) args (T : transducer F) q l No ro dty del pts,
    documented fe f args T q (0%float : F) l No ro dty del -> l = lvl_ignore \/ l = lvl_warn ->
    (0 <= nlhs <= 2)%Z -> (0 <= nt q)%Z -> keeps_length c2r -> (0 <= hw)%Z -> runs_to_end hw env No sch ->
    flat_T T -> ordinary_par q -> Forall ordinary ro -> Forall ordinary del ->
    points fuel T q = Some pts ->
    let xo n := nth n ro (0%float : F) in
    let yo n := nth (n + Z.to_nat No) ro (0%float : F) in
    let zo n := nth (n + 2 * Z.to_nat No) ro (0%float : F) in
    let delay n := nth (match dty with delay_single => 0 | delay_multiple => n end)%nat del (0%float : F) in
    (forall n, (n < Z.to_nat No)%nat ->
       ordinary_call (idx_of fe) (Q q) (val (delay n)) (O (xo n) (yo n) (zo n)) (map (src q) pts)) ->
    exists H w e,
      gateway fuel c2r fe f nlhs hw env sch junk args = Ok (Some (Returned H (nt q) No w e)) /\
      length H = Z.to_nat (nt q * No) /\
      forall n k, (n < Z.to_nat No)%nat -> (k < Z.to_nat (nt q))%nat ->
        exists r, nth_error H (n * Z.to_nat (nt q) + k) = Some r /\
          close_sample (length pts)
            (rayleigh (Q q) 1 (val (delay n)) (O (xo n) (yo n) (zo n)) (map (src q) pts) (Z.of_nat k)) r.
  Proof.
    intros fuel c2r fe f nlhs hw env sch junk args T q l No ro dty del pts D Hl Hlhs Hnt Hk Hhw Hsch HT Hq Hro Hdel Hp xo yo zo delay Hcall.
    assert (HR : rings_in_time fe T q) by (intros p X; exfalso; subst T; exact HT).
    assert (nth_of : forall (l : list F) i x, nth_error l i = Some x -> x = nth i l (0%float : F)).
    { intros l0 i x E. symmetry. now apply nth_error_nth. }
    set (J := requested fuel c2r T q (0%float : F) l No ro dty del).
    assert (PT : forall n x y z d, (0 <= n < No)%Z -> point_is J n x y z d ->
      x = xo (Z.to_nat n) /\ y = yo (Z.to_nat n) /\ z = zo (Z.to_nat n) /\ d = delay (Z.to_nat n) /\
      In x ro /\ In y ro /\ In z ro /\ In d del).
    { intros n x y z d Hn (E1 & E2 & E3 & E4). cbn [j_Ro j_No j_delay j_delay_type J requested asks] in E1, E2, E3, E4.
      repeat split; try (eapply nth_error_In; eassumption).
      - now apply nth_of.
      - apply nth_of. replace (Z.to_nat n + Z.to_nat No)%nat with (Z.to_nat (n + No)) by lia. exact E2.
      - apply nth_of. replace (Z.to_nat n + 2 * Z.to_nat No)%nat with (Z.to_nat (n + 2 * No)) by lia. exact E3.
      - unfold delay. apply nth_of. exact E4. }
    destruct (call_columns F fuel c2r fe f nlhs hw env sch junk args T q (0%float : F) l No ro dty del
      (fun n x y z d out => length out = Z.to_nat (nt q) /\ forall k, (k < Z.to_nat (nt q))%nat ->
         close_sample (length pts) (rayleigh (Q q) 1 (val d) (O x y z) (map (src q) pts) (Z.of_nat k)) (nth k out (0%float : F)))
      D Hlhs Hnt Hk Hhw HR Hsch) as (H & w & e & E & HL & Hcol).
    { intros n x y z d Hn Hpt. destruct (PT n x y z d Hn Hpt) as (-> & -> & -> & -> & Ix & Iy & Iz & Id).
      change (j_att _) with (@None (att_plan F)). rewrite Forall_forall in Hro, Hdel.
      destruct (flat_point (idx_of fe) fuel T q l _ _ _ _ pts HT Hq (Hro _ Ix) (Hro _ Iy) (Hro _ Iz) (Hdel _ Id) Hl Hp (Hcall (Z.to_nat n) ltac:(lia)))
        as (out & e & Es & He & Lo & Hc). exists out, e. auto. }
    exists H, w, e. split; [exact E|]. split; [exact HL|]. intros n k Hn Hk'.
    pose proof (documented_wf fuel c2r fe f args T q _ l No ro dty del Hk Hnt HR D) as W.
    destruct (point_is_ex _ J (Z.of_nat n) W ltac:(cbn [j_No J requested asks]; lia)) as (x & y & z & d & Hpt).
    destruct (Hcol (Z.of_nat n) x y z d ltac:(lia) Hpt) as (Lc & Hs). specialize (Hs k Hk').
    destruct (PT (Z.of_nat n) x y z d ltac:(lia) Hpt) as (-> & -> & -> & -> & _). rewrite Nat2Z.id in Hs.
    eexists. split; [|exact Hs]. unfold col. 
    assert (Hlt : (n * Z.to_nat (nt q) + k < length H)%nat) by (rewrite HL; nia).
    rewrite (nth_error_nth' H (0%float : F) Hlt). f_equal.
    assert (En : nth_error (firstn (Z.to_nat (nt q)) (skipn (Z.to_nat (Z.of_nat n * nt q)) H)) k = nth_error H (n * Z.to_nat (nt q) + k)).
    { rewrite nth_error_firstn', nth_error_skipn'. rewrite (proj2 (Nat.ltb_lt _ _) Hk'). f_equal. nia. }
    rewrite (nth_error_nth' H (0%float : F) Hlt) in En. symmetry. exact (nth_error_nth _ _ (0%float : F) En).
  Qed.
End Libm.
Print Assumptions C99_flat_accuracy.

(** ** The hypotheses of C99 hold for a concrete call: three observation points,
    a 1 mm x 1 mm rectangle with four source points, start delay 6 us. *)
Local Open Scope R_scope.
Lemma val_lit (x : PrimFloat.float) m k : Prim2SF x = S754_finite false m (- Z.of_nat k) -> val x = IZR (Zpos m) / IZR (2 ^ Z.of_nat k).
Proof.
  intros E. unfold val. rewrite E. rewrite powerRZ_neg'. rewrite <- pow_powerRZ, pow_IZR. unfold Rdiv. ring.
Qed.
Lemma val_neg (x : PrimFloat.float) m k : Prim2SF x = S754_finite true m (- Z.of_nat k) -> val x = - (IZR (Zpos m) / IZR (2 ^ Z.of_nat k)).
Proof.
  intros E. unfold val. rewrite E. rewrite powerRZ_neg'. rewrite <- pow_powerRZ, pow_IZR. unfold Rdiv. ring.
Qed.
Lemma val_zero : val 0%float = 0. Proof. reflexivity. Qed.
Ltac vpos x m k := 
  let H := fresh "E" in assert (H : val x = IZR (Zpos m) / IZR (2 ^ Z.of_nat k)) by (apply val_lit; vm_compute; reflexivity);
  let c := eval vm_compute in (2 ^ Z.of_nat k)%Z in change (2 ^ Z.of_nat k)%Z with c in H.
Lemma val_h : val 0.5%float = / 2.
Proof. vpos 0.5%float 4503599627370496%positive 53%nat. rewrite E. lra. Qed.
Lemma val_1 : val 1%float = 1.
Proof. vpos 1%float 4503599627370496%positive 52%nat. rewrite E. lra. Qed.
Lemma val_2 : val 2%float = 2.
Proof. vpos 2%float 4503599627370496%positive 51%nat. rewrite E. lra. Qed.
Lemma val_6 : val 6%float = 6.
Proof. vpos 6%float 6755399441055744%positive 50%nat. rewrite E. lra. Qed.
Lemma val_10 : val 10%float = 10.
Proof. vpos 10%float 5629499534213120%positive 49%nat. rewrite E. lra. Qed.
Lemma val_1500 : val 1500%float = 1500.
Proof. vpos 1500%float 6597069766656000%positive 42%nat. rewrite E. lra. Qed.
Lemma val_q : val 0.25%float = / 4.
Proof. vpos 0.25%float 4503599627370496%positive 54%nat. rewrite E. lra. Qed.
Lemma val_mq : val (-0.25)%float = - / 4.
Proof. rewrite (val_neg (-0.25)%float 4503599627370496%positive 54%nat) by (vm_compute; reflexivity).
  change (2 ^ Z.of_nat 54)%Z with 18014398509481984%Z. lra. Qed.
Lemma val_dt : 0.0399 <= val 0x1.47ae147ae147bp-5%float <= 0.0401.
Proof. vpos 0x1.47ae147ae147bp-5%float 5764607523034235%positive 57%nat. rewrite E. lra. Qed.

Lemma big2 : powerRZ 2 100 = 1267650600228229401496703205376.
Proof. change 100%Z with (Z.of_nat 100). rewrite <- pow_powerRZ, pow_IZR. reflexivity. Qed.
Lemma small2 : powerRZ 2 (-100) = / 1267650600228229401496703205376.
Proof. etransitivity; [exact (powerRZ_neg' 2 100)|]. now rewrite big2. Qed.

Definition ex_pts : list (FI * FI) := [(-0.25, -0.25); (0.25, -0.25); (-0.25, 0.25); (0.25, 0.25)]%float.
Local Notation id := (fun x : PrimFloat.float => x).
Definition FIpar := val_par id id id id id id id.
Definition FIpos := val_pos id id id id id id id.
Definition FIsrc := val_source id id id id id id id.


Lemma ex_arrival (r c d t6 : R) (z y : Z) : 1 <= IZR z -> 0.0399 <= d <= 0.0401 -> c = 1500 -> 1 <= r <= 100 -> t6 = 6 ->
  (IZR z - 0.45) * 0.0401 + 6 <= 1000 * r / 1500 <= (IZR z + 0.45) * 0.0399 + 6 ->
  Rabs ((1000 * r / c - t6 + 0) / d - IZR z) < 1 / 2 /\
  6 * eps * ((1000 * r / c + Rabs t6) / d) < Rabs ((1000 * r / c - t6 + 0) / d - (IZR y + / 2)).
Proof.
  intros Hz Hd -> Hr -> [H1 H2]. rewrite (Rabs_pos_eq 6) by lra.
  set (t := 1000 * r / 1500) in *. assert (Ht : 0 <= t <= 70) by (unfold t; lra). clearbody t.
  assert (A : IZR z - 0.45 <= (t - 6 + 0) / d <= IZR z + 0.45).
  { split; apply Rmult_le_reg_r with d; try lra; unfold Rdiv; rewrite Rmult_assoc, Rinv_l, Rmult_1_r by lra; nra. }
  set (v := (t - 6 + 0) / d) in *. clearbody v. split.
  - apply Rabs_def1; lra.
  - apply Rlt_le_trans with 0.05.
    + assert (E : (t + 6) / d <= 2000).
      { apply Rmult_le_reg_r with d; [lra|]. unfold Rdiv. rewrite Rmult_assoc, Rinv_l, Rmult_1_r by lra. lra. }
      assert (E0 : 0 <= (t + 6) / d) by (apply Rlt_le, Rdiv_lt_0_compat; lra).
      assert (Ee : 0 < eps <= 0.000001).
      { unfold eps. replace (powerRZ 2 (-52)) with (/ powerRZ 2 (Z.of_nat 52)) by (symmetry; exact (powerRZ_neg' 2 (Z.of_nat 52))). rewrite <- pow_powerRZ, pow_IZR.
        change (2 ^ Z.of_nat 52)%Z with 4503599627370496%Z. lra. }
      set (w := (t + 6) / d) in *. clearbody w. nra.
    + destruct (Z_le_gt_dec y (z - 1)) as [Hy|Hy].
      * assert (IZR y <= IZR z - 1) by (rewrite <- minus_IZR; now apply IZR_le). rewrite Rabs_pos_eq; lra.
      * assert (IZR z <= IZR y) by (apply IZR_le; lia). rewrite Rabs_left1; lra.
Qed.
(** One source: bounds of the distance give bounds of the arrival time. *)
Lemma ex_source (o : pos) (s : source) (S lo hi : R) (z : Z) : (p_x o - s_x s)^2 + (p_y o - s_y s)^2 + (p_z o - s_z s)^2 = S -> s_tau s = 0 ->
  1 <= lo -> hi <= 100 -> 0 <= hi -> lo * lo <= S <= hi * hi -> (1 <= z < 1000)%Z ->
  (IZR z - 0.45) * 0.0401 + 6 <= 1000 * lo / 1500 -> 1000 * hi / 1500 <= (IZR z + 0.45) * 0.0399 + 6 -> 
  powerRZ 2 (-100) <= SpecRayleigh.dist o s /\ (0 <= arrives_at (FIpar ex_q) (val 6%float) o s < 1000)%Z /\
  forall y : Z, 6 * eps * ((1000 * SpecRayleigh.dist o s / p_cp (FIpar ex_q) + Rabs (val 6%float)) / p_dt (FIpar ex_q))
    < Rabs (arrival (FIpar ex_q) (val 6%float) o s - (IZR y + / 2)).
Proof.
  intros HS Ht Hlo Hhi Hh [H1 H2] Hz A1 A2.
  assert (D : lo <= SpecRayleigh.dist o s <= hi).
  { unfold SpecRayleigh.dist. rewrite HS. split.
    - rewrite <- (sqrt_square lo) by lra. now apply sqrt_le_1_alt.
    - rewrite <- (sqrt_square hi) by lra. now apply sqrt_le_1_alt. }
  unfold arrives_at, arrival. rewrite Ht. set (r := SpecRayleigh.dist o s) in *. clearbody r.
  assert (Hz1 : 1 <= IZR z) by (apply IZR_le; lia).
  assert (P : forall y, Rabs ((1000 * r / p_cp (FIpar ex_q) - val 6%float + 0) / p_dt (FIpar ex_q) - IZR z) < 1 / 2 /\
    6 * eps * ((1000 * r / p_cp (FIpar ex_q) + Rabs (val 6%float)) / p_dt (FIpar ex_q))
    < Rabs ((1000 * r / p_cp (FIpar ex_q) - val 6%float + 0) / p_dt (FIpar ex_q) - (IZR y + / 2))).
  { intros y. apply ex_arrival; [exact Hz1|exact val_dt|exact val_1500|lra|exact val_6|lra]. }
  split; [rewrite small2; lra|]. split; [|intros y; apply P].
  rewrite (Zrint_unique _ z (proj1 (P 0%Z))). lia.
Qed.
Definition ex_o (x : R) : pos := {| p_x := x; p_y := 0; p_z := 10 |}.
Lemma ex_call_ok K (x : PrimFloat.float) : val x = 0 \/ val x = 1 \/ val x = 2 ->
  ordinary_call K (FIpar ex_q) (val 6%float) (FIpos x 0%float 10%float) (map (FIsrc ex_q) ex_pts).
Proof.
  intros Hx.
  assert (P : forall s, In s (map (FIsrc ex_q) ex_pts) ->
    powerRZ 2 (-100) <= SpecRayleigh.dist (FIpos x 0%float 10%float) s /\
    (0 <= arrives_at (FIpar ex_q) (val 6%float) (FIpos x 0%float 10%float) s < 1000)%Z /\
    forall y : Z, 6 * eps * ((1000 * SpecRayleigh.dist (FIpos x 0%float 10%float) s / p_cp (FIpar ex_q) + Rabs (val 6%float)) / p_dt (FIpar ex_q))
    < Rabs (arrival (FIpar ex_q) (val 6%float) (FIpos x 0%float 10%float) s - (IZR y + / 2))).
  { intros s Hs. cbn [map ex_pts In] in Hs.
    assert (E : exists X Y, (X = / 4 \/ X = - / 4) /\ (Y = / 4 \/ Y = - / 4) /\ s = flat (val (dx ex_q) * val (dy ex_q)) X Y).
    { destruct Hs as [<-|[<-|[<-|[<-|[]]]]]; unfold FIsrc, val_source; cbn [fst snd]; rewrite ?val_q, ?val_mq; eexists _, _; (split; [|split; [|reflexivity]]); auto. }
    destruct E as (X & Y & HX & HY & ->).
    assert (HY2 : Y * Y = / 16) by (destruct HY; subst Y; lra).
    assert (D : forall S, (val x - X) * (val x - X) + / 16 + 100 = S ->
      (p_x (FIpos x 0%float 10%float) - s_x (flat (val (dx ex_q) * val (dy ex_q)) X Y))^2 + (p_y (FIpos x 0%float 10%float) - s_y (flat (val (dx ex_q) * val (dy ex_q)) X Y))^2
      + (p_z (FIpos x 0%float 10%float) - s_z (flat (val (dx ex_q) * val (dy ex_q)) X Y))^2 = S).
    { intros S HS. unfold FIpos, val_pos, flat. cbn [p_x p_y p_z s_x s_y s_z]. change (val 0%float) with 0. rewrite val_10, <- HS. cbn [pow]. nra. }
    destruct Hx as [Hx|[Hx|Hx]]; destruct HX as [-> | ->]; rewrite Hx in D.
    - eapply (ex_source _ _ _ 10.006 10.007 17); [eapply D; reflexivity|reflexivity|lra|lra|lra|lra|lia|lra|lra].
    - eapply (ex_source _ _ _ 10.006 10.007 17); [eapply D; reflexivity|reflexivity|lra|lra|lra|lra|lia|lra|lra].
    - eapply (ex_source _ _ _ 10.031 10.032 17); [eapply D; reflexivity|reflexivity|lra|lra|lra|lra|lia|lra|lra].
    - eapply (ex_source _ _ _ 10.0809 10.081 18); [eapply D; reflexivity|reflexivity|lra|lra|lra|lra|lia|lra|lra].
    - eapply (ex_source _ _ _ 10.155 10.156 19); [eapply D; reflexivity|reflexivity|lra|lra|lra|lra|lia|lra|lra].
    - eapply (ex_source _ _ _ 10.253 10.2531 21); [eapply D; reflexivity|reflexivity|lra|lra|lra|lra|lia|lra|lra]. }
  split.
  - intros s Hs. apply P, Hs.
  - intros s Hs z. apply P, Hs.
  - intros s Hs. destruct (P s Hs) as (_ & A & _). destruct K; lia.
  - cbn [map ex_pts length INR]. change 50%Z with (Z.of_nat 50). rewrite <- pow_powerRZ, pow_IZR.
    change (2 ^ Z.of_nat 50)%Z with 1125899906842624%Z. lra.
Qed.
Lemma ord0 : ordinary 0%float. Proof. split; [reflexivity|]. change (val 0%float) with 0. rewrite Rabs_R0, big2. lra. Qed.
Lemma ord_pos x : finite x -> 0 <= val x <= 1500 -> ordinary x.
Proof. intros Hf [H1 H2]. split; [exact Hf|]. rewrite Rabs_pos_eq, big2 by lra. lra. Qed.
Lemma ord_pp x : finite x -> 0.01 <= val x <= 1500 -> ordinary_pos x.
Proof. intros Hf [H1 H2]. split; [exact Hf|]. rewrite big2, small2. lra. Qed.
Local Open Scope string_scope.
Local Open Scope R_scope.
Example C99_ex : forall fe,
  documented fe FRect (rect_args [VStr "warn"]) (@TRect FI 1%float 1%float) ex_q 0%float lvl_warn 3
    ([0; 1; 2] ++ [0; 0; 0] ++ [10; 10; 10])%float delay_single [6%float] /\
  runs_to_end 2 None 3 (round_robin 10 2) /\
  flat_T id id id id id id id (@TRect FI 1%float 1%float) /\ ordinary_par id id id id id id id ex_q /\
  Forall ordinary ([0; 1; 2] ++ [0; 0; 0] ++ [10; 10; 10])%float /\ Forall ordinary [6%float] /\
  double_points id id id id id id id 10 (@TRect FI 1%float 1%float) ex_q = Some ex_pts /\
  forall n, (n < 3)%nat -> ordinary_call (idx_of fe) (FIpar ex_q) (val 6%float)
    (FIpos (nth n [0; 1; 2]%float 0%float) 0%float 10%float) (map (FIsrc ex_q) ex_pts).
Proof.
  intros fe. pose proof ord0. pose proof val_1. pose proof val_2. pose proof val_6. pose proof val_10. pose proof val_h. pose proof val_1500. pose proof val_dt.
  split; [apply C41_nonvacuous|]. split.
  { split; [intros H9; vm_compute in H9; intuition discriminate|].
    change (num_threads 2 None 3) with 2%Z. intros i Hi. assert (C : (i = 0 \/ i = 1)%Z) by lia.
    destruct C as [-> | ->]; vm_compute; discriminate. }
  split; [split; apply ord_pos; try reflexivity; lra|].
  split; [unfold ordinary_par, ex_q; cbn [dx dy dt vel cp]; repeat split; try reflexivity; rewrite ?small2, ?big2; lra|].
  split; [repeat (apply Forall_cons; [first [exact ord0|apply ord_pos; [reflexivity|lra]]|]); apply Forall_nil|].
  split; [repeat (apply Forall_cons; [first [exact ord0|apply ord_pos; [reflexivity|lra]]|]); apply Forall_nil|].
  split; [vm_compute; reflexivity|].
  intros n Hn. apply ex_call_ok. destruct n as [|[|[|n]]]; cbn [nth]; [left; reflexivity|right; left; lra|right; right; lra|lia].
Qed.
