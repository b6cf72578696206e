(** PropRoundArr.v - property theorem C127: accuracy of dream_arr_rect and
    dream_arr_circ in double precision. *)
From Coq Require Strings.String Strings.Ascii.
Import Coq.Strings.String.StringSyntax.
From Coq Require Import Floats Uint63.
From Coq Require Import Reals Lra Lia ZArith List Bool.
From Flocq Require Import Core BinarySingleNaN PrimFloat.
From Verif Require Import Base BaseLemmas NumF NumR ModelSir ModelArr ModelSmp SpecSmp ModelGw SpecGw SpecGwR SpecSir ProofsEnum ProofsErr SpecRayleigh SpecArr
  ProofsTermF SpecRound ProofsRound ProofsRel SpecRoundSir ProofsRoundSir ProofsSmp ProofsSmp2 ProofsLocalArr ProofsCall ProofsGw5 ProofsGwR ProofsR PropGw PropRoundSir
  SpecRoundArr ProofsRoundArr.
Import ListNotations.
Open Scope R_scope.

#[local] Instance fe_valid : Valid_exp fe := fexp_correct prec emax Hprec.
#[local] Instance p53 : Prec_gt_0 53 := eq_refl.

Lemma get_in {A} (l : list A) (k : Z) (d : A) : (0 <= k < Z.of_nat (length l))%Z -> buf_get l k = Ok (nth (Z.to_nat k) l d).
Proof.
  intros H. unfold buf_get. rewrite (nth_error_nth' l d) by lia.
  destruct (Base.in_range l k) eqn:E; [reflexivity|]. unfold Base.in_range in E. apply andb_false_iff in E.
  destruct E as [E|E]; [apply Z.leb_gt in E|apply Z.ltb_ge in E]; lia.
Qed.

Section Libm.
  Context (fsin fcos fatan fasin facos fexp flog : PrimFloat.float -> PrimFloat.float).
  Local Notation F := (FN fsin fcos fatan fasin facos fexp flog).
  Local Notation points := (double_points fsin fcos fatan fasin facos fexp flog).
  Local Notation Q := (val_par fsin fcos fatan fasin facos fexp flog).
  Local Notation O := (val_pos fsin fcos fatan fasin facos fexp flog).
  Local Notation src := (val_source fsin fcos fatan fasin facos fexp flog).
  Local Notation ordinary_par := (ordinary_par fsin fcos fatan fasin facos fexp flog).
  Local Notation elements := (elements fsin fcos fatan fasin facos fexp flog).
  Local Notation simple_array := (simple_array fsin fcos fatan fasin facos fexp flog).
  Local Notation ordinary_array := (ordinary_array fsin fcos fatan fasin facos fexp flog).
  Local Notation elem_place := (elem_place fsin fcos fatan fasin facos fexp flog).
  Local Notation elem_late := (elem_late fsin fcos fatan fasin facos fexp flog).
  Local Notation elem_gain := (elem_gain fsin fcos fatan fasin facos fexp flog).
  Local Notation array_sample := (array_sample fsin fcos fatan fasin facos fexp flog).
  Local Notation mpt := (mpt fsin fcos fatan fasin facos fexp flog).
  Local Notation mwell := (mwell fsin fcos fatan fasin facos fexp flog).

  (** The scanner of an element. *)
  Definition elem_scanner (E : transducer F) (q : samp F) (d w x y z : F) : scanner F :=
    match E with
    | TRect a b => rect_scanner q a b d w x y z
    | TCirc R => circ_scanner q R d w x y z
    | _ => rect_scanner q (nofZ 0) (nofZ 0) d w x y z
    end.
  Lemma elem_points fuel (E : transducer F) (q : samp F) (d w xo yo zo gx gy gz : F) pts :
    match E with TRect _ _ | TCirc _ => True | _ => False end -> points fuel E q = Some pts ->
    source_points fuel (elem_scanner E q d w (xo - gx)%float (yo - gy)%float (zo - gz)%float) = Some (map (mpt q xo yo zo gx gy gz d w) pts).
  Proof.
    intros HE Hp. assert (R : Some (map (mpt q xo yo zo gx gy gz d w) pts) = option_map (map (mpt q xo yo zo gx gy gz d w)) (points fuel E q)) by now rewrite Hp.
    rewrite R. clear R Hp. unfold ProofsRoundArr.mpt.
    destruct E as [a b| |rad| | | | | | | |]; try contradiction; cbn [elem_scanner double_points].
    - unfold source_points. cbn [sc_outer rect_scanner row_x0 row_xmax row_dx]. unfold double_midpoints.
      change (nadd (n:=F) (ndiv (n:=F) (nopp (n:=F) b) (nofZ (n:=F) 2)) (ndiv (n:=F) (dy q) (nofZ (n:=F) 2))) with (- b / 2 + dy q / 2)%float.
      change (ndiv (n:=F) b (nofZ (n:=F) 2)) with (b / 2)%float.
      destruct (grid (N:=F) fuel (- b / 2 + dy q / 2)%float (b / 2)%float (dy q)) as [ys|]; [|reflexivity].
      rewrite <- concat_map. f_equal. rewrite map_map. apply map_ext. intros y.
      exact (eq_sym (map_row fsin fcos fatan fasin facos fexp flog (sc_pt (rect_scanner q (nofZ (n:=F) 0) (nofZ (n:=F) 0) d w (xo - gx)%float (yo - gy)%float (zo - gz)%float)) fuel (- a / 2)%float (a / 2)%float (dx q) y)).
    - unfold source_points. cbn [sc_outer circ_scanner row_x0 row_xmax row_dx]. unfold double_midpoints.
      change (nadd (n:=F) (nopp (n:=F) rad) (ndiv (n:=F) (dy q) (nofZ (n:=F) 2))) with (- rad + dy q / 2)%float.
      destruct (grid (N:=F) fuel (- rad + dy q / 2)%float rad (dy q)) as [ys|]; [|reflexivity].
      rewrite <- concat_map. f_equal. rewrite map_map. apply map_ext. intros y. cbv zeta.
      exact (eq_sym (map_row fsin fcos fatan fasin facos fexp flog (sc_pt (rect_scanner q (nofZ (n:=F) 0) (nofZ (n:=F) 0) d w (xo - gx)%float (yo - gy)%float (zo - gz)%float)) fuel _ _ (dx q) y)).
  Qed.

  (** One element added to the response. *)
  Lemma element_step K fuel (E : transducer F) (q : samp F) lvl o W D (xo yo zo gx gy gz d w : F) pts (h : list F) m (X : nat -> R) :
    flat_T fsin fcos fatan fasin facos fexp flog E -> match E with TRect _ _ | TCirc _ => True | _ => False end ->
    points fuel E q = Some pts -> ordinary_par q -> (forall v, In v [xo; yo; zo; gx; gy; gz] -> ordinary v) ->
    o = {| p_x := val xo - val gx; p_y := val yo - val gy; p_z := val zo - val gz |} ->
    fin d = true /\ Rabs (V d - D) <= u * Rabs D /\ Rabs D <= bpow radix2 102 -> ordinary_pos w -> W = val w -> lvl = lvl_ignore \/ lvl = lvl_warn ->
    ordinary_elem K (Q q) D o (map (src q) pts) -> length h = Z.to_nat (nt q) -> INR (m + length pts) <= bpow radix2 50 ->
    (forall k, (k < Z.to_nat (nt q))%nat -> ainv m (nth k h (0%float : F)) (X k)) ->
    exists h' e, run_scanner K fuel (elem_scanner E q d w (xo - gx)%float (yo - gy)%float (zo - gz)%float) None lvl (nt q) 0 h = Ok (h', e) /\ e <> err_oob /\
      length h' = Z.to_nat (nt q) /\
      forall k, (k < Z.to_nat (nt q))%nat -> ainv (m + length pts) (nth k h' (0%float : F)) (X k + rayleigh (Q q) W D o (map (src q) pts) (Z.of_nat k)).
  Proof.
    intros HT HE Hp Hq Hord Eo Hd Hw EW Hl [Hc Ht Hf] Hh Hm Hi.
    pose proof (points_moderate fsin fcos fatan fasin facos fexp flog fuel E q pts HT (proj1 Hq) (proj1 (proj2 Hq)) Hp) as Hmod.
    set (cs := map (mpt q xo yo zo gx gy gz d w) pts).
    assert (MW : Forall2 (mwell q o W D) (map (src q) pts) cs).
    { unfold cs. assert (Gn : forall l, incl l pts -> Forall2 (mwell q o W D) (map (src q) l) (map (mpt q xo yo zo gx gy gz d w) l)); [|apply Gn; intros z Hz'; exact Hz'].
      induction l as [|[x y] l IH]; intros Hl'; cbn [map]; constructor; [|apply IH; intros z Hz; apply Hl'; now right].
      assert (Hin : In (x, y) pts) by (apply Hl'; now left). rewrite Forall_forall in Hmod. destruct (Hmod _ Hin) as [Mx My]. cbn [fst snd] in Mx, My.
      assert (Hs : In (src q (x, y)) (map (src q) pts)) by (apply in_map; exact Hin).
      destruct (Hc _ Hs) as (C1 & C2 & C3). apply mwell_pt; auto. }
    assert (Hr : representable K cs).
    { clear - MW Hf. unfold samples_fit in Hf. unfold representable. remember (map (src q) pts) as ss. clear Heqss.
      induction MW as [|s c ss cs Hs W' IH]; constructor.
      - exists (arrives_at (Q q) D o s). split; [exact (proj1 Hs)|]. apply Hf. now left.
      - apply IH. intros z Hz. apply Hf. now right. }
    assert (NB : no_bail lvl) by (unfold no_bail; tauto).
    rewrite (run_scanner_nobail K fuel _ None lvl (nt q) cs h (elem_points fuel E q d w xo yo zo gx gy gz pts HE Hp) Hh Hr NB).
    assert (SB : start_buf (elem_scanner E q d w (xo - gx)%float (yo - gy)%float (zo - gz)%float) (nt q) h = h) by (destruct E; try contradiction; reflexivity).
    rewrite SB, emit_all_lossless by exact Hh. cbn [bind]. eexists _, _. split; [reflexivity|]. split; [|split].
    - destruct (all_in (nt q) cs); [discriminate|]. destruct Hl as [-> | ->]; discriminate.
    - rewrite length_accumulate. exact Hh.
    - intros k Hk. assert (Lc : length cs = length pts) by (unfold cs; apply map_length). rewrite <- Lc in *.
      exact (maccumulate fsin fcos fatan fasin facos fexp flog q o W D xo yo zo gx gy gz d w Hord (nt q) cs _ MW h m X Hh Hm Hi k Hk).
  Qed.

  (** Delay and weight of an element, in doubles. *)
  Definition late_F (p : arr_par F) (i : nat) : F := match foc_met p with foc_ud => nth i (focal p) (0%float : F) | _ => (0%float : F) end.
  Definition gain_F (p : arr_par F) (i : nat) : F := if do_apod p then nth i (apod p) (0%float : F) else (1%float : F).
  Lemma elem_delays_F p (c xm ym rm : F) i : wf_arr p -> simple_array p -> (i < Z.to_nat (num_elements p))%nat ->
    elem_delays (N:=F) p c xm ym rm (Z.of_nat i) = Ok (late_F p i, (0%float : F), gain_F p i).
  Proof.
    intros [W1 W2 W3 W4] (S1 & S2 & S3) Hi. unfold elem_delays, gx, gy.
    rewrite (get_in (G p) (Z.of_nat i) (0%float : F)), (get_in (G p) (num_elements p + Z.of_nat i) (0%float : F)) by lia. cbn [bind].
    assert (EF : (if FocusMet_is_ud (foc_met p) then buf_get (focal p) (Z.of_nat i) else
       do f0 <- buf_get (focal p) 0; Ok (focusing (N:=F) (foc_met p) f0 (nth (Z.to_nat (Z.of_nat i)) (G p) (0%float : F)) (nth (Z.to_nat (num_elements p + Z.of_nat i)) (G p) (0%float : F)) xm ym rm c)) = Ok (late_F p i)).
    { unfold late_F. destruct S2 as [E|E]; rewrite E in *; cbn [FocusMet_is_ud] in *.
      - rewrite (get_in (focal p) 0 (0%float : F)) by lia. reflexivity.
      - rewrite (get_in (focal p) (Z.of_nat i) (0%float : F)) by lia. now rewrite Nat2Z.id. }
    rewrite EF. cbn [bind]. clear EF.
    assert (EW : (if do_apod p then apodization (N:=F) (apod_met p) (Z.of_nat i) (apod p) (nth (Z.to_nat (Z.of_nat i)) (G p) (0%float : F)) (nth (Z.to_nat (num_elements p + Z.of_nat i)) (G p) (0%float : F)) rm (apod_par p)
       else Ok (nofZ (n:=F) 1)) = Ok (gain_F p i)).
    { unfold gain_F. destruct (do_apod p) eqn:E; [|reflexivity]. specialize (S3 eq_refl). specialize (W4 eq_refl S3). rewrite S3. cbn [apodization].
      rewrite (get_in (apod p) (Z.of_nat i) (0%float : F)) by lia. now rewrite Nat2Z.id. }
    rewrite EW. cbn [bind]. rewrite S1. reflexivity.
  Qed.
  Lemma late_ok p (delay : F) i : wf_arr p -> ordinary_array p -> ordinary delay -> (i < Z.to_nat (num_elements p))%nat ->
    let d := (delay - late_F p i - 0)%float in let D := val delay - elem_late p i in
    fin d = true /\ Rabs (V d - D) <= u * Rabs D /\ Rabs D <= bpow radix2 102.
  Proof.
    intros [W1 W2 W3 W4] (_ & O2 & _) Hd Hi. cbv zeta. apply ordinary_V in Hd. destruct Hd as [Fd Bd].
    assert (OL : fin (late_F p i) = true /\ Rabs (V (late_F p i)) <= bpow radix2 100 /\ elem_late p i = V (late_F p i)).
    { unfold late_F, SpecRoundArr.elem_late. destruct (foc_met p) eqn:E;
        try (split; [reflexivity|]; split; [rewrite V0, Rabs_R0; apply bpow_ge_0|now rewrite V0]).
      cbn [FocusMet_is_ud] in W3. specialize (O2 eq_refl). rewrite Forall_forall in O2.
      assert (Oi : ordinary (nth i (focal p) (0%float : F))) by (apply O2, nth_In; lia). rewrite val_V.
      apply ordinary_V in Oi. tauto. }
    destruct OL as (Fl & Bl & ->). rewrite val_V. set (l := late_F p i) in *. pose proof u_small as Hu.
    assert (BD : Rabs (V delay - V l) <= 2 * bpow radix2 100) by (unfold Rminus; eapply Rle_trans; [apply Rabs_triang|rewrite Rabs_Ropp; lra]).
    pose proof (bpow_gt_0 radix2 100) as P100.
    assert (B101 : bpow radix2 102 = 4 * bpow radix2 100) by (change 102%Z with (2 + 100)%Z; rewrite bpow_plus; reflexivity).
    assert (BB : 8 * bpow radix2 100 <= bpow radix2 1023) by (change 8 with (bpow radix2 3); rewrite <- bpow_plus; apply bpow_le; lia).
    destruct (sub_std delay l Fd Fl) as (F1 & E1); [lra|].
    set (s := (delay - l)%float) in *.
    assert (Bs : Rabs (V s) <= 4 * bpow radix2 100).
    { replace (V s) with ((V s - (V delay - V l)) + (V delay - V l)) by ring. eapply Rle_trans; [apply Rabs_triang|].
      assert (u * Rabs (V delay - V l) <= 1 * Rabs (V delay - V l)) by (apply Rmult_le_compat_r; [apply Rabs_pos|lra]). lra. }
    assert (EX : fin (s - 0)%float = true /\ V (s - 0)%float = V s).
    { pose proof (Bminus_correct prec emax Hprec Hmax mode_NE (Prim2B s) (Prim2B 0%float) F1 eq_refl) as H.
      rewrite <- sub_equiv in H. change (B2R (Prim2B s)) with (V s) in H. change (B2R (Prim2B 0)) with (V 0%float) in H. rewrite V0, Rminus_0_r in H.
      rewrite round_generic in H; [|typeclasses eauto|apply V_format].
      rewrite Rlt_bool_true in H.
      - destruct H as (H1 & H2 & _). split; [exact H2|exact H1].
      - apply Rle_lt_trans with (1 := Bs). change 4 with (bpow radix2 2). rewrite <- bpow_plus. apply bpow_lt. reflexivity. }
    destruct EX as [F2 ->]. split; [exact F2|]. split; [exact E1|]. lra.
  Qed.
  Lemma gain_ok p i : wf_arr p -> simple_array p -> ordinary_array p -> (i < Z.to_nat (num_elements p))%nat -> ordinary_pos (gain_F p i) /\ elem_gain p i = val (gain_F p i).
  Proof.
    intros [W1 W2 W3 W4] (_ & _ & S3) (_ & _ & O3) Hi. unfold gain_F, SpecRoundArr.elem_gain. destruct (do_apod p).
    - specialize (O3 eq_refl). specialize (W4 eq_refl (S3 eq_refl)). rewrite Forall_forall in O3. split; [apply O3, nth_In; lia|reflexivity].
    - split; [|now rewrite val_1]. split; [reflexivity|]. rewrite val_1, small2, big2. lra.
  Qed.

  Lemma elems_F K fuel (E : transducer F) p (q : samp F) lvl (c xm ym rm xo yo zo delay : F) pts :
    flat_T fsin fcos fatan fasin facos fexp flog E -> match E with TRect _ _ | TCirc _ => True | _ => False end ->
    points fuel E q = Some pts -> ordinary_par q -> ordinary xo -> ordinary yo -> ordinary zo -> ordinary delay ->
    wf_arr p -> simple_array p -> ordinary_array p -> lvl = lvl_ignore \/ lvl = lvl_warn ->
    INR (Z.to_nat (num_elements p) * length pts) <= bpow radix2 50 ->
    (forall i, (i < Z.to_nat (num_elements p))%nat -> ordinary_elem K (Q q) (val delay - elem_late p i) (SpecArr.rel (O xo yo zo) (elem_place p i)) (map (src q) pts)) ->
    forall left n (h : list F) e0 (X : nat -> R), (n + left = Z.to_nat (num_elements p))%nat -> length h = Z.to_nat (nt q) ->
    (forall k, (k < Z.to_nat (nt q))%nat -> ainv (n * length pts) (nth k h (0%float : F)) (X k)) -> e0 <> err_oob ->
    exists h' e, arr_elems (N:=F) p c xm ym rm xo yo zo delay
        (fun x y z d w h => run_scanner K fuel (elem_scanner E q d w x y z) None lvl (nt q) 0 h) (Z.of_nat n) left (h, e0) = Ok (h', e) /\ e <> err_oob /\
      length h' = Z.to_nat (nt q) /\
      forall k, (k < Z.to_nat (nt q))%nat -> ainv ((n + left) * length pts) (nth k h' (0%float : F))
        (X k + Rsum (map (fun i => rayleigh (Q q) (elem_gain p i) (val delay - elem_late p i) (SpecArr.rel (O xo yo zo) (elem_place p i)) (map (src q) pts) (Z.of_nat k)) (seq n left))).
  Proof.
    intros HT HE Hp Hq Hx Hy Hz Hd W SA OA Hl Hm Hcall. induction left as [|left IH]; intros n h e0 X Hn Hh Hi He.
    - cbn [arr_elems seq map Rsum fold_right]. exists h, e0. split; [reflexivity|]. split; [exact He|]. split; [exact Hh|].
      intros k Hk. rewrite Nat.add_0_r, Rplus_0_r. auto.
    - cbn [arr_elems]. rewrite elem_delays_F by (auto; lia). cbn [bind]. pose proof W as W'. destruct W as [W1 W2 W3 W4].
      unfold gx, gy, gz. rewrite (get_in (G p) (Z.of_nat n) (0%float : F)), (get_in (G p) (num_elements p + Z.of_nat n) (0%float : F)),
        (get_in (G p) (2 * num_elements p + Z.of_nat n) (0%float : F)) by lia. cbn [bind].
      set (gxn := nth (Z.to_nat (Z.of_nat n)) (G p) (0%float : F)). set (gyn := nth (Z.to_nat (num_elements p + Z.of_nat n)) (G p) (0%float : F)).
      set (gzn := nth (Z.to_nat (2 * num_elements p + Z.of_nat n)) (G p) (0%float : F)).
      assert (OG : Forall ordinary (G p)) by apply OA. rewrite Forall_forall in OG.
      assert (Ogx : ordinary gxn) by (apply OG, nth_In; lia). assert (Ogy : ordinary gyn) by (apply OG, nth_In; lia).
      assert (Ogz : ordinary gzn) by (apply OG, nth_In; lia).
      destruct (gain_ok p n W' SA OA ltac:(lia)) as [Og Eg].
      destruct (element_step K fuel E q lvl (SpecArr.rel (O xo yo zo) (elem_place p n)) (elem_gain p n) (val delay - elem_late p n) xo yo zo gxn gyn gzn
        (delay - late_F p n - 0)%float (gain_F p n) pts h (n * length pts) X HT HE Hp Hq) as (h' & e & Es & He' & Hh' & Hi'); auto.
      + intros v Hv. cbn in Hv. intuition (subst; auto).
      + unfold SpecArr.rel, SpecRoundArr.elem_place, val_pos. cbn [p_x p_y p_z]. unfold gxn, gyn, gzn. rewrite Nat2Z.id.
        replace (Z.to_nat (num_elements p + Z.of_nat n)) with (Z.to_nat (num_elements p) + n)%nat by lia.
        replace (Z.to_nat (2 * num_elements p + Z.of_nat n)) with (2 * Z.to_nat (num_elements p) + n)%nat by lia. reflexivity.
      + apply late_ok; auto; lia.
      + apply Hcall. lia.
      + apply Rle_trans with (2 := Hm). apply le_INR. nia.
      + change (nsub (n:=F) xo gxn) with (xo - gxn)%float. change (nsub (n:=F) yo gyn) with (yo - gyn)%float. change (nsub (n:=F) zo gzn) with (zo - gzn)%float.
        change (nsub (n:=F) (nsub (n:=F) delay (late_F p n)) (0%float : F)) with (delay - late_F p n - 0)%float.
        rewrite Es. cbn [bind snd].
        replace (SIRError_eqb e err_oob) with false by (destruct e; try reflexivity; now elim He').
        destruct (IH (S n) h' e (fun k => X k + rayleigh (Q q) (elem_gain p n) (val delay - elem_late p n) (SpecArr.rel (O xo yo zo) (elem_place p n)) (map (src q) pts) (Z.of_nat k)))
          as (h2 & e2 & E2 & He2 & Hh2 & Hi2); auto; [lia| |].
        * intros k Hk. replace (S n * length pts)%nat with (n * length pts + length pts)%nat by lia. now apply Hi'.
        * replace (Z.of_nat n + 1)%Z with (Z.of_nat (S n)) by lia. exists h2, e2. split; [exact E2|]. split; [exact He2|]. split; [exact Hh2|].
          intros k Hk. specialize (Hi2 k Hk). replace (n + S left)%nat with (S n + left)%nat by lia. cbn [seq map].
          match goal with |- ainv _ _ (_ + Rsum (?a :: ?t)) => change (Rsum (a :: t)) with (a + Rsum t) end. rewrite <- Rplus_assoc. exact Hi2.
  Qed.

  Lemma from_ok {A} (P : A -> Prop) (body : Z -> A -> res A) m : forall i s, P s ->
    (forall j t, (i <= j < i + Z.of_nat m)%Z -> P t -> exists t', body j t = Ok t' /\ P t') -> exists t, for_from i m body s = Ok t /\ P t.
  Proof.
    induction m as [|m IH]; intros i s Hs Hb; cbn [for_from]; [eauto|].
    destruct (Hb i s ltac:(lia) Hs) as (s' & -> & Hs'). cbn [bind]. apply IH; [exact Hs'|]. intros j t Hj. apply Hb. lia.
  Qed.
  Lemma max_abs_ok (g : Z -> res F) m : (0 < m)%Z -> (forall j, (0 <= j < m)%Z -> exists v, g j = Ok v) -> exists v, max_abs (N:=F) g m = Ok v.
  Proof.
    intros Hm Hg. unfold max_abs. destruct (Hg 0%Z ltac:(lia)) as [g0 ->]. cbn [bind].
    destruct (from_ok (fun _ => True) (fun i m0 => do gi <- g i; let ret := nabs gi in Ok (if (m0 <? ret)%num then ret else m0)) (Z.to_nat (m - 1)) 1 (nabs g0) I) as (v & E & _); [|eauto].
    intros j t Hj _. destruct (Hg j ltac:(lia)) as [v ->]. cbn [bind]. eauto.
  Qed.
  Lemma max_dim_ok (p : arr_par F) : wf_arr p -> exists m, max_dim_arr (N:=F) p = Ok m.
  Proof.
    intros [W1 W2 W3 W4]. unfold max_dim_arr.
    destruct (max_abs_ok (gx p) (num_elements p) ltac:(lia)) as [xm ->].
    { intros j Hj. unfold gx. rewrite (get_in (G p) j (0%float : F)) by lia. eauto. }
    cbn [bind]. destruct (max_abs_ok (gy p) (num_elements p) ltac:(lia)) as [ym ->].
    { intros j Hj. unfold gy. rewrite (get_in (G p) (num_elements p + j) (0%float : F)) by lia. eauto. }
    cbn [bind]. eauto.
  Qed.

  Lemma array_point K fuel (T E : transducer F) p (q : samp F) lvl (xo yo zo delay : F) pts :
    elements T = Some (E, p) -> flat_T fsin fcos fatan fasin facos fexp flog E -> wf_arr p ->
    points fuel E q = Some pts -> ordinary_par q -> ordinary xo -> ordinary yo -> ordinary zo -> ordinary delay ->
    simple_array p -> ordinary_array p -> lvl = lvl_ignore \/ lvl = lvl_warn ->
    INR (Z.to_nat (num_elements p) * length pts) <= bpow radix2 50 ->
    (forall i, (i < Z.to_nat (num_elements p))%nat -> ordinary_elem K (Q q) (val delay - elem_late p i) (SpecArr.rel (O xo yo zo) (elem_place p i)) (map (src q) pts)) ->
    exists out e, serial K fuel T q None lvl xo yo zo delay 0 (zeros (nt q)) = Ok (out, e) /\ e <> err_oob /\ length out = Z.to_nat (nt q) /\
      forall k, (k < Z.to_nat (nt q))%nat ->
        array_close (Z.to_nat (num_elements p) * length pts) (array_sample (Q q) p (val delay) (O xo yo zo) (map (src q) pts) (Z.of_nat k)) (nth k out (0%float : F)).
  Proof.
    intros ET HT W Hp Hq Hx Hy Hz Hd SA OA Hl Hm Hc.
    assert (HE : match E with TRect _ _ | TCirc _ => True | _ => False end) by (destruct T; cbn [SpecRoundArr.elements] in ET; try discriminate; injection ET as <- <-; exact I).
    destruct (max_dim_ok p W) as ([[xm ym] rm] & M).
    assert (ES : serial K fuel T q None lvl xo yo zo delay 0 (zeros (nt q)) =
      arr_elems (N:=F) p (cp q) xm ym rm xo yo zo delay (fun x y z d w h => run_scanner K fuel (elem_scanner E q d w x y z) None lvl (nt q) 0 h)
        (Z.of_nat 0) (Z.to_nat (num_elements p)) (zeros (nt q), err_none)).
    { destruct T; cbn [SpecRoundArr.elements] in ET; try discriminate; injection ET as <- <-; cbn [serial attenuated]; unfold arr_serial; cbn [bind]; rewrite M; reflexivity. }
    assert (Z0 : length (zeros (N:=F) (nt q)) = Z.to_nat (nt q)) by apply repeat_length.
    destruct (elems_F K fuel E p q lvl (cp q) xm ym rm xo yo zo delay pts HT HE Hp Hq Hx Hy Hz Hd W SA OA Hl Hm Hc
      (Z.to_nat (num_elements p)) 0 (zeros (nt q)) err_none (fun _ => 0) eq_refl Z0) as (out & e & Er & He & Lo & Hi).
    { intros k Hk. cbn [Nat.mul]. unfold zeros. rewrite nth_repeat. exact ainv_zero. }
    { discriminate. }
    exists out, e. rewrite ES. split; [exact Er|]. split; [exact He|]. split; [exact Lo|].
    intros k Hk. specialize (Hi k Hk). cbn [Nat.add] in Hi. rewrite Rplus_0_l in Hi.
    exact (ainv_close _ _ _ Hm Hi).
  Qed.

  (** C127: what the user gets from dream_arr_rect and dream_arr_circ, in
      doubles, for every front end, number of workers, schedule and content of
      fresh memory: each sample is within (number of elements * number of source
      points of an element + 19) eps, relative, of the exact weighted sum. *)
  Theorem C127_array_accuracy : forall fuel c2r fe f nlhs hw env sch (junk : list F) args (T E : transducer F) p q l No ro dty del pts,
    documented fe f args T q (0%float : F) l No ro dty del -> l = lvl_ignore \/ l = lvl_warn ->
    (0 <= nlhs <= 2)%Z -> (0 <= nt q)%Z -> keeps_length c2r -> (0 <= hw)%Z -> runs_to_end hw env No sch ->
    elements T = Some (E, p) -> flat_T fsin fcos fatan fasin facos fexp flog E -> simple_array p -> ordinary_array p ->
    ordinary_par q -> Forall ordinary ro -> Forall ordinary del ->
    points fuel E q = Some pts -> INR (Z.to_nat (num_elements p) * length pts) <= powerRZ 2 50 ->
    let o n := O (nth n ro (0%float : F)) (nth (n + Z.to_nat No) ro (0%float : F)) (nth (n + 2 * Z.to_nat No) ro (0%float : F)) in
    let delay n := val (nth (match dty with delay_single => 0 | delay_multiple => n end)%nat del (0%float : F)) in
    (forall n i, (n < Z.to_nat No)%nat -> (i < Z.to_nat (num_elements p))%nat ->
       ordinary_elem (idx_of fe) (Q q) (delay n - elem_late p i) (SpecArr.rel (o n) (elem_place p i)) (map (src q) pts)) ->
    exists H w e,
      gateway fuel c2r fe f nlhs hw env sch junk args = Ok (Some (Returned H (nt q) No w e)) /\
      length H = Z.to_nat (nt q * No) /\
      forall n k, (n < Z.to_nat No)%nat -> (k < Z.to_nat (nt q))%nat ->
        exists r, nth_error H (n * Z.to_nat (nt q) + k) = Some r /\
          array_close (Z.to_nat (num_elements p) * length pts)
            (array_sample (Q q) p (delay n) (o n) (map (src q) pts) (Z.of_nat k)) r.
  Proof.
    intros fuel c2r fe f nlhs hw env sch junk args T E p q l No ro dty del pts D Hl Hlhs Hnt Hk Hhw Hsch ET HT SA OA Hq Hro Hdel Hp Hm o delay Hcall.
    assert (HR : rings_in_time fe T q) by (intros p' X; exfalso; subst T; discriminate ET).
    assert (nth_of : forall (l : list F) i x, nth_error l i = Some x -> x = nth i l (0%float : F)).
    { intros l0 i x Ei. symmetry. now apply nth_error_nth. }
    set (J := requested fuel c2r T q (0%float : F) l No ro dty del).
    pose proof (documented_wf fuel c2r fe f args T q _ l No ro dty del Hk Hnt HR D) as W.
    assert (WA : wf_arr p).
    { pose proof (wj_T _ _ W) as WT. cbn [j_T requested] in WT. destruct T; cbn [SpecRoundArr.elements] in ET; try discriminate; injection ET as <- <-; exact WT. }
    assert (PT : forall n x y z d, (0 <= n < No)%Z -> point_is J n x y z d ->
      O x y z = o (Z.to_nat n) /\ val d = delay (Z.to_nat n) /\ In x ro /\ In y ro /\ In z ro /\ In d del).
    { intros n x y z d Hn (E1 & E2 & E3 & E4). cbn [j_Ro j_No j_delay j_delay_type J requested asks] in E1, E2, E3, E4.
      assert (Ex : x = nth (Z.to_nat n) ro (0%float : F)) by now apply nth_of.
      assert (Ey : y = nth (Z.to_nat n + Z.to_nat No) ro (0%float : F)).
      { apply nth_of. replace (Z.to_nat n + Z.to_nat No)%nat with (Z.to_nat (n + No)) by lia. exact E2. }
      assert (Ez : z = nth (Z.to_nat n + 2 * Z.to_nat No) ro (0%float : F)).
      { apply nth_of. replace (Z.to_nat n + 2 * Z.to_nat No)%nat with (Z.to_nat (n + 2 * No)) by lia. exact E3. }
      split; [unfold o; now rewrite <- Ex, <- Ey, <- Ez|].
      split; [unfold delay; f_equal; now apply nth_of|].
      repeat split; eapply nth_error_In; eassumption. }
    rewrite <- bpow_val in Hm.
    destruct (call_columns F fuel c2r fe f nlhs hw env sch junk args T q (0%float : F) l No ro dty del
      (fun n x y z d out => length out = Z.to_nat (nt q) /\ forall k, (k < Z.to_nat (nt q))%nat ->
         array_close (Z.to_nat (num_elements p) * length pts) (array_sample (Q q) p (val d) (O x y z) (map (src q) pts) (Z.of_nat k)) (nth k out (0%float : F)))
      D Hlhs Hnt Hk Hhw HR Hsch) as (H & w & e & Eq & HL & Hcol).
    { intros n x y z d Hn Hpt. destruct (PT n x y z d Hn Hpt) as (Eo & Ed & Ix & Iy & Iz & Id).
      change (j_att _) with (@None (att_plan F)). rewrite Forall_forall in Hro, Hdel.
      destruct (array_point (idx_of fe) fuel T E p q l x y z d pts ET HT WA Hp Hq (Hro _ Ix) (Hro _ Iy) (Hro _ Iz) (Hdel _ Id) SA OA Hl Hm)
        as (out & e & Es & He & Lo & Hc).
      { intros i Hi. rewrite Eo, Ed. apply Hcall; lia. }
      exists out, e. auto. }
    exists H, w, e. split; [exact Eq|]. split; [exact HL|]. intros n k Hn Hk'.
    destruct (point_is_ex _ J (Z.of_nat n) W ltac:(cbn [j_No J requested asks]; lia)) as (x & y & z & d & Hpt).
    destruct (Hcol (Z.of_nat n) x y z d ltac:(lia) Hpt) as (Lc & Hs). specialize (Hs k Hk').
    destruct (PT (Z.of_nat n) x y z d ltac:(lia) Hpt) as (Eo & Ed & _). rewrite Eo, Ed, Nat2Z.id in Hs.
    eexists. split; [|exact Hs]. unfold col.
    assert (Hlt : (n * Z.to_nat (nt q) + k < length H)%nat) by (rewrite HL; nia).
    rewrite (nth_error_nth' H (0%float : F) Hlt). f_equal.
    assert (En : nth_error (firstn (Z.to_nat (nt q)) (skipn (Z.to_nat (Z.of_nat n * nt q)) H)) k = nth_error H (n * Z.to_nat (nt q) + k)).
    { rewrite nth_error_firstn', nth_error_skipn'. rewrite (proj2 (Nat.ltb_lt _ _) Hk'). f_equal. nia. }
    rewrite (nth_error_nth' H (0%float : F) Hlt) in En. symmetry. exact (nth_error_nth _ _ (0%float : F) En).
  Qed.
End Libm.
Print Assumptions C127_array_accuracy.
