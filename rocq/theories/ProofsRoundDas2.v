(** ProofsRoundDas2.v - delay-and-sum calls in doubles follow the calls in exact
    arithmetic, step by step. *)
From Coq Require Import Floats Uint63.
From Coq Require Import Reals Lra Lia ZArith List Bool.
From Flocq Require Import Core Plus_error Relative BinarySingleNaN PrimFloat.
From Verif Require Import Base BaseLemmas NumF NumR ProofsTermF SpecRound ProofsRound ProofsRel SpecRoundSir ProofsRoundSir ProofsRoundDas
  ModelSir ModelArr ModelSmp ModelDas SpecSmp SpecDft SpecDas ProofsSmp ProofsLoop ProofsR ProofsDft ProofsDas ProofsDasR ProofsRca ProofsDasJ SpecRoundDas.
From Coq Require Import ZifyBool ZifyNat.
Import ListNotations.
Open Scope R_scope.
Ltac Zify.zify_post_hook ::= Z.div_mod_to_equations.
Local Notation val := SpecRound.val.

(** ** Two runs of the threaded driver *)
Definition t_ok (No : Z) (t : thread) : Prop := (0 <= t_n t)%Z /\ (t_stop t <= No)%Z.
Lemma init_ok No nthreads : (0 <= No)%Z -> (1 <= nthreads)%Z -> Forall (t_ok No) (map (init_thread No nthreads) (seq 0 (Z.to_nat nthreads))).
Proof.
  intros H1 H2. apply Forall_forall. intros t Hin. apply in_map_iff in Hin as (i & <- & Hi). apply in_seq in Hi.
  pose proof (part_range No nthreads H1 H2 (Z.of_nat i) ltac:(lia)) as [R0 R1]. split; cbn; lia.
Qed.
Section Sim.
  Context {N1 N2 : Num} (pt1 : Z -> list N1 -> res (list N1 * SIRError)) (pt2 : Z -> list N2 -> res (list N2 * SIRError)).
  Variables (No : Z) (Rb : list N1 -> list N2 -> Prop).
  Hypothesis Hpt : forall n H1 H2, (0 <= n < No)%Z -> Rb H1 H2 ->
    exists H1' H2' e, pt1 n H1 = Ok (H1', e) /\ pt2 n H2 = Ok (H2', e) /\ Rb H1' H2'.
  Local Notation t_ok := (t_ok No).
  Lemma upd_Forall {A} (P : A -> Prop) (l : list A) i x : Forall P l -> P x -> Forall P (upd l i (fun _ => x)).
  Proof.
    intros H Hx. revert i. induction H as [|y l Hy H IH]; intros [|i]; cbn [upd]; auto.
  Qed.
  Lemma gsteps_sim sch : forall (s1 : gstate (N:=N1)) (s2 : gstate (N:=N2)), Rb (g_H s1) (g_H s2) -> g_running s1 = g_running s2 ->
    g_threads s1 = g_threads s2 -> Forall t_ok (g_threads s1) ->
    exists s1' s2', gsteps pt1 s1 sch = Ok s1' /\ gsteps pt2 s2 sch = Ok s2' /\ Rb (g_H s1') (g_H s2') /\
      g_running s1' = g_running s2' /\ g_threads s1' = g_threads s2'.
  Proof.
    induction sch as [|ev sch IH]; intros s1 s2 HR Hr Ht Hf; cbn [gsteps]; [eauto 10|].
    assert (St : exists s1' s2', gstep pt1 s1 ev = Ok s1' /\ gstep pt2 s2 ev = Ok s2' /\ Rb (g_H s1') (g_H s2') /\
      g_running s1' = g_running s2' /\ g_threads s1' = g_threads s2' /\ Forall t_ok (g_threads s1')).
    { destruct ev as [i|]; cbn [gstep]; [|do 2 eexists; cbn; eauto 10].
      rewrite <- Ht, <- Hr. destruct (nth_error (g_threads s1) i) as [t|] eqn:Et; [|do 2 eexists; eauto 10].
      assert (Ok1 : t_ok t). { rewrite Forall_forall in Hf. apply Hf. eapply nth_error_In; eauto. }
      unfold thread_step. destruct (t_pc t).
      - destruct (t_n t <? t_stop t)%Z eqn:El.
        + destruct (Hpt (t_n t) _ _ ltac:(destruct Ok1; lia) HR) as (H1' & H2' & e & E1 & E2 & HR').
          rewrite E1, E2. cbn [bind]. do 2 eexists. split; [reflexivity|]. split; [reflexivity|]. cbn [g_H g_running g_threads].
          repeat (split; [auto; fail|]). apply upd_Forall; [exact Hf|exact Ok1].
        + cbn [bind]. do 2 eexists. split; [reflexivity|]. split; [reflexivity|]. cbn [g_H g_running g_threads].
          repeat (split; [auto; fail|]). apply upd_Forall; [exact Hf|exact Ok1].
      - cbn [bind]. do 2 eexists. split; [reflexivity|]. split; [reflexivity|]. cbn [g_H g_running g_threads].
        repeat (split; [auto; fail|]). apply upd_Forall; [exact Hf|exact Ok1].
      - destruct (g_running s1); cbn [bind]; do 2 eexists; (split; [reflexivity|]); (split; [reflexivity|]); cbn [g_H g_running g_threads];
          repeat (split; [auto; fail|]); (apply upd_Forall; [exact Hf|]); [|exact Ok1].
        destruct Ok1. split; cbn; lia.
      - cbn [bind]. do 2 eexists. split; [reflexivity|]. split; [reflexivity|]. cbn [g_H g_running g_threads].
        repeat (split; [auto; fail|]). apply upd_Forall; [exact Hf|exact Ok1]. }
    destruct St as (s1' & s2' & E1 & E2 & A & B & C & D). rewrite E1, E2. cbn [bind]. apply IH; auto.
  Qed.
End Sim.

Section Fold.
  Context (fsin fcos fatan fasin facos fexp flog : PrimFloat.float -> PrimFloat.float).
  Local Notation F := (FN fsin fcos fatan fasin facos fexp flog).
  Variables (K : idx_kind) (Y : list F) (len : Z).
  Hypothesis Hlen : (0 <= len)%Z.
  Hypothesis HY : Forall finite Y.
  Local Notation EY := (map Some (vals Y) : list EN).
  Local Notation pabs := (psum (map Rabs (vals Y)) len).

  Definition arg_ok (a : Z * F) (p : nat * R) : Prop :=
    fst a = (Z.of_nat (fst p) * len)%Z /\ f_trunc (snd a) = Some (Ztruncr (snd p)).

  Lemma abs_ascan c k : ascan (map Rabs (vals Y)) len c k = Rabs (ascan (vals Y) len c k).
  Proof. unfold ascan. destruct (inside len k); [|symmetry; apply Rabs_R0]. apply nth_abs. Qed.
  Lemma pabs_pos ps : 0 <= pabs ps.
  Proof. unfold psum. induction ps as [|p ps IH]; cbn [map fold_right]; [lra|]. rewrite abs_ascan. pose proof (Rabs_pos (ascan (vals Y) len (fst p) (Ztruncr (snd p)))). lra. Qed.
  Lemma ascan_in c x : pin len (c, x) = true -> (Z.of_nat c * len + len <= Z.of_nat (length Y))%Z ->
    exists y : F, buf_get Y (Z.of_nat c * len + Ztruncr x) = Ok y /\ fin y = true /\ V y = ascan (vals Y) len c (Ztruncr x).
  Proof.
    unfold pin, inside. cbn [snd]. intros Hp HL. set (k := Ztruncr x) in *.
    destruct (buf_get_ok Y (Z.of_nat c * len + k)%Z ltac:(nia)) as (y & En & Eg). exists y. split; [exact Eg|].
    pose proof (nth_error_nth Y _ 0%float En) as Ny.
    split.
    - apply finite_fin. rewrite Forall_forall in HY. apply HY. eapply nth_error_In; eauto.
    - unfold ascan, inside. rewrite Hp.
      replace (c * Z.to_nat len + Z.to_nat k)%nat with (Z.to_nat (Z.of_nat c * len + k)) by nia.
      rewrite <- nth_vals. f_equal. symmetry. exact Ny.
  Qed.

  (** One more term: e = (1+u)^m - 1. *)
  Lemma add_step s y X Yv A B g : fin s = true -> fin y = true -> V y = Yv -> Rabs X <= A -> Rabs Yv <= B -> 1 <= g <= 3/2 ->
    Rabs (V s - X) <= (g - 1) * A -> A + B <= large -> fin (s + y)%float = true /\
    Rabs (V (s + y)%float - (X + Yv)) <= (g * (1 + u) - 1) * (A + B).
  Proof.
    intros Fs Fy Ey HX HB Hg Hs HL. pose proof u_small as Hu. pose proof (Rabs_pos X). pose proof (Rabs_pos Yv). rewrite large_bpow in HL.
    assert (Bs : Rabs (V s + V y) <= g * A + B).
    { replace (V s + V y) with ((V s - X) + (X + V y)) by ring. eapply Rle_trans; [apply Rabs_triang|].
      assert (Rabs (X + V y) <= A + B) by (rewrite Ey; eapply Rle_trans; [apply Rabs_triang|lra]). lra. }
    assert (G1 : g * A + B <= g * (A + B)) by nra.
    destruct (add_std s y Fs Fy) as (Fa & E).
    { apply Rle_trans with (1 := Bs). apply Rle_trans with (2 * bpow radix2 1022); [nra|]. change 2 with (bpow radix2 1). rewrite <- bpow_plus. apply bpow_le. lia. }
    split; [exact Fa|]. replace (V (s + y)%float - (X + Yv)) with ((V (s + y)%float - (V s + V y)) + (V s - X)) by (rewrite Ey; ring).
    eapply Rle_trans; [apply Rabs_triang|].
    assert (u * Rabs (V s + V y) <= u * (g * (A + B))) by (apply Rmult_le_compat_l; lra).
    assert ((g - 1) * A <= (g - 1) * (A + B)) by (apply Rmult_le_compat_l; lra).
    replace ((g * (1 + u) - 1) * (A + B)) with ((g - 1) * (A + B) + u * (g * (A + B))) by ring. lra.
  Qed.

  Definition both (b : bool) {S} (s : S) : ctl S S := if b then Go s else Ret s.
  Lemma fold_sim lvl : forall (l : list (Z * F)) ps, Forall2 arg_ok l ps -> Forall (pok K (vals Y) len) ps ->
    forall (s : F) e X A m, fin s = true -> Rabs X <= A -> Rabs (V s - X) <= ((1 + u) ^ m - 1) * A -> A + pabs ps <= large ->
    INR (m + length ps) * u <= / 4 ->
    exists b s' X' e', das_fold (N:=F) K Y len lvl l (s, e) = Ok (both b (s', e')) /\
      das_fold (N:=EN) K EY len lvl (enc len ps) (Some X : EN, e) = Ok (both b (Some X' : EN, e')) /\
      fin s' = true /\ Rabs (V s' - X') <= ((1 + u) ^ (m + length ps) - 1) * (A + pabs ps).
  Proof.
    induction 1 as [|[off a] [c x] l ps [Ho Ha] H2 IH]; intros Hp s e X A m Fs HX He HL Hm.
    - exists true, s, X, e. cbn [das_fold enc map both]. repeat (split; [reflexivity|]). split; [exact Fs|].
      unfold psum. cbn [map fold_right length]. rewrite Rplus_0_r, Nat.add_0_r. exact He.
    - inversion Hp as [|? ? [P1 P2] Hp']; subst. cbn [fst snd] in *. cbn [das_fold enc map fst snd]. fold (enc len ps).
      assert (Epb : pabs ((c, x) :: ps) = Rabs (ascan (vals Y) len c (Ztruncr x)) + pabs ps).
      { unfold psum. cbn [map fold_right fst snd]. now rewrite abs_ascan. }
      rewrite Epb in *. pose proof (pabs_pos ps) as Pps. pose proof (Rabs_pos (ascan (vals Y) len c (Ztruncr x))) as Pa.
      pose proof u_small as Hu.
      cbn [length] in Hm |- *. replace (m + S (length ps))%nat with (S m + length ps)%nat in * by lia.
      assert (Hmu : INR m * u <= / 4).
      { apply Rle_trans with (2 := Hm). apply Rmult_le_compat_r; [lra|]. apply le_INR. lia. }
      destruct (pow_linear m Hmu) as (_ & G2). assert (G1 : 1 <= (1 + u) ^ m) by (apply pow_R1_Rle; lra).
      pose proof (Rabs_pos X) as PX.
      assert (EF : das_put (N:=F) K Y len off lvl a (s, e) =
        if pin len (c, x) then do y <- buf_get Y (Z.of_nat c * len + Ztruncr x); Ok (Go ((s + y)%float, e))
        else if SIRError_eqb (dream_out_of_bounds_err lvl) err_oob then Ok (Ret (s, dream_out_of_bounds_err lvl))
             else Ok (Go (s, dream_out_of_bounds_err lvl))).
      { unfold das_put. change (ntrunc (n:=F) a) with (f_trunc a). rewrite Ha, (to_idx_fits K _ P1). cbn [bind]. unfold pin, inside. cbn [snd].
        rewrite andb_comm, Ho. destruct ((0 <=? Ztruncr x)%Z && (Ztruncr x <? len)%Z); [|reflexivity]. reflexivity. }
      rewrite EF. rewrite (das_put_R K (vals Y) len Hlen lvl c x X e (conj P1 P2)).
      destruct (pin len (c, x)) eqn:Ep.
      + assert (P2' : (Z.of_nat c * len + len <= Z.of_nat (length Y))%Z) by (unfold vals in P2; rewrite map_length in P2; exact P2).
        destruct (ascan_in c x Ep P2') as (y & Eg & Fy & Vy). rewrite Eg. cbn [bind].
        destruct (add_step s y X _ A _ ((1 + u) ^ m) Fs Fy Vy HX (Rle_refl _) (conj G1 G2) He ltac:(lra)) as (Fa & Ea).
        destruct (IH Hp' (s + y)%float e (X + ascan (vals Y) len c (Ztruncr x)) (A + Rabs (ascan (vals Y) len c (Ztruncr x))) (S m)) as (b & s' & X' & e' & R1 & R2 & R3 & R4); auto.
        * eapply Rle_trans; [apply Rabs_triang|]. lra.
        * cbn [pow]. rewrite (Rmult_comm (1 + u)). exact Ea.
        * lra.
        * exists b, s', X', e'. split; [exact R1|]. split; [exact R2|]. split; [exact R3|]. rewrite <- Rplus_assoc. exact R4.
      + assert (Mono : ((1 + u) ^ m - 1) * A <= ((1 + u) ^ S m - 1) * A) by (cbn [pow]; apply Rmult_le_compat_r; nra).
        assert (Za : ascan (vals Y) len c (Ztruncr x) = 0). { unfold ascan. unfold pin in Ep. cbn [snd] in Ep. now rewrite Ep. }
        rewrite Za, Rabs_R0, !Rplus_0_l in *.
        destruct (SIRError_eqb (dream_out_of_bounds_err lvl) err_oob); cbn [bind].
        * exists false, s, X, (dream_out_of_bounds_err lvl). repeat (split; [reflexivity|]). split; [exact Fs|].
          apply Rle_trans with (1 := He).
          assert (G3 : (1 + u) ^ m <= (1 + u) ^ (S m + length ps)) by (apply Rle_pow; [lra|lia]).
          apply Rmult_le_compat; lra.
        * destruct (IH Hp' s (dream_out_of_bounds_err lvl) X A (S m)) as (b & s' & X' & e' & R1 & R2 & R3 & R4); auto; [lra|].
          exists b, s', X', e'. auto.
  Qed.
End Fold.

(** ** Calls *)
Section Job.
  Context (fsin fcos fatan fasin facos fexp flog : PrimFloat.float -> PrimFloat.float).
  Local Notation F := (FN fsin fcos fatan fasin facos fexp flog).
  Local Notation val_das := (val_das fsin fcos fatan fasin facos fexp flog).
  Local Notation ordinary_das := (ordinary_das fsin fcos fatan fasin facos fexp flog).
  Variables (K : idx_kind) (J : das_job F).
  Hypothesis OJ : ordinary_das J.
  Local Notation J' := (val_das J).
  Hypothesis OK : rjob_ok J'.

  Lemma vals_len (l : list F) n : length (vals l) = n -> Z.of_nat (length l) = Z.of_nat n.
  Proof. intros <-. unfold vals. now rewrite map_length. Qed.
  Lemma wf_F : das_wf J.
  Proof.
    destruct OJ as [(S1 & S2 & S3 & S4) _ _ _ _ _ _ _]. destruct OK as [O1 O2 O3 O4 _ _]. cbn in O1, O2, O3, O4.
    apply vals_len in O1, O2, O3. split; try lia.
    assert (EL : length (vals (d_delay J)) = @length F (d_delay J)) by exact (map_length _ _).
    rewrite EL in O4. destruct (d_delay_type J); lia.
  Qed.

  Variables (ps : nat -> list (nat * R)) (argsF : nat -> list (Z * F)) (cnt : nat).
  Hypothesis HvE : forall n, (n < q_No J')%nat ->
    das_value (N:=EN) K (emb_das J') (Z.of_nat n) = Ok (das_result K (q_Y J') (Z.of_nat (q_len J')) (q_lvl J') (ps n)).
  Hypothesis Hpok : forall n, (n < q_No J')%nat -> Forall (pok K (q_Y J') (Z.of_nat (q_len J'))) (ps n).
  Hypothesis HvF : forall n, (n < q_No J')%nat -> das_value (N:=F) K J (Z.of_nat n) =
    do c <- das_fold (N:=F) K (d_Y J) (d_len J) (d_lvl J) (argsF n) (nofZ 0 : F, err_none); Ok (finish c).
  Hypothesis Hargs : forall n, (n < q_No J')%nat -> Forall2 (arg_ok fsin fcos fatan fasin facos fexp flog (d_len J)) (argsF n) (ps n).
  Hypothesis Hcnt : forall n, (n < q_No J')%nat -> length (ps n) = cnt.
  Local Notation A n := (psum (map Rabs (q_Y J')) (Z.of_nat (q_len J')) (ps n)).
  Hypothesis Hrange : forall n, (n < q_No J')%nat -> image_range cnt (A n).

  Lemma value_sim n : (n < q_No J')%nat -> exists (im : F) x e,
    das_value (N:=F) K J (Z.of_nat n) = Ok (im, e) /\ das_value (N:=EN) K (emb_das J') (Z.of_nat n) = Ok (Some x : EN, e) /\
    near_image cnt (A n) x im.
  Proof.
    intros Hn. rewrite (HvF n Hn), (HvE n Hn).
    destruct (od_sizes _ _ _ _ _ _ _ _ OJ) as (S1 & _). pose proof (od_Y _ _ _ _ _ _ _ _ OJ) as FY.
    assert (El : Z.of_nat (q_len J') = d_len J) by (cbn; lia).
    rewrite <- (das_fold_finish K (q_Y J') (Z.of_nat (q_len J')) (q_lvl J') (ps n) ltac:(lia) (Hpok n Hn)).
    pose proof (Hpok n Hn) as Hp. pose proof (Hrange n Hn) as [R1 R2]. pose proof (Hcnt n Hn) as Hc.
    rewrite El in *. change (q_Y J') with (vals (d_Y J)) in *. change (q_lvl J') with (d_lvl J).
    assert (Hu : INR (0 + length (ps n)) * u <= / 4).
    { rewrite Nat.add_0_l, Hc. rewrite <- bpow_val in R2. pose proof u50 as U50. pose proof u_small as Hu.
      apply Rle_trans with (bpow radix2 50 * u); [apply Rmult_le_compat_r; lra|lra]. }
    destruct (fold_sim fsin fcos fatan fasin facos fexp flog K (d_Y J) (d_len J) S1 FY (d_lvl J) (argsF n) (ps n) (Hargs n Hn) Hp
      (nofZ 0 : F) err_none 0 0 0%nat) as (b & s' & X' & e' & E1 & E2 & Fs & Es); auto.
    - rewrite Rabs_R0. lra.
    - change (V (nofZ 0 : F)) with (V 0%float). rewrite V0, Rminus_0_r, Rabs_R0. lra.
    - rewrite Rplus_0_l. exact R1.
    - exists s', X', e'. rewrite E1. split; [destruct b; reflexivity|]. split.
      + rewrite E2. destruct b; reflexivity.
      + split; [now apply finite_fin|]. rewrite val_V. apply Rle_trans with (1 := Es). rewrite Nat.add_0_l, Rplus_0_l.
        rewrite Nat.add_0_l in Hu. destruct (pow_linear _ Hu) as (P1 & _). rewrite u_eps, <- Hc.
        apply Rmult_le_compat_r; [apply pabs_pos|]. lra.
  Qed.

  Definition near_or_new (n : nat) (im : F) (im' : EN) : Prop := forall x, im' = Some x -> near_image cnt (A n) x im.
  Definition Rimage (Im : list F) (Im' : list EN) : Prop :=
    length Im = q_No J' /\ length Im' = q_No J' /\
    forall n, (n < q_No J')%nat -> near_or_new n (nth n Im (0%float : F)) (nth n Im' (None : EN)).

  Lemma upd_nth {B} (l : list B) i k d x : (i < length l)%nat -> nth k (upd l i (fun _ => x)) d = if (k =? i)%nat then x else nth k l d.
  Proof.
    revert i k. induction l as [|y l IH]; intros [|i] [|k] H; cbn [length] in H; try lia; cbn [upd nth Nat.eqb]; auto. apply IH. lia.
  Qed.
  Lemma point_sim z Im Im' : (0 <= z < d_No J)%Z -> Rimage Im Im' ->
    exists Im1 Im1' e, das_point (N:=F) K J z Im = Ok (Im1, e) /\ das_point (N:=EN) K (emb_das J') z Im' = Ok (Im1', e) /\ Rimage Im1 Im1'.
  Proof.
    intros Hz (L1 & L2 & Hn). assert (EN0 : q_No J' = Z.to_nat (d_No J)) by reflexivity.
    destruct (value_sim (Z.to_nat z) ltac:(rewrite EN0; lia)) as (im & x & e & E1 & E2 & Hnear).
    rewrite Z2Nat.id in E1, E2 by lia. unfold das_point. rewrite E1, E2. cbn [bind].
    rewrite !buf_upd_ok by lia. cbn [bind]. do 3 eexists. split; [reflexivity|]. split; [reflexivity|].
    split; [rewrite length_upd; exact L1|]. split; [rewrite length_upd; exact L2|].
    intros k Hk. rewrite !upd_nth by lia. destruct (k =? Z.to_nat z)%nat eqn:Ek; [|apply Hn; exact Hk].
    apply Nat.eqb_eq in Ek. subst k. intros x0 [= <-]. exact Hnear.
  Qed.

  Lemma call_sim nthreads sch (Im0 : list F) : (1 <= nthreads)%Z -> length Im0 = q_No J' ->
    exists r r', das_call (N:=F) K J nthreads sch Im0 = Ok r /\
      das_call (N:=EN) K (emb_das J') nthreads sch (repeat (None : EN) (q_No J')) = Ok r' /\
      match r, r' with
      | None, None => True
      | Some (Im, e, run), Some (Im', e', run') => e = e' /\ run = run' /\ Rimage Im Im'
      | _, _ => False
      end.
  Proof.
    intros Hth HI. destruct (od_sizes _ _ _ _ _ _ _ _ OJ) as (S1 & S2 & _).
    assert (ENo : d_No (emb_das J') = d_No J) by (cbn; lia).
    destruct (gsteps_sim (das_point (N:=F) K J) (das_point (N:=EN) K (emb_das J')) (d_No J) Rimage point_sim sch
      (init (N:=F) (d_No J) nthreads Im0) (init (N:=EN) (d_No J) nthreads (repeat (None : EN) (q_No J')))) as (s1 & s2 & G1 & G2 & GR & Gr & Gt).
    - cbn [init g_H]. split; [exact HI|]. split; [apply repeat_length|]. intros n Hn x E. exfalso. rewrite nth_repeat in E. discriminate.
    - reflexivity.
    - reflexivity.
    - exact (init_ok (d_No J) nthreads S2 Hth).
    - unfold das_call. rewrite ENo. rewrite G1, G2. cbn [bind]. unfold all_done. rewrite Gt.
      destruct (forallb is_done (g_threads s2)); do 2 eexists; (split; [reflexivity|]); (split; [reflexivity|]); [|exact I].
      split; [reflexivity|]. split; [exact Gr|exact GR].
  Qed.
End Job.
