(** PropRound.v - property theorems: accuracy of conv_p in double precision
    (C98). *)
From Coq Require Strings.String.
Import Coq.Strings.String.StringSyntax.
From Coq Require Import Floats Uint63.
From Coq Require Import Reals Lra.
From Verif Require Import Base BaseLemmas ModelSir ModelArr ModelSmp ModelConv NumR NumF SpecDft SpecSmp SpecConv
  ProofsLoop ProofsSmp ProofsSmp2 ProofsDft ProofsConv ProofsConvR ProofsCols ProofsOla PropConv ModelGw ProofsGw SpecGwR ModelCgw SpecCgw ProofsCgw ProofsCgw2 PropCgw2
  ExJob SpecRound ProofsRound.
From Coq Require Import ZifyBool ZifyNat.
Ltac Zify.zify_post_hook ::= Z.div_mod_to_equations.
Local Open Scope string_scope.
Open Scope Z_scope.

(** ** conv_p in any number system *)
Section AnyNum.
  Context {N : Num}.
  Definition bcolN (bm bn : Z) (b : list N) (n : nat) : list N :=
    if ((bm =? 1) || (bn =? 1))%bool then b else slice (Z.of_nat n * bm) bm b.

  Lemma convp_unfold (mc : machine N) fe nlhs va vb rest am an a bm bn b m :
    has_fun fe KConv = true -> parse_cargs (mc_import mc) fe KConv nlhs (va :: vb :: rest) = Some m ->
    doubles va am an a -> doubles vb bm bn b -> conformable am an bm bn ->
    let rows := am + b_rows bm bn - 1 in
    conv_gateway mc fe KConv nlhs (va :: vb :: rest) =
      do y <- out_array fe KConv m rows an (mc_junk mc) (va :: vb :: rest);
      match y with
      | None => Ok (Some CRejected)
      | Some Y =>
        do r <- cols_call (conv_mem_point (c_inplace m && mc_ax mc) (c_inplace m && mc_ay mc)
          {| m_A := a; m_AM := am; m_AN := an; m_B := b; m_BM := b_rows bm bn; m_BN := b_cols bm bn |} (c_mode m))
          an (num_threads (mc_hw mc) (mc_env mc) an) (mc_sch mc) Y;
        match r with
        | None => Ok None
        | Some (Y', running) => Ok (Some (finish_call fe KConv m rows an Y' running))
        end
      end.
  Proof.
    intros Hh Hp Ha Hb Hc rows. pose proof (b_rows_pos _ _ _ _ Hc) as Hbr. pose proof Hc as (H1 & _).
    assert (Q : forall v m n d, doubles (N:=N) v m n d -> cols_of v = n /\ get_m v = m /\ forall fe, gw_data fe v = Ok d).
    { intros v m' n d (st & -> & H & _). split; [destruct st; cbn; auto; now rewrite H|]. split; [reflexivity|]. intros []; reflexivity. }
    destruct (Q _ _ _ _ Ha) as (A1 & A2 & A4). destruct (Q _ _ _ _ Hb) as (B1 & B2 & B4).
    unfold conv_gateway. rewrite Hh, Hp. cbn [negb arg nth_error bind].
    rewrite A1, A2, A4, B1, B2, B4. cbn [bind]. rewrite (check_B_ok am an bm bn Hc).
    replace (block_arg fe KConv am (va :: vb :: rest)) with (@Ok (option Z) (Some 0)) by reflexivity.
    cbn [bind]. fold rows. replace (rows <? 0) with false by lia.
    destruct (out_array _ _ _ _ _ _ _) as [[Y|]|?|]; cbn [bind]; auto.
  Qed.

  Lemma convp_core am an (a : list N) bm bn b mode hw env sch (Y0 : list N) :
    conformable am an bm bn -> Z.of_nat (length a) = am * an -> Z.of_nat (length b) = bm * bn ->
    0 <= hw -> runs_to_end hw env an sch ->
    let rows := am + b_rows bm bn - 1 in
    length Y0 = Z.to_nat (an * rows) ->
    exists Y', cols_call (conv_mem_point false false
       {| m_A := a; m_AM := am; m_AN := an; m_B := b; m_BM := b_rows bm bn; m_BN := b_cols bm bn |} mode) an (num_threads hw env an) sch Y0
       = Ok (Some (Y', true)) /\
      length Y' = length Y0 /\
      forall n k, (n < Z.to_nat an)%nat -> (k < Z.to_nat rows)%nat ->
        nth_error Y' (n * Z.to_nat rows + k) =
        Some (conv_sample mode (slice (Z.of_nat n * am) am a) (bcolN bm bn b n) (nth (n * Z.to_nat rows + k) Y0 (nofZ 0)) k).
  Proof.
    intros Hc La Lb Hhw [Hcc Hfair] rows LY. pose proof Hc as (H1 & H2 & H3 & H4 & H5).
    pose proof (b_rows_pos _ _ _ _ Hc) as Hbr.
    destruct (num_threads_ok hw env an Hhw ltac:(lia)) as (Hth & _).
    assert (Hg : given (N:=N) a am an b bm bn) by (unfold given; repeat split; lia).
    pose proof (C30_conv_p N a b am an bm bn (b_rows bm bn) (b_cols bm bn) mode (num_threads hw env an) sch Y0 Hg (check_B_ok am an bm bn Hc) Hth LY) as HE.
    cbv zeta in HE. destruct HE as (r & Er & Hfa & Hr).
    destruct r as [[Y' running]|]; [|destruct (Hfa Hfair eq_refl)].
    destruct (Hr Y' running eq_refl) as (L & Hrun & Hall & _). specialize (Hrun Hcc). subst running.
    exists Y'. split; [exact Er|]. split; [exact L|]. intros n k Hn Hk.
    specialize (Hall eq_refl (Z.of_nat n) k ltac:(lia) ltac:(fold rows; lia)). fold rows in Hall.
    replace (Z.to_nat (Z.of_nat n * rows)) with (n * Z.to_nat rows)%nat in Hall by nia.
    apply (nth_error_of_nth _ _ (nofZ 0)); [rewrite L, LY; nia|]. rewrite Hall. f_equal.
    unfold bcolN, colB, b_cols, b_rows. cbn [m_BN m_B m_BM]. destruct ((bm =? 1) || (bn =? 1)) eqn:E.
    - cbn. apply slice_all. lia.
    - replace (bn =? 1) with false by lia. reflexivity.
  Qed.
End AnyNum.

Section Libm.
  Context (fsin fcos fatan fasin facos fexp flog : PrimFloat.float -> PrimFloat.float).
  Local Notation F := (FN fsin fcos fatan fasin facos fexp flog).

  Lemma sample_accurate mode (x y : list F) (v : F) k :
    Forall finite x -> Forall finite y -> (mode = cm_equ \/ finite v) -> in_range mode (val v) (vals x) (vals y) k ->
    accurate mode (val v) (vals x) (vals y) k (conv_sample (N:=F) mode x y v k).
  Proof.
    intros Hx Hy Hv (Hr & Hn).
    assert (Z0 : finite 0%float) by reflexivity. assert (E0 : val 0%float = 0%R) by reflexivity.
    destruct mode; cbn [conv_sample accurate combr].
    - destruct (conv_accurate false x y k 0%float Hx Hy Z0) as (R1 & R2); auto.
      { rewrite E0, Rabs_R0. exact Hr. }
      split; [exact R1|]. rewrite E0, Rabs_R0 in R2. unfold sgn in R2. rewrite Rmult_1_l, Rplus_0_l in R2. exact R2.
    - destruct Hv as [Hv|Hv]; [discriminate|].
      destruct (conv_accurate false x y k v Hx Hy Hv Hr Hn) as (R1 & R2).
      split; [exact R1|]. unfold sgn in R2. rewrite Rmult_1_l in R2. exact R2.
    - destruct Hv as [Hv|Hv]; [discriminate|].
      destruct (conv_accurate true x y k v Hx Hy Hv Hr Hn) as (R1 & R2).
      split; [exact R1|]. unfold sgn in R2. unfold combr, Rminus at 2. replace (- cauchy (vals x) (vals y) k)%R with (-1 * cauchy (vals x) (vals y) k)%R by ring. exact R2.
  Qed.

  Lemma a_col_vals am (a : list F) n : a_col am (vals a) n = vals (slice (Z.of_nat n * am) am a).
  Proof. unfold a_col, slice, vals. now rewrite skipn_map, firstn_map. Qed.
  Lemma b_col_vals bm bn (b : list F) n : b_col bm bn (vals b) n = vals (bcolN bm bn b n).
  Proof. unfold b_col, bcolN. destruct (_ || _); [reflexivity|]. unfold slice, vals. now rewrite skipn_map, firstn_map. Qed.
  Lemma slice_finite (l : list F) o n : Forall finite l -> Forall finite (slice o n l).
  Proof.
    intros H. apply Forall_forall. intros z Hz. rewrite Forall_forall in H. apply H. unfold slice in Hz.
    assert (G : forall m (q : list F), In z (firstn m q) -> In z q) by (induction m as [|m IH]; intros [|c q]; cbn; intuition).
    assert (G2 : forall m (q : list F), In z (skipn m q) -> In z q) by (induction m as [|m IH]; intros [|c q]; cbn; intuition).
    eauto.
  Qed.
  Lemma bcol_finite bm bn (l : list F) n : Forall finite l -> Forall finite (bcolN bm bn l n).
  Proof. intros H. unfold bcolN. destruct (_ || _); [exact H|]. now apply slice_finite. Qed.

  (** C98: conv_p in doubles.  For every pair of matrices of finite doubles,
      every number of workers, interleaving and contents of fresh memory: each
      element of the returned matrix is finite and differs from the exact
      convolution of the given doubles by at most (N+1) 2^-52 times the sum of
      the absolute values of its N terms, plus N times the smallest double. *)
  Theorem C98_conv_p_accuracy : forall (mc : machine F) fe nlhs (va vb : value F) am an (a : list F) bm bn (b : list F),
    available fe KConv -> 0 <= mc_hw mc -> 0 <= nlhs <= 1 ->
    doubles va am an a -> doubles vb bm bn b -> conformable am an bm bn ->
    runs_to_end (mc_hw mc) (mc_env mc) an (mc_sch mc) ->
    (fe = Octave -> ~ (am + b_rows bm bn - 1 = 1 /\ an = 1)) ->
    Forall finite a -> Forall finite b ->
    let rows := am + b_rows bm bn - 1 in
    (forall n k, (n < Z.to_nat an)%nat -> (k < Z.to_nat rows)%nat ->
       in_range cm_equ 0 (a_col am (vals a) n) (b_col bm bn (vals b) n) k) ->
    exists Y, conv_gateway mc fe KConv nlhs [va; vb] = Ok (Some (CReturned rows an Y)) /\
      length Y = Z.to_nat (an * rows) /\
      forall n k, (n < Z.to_nat an)%nat -> (k < Z.to_nat rows)%nat ->
        exists r, nth_error Y (n * Z.to_nat rows + k) = Some r /\
          accurate cm_equ 0 (a_col am (vals a) n) (b_col bm bn (vals b) n) k r.
  Proof.
    intros mc fe nlhs va vb am an a bm bn b Hav Hhw Hn Ha Hb Hc Hruns H11 Fa Fb rows Hrange.
    pose proof (proj1 (available_has fe KConv) Hav) as Hh.
    pose proof (b_rows_pos _ _ _ _ Hc) as Hbr. pose proof Hc as (H1 & H2 & H3 & H4 & H5).
    assert (La : Z.of_nat (length a) = am * an) by (destruct Ha as (? & ? & ? & ?); assumption).
    assert (Lb : Z.of_nat (length b) = bm * bn) by (destruct Hb as (? & ? & ? & ?); assumption).
    assert (Hp : parse_cargs (mc_import mc) fe KConv nlhs [va; vb] = Some normal).
    { destruct fe; try discriminate Hh; cbn [parse_cargs parse_conv]; try (replace (nlhs <=? 1) with true by lia); reflexivity. }
    rewrite (convp_unfold mc fe nlhs va vb [] am an a bm bn b normal Hh Hp Ha Hb Hc). fold rows.
    assert (HY : exists Y, out_array fe KConv normal rows an (mc_junk mc) [va; vb] = Ok (Some Y) /\ length Y = Z.to_nat (an * rows)).
    { unfold out_array. cbn [normal c_inplace].
      assert (La' : length (alloc (mc_junk mc) (Z.to_nat (rows * an))) = Z.to_nat (an * rows)) by (rewrite alloc_length; f_equal; lia).
      assert (E11 : fe = Octave -> (rows * an =? 1) = false).
      { intros E. specialize (H11 E). fold rows in H11. apply Z.eqb_neq. intros X. apply H11.
        assert (rows = 1) by (apply Z.eq_mul_1_nonneg with an; lia). nia. }
      destruct fe; try discriminate Hh; try (rewrite E11 by reflexivity); eauto.
      eexists. split; [reflexivity|]. rewrite repeat_length. f_equal. lia. }
    destruct HY as (Y & -> & LY). cbn [bind normal c_inplace c_mode andb].
    destruct (convp_core am an a bm bn b cm_equ (mc_hw mc) (mc_env mc) (mc_sch mc) Y Hc La Lb Hhw Hruns LY) as (Y' & -> & L & Hv).
    fold rows in Hv. cbn [bind]. exists Y'. split; [destruct fe; reflexivity|]. split; [now rewrite L|].
    intros n k Hn' Hk. eexists. split; [apply Hv; assumption|].
    pose proof (Hrange n k Hn' Hk) as Hr. rewrite a_col_vals, b_col_vals in Hr |- *.
    pose proof (sample_accurate cm_equ (slice (Z.of_nat n * am) am a) (bcolN bm bn b n) (nth (n * Z.to_nat rows + k) Y (nofZ 0)) k
      (slice_finite _ _ _ Fa) (bcol_finite _ _ _ _ Fb) (or_introl eq_refl) Hr) as H. exact H.
  Qed.

  (** The same for the in-place forms conv_p(A, B, Y, mode): the old element of
      Y counts as one more term. *)
  Theorem C98_in_place_accuracy : forall (mc : machine F) fe (va vb : value F) s mode am an (a : list F) bm bn (b y : list F),
    fe = Octave \/ fe = Matlab -> 0 <= mc_hw mc -> documented_mode s mode ->
    doubles va am an a -> doubles vb bm bn b -> conformable am an bm bn -> mc_ax mc = false -> mc_ay mc = false ->
    runs_to_end (mc_hw mc) (mc_env mc) an (mc_sch mc) ->
    let rows := am + b_rows bm bn - 1 in
    Z.of_nat (length y) = rows * an ->
    Forall finite a -> Forall finite b -> Forall finite y ->
    let old n k := val (nth (n * Z.to_nat rows + k) y 0%float) in
    (forall n k, (n < Z.to_nat an)%nat -> (k < Z.to_nat rows)%nat ->
       in_range mode (old n k) (a_col am (vals a) n) (b_col bm bn (vals b) n) k) ->
    exists Y, conv_gateway mc fe KConv 0 [va; vb; VNum Full rows an y; VStr s] = Ok (Some (CInPlace Y)) /\
      length Y = length y /\
      forall n k, (n < Z.to_nat an)%nat -> (k < Z.to_nat rows)%nat ->
        exists r, nth_error Y (n * Z.to_nat rows + k) = Some r /\
          accurate mode (old n k) (a_col am (vals a) n) (b_col bm bn (vals b) n) k r.
  Proof.
    intros mc fe va vb s mode am an a bm bn b y Hfe Hhw Hs Ha Hb Hc Hax Hay Hruns rows Ly Fa Fb Fy old Hrange.
    pose proof (b_rows_pos _ _ _ _ Hc) as Hbr. pose proof Hc as (H1 & H2 & H3 & H4 & H5).
    assert (La : Z.of_nat (length a) = am * an) by (destruct Ha as (? & ? & ? & ?); assumption).
    assert (Lb : Z.of_nat (length b) = bm * bn) by (destruct Hb as (? & ? & ? & ?); assumption).
    assert (Hh : has_fun fe KConv = true) by (destruct Hfe as [->| ->]; reflexivity).
    assert (Es : conv_str fe s = s).
    { destruct Hfe as [->| ->]; [reflexivity|]. destruct Hs as [[-> _]|[[-> _]|[-> _]]]; reflexivity. }
    assert (Hp : parse_cargs (mc_import mc) fe KConv 0 [va; vb; VNum Full rows an y; VStr s] = Some {| c_mode := mode; c_inplace := true |}).
    { apply mode_of_string_doc in Hs. destruct Hfe as [->| ->]; cbn [parse_cargs parse_conv is_string str_of]; rewrite Es, Hs; reflexivity. }
    rewrite (convp_unfold mc fe 0 va vb [VNum Full rows an y; VStr s] am an a bm bn b _ Hh Hp Ha Hb Hc). fold rows.
    assert (HY : out_array fe KConv {| c_mode := mode; c_inplace := true |} rows an (mc_junk mc) [va; vb; VNum Full rows an y; VStr s] = Ok (Some y)).
    { unfold out_array. cbn [c_inplace]. change (y_pos KConv) with 2%nat.
      cbn [arg nth_error bind get_m get_n]. rewrite !Z.eqb_refl. cbn [negb orb]. destruct Hfe as [->| ->]; reflexivity. }
    rewrite HY. cbn [bind c_inplace c_mode andb]. rewrite Hax, Hay.
    destruct (convp_core am an a bm bn b mode (mc_hw mc) (mc_env mc) (mc_sch mc) y Hc La Lb Hhw Hruns ltac:(fold rows; lia)) as (Y' & -> & L & Hv).
    fold rows in Hv. cbn [bind]. exists Y'. split; [destruct Hfe as [->| ->]; reflexivity|]. split; [exact L|].
    intros n k Hn' Hk. eexists. split; [apply Hv; assumption|].
    pose proof (Hrange n k Hn' Hk) as Hr. rewrite a_col_vals, b_col_vals in Hr |- *.
    assert (Fv : finite (nth (n * Z.to_nat rows + k) y 0%float)).
    { rewrite Forall_forall in Fy. apply Fy, nth_In. nia. }
    exact (sample_accurate mode (slice (Z.of_nat n * am) am a) (bcolN bm bn b n) (nth (n * Z.to_nat rows + k) y 0%float) k
      (slice_finite _ _ _ Fa) (bcol_finite _ _ _ _ Fb) (or_intror Fv) Hr).
  Qed.
End Libm.
Print Assumptions C98_conv_p_accuracy.
Print Assumptions C98_in_place_accuracy.

(** Non-vacuity: two workers, columns [0.1 0.2] and [0.3 0.4] with [1/3 3]. *)
Definition fmc (sch : list event) : machine FI :=
  {| mc_hw := 2; mc_env := None; mc_sch := sch; mc_junk := [];
     mc_plan := fun L => @Build_fft_plan FI L (fun _ => []) (fun _ => []) (fun X => X); mc_import := fun _ => false;
     mc_scr := fun _ => @Build_scratch FI [] [] [] [] [] []; mc_loc := fun _ => (@Build_scratch FI [] [] [] [] [] [], [], []); mc_fuel := 0; mc_ax := false; mc_ay := false |}.
Definition fa : list FI := [0x1.999999999999ap-4; 0x1.999999999999ap-3; 0x1.3333333333333p-2; 0x1.999999999999ap-2]%float.
Definition fb : list FI := [0x1.5555555555555p-2; 3]%float.
Lemma val_small (m : positive) (e : Z) x : Prim2SF x = S754_finite false m e -> (IZR (Zpos m) * powerRZ 2 e <= 4)%R -> (Rabs (val x) <= 4)%R.
Proof.
  intros E H. unfold val. rewrite E. rewrite Rmult_1_l, Rabs_pos_eq; [exact H|]. apply Rmult_le_pos; [apply IZR_le; lia|].
  apply Rlt_le, powerRZ_lt. lra.
Qed.
Ltac small := eapply val_small; [vm_compute; reflexivity|]; cbv [powerRZ Pos.to_nat Pos.iter_op Nat.add pow]; lra.
Lemma fsmall x : In x fa \/ In x fb -> (Rabs (val x) <= 4)%R.
Proof. unfold fa, fb. intros [H|H]; repeat (destruct H as [<-|H]; [small|]); destruct H. Qed.
Lemma frange n k : (n < 2)%nat -> (k < 3)%nat -> in_range cm_equ 0 (a_col 2 (vals fa) n) (b_col 1 2 (vals fb) n) k.
Proof.
  intros Hn Hk. split.
  - assert (L : (64 <= large)%R).
    { unfold large. change 1022 with (6 + 1016). rewrite powerRZ_add by lra. assert (1 <= powerRZ 2 1016)%R.
      { change 1016 with (Z.of_nat 1016). rewrite <- pow_powerRZ. apply pow_R1_Rle. lra. }
      change (powerRZ 2 6) with (2 ^ 6)%R. lra. }
    assert (B : forall x, (0 <= Rabs (val x))%R) by (intros; apply Rabs_pos).
    assert (M : forall x y, (In x fa \/ In x fb) -> (In y fa \/ In y fb) -> (0 <= Rabs (val x) * Rabs (val y) <= 16)%R).
    { intros x y Hx Hy. pose proof (fsmall x Hx). pose proof (fsmall y Hy). pose proof (B x). pose proof (B y). nra. }
    set (a0 := nth 0 fa 0%float). set (a1 := nth 1 fa 0%float). set (a2 := nth 2 fa 0%float). set (a3 := nth 3 fa 0%float).
    set (b0 := nth 0 fb 0%float). set (b1 := nth 1 fb 0%float).
    assert (I : (In a0 fa /\ In a1 fa /\ In a2 fa /\ In a3 fa) /\ In b0 fb /\ In b1 fb) by (cbn; tauto).
    destruct I as ((I0 & I1 & I2 & I3) & J0 & J1).
    change fa with [a0; a1; a2; a3]. change fb with [b0; b1].
    pose proof (M a0 b0 (or_introl I0) (or_intror J0)). pose proof (M a0 b1 (or_introl I0) (or_intror J1)).
    pose proof (M a1 b0 (or_introl I1) (or_intror J0)). pose proof (M a1 b1 (or_introl I1) (or_intror J1)).
    pose proof (M a2 b0 (or_introl I2) (or_intror J0)). pose proof (M a2 b1 (or_introl I2) (or_intror J1)).
    pose proof (M a3 b0 (or_introl I3) (or_intror J0)). pose proof (M a3 b1 (or_introl I3) (or_intror J1)).
    clearbody a0 a1 a2 a3 b0 b1.
    destruct n as [|[|n]]; [| |lia]; (destruct k as [|[|[|k]]]; [| | |lia]);
      unfold magnitude, cauchy, a_col, b_col, slice, vals; change (Z.to_nat 2) with 2%nat; change (Z.to_nat (Z.of_nat 0 * 2)) with 0%nat; change (Z.to_nat (Z.of_nat 1 * 2)) with 2%nat; cbn [Z.eqb orb Z.of_nat Pos.of_succ_nat Z.mul Z.to_nat Pos.to_nat Pos.iter_op Nat.add map skipn firstn rsum nth Nat.sub Pos.eqb];
      lra.
  - assert (E : terms (a_col 2 (vals fa) n) (b_col 1 2 (vals fb) n) = 2%nat) by (destruct n as [|[|n]]; [reflexivity|reflexivity|lia]).
    rewrite E. cbn [INR]. change 50 with (Z.of_nat 50). rewrite <- pow_powerRZ. assert (2 ^ 1 <= 2 ^ 50)%R by (apply Rle_pow; [lra|lia]). lra.
Qed.
Example C98_ex : exists Y r, conv_gateway (fmc (round_robin 4 2)) Octave KConv 1 [VNum Full 2 2 fa; VNum Temp 1 2 fb]
    = Ok (Some (CReturned 3 2 Y)) /\ nth_error Y 4 = Some r /\
  (Rabs (val r - (val 0x1.3333333333333p-2 * 3 + val 0x1.999999999999ap-2 * val 0x1.5555555555555p-2)) <= 100 * eps + 2 * tiny)%R.
Proof.
  destruct (C98_conv_p_accuracy (fun x => x) (fun x => x) (fun x => x) (fun x => x) (fun x => x) (fun x => x) (fun x => x)
     (fmc (round_robin 4 2)) Octave 1 (VNum Full 2 2 fa) (VNum Temp 1 2 fb) 2 2 fa 1 2 fb) as (Y & E & L & H).
  - left. reflexivity.
  - cbn. lia.
  - lia.
  - exists Full. split; [reflexivity|]. split; [discriminate|reflexivity].
  - exists Temp. split; [reflexivity|]. split; [discriminate|reflexivity].
  - unfold conformable. lia.
  - exact ex_runs.
  - intros _ [X _]. vm_compute in X. discriminate.
  - unfold fa. repeat constructor.
  - unfold fb. repeat constructor.
  - intros n k Hn Hk. apply frange; [exact Hn|exact Hk].
  - destruct (H 1%nat 1%nat ltac:(cbn; lia) ltac:(cbn; lia)) as (r & R1 & R2 & R3).
    exists Y, r. split; [exact E|]. split; [exact R1|]. clear - R3.
    assert (Q : forall p q s t : PrimFloat.float, (Rabs (val p) <= 4 -> Rabs (val q) <= 4 -> Rabs (val s) <= 4 -> Rabs (val t) <= 4 ->
      Rabs (val r - cauchy [val p; val q] [val s; val t] 1) <= (INR 2 + 1) * eps * (0 + magnitude [val p; val q] [val s; val t] 1) + INR 2 * tiny ->
      Rabs (val r - (val p * val t + val q * val s)) <= 100 * eps + 2 * tiny)%R).
    { intros p q s t Hp Hq Hs Ht. unfold magnitude, cauchy. cbn [rsum map nth Nat.sub INR]. intros HH.
      replace (0 + val p * val t + val q * val s)%R with (val p * val t + val q * val s)%R in HH by ring.
      eapply Rle_trans; [exact HH|].
      pose proof (Rabs_pos (val p)). pose proof (Rabs_pos (val q)). pose proof (Rabs_pos (val s)). pose proof (Rabs_pos (val t)).
      assert (Rabs (val p) * Rabs (val t) <= 16)%R by nra. assert (Rabs (val q) * Rabs (val s) <= 16)%R by nra.
      assert (0 < eps)%R by (unfold eps; apply powerRZ_lt; lra). nra. }
    assert (V3 : val 3%float = 3%R) by (unfold val; replace (Prim2SF 3) with (S754_finite false 6755399441055744 (-51)) by (vm_compute; reflexivity);
      cbv [powerRZ Pos.to_nat Pos.iter_op Nat.add pow]; lra).
    pose proof (Q 0x1.3333333333333p-2 0x1.999999999999ap-2 0x1.5555555555555p-2 3)%float as HQ. rewrite V3 in HQ.
    apply HQ; try (apply fsmall; cbn; tauto); [rewrite <- V3; apply fsmall; cbn; tauto|]. rewrite <- V3. exact R3.
Qed.
