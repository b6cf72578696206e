(** ProofsSgw.v - sum_fftconv calls up to the workers. *)
From Coq Require Strings.String Strings.Ascii.
Import Coq.Strings.String.StringSyntax.
From Coq Require Import Reals Lra.
From Verif Require Import Base BaseLemmas ModelSir ModelArr ModelSmp ModelConv NumR SpecDft SpecSir SpecSmp SpecConv
  ProofsLoop ProofsSmp ProofsSmp2 ProofsDft ProofsConv ProofsConvR ProofsCols ProofsOla ProofsSum PropConv ModelGw ProofsGw SpecGwR ModelCgw SpecCgw
  ProofsCgw ProofsCgw2 PropCgw2 ProofsCgw3 ProofsR ModelSgw SpecSgw.
From Coq Require Import ZifyBool ZifyNat.
Ltac Zify.zify_post_hook ::= Z.div_mod_to_equations.
Local Open Scope string_scope.
Open Scope Z_scope.

Definition rpages (hm hn hl : Z) (h : list R) : list (list R) :=
  map (fun k => skipn (Z.to_nat (hm * hn * Z.of_nat k)) h) (seq 0 (Z.to_nat hl)).
Lemma pages_reals hm hn hl h : pages (N:=EN) hm hn hl (exact h) = map reals (rpages hm hn hl h).
Proof.
  unfold pages, rpages. rewrite map_map. apply map_ext. intros k. change (exact h) with (reals h). unfold reals. apply skipn_map.
Qed.
Lemma length_rpages hm hn hl h : length (rpages hm hn hl h) = Z.to_nat hl.
Proof. unfold rpages. now rewrite map_length, seq_length. Qed.
Lemma nth_rpages hm hn hl h l : (l < Z.to_nat hl)%nat -> nth l (rpages hm hn hl h) [] = skipn (Z.to_nat (hm * hn * Z.of_nat l)) h.
Proof.
  intros Hl. apply nth_error_nth. unfold rpages. rewrite nth_error_map.
  rewrite (nth_error_nth' (seq 0 (Z.to_nat hl)) O) by (now rewrite seq_length). rewrite seq_nth by lia. reflexivity.
Qed.
Lemma skipn_skipn {A} (l : list A) : forall a b, skipn a (skipn b l) = skipn (b + a) l.
Proof.
  intros a b. revert l. induction b as [|b IH]; intros l; [reflexivity|]. destruct l; [now rewrite !skipn_nil|]. apply IH.
Qed.

Lemma rsum_ext' n f g : (forall i, (i < n)%nat -> f i = g i) -> rsum n f = rsum n g.
Proof. induction n as [|n IH]; intros H; [reflexivity|]. cbn [rsum]. rewrite IH by (intros; apply H; lia). rewrite H by lia. reflexivity. Qed.

(** The workers. *)
Lemma sum_core mc hm hn hl h um u mode nthreads sch (Y0 : list EN) :
  1 <= hm -> has_size3 hm hn hl h -> 1 <= um -> Z.of_nat (length u) = um * hl -> 1 <= nthreads ->
  exact_fft mc (hm + um - 1) -> length Y0 = Z.to_nat (hn * (hm + um - 1)) ->
  every_column (N:=EN) (hm + um - 1) hn nthreads sch Y0
    (fun n k v => comb (N:=EN) (match mode with cm_sum => cm_sum | _ => cm_equ end) v
       (Some (documented_sum hm hn hl h um u (Z.to_nat n) k)))
    (cols_call (sum_fftconv_point (mc_plan mc (hm + um - 1)) (pages (N:=EN) hm hn hl (exact h)) hl hm (exact u) um mode (mc_scr mc))
       hn nthreads sch Y0).
Proof.
  intros Hhm (_ & Hhn & Hhl & _ & Lh) Hum Lu Hth ((trash & Ht & Ep) & Hscr) HY. rewrite pages_reals.
  apply cols_call_spec; auto; try lia.
  intros n Y Hn LY. unfold sum_fftconv_point. rewrite Ep. change (exact u) with (reals u).
  replace hl with (Z.of_nat (length (rpages hm hn hl h))) by (rewrite length_rpages; lia).
  rewrite length_rpages, Z2Nat.id by lia.
  destruct (add_fftconv_E (rpages hm hn hl h) u hm um n trash Ht Hhm Hum ltac:(lia)) with (mode := mode) (zo := n * (hm + um - 1)) (s := mc_scr mc n) (z := Y)
    as (s' & z' & E & L & H); auto; try lia.
  - intros g Hin. unfold rpages in Hin. apply in_map_iff in Hin as (k & <- & Hk). apply in_seq in Hk. rewrite skipn_length.
    assert (0 <= hm * hn) by nia. assert (0 <= hm * hn * Z.of_nat k) by nia.
    assert (hm * hn * (Z.of_nat k + 1) <= hm * hn * hl) by nia. nia.
  - rewrite length_rpages. nia.
  - nia.
  - rewrite LY. nia.
  - rewrite length_rpages, Z2Nat.id in E by lia. rewrite E. cbn [bind]. exists z'. split; [reflexivity|]. split; [exact L|]. intros j. rewrite (H j).
    destruct (_ && _)%nat eqn:Ej; [|reflexivity]. f_equal. apply f_equal. unfold part, documented_sum.
    rewrite INR_IZR_INZ, Z2Nat.id by lia. f_equal. rewrite length_rpages. apply rsum_ext'. intros l Hl.
    f_equal.
    + unfold resp. rewrite nth_rpages by exact Hl. unfold slice, response. rewrite skipn_skipn. f_equal. f_equal. nia.
    + unfold sig, slice, signal. f_equal. f_equal. nia.
Qed.

(** Which calls get to the workers. *)
Lemma sum_unfold mc fe nlhs hm hn hl h vu rest um u m :
  fe = Octave \/ fe = Matlab -> 0 <= nlhs <= 2 -> operand vu um hl u -> 2 <= um -> hl <> 1 -> 1 <= hm ->
  parse_sum (mc_import mc) fe nlhs rest = Some m ->
  sum_gateway mc fe nlhs (arr3 hm hn hl h) (vu :: rest) =
    do y <- sum_out fe m (hm + um - 1) hn (mc_junk mc) rest;
    match y with
    | None => Ok (Some CRejected)
    | Some Y =>
      do r <- cols_call (sum_fftconv_point (mc_plan mc (hm + um - 1)) (pages (N:=EN) hm hn hl (exact h)) hl hm (exact u) um (c_mode m) (mc_scr mc))
                hn (num_threads (mc_hw mc) (mc_env mc) hn) (mc_sch mc) Y;
      match r with
      | None => Ok None
      | Some (Y', running) => Ok (Some (sum_finish fe m (hm + um - 1) hn Y' running))
      end
    end.
Proof.
  intros Hfe Hn (st & -> & _ & _) Hum Hhl Hhm Hp. unfold sum_gateway, arr3. rewrite Hp.
  assert (Hd : gw_data fe (VNum st um hl (exact u)) = Ok (exact u)) by (destruct fe, st; reflexivity).
  rewrite Hd. cbn [bind get_m get_n]. unfold check_U. rewrite Z.eqb_refl. cbn [negb].
  replace ((um =? 1) || (hl =? 1))%bool with false by lia. replace (2 <? nlhs) with false by lia.
  replace (hm + um - 1 <? 0) with false by lia. destruct Hfe as [->| ->]; reflexivity.
Qed.

(** U one row: the second input's signal lies outside (see C32_refuted_row_U). *)
Lemma sum_point_row {N : Num} (p : fft_plan N) (U : list N) (H : list (list N)) hM hN L mode scr n Y :
  Z.of_nat (length H) = L -> 2 <= L -> 1 <= hM -> (forall h, In h H -> hM * hN <= Z.of_nat (length h)) -> Z.of_nat (length U) = L -> 0 <= n < hN ->
  plan_ok p -> fp_len p = hM + L - 1 -> scratch_ok (hM + L - 1) (scr n) ->
  sum_fftconv_point p H L hM U L mode scr n Y = UB UB_oob_read.
Proof.
  intros HLL HL HhM Hhs LU Hn Hp Hpl (S1 & S2 & S3 & S4 & S5 & S6).
  unfold sum_fftconv_point, add_fftconv.
  set (fl := hM + L - 1) in *.
  set (dd := (nofZ 0, nofZ 0) : N * N).
  destruct (for_upd dd 0 fl (fun i cf => buf_upd cf i (fun _ => dd)) (fun _ _ => dd) (s_cf (scr n))) as (cf & E & Lcf & _).
  { lia. }
  { intros i h Hi Hhh. rewrite buf_upd_ok by lia. rewrite Nat2Z.id. reflexivity. }
  rewrite E. cbn [bind].
  unfold for_loop. replace (Z.to_nat L) with (S (S (Z.to_nat L - 2))) by lia. cbn [for_from].
  (* first input *)
  rewrite (get_nth H 0 []) by lia. cbn [bind s_a s_b s_c s_af s_bf s_cf Z.to_nat].
  assert (H0 : In (nth 0 H []) H) by (apply nth_In; lia).
  pose proof (load_spec (nth 0 H []) (n * hM) hM fl (s_a (scr n)) ltac:(nia) ltac:(lia) ltac:(lia) ltac:(pose proof (Hhs _ H0); nia) S1) as Ea.
  pose proof (load_spec U (0 * L) L fl (s_b (scr n)) ltac:(lia) ltac:(lia) ltac:(lia) ltac:(lia) S2) as Eb.
  destruct (copy_in (nth 0 H []) (n * hM) hM (s_a (scr n))) as [a0|?|]; cbn [bind] in Ea |- *; try discriminate Ea.
  rewrite Ea. cbn [bind].
  destruct (copy_in U (0 * L) L (s_b (scr n))) as [b0|?|]; cbn [bind] in Eb |- *; try discriminate Eb.
  rewrite Eb. cbn [bind].
  set (xs := slice (n * hM) hM (nth 0 H [])) in *. set (ys := slice (0 * L) L U) in *.
  assert (Lx : length xs = Z.to_nat hM) by (apply length_slice; pose proof (Hhs _ H0); nia).
  assert (Ly : length ys = Z.to_nat L) by (apply length_slice; lia).
  assert (La : length (pad fl xs) = Z.to_nat (fp_len p)) by (rewrite length_pad; lia).
  assert (Lb : length (pad fl ys) = Z.to_nat (fp_len p)) by (rewrite length_pad; lia).
  destruct (fft_spec p _ (s_af (scr n)) Hp La ltac:(lia)) as (af & -> & Laf & Faf). cbn [bind].
  destruct (fft_spec p _ (s_bf (scr n)) Hp Lb ltac:(lia)) as (bf & -> & Lbf & Fbf). cbn [bind].
  destruct (for_upd dd 0 fl (fun i cf => do u <- buf_get af i; do v <- buf_get bf i;
                 buf_upd cf i (fun w => cadd w (cdiv (cmul u v) (nofZ fl))))
      (fun i w => cadd w (cdiv (cmul (nth i af dd) (nth i bf dd)) (nofZ fl))) cf) as (cf1 & E1 & Lcf1 & _).
  { lia. }
  { intros i h Hi Hhh. rewrite (get_nth af (Z.of_nat i) dd), (get_nth bf (Z.of_nat i) dd) by lia. cbn [bind].
    rewrite buf_upd_ok by lia. rewrite Nat2Z.id. reflexivity. }
  unfold for_loop in E1. rewrite E1. cbn [bind].
  (* second input *)
  change (0 + 1) with 1. rewrite (get_nth H 1 []) by lia. cbn [bind s_a s_b s_c s_af s_bf s_cf].
  assert (H1 : In (nth (Z.to_nat 1) H []) H) by (apply nth_In; lia).
  pose proof (load_spec (nth (Z.to_nat 1) H []) (n * hM) hM fl (pad fl xs) ltac:(nia) ltac:(lia) ltac:(lia) ltac:(pose proof (Hhs _ H1); nia) ltac:(lia)) as Ea2.
  destruct (copy_in (nth (Z.to_nat 1) H []) (n * hM) hM (pad fl xs)) as [a2|?|]; cbn [bind] in Ea2 |- *; try discriminate Ea2.
  rewrite Ea2. cbn [bind].
  assert (Eb2 : copy_in U (1 * L) L (pad fl ys) = UB UB_oob_read).
  { unfold copy_in, for_loop. destruct (Z.to_nat L) as [|m] eqn:Em; [lia|]. cbn [for_from].
    unfold buf_get, in_range. replace ((0 <=? 1 * L + 0) && (1 * L + 0 <? Z.of_nat (length U))) with false by lia. reflexivity. }
  rewrite Eb2. reflexivity.
Qed.
