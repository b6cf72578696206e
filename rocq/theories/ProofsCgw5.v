(** ProofsCgw5.v - complete calls of fftconv_ola. *)
From Coq Require Strings.String.
Import Coq.Strings.String.StringSyntax.
From Coq Require Import Reals Lra.
From Verif Require Import Base BaseLemmas ModelSir ModelArr ModelSmp ModelConv NumR SpecDft SpecSmp SpecConv
  ProofsLoop ProofsSmp ProofsSmp2 ProofsDft ProofsConv ProofsConvR ProofsCols ProofsOla PropConv ModelGw ProofsGw SpecGwR ModelCgw SpecCgw ProofsCgw ProofsCgw2 ProofsR.
From Coq Require Import ZifyBool ZifyNat.
Ltac Zify.zify_post_hook ::= Z.div_mod_to_equations.
Open Scope Z_scope.

(** ** The owner of a column *)
Lemma owner_range No nt n : 1 <= nt -> 0 <= n < No ->
  let i := ((n + 1) * nt - 1) / No in 0 <= i < nt /\ part_start i No nt <= n < part_stop i No nt.
Proof.
  intros Ht Hn i. unfold part_start, part_stop.
  assert (Hi : i * No <= (n + 1) * nt - 1 < (i + 1) * No) by (unfold i; nia).
  assert (0 <= i) by (apply Z.div_pos; nia).
  assert (i < nt) by nia.
  split; [lia|]. split.
  - apply Z.lt_succ_r. apply Z.div_lt_upper_bound; lia.
  - apply Z.lt_le_trans with (n + 1); [lia|]. apply Z.div_le_lower_bound; lia.
Qed.
Lemma own_start_range No nt n : 1 <= nt -> 0 <= n < No -> 0 <= own_start No nt n <= n.
Proof.
  intros Ht Hn. destruct (owner_range No nt n Ht Hn) as (Hi & Hp). unfold own_start.
  pose proof (part_range No nt ltac:(lia) ltac:(lia) _ Hi). lia.
Qed.
Lemma own_start_one No nt n : 1 <= nt -> No <= nt -> 0 <= n < No -> own_start No nt n = n.
Proof.
  intros Ht Hle Hn. destruct (owner_range No nt n Ht Hn) as (Hi & Hp). unfold own_start.
  set (i := ((n + 1) * nt - 1) / No) in *. unfold part_start, part_stop in *.
  assert (i * No / nt <= n < (i + 1) * No / nt) by lia.
  assert (nt * n < nt * ((i + 1) * No / nt)) by nia.
  assert (nt * ((i + 1) * No / nt) <= (i + 1) * No) by (apply Z.mul_div_le; lia).
  apply Z.le_antisymm; [lia|]. apply Z.div_le_lower_bound; [lia|].
  assert (nt * (n + 1) <= nt * ((i + 1) * No / nt)) by nia. nia.
Qed.
Lemma own_start_last No nt : 1 <= nt < No -> own_start No nt (No - 1) < No - 1.
Proof.
  intros H. unfold own_start. replace (No - 1 + 1) with No by lia.
  replace ((No * nt - 1) / No) with (nt - 1) by nia.
  unfold part_start. apply Z.div_lt_upper_bound; [lia|]. nia.
Qed.

Lemma upd_at {A} (l : list A) i x f : nth_error l i = Some x -> nth_error (upd l i f) i = Some (f x).
Proof. revert i; induction l as [|a l IH]; intros [|i] H; cbn in *; try discriminate; [congruence|auto]. Qed.
Lemma upd_away {A} (l : list A) i j f : i <> j -> nth_error (upd l i f) j = nth_error l j.
Proof. revert i j; induction l as [|a l IH]; intros [|i] [|j] H; cbn; auto; try lia; try congruence. Qed.

(** ** A call whose points never run out of budget *)
Lemma gsteps_nodiv {N : Num} (pt : Z -> list N -> res (list N * SIRError)) No L (P : forall n Y, 0 <= n < No -> length Y = L -> pt n Y <> Diverge)
  (PL : forall n Y Y' e, 0 <= n < No -> length Y = L -> pt n Y = Ok (Y', e) -> length Y' = L) :
  forall sch s, length (g_H s) = L ->
   (forall k t, nth_error (g_threads s) k = Some t -> 0 <= t_n t /\ t_stop t <= No) ->
   gsteps pt s sch <> Diverge.
Proof.
  induction sch as [|e sch IH]; intros s HL Hr; cbn [gsteps]; [discriminate|].
  destruct e as [i|].
  2:{ cbn [gstep bind]. apply IH; auto. }
  cbn [gstep]. destruct (nth_error (g_threads s) i) as [t|] eqn:Et; [|cbn [bind]; apply IH; auto].
  destruct (Hr i t Et) as [H0 H1].
  unfold thread_step. destruct (t_pc t).
  - destruct (t_n t <? t_stop t) eqn:El.
    + destruct (pt (t_n t) (g_H s)) as [[Y' e]|u|] eqn:Ep; cbn [bind]; [|discriminate|exfalso; apply (P (t_n t) (g_H s)); auto; lia].
      apply IH; cbn [g_H g_threads].
      * apply (PL (t_n t) (g_H s) Y' e); auto; lia.
      * intros k u Hk. destruct (Nat.eq_dec i k) as [->|Hne].
        -- rewrite (upd_at _ _ _ _ Et) in Hk. injection Hk as <-. cbn. lia.
        -- rewrite upd_away in Hk by auto. apply (Hr k u Hk).
    + cbn [bind]. apply IH; cbn [g_H g_threads]; auto.
      intros k u Hk. destruct (Nat.eq_dec i k) as [->|Hne].
      * rewrite (upd_at _ _ _ _ Et) in Hk. injection Hk as <-. cbn. lia.
      * rewrite upd_away in Hk by auto. apply (Hr k u Hk).
  - cbn [bind]. apply IH; cbn [g_H g_threads]; auto.
    intros k u Hk. destruct (Nat.eq_dec i k) as [->|Hne].
    + rewrite (upd_at _ _ _ _ Et) in Hk. injection Hk as <-. cbn. lia.
    + rewrite upd_away in Hk by auto. apply (Hr k u Hk).
  - destruct (g_running s); cbn [bind]; apply IH; cbn [g_H g_threads]; auto;
    intros k u Hk; (destruct (Nat.eq_dec i k) as [->|Hne];
      [rewrite (upd_at _ _ _ _ Et) in Hk; injection Hk as <-; cbn; lia
      |rewrite upd_away in Hk by auto; apply (Hr k u Hk)]).
  - cbn [bind]. apply IH; cbn [g_H g_threads]; auto.
    intros k u Hk. destruct (Nat.eq_dec i k) as [->|Hne].
    + rewrite (upd_at _ _ _ _ Et) in Hk. injection Hk as <-. cbn. lia.
    + rewrite upd_away in Hk by auto. apply (Hr k u Hk).
Qed.
Lemma cols_nodiv {N : Num} (pt : Z -> list N -> res (list N * SIRError)) No nthreads sch (Y0 : list N) :
  0 <= No -> 1 <= nthreads ->
  (forall n Y, 0 <= n < No -> length Y = length Y0 -> pt n Y <> Diverge) ->
  (forall n Y Y' e, 0 <= n < No -> length Y = length Y0 -> pt n Y = Ok (Y', e) -> length Y' = length Y0) ->
  cols_call pt No nthreads sch Y0 <> Diverge.
Proof.
  intros HNo Hth P PL. unfold cols_call.
  assert (G : gsteps pt (init No nthreads Y0) sch <> Diverge).
  { apply (gsteps_nodiv pt No (length Y0) P PL); [reflexivity|].
    intros k t Hk. cbn [init g_threads] in Hk. rewrite nth_error_map in Hk.
    destruct (nth_error (seq 0 (Z.to_nat nthreads)) k) as [j|] eqn:Ej; [|discriminate]. injection Hk as <-. cbn [init_thread t_n t_stop].
    assert (Hj : (k < Z.to_nat nthreads)%nat) by (rewrite <- (seq_length (Z.to_nat nthreads) 0); apply nth_error_Some; congruence).
    rewrite (nth_error_nth' _ O) in Ej by (rewrite seq_length; exact Hj). rewrite seq_nth in Ej by exact Hj. injection Ej as <-.
    apply part_range; lia. }
  destruct (gsteps _ _ _) as [s|u|]; cbn [bind]; [destruct (all_done s); discriminate|discriminate|congruence].
Qed.

(** ** The gateway up to the columns *)
Definition ola_mats am an a bm bn b : mats EN :=
  {| m_A := exact a; m_AM := am; m_AN := an; m_B := exact b; m_BM := b_rows bm bn; m_BN := b_cols bm bn |}.
Lemma block_arg_num fe am v bl args : fe = Octave \/ fe = Matlab -> number_is v (IZR bl) -> fits bl -> (fe = Matlab -> 0 <= bl) ->
  nth_error args 2 = Some v ->
  block_arg fe KOla am args = Ok (if check_block bl am then Some bl else None).
Proof.
  intros Hfe (st & m & n & -> & Hmn) Hf Hneg Ev. unfold block_arg, arg. rewrite Ev. cbn [bind get_m get_n].
  rewrite Hmn. change (1 =? 1) with true. cbn [negb].
  assert (Hd : gw_data fe (VNum st m n (exact [IZR bl])) = Ok (exact [IZR bl])) by (destruct fe; reflexivity).
  rewrite Hd. cbn [bind]. change (buf_get (exact [IZR bl]) 0) with (@Ok (car EN) (Some (IZR bl))). cbn [bind].
  change (ntrunc (n:=EN) (Some (IZR bl))) with (Some (Ztruncr (IZR bl))).
  rewrite cast_int; [cbn [bind]; destruct (check_block bl am); reflexivity|exact Hf|].
  destruct Hfe as [->| ->]; [left; reflexivity|right; auto].
Qed.
Lemma ola_gw_unfold mc fe nlhs va vb vn rest am an a bm bn b bl m :
  fe = Octave \/ fe = Matlab -> parse_fft (mc_import mc) fe nlhs rest = Some m ->
  operand va am an a -> operand vb bm bn b -> conformable am an bm bn -> number_is vn (IZR bl) -> fits bl -> (fe = Matlab -> 0 <= bl) ->
  let rows := am + b_rows bm bn - 1 in
  let nt := num_threads (mc_hw mc) (mc_env mc) an in
  conv_gateway mc fe KOla nlhs (va :: vb :: vn :: rest) =
    if negb (check_block bl am) then Ok (Some CRejected) else
    do y <- out_array fe KOla m rows an (mc_junk mc) (va :: vb :: vn :: rest);
    match y with
    | None => Ok (Some CRejected)
    | Some Y =>
      do r <- cols_call (ola_point (mc_fuel mc) (mc_plan mc (bl + b_rows bm bn - 1)) (ola_mats am an a bm bn b) bl (c_mode m)
                           (own_start an nt) (mc_loc mc)) an nt (mc_sch mc) Y;
      match r with
      | None => Ok None
      | Some (Y', running) => Ok (Some (finish_call fe KOla m rows an Y' running))
      end
    end.
Proof.
  intros Hfe Hp Ha Hb Hc Hv Hfit Hneg rows nt. pose proof (b_rows_pos _ _ _ _ Hc) as Hbr. pose proof Hc as (H1 & _).
  destruct (operand_cols _ _ _ _ Ha) as (A1 & A2 & A3 & A4). destruct (operand_cols _ _ _ _ Hb) as (B1 & B2 & B3 & B4).
  unfold conv_gateway. replace (has_fun fe KOla) with true by (destruct Hfe as [->| ->]; reflexivity).
  replace (parse_cargs (mc_import mc) fe KOla nlhs (va :: vb :: vn :: rest)) with (Some m) by (destruct Hfe as [->| ->]; cbn [parse_cargs]; auto).
  cbn [negb]. cbn [arg nth_error bind].
  rewrite A1, A2, A4, B1, B2, B4. cbn [bind]. rewrite (check_B_ok am an bm bn Hc).
  rewrite (block_arg_num fe am vn bl); auto. cbn [bind]. destruct (check_block bl am) eqn:Ec; cbn [negb]; [|reflexivity].
  fold rows. replace (rows <? 0) with false by lia.
  destruct (out_array _ _ _ _ _ _ _) as [[Y|]|?|]; cbn [bind]; auto.
Qed.

(** The columns. *)
Lemma b_off_ok am an a bm bn b n : conformable am an bm bn -> Z.of_nat (length b) = bm * bn -> 0 <= n < an ->
  b_off (N:=EN) (ola_mats am an a bm bn b) n + b_rows bm bn <= Z.of_nat (length b).
Proof.
  intros (H1 & H2 & H3 & H4 & H5) Lb Hn. unfold b_off. cbn [ola_mats m_BN m_BM]. rewrite Lb. unfold b_cols, b_rows.
  destruct ((bm =? 1) || (bn =? 1)) eqn:E; [change (1 <? 1) with false; cbv iota; lia|].
  replace (1 <? bn) with true by lia. nia.
Qed.
Lemma b_off_slice am an a bm bn b n : 1 <= bm -> 1 <= bn -> Z.of_nat (length b) = bm * bn -> 0 <= n ->
  slice (b_off (N:=EN) (ola_mats am an a bm bn b) n) (b_rows bm bn) b = b_col bm bn b (Z.to_nat n).
Proof.
  intros H1 H2 Lb Hn. unfold b_off. cbn [ola_mats m_BN m_BM]. unfold b_cols, b_rows, b_col.
  destruct ((bm =? 1) || (bn =? 1)) eqn:E; [change (1 <? 1) with false; cbv iota; apply slice_all; lia|].
  replace (1 <? bn) with true by lia. rewrite Z2Nat.id by lia. reflexivity.
Qed.
Definition right_block (bl am bm bn an nt : Z) : Prop := (bm <> 1 /\ bn <> 1) \/ bl = am \/ an <= nt.
Lemma ola_core mc am an a bm bn b bl nt sch (Y0 : list EN) :
  conformable am an bm bn -> Z.of_nat (length a) = am * an -> Z.of_nat (length b) = bm * bn ->
  1 <= bl <= am -> exact_fft_ola mc (bl + b_rows bm bn - 1) -> am <= Z.of_nat (mc_fuel mc) -> 1 <= nt ->
  right_block bl am bm bn an nt ->
  length Y0 = Z.to_nat (an * (am + b_rows bm bn - 1)) ->
  every_column (N:=EN) (am + b_rows bm bn - 1) an nt sch Y0
    (fun n k v => nadd (n:=EN) v (Some (product am a bm bn b (Z.to_nat n) k)))
    (cols_call (ola_point (mc_fuel mc) (mc_plan mc (bl + b_rows bm bn - 1)) (ola_mats am an a bm bn b) bl cm_equ
                           (own_start an nt) (mc_loc mc)) an nt sch Y0).
Proof.
  intros Hc La Lb Hbl ((trash & Ht & Ep) & Hloc) Hfu Hth Hright LY. pose proof (b_rows_pos _ _ _ _ Hc) as Hbr.
  pose proof Hc as (H1 & H2 & H3 & H4 & H5). rewrite Ep.
  apply cols_call_spec; auto; try lia.
  intros n Y Hn LY'.
  destruct (ola_point_E a b am an (b_rows bm bn) (b_cols bm bn) bl trash (mc_fuel mc) (own_start an nt) (mc_loc mc) n Y) as (Y' & E & L & H); auto; try lia.
  - apply (b_off_ok am an a bm bn b n Hc Lb Hn).
  - specialize (Hloc n). destruct (mc_loc mc n) as ((s & y) & ab). unfold arrays_ok. cbn [dft_plan fp_len].
    rewrite Z2Nat.id by lia. exact Hloc.
  - apply own_start_range; lia.
  - destruct Hright as [[Hr1 Hr2]|[Hr|Hr]].
    + left. unfold b_cols. replace ((bm =? 1) || (bn =? 1)) with false by lia. lia.
    + right; left; exact Hr.
    + right; right. apply own_start_one; lia.
  - exists Y'. split; [exact E|]. split; [exact L|]. intros j. rewrite (H j).
    match goal with |- context [b_off ?M n] => change M with (ola_mats am an a bm bn b) end.
    rewrite (b_off_slice am an a bm bn b n H3 H4 Lb) by lia.
    unfold product, a_col, rcolA. rewrite Z2Nat.id by lia. reflexivity.
Qed.

(** Vector B, a block shorter than a column, a worker with two columns. *)
Lemma ola_point_vec {N : Num} fuel (p : fft_plan N) (M : mats N) bl mode cs loc n Y : plan_ok p -> fp_len p = bl + m_BM M - 1 ->
  1 <= bl -> bl < m_AM M -> 1 <= m_BM M -> m_BN M = 1 -> m_BM M <= Z.of_nat (length (m_B M)) ->
  0 <= n < m_AN M -> Z.of_nat (length (m_A M)) = m_AN M * m_AM M ->
  0 <= cs n <= n -> (let '(s, y, ab) := loc n in arrays_ok p s y ab) -> m_AM M <= Z.of_nat fuel ->
  m_AN M * (m_AM M + m_BM M - 1) <= Z.of_nat (length Y) ->
  if m_AN M <=? cs n + 2 * (n - cs n) then ola_point fuel p M bl mode cs loc n Y = UB UB_oob_read
  else exists Y', ola_point fuel p M bl mode cs loc n Y = Ok (Y', err_none) /\ length Y' = length Y.
Proof.
  intros Hp Hpl Hbl Hlt HBM HBN LB Hn LA Hcs Hloc Hf LY. unfold ola_point. destruct (loc n) as ((s & y) & ab).
  assert (Eap : ola_ap M (cs n) n = (cs n + 2 * (n - cs n)) * m_AM M) by (unfold ola_ap; rewrite HBN; reflexivity).
  destruct (m_AN M <=? cs n + 2 * (n - cs n)) eqn:El.
  - erewrite ola_column_oob; [reflexivity|..]; eauto; try lia. rewrite Eap, LA. nia.
  - edestruct (ola_column_ok p M bl mode) with (n := n) (ap0 := ola_ap M (cs n) n) (s := s) (y := y) (ab := ab) (Y := Y) (fuel := fuel)
      as (s' & y' & ab' & Y' & E & _ & L); eauto; try lia.
    + unfold b_off. rewrite HBN. cbn. lia.
    + rewrite LA. nia.
    + nia.
    + rewrite Eap. nia.
    + rewrite Eap, LA. nia.
    + rewrite E. exists Y'. split; [reflexivity|exact L].
Qed.
