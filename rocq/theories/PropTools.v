(** PropTools.v - property theorems about dream_apodwin (C59, C62) and dream_att
    (C60, C61). *)
From Coq Require Strings.String.
Import Coq.Strings.String.StringSyntax.
From Coq Require Import Reals Lra Lia ZArith List Bool.
From Coq Require Import ZifyBool ZifyNat.
From Verif Require Import Base BaseLemmas ModelSir ModelArr ModelSmp NumR SpecSir SpecRayleigh SpecArr SpecDft SpecConv SpecAtt SpecSmp
  ProofsLoop ProofsEnum ProofsR ProofsRayleigh ProofsSirR ProofsArr ProofsDft ProofsConvR ProofsAtt ModelGw ProofsGw SpecGwR ProofsGwR ModelTools SpecTools ProofsCgw ProofsCgw2 ProofsTools.
Import ListNotations.
Local Open Scope string_scope.
Open Scope Z_scope.

(** ** C59: dream_apodwin returns the weights of the array functions *)

(** For every window but 'off' and 'ud' and every length: the weights that the
    array functions give the elements of a line array with elements at
    1 - 2n/num; these are the window at the relative distance |1 - 2n/num|.
    The second argument may be held in any way, only its first element is
    looked at. *)
Theorem C59_windows : forall fe nlhs junk s par w st m n num rest vp,
  fe = Octave \/ fe = Matlab -> 0 <= nlhs <= 1 -> named s par w -> (1 <= num)%nat -> Z.of_nat num < 2^62 -> scalar vp par ->
  apodwin_gateway (N:=EN) fe nlhs junk [VStr s; VNum st m n (exact (INR num :: rest)); vp] =
    Ok (TReturned (Z.of_nat num) 1 (exact (map (weight (line_array num w)) (seq 0 num)))) /\
  forall k, (k < num)%nat -> weight (line_array num w) k = window w k (Rabs (1 - 2 * INR k / INR num)).
Proof.
  intros fe nlhs junk s par w st m n num rest vp Hfe Hn Hs Hnum Hfit (stp & ->). split; [|intros k Hk; now apply weight_line].
  unfold apodwin_gateway. replace (match fe with Octave | Matlab => true | _ => false end) with true by (destruct Hfe as [->| ->]; reflexivity).
  cbn [negb]. unfold in_bounds. replace (_ || _)%bool with false by lia. cbn [negb get_data exact map].
  change (buf_get (Some (INR num) :: map (@Some R) rest) 0) with (@Ok EN (Some (INR num))). cbn [bind].
  change (ntrunc (n:=EN) (Some (INR num))) with (Some (Ztruncr (INR num))). rewrite INR_IZR_INZ.
  rewrite cast_int by (try (right; lia); unfold SpecCgw.fits; lia). cbn [bind].
  replace (Z.of_nat num <? 0) with false by lia.
  assert (Es : get_string_arg fe s = s).
  { destruct Hfe as [->| ->]; [reflexivity|]. unfold named in Hs. intuition; subst; reflexivity. }
  assert (Hp : parse_apod_args (N:=EN) fe (VStr s) (VNum st m n (exact (IZR (Z.of_nat num) :: rest))) (VNum stp 1 1 (exact [par]))
       (Z.of_nat num) (repeat (nofZ (n:=EN) 0) (Z.to_nat (Z.of_nat num))) =
     Ok (accept (true, repeat (nofZ (n:=EN) 0) (Z.to_nat (Z.of_nat num)), met_of w, Some par))).
  { unfold parse_apod_args. cbn [is_string negb str_of]. rewrite Es. unfold named in Hs.
    destruct Hfe as [->| ->]; intuition; subst; reflexivity. }
  etransitivity; [apply (f_equal (fun x => bind x _)); exact Hp|]. cbn [bind].
  replace (goes_on fe _) with true by (destruct Hfe as [->| ->]; reflexivity). cbn [negb accept p_val].
  rewrite Nat2Z.id.
  rewrite apodwin_loop_E.
  - reflexivity.
  - destruct Hfe as [->| ->]; cbn [new_matrix]; [apply alloc_length|apply repeat_length].
  - unfold named in Hs. intuition; subst; auto.
Qed.
Print Assumptions C59_windows.

(** 'off' (no apodization, weight 1): refuted.  Octave returns a vector that
    is never written, MATLAB zeros. *)
Theorem C62_refuted_off : forall (N : Num) junk st m n stp w0 (x : N) rest num,
  ntrunc w0 = Some num -> 1 <= num < 2^63 -> Z.of_nat (length junk) = num ->
  apodwin_gateway Octave 1 junk [VStr "off"; VNum st m n (w0 :: rest); VNum stp 1 1 [x]] = Ok (TReturned num 1 junk) /\
  apodwin_gateway Matlab 1 junk [VStr "off"; VNum st m n (w0 :: rest); VNum stp 1 1 [x]] = Ok (TReturned num 1 (repeat (nofZ 0) (Z.to_nat num))).
Proof.
  intros N junk st m n stp w0 x rest num Ht Hn Hj.
  unfold apodwin_gateway. cbn [negb get_data]. change (in_bounds 1 0 1) with true. cbn [negb].
  change (buf_get (w0 :: rest) 0) with (@Ok N w0). cbn [bind]. rewrite Ht. cbn [to_idx idx_of].
  replace ((-2^63 <=? num) && (num <? 2^63)) with true by lia. replace ((0 <=? num) && (num <? 2^64)) with true by lia.
  cbn [bind]. replace (num <? 0) with false by lia.
  unfold parse_apod_args. cbn [is_string negb str_of]. change (get_string_arg Octave "off") with "off". change (get_string_arg Matlab "off") with "off".
  change (apod_of_string "off") with (Some (false, apod_gauss)).
  change (String.eqb "off" "ud") with false. cbn [andb bind get_m get_n]. change ((1 =? 1) && (1 =? 1)) with true. cbn [negb get_data].
  change (buf_get [x] 0) with (@Ok N x). cbn [bind goes_on accept p_ok p_msg p_val negb new_matrix]. split; [|reflexivity]. unfold alloc.
  rewrite firstn_app. replace (Z.to_nat num - length junk)%nat with O by lia. cbn [firstn]. rewrite app_nil_r, firstn_all2 by lia. reflexivity.
Qed.
Print Assumptions C62_refuted_off.

(** 'ud': refuted.  The first weight is taken as the number of weights: a
    vector of weights whose first weight is below 1 is refused (without a
    message) in Octave and gives an empty result in MATLAB. *)
Theorem C62_refuted_ud : forall junk nlhs m n (w0 : R) ws vp par,
  0 <= nlhs <= 1 -> (0 <= w0 < 1)%R -> m * n = Z.of_nat (length (w0 :: ws)) -> scalar vp par ->
  apodwin_gateway (N:=EN) Octave nlhs junk [VStr "ud"; VNum Full m n (exact (w0 :: ws)); vp] = Ok TRejected /\
  apodwin_gateway (N:=EN) Matlab nlhs junk [VStr "ud"; VNum Full m n (exact (w0 :: ws)); vp] = Ok (TReturned 0 1 []).
Proof.
  intros junk nlhs m n w0 ws vp par Hn Hw Hmn (stp & ->). cbn [length] in Hmn.
  assert (Ht : Ztruncr w0 = 0).
  { rewrite Ztruncr_nonneg by lra. apply Zfloor_unique. cbn. lra. }
  unfold apodwin_gateway. cbn [negb get_data exact map]. unfold in_bounds. replace (_ || _)%bool with false by lia. cbn [negb].
  change (buf_get (Some w0 :: map (@Some R) ws) 0) with (@Ok EN (Some w0)). cbn [bind].
  change (ntrunc (n:=EN) (Some w0)) with (Some (Ztruncr w0)). rewrite Ht.
  split.
  - cbn [to_idx idx_of]. change ((-2 ^ 63 <=? 0) && (0 <? 2 ^ 63)) with true. cbn [bind]. change (0 <? 0) with false. cbv iota.
    unfold parse_apod_args. cbn [is_string negb str_of get_string_arg]. change (apod_of_string "ud") with (Some (true, apod_ud)).
    change (String.eqb "ud" "ud") with true. cbn [andb bind get_m get_n shape_ok]. replace (m * n =? 0) with false by lia. cbn [negb andb bind].
    change ((1 =? 1) && (1 =? 1)) with true. cbn [negb]. reflexivity.
  - cbn [to_idx idx_of]. change ((0 <=? 0) && (0 <? 2 ^ 64)) with true. cbn [bind]. change (0 <? 0) with false. cbv iota.
    unfold parse_apod_args. cbn [is_string negb str_of]. change (get_string_arg Matlab "ud") with "ud". change (apod_of_string "ud") with (Some (true, apod_ud)).
    change (String.eqb "ud" "ud") with true. cbn [andb bind get_m get_n shape_ok]. replace (m * n =? 0) with false by lia. cbn [negb andb bind].
    change ((1 =? 1) && (1 =? 1)) with true. cbn [negb]. reflexivity.
Qed.
Print Assumptions C62_refuted_ud.

(** An empty second argument: the read outside the argument happens before any
    check. *)
Theorem C62_refuted_empty : forall (N : Num) fe nlhs (junk : list N) vs st m n vp,
  fe = Octave \/ fe = Matlab -> 0 <= nlhs <= 1 ->
  apodwin_gateway fe nlhs junk [vs; VNum st m n []; vp] = UB UB_oob_read.
Proof.
  intros N fe nlhs junk vs st m n vp Hfe Hn. unfold apodwin_gateway.
  replace (match fe with Octave | Matlab => true | _ => false end) with true by (destruct Hfe as [->| ->]; reflexivity).
  cbn [negb]. unfold in_bounds. replace (_ || _)%bool with false by lia. reflexivity.
Qed.
Print Assumptions C62_refuted_empty.

Example C59_ex : apodwin_gateway (N:=EN) Octave 1 [] [VStr "triangle"; VNum Temp 1 1 (exact [INR 4]); VNum Temp 1 1 (exact [0%R])]
  = Ok (TReturned 4 1 (exact [0; 1/2; 1; 1/2]%R)).
Proof.
  destruct (C59_windows Octave 1 [] "triangle" 0 ATriangle Temp 1 1 4 [] (VNum Temp 1 1 (exact [0%R]))) as (E & H); try lia.
  - now left.
  - unfold named. auto.
  - exists Temp. reflexivity.
  - etransitivity; [exact E|]. change (Z.of_nat 4) with 4. do 2 f_equal. cbn [seq map].
    assert (A : forall k v, (0 <= v)%R -> (1 - 2 * INR k / INR 4 = v \/ 1 - 2 * INR k / INR 4 = - v)%R -> Rabs (1 - 2 * INR k / INR 4) = v).
    { intros k v Hv [-> | ->]; [now apply Rabs_pos_eq|rewrite Rabs_Ropp; now apply Rabs_pos_eq]. }
    rewrite !H by lia. cbn [window].
    rewrite (A 0%nat 1%R), (A 1%nat (1/2)%R), (A 2%nat 0%R), (A 3%nat (1/2)%R); try lra; try (left; cbn; lra); try (right; cbn; lra).
    unfold exact. cbn [map].
    replace (1 - 1)%R with 0%R by lra. replace (1 - 1/2)%R with (1/2)%R by lra. replace (1 - 0)%R with 1%R by lra. reflexivity.
Qed.

(** ** C60: dream_att returns the attenuation response *)

Lemma att_point_E fe ntz dt alpha cp (ps : list pos) dl (h : list EN) n :
  fe = Octave \/ fe = Matlab -> dt <> 0%R -> cp <> 0%R -> 0 < ntz -> (n < length ps)%nat -> (length dl = 1%nat \/ length dl = length ps) ->
  length h = Z.to_nat (ntz * Z.of_nat (length ps)) ->
  att_fits fe (att_index cp dt (delay_of dl n) (nth n ps origin)) ->
  exists h', att_point (N:=EN) fe (exact_att ntz dt alpha) (Z.of_nat (length ps)) (exact (coords ps)) (exact dl)
       (if Z.of_nat (length dl) =? 1 then delay_single else delay_multiple) (Some dt) (Some cp) (Z.of_nat n) h = Ok h' /\ length h' = length h /\
    forall j, nth j h' (Some 0%R) =
      if ((Z.to_nat (Z.of_nat n * ntz) <=? j) && (j <? Z.to_nat (Z.of_nat n * ntz) + Z.to_nat ntz))%nat
      then e2 Rplus (nth j h (Some 0%R)) (Some (green (Z.to_nat ntz) dt alpha (range (nth n ps origin)) (att_index cp dt (delay_of dl n) (nth n ps origin)) (j - Z.to_nat (Z.of_nat n * ntz))))
      else nth j h (Some 0%R).
Proof.
  intros Hfe Hdt Hcp Hnt Hn Hdl Hh Hfit. unfold att_point.
  destruct (coords_nth ps n Hn) as (E1 & E2 & E3). set (o := nth n ps origin) in *.
  unfold buf_get at 1. unfold in_range.
  assert (Lc : length (exact (coords ps)) = (3 * length ps)%nat).
  { unfold exact, coords. rewrite map_length, !app_length, !map_length. lia. }
  assert (B : forall i x, nth_error (exact (coords ps)) i = Some x -> buf_get (exact (coords ps)) (Z.of_nat i) = Ok x).
  { intros i x Hx. assert (Hi : (i < length (exact (coords ps)))%nat) by (apply nth_error_Some; congruence).
    rewrite (buf_get_nth _ i x) by exact Hi. f_equal. now apply nth_error_nth. }
  fold (buf_get (exact (coords ps)) (Z.of_nat n)).
  replace (Z.of_nat n + 1 * Z.of_nat (length ps)) with (Z.of_nat (n + length ps)) by lia.
  replace (Z.of_nat n + 2 * Z.of_nat (length ps)) with (Z.of_nat (n + 2 * length ps)) by lia.
  change (if (0 <=? Z.of_nat n) && (Z.of_nat n <? Z.of_nat (length (exact (coords ps)))) then _ else _) with (buf_get (exact (coords ps)) (Z.of_nat n)).
  rewrite (B _ _ E1), (B _ _ E2), (B _ _ E3). cbn [bind].
  assert (Hd : buf_get (exact dl) (match (if Z.of_nat (length dl) =? 1 then delay_single else delay_multiple) with delay_single => 0 | delay_multiple => Z.of_nat n end) = Ok (Some (delay_of dl n))).
  { unfold delay_of. destruct (Nat.eqb_spec (length dl) 1) as [H1|H1].
    - replace (Z.of_nat (length dl) =? 1) with true by lia. change 0 with (Z.of_nat 0).
      rewrite (buf_get_nth _ 0 (Some 0%R)) by (unfold exact; rewrite map_length; lia). f_equal. exact (nth_reals dl 0).
    - replace (Z.of_nat (length dl) =? 1) with false by lia.
      rewrite (buf_get_nth _ n (Some 0%R)) by (unfold exact; rewrite map_length; lia). f_equal. exact (nth_reals dl n). }
  rewrite Hd. cbn [bind].
  assert (Er : nsqrt (n:=EN) (nadd (n:=EN) (nadd (n:=EN) (nmul (n:=EN) (Some (p_x o)) (Some (p_x o))) (nmul (n:=EN) (Some (p_y o)) (Some (p_y o)))) (nmul (n:=EN) (Some (p_z o)) (Some (p_z o)))) = Some (range o)).
  { ered. rewrite e_sqrt_ok by nra. unfold range. do 2 f_equal. ring. }
  rewrite Er.
  assert (Et : ntrunc (n:=EN) (nadd (n:=EN) (ndiv (n:=EN) (nsub (n:=EN) (ndiv (n:=EN) (nmul (n:=EN) (Some (range o)) (nofZ (n:=EN) 1000)) (Some cp)) (Some (delay_of dl n))) (Some dt)) (nofZ (n:=EN) 1))
     = Some (att_index cp dt (delay_of dl n) o)).
  { ered. rewrite e_div_ok by exact Hcp. cbn [e2]. rewrite e_div_ok by exact Hdt. cbn [e2]. unfold att_index, flight. apply f_equal, f_equal.
    field. split; assumption. }
  rewrite Et, (att_cast_ok fe _ Hfe Hfit). cbn [bind]. change (att_len (exact_att ntz dt alpha)) with ntz.
  change (nofZ (n:=EN) 1) with (Some 1%R). apply emit_att_base; auto; nia.
Qed.

(** dream_att: column n is the response of a unit source at the distance of
    observation point n, arriving at sample [att_index]; for all attenuations,
    record lengths, delays. *)
Theorem C60_response : forall fe nlhs junk vo vs vd vm (ps : list pos) dt ntz dl cp alpha,
  fe = Octave \/ fe = Matlab -> 0 <= nlhs <= 1 ->
  points vo ps -> two vs dt (IZR ntz) -> delays vd (length ps) dl -> two vm cp alpha ->
  dt <> 0%R -> cp <> 0%R -> 0 < ntz < 2^31 ->
  (forall n, (n < length ps)%nat -> att_fits fe (att_index cp dt (delay_of dl n) (nth n ps origin))) ->
  exists H, att_gateway (N:=EN) (att_c2r (exact_att ntz dt alpha)) fe nlhs junk [vo; vs; vd; vm] =
      Ok (TReturned ntz (Z.of_nat (length ps)) H) /\
    matrix_is H (Z.to_nat ntz) (length ps)
      (fun n k => green (Z.to_nat ntz) dt alpha (range (nth n ps origin)) (att_index cp dt (delay_of dl n) (nth n ps origin)) k).
Proof.
  intros fe nlhs junk vo vs vd vm ps dt ntz dl cp alpha Hfe Hl (so & ->) (ss & ms & ns & -> & Hms) (sd & md & nd & -> & Hmd & Hdl)
    (sm & mm & nm & -> & Hmm) Hdt Hcp Hnt Hfit.
  unfold att_gateway. replace (match fe with Octave | Matlab => true | _ => false end) with true by (destruct Hfe as [->| ->]; reflexivity).
  cbn [negb]. unfold in_bounds. replace (_ || _)%bool with false by lia. cbn [negb].
  unfold check_obs_points. cbn [get_n get_m]. change (3 =? 3) with true. cbn [negb].
  assert (G : forall st m n d, gw_data (N:=EN) fe (VNum st m n d) = Ok d) by (intros; destruct Hfe as [->| ->]; reflexivity).
  rewrite !G. cbn [bind].
  assert (V : forall st m n d, (m = 2 /\ n = 1) \/ (m = 1 /\ n = 2) -> check_vec (N:=EN) fe 2 (VNum st m n d) = true).
  { intros st m n d [[-> ->]|[-> ->]]; destruct Hfe as [->| ->]; reflexivity. }
  rewrite !V by assumption. cbn [negb exact map].
  change (buf_get [Some dt; Some (IZR ntz)] 0) with (@Ok EN (Some dt)). change (buf_get [Some dt; Some (IZR ntz)] 1) with (@Ok EN (Some (IZR ntz))).
  cbn [bind]. change (ntrunc (n:=EN) (Some (IZR ntz))) with (Some (Ztruncr (IZR ntz))). rewrite trunc_IZR.
  rewrite att_cast_ok by (auto; destruct Hfe as [->| ->]; cbn; lia). cbn [bind].
  unfold check_delay. cbn [get_m get_n]. replace (negb (negb _)) with false by (destruct Hdl; lia). cbv iota.
  change (buf_get [Some cp; Some alpha] 0) with (@Ok EN (Some cp)). change (buf_get [Some cp; Some alpha] 1) with (@Ok EN (Some alpha)).
  cbn [bind]. replace (ntz <? 0) with false by lia.
  assert (Hc : sir_clear ntz (Z.of_nat (length ps)) (new_matrix (N:=EN) fe junk (Z.to_nat (ntz * Z.of_nat (length ps)))) = Ok (zeros (N:=EN) (ntz * Z.of_nat (length ps)))).
  { unfold sir_clear. apply clear_zeros. destruct Hfe as [->| ->]; cbn [new_matrix]; [apply alloc_length|apply repeat_length]. }
  rewrite Hc. cbn [bind]. unfold delay_type_of. cbn [get_m get_n]. rewrite Hmd.
  set (g := fun n k => green (Z.to_nat ntz) dt alpha (range (nth n ps origin)) (att_index cp dt (delay_of dl n) (nth n ps origin)) k).
  destruct (for_inv (fun j (h : list EN) => length h = Z.to_nat (ntz * Z.of_nat (length ps)) /\
      (forall n k, (n < length ps)%nat -> (k < Z.to_nat ntz)%nat -> nth (n * Z.to_nat ntz + k) h (Some 0%R) = if (n <? j)%nat then Some (g n k) else Some 0%R))
    (Z.of_nat (length ps))
    (att_point (N:=EN) fe (exact_att ntz dt alpha) (Z.of_nat (length ps)) (exact (coords ps)) (exact dl)
       (if Z.of_nat (length dl) =? 1 then delay_single else delay_multiple) (Some dt) (Some cp))
    (zeros (N:=EN) (ntz * Z.of_nat (length ps)))) as (h' & E & L & Hh).
  - split; [unfold zeros; apply repeat_length|]. intros n k _ _. unfold zeros. change (nofZ (n:=EN) 0) with (Some 0%R).
    replace (n <? 0)%nat with false by lia. apply nth_repeat.
  - rewrite Nat2Z.id. intros j h Hj (L & Hh).
    destruct (att_point_E fe ntz dt alpha cp ps dl h j Hfe Hdt Hcp ltac:(lia) Hj Hdl L (Hfit j Hj)) as (h' & E & L' & H').
    exists h'. split; [exact E|]. split; [lia|]. intros n k Hn Hk. rewrite H'.
    destruct (Nat.eq_dec n j) as [->|Hne].
    + replace ((_ <=? _)%nat && _)%bool with true by nia. rewrite Hh by auto. replace (j <? j)%nat with false by lia.
      replace (j <? S j)%nat with true by lia. cbn [e2]. f_equal. rewrite Rplus_0_l. unfold g. f_equal. nia.
    + replace ((_ <=? _)%nat && _)%bool with false.
      * rewrite Hh by auto. replace (n <? S j)%nat with (n <? j)%nat by lia. reflexivity.
      * symmetry. apply andb_false_iff. destruct (Nat.lt_ge_cases n j); [left|right]; nia.
  - exists h'. split.
    + etransitivity; [apply (f_equal (fun x => bind x _)); exact E|]. reflexivity.
    + split; [lia|]. intros n k Hn Hk. assert (Hlt : (n * Z.to_nat ntz + k < length h')%nat).
      { rewrite L, Z2Nat.inj_mul, Nat2Z.id by lia. nia. }
      apply ProofsCgw2.nth_error_of_nth with (d := Some 0%R); [exact Hlt|].
      rewrite Hh by auto. rewrite Nat2Z.id. replace (n <? length ps)%nat with true by lia. reflexivity.
Qed.
Print Assumptions C60_response.

(** ** C61: the position of the response *)

(** The arrival is never early and less than one sample late (at most one if
    the travel time is a whole number of samples); the transducer functions
    use the nearest sample, see [arrives_at]. *)
Theorem C61_position_partial : forall cp dt delay o, (-1 <= flight cp dt delay o)%R ->
  (0 < IZR (att_index cp dt delay o) - flight cp dt delay o <= 1)%R.
Proof.
  intros cp dt delay o H. unfold att_index. rewrite Ztruncr_nonneg by lra.
  destruct (Zfloor_spec (flight cp dt delay o + 1)). lra.
Qed.
Print Assumptions C61_position_partial.

(** Lossless medium: the response is a unit sample, so its position can be read
    off the result. *)
Lemma lossless_att L dt r it k : dt <> 0%R -> (k < L)%nat -> green L dt 0 r it k = if (it mod Z.of_nat L =? Z.of_nat k) then 1%R else 0%R.
Proof.
  intros Hdt Hk. replace it with (it mod Z.of_nat L + it / Z.of_nat L * Z.of_nat L) at 1.
  - rewrite green_period by (auto; lia). rewrite green_lossless; auto. apply Z.mod_pos_bound. lia.
  - pose proof (Z.div_mod it (Z.of_nat L) ltac:(lia)). lia.
Qed.

(** Refuted: a travel time of exactly m samples is not put at sample m but at
    m + 1 (the transducer functions put it at m)... *)
Theorem C61_refuted_one_late : forall fe vo vs vd vm o dt ntz delay cp m,
  fe = Octave \/ fe = Matlab ->
  points vo [o] -> two vs dt (IZR ntz) -> delays vd 1 [delay] -> two vm cp 0%R ->
  dt <> 0%R -> cp <> 0%R -> 0 < ntz < 2^31 -> 0 <= m < ntz - 1 -> flight cp dt delay o = IZR m ->
  exists H, att_gateway (N:=EN) (att_c2r (exact_att ntz dt 0)) fe 1 [] [vo; vs; vd; vm] = Ok (TReturned ntz 1 H) /\
    nth_error H (Z.to_nat m) = Some (Some 0%R) /\ nth_error H (Z.to_nat (m + 1)) = Some (Some 1%R) /\
    arrives_at {| p_dx := 1; p_dy := 1; p_dt := dt; p_v := 1; p_cp := cp |} delay o
       {| s_x := 0; s_y := 0; s_z := 0; s_ds := 1; s_tau := 0 |} = m.
Proof.
  intros fe vo vs vd vm o dt ntz delay cp m Hfe Ho Hs Hd Hm Hdt Hcp Hnt Hm0 Hf.
  assert (Ei : att_index cp dt (delay_of [delay] 0) (nth 0 [o] origin) = m + 1).
  { unfold att_index. cbn [delay_of length Nat.eqb nth]. rewrite Hf, <- plus_IZR. apply trunc_IZR. }
  destruct (C60_response fe 1 [] vo vs vd vm [o] dt ntz [delay] cp 0 Hfe ltac:(lia) Ho Hs Hd Hm Hdt Hcp Hnt) as (H & E & _ & HH).
  { intros n Hn. cbn in Hn. replace n with O by lia. rewrite Ei. destruct Hfe as [->| ->]; cbn; lia. }
  exists H. split; [exact E|]. cbv beta in HH.
  assert (Q : forall k, 0 <= k < ntz -> nth_error H (Z.to_nat k) = Some (Some (if m + 1 =? k then 1 else 0)%R)).
  { intros k Hk. etransitivity; [exact (HH O (Z.to_nat k) ltac:(cbn; lia) ltac:(lia))|]. rewrite Ei. do 2 f_equal.
    rewrite lossless_att by (auto; lia). rewrite !Z2Nat.id by lia. rewrite Z.mod_small by lia. reflexivity. }
  rewrite !Q by lia. replace (m + 1 =? m) with false by lia. rewrite Z.eqb_refl. repeat split.
  assert (Ed : dist o {| s_x := 0; s_y := 0; s_z := 0; s_ds := 1; s_tau := 0 |} = range o).
  { unfold dist, range. cbn [s_x s_y s_z]. f_equal. ring. }
  unfold arrives_at, arrival. rewrite Ed. cbn [s_tau p_cp p_dt].
  replace ((1000 * range o / cp - delay + 0) / dt)%R with (flight cp dt delay o) by (unfold flight; field; auto).
  rewrite Hf. apply Zrint_IZR.
Qed.
Print Assumptions C61_refuted_one_late.

(** ... and an arrival after the end of the record (or, in Octave, before its
    start) is not left out but wrapped into the record. *)
Theorem C61_refuted_wraps : forall fe vo vs vd vm o dt ntz delay cp,
  fe = Octave \/ fe = Matlab ->
  points vo [o] -> two vs dt (IZR ntz) -> delays vd 1 [delay] -> two vm cp 0%R ->
  dt <> 0%R -> cp <> 0%R -> 0 < ntz < 2^31 -> att_fits fe (att_index cp dt delay o) ->
  exists H, att_gateway (N:=EN) (att_c2r (exact_att ntz dt 0)) fe 1 [] [vo; vs; vd; vm] = Ok (TReturned ntz 1 H) /\
    nth_error H (Z.to_nat (att_index cp dt delay o mod ntz)) = Some (Some 1%R).
Proof.
  intros fe vo vs vd vm o dt ntz delay cp Hfe Ho Hs Hd Hm Hdt Hcp Hnt Hf.
  destruct (C60_response fe 1 [] vo vs vd vm [o] dt ntz [delay] cp 0 Hfe ltac:(lia) Ho Hs Hd Hm Hdt Hcp Hnt) as (H & E & _ & HH).
  { intros n Hn. cbn in Hn. replace n with O by lia. exact Hf. }
  exists H. split; [exact E|]. pose proof (Z.mod_pos_bound (att_index cp dt delay o) ntz ltac:(lia)) as Hb.
  etransitivity; [exact (HH O (Z.to_nat (att_index cp dt delay o mod ntz)) ltac:(cbn; lia) ltac:(lia))|].
  cbv beta. change (nth 0 [o] origin) with o. change (delay_of [delay] 0) with delay. do 2 f_equal.
  rewrite lossless_att by (auto; lia). rewrite !Z2Nat.id by lia. rewrite Z.eqb_refl. reflexivity.
Qed.
Print Assumptions C61_refuted_wraps.

(** Witness: dt = 1 us, 8 samples, a point at 3 mm, cp = 1000 m/s: arrival at
    3 samples, found at sample 4; a point at 10 mm, arrival after the record,
    found at sample 11 mod 8 = 3. *)
Example C61_ex : exists H, att_gateway (N:=EN) (att_c2r (exact_att 8 1 0)) Matlab 1 []
    [VNum Full 1 3 (exact (coords [{| p_x := 0; p_y := 0; p_z := 3 |}])); VNum Full 1 2 (exact [1%R; IZR 8]); VNum Full 1 1 (exact [0%R]); VNum Full 2 1 (exact [1000; 0]%R)]
  = Ok (TReturned 8 1 H) /\ nth_error H 4 = Some (Some 1%R).
Proof.
  destruct (C61_refuted_one_late Matlab (VNum Full 1 3 (exact (coords [{| p_x := 0; p_y := 0; p_z := 3 |}]))) (VNum Full 1 2 (exact [1%R; IZR 8]))
     (VNum Full 1 1 (exact [0%R])) (VNum Full 2 1 (exact [1000; 0]%R)) {| p_x := 0; p_y := 0; p_z := 3 |} 1%R 8 0%R 1000%R 3) as (H & E & _ & H4 & _);
    try lia; try lra; auto.
  - exists Full. reflexivity.
  - exists Full, 1, 2. split; [reflexivity|lia].
  - exists Full, 1, 1. split; [reflexivity|]. split; [reflexivity|now left].
  - exists Full, 2, 1. split; [reflexivity|lia].
  - unfold flight, range. cbn [p_x p_y p_z]. replace (0^2 + 0^2 + 3^2)%R with (3^2)%R by ring. rewrite sqrt_pow2 by lra. lra.
  - exists H. split; [exact E|exact H4].
Qed.
