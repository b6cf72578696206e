(** ProofsAtt.v - lemmas about the attenuated computation. *)
From Coq Require Import Reals Lra Lia ZArith List Bool.
From Coq Require Import ZifyBool ZifyNat.
From Verif Require Import Base BaseLemmas ModelSir ModelArr ModelConv NumR SpecSir SpecRayleigh SpecDft SpecConv SpecAtt
  ProofsLoop ProofsDft ProofsLocal ProofsEnum ProofsR ProofsRayleigh ProofsSirR ProofsConvR.
Import ListNotations.
Ltac Zify.zify_post_hook ::= Z.div_mod_to_equations.

Section Any.
  Context {N : Num}.
  Local Open Scope Z_scope.
  Local Notation buf := (list N).

  (** The spectrum as a list. *)
  Definition spectrum_bin (p : att_plan N) (r : N) (it : Z) (k : nat) : N * N :=
    let z := Z.of_nat k in
    if z =? 0 then (nofZ 1, nofZ 0)
    else if 2 * z <? att_len p then att_bin p r it z
    else let '(re, im) := att_bin p r it (att_len p - z) in (re, nopp im).
  Definition spectrum (p : att_plan N) (r : N) (it : Z) : list (N * N) :=
    map (spectrum_bin p r it) (seq 0 (Z.to_nat (att_len p))).

  Lemma nth_spectrum p r it k d : (k < Z.to_nat (att_len p))%nat -> nth k (spectrum p r it) d = spectrum_bin p r it k.
  Proof.
    intros H. unfold spectrum. rewrite (nth_indep _ d (spectrum_bin p r it O)) by (rewrite map_length, seq_length; lia).
    rewrite map_nth, seq_nth by lia. reflexivity.
  Qed.

  Lemma att_spectrum_eq (p : att_plan N) r it xc0 :
    0 < att_len p -> length xc0 = Z.to_nat (att_len p) ->
    att_spectrum p r it xc0 = Ok (spectrum p r it).
  Proof.
    intros Hp Hl. unfold att_spectrum. rewrite buf_upd_ok by lia. cbn [bind].
    set (d := (nofZ (n:=N) 0, nofZ (n:=N) 0)).
    set (xc1 := upd xc0 (Z.to_nat 0) (fun _ => (nofZ 1, nofZ 0))).
    match goal with |- for_loop ?n ?b ?s = _ =>
      destruct (for_inv (fun j xc => length xc = Z.to_nat (att_len p) /\
        (nth 0 xc d = spectrum_bin p r it 0) /\
        forall k, (k < Z.to_nat (att_len p))%nat -> (0 < k <= j \/ Z.to_nat (att_len p) <= k + j)%nat ->
           nth k xc d = spectrum_bin p r it k) n b s) as (xc & E & L & H0 & H)
    end.
    - split; [|split].
      + unfold xc1. now rewrite length_upd.
      + unfold xc1. rewrite nth_updg by lia. reflexivity.
      + intros k Hk Hk'. lia.
    - intros j s Hj (Ls & H0 & Hs).
      destruct (att_bin p r it (Z.of_nat j + 1)) as [re im] eqn:Eb.
      rewrite buf_upd_ok by lia. cbn [bind]. rewrite buf_upd_ok by (rewrite length_upd; lia).
      eexists. split; [reflexivity|]. split; [now rewrite !length_upd|]. split.
      + rewrite nth_updg by (rewrite length_upd; lia). replace (Nat.eqb _ 0) with false by lia.
        rewrite nth_updg by lia. replace (Nat.eqb _ 0) with false by lia. exact H0.
      + intros k Hk Hk'. rewrite nth_updg by (rewrite length_upd; lia).
        destruct (Nat.eqb (Z.to_nat (att_len p - (Z.of_nat j + 1))) k) eqn:E1.
        * unfold spectrum_bin. replace (Z.of_nat k =? 0) with false by lia.
          replace (2 * Z.of_nat k <? att_len p) with false by lia.
          replace (att_len p - Z.of_nat k) with (Z.of_nat j + 1) by lia. rewrite Eb. reflexivity.
        * rewrite nth_updg by lia.
          destruct (Nat.eqb (Z.to_nat (Z.of_nat j + 1)) k) eqn:E2.
          -- unfold spectrum_bin. replace (Z.of_nat k =? 0) with false by lia.
             replace (2 * Z.of_nat k <? att_len p) with true by lia.
             replace (Z.of_nat k) with (Z.of_nat j + 1) by lia. now rewrite Eb.
          -- apply Hs; lia.
    - rewrite E. f_equal. apply (nth_ext_len d).
      + unfold spectrum. now rewrite map_length, seq_length.
      + intros k Hk. rewrite nth_spectrum by lia. destruct k as [|k]; [exact H0|]. apply H; lia.
  Qed.

  (** Attenuated emission on a buffer of its own. *)
  Lemma emit_att_eq (p : att_plan N) it r ai h : 0 < att_len p -> length h = Z.to_nat (att_len p) ->
    length (att_c2r p (spectrum p r it)) = Z.to_nat (att_len p) ->
    exists h', emit_att p 0 it r ai h = Ok h' /\ length h' = length h /\
      forall k, (k < length h)%nat ->
        nth k h' (nofZ 0) = nadd (nth k h (nofZ 0)) (nmul ai (nth k (att_c2r p (spectrum p r it)) (nofZ 0))).
  Proof.
    intros Hp Hh Hx. unfold emit_att. rewrite att_spectrum_eq by (auto; now rewrite repeat_length).
    cbn [bind].
    match goal with |- exists h', for_loop ?n ?b ?s = _ /\ _ =>
      destruct (for_upd (nofZ 0) 0 n b (fun j y => nadd y (nmul ai (nth j (att_c2r p (spectrum p r it)) (nofZ 0)))) s)
        as (h' & E & L & H)
    end.
    - lia.
    - intros j h0 Hj Hh0. rewrite (get_nth _ _ (nofZ 0)) by lia. cbn [bind].
      rewrite Z.add_0_l, buf_upd_ok by lia. rewrite !Nat2Z.id. reflexivity.
    - exists h'. repeat split; auto. intros k Hk. rewrite H.
      replace (_ && _) with true by lia. now rewrite Nat.sub_0_r.
  Qed.
End Any.

(** ** Exact arithmetic *)
Open Scope R_scope.

Lemma spectrum_bin_E ntz dt alpha r it k : dt <> 0 -> (0 < ntz)%Z -> (Z.of_nat k <= ntz / 2)%Z ->
  exists im, spectrum_bin (exact_att ntz dt alpha) (Some r) it k = (Some (green_re (Z.to_nat ntz) dt alpha r it k), Some im) /\
    ((2 * Z.of_nat k < ntz)%Z -> im = green_im (Z.to_nat ntz) dt alpha r it k).
Proof.
  intros Hdt Hn Hk. unfold spectrum_bin. destruct k as [|k].
  { cbn. exists 0. split; [reflexivity|intros; reflexivity]. }
  cbn [exact_att att_len]. replace (Z.of_nat (S k) =? 0)%Z with false by lia.
  assert (HL : INR (Z.to_nat ntz) = IZR ntz) by (rewrite INR_IZR_INZ; f_equal; lia).
  assert (HL0 : IZR ntz <> 0) by (apply not_0_IZR; lia).
  assert (HLp : 0 < IZR ntz) by (apply IZR_lt; lia).
  assert (Hk0 : 0 < IZR (Z.of_nat (S k))) by (apply IZR_lt; lia).
  pose proof PI_RGT_0 as HPI.
  assert (B : forall z, z = Z.of_nat (S k) ->
    att_bin (N:=EN) (exact_att ntz dt alpha) (Some r) it z =
    (Some (green_re (Z.to_nat ntz) dt alpha r it (S k)), Some (green_im (Z.to_nat ntz) dt alpha r it (S k)))).
  { intros z Hz. unfold att_bin. cbn [exact_att att_len att_dt att_alpha nofZ EN nmul ndiv nsub nopp npi nexp nlog ncos nsin].
    assert (T1 : 1000000 <> 0) by lra. assert (T2 : 1000 <> 0) by lra. assert (T3 : 100 <> 0) by lra.
    repeat first [rewrite (e_div_ok _ 1000000) by lra | rewrite (e_div_ok _ 1000) by lra | rewrite (e_div_ok _ 100) by lra].
    cbn [e1 e2]. rewrite (e_div_ok _ (8686 / 1000 * 10000)) by lra.
    assert (D1 : dt * (1 / 1000000) <> 0) by (apply Rmult_integral_contrapositive_currified; lra).
    rewrite (e_div_ok 1) by exact D1. rewrite (e_div_ok _ (IZR ntz)) by exact HL0.
    rewrite (e_div_ok _ PI) by lra. cbn [e1 e2].
    set (w := IZR z * (2 * PI / IZR ntz) * (1 / (dt * (1 / 1000000)))).
    rewrite (e_div_ok _ (2 * PI)) by lra. rewrite (e_div_ok _ (PI * PI)) by nra.
    assert (Haw : 0 < dt * (1 / 1000000) * (95 / 100) / PI * w).
    { unfold w. replace (dt * (1 / 1000000) * (95 / 100) / PI * (IZR z * (2 * PI / IZR ntz) * (1 / (dt * (1 / 1000000)))))
        with (19 / 10 * IZR z / IZR ntz) by (field; repeat split; lra).
      apply Rdiv_lt_0_compat; [|exact HLp]. rewrite Hz. lra. }
    rewrite (e_div_ok 1) by lra. rewrite e_ln_ok by (apply Rdiv_lt_0_compat; lra).
    cbn [e1 e2].
    assert (Hw : omega (Z.to_nat ntz) dt (S k) = w).
    { unfold omega, w. rewrite HL, Hz, INR_IZR_INZ. field. repeat split; lra. }
    assert (Em : exp (- (r * (1 / 1000)) * (alpha / (8686 / 1000 * 10000)) * w / (2 * PI)) = green_mag (Z.to_nat ntz) dt alpha r (S k)).
    { unfold green_mag. rewrite Hw. f_equal. unfold neper. field. lra. }
    assert (Ep : - w * (r * (1 / 1000)) * (alpha / (8686 / 1000 * 10000)) / (PI * PI) *
       ln (1 / (dt * (1 / 1000000) * (95 / 100) / PI * w)) - IZR it * (dt * (1 / 1000000)) * w =
       green_ph (Z.to_nat ntz) dt alpha r it (S k)).
    { unfold green_ph. rewrite Hw. unfold neper.
      replace (95 / 100 * (dt / 1000000) / PI * w) with (dt * (1 / 1000000) * (95 / 100) / PI * w) by (field; lra).
      generalize (ln (1 / (dt * (1 / 1000000) * (95 / 100) / PI * w))). intros l. field. lra. }
    rewrite Em, Ep. reflexivity. }
  destruct (2 * Z.of_nat (S k) <? ntz)%Z eqn:E.
  - exists (green_im (Z.to_nat ntz) dt alpha r it (S k)). split; [|auto]. exact (B _ eq_refl).
  - exists (- green_im (Z.to_nat ntz) dt alpha r it (S k)). split; [|lia].
    rewrite (B (ntz - Z.of_nat (S k))%Z) by lia. reflexivity.
Qed.

Lemma firstn_map_seq {A} (f : nat -> A) n m : (m <= n)%nat -> firstn m (map f (seq 0 n)) = map f (seq 0 m).
Proof.
  intros H. replace n with (m + (n - m))%nat by lia. rewrite seq_app, map_app, firstn_app.
  rewrite map_length, seq_length, Nat.sub_diag. cbn [firstn]. rewrite app_nil_r.
  apply firstn_all2. rewrite map_length, seq_length. lia.
Qed.

Lemma att_c2r_E ntz dt alpha r it : dt <> 0 -> (0 < ntz)%Z ->
  att_c2r (exact_att ntz dt alpha) (spectrum (exact_att ntz dt alpha) (Some r) it) =
  map (fun n => Some (green (Z.to_nat ntz) dt alpha r it n)) (seq 0 (Z.to_nat ntz)).
Proof.
  intros Hdt Hn. set (L := Z.to_nat ntz).
  set (im := fun k => match snd (spectrum_bin (exact_att ntz dt alpha) (Some r) it k) with Some x => x | None => 0 end).
  assert (HX : firstn (L / 2 + 1) (spectrum (exact_att ntz dt alpha) (Some r) it) =
     map (fun k => (Some (green_re L dt alpha r it k), Some (im k))) (seq 0 (L / 2 + 1))).
  { unfold spectrum. cbn [exact_att att_len]. fold L.
    destruct (Nat.eq_dec L 1) as [H1|H1].
    - replace L with 1%nat. cbn -[spectrum_bin]. unfold im. cbn -[exact_att]. unfold spectrum_bin. cbn. reflexivity.
    - assert (2 <= L)%nat by lia.
      rewrite (firstn_map_seq (spectrum_bin _ _ _)) by (subst L; lia).
      apply map_ext_in. intros k Hk. apply in_seq in Hk.
      destruct (spectrum_bin_E ntz dt alpha r it k Hdt Hn) as (i & Ei & _); [subst L; lia|].
      unfold im. rewrite Ei. reflexivity. }
  cbn [exact_att att_c2r]. fold L.
  transitivity (map (fun v => e_div v (Some (INR L))) (map (fun n => Some (idft L (green_re L dt alpha r it) im n)) (seq 0 L))).
  { f_equal. etransitivity; [|exact (c2r_defined L (fun X => X) _ _)].
    f_equal. exact HX. }
  rewrite map_map. apply map_ext. intros n. rewrite e_div_ok by (apply not_0_INR; lia).
  f_equal. unfold green. f_equal. unfold idft. f_equal. f_equal. apply rsum_ext. intros k Hk.
  destruct (spectrum_bin_E ntz dt alpha r it (S k) Hdt Hn) as (i & Ei & Hi); [subst L; lia|].
  unfold im at 1. rewrite Ei. cbn [snd]. rewrite Hi by (subst L; lia). reflexivity.
Qed.

Lemma exact_att_ok ntz dt alpha : (0 < ntz)%Z -> att_ok (N:=EN) ntz (exact_att ntz dt alpha).
Proof.
  intros Hn. split; [reflexivity|]. intros xc Hx. cbn [exact_att att_c2r att_len].
  rewrite map_length. cbn [dft_plan fp_c2r].
  match goal with |- length (match ?a with _ => _ end) = _ => destruct a end.
  - match goal with |- length (match ?a with _ => _ end) = _ => destruct a end.
    + now rewrite map_length, seq_length.
    + now rewrite repeat_length.
  - now rewrite repeat_length.
Qed.

Lemma emit_att_E ntz dt alpha it r ai (h : list EN) : dt <> 0 -> (0 < ntz)%Z -> length h = Z.to_nat ntz ->
  exists h', emit_att (N:=EN) (exact_att ntz dt alpha) 0 it (Some r) (Some ai) h = Ok h' /\ length h' = length h /\
    forall k, (k < length h)%nat ->
      nth k h' (Some 0) = e2 Rplus (nth k h (Some 0)) (Some (ai * green (Z.to_nat ntz) dt alpha r it k)).
Proof.
  intros Hdt Hn Hh.
  destruct (emit_att_eq (N:=EN) (exact_att ntz dt alpha) it (Some r) (Some ai) h) as (h' & E & L & H).
  - exact Hn.
  - exact Hh.
  - etransitivity; [apply f_equal; exact (att_c2r_E ntz dt alpha r it Hdt Hn)|].
    etransitivity; [apply map_length|]. now rewrite seq_length.
  - exists h'. repeat split; auto. intros k Hk. etransitivity; [exact (H k Hk)|].
    etransitivity; [apply f_equal; apply f_equal; apply (f_equal (fun l => nth k l (Some 0))); exact (att_c2r_E ntz dt alpha r it Hdt Hn)|].
    set (f := fun n => Some (green (Z.to_nat ntz) dt alpha r it n)).
    etransitivity; [apply f_equal; apply f_equal; apply (nth_indep (map f (seq 0 (Z.to_nat ntz))) (Some 0) (f O)); rewrite map_length, seq_length; lia|].
    etransitivity; [apply f_equal; apply f_equal; apply (map_nth f)|]. rewrite seq_nth by lia. reflexivity.
Qed.

(** All contributions of a transducer, real buffer. *)
Lemma emit_all_att_R q w delay o ntz alpha src : p_dt q <> 0 -> (0 < ntz)%Z -> forall h : list R, length h = Z.to_nat ntz ->
  emit_all (N:=EN) (Some (exact_att ntz (p_dt q) alpha)) ntz (map (contrib_of q w delay o) src) (map Some h) =
  Ok (map Some (tab (Z.to_nat ntz) (fun k => nth k h 0 + attenuated_sum q ntz alpha w delay o src k))).
Proof.
  intros Hdt Hn. induction src as [|s src IH]; intros h Hh.
  - cbn [map]. unfold emit_all. cbn [fold_left]. f_equal. f_equal.
    rewrite <- (tab_nth h) at 1. rewrite Hh. apply tab_ext. intros k Hk. unfold attenuated_sum. cbn. ring.
  - cbn [map]. rewrite emit_all_cons.
    change (sample_of (contrib_of q w delay o s)) with (Some (arrives_at q delay o s)). cbv iota.
    rewrite in_window_E. fold (inside q ntz delay o s). change (in_rec q ntz delay o s) with (inside q ntz delay o s).
    assert (Hc : forall k, attenuated_sum q ntz alpha w delay o (s :: src) k =
       (if inside q ntz delay o s then strength q w o s * green (Z.to_nat ntz) (p_dt q) alpha (dist o s) (arrives_at q delay o s) k else 0)
       + attenuated_sum q ntz alpha w delay o src k) by reflexivity.
    destruct (inside q ntz delay o s) eqn:E.
    + cbn [emit contrib_of c_r c_ai].
      destruct (emit_att_E ntz (p_dt q) alpha (arrives_at q delay o s) (dist o s) (strength q w o s) (map Some h) Hdt Hn)
        as (h' & E' & L & H); [now rewrite map_length|].
      etransitivity; [apply f_equal2 with (f := fun a b => bind a b); [exact E'|reflexivity]|]. cbn [bind].
      assert (L' : length h' = Z.to_nat ntz) by (etransitivity; [exact L|]; now rewrite map_length).
      set (h1 := tab (Z.to_nat ntz) (fun k => nth k h 0 + strength q w o s * green (Z.to_nat ntz) (p_dt q) alpha (dist o s) (arrives_at q delay o s) k)).
      assert (Eh : h' = map Some h1).
      { apply (nth_ext_len (Some 0)).
        - unfold h1. rewrite map_length, length_tab. exact L'.
        - intros k Hk. assert (Hk' : (k < Z.to_nat ntz)%nat) by (rewrite <- L'; exact Hk).
          etransitivity; [apply H; rewrite map_length; lia|].
          etransitivity; [apply (f_equal (fun a => e2 Rplus a _)); apply (map_nth (@Some R))|]. symmetry.
          etransitivity; [apply (map_nth (@Some R))|]. unfold h1. rewrite nth_tab by exact Hk'. reflexivity. }
      rewrite Eh, IH by (unfold h1; apply length_tab). f_equal. f_equal. apply tab_ext. intros k Hk.
      rewrite Hc. unfold h1. rewrite nth_tab by lia. ring.
    + cbn [bind]. rewrite IH by exact Hh. f_equal. f_equal. apply tab_ext. intros k Hk. rewrite Hc. ring.
Qed.

(** ** alpha = 0: the Green's function is a unit sample. *)
Lemma green_lossless L dt r it n : dt <> 0 -> (n < L)%nat -> (0 <= it < Z.of_nat L)%Z ->
  green L dt 0 r it n = if Z.eqb it (Z.of_nat n) then 1 else 0.
Proof.
  intros Hdt Hn Hit. set (m := Z.to_nat it).
  set (delta := fun j => if Nat.eqb j m then 1 else 0).
  assert (HL : INR L <> 0) by (apply not_0_INR; lia).
  assert (Hd : forall f, rsum L (fun j => delta j * f j) = f m).
  { intros f. rewrite (rsum_single L _ m).
    - unfold delta. rewrite Nat.eqb_refl. ring.
    - lia.
    - intros k _ Hk. unfold delta. replace (Nat.eqb k m) with false by lia. ring. }
  assert (HG : forall k, (green_mag L dt 0 r (S k) = 1 /\ green_ph L dt 0 r it (S k) = - ang L (INR (S k) * INR m))).
  { intros k. split.
    - unfold green_mag, neper. replace (- _) with 0 by (field; pose proof PI_RGT_0; lra). apply exp_0.
    - unfold green_ph, neper, ang, omega.
      replace (IZR it) with (INR m) by (rewrite INR_IZR_INZ; f_equal; lia).
      match goal with |- context [ln ?a] => generalize (ln a) end. intros l.
      field. pose proof PI_RGT_0; repeat split; lra. }
  unfold green.
  transitivity (idft L (dft_re L delta) (dft_im L delta) n / INR L).
  - f_equal. apply idft_ext.
    + intros k _. unfold dft_re. rewrite Hd. destruct k as [|k]; cbn [green_re].
      * unfold ang. cbn [INR]. rewrite Rmult_0_l. replace (2 * PI * 0 / INR L) with 0 by (field; auto). symmetry; apply cos_0.
      * destruct (HG k) as [-> ->]. rewrite cos_neg. ring.
    + intros k _. unfold dft_im. rewrite Hd. destruct k as [|k]; cbn [green_im].
      * unfold ang. cbn [INR]. rewrite Rmult_0_l. replace (2 * PI * 0 / INR L) with 0 by (field; auto). rewrite sin_0. ring.
      * destruct (HG k) as [-> ->]. rewrite sin_neg. ring.
  - rewrite idft_dft by exact Hn. unfold delta.
    destruct (Z.eqb it (Z.of_nat n)) eqn:E.
    + replace (Nat.eqb n m) with true by lia. field. exact HL.
    + replace (Nat.eqb n m) with false by lia. field. exact HL.
Qed.

Lemma attenuated_sum_0 q ntz w delay o src k : p_dt q <> 0 -> (k < Z.to_nat ntz)%nat ->
  attenuated_sum q ntz 0 w delay o src k = rayleigh q w delay o src (Z.of_nat k).
Proof.
  intros Hdt Hk. unfold attenuated_sum, rayleigh. f_equal. apply map_ext. intros s.
  destruct (inside q ntz delay o s) eqn:E; unfold inside in E.
  - rewrite green_lossless by (auto; lia). destruct (Z.eqb _ _); ring.
  - replace (Z.eqb (arrives_at q delay o s) (Z.of_nat k)) with false by lia. reflexivity.
Qed.

(** ** The whole call *)
Lemma sir_att_scanner K fuel g q ntz alpha lvl o delay h :
  sir_att K fuel q ntz alpha g lvl delay o h =
  run_scanner K fuel (scanner_of true (emb_samp q ntz) g 1 delay o) (Some (exact_att ntz (p_dt q) alpha)) lvl ntz 0 (map Some h).
Proof. destruct g; reflexivity. Qed.

(** The source points emitted at error level lvl. *)
Fixpoint upto (q : rpar) (ntz : Z) (delay : R) (o : pos) (l : list source) : list source :=
  match l with [] => [] | s :: r => if inside q ntz delay o s then s :: upto q ntz delay o r else [] end.
Definition heard (lvl : ErrorLevel) (q : rpar) (ntz : Z) (delay : R) (o : pos) (l : list source) : list source :=
  match lvl with lvl_stop | lvl_parallel_stop => upto q ntz delay o l | _ => l end.
Definition level_status (lvl : ErrorLevel) (ok : bool) : SIRError := if ok then err_none else dream_out_of_bounds_err lvl.

Lemma before_first_upto q ntz w delay o src :
  before_first_out (N:=EN) ntz (map (contrib_of q w delay o) src) = map (contrib_of q w delay o) (upto q ntz delay o src).
Proof.
  induction src as [|s src IH]; cbn [map before_first_out upto]; auto. rewrite in_window_E.
  change (in_rec q ntz delay o s) with (inside q ntz delay o s).
  destruct (inside q ntz delay o s); cbn [map]; [now rewrite IH|reflexivity].
Qed.

Lemma level_cases lvl : no_bail lvl \/ bails lvl.
Proof. unfold no_bail, bails. destruct lvl; intuition. Qed.

Lemma run_scanner_any K fuel q g w delay o at_ lvl ntz alpha h :
  par_ok q -> geom_ok q g -> off_source q g o -> idx_ok K q delay g o -> enough fuel q g ->
  (weighted g = false -> w = 1) -> (0 < ntz)%Z -> length h = Z.to_nat ntz ->
  run_scanner K fuel (scanner_of at_ (emb_samp q ntz) g w delay o) (Some (exact_att ntz (p_dt q) alpha)) lvl ntz 0 (map Some h) =
  Ok (map Some (tab (Z.to_nat ntz) (fun k => (if clears g then 0 else nth k h 0)
        + attenuated_sum q ntz alpha w delay o (heard lvl q ntz delay o (sources q g)) k)),
      level_status lvl (forallb (inside q ntz delay o) (sources q g))).
Proof.
  intros Hq Hg Hoff Hi Hf Hw Hnt Hh.
  assert (Hdt : p_dt q <> 0) by apply Hq.
  pose proof (points_E q ntz fuel delay o at_ g w Hq Hg Hoff Hf Hw) as HP.
  set (Sc := scanner_of at_ (emb_samp q ntz) g w delay o) in *.
  set (h0 := if clears g then repeat 0 (Z.to_nat ntz) else h).
  assert (Hs : start_buf Sc ntz (map Some h) = map Some h0).
  { unfold start_buf. replace (sc_clear Sc) with (clears g) by (destruct g; reflexivity). unfold h0.
    destruct (clears g); [|reflexivity]. unfold zeros. change (nofZ (n:=EN) 0) with (Some 0).
    now rewrite <- (map_repeat Some 0). }
  assert (H0 : length h0 = Z.to_nat ntz) by (unfold h0; destruct (clears g); [apply repeat_length|exact Hh]).
  assert (Hn : forall k, nth k h0 0 = if clears g then 0 else nth k h 0).
  { intros k. unfold h0. destruct (clears g); [apply nth_repeat|reflexivity]. }
  destruct (level_cases lvl) as [Hl|Hl].
  - rewrite (run_scanner_nobail (N:=EN) K fuel _ _ lvl ntz _ (map Some h) HP);
      [|now rewrite map_length|now apply representable_E|exact Hl].
    rewrite Hs, emit_all_att_R by auto. cbn [bind]. rewrite all_in_E.
    replace (heard lvl q ntz delay o (sources q g)) with (sources q g) by (destruct Hl as [->|[->| ->]]; reflexivity).
    f_equal. f_equal. f_equal. apply tab_ext. intros k Hk. now rewrite Hn.
  - rewrite (run_scanner_bail (N:=EN) K fuel _ _ lvl ntz _ (map Some h) HP);
      [|now rewrite map_length|now apply representable_E|exact Hl].
    rewrite before_first_upto, Hs, emit_all_att_R by auto. cbn [bind]. rewrite all_in_E.
    f_equal. f_equal.
    + f_equal. apply tab_ext. intros k Hk. rewrite Hn. destruct Hl as [-> | ->]; reflexivity.
    + destruct Hl as [-> | ->]; reflexivity.
Qed.

(** The lossless call at any level. *)
Lemma run_scanner_plain_any K fuel q g w delay o at_ lvl ntz h :
  par_ok q -> geom_ok q g -> off_source q g o -> idx_ok K q delay g o -> enough fuel q g ->
  (weighted g = false -> w = 1) -> (0 <= ntz)%Z -> length h = Z.to_nat ntz ->
  run_scanner K fuel (scanner_of at_ (emb_samp q ntz) g w delay o) None lvl ntz 0 (map Some h) =
  Ok (map Some (tab (Z.to_nat ntz) (fun k => (if clears g then 0 else nth k h 0)
        + rayleigh q w delay o (heard lvl q ntz delay o (sources q g)) (Z.of_nat k))),
      level_status lvl (forallb (inside q ntz delay o) (sources q g))).
Proof.
  intros Hq Hg Hoff Hi Hf Hw Hnt Hh.
  destruct (level_cases lvl) as [Hl|Hl].
  - rewrite run_scanner_R by auto.
    replace (heard lvl q ntz delay o (sources q g)) with (sources q g) by (destruct Hl as [->|[->| ->]]; reflexivity).
    reflexivity.
  - pose proof (points_E q ntz fuel delay o at_ g w Hq Hg Hoff Hf Hw) as HP.
    rewrite (run_scanner_bail (N:=EN) K fuel _ None lvl ntz _ (map Some h) HP);
      [|now rewrite map_length|now apply representable_E|exact Hl].
    rewrite emit_all_lossless by (apply length_start_buf; now rewrite map_length).
    cbn [bind]. rewrite all_in_E, before_first_upto. f_equal. f_equal.
    + unfold start_buf.
      replace (sc_clear (scanner_of at_ (emb_samp q ntz) g w delay o)) with (clears g) by (destruct g; reflexivity).
      replace (heard lvl q ntz delay o (sources q g)) with (upto q ntz delay o (sources q g)) by (destruct Hl as [-> | ->]; reflexivity).
      destruct (clears g).
      * unfold zeros. change (nofZ (n:=EN) 0) with (Some 0). rewrite <- (map_repeat Some 0).
        rewrite accumulate_R by (auto; now rewrite repeat_length).
        f_equal. apply tab_ext. intros k Hk. f_equal. apply nth_repeat.
      * now apply accumulate_R.
    + destruct Hl as [-> | ->]; reflexivity.
Qed.

(** ** Arrays *)
From Verif Require Import SpecArr ProofsArr.

Section Loop2.
  Variables (q : rpar) (ntz : Z) (A : array) (delay : R) (o : pos).
  Hypothesis OK : array_ok A.
  Hypothesis Hcp : p_cp q <> 0.
  Local Notation elems ef n left s := (arr_elems (N:=EN) (emb_arr A) (Some (p_cp q)) (Some (extx A)) (Some (exty A)) (Some (extr A))
      (Some (p_x o)) (Some (p_y o)) (Some (p_z o)) (Some delay) ef n left s).
  Local Notation at_elem ef n := (ef (Some (p_x (rel o (elem A n)))) (Some (p_y (rel o (elem A n)))) (Some (p_z (rel o (elem A n))))
      (Some (elem_delay q A delay n)) (Some (weight A n))).

  Lemma elems_step ef n0 left h e0 : (n0 < length (ar_pos A))%nat ->
    elems ef (Z.of_nat n0) (S left) (h, e0) =
    do s' <- at_elem ef n0 h;
    if SIRError_eqb (snd s') err_oob then Ok s' else elems ef (Z.of_nat (S n0)) left s'.
  Proof.
    intros Hn. cbn [arr_elems]. rewrite (delays_E A OK (p_cp q) n0) by (auto; lia). cbn [bind].
    rewrite gx_E, gy_E, gz_E by lia. cbn [bind].
    change (nsub (n:=EN) (Some (p_x o)) (Some (p_x (elem A n0)))) with (Some (p_x (rel o (elem A n0)))).
    change (nsub (n:=EN) (Some (p_y o)) (Some (p_y (elem A n0)))) with (Some (p_y (rel o (elem A n0)))).
    change (nsub (n:=EN) (Some (p_z o)) (Some (p_z (elem A n0)))) with (Some (p_z (rel o (elem A n0)))).
    change (nsub (n:=EN) (nsub (n:=EN) (Some delay) (Some (focus_delay (p_cp q) A n0))) (Some (steer_delay (p_cp q) A n0)))
      with (Some (elem_delay q A delay n0)).
    replace (Z.of_nat n0 + 1)%Z with (Z.of_nat (S n0)) by lia. reflexivity.
  Qed.

  (** Element functions that agree on real buffers. *)
  Lemma elems_agree ef ef' :
    (forall n (h : list R), (n < length (ar_pos A))%nat -> length h = Z.to_nat ntz ->
       exists h' e, length h' = Z.to_nat ntz /\
         at_elem ef n (map (@Some R) h) = Ok (map (@Some R) h', e) /\
         at_elem ef' n (map (@Some R) h) = Ok (map (@Some R) h', e)) ->
    forall left n0 (h : list R) e0, (n0 + left = length (ar_pos A))%nat -> length h = Z.to_nat ntz ->
    elems ef (Z.of_nat n0) left (map (@Some R) h, e0) = elems ef' (Z.of_nat n0) left (map (@Some R) h, e0).
  Proof.
    intros Hef. induction left as [|left IH]; intros n0 h e0 Hn Hh; [reflexivity|].
    rewrite !elems_step by lia.
    destruct (Hef n0 h ltac:(lia) Hh) as (h' & e & Lh & E1 & E2).
    etransitivity; [apply (f_equal (fun m => bind m _)); exact E1|]. symmetry.
    etransitivity; [apply (f_equal (fun m => bind m _)); exact E2|]. cbn [bind snd].
    destruct (SIRError_eqb e err_oob); [reflexivity|]. symmetry. apply IH; [lia|exact Lh].
  Qed.

  (** Element functions that add C n to the samples. *)
  Lemma elems_sum ef (C : nat -> nat -> R) (St : nat -> SIRError) :
    (forall n (h : list R), (n < length (ar_pos A))%nat -> length h = Z.to_nat ntz ->
       at_elem ef n (map (@Some R) h) = Ok (map (@Some R) (tab (Z.to_nat ntz) (fun k => nth k h 0 + C n k)), St n)) ->
    (forall n, St n <> err_oob) ->
    forall left n0 (h : list R) e0, (n0 + left = length (ar_pos A))%nat -> length h = Z.to_nat ntz ->
    elems ef (Z.of_nat n0) left (map (@Some R) h, e0) =
    Ok (map (@Some R) (tab (Z.to_nat ntz) (fun k => nth k h 0 + Rsum (map (fun n => C n k) (seq n0 left)))),
        match left with O => e0 | S l => St (n0 + l)%nat end).
  Proof.
    intros Hef HSt. induction left as [|left IH]; intros n0 h e0 Hn Hh.
    - cbn [arr_elems seq map Rsum fold_right]. f_equal. f_equal. f_equal.
      rewrite <- (tab_nth h) at 1. rewrite Hh. apply tab_ext. intros k _. ring.
    - rewrite elems_step by lia.
      etransitivity; [apply (f_equal (fun m => bind m _)); exact (Hef n0 h ltac:(lia) Hh)|]. cbn [bind snd].
      replace (SIRError_eqb (St n0) err_oob) with false
        by (pose proof (HSt n0); destruct (St n0); try reflexivity; congruence).
      etransitivity; [apply IH; [lia|apply length_tab]|]. f_equal. f_equal.
      + f_equal. apply tab_ext. intros k Hk. rewrite nth_tab by exact Hk. cbn [seq map Rsum fold_right]. unfold Rsum. ring.
      + destruct left; [|f_equal; lia]. now rewrite Nat.add_0_r.
  Qed.
End Loop2.

(** The element function in the attenuating medium. *)
Lemma run_scanner_att_0 K fuel q g w delay o lvl ntz h :
  defined K fuel q ntz g delay o -> (weighted g = false -> w = 1) -> (0 < ntz)%Z -> length h = Z.to_nat ntz ->
  exists h' e, length h' = Z.to_nat ntz /\
    run_scanner K fuel (scanner_of true (emb_samp q ntz) g w delay o) (Some (exact_att ntz (p_dt q) 0)) lvl ntz 0 (map (@Some R) h) = Ok (map (@Some R) h', e) /\
    run_scanner K fuel (scanner_of false (emb_samp q ntz) g w delay o) None lvl ntz 0 (map (@Some R) h) = Ok (map (@Some R) h', e).
Proof.
  intros D Hw Hn Hh. destruct D as [D1 D2 D3 D4 D5 D6]. do 2 eexists. split; [|split; cycle 1].
  2:{ apply run_scanner_plain_any; auto. }
  - apply length_tab.
  - rewrite run_scanner_any by auto. f_equal. f_equal. f_equal. apply tab_ext. intros k Hk.
    f_equal. apply attenuated_sum_0; auto. apply D1.
Qed.
