(** ProofsOla.v - overlap-add (extra_src/oct_fftconv_ola.cc). *)
From Coq Require Import Reals Lra.
From Verif Require Import Base BaseLemmas ModelSir ModelConv NumR SpecDft SpecConv ProofsLoop ProofsDft ProofsConv ProofsConvR.
From Coq Require Import ZifyBool ZifyNat.
Ltac Zify.zify_post_hook ::= Z.div_mod_to_equations.
Open Scope Z_scope.

Section Any.
  Context {N : Num}.
  Local Notation buf := (list N).

  (** The worker's local arrays. *)
  Definition loc_ok (p : fft_plan N) (s : ola_st (N:=N)) : Prop :=
    scratch_ok (fp_len p) (o_s s) /\ length (o_y s) = Z.to_nat (fp_len p) /\ length (o_ab s) = Z.to_nat (fp_len p).

  (** The block of A convolved in this pass: from the running pointer, or
      (last block) from A itself, zero padded. *)
  Definition block_of (M : mats N) (bl n k ap : Z) : buf :=
    if (k + bl <? m_AM M)%Z then slice ap bl (m_A M) else pad bl (slice (k + n * m_AM M) (m_AM M - k) (m_A M)).

  Lemma ola_block_spec (p : fft_plan N) (M : mats N) bl bo mode n (s : ola_st (N:=N)) :
    plan_ok p -> fp_len p = bl + m_BM M - 1 -> loc_ok p s ->
    1 <= bl <= m_AM M -> 1 <= m_BM M -> 0 <= bo -> bo + m_BM M <= Z.of_nat (length (m_B M)) ->
    0 <= n -> (n + 1) * m_AM M <= Z.of_nat (length (m_A M)) -> (n + 1) * (m_AM M + m_BM M - 1) <= Z.of_nat (length (o_Y s)) ->
    0 <= o_k s < m_AM M -> 0 <= o_ap s -> (o_k s + bl < m_AM M -> o_ap s + bl <= Z.of_nat (length (m_A M))) ->
    exists s', ola_block p M bl bo mode n s = Ok s' /\ loc_ok p s' /\ o_k s' = o_k s + bl /\
      o_ap s' = o_ap s + Z.min bl (m_AM M - o_k s) /\ length (o_Y s') = length (o_Y s) /\
      (forall l, (l < Z.to_nat (fp_len p))%nat -> nth l (o_y s') (nofZ 0) =
         comb mode (nth l (o_y s) (nofZ 0)) (nth l (fft_product p (block_of M bl n (o_k s) (o_ap s)) (slice bo (m_BM M) (m_B M))) (nofZ 0))) /\
      let off := Z.to_nat (n * (m_AM M + m_BM M - 1) + o_k s) in
      forall j, nth j (o_Y s') (nofZ 0) =
        if ((off <=? j) && (j <? off + Z.to_nat (fp_len p)) && (j <? Z.to_nat ((n + 1) * (m_AM M + m_BM M - 1))))%nat
        then nadd (nth j (o_Y s) (nofZ 0)) (nth (j - off) (o_y s') (nofZ 0)) else nth j (o_Y s) (nofZ 0).
  Proof.
    intros Hp Hlen (Hs & Hy & Hab) Hbl HBM Hbo HB Hn HA HY Hk Hap0 Hap. unfold ola_block.
    set (AM := m_AM M) in *. set (BM := m_BM M) in *. set (k := o_k s) in *.
    assert (E : exists scr y ab,
      (if (k + bl <? AM)%Z
       then do r <- fftconv p (m_A M) (o_ap s) bl (m_B M) bo BM mode 0 (o_s s) (o_y s); Ok (r, o_ab s, bl)
       else do ab <- copy_in (m_A M) (k + n * AM) (AM - k) (o_ab s);
            do ab0 <- zero_pad (AM - k) (AM - k + (bl - (AM - k))) ab;
            do r <- fftconv p ab0 0 bl (m_B M) bo BM mode 0 (o_s s) (o_y s); Ok (r, ab0, AM - k))
      = Ok ((scr, y), ab, Z.min bl (AM - k)) /\ scratch_ok (fp_len p) scr /\ length y = Z.to_nat (fp_len p) /\
      length ab = Z.to_nat (fp_len p) /\
      (forall l, (l < Z.to_nat (fp_len p))%nat -> nth l y (nofZ 0) =
         comb mode (nth l (o_y s) (nofZ 0)) (nth l (fft_product p (block_of M bl n k (o_ap s)) (slice bo BM (m_B M))) (nofZ 0)))).
    { unfold block_of. fold AM. destruct (k + bl <? AM) eqn:El.
      - destruct (fftconv_spec p (m_A M) (o_ap s) bl (m_B M) bo BM mode 0 (o_s s) (o_y s)) as (scr & y & E & Hs' & Ly & Ny);
          try lia; auto.
        rewrite E. cbn [bind]. exists scr, y, (o_ab s). replace (Z.min bl (AM - k)) with bl by lia.
        repeat split; auto; try lia; try apply Hs'. intros l Hl. rewrite Ny.
        replace (_ && _) with true by lia. now rewrite Nat.sub_0_r.
      - destruct (copy_in_spec (m_A M) (k + n * AM) (AM - k) (o_ab s)) as (ab & E & Lab & Nab); try lia; [nia..|].
        rewrite E. cbn [bind].
        destruct (zero_pad_spec (AM - k) (AM - k + (bl - (AM - k))) ab) as (ab0 & E0 & Lab0 & Nab0); try lia.
        rewrite E0. cbn [bind].
        assert (Es : slice 0 bl ab0 = pad bl (slice (k + n * AM) (AM - k) (m_A M))).
        { assert (Ls : length (slice (k + n * AM) (AM - k) (m_A M)) = Z.to_nat (AM - k)) by (apply length_slice; nia).
          apply (nth_ext_len (nofZ 0)).
          - rewrite length_slice by lia. rewrite length_pad by lia. reflexivity.
          - intros j Hj. rewrite length_slice in Hj by lia. rewrite nth_slice, nth_pad.
            replace (j <? Z.to_nat bl)%nat with true by lia. cbn [Z.to_nat Nat.add].
            rewrite Nab0, Nab.
            destruct (j <? Z.to_nat (AM - k))%nat eqn:Ej.
            + replace (_ && _) with false by lia. reflexivity.
            + replace (_ && _) with true by lia. rewrite nth_overflow by lia. reflexivity. }
        destruct (fftconv_spec p ab0 0 bl (m_B M) bo BM mode 0 (o_s s) (o_y s)) as (scr & y & E1 & Hs' & Ly & Ny);
          try lia; auto.
        rewrite E1. cbn [bind]. exists scr, y, ab0. replace (Z.min bl (AM - k)) with (AM - k) by lia.
        repeat split; auto; try lia; try apply Hs'. intros l Hl. rewrite Ny.
        replace (_ && _) with true by lia. rewrite Nat.sub_0_r. now rewrite Es. }
    destruct E as (scr & y & ab & -> & Hs' & Ly & Lab & Ny). cbn [bind].
    set (count := if (k + (bl + BM - 1) <? AM + BM - 1)%Z then (bl + BM - 1)%Z else (AM + BM - 1 - k)%Z).
    set (off := Z.to_nat (n * (AM + BM - 1) + k)).
    assert (Hcount : count = Z.min (fp_len p) (AM + BM - 1 - k)) by (unfold count; rewrite Hlen; destruct (_ <? _)%Z eqn:Ec; lia).
    assert (Hpos : 0 <= n * (AM + BM - 1)) by nia.
    destruct (for_upd (nofZ 0) off count
      (fun l Y => do yl <- buf_get y l; buf_upd Y (k + l + n * (AM + BM - 1))%Z (fun v => nadd v yl))
      (fun j v => nadd v (nth j y (nofZ 0))) (o_Y s)) as (Y' & E & LY & NY).
    { unfold off. nia. }
    { intros j h Hj Hh. rewrite (get_nth y (Z.of_nat j) (nofZ 0)) by lia. cbn [bind]. rewrite Nat2Z.id.
      rewrite buf_upd_ok by nia. f_equal. f_equal. unfold off. lia. }
    rewrite E. cbn [bind]. eexists. split; [reflexivity|]. unfold loc_ok. cbn [o_k o_ap o_s o_y o_ab o_Y].
    repeat split; auto; try apply Hs'. intros j. rewrite NY.
    assert (Hc : ((off <=? j) && (j <? off + Z.to_nat count))%nat =
      ((off <=? j) && (j <? off + Z.to_nat (fp_len p)) && (j <? Z.to_nat ((n + 1) * (AM + BM - 1))))%nat).
    { rewrite Hcount. unfold off. replace ((n + 1) * (AM + BM - 1)) with (n * (AM + BM - 1) + (AM + BM - 1)) by lia.
      destruct (Nat.leb_spec (Z.to_nat (n * (AM + BM - 1) + k)) j); cbn [andb]; [|reflexivity]. lia. }
    rewrite Hc. reflexivity.
  Qed.
End Any.

(** ** Cauchy products of blocks *)
Lemma cauchy_ext x x' y k : (forall i, nth i x 0%R = nth i x' 0%R) -> cauchy x y k = cauchy x' y k.
Proof. intros H. unfold cauchy. apply rsum_ext. intros i _. now rewrite H. Qed.

Lemma cauchy_split (a b : list R) (k bl m : nat) :
  cauchy (firstn (k + bl) a) b m =
  (cauchy (firstn k a) b m + (if (k <=? m)%nat then cauchy (firstn bl (skipn k a)) b (m - k) else 0))%R.
Proof.
  unfold cauchy.
  rewrite (rsum_ext (S m) (fun i => (nth i (firstn (k + bl) a) 0 * nth (m - i) b 0)%R)
    (fun i => (nth i (firstn k a) 0 * nth (m - i) b 0 +
               (if (k <=? i)%nat then nth (i - k) (firstn bl (skipn k a)) 0 * nth (m - i) b 0 else 0))%R)).
  - rewrite rsum_plus. f_equal. destruct (k <=? m)%nat eqn:E.
    + replace (S m) with (k + S (m - k))%nat by lia. rewrite rsum_app.
      rewrite (rsum_0 k) by (intros i Hi; replace (k <=? i)%nat with false by lia; reflexivity).
      rewrite Rplus_0_l. apply rsum_ext. intros i Hi. replace (k <=? k + i)%nat with true by lia.
      replace (k + i - k)%nat with i by lia. do 2 f_equal. lia.
    + apply rsum_0. intros i Hi. replace (k <=? i)%nat with false by lia. reflexivity.
  - intros i Hi. rewrite !nth_firstn, nth_skipn.
    destruct (i <? k)%nat eqn:E1; destruct (k <=? i)%nat eqn:E2; try lia.
    + replace (i <? k + bl)%nat with true by lia. lra.
    + replace (k + (i - k))%nat with i by lia.
      destruct (i <? k + bl)%nat eqn:E3; destruct (i - k <? bl)%nat eqn:E4; try lia; lra.
Qed.

Lemma cauchy_out (x y : list R) k : (1 <= length x)%nat -> (length x + length y - 1 <= k)%nat -> cauchy x y k = 0%R.
Proof.
  intros Hx Hk. unfold cauchy. apply rsum_0. intros i Hi.
  destruct (Nat.lt_ge_cases i (length x)).
  - rewrite (nth_overflow y) by lia. lra.
  - rewrite (nth_overflow x) by lia. lra.
Qed.
Lemma cauchy_nil y k : cauchy [] y k = 0%R.
Proof. unfold cauchy. apply rsum_0. intros [|i] _; cbn [nth]; lra. Qed.

Lemma eadd_0 (v : option R) : v = e2 Rplus v (Some 0%R).
Proof. destruct v; cbn; [f_equal; lra|reflexivity]. Qed.
Lemma eadd_assoc (v : option R) a b : e2 Rplus (e2 Rplus v (Some a)) (Some b) = e2 Rplus v (Some (a + b)%R).
Proof. destruct v; cbn; [f_equal; lra|reflexivity]. Qed.

Section Exact.
  Variables (a b : list R) (AM AN BM BN bl : Z) (tr : list (EN * EN) -> list (EN * EN)).
  Let M : mats EN := {| m_A := reals a; m_AM := AM; m_AN := AN; m_B := reals b; m_BM := BM; m_BN := BN |}.
  Let p := dft_plan (Z.to_nat (bl + BM - 1)) tr.
  Hypothesis Htr : forall X, length (tr X) = length X.
  Hypothesis Hbl : 1 <= bl <= AM.
  Hypothesis HBM : 1 <= BM.

  Lemma p_ok : plan_ok p.
  Proof. apply dft_plan_ok; [lia|exact Htr]. Qed.
  Lemma p_len : fp_len p = bl + BM - 1.
  Proof. cbn. lia. Qed.

  Lemma length_reals (l : list R) : length (reals l) = length l.
  Proof. unfold reals. apply map_length. Qed.

  (** The block product of a pass, as a real vector. *)
  Lemma block_product n k ap bo : 0 <= n -> 0 <= k < AM -> 0 <= ap -> (k + bl < AM -> ap = n * AM + k) ->
    (n + 1) * AM <= Z.of_nat (length a) -> 0 <= bo -> bo + BM <= Z.of_nat (length b) ->
    forall l, (l < Z.to_nat (bl + BM - 1))%nat ->
      nth l (fft_product p (block_of M bl n k ap) (slice bo BM (reals b))) (nofZ (n:=EN) 0) =
      Some (cauchy (firstn (Z.to_nat bl) (skipn (Z.to_nat k) (slice (n * AM) AM a))) (slice bo BM b) l).
  Proof.
    intros Hn Hk Hap0 Hap HA Hbo HB l Hl.
    assert (E : exists x, block_of M bl n k ap = reals x /\ length x = Z.to_nat bl /\
      forall i, nth i x 0%R = nth i (firstn (Z.to_nat bl) (skipn (Z.to_nat k) (slice (n * AM) AM a))) 0%R).
    { unfold block_of. cbn [M m_AM m_A].
      assert (Hx : 0 <= n * AM) by nia.
      destruct (k + bl <? AM)%Z eqn:El.
      - exists (slice ap bl a). rewrite slice_reals. split; [reflexivity|]. rewrite Hap by lia.
        split; [apply length_slice; nia|]. intros i. rewrite nth_slice, nth_firstn, nth_skipn, nth_slice.
        destruct (i <? Z.to_nat bl)%nat eqn:Ei; [|reflexivity].
        replace (_ <? Z.to_nat AM)%nat with true by lia. f_equal. lia.
      - exists (padr (Z.to_nat bl) (slice (k + n * AM) (AM - k) a)). rewrite slice_reals.
        assert (Ls : length (slice (k + n * AM) (AM - k) a) = Z.to_nat (AM - k)) by (apply length_slice; nia).
        split.
        + rewrite <- pad_reals. f_equal. lia.
        + split.
          * unfold padr. rewrite app_length, repeat_length. lia.
          * intros i. rewrite nth_padr, nth_slice, nth_firstn, nth_skipn, nth_slice.
            destruct (i <? Z.to_nat (AM - k))%nat eqn:Ei.
            -- replace (i <? Z.to_nat bl)%nat with true by lia. replace (_ <? Z.to_nat AM)%nat with true by lia. f_equal. lia.
            -- destruct (i <? Z.to_nat bl)%nat; [|reflexivity].
               replace (_ <? Z.to_nat AM)%nat with false by lia. reflexivity. }
    destruct E as (x & -> & Lx & Nx). rewrite slice_reals.
    assert (Ly : length (slice bo BM b) = Z.to_nat BM) by (apply length_slice; lia).
    unfold p. rewrite fft_product_E by lia. rewrite nth_reals, nth_convolution by lia. f_equal.
    now apply cauchy_ext.
  Qed.

  (** One column: the while loop adds the convolution of the two columns to
      the output, whatever the local arrays contain. *)
  Lemma ola_while n ap0 bo Y0 :
    0 <= n -> 0 <= ap0 -> ap0 = n * AM \/ bl = AM ->
    (n + 1) * AM <= Z.of_nat (length a) -> 0 <= bo -> bo + BM <= Z.of_nat (length b) ->
    (n + 1) * (AM + BM - 1) <= Z.of_nat (length Y0) ->
    let c := fun k j => cauchy (firstn k (slice (n * AM) AM a)) (slice bo BM b) j in
    let off := Z.to_nat (n * (AM + BM - 1)) in
    let Ych := fun k (Y : list EN) => forall j, nth j Y (nofZ (n:=EN) 0) =
      if ((off <=? j) && (j <? off + Z.to_nat (AM + BM - 1)))%nat
      then nadd (n:=EN) (nth j Y0 (nofZ 0)) (Some (c k (j - off)%nat)) else nth j Y0 (nofZ 0) in
    forall fuel s, loc_ok p s -> length (o_Y s) = length Y0 -> 0 <= o_k s ->
      o_ap s = ap0 + Z.min (o_k s) AM ->
      Ych (Z.to_nat (o_k s)) (o_Y s) -> AM - o_k s <= Z.of_nat fuel ->
      exists s', while fuel (fun s => (o_k s <? AM)%Z)
           (fun s => do s' <- ola_block p M bl bo cm_equ n s; Ok (Go s')) s = Ok (@Go _ (ola_st (N:=EN)) s') /\
        loc_ok p s' /\ length (o_Y s') = length Y0 /\ o_ap s' = ap0 + AM /\ Ych (Z.to_nat AM) (o_Y s').
  Proof.
    intros Hn Hap0 Hap HA Hbo HB HY c off Ych.
    assert (Hpos : 0 <= n * (AM + BM - 1)) by nia.
    induction fuel as [|fuel IH]; intros s Hl LY Hk Eap HYc Hf; cbn [while].
    - replace (o_k s <? AM)%Z with false by lia. exists s. split; [reflexivity|]. split; [exact Hl|]. split; [exact LY|].
      split; [lia|]. intros j. rewrite (HYc j). unfold c.
      rewrite !firstn_all2 by (rewrite length_slice by nia; lia). reflexivity.
    - destruct (o_k s <? AM)%Z eqn:Ek.
      + assert (Hapx : o_k s + bl < AM -> o_ap s = n * AM + o_k s) by (intros; destruct Hap as [->| ->]; lia).
        destruct (ola_block_spec p M bl bo cm_equ n s p_ok p_len Hl) as (s' & E & Hl' & Ek' & Eap' & LY' & Ny & NY);
          cbn [M m_AM m_BM m_A m_B]; rewrite ?length_reals; try lia; try nia.
        rewrite E. cbn [bind]. cbn [M m_AM m_BM m_A m_B] in Eap', Ny, NY.
        apply IH; auto; try lia.
        intros j. rewrite NY. clear NY. rewrite p_len in *.
        assert (Hoff : Z.to_nat (n * (AM + BM - 1) + o_k s) = (off + Z.to_nat (o_k s))%nat) by (unfold off; lia).
        rewrite Hoff. replace (Z.to_nat ((n + 1) * (AM + BM - 1))) with (off + Z.to_nat (AM + BM - 1))%nat by (unfold off; nia).
        rewrite (HYc j). rewrite Ek'. replace (Z.to_nat (o_k s + bl)) with (Z.to_nat (o_k s) + Z.to_nat bl)%nat by lia.
        set (kn := Z.to_nat (o_k s)) in *.
        destruct ((off <=? j) && (j <? off + Z.to_nat (AM + BM - 1)))%nat eqn:Ej.
        * unfold c. rewrite cauchy_split.
          destruct ((off + kn <=? j) && (j <? off + kn + Z.to_nat (bl + BM - 1)) && (j <? off + Z.to_nat (AM + BM - 1)))%nat eqn:Ei.
          -- rewrite Ny by lia. cbn [comb]. rewrite (block_product n (o_k s) (o_ap s) bo) by lia.
             replace (kn <=? j - off)%nat with true by lia.
             replace (j - (off + kn))%nat with (j - off - kn)%nat by lia. apply eadd_assoc.
          -- replace (if (kn <=? j - off)%nat then _ else _) with 0%R; [now rewrite Rplus_0_r|].
             destruct (kn <=? j - off)%nat eqn:Ekj; [|reflexivity]. symmetry. apply cauchy_out.
             ++ rewrite firstn_length, skipn_length, length_slice by nia. lia.
             ++ rewrite firstn_length, skipn_length, !length_slice by nia. lia.
        * replace (_ && _ && _) with false by lia. reflexivity.
      + exists s. split; [reflexivity|]. split; [exact Hl|]. split; [exact LY|]. split; [lia|].
        intros j. rewrite (HYc j). unfold c.
        rewrite !firstn_all2 by (rewrite length_slice by nia; lia). reflexivity.
  Qed.
End Exact.

(** ** A column, and a worker's pointer *)
Section Columns.
  Context {N : Num}.
  Local Notation buf := (list N).
  Variables (p : fft_plan N) (M : mats N) (bl : Z) (mode : ConvMode).
  Hypothesis Hp : plan_ok p.
  Hypothesis Hlen : fp_len p = bl + m_BM M - 1.
  Hypothesis Hbl : 1 <= bl <= m_AM M.
  Hypothesis HBM : 1 <= m_BM M.

  (** A column does not go wrong as long as the pointer stays inside A, and
      moves it by A_M. *)
  Lemma ola_while_ok n bo :
    0 <= n -> 0 <= bo -> bo + m_BM M <= Z.of_nat (length (m_B M)) ->
    (n + 1) * m_AM M <= Z.of_nat (length (m_A M)) ->
    forall fuel s, loc_ok p s -> (n + 1) * (m_AM M + m_BM M - 1) <= Z.of_nat (length (o_Y s)) ->
      0 <= o_k s -> 0 <= o_ap s -> o_ap s + (m_AM M - o_k s) <= Z.of_nat (length (m_A M)) ->
      m_AM M - o_k s <= Z.of_nat fuel ->
      exists s', while fuel (fun s => (o_k s <? m_AM M)%Z)
           (fun s => do s' <- ola_block p M bl bo mode n s; Ok (Go s')) s = Ok (@Go _ (ola_st (N:=N)) s') /\
        loc_ok p s' /\ length (o_Y s') = length (o_Y s) /\ o_ap s' = o_ap s + Z.max 0 (m_AM M - o_k s).
  Proof.
    intros Hn Hbo HB HA. induction fuel as [|fuel IH]; intros s Hl HY Hk Hap0 Hap Hf; cbn [while].
    - replace (o_k s <? m_AM M)%Z with false by lia. exists s. split; [reflexivity|]. split; [exact Hl|]. split; [reflexivity|]. lia.
    - destruct (o_k s <? m_AM M)%Z eqn:Ek.
      + destruct (ola_block_spec p M bl bo mode n s Hp Hlen Hl) as (s' & E & Hl' & Ek' & Eap' & LY' & _); try lia.
        rewrite E. cbn [bind].
        destruct (IH s') as (s2 & E2 & Hl2 & LY2 & Eap2); auto; try lia.
        exists s2. split; [exact E2|]. split; [exact Hl2|]. split; [congruence|]. lia.
      + exists s. split; [reflexivity|]. split; [exact Hl|]. split; [reflexivity|]. lia.
  Qed.

  Definition arrays_ok (s : scratch N) (y ab : buf) : Prop :=
    scratch_ok (fp_len p) s /\ length y = Z.to_nat (fp_len p) /\ length ab = Z.to_nat (fp_len p).
  Definition b_off (n : Z) : Z := if (1 <? m_BN M)%Z then (n * m_BM M)%Z else 0%Z.

  Lemma ola_column_ok fuel n ap0 s y ab Y :
    0 <= n -> arrays_ok s y ab -> b_off n + m_BM M <= Z.of_nat (length (m_B M)) ->
    (n + 1) * m_AM M <= Z.of_nat (length (m_A M)) -> (n + 1) * (m_AM M + m_BM M - 1) <= Z.of_nat (length Y) ->
    0 <= ap0 -> ap0 + m_AM M <= Z.of_nat (length (m_A M)) -> m_AM M <= Z.of_nat fuel ->
    exists s' y' ab' Y', ola_column fuel p M bl mode n ap0 s y ab Y =
        Ok (ap0 + (if (1 <? m_BN M)%Z then m_AM M else 2 * m_AM M), s', y', ab', Y') /\
      arrays_ok s' y' ab' /\ length Y' = length Y.
  Proof.
    intros Hn (H1 & H2 & H3) HB HA HY Hap0 Hap Hf. unfold ola_column. fold (b_off n).
    destruct (ola_while_ok n (b_off n) Hn) with (fuel := fuel)
      (s := {| o_k := 0; o_ap := ap0; o_s := s; o_y := y; o_ab := ab; o_Y := Y |}) as (s' & E & (L1 & L2 & L3) & LY & Eap);
      cbn [o_k o_ap o_s o_y o_ab o_Y]; try lia; auto.
    { unfold b_off. destruct (1 <? m_BN M)%Z; nia. }
    { repeat split; auto; apply H1. }
    rewrite E. cbn [bind]. cbn [o_k o_ap o_Y] in Eap, LY.
    exists (o_s s'), (o_y s'), (o_ab s'), (o_Y s'). split.
    - rewrite Eap. replace (ap0 + Z.max 0 (m_AM M - 0)) with (ap0 + m_AM M) by lia.
      destruct (1 <? m_BN M)%Z; [reflexivity|]. replace (ap0 + m_AM M + m_AM M) with (ap0 + 2 * m_AM M) by lia. reflexivity.
    - split; [|exact LY]. repeat split; auto; apply L1.
  Qed.

  (** A pointer at or beyond the end of A, block shorter than the column: the
      first block reads outside A. *)
  Lemma ola_column_oob fuel n ap0 s y ab Y :
    bl < m_AM M -> Z.of_nat (length (m_A M)) <= ap0 -> m_AM M <= Z.of_nat fuel ->
    ola_column fuel p M bl mode n ap0 s y ab Y = UB UB_oob_read.
  Proof.
    intros Hlt Hap Hf. unfold ola_column. destruct fuel as [|fuel]; [lia|]. cbn [while o_k].
    replace (0 <? m_AM M) with true by lia. unfold ola_block. cbn [o_k o_ap]. replace (0 + bl <? m_AM M) with true by lia.
    unfold fftconv, copy_in, for_loop. destruct (Z.to_nat bl) as [|m] eqn:Em; [lia|]. cbn [for_from].
    unfold buf_get at 1. unfold in_range. replace ((0 <=? ap0 + 0) && (ap0 + 0 <? Z.of_nat (length (m_A M)))) with false by lia.
    reflexivity.
  Qed.

  (** The pointer of an uninterrupted worker at column n is [ola_ap]. *)
  Lemma ola_worker_ap fuel cs m s y ab Y :
    0 <= cs -> (cs + m) * m_AM M <= Z.of_nat (length (m_A M)) -> (cs + m) * (m_AM M + m_BM M - 1) <= Z.of_nat (length Y) ->
    0 <= m -> arrays_ok s y ab -> m_AM M <= Z.of_nat fuel ->
    (forall n, cs <= n < cs + m -> b_off n + m_BM M <= Z.of_nat (length (m_B M))) ->
    (forall n, cs <= n < cs + m -> ola_ap M cs n + m_AM M <= Z.of_nat (length (m_A M))) ->
    exists s' y' ab' Y', ola_worker fuel p M bl mode cs (cs + m) s y ab Y = Ok (ola_ap M cs (cs + m), s', y', ab', Y') /\
      arrays_ok s' y' ab' /\ length Y' = length Y.
  Proof.
    intros Hcs HA HY Hm Hs Hf HB Hap. unfold ola_worker. replace (cs + m - cs) with m by lia.
    edestruct (for_inv (S := Z * scratch N * buf * buf * buf) (fun j st => let '(ap, s, y, ab, Y') := st in
       ap = ola_ap M cs (cs + Z.of_nat j) /\ arrays_ok s y ab /\ length Y' = length Y) m
       (fun i st => let '(ap, s, y, ab, Y) := st in ola_column fuel p M bl mode (cs + i) ap s y ab Y)
       ((cs * m_AM M)%Z, s, y, ab, Y)) as ((((( ap & s') & y') & ab') & Y') & E & HI).
    - split; [|split; [exact Hs|reflexivity]]. unfold ola_ap. destruct (1 <? m_BN M)%Z; f_equal; lia.
    - intros j ((((ap & s1) & y1) & ab1) & Y1) Hj (-> & Hs1 & L1).
      assert (Hj' : cs <= cs + Z.of_nat j < cs + m) by lia.
      destruct (ola_column_ok fuel (cs + Z.of_nat j) (ola_ap M cs (cs + Z.of_nat j)) s1 y1 ab1 Y1) as (s2 & y2 & ab2 & Y2 & E2 & Hs2 & L2);
        auto; try lia.
      + nia.
      + rewrite L1. nia.
      + unfold ola_ap. destruct (1 <? m_BN M)%Z; nia.
      + eexists. split; [exact E2|]. split; [|split; [exact Hs2|congruence]].
        unfold ola_ap. destruct (1 <? m_BN M)%Z; lia.
    - rewrite E. destruct HI as (-> & Hs' & L'). rewrite Z2Nat.id by lia. eauto 8.
  Qed.

  Lemma for_from_app {S} (body : Z -> S -> res S) : forall m1 m2 i s,
    for_from i (m1 + m2) body s = bind (for_from i m1 body s) (for_from (i + Z.of_nat m1) m2 body).
  Proof.
    induction m1 as [|m1 IH]; intros m2 i s.
    - cbn [Nat.add for_from bind]. f_equal. lia.
    - cbn [Nat.add for_from]. destruct (body i s) as [s'|u|]; cbn [bind]; auto.
      rewrite IH. destruct (for_from (i + 1) m1 body s'); cbn [bind]; auto. f_equal. lia.
  Qed.

  (** One worker, vector B, at least two columns, a block shorter than a
      column: the call reads outside A. *)
  Lemma ola_worker_vector_oob fuel AN s y ab Y :
    m_BN M = 1 -> 2 <= AN -> bl < m_AM M -> Z.of_nat (length (m_A M)) = AN * m_AM M ->
    m_BM M <= Z.of_nat (length (m_B M)) -> AN * (m_AM M + m_BM M - 1) <= Z.of_nat (length Y) ->
    arrays_ok s y ab -> m_AM M <= Z.of_nat fuel ->
    ola_worker fuel p M bl mode 0 AN s y ab Y = UB UB_oob_read.
  Proof.
    intros HBN HAN Hlt LA LB LY Hs Hf.
    set (m := (AN + 1) / 2).
    assert (Hm : 1 <= m < AN /\ AN <= 2 * m <= AN + 1) by (unfold m; lia).
    destruct (ola_worker_ap fuel 0 m s y ab Y) as (s' & y' & ab' & Y' & E & Hs' & L'); auto; try lia.
    - nia.
    - nia.
    - intros n Hn. unfold b_off. rewrite HBN. cbn. lia.
    - intros n Hn. unfold ola_ap. rewrite HBN. change (1 <? 1) with false. cbv iota. rewrite LA.
      assert (2 * n + 1 <= AN) by lia. nia.
    - unfold ola_worker in E |- *. unfold for_loop in E |- *.
      replace (Z.to_nat (AN - 0)) with (Z.to_nat (0 + m - 0) + (1 + Z.to_nat (AN - m - 1)))%nat by lia.
      rewrite for_from_app, E. cbn [bind]. cbn [Nat.add for_from].
      rewrite ola_column_oob; [reflexivity|exact Hlt| |exact Hf].
      unfold ola_ap. rewrite HBN. change (1 <? 1) with false. cbv iota. rewrite LA. nia.
  Qed.
End Columns.

(** Block length 0: the copy of B overruns the scratch array. *)
Lemma ola_block0 {N : Num} fuel (p : fft_plan N) (M : mats N) mode n ap0 s y ab Y :
  1 <= m_AM M -> 1 <= m_BM M -> scratch_ok (0 + m_BM M - 1) s -> 0 <= n ->
  b_off M n + m_BM M <= Z.of_nat (length (m_B M)) -> (1 <= fuel)%nat ->
  ola_column fuel p M 0 mode n ap0 s y ab Y = UB UB_oob_write.
Proof.
  intros HA HB (S1 & S2 & _) Hn Hb Hf. unfold ola_column. fold (b_off M n). destruct fuel as [|fuel]; [lia|]. cbn [while o_k].
  replace (0 <? m_AM M) with true by lia. unfold ola_block. cbn [o_k o_ap o_s]. replace (0 + 0 <? m_AM M) with true by lia.
  unfold fftconv.
  destruct (copy_in_spec (m_A M) (Z.of_nat (length (m_A M))) 0 (s_a s)) as (a1 & E1 & L1 & _); try lia.
  replace (copy_in (m_A M) ap0 0 (s_a s)) with (Ok (s_a s)) by reflexivity. cbn [bind].
  destruct (zero_pad_spec 0 (0 + m_BM M - 1) (s_a s)) as (a2 & E2 & L2 & _); try lia. rewrite E2. cbn [bind].
  assert (Hb0 : 0 <= b_off M n) by (unfold b_off; destruct (1 <? m_BN M)%Z; nia).
  destruct (copy_in_spec (m_B M) (b_off M n) (m_BM M - 1) (s_b s)) as (b1 & E3 & L3 & _); try lia.
  assert (E4 : copy_in (m_B M) (b_off M n) (m_BM M) (s_b s) = UB UB_oob_write).
  { unfold copy_in, for_loop in E3 |- *.
    replace (Z.to_nat (m_BM M)) with (Z.to_nat (m_BM M - 1) + 1)%nat by lia. rewrite for_from_app, E3. cbn [bind for_from].
    rewrite (get_nth _ _ (nofZ 0)) by lia. cbn [bind]. unfold buf_upd, in_range.
    replace (_ && _) with false by lia. reflexivity. }
  rewrite E4. reflexivity.
Qed.
