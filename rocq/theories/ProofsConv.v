(** ProofsConv.v - the convolution kernels, any arithmetic. *)
From Verif Require Import Base BaseLemmas ModelSir ModelConv NumR SpecDft SpecConv ProofsLoop.
From Coq Require Import ZifyBool ZifyNat.
Ltac Zify.zify_post_hook ::= Z.div_mod_to_equations.

Lemma nth_skipn {A} (l : list A) d : forall off k, nth k (skipn off l) d = nth (off + k) l d.
Proof.
  induction l as [|x t IH]; intros off k; destruct off; cbn [skipn Nat.add]; auto.
  - destruct k; reflexivity.
  - cbn [nth]. apply IH.
Qed.
Lemma nth_firstn {A} (l : list A) d : forall n k, nth k (firstn n l) d = if (k <? n)%nat then nth k l d else d.
Proof.
  induction l as [|x t IH]; intros n k.
  - rewrite firstn_nil. destruct k; cbn [nth]; match goal with |- context [if ?b then _ else _] => destruct b end; reflexivity.
  - destruct n as [|n]; [destruct k; reflexivity|]. destruct k as [|k]; [reflexivity|]. cbn [firstn nth]. rewrite IH. reflexivity.
Qed.
Lemma nth_slice {A} (l : list A) d off len k : nth k (slice off len l) d =
  if (k <? Z.to_nat len)%nat then nth (Z.to_nat off + k) l d else d.
Proof. unfold slice. rewrite nth_firstn, nth_skipn. reflexivity. Qed.
Lemma length_slice {A} (l : list A) off len : 0 <= off -> 0 <= len -> off + len <= Z.of_nat (length l) ->
  length (slice off len l) = Z.to_nat len.
Proof. intros. unfold slice. rewrite firstn_length, skipn_length. lia. Qed.

Section Any.
  Context {N : Num}.
  Local Notation buf := (list N).

  Lemma slice_get (x : buf) xo nx i : 0 <= xo -> xo + nx <= Z.of_nat (length x) -> 0 <= i < nx ->
    buf_get x (xo + i) = Ok (nth (Z.to_nat i) (slice xo nx x) (nofZ 0)).
  Proof.
    intros H1 H2 Hi. rewrite (get_nth x (xo + i) (nofZ 0)) by lia. f_equal. rewrite nth_slice.
    replace (_ <? _)%nat with true by lia. f_equal. lia.
  Qed.

  (** ** conv *)
  Definition cauchy_upto (op : N -> N -> N) (x y : buf) (k m : nat) (v0 : N) : N :=
    fold_left (fun acc i => op acc (nmul (nth i x (nofZ 0)) (nth (k - i) y (nofZ 0))))
      (filter (fun i => (i <=? k) && (k - i <? length y))%nat (seq 0 m)) v0.

  Lemma conv_spec (x : buf) xo nx (y : buf) yo ny mode zo (z : buf) :
    0 <= nx -> 0 <= ny -> 1 <= nx + ny -> 0 <= xo -> 0 <= yo -> 0 <= zo ->
    xo + nx <= Z.of_nat (length x) -> yo + ny <= Z.of_nat (length y) -> zo + (nx + ny - 1) <= Z.of_nat (length z) ->
    exists z', conv x xo nx y yo ny mode zo z = Ok z' /\ length z' = length z /\
      forall j, nth j z' (nofZ 0) =
        if ((Z.to_nat zo <=? j) && (j <? Z.to_nat zo + Z.to_nat (nx + ny - 1)))%nat
        then conv_sample mode (slice xo nx x) (slice yo ny y) (nth j z (nofZ 0)) (j - Z.to_nat zo)
        else nth j z (nofZ 0).
  Proof.
    intros Hnx Hny Hn1 Hxo Hyo Hzo Hx Hy Hz. unfold conv.
    set (xs := slice xo nx x). set (ys := slice yo ny y).
    assert (Lx : length xs = Z.to_nat nx) by (apply length_slice; lia).
    assert (Ly : length ys = Z.to_nat ny) by (apply length_slice; lia).
    (* clearing *)
    set (inr := fun j => ((Z.to_nat zo <=? j) && (j <? Z.to_nat zo + Z.to_nat (nx + ny - 1)))%nat).
    assert (HC : exists z1, (match mode with
             | cm_equ => for_loop (nx + ny - 1) (fun i z => buf_upd z (zo + i)%Z (fun _ => nofZ 0)) z
             | _ => Ok z end) = Ok z1 /\ length z1 = length z /\
             forall j, nth j z1 (nofZ 0) = if inr j then (match mode with cm_equ => nofZ 0 | _ => nth j z (nofZ 0) end) else nth j z (nofZ 0)).
    { destruct mode.
      - destruct (for_upd (nofZ 0) (Z.to_nat zo) (nx + ny - 1) (fun i z => buf_upd z (zo + i)%Z (fun _ => nofZ 0)) (fun _ _ => nofZ 0) z) as (z1 & E & L & Hn).
        + lia.
        + intros j h Hj Hh. rewrite buf_upd_ok by lia. do 2 f_equal. lia.
        + exists z1. split; [exact E|]. split; [exact L|]. exact Hn.
      - exists z. split; [reflexivity|]. split; [reflexivity|]. intros j. destruct (inr j); reflexivity.
      - exists z. split; [reflexivity|]. split; [reflexivity|]. intros j. destruct (inr j); reflexivity. }
    destruct HC as (z1 & -> & L1 & H1). cbn [bind].
    set (op := match mode with cm_neg => nsub | _ => nadd end : N -> N -> N).
    destruct (for_inv (fun m (s : buf) => length s = length z /\ forall j, nth j s (nofZ 0) =
        if inr j then cauchy_upto op xs ys (j - Z.to_nat zo) m (nth j z1 (nofZ 0)) else nth j z1 (nofZ 0)) nx
      (fun i z => for_loop ny (fun j z => do xi <- buf_get x (xo + i)%Z; do yj <- buf_get y (yo + j)%Z;
          buf_upd z (zo + (i + j))%Z (fun v => match mode with cm_neg => nsub v (nmul xi yj) | _ => nadd v (nmul xi yj) end)) z) z1)
      as (z' & E & L' & H').
    - split; [exact L1|]. intros j. destruct (inr j); reflexivity.
    - intros i s Hi (Ls & Hs).
      destruct (for_upd (nofZ 0) (Z.to_nat zo + i) ny
        (fun j z => do xi <- buf_get x (xo + Z.of_nat i)%Z; do yj <- buf_get y (yo + j)%Z;
          buf_upd z (zo + (Z.of_nat i + j))%Z (fun v => match mode with cm_neg => nsub v (nmul xi yj) | _ => nadd v (nmul xi yj) end))
        (fun j v => op v (nmul (nth i xs (nofZ 0)) (nth j ys (nofZ 0)))) s) as (s' & E & L' & Hn).
      + lia.
      + intros j h Hj Hh. rewrite (slice_get x xo nx) by lia. cbn [bind]. rewrite (slice_get y yo ny) by lia. cbn [bind].
        rewrite buf_upd_ok by lia. rewrite !Nat2Z.id. fold xs ys. f_equal.
        replace (Z.to_nat (zo + (Z.of_nat i + Z.of_nat j))) with (Z.to_nat zo + i + j)%nat by lia.
        unfold op. destruct mode; reflexivity.
      + exists s'. split; [exact E|]. split; [lia|]. intros j. rewrite Hn, Hs. clear Hn E Hs.
        destruct (inr j) eqn:Ej; unfold inr in Ej.
        * unfold cauchy_upto. rewrite seq_S, filter_app, fold_left_app. cbn [filter Nat.add].
          destruct ((Z.to_nat zo + i <=? j) && (j <? Z.to_nat zo + i + Z.to_nat ny))%nat eqn:E2.
          -- replace ((i <=? j - Z.to_nat zo)%nat && (j - Z.to_nat zo - i <? length ys)%nat) with true by lia.
             cbn [fold_left]. replace (j - (Z.to_nat zo + i))%nat with (j - Z.to_nat zo - i)%nat by lia. reflexivity.
          -- replace ((i <=? j - Z.to_nat zo)%nat && (j - Z.to_nat zo - i <? length ys)%nat) with false by lia.
             reflexivity.
        * replace ((Z.to_nat zo + i <=? j) && (j <? Z.to_nat zo + i + Z.to_nat ny))%nat with false by lia. reflexivity.
    - exists z'. split; [exact E|]. split; [exact L'|]. intros j. rewrite H', H1. fold (inr j).
      destruct (inr j); [|reflexivity]. unfold cauchy_upto, conv_sample, cauchy_from. rewrite <- Lx.
      destruct mode; reflexivity.
  Qed.

  (** ** Copy and zero-pad *)
  Lemma copy_in_spec (s : buf) so m (d : buf) : 0 <= so -> 0 <= m -> so + m <= Z.of_nat (length s) -> m <= Z.of_nat (length d) ->
    exists d', copy_in s so m d = Ok d' /\ length d' = length d /\
      forall j, nth j d' (nofZ 0) = if (j <? Z.to_nat m)%nat then nth j (slice so m s) (nofZ 0) else nth j d (nofZ 0).
  Proof.
    intros H1 H2 H3 H4. unfold copy_in.
    destruct (for_upd (nofZ 0) 0 m (fun n d => do v <- buf_get s (so + n)%Z; buf_upd d n (fun _ => v))
      (fun j _ => nth j (slice so m s) (nofZ 0)) d) as (d' & E & L & Hn).
    - lia.
    - intros j h Hj Hh. rewrite (slice_get s so m) by lia. cbn [bind]. rewrite buf_upd_ok by lia. rewrite Nat2Z.id. reflexivity.
    - exists d'. split; [exact E|]. split; [exact L|]. intros j. rewrite Hn. cbn [Nat.add]. rewrite Nat.sub_0_r.
      replace (0 <=? j)%nat with true by lia. reflexivity.
  Qed.
  Lemma zero_pad_spec m len (d : buf) : 0 <= m -> len <= Z.of_nat (length d) ->
    exists d', zero_pad m len d = Ok d' /\ length d' = length d /\
      forall j, nth j d' (nofZ 0) = if ((Z.to_nat m <=? j) && (j <? Z.to_nat len))%nat then nofZ 0 else nth j d (nofZ 0).
  Proof.
    intros H1 H2. unfold zero_pad. destruct (Z_le_gt_dec len m) as [Hle|Hgt].
    - exists d. unfold for_loop. replace (Z.to_nat (len - m)) with O by lia. split; [reflexivity|]. split; [reflexivity|].
      intros j. replace (_ && _) with false by lia. reflexivity.
    - destruct (for_upd (nofZ 0) (Z.to_nat m) (len - m) (fun n d => buf_upd d (m + n)%Z (fun _ => nofZ 0)) (fun _ _ => nofZ 0) d)
        as (d' & E & L & Hn).
      + lia.
      + intros j h Hj Hh. rewrite buf_upd_ok by lia. do 2 f_equal. lia.
      + exists d'. split; [exact E|]. split; [exact L|]. intros j. rewrite Hn.
        replace (Z.to_nat m + Z.to_nat (len - m))%nat with (Z.to_nat len) by lia. reflexivity.
  Qed.

  Lemma length_pad len (x : buf) : Z.of_nat (length x) <= len -> length (pad len x) = Z.to_nat len.
  Proof. intros H. unfold pad. rewrite app_length, repeat_length. lia. Qed.
  Lemma nth_pad len (x : buf) j : nth j (pad len x) (nofZ 0) = nth j x (nofZ 0).
  Proof.
    unfold pad. destruct (Nat.lt_ge_cases j (length x)) as [H|H].
    - now rewrite app_nth1.
    - rewrite app_nth2, nth_repeat, nth_overflow by lia. reflexivity.
  Qed.

  (** Copy a slice and pad it: the buffer is the padded slice. *)
  Lemma load_spec (s : buf) so m len (d : buf) : 0 <= so -> 0 <= m -> m <= len -> so + m <= Z.of_nat (length s) ->
    length d = Z.to_nat len ->
    (do d <- copy_in s so m d; zero_pad m len d) = Ok (pad len (slice so m s)).
  Proof.
    intros H1 H2 H3 H4 H5.
    destruct (copy_in_spec s so m d H1 H2 H4 ltac:(lia)) as (d1 & -> & L1 & N1). cbn [bind].
    destruct (zero_pad_spec m len d1 H2 ltac:(lia)) as (d2 & -> & L2 & N2). f_equal.
    assert (Ls : length (slice so m s) = Z.to_nat m) by (apply length_slice; lia).
    apply (nth_ext_len (nofZ 0)).
    - rewrite length_pad by lia. lia.
    - intros k Hk. rewrite N2, N1, nth_pad.
      destruct ((Z.to_nat m <=? k) && (k <? Z.to_nat len))%nat eqn:E.
      + rewrite nth_overflow by lia. reflexivity.
      + replace (k <? Z.to_nat m)%nat with true by lia. reflexivity.
  Qed.

  (** ** fft / ifft *)
  Lemma fft_spec (p : fft_plan N) x yc : plan_ok p -> length x = Z.to_nat (fp_len p) -> length yc = Z.to_nat (fp_len p) ->
    exists yc', fft p x yc = Ok yc' /\ length yc' = length yc /\ firstn (half p) yc' = fp_r2c p x.
  Proof.
    intros Hp Hx Hy. pose proof (po_len p Hp) as Hlen. unfold fft.
    assert (Hh : (half p <= Z.to_nat (fp_len p))%nat \/ fp_len p = 0) by (unfold half; lia).
    assert (Hh2 : (half p <= Z.to_nat (fp_len p))%nat) by lia.
    replace (_ <=? length x)%nat with true by lia. replace (_ <=? length yc)%nat with true by lia.
    rewrite <- Hx, firstn_all. pose proof (po_r2c p Hp x Hx) as L.
    eexists. split; [reflexivity|]. split.
    - rewrite app_length, skipn_length, L. lia.
    - rewrite <- L, firstn_app, firstn_all, Nat.sub_diag. cbn [firstn]. now rewrite app_nil_r.
  Qed.

  Lemma ifft_spec (p : fft_plan N) xc y : plan_ok p -> length xc = Z.to_nat (fp_len p) -> length y = Z.to_nat (fp_len p) ->
    ifft p xc y = Ok (fp_trash p xc, map (fun v => ndiv v (nofZ (fp_len p))) (fp_c2r p (firstn (half p) xc))).
  Proof.
    intros Hp Hx Hy. pose proof (po_len p Hp) as Hlen. unfold ifft.
    assert (Hh2 : (half p <= Z.to_nat (fp_len p))%nat) by (unfold half; lia).
    replace (_ <=? length xc)%nat with true by lia. replace (_ <=? length y)%nat with true by lia.
    assert (Lh : length (firstn (half p) xc) = half p) by (rewrite firstn_length; lia).
    pose proof (po_c2r p Hp _ Lh) as L.
    rewrite <- Hy, skipn_all, app_nil_r.
    destruct (for_upd (nofZ 0) 0 (fp_len p) (fun k y => buf_upd y k (fun v => ndiv v (nofZ (fp_len p))))
      (fun _ v => ndiv v (nofZ (fp_len p))) (fp_c2r p (firstn (half p) xc))) as (c & E & L2 & Hn).
    - lia.
    - intros j h Hj Hh. rewrite buf_upd_ok by lia. rewrite Nat2Z.id. reflexivity.
    - rewrite E. cbn [bind]. do 2 f_equal. apply (nth_ext_len (nofZ 0)).
      + now rewrite map_length.
      + intros k Hk. rewrite Hn. cbn [Nat.add Nat.leb andb]. replace (_ <? _)%nat with true by lia.
        rewrite (nth_indep (map (fun v => ndiv v (nofZ (fp_len p))) (fp_c2r p (firstn (half p) xc))) (nofZ 0) (ndiv (nofZ 0) (nofZ (fp_len p))))
          by (rewrite map_length; lia).
        now rewrite (map_nth (fun v => ndiv v (nofZ (fp_len p)))).
  Qed.

  Lemma store_spec mode len (c : buf) zo (z : buf) : 0 <= len -> 0 <= zo -> len <= Z.of_nat (length c) -> zo + len <= Z.of_nat (length z) ->
    exists z', store mode len c zo z = Ok z' /\ length z' = length z /\
      forall j, nth j z' (nofZ 0) =
        if ((Z.to_nat zo <=? j) && (j <? Z.to_nat zo + Z.to_nat len))%nat
        then comb mode (nth j z (nofZ 0)) (nth (j - Z.to_nat zo) c (nofZ 0)) else nth j z (nofZ 0).
  Proof.
    intros H1 H2 H3 H4. unfold store.
    destruct (for_upd (nofZ 0) (Z.to_nat zo) len (fun n z => do cn <- buf_get c n;
      buf_upd z (zo + n)%Z (fun v => match mode with cm_sum => nadd v cn | cm_neg => nsub v cn | cm_equ => cn end))
      (fun j v => comb mode v (nth j c (nofZ 0))) z) as (z' & E & L & Hn).
    - lia.
    - intros j h Hj Hh. rewrite (get_nth c (Z.of_nat j) (nofZ 0)) by lia. cbn [bind].
      rewrite buf_upd_ok by lia. rewrite Nat2Z.id. f_equal.
      replace (Z.to_nat (zo + Z.of_nat j)) with (Z.to_nat zo + j)%nat by lia. unfold comb. destruct mode; reflexivity.
    - exists z'. split; [exact E|]. split; [exact L|]. exact Hn.
  Qed.

  Lemma nth_combine_half (p : fft_plan N) (u v : list (N * N)) k (d : N * N) : (k < length u)%nat -> (k < length v)%nat ->
    nth k (map (fun uv => cmul (fst uv) (snd uv)) (combine u v)) d = cmul (nth k u d) (nth k v d).
  Proof.
    revert v k; induction u as [|a u IH]; intros [|b v] [|k] H1 H2; cbn in *; try lia; auto.
    apply IH; lia.
  Qed.

  (** The whole product: multiply the spectra (all bins), transform back. *)
  Lemma fftconv_spec (p : fft_plan N) (x : buf) xo nx (y : buf) yo ny mode zo s (z : buf) :
    plan_ok p -> fp_len p = nx + ny - 1 -> scratch_ok (fp_len p) s ->
    1 <= nx -> 1 <= ny -> 0 <= xo -> 0 <= yo -> 0 <= zo ->
    xo + nx <= Z.of_nat (length x) -> yo + ny <= Z.of_nat (length y) -> zo + (nx + ny - 1) <= Z.of_nat (length z) ->
    exists s' z', fftconv p x xo nx y yo ny mode zo s z = Ok (s', z') /\ scratch_ok (fp_len p) s' /\ length z' = length z /\
      forall j, nth j z' (nofZ 0) =
        if ((Z.to_nat zo <=? j) && (j <? Z.to_nat zo + Z.to_nat (nx + ny - 1)))%nat
        then comb mode (nth j z (nofZ 0)) (nth (j - Z.to_nat zo) (fft_product p (slice xo nx x) (slice yo ny y)) (nofZ 0))
        else nth j z (nofZ 0).
  Proof.
    intros Hp Hlen (S1 & S2 & S3 & S4 & S5 & S6) Hnx Hny Hxo Hyo Hzo Hx Hy Hz. unfold fftconv. rewrite <- Hlen.
    pose proof (load_spec x xo nx (fp_len p) (s_a s) Hxo ltac:(lia) ltac:(lia) Hx S1) as Ea.
    pose proof (load_spec y yo ny (fp_len p) (s_b s) Hyo ltac:(lia) ltac:(lia) Hy S2) as Eb.
    destruct (copy_in x xo nx (s_a s)) as [a0|u|] eqn:Ea0; cbn [bind] in Ea |- *; try discriminate Ea. rewrite Ea. cbn [bind].
    destruct (copy_in y yo ny (s_b s)) as [b0|u|] eqn:Eb0; cbn [bind] in Eb |- *; try discriminate Eb. rewrite Eb. cbn [bind].
    set (xs := slice xo nx x) in *. set (ys := slice yo ny y) in *.
    assert (Lx : length xs = Z.to_nat nx) by (apply length_slice; lia).
    assert (Ly : length ys = Z.to_nat ny) by (apply length_slice; lia).
    assert (La : length (pad (fp_len p) xs) = Z.to_nat (fp_len p)) by (apply length_pad; lia).
    assert (Lb : length (pad (fp_len p) ys) = Z.to_nat (fp_len p)) by (apply length_pad; lia).
    destruct (fft_spec p _ (s_af s) Hp La S4) as (af & -> & Laf & Faf). cbn [bind].
    destruct (fft_spec p _ (s_bf s) Hp Lb S5) as (bf & -> & Lbf & Fbf). cbn [bind].
    set (d0 := (nofZ 0, nofZ 0) : N * N).
    destruct (for_upd d0 0 (fp_len p) (fun n cf => do u <- buf_get af n; do v <- buf_get bf n; buf_upd cf n (fun _ => cmul u v))
      (fun j _ => cmul (nth j af d0) (nth j bf d0)) (s_cf s)) as (cf & -> & Lcf & Ncf).
    { lia. }
    { intros j h Hj Hh. rewrite (get_nth af (Z.of_nat j) d0), (get_nth bf (Z.of_nat j) d0) by lia. cbn [bind].
      rewrite buf_upd_ok by lia. rewrite Nat2Z.id. reflexivity. }
    cbn [bind]. rewrite (ifft_spec p cf (s_c s) Hp) by lia. cbn [bind].
    assert (Ecf : firstn (half p) cf = map (fun uv => cmul (fst uv) (snd uv)) (combine (fp_r2c p (pad (fp_len p) xs)) (fp_r2c p (pad (fp_len p) ys)))).
    { pose proof (po_r2c p Hp _ La) as L1. pose proof (po_r2c p Hp _ Lb) as L2.
      assert (Hh2 : (half p <= Z.to_nat (fp_len p))%nat) by (unfold half; lia).
      apply (nth_ext_len d0).
      - rewrite firstn_length, map_length, combine_length. lia.
      - intros k Hk. rewrite firstn_length in Hk. rewrite nth_combine_half by (auto; lia).
        rewrite <- Faf, <- Fbf, !nth_firstn. replace (_ <? half p)%nat with true by lia.
        rewrite Ncf. cbn [Nat.add]. rewrite Nat.sub_0_r. replace (_ && _) with true by lia. reflexivity. }
    rewrite Ecf. fold (fft_product p xs ys).
    assert (Lc : length (fft_product p xs ys) = Z.to_nat (fp_len p)).
    { unfold fft_product. rewrite map_length. apply (po_c2r p Hp). rewrite map_length, combine_length.
      rewrite (po_r2c p Hp _ La), (po_r2c p Hp _ Lb). lia. }
    destruct (store_spec mode (fp_len p) (fft_product p xs ys) zo z) as (z' & -> & Lz & Nz); [lia..|].
    cbn [bind]. eexists _, z'. split; [reflexivity|]. split; [|split; [exact Lz|exact Nz]].
    unfold scratch_ok. cbn [s_a s_b s_c s_af s_bf s_cf]. rewrite (po_trash p Hp). repeat split; lia.
  Qed.
End Any.
