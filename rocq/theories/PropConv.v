(** PropConv.v - property theorems about convolution (C28-C32). *)
From Coq Require Import Reals Lra.
From Verif Require Import Base BaseLemmas ModelSir ModelSmp ModelConv NumR SpecDft SpecSmp SpecConv
  ProofsLoop ProofsDft ProofsConv ProofsConvR ProofsCols ProofsOla ProofsSum.
From Coq Require Import ZifyBool ZifyNat.
Ltac Zify.zify_post_hook ::= Z.div_mod_to_equations.
Open Scope Z_scope.

Ltac pnat := repeat (cbn; match goal with |- context [Pos.to_nat ?p] => let v := eval vm_compute in (Pos.to_nat p) in change (Pos.to_nat p) with v end); cbn.
Lemma eq_reals (l : list EN) (v : list R) : length l = length v ->
  (forall k, (k < length v)%nat -> nth k l (Some 0%R) = Some (nth k v 0%R)) -> l = reals v.
Proof.
  intros L H. apply (nth_ext_len (nofZ (n:=EN) 0)).
  - unfold reals. now rewrite map_length.
  - intros k Hk. rewrite nth_reals. apply H. lia.
Qed.

(** ** C28: direct convolution *)

(** Any arithmetic: the nx+ny-1 output samples are the sums of products
    x[i]*y[k-i], in the order of i, started from 0 ('=') or from the old value
    ('+=', '-='); no other element changes; no access outside the vectors. *)
Theorem C28_conv_sum : forall (N : Num) (x y : list N) mode (zo : Z) (z : list N),
  (1 <= length x)%nat -> (1 <= length y)%nat -> 0 <= zo ->
  zo + (Z.of_nat (length x + length y) - 1) <= Z.of_nat (length z) ->
  exists z', conv x 0 (Z.of_nat (length x)) y 0 (Z.of_nat (length y)) mode zo z = Ok z' /\ length z' = length z /\
    (forall k, (k < length x + length y - 1)%nat ->
       nth (Z.to_nat zo + k) z' (nofZ 0) = conv_sample mode x y (nth (Z.to_nat zo + k) z (nofZ 0)) k) /\
    (forall j, (j < Z.to_nat zo \/ Z.to_nat zo + (length x + length y - 1) <= j)%nat -> nth j z' (nofZ 0) = nth j z (nofZ 0)).
Proof.
  intros N x y mode zo z Hx Hy Hzo Hz.
  assert (Sl : forall l : list N, slice 0 (Z.of_nat (length l)) l = l).
  { intros l. unfold slice. cbn [Z.to_nat skipn]. rewrite Nat2Z.id. apply firstn_all. }
  destruct (conv_spec x 0 (Z.of_nat (length x)) y 0 (Z.of_nat (length y)) mode zo z) as (z' & E & L & H); try lia.
  rewrite !Sl in H. exists z'. split; [exact E|]. split; [exact L|]. split.
  - intros k Hk. rewrite H. replace (_ && _)%bool with true by lia. f_equal. lia.
  - intros j Hj. rewrite H. replace (_ && _)%bool with false by lia. reflexivity.
Qed.
Print Assumptions C28_conv_sum.

(** Exact arithmetic: sample k becomes, v being the old value,
    sum_i x[i]*y[k-i], v + that, or v - that. *)
Theorem C28_conv_cauchy : forall (x y : list R) mode (z : list EN),
  (1 <= length x)%nat -> (1 <= length y)%nat -> length z = (length x + length y - 1)%nat ->
  exists z', conv (N:=EN) (reals x) 0 (Z.of_nat (length x)) (reals y) 0 (Z.of_nat (length y)) mode 0 z = Ok z' /\
    length z' = length z /\
    forall k, (k < length z)%nat ->
      nth k z' (Some 0%R) = comb (N:=EN) mode (nth k z (Some 0%R)) (Some (cauchy x y k)).
Proof.
  intros x y mode z Hx Hy Hz.
  assert (LR : forall l : list R, length (reals l) = length l) by (intros; unfold reals; apply map_length).
  destruct (C28_conv_sum EN (reals x) (reals y) mode 0 z) as (z' & E & L & H & _); rewrite ?LR in *; try lia.
  exists z'. split; [exact E|]. split; [exact L|]. intros k Hk.
  etransitivity; [exact (H k ltac:(lia))|]. apply conv_sample_E.
Qed.
Print Assumptions C28_conv_cauchy.

Example C28_ex : exists z', conv (N:=EN) (reals [1; 2]%R) 0 2 (reals [3; 4]%R) 0 2 cm_sum 0 (reals [10; 20; 30]%R) = Ok z' /\
  z' = reals [13; 30; 38]%R.
Proof.
  destruct (C28_conv_cauchy [1; 2]%R [3; 4]%R cm_sum (reals [10; 20; 30]%R)) as (z' & E & L & H); try (cbn; lia).
  exists z'. split; [exact E|]. apply eq_reals; [exact L|]. cbn [length]. intros k Hk.
  destruct k as [|[|[|k]]]; try lia; (etransitivity; [apply H; cbn; lia|]); unfold cauchy; cbn; f_equal; lra.
Qed.

(** ** C29: FFT convolution equals direct convolution *)

(** Exact arithmetic, the exact transform of length nx+ny-1: in every mode
    fftconv leaves the output conv leaves, whatever the scratch arrays held. *)
Theorem C29_fftconv_equals_conv : forall (x y : list R) mode (z : list EN) (s : scratch EN) (trash : list (EN * EN) -> list (EN * EN)),
  (1 <= length x)%nat -> (1 <= length y)%nat -> length z = (length x + length y - 1)%nat ->
  (forall X, length (trash X) = length X) -> scratch_ok (Z.of_nat (length x + length y - 1)) s ->
  exists z' s', fftconv (dft_plan (length x + length y - 1) trash) (reals x) 0 (Z.of_nat (length x)) (reals y) 0 (Z.of_nat (length y)) mode 0 s z
       = Ok (s', z') /\
    conv (N:=EN) (reals x) 0 (Z.of_nat (length x)) (reals y) 0 (Z.of_nat (length y)) mode 0 z = Ok z'.
Proof.
  intros x y mode z s trash Hx Hy Hz Ht Hs.
  destruct (C28_conv_cauchy x y mode z Hx Hy Hz) as (z1 & E1 & L1 & H1).
  assert (LR : forall l : list R, length (reals l) = length l) by (intros; unfold reals; apply map_length).
  set (L := (length x + length y - 1)%nat) in *.
  destruct (fftconv_spec (dft_plan L trash) (reals x) 0 (Z.of_nat (length x)) (reals y) 0 (Z.of_nat (length y)) mode 0 s z)
    as (s' & z' & E & _ & L' & H); rewrite ?LR; try lia.
  { apply dft_plan_ok; [unfold L; lia|exact Ht]. }
  { cbn [dft_plan fp_len]. unfold L. lia. }
  { exact Hs. }
  exists z', s'. split; [exact E|]. rewrite E1. f_equal. apply (nth_ext_len (nofZ (n:=EN) 0)); [congruence|].
  intros k Hk. rewrite L1 in Hk. rewrite H. cbn [Z.to_nat Nat.add Nat.leb andb]. rewrite Nat.sub_0_r.
  replace (k <? _)%nat with true by (unfold L in *; lia).
  etransitivity; [exact (H1 k Hk)|]. f_equal.
  assert (Sl : forall l : list R, slice 0 (Z.of_nat (length l)) (reals l) = reals l).
  { intros l. unfold slice. cbn [Z.to_nat skipn]. rewrite Nat2Z.id, <- LR. apply firstn_all. }
  rewrite !Sl, fft_product_E by (unfold L; lia). rewrite nth_reals, nth_convolution by (unfold L in *; lia). reflexivity.
Qed.
Print Assumptions C29_fftconv_equals_conv.

Definition junk_scratch (L : nat) : scratch EN :=
  let u : EN := @None R in
  @Build_scratch EN (repeat u L) (repeat (Some 7%R : EN) L) (repeat u L)
    (repeat (u, Some 3%R : EN) L) (repeat (u, u) L) (repeat (u, u) L).
Definition junk_trash (X : list (EN * EN)) : list (EN * EN) := map (fun _ => (@None R : EN, @None R : EN)) X.
Lemma junk_ok L : scratch_ok (Z.of_nat L) (junk_scratch L).
Proof. unfold scratch_ok. cbn. rewrite !repeat_length, Nat2Z.id. repeat split. Qed.

Example C29_ex : exists z' s', fftconv (dft_plan 3 junk_trash) (reals [1; 2]%R) 0 2 (reals [3; 4]%R) 0 2
    cm_neg 0 (junk_scratch 3) (reals [10; 20; 30]%R) = Ok (s', z') /\ z' = reals [7; 10; 22]%R.
Proof.
  destruct (C29_fftconv_equals_conv [1; 2]%R [3; 4]%R cm_neg (reals [10; 20; 30]%R) (junk_scratch 3) junk_trash)
    as (z' & s' & E & E2); try (cbn; lia).
  { intros. apply map_length. }
  { exact (junk_ok 3). }
  exists z', s'. split; [exact E|].
  destruct (C28_conv_cauchy [1; 2]%R [3; 4]%R cm_neg (reals [10; 20; 30]%R)) as (z2 & E3 & L & H); try (cbn; lia).
  cbn [length] in *. pose proof (eq_trans (eq_sym E2) E3) as Ez. injection Ez as ->.
  apply eq_reals; [exact L|]. cbn [length]. intros k Hk.
  destruct k as [|[|[|k]]]; try lia; (etransitivity; [apply H; cbn; lia|]); unfold cauchy; cbn; f_equal; lra.
Qed.

(** ** C30: threaded matrix convolution *)

Lemma check_B_dims AN bm bn BM BN : 1 <= bm -> 1 <= bn -> check_B AN bm bn = Some (BM, BN) ->
  1 <= BM /\ BM * BN = bm * bn /\ (BN = 1 \/ (BN = AN /\ 1 < BN)).
Proof.
  intros H1 H2. unfold check_B. destruct (negb (bm =? 1) && negb (bn =? 1) && negb (bn =? AN)) eqn:E; [discriminate|].
  destruct ((bm =? 1) || (bn =? 1)) eqn:E2; intros [= <- <-].
  - nia.
  - lia.
Qed.

(** conv_p, any arithmetic.  Matrices accepted by the gateway's check: every
    schedule returns without an access outside the matrices; a call that ran
    to the end has convolved every column of A with the matching column of B
    (or the vector B) exactly once. *)
Theorem C30_conv_p : forall (N : Num) (A B : list N) AM AN bm bn BM BN mode nthreads sch (Y0 : list N),
  given A AM AN B bm bn -> check_B AN bm bn = Some (BM, BN) -> 1 <= nthreads ->
  length Y0 = Z.to_nat (AN * (AM + BM - 1)) ->
  let M := {| m_A := A; m_AM := AM; m_AN := AN; m_B := B; m_BM := BM; m_BN := BN |} in
  every_column (AM + BM - 1) AN nthreads sch Y0 (fun n k v => conv_sample mode (colA M n) (colB M n) v k)
    (cols_call (conv_point M mode) AN nthreads sch Y0).
Proof.
  intros N A B AM AN bm bn BM BN mode nthreads sch Y0 (HAM & HAN & LA & Hbm & Hbn & LB) Hc Hth HY M.
  destruct (check_B_dims _ _ _ _ _ Hbm Hbn Hc) as (HBM & Hprod & HBN).
  apply cols_call_spec; auto; try lia.
  intros n Y Hn LY. unfold conv_point. cbn [M m_BN m_AM m_BM m_A m_B].
  assert (HAn : 0 <= n * AM /\ n * AM + AM <= Z.of_nat (length A)) by nia.
  assert (HYn : 0 <= n * (AM + BM - 1) /\ n * (AM + BM - 1) + (AM + BM - 1) <= Z.of_nat (length Y)).
  { rewrite LY, Z2Nat.id by nia. nia. }
  assert (Hb : exists bo, (if 1 <? BN then conv A (n * AM) AM B (n * BM) BM mode (n * (AM + BM - 1)) Y
                           else conv A (n * AM) AM B 0 BM mode (n * (AM + BM - 1)) Y)
                          = conv A (n * AM) AM B bo BM mode (n * (AM + BM - 1)) Y /\
                          0 <= bo /\ bo + BM <= Z.of_nat (length B) /\ slice bo BM B = colB M n).
  { unfold colB. cbn [M m_BN m_BM m_B]. destruct (1 <? BN) eqn:E.
    - exists (n * BM). split; [reflexivity|]. replace (BN =? 1) with false by lia. repeat split; try nia. 
    - exists 0. split; [reflexivity|]. replace (BN =? 1) with true by lia. repeat split; try nia. }
  destruct Hb as (bo & -> & Hb0 & Hb1 & Eb).
  destruct (conv_spec A (n * AM) AM B bo BM mode (n * (AM + BM - 1)) Y) as (Y' & E & L & Hj); try lia.
  rewrite E. cbn [bind]. exists Y'. split; [reflexivity|]. split; [exact L|]. intros j. rewrite Hj, Eb. reflexivity.
Qed.
Print Assumptions C30_conv_p.

(** fftconv_p with the exact transform. *)
Theorem C30_fftconv_p : forall (a b : list R) AM AN bm bn BM BN mode nthreads sch (Y0 : list EN) trash scr,
  given (reals a) AM AN (reals b) bm bn -> check_B AN bm bn = Some (BM, BN) -> 1 <= nthreads ->
  length Y0 = Z.to_nat (AN * (AM + BM - 1)) ->
  (forall X, length (trash X) = length X) -> (forall n, scratch_ok (AM + BM - 1) (scr n)) ->
  every_column (N:=EN) (AM + BM - 1) AN nthreads sch Y0
    (fun n k v => comb (N:=EN) mode v (Some (cauchy (rcolA a AM n) (rcolB b BM BN n) k)))
    (cols_call (fftconv_point (dft_plan (Z.to_nat (AM + BM - 1)) trash)
       {| m_A := reals a; m_AM := AM; m_AN := AN; m_B := reals b; m_BM := BM; m_BN := BN |} mode scr) AN nthreads sch Y0).
Proof.
  intros a b AM AN bm bn BM BN mode nthreads sch Y0 trash scr (HAM & HAN & LA & Hbm & Hbn & LB) Hc Hth HY Ht Hscr.
  destruct (check_B_dims _ _ _ _ _ Hbm Hbn Hc) as (HBM & Hprod & HBN).
  set (p := dft_plan (Z.to_nat (AM + BM - 1)) trash).
  assert (Hp : plan_ok p) by (apply dft_plan_ok; [lia|exact Ht]).
  assert (Hpl : fp_len p = AM + BM - 1) by (cbn; lia).
  destruct (Z.eq_dec AN 0) as [->|HAN0].
  { apply cols_call_spec; auto; try lia. }
  set (G := fun (n : Z) k (v : EN) => comb (N:=EN) mode v (nth k (fft_product p (slice (n * AM) AM (reals a))
              (if BN =? 1 then slice 0 BM (reals b) else slice (n * BM) BM (reals b))) (nofZ (n:=EN) 0))).
  assert (HF : forall n k v, 0 <= n < AN -> (k < Z.to_nat (AM + BM - 1))%nat ->
            G n k v = comb (N:=EN) mode v (Some (cauchy (rcolA a AM n) (rcolB b BM BN n) k))).
  { intros n k v Hn Hk. unfold G, rcolA, rcolB. f_equal. unfold reals in LA, LB. rewrite map_length in LA, LB.
    assert (Eb : (if BN =? 1 then slice 0 BM (reals b) else slice (n * BM) BM (reals b)) =
                 reals (if BN =? 1 then slice 0 BM b else slice (n * BM) BM b)).
    { destruct (BN =? 1); apply slice_reals. }
    rewrite Eb, slice_reals.
    assert (L1 : length (slice (n * AM) AM a) = Z.to_nat AM) by (apply length_slice; nia).
    assert (L2 : length (if BN =? 1 then slice 0 BM b else slice (n * BM) BM b) = Z.to_nat BM).
    { destruct (BN =? 1) eqn:E; apply length_slice; nia. }
    unfold p. rewrite fft_product_E by lia. rewrite nth_reals, nth_convolution by lia. reflexivity. }
  assert (HE : every_column (N:=EN) (AM + BM - 1) AN nthreads sch Y0 G
    (cols_call (fftconv_point p
       {| m_A := reals a; m_AM := AM; m_AN := AN; m_B := reals b; m_BM := BM; m_BN := BN |} mode scr) AN nthreads sch Y0)).
  { apply cols_call_spec; auto; try lia.
    intros n Y Hn LY. unfold fftconv_point. cbn [m_BN m_AM m_BM m_A m_B].
    assert (HAn : 0 <= n * AM /\ n * AM + AM <= Z.of_nat (length (reals a))) by nia.
    assert (HYn : 0 <= n * (AM + BM - 1) /\ n * (AM + BM - 1) + (AM + BM - 1) <= Z.of_nat (length Y)).
    { rewrite LY, Z2Nat.id by nia. nia. }
    assert (Hb : exists bo, (if 1 <? BN then fftconv p (reals a) (n * AM) AM (reals b) (n * BM) BM mode (n * (AM + BM - 1)) (scr n) Y
                             else fftconv p (reals a) (n * AM) AM (reals b) 0 BM mode (n * (AM + BM - 1)) (scr n) Y)
                            = fftconv p (reals a) (n * AM) AM (reals b) bo BM mode (n * (AM + BM - 1)) (scr n) Y /\
                            0 <= bo /\ bo + BM <= Z.of_nat (length (reals b)) /\
                            slice bo BM (reals b) = (if BN =? 1 then slice 0 BM (reals b) else slice (n * BM) BM (reals b))).
    { destruct (1 <? BN) eqn:E.
      - exists (n * BM). split; [reflexivity|]. replace (BN =? 1) with false by lia. repeat split; try nia.
      - exists 0. split; [reflexivity|]. replace (BN =? 1) with true by lia. repeat split; try nia. }
    destruct Hb as (bo & -> & Hb0 & Hb1 & Eb).
    destruct (fftconv_spec p (reals a) (n * AM) AM (reals b) bo BM mode (n * (AM + BM - 1)) (scr n) Y) as (s' & Y' & E & _ & L & Hj);
      auto; try lia. { rewrite Hpl. apply Hscr. }
    rewrite E. cbn [bind]. exists Y'. split; [reflexivity|]. split; [exact L|]. intros j. rewrite Hj, Eb. reflexivity. }
  destruct HE as (r & Er & Hf & Hr). exists r. split; [exact Er|]. split; [exact Hf|].
  intros Y' running Hrr. destruct (Hr Y' running Hrr) as (L & Hcc & Hall & Hsome). split; [exact L|]. split; [exact Hcc|]. split.
  - intros Hrun n k Hn Hk. rewrite (Hall Hrun n k Hn Hk). now apply HF.
  - intros n Hn. destruct (Hsome n Hn) as [H|H]; [now left|right]. intros k Hk. rewrite (H k Hk). now apply HF.
Qed.
Print Assumptions C30_fftconv_p.

(** FFTConvP::run does not check the number of columns of B: with more than
    one but fewer than A has, no call completes - the columns beyond read
    outside B. *)
Theorem C30_refuted_unchecked : forall (N : Num) (p : fft_plan N) (A B : list N) AM AN bm bn mode nthreads sch Y0 Y' scr,
  given A AM AN B bm bn -> 1 < bm -> 1 < bn < AN -> 1 <= nthreads -> plan_ok p -> fp_len p = AM + bm - 1 ->
  (forall n, scratch_ok (AM + bm - 1) (scr n)) -> length Y0 = Z.to_nat (AN * (AM + bm - 1)) ->
  let M := {| m_A := A; m_AM := AM; m_AN := AN; m_B := B; m_BM := fst (run_B bm bn); m_BN := snd (run_B bm bn) |} in
  check_B AN bm bn = None /\
  (forall n Y, bn <= n < AN -> fftconv_point p M mode scr n Y = UB UB_oob_read) /\
  cols_call (fftconv_point p M mode scr) AN nthreads sch Y0 <> Ok (Some (Y', true)).
Proof.
  intros N p A B AM AN bm bn mode nthreads sch Y0 Y' scr (HAM & HAN & LA & Hbm & Hbn & LB) Hbm1 Hbn1 Hth Hp Hpl Hscr HY M.
  assert (Er : run_B bm bn = (bm, bn)) by (unfold run_B; replace ((bm =? 1) || (bn =? 1)) with false by lia; reflexivity).
  assert (Hbad : forall n Y, bn <= n < AN -> fftconv_point p M mode scr n Y = UB UB_oob_read).
  { intros n Y Hn. unfold fftconv_point. cbn [M m_BN m_AM m_BM m_A m_B]. rewrite Er. cbn [fst snd].
    replace (1 <? bn) with true by lia. unfold fftconv. destruct (Hscr n) as (S1 & S2 & _).
    pose proof (load_spec A (n * AM) AM (AM + bm - 1) (s_a (scr n)) ltac:(nia) ltac:(lia) ltac:(lia) ltac:(nia) S1) as Ea.
    destruct (copy_in A (n * AM) AM (s_a (scr n))) as [a0|?|]; cbn [bind] in Ea |- *; try discriminate Ea. rewrite Ea. cbn [bind].
    assert (Eb : copy_in B (n * bm) bm (s_b (scr n)) = UB UB_oob_read).
    { unfold copy_in, for_loop. destruct (Z.to_nat bm) as [|m] eqn:Em; [lia|]. cbn [for_from].
      unfold buf_get, in_range. replace ((0 <=? n * bm + 0) && (n * bm + 0 <? Z.of_nat (length B))) with false by nia. reflexivity. }
    rewrite Eb. reflexivity. }
  split; [unfold check_B; replace (_ && _) with true by lia; reflexivity|]. split; [exact Hbad|].
  apply (cols_bad (AM + bm - 1) AN nthreads _
     (fun n k v => comb mode v (nth k (fft_product p (slice (n * AM) AM A) (slice (n * bm) bm B)) (nofZ 0)))
     (fun n => bn <=? n) UB_oob_read); auto; try lia.
  - intros n Y Hn Hb LY. unfold fftconv_point. cbn [M m_BN m_AM m_BM m_A m_B]. rewrite Er. cbn [fst snd].
    replace (1 <? bn) with true by lia.
    assert (HYn : 0 <= n * (AM + bm - 1) /\ n * (AM + bm - 1) + (AM + bm - 1) <= Z.of_nat (length Y)).
    { rewrite LY, Z2Nat.id by nia. nia. }
    destruct (fftconv_spec p A (n * AM) AM B (n * bm) bm mode (n * (AM + bm - 1)) (scr n) Y) as (s' & Y1 & E & _ & L & Hj);
      auto; try lia; try nia. { rewrite Hpl. apply Hscr. }
    rewrite E. cbn [bind]. exists Y1. split; [reflexivity|]. split; [exact L|]. exact Hj.
  - intros n Y Hn Hb _. apply Hbad. lia.
  - exists bn. lia.
Qed.
Print Assumptions C30_refuted_unchecked.

(** Witness: 2 columns, a matrix B, two workers. *)
Example C30_ex : exists Y', cols_call (N:=EN) (conv_point
    {| m_A := reals [1; 2; 3; 4]%R; m_AM := 2; m_AN := 2; m_B := reals [1; 1; 1; -1]%R; m_BM := 2; m_BN := 2 |} cm_equ)
    2 2 (round_robin 4 2) (repeat None 6) = Ok (Some (Y', true)) /\ Y' = reals [1; 3; 2; 3; 1; -4]%R.
Proof.
  set (A := reals [1; 2; 3; 4]%R). set (B := reals [1; 1; 1; -1]%R).
  destruct (C30_conv_p EN A B 2 2 2 2 2 2 cm_equ 2 (round_robin 4 2) (repeat None 6)) as (r & Er & Hf & Hr); try lia.
  - unfold given. cbn. lia.
  - reflexivity.
  - reflexivity.
  - destruct r as [[Y' running]|].
    2:{ exfalso. apply Hf; [|reflexivity]. intros i Hi. assert (i = 0 \/ i = 1) as [->| ->] by lia; vm_compute; discriminate. }
    destruct (Hr Y' running eq_refl) as (L & Hcc & Hall & _).
    assert (Hrun : running = true). { apply Hcc. intros Hin. vm_compute in Hin. repeat (destruct Hin as [Hin|Hin]; [discriminate|]). exact Hin. }
    subst running. specialize (Hall eq_refl). exists Y'. split; [exact Er|].
    assert (L6 : length Y' = 6%nat) by (rewrite L; reflexivity).
    apply eq_reals; [exact L6|]. cbn [length]. intros k Hk.
    assert (H0 : forall i, (i < 3)%nat -> nth i Y' (Some 0%R) = Some (cauchy [1; 2]%R [1; 1]%R i)).
    { intros i Hi. etransitivity; [exact (Hall 0 i ltac:(lia) Hi)|].
      exact (conv_sample_E cm_equ [1; 2]%R [1; 1]%R _ i). }
    assert (H1 : forall i, (i < 3)%nat -> nth (3 + i) Y' (Some 0%R) = Some (cauchy [3; 4]%R [1; -1]%R i)).
    { intros i Hi. etransitivity; [exact (Hall 1 i ltac:(lia) Hi)|].
      exact (conv_sample_E cm_equ [3; 4]%R [1; -1]%R _ i). }
    destruct k as [|[|[|[|[|[|k]]]]]]; try lia.
    + (etransitivity; [apply H0; lia|]); unfold cauchy; cbn; f_equal; lra.
    + (etransitivity; [apply H0; lia|]); unfold cauchy; cbn; f_equal; lra.
    + (etransitivity; [apply H0; lia|]); unfold cauchy; cbn; f_equal; lra.
    + change 3%nat with (3 + 0)%nat. (etransitivity; [apply H1; lia|]); unfold cauchy; cbn; f_equal; lra.
    + change 4%nat with (3 + 1)%nat. (etransitivity; [apply H1; lia|]); unfold cauchy; cbn; f_equal; lra.
    + change 5%nat with (3 + 2)%nat. (etransitivity; [apply H1; lia|]); unfold cauchy; cbn; f_equal; lra.
Qed.

(** ** C31: overlap-add *)

(** A column in exact arithmetic: the pointer is right or not used (one block
    per column). *)
Lemma ola_point_E (a b : list R) AM AN BM BN bl trash fuel cs loc n (Y : list EN) :
  let M := {| m_A := reals a : list EN; m_AM := AM; m_AN := AN; m_B := reals b; m_BM := BM; m_BN := BN |} in
  let p := dft_plan (Z.to_nat (bl + BM - 1)) trash in
  (forall X, length (trash X) = length X) -> 1 <= bl <= AM -> 1 <= BM -> 0 <= n < AN ->
  Z.of_nat (length a) = AM * AN -> b_off (N:=EN) M n + BM <= Z.of_nat (length b) ->
  (let '(s, y, ab) := loc n in arrays_ok p s y ab) ->
  0 <= cs n <= n -> 1 < BN \/ bl = AM \/ cs n = n -> AM <= Z.of_nat fuel ->
  length Y = Z.to_nat (AN * (AM + BM - 1)) ->
  exists Y', ola_point fuel p M bl cm_equ cs loc n Y = Ok (Y', err_none) /\ length Y' = length Y /\
    forall j, nth j Y' (nofZ (n:=EN) 0) =
      if ((Z.to_nat (n * (AM + BM - 1)) <=? j) && (j <? Z.to_nat (n * (AM + BM - 1)) + Z.to_nat (AM + BM - 1)))%nat
      then nadd (n:=EN) (nth j Y (nofZ 0)) (Some (cauchy (rcolA a AM n) (slice (b_off (N:=EN) M n) BM b) (j - Z.to_nat (n * (AM + BM - 1)))))
      else nth j Y (nofZ 0).
Proof.
  intros M p Ht Hbl HBM Hn LA LB Hloc Hcs Hcase Hf LY. unfold ola_point. destruct (loc n) as ((s & y) & ab).
  destruct Hloc as (H1 & H2 & H3). unfold ola_column. fold (b_off M n).
  assert (Hb0 : 0 <= b_off (N:=EN) M n) by (unfold b_off; cbn [M m_BN m_BM]; destruct (1 <? BN); nia).
  assert (HAB : 0 <= n * (AM + BM - 1)) by nia.
  set (ap0 := ola_ap M (cs n) n).
  assert (Hap0 : 0 <= ap0) by (unfold ap0, ola_ap; cbn [M m_BN m_AM]; destruct (1 <? BN); nia).
  assert (Hapx : ap0 = n * AM \/ bl = AM).
  { unfold ap0, ola_ap. cbn [M m_BN m_AM]. destruct Hcase as [H|[H|H]]; [left|now right|left].
    - replace (1 <? BN) with true by lia. reflexivity.
    - rewrite H. destruct (1 <? BN); nia. }
  destruct (ola_while a b AM AN BM BN bl trash Ht Hbl HBM n ap0 (b_off (N:=EN) M n) Y ltac:(lia) Hap0 Hapx ltac:(nia) Hb0 LB
     ltac:(rewrite LY; nia) fuel {| o_k := 0; o_ap := ap0; o_s := s; o_y := y; o_ab := ab; o_Y := Y |}) as (s' & E & _ & LY' & _ & HY);
    cbn [o_k o_ap o_s o_y o_ab o_Y]; auto; try lia.
  { repeat split; auto; apply H1. }
  { intros j. destruct (_ && _); [|reflexivity]. cbn [Z.to_nat firstn]. rewrite cauchy_nil. apply eadd_0. }
  fold M in E. fold p in E. cbn [M m_AM]. fold M. rewrite E. cbn [bind]. cbn [M m_BN].
  exists (o_Y s'). split; [now destruct (1 <? BN)|]. split; [exact LY'|].
  intros j. rewrite (HY j). destruct (_ && _); [|reflexivity]. do 2 f_equal. unfold rcolA.
  rewrite firstn_all2; [reflexivity|]. rewrite length_slice by nia. lia.
Qed.

(** B a matrix (more than one column), any block length 1..A_M, any number of
    workers and schedule, whatever the local arrays contain: every column of
    A*B is added to the output, which the gateway has cleared when it
    allocated it. *)
Theorem C31_ola_matrix_partial : forall (a b : list R) AM AN bm bn BM BN bl nthreads sch (Y0 : list EN) trash cs loc fuel,
  given (N:=EN) (reals a) AM AN (reals b) bm bn -> check_B AN bm bn = Some (BM, BN) -> 1 < BN ->
  check_block bl AM = true -> bl <> 0 -> 1 <= nthreads ->
  length Y0 = Z.to_nat (AN * (AM + BM - 1)) -> AM <= Z.of_nat fuel ->
  (forall X, length (trash X) = length X) ->
  (forall n, let '(s, y, ab) := loc n in arrays_ok (dft_plan (Z.to_nat (bl + BM - 1)) trash) s y ab) ->
  (forall n, 0 <= n -> 0 <= cs n <= n) ->
  every_column (N:=EN) (AM + BM - 1) AN nthreads sch Y0
    (fun n k v => nadd (n:=EN) v (Some (cauchy (rcolA a AM n) (rcolB b BM BN n) k)))
    (cols_call (ola_point fuel (dft_plan (Z.to_nat (bl + BM - 1)) trash)
       {| m_A := reals a; m_AM := AM; m_AN := AN; m_B := reals b; m_BM := BM; m_BN := BN |} bl cm_equ cs loc) AN nthreads sch Y0).
Proof.
  intros a b AM AN bm bn BM BN bl nthreads sch Y0 trash cs loc fuel (HAM & HAN & LA & Hbm & Hbn & LB) Hc HBN1 Hck Hbl0 Hth HY Hf Ht Hloc Hcs.
  destruct (check_B_dims _ _ _ _ _ Hbm Hbn Hc) as (HBM & Hprod & HBN).
  assert (Hbl : 1 <= bl <= AM) by (unfold check_block in Hck; lia).
  unfold reals in LA, LB. rewrite map_length in LA, LB.
  apply cols_call_spec; auto; try lia.
  intros n Y Hn LY.
  destruct (ola_point_E a b AM AN BM BN bl trash fuel cs loc n Y) as (Y' & E & L & H); auto; try lia.
  - unfold b_off. cbn [m_BN m_BM]. replace (1 <? BN) with true by lia. nia.
  - apply Hloc.
  - apply Hcs. lia.
  - exists Y'. split; [exact E|]. split; [exact L|]. intros j. rewrite (H j). unfold rcolB.
    unfold b_off. cbn [m_BN m_BM]. replace (1 <? BN) with true by lia. replace (BN =? 1) with false by lia. reflexivity.
Qed.
Print Assumptions C31_ola_matrix_partial.

(** B a vector: right when a block is a whole column, or when every worker has
    one column. *)
Theorem C31_ola_vector_partial : forall (a b : list R) AM AN bm bn BM bl nthreads sch (Y0 : list EN) trash cs loc fuel,
  given (N:=EN) (reals a) AM AN (reals b) bm bn -> check_B AN bm bn = Some (BM, 1) ->
  check_block bl AM = true -> bl <> 0 -> 1 <= nthreads ->
  length Y0 = Z.to_nat (AN * (AM + BM - 1)) -> AM <= Z.of_nat fuel ->
  (forall X, length (trash X) = length X) ->
  (forall n, let '(s, y, ab) := loc n in arrays_ok (dft_plan (Z.to_nat (bl + BM - 1)) trash) s y ab) ->
  (forall n, 0 <= n -> 0 <= cs n <= n) ->
  bl = AM \/ (forall n, 0 <= n < AN -> cs n = n) ->
  every_column (N:=EN) (AM + BM - 1) AN nthreads sch Y0
    (fun n k v => nadd (n:=EN) v (Some (cauchy (rcolA a AM n) b k)))
    (cols_call (ola_point fuel (dft_plan (Z.to_nat (bl + BM - 1)) trash)
       {| m_A := reals a; m_AM := AM; m_AN := AN; m_B := reals b; m_BM := BM; m_BN := 1 |} bl cm_equ cs loc) AN nthreads sch Y0).
Proof.
  intros a b AM AN bm bn BM bl nthreads sch Y0 trash cs loc fuel (HAM & HAN & LA & Hbm & Hbn & LB) Hc Hck Hbl0 Hth HY Hf Ht Hloc Hcs Hcase.
  destruct (check_B_dims _ _ _ _ _ Hbm Hbn Hc) as (HBM & Hprod & HBN).
  assert (Hbl : 1 <= bl <= AM) by (unfold check_block in Hck; lia).
  unfold reals in LA, LB. rewrite map_length in LA, LB.
  apply cols_call_spec; auto; try lia.
  intros n Y Hn LY.
  destruct (ola_point_E a b AM AN BM 1 bl trash fuel cs loc n Y) as (Y' & E & L & H); auto; try lia.
  - unfold b_off. cbn [m_BN m_BM]. change (1 <? 1) with false. cbv iota. nia.
  - apply Hloc.
  - apply Hcs. lia.
  - destruct Hcase as [H|H]; [right; now left|right; right; apply H; lia].
  - exists Y'. split; [exact E|]. split; [exact L|]. intros j. rewrite (H j).
    unfold b_off. cbn [m_BN m_BM]. change (1 <? 1) with false. cbv iota.
    unfold slice. cbn [Z.to_nat skipn]. replace (Z.to_nat BM) with (length b) by nia. rewrite firstn_all. reflexivity.
Qed.
Print Assumptions C31_ola_vector_partial.

(** Refuted for a vector B, one worker with all AN >= 2 columns, a block
    shorter than a column: for every input the call reads outside A (the
    running pointer is advanced twice per column). *)
Theorem C31_refuted_vector : forall (N : Num) (p : fft_plan N) (A B : list N) AM AN bm bn BM bl mode fuel s y ab Y,
  given A AM AN B bm bn -> check_B AN bm bn = Some (BM, 1) -> 2 <= AN ->
  check_block bl AM = true -> 1 <= bl < AM -> plan_ok p -> fp_len p = bl + BM - 1 ->
  arrays_ok p s y ab -> AM <= Z.of_nat fuel -> Z.of_nat (length Y) = AN * (AM + BM - 1) ->
  ola_worker fuel p {| m_A := A; m_AM := AM; m_AN := AN; m_B := B; m_BM := BM; m_BN := 1 |} bl mode 0 AN s y ab Y = UB UB_oob_read.
Proof.
  intros N p A B AM AN bm bn BM bl mode fuel s y ab Y (HAM & HAN & LA & Hbm & Hbn & LB) Hc HAN2 Hck Hbl Hp Hpl Hs Hf LY.
  destruct (check_B_dims _ _ _ _ _ Hbm Hbn Hc) as (HBM & Hprod & _).
  apply ola_worker_vector_oob; cbn [m_BN m_AM m_BM m_A m_B]; auto; try lia.
Qed.
Print Assumptions C31_refuted_vector.

(** Refuted for block length 0, which the gateway accepts: the first block
    writes outside the scratch array. *)
Theorem C31_refuted_block0 : forall (N : Num) (p : fft_plan N) (A B : list N) AM AN bm bn BM BN mode fuel s y ab Y,
  given A AM AN B bm bn -> check_B AN bm bn = Some (BM, BN) -> 1 <= AN ->
  scratch_ok (BM - 1) s -> (1 <= fuel)%nat ->
  check_block 0 AM = true /\
  ola_worker fuel p {| m_A := A; m_AM := AM; m_AN := AN; m_B := B; m_BM := BM; m_BN := BN |} 0 mode 0 AN s y ab Y = UB UB_oob_write.
Proof.
  intros N p A B AM AN bm bn BM BN mode fuel s y ab Y (HAM & HAN & LA & Hbm & Hbn & LB) Hc HAN1 Hs Hf.
  destruct (check_B_dims _ _ _ _ _ Hbm Hbn Hc) as (HBM & Hprod & HBN).
  split; [unfold check_block; lia|]. unfold ola_worker, for_loop. destruct (Z.to_nat (AN - 0)) as [|m] eqn:Em; [lia|]. cbn [for_from].
  rewrite ola_block0; cbn [m_AM m_BM m_B]; auto; try lia.
  unfold b_off. cbn [m_BN m_BM]. destruct (1 <? BN); nia.
Qed.
Print Assumptions C31_refuted_block0.

(** A worker's local arrays: any contents of the right sizes. *)
Definition junk_loc (L : nat) (n : Z) : scratch EN * list EN * list EN := (junk_scratch L, repeat (@None R : EN) L, repeat (@None R : EN) L).
Lemma junk_loc_ok L n : let '(s, y, ab) := junk_loc L n in arrays_ok (dft_plan L junk_trash) s y ab.
Proof.
  cbn. split; [apply junk_ok|]. rewrite !repeat_length. cbn [fp_len dft_plan]. lia.
Qed.

(** In-place '=' does not replace: the old contents stay in the sum. *)
Theorem C31_refuted_inplace_equ : exists (a b : list R) AM AN BM BN bl sch (Y0 : list EN),
  given (N:=EN) (reals a) AM AN (reals b) BM BN /\ check_B AN BM BN = Some (BM, BN) /\ check_block bl AM = true /\
  exists Y', cols_call (N:=EN) (ola_point 2 (dft_plan (Z.to_nat (bl + BM - 1)) junk_trash)
       {| m_A := reals a; m_AM := AM; m_AN := AN; m_B := reals b; m_BM := BM; m_BN := BN |} bl cm_equ (fun n => n) (junk_loc (Z.to_nat (bl + BM - 1))))
       AN 1 sch Y0 = Ok (Some (Y', true)) /\
     nth 0 Y' (Some 0%R) <> Some (cauchy (rcolA a AM 0) (rcolB b BM BN 0) 0).
Proof.
  exists [1; 2]%R, [1]%R, 2, 1, 1, 1, 1, (round_robin 4 1), (reals [5; 0]%R).
  assert (Hg : given (N:=EN) (reals [1; 2]%R) 2 1 (reals [1]%R) 1 1) by (unfold given; cbn; lia).
  split; [exact Hg|]. split; [reflexivity|]. split; [reflexivity|].
  destruct (C31_ola_vector_partial [1; 2]%R [1]%R 2 1 1 1 1 1 1 (round_robin 4 1) (reals [5; 0]%R) junk_trash (fun n => n) (junk_loc 1) 2)
    as (r & Er & Hf & Hr); auto; try lia; try reflexivity.
  { intros X. unfold junk_trash. apply map_length. }
  { intros n. apply (junk_loc_ok 1). }
  destruct r as [[Y' running]|].
  2:{ exfalso. apply Hf; [|reflexivity]. intros i Hi. assert (i = 0) as -> by lia; vm_compute; discriminate. }
  destruct (Hr Y' running eq_refl) as (L & Hcc & Hall & _).
  assert (Hrun : running = true). { apply Hcc. intros Hin. vm_compute in Hin. repeat (destruct Hin as [Hin|Hin]; [discriminate|]). exact Hin. }
  subst running. exists Y'. split; [exact Er|].
  intros Hx. pose proof (Hall eq_refl 0 O ltac:(lia) ltac:(cbn; lia)) as H0.
  pose proof (eq_trans (eq_sym H0) Hx) as H1. unfold cauchy in H1. cbn in H1. injection H1 as H1. lra.
Qed.
Print Assumptions C31_refuted_inplace_equ.

(** In-place '+=' (and '-=') uses the uninitialised block result y. *)
Theorem C31_refuted_inplace_sum : forall y0 : R,
  exists s' y' ab' Y', ola_column (N:=EN) 1 (dft_plan 1 junk_trash)
       {| m_A := reals [1%R]; m_AM := 1; m_AN := 1; m_B := reals [1%R]; m_BM := 1; m_BN := 1 |} 1 cm_sum 0 0
       (junk_scratch 1) (reals [y0]) (repeat None 1) (reals [0%R]) = Ok (2, s', y', ab', Y') /\
     Y' = reals [(y0 + 1)%R].
Proof.
  intros y0.
  set (M := {| m_A := reals [1%R] : list EN; m_AM := 1; m_AN := 1; m_B := reals [1%R]; m_BM := 1; m_BN := 1 |}).
  set (s0 := {| o_k := 0; o_ap := 0; o_s := junk_scratch 1; o_y := reals [y0] : list EN; o_ab := repeat (@None R : EN) 1; o_Y := reals [0%R] |}).
  destruct (ola_block_spec (N:=EN) (dft_plan 1 junk_trash) M 1 0 cm_sum 0 s0) as (s' & E & Hl & Hk & Hap & LY & Ny & NY);
    try (cbn; lia).
  { apply dft_plan_ok; [lia|]. intros X. apply map_length. }
  { split; [exact (junk_ok 1)|]. split; reflexivity. }
  exists (o_s s'), (o_y s'), (o_ab s'), (o_Y s'). split.
  - unfold ola_column. change (1 <? m_BN M) with false. cbv iota. cbn [while o_k].
    change (0 <? m_AM M) with true. cbv iota.
    match goal with |- context [ola_block ?a ?b ?c ?d ?e ?f ?g] =>
      change (ola_block a b c d e f g) with (ola_block (dft_plan 1 junk_trash) M 1 0 cm_sum 0 s0) end.
    rewrite E. cbn [bind].
    rewrite Hk. change (o_k s0 + 1 <? m_AM M) with false. cbv iota. cbn [bind]. rewrite Hap. reflexivity.
  - apply eq_reals; [exact LY|]. cbn [length]. intros k Hk'. assert (k = O) by lia. subst k.
    transitivity (nadd (n:=EN) (Some 0%R) (nth O (o_y s') (nofZ (n:=EN) 0))); [exact (NY O)|].
    rewrite (Ny O) by (cbn; lia).
    pose proof (block_product [1%R] [1%R] 1 1 1 1 1 junk_trash ltac:(lia) ltac:(lia) 0 0 0 0 ltac:(lia) ltac:(lia) ltac:(lia) ltac:(lia)
      ltac:(cbn; lia) ltac:(lia) ltac:(cbn; lia) O ltac:(cbn; lia)) as Hb.
    change (e2 Rplus (Some 0%R) (e2 Rplus (Some y0) (nth 0 (fft_product (dft_plan 1 junk_trash) (block_of M 1 0 0 0) (slice 0 1 (reals [1%R]))) (nofZ (n:=EN) 0))) = Some (y0 + 1)%R).
    etransitivity; [apply (f_equal (fun t => e2 Rplus (Some 0%R) (e2 Rplus (Some y0) t))); exact Hb|].
    unfold cauchy. cbn. change (Pos.to_nat 1) with 1%nat. cbn. f_equal. lra.
Qed.
Print Assumptions C31_refuted_inplace_sum.

(** Witness: three columns of length 3, B a matrix, block length 2, two
    workers, local arrays full of junk. *)
Example C31_ex : exists Y', cols_call (N:=EN) (ola_point 3 (dft_plan 3 junk_trash)
    {| m_A := reals [1; 2; 3; 0; 0; 1; 5; 5; 5]%R; m_AM := 3; m_AN := 3; m_B := reals [1; 1; 1; 0; 0; 2]%R; m_BM := 2; m_BN := 3 |}
    2 cm_equ (fun _ => 0) (junk_loc 3)) 3 2 (round_robin 8 2) (repeat (Some 0%R) 12) = Ok (Some (Y', true)) /\
  nth 2 Y' None = Some 5%R /\ nth 11 Y' None = Some 10%R.
Proof.
  destruct (C31_ola_matrix_partial [1; 2; 3; 0; 0; 1; 5; 5; 5]%R [1; 1; 1; 0; 0; 2]%R 3 3 2 3 2 3 2 2 (round_robin 8 2)
     (repeat (Some 0%R) 12) junk_trash (fun _ => 0) (junk_loc 3) 3) as (r & Er & Hf & Hr); auto; try lia; try reflexivity.
  { unfold given. cbn. lia. }
  { intros X. unfold junk_trash. apply map_length. }
  { intros n. apply (junk_loc_ok 3). }
  destruct r as [[Y' running]|].
  2:{ exfalso. apply Hf; [|reflexivity]. intros i Hi. assert (i = 0 \/ i = 1) as [->| ->] by lia; vm_compute; discriminate. }
  destruct (Hr Y' running eq_refl) as (L & Hcc & Hall & _).
  assert (Hrun : running = true). { apply Hcc. intros Hin. vm_compute in Hin. repeat (destruct Hin as [Hin|Hin]; [discriminate|]). exact Hin. }
  subst running. exists Y'. split; [exact Er|].
  assert (L' : length Y' = 12%nat) by exact L.
  split.
  - rewrite (nth_indep _ None (Some 0%R)) by (change (2 < length Y')%nat; lia).
    etransitivity; [exact (Hall eq_refl 0 2%nat ltac:(lia) ltac:(cbn; lia))|]. unfold cauchy. pnat. f_equal. lra.
  - rewrite (nth_indep _ None (Some 0%R)) by (change (11 < length Y')%nat; lia).
    etransitivity; [exact (Hall eq_refl 2 3%nat ltac:(lia) ltac:(cbn; lia))|]. unfold cauchy. pnat. f_equal. lra.
Qed.

(** ** C32: sum of convolutions *)

(** What sum_fftconv computes, any number of inputs, workers, schedule: the
    sum over the inputs of the convolutions, divided by the transform length
    (the accumulation and the inverse transform both normalise), stored for
    '=' and '-=', added for '+='. *)
Theorem C32_sum_fftconv_partial : forall (hs : list (list R)) (u : list R) hM hN uM mode nthreads sch (Y0 : list EN) trash scr,
  1 <= hM -> 0 <= hN -> 1 <= uM -> (forall h, In h hs -> Z.of_nat (length h) = hM * hN) ->
  Z.of_nat (length u) = uM * Z.of_nat (length hs) -> 1 <= nthreads ->
  length Y0 = Z.to_nat (hN * (hM + uM - 1)) -> (forall X, length (trash X) = length X) ->
  (forall n, scratch_ok (hM + uM - 1) (scr n)) ->
  every_column (N:=EN) (hM + uM - 1) hN nthreads sch Y0
    (fun n k v => comb (N:=EN) (match mode with cm_sum => cm_sum | _ => cm_equ end) v
       (Some (rsum (length hs) (fun l => cauchy (rcolA (nth l hs []) hM n) (slice (Z.of_nat l * uM) uM u) k) / IZR (hM + uM - 1))%R))
    (cols_call (sum_fftconv_point (dft_plan (Z.to_nat (hM + uM - 1)) trash) (map reals hs) (Z.of_nat (length hs)) hM (reals u) uM mode scr)
       hN nthreads sch Y0).
Proof.
  intros hs u hM hN uM mode nthreads sch Y0 trash scr HhM HhN HuM Hhs Hu Hth HY Ht Hscr.
  apply cols_call_spec; auto; try lia.
  intros n Y Hn LY. unfold sum_fftconv_point.
  destruct (add_fftconv_E hs u hM uM n trash Ht HhM HuM ltac:(lia)) with (mode := mode) (zo := n * (hM + uM - 1)) (s := scr n) (z := Y)
    as (s' & z' & E & L & H); auto; try lia.
  - intros h Hin. rewrite (Hhs h Hin). nia.
  - nia.
  - rewrite LY. nia.
  - rewrite E. cbn [bind]. exists z'. split; [reflexivity|]. split; [exact L|]. intros j. rewrite (H j).
    destruct (_ && _); [|reflexivity]. f_equal. unfold part. rewrite INR_IZR_INZ, Z2Nat.id by lia. reflexivity.
Qed.
Print Assumptions C32_sum_fftconv_partial.

(** Refuted: two sources, whatever the mode is, the result is not the sum. *)
Theorem C32_refuted_scaling : forall nthreads sch trash scr (Y0 Y' : list EN),
  1 <= nthreads -> length Y0 = 2%nat -> (forall X, length (trash X) = length X) -> (forall n, scratch_ok 2 (scr n)) ->
  cols_call (N:=EN) (sum_fftconv_point (dft_plan 2 trash) [reals [1; 2]%R; reals [3; 4]%R] 2 2 (reals [1; 1]%R) 1 cm_equ scr)
    1 nthreads sch Y0 = Ok (Some (Y', true)) ->
  nth 0 Y' (Some 0%R) = Some 2%R /\ nth 1 Y' (Some 0%R) = Some 3%R /\
  rsum 2 (fun l => cauchy (nth l [[1; 2]; [3; 4]] []) (nth l [[1]; [1]] []) 0)%R = 4%R /\
  rsum 2 (fun l => cauchy (nth l [[1; 2]; [3; 4]] []) (nth l [[1]; [1]] []) 1)%R = 6%R.
Proof.
  intros nthreads sch trash scr Y0 Y' Hth LY Ht Hs E.
  destruct (C32_sum_fftconv_partial [[1; 2]; [3; 4]]%R [1; 1]%R 2 1 1 cm_equ nthreads sch Y0 trash scr) as (r & Er & _ & Hr);
    auto; try lia; try exact Hs.
  { intros h [<-|[<-|[]]]; reflexivity. }
  pose proof (eq_trans (eq_sym Er) E) as Eq. injection Eq as ->.
  destruct (Hr Y' true eq_refl) as (_ & _ & Hall & _).
  pose proof (Hall eq_refl 0 0%nat ltac:(lia) ltac:(cbn; lia)) as H0.
  pose proof (Hall eq_refl 0 1%nat ltac:(lia) ltac:(cbn; lia)) as H1.
  split; [|split; [|split]].
  - etransitivity; [exact H0|]. unfold cauchy. pnat. f_equal. lra.
  - etransitivity; [exact H1|]. unfold cauchy. pnat. f_equal. lra.
  - unfold cauchy. pnat. lra.
  - unfold cauchy. pnat. lra.
Qed.
Print Assumptions C32_refuted_scaling.

(** Refuted: '-=' stores instead of subtracting.  h = u = [1] (transform
    length 1, so the scaling plays no role), old value v: the result is 1, not
    v - 1. *)
Theorem C32_refuted_neg : forall (v : R) nthreads sch trash scr (Y' : list EN),
  1 <= nthreads -> (forall X, length (trash X) = length X) -> (forall n, scratch_ok 1 (scr n)) ->
  cols_call (N:=EN) (sum_fftconv_point (dft_plan 1 trash) [reals [1%R]] 1 1 (reals [1%R]) 1 cm_neg scr)
    1 nthreads sch (reals [v]) = Ok (Some (Y', true)) ->
  Y' = reals [1%R].
Proof.
  intros v nthreads sch trash scr Y' Hth Ht Hs E.
  destruct (C32_sum_fftconv_partial [[1%R]] [1%R] 1 1 1 cm_neg nthreads sch (reals [v]) trash scr) as (r & Er & _ & Hr);
    auto; try lia; try exact Hs.
  { intros h [<-|[]]; reflexivity. }
  pose proof (eq_trans (eq_sym Er) E) as Eq. injection Eq as ->.
  destruct (Hr Y' true eq_refl) as (L & _ & Hall & _).
  apply eq_reals; [exact L|]. cbn [length]. intros k Hk. assert (k = O) by lia. subst k.
  etransitivity; [exact (Hall eq_refl 0 0%nat ltac:(lia) ltac:(cbn; lia))|]. unfold cauchy. pnat. f_equal. lra.
Qed.
Print Assumptions C32_refuted_neg.

(** Refuted: L >= 2 responses with U a 1 x L row (one sample per input) pass
    the argument check but U is then read as one signal of length L for each
    input: the second input's signal lies outside U. *)
Theorem C32_refuted_row_U : forall (N : Num) (p : fft_plan N) (U : list N) (H : list (list N)) hM hN mode scr n Y,
  let L := Z.of_nat (length H) in
  2 <= L -> 1 <= hM -> (forall h, In h H -> Z.of_nat (length h) = hM * hN) -> Z.of_nat (length U) = L -> 0 <= n < hN ->
  plan_ok p -> fp_len p = hM + L - 1 -> scratch_ok (hM + L - 1) (scr n) ->
  check_U L 1 L = Some (L, 1) /\
  sum_fftconv_point p H L hM U L mode scr n Y = UB UB_oob_read.
Proof.
  intros N p U H hM hN mode scr n Y L HL HhM Hhs LU Hn Hp Hpl (S1 & S2 & S3 & S4 & S5 & S6).
  split.
  { unfold check_U. rewrite Z.eqb_refl. cbn [negb]. replace (1 =? 1) with true by reflexivity. cbn [orb]. f_equal. f_equal. lia. }
  unfold sum_fftconv_point, add_fftconv.
  set (fl := hM + L - 1) in *.
  set (dd := (nofZ 0, nofZ 0) : N * N).
  destruct (for_upd dd 0 fl (fun i cf => buf_upd cf i (fun _ => dd)) (fun _ _ => dd) (s_cf (scr n))) as (cf & E & Lcf & _).
  { lia. }
  { intros i h Hi Hhh. rewrite buf_upd_ok by lia. rewrite Nat2Z.id. reflexivity. }
  rewrite E. cbn [bind].
  unfold for_loop. replace (Z.to_nat L) with (S (S (Z.to_nat L - 2))) by lia. cbn [for_from].
  (* first input *)
  rewrite (get_nth H 0 []) by lia. cbn [bind s_a s_b s_c s_af s_bf s_cf Z.to_nat].
  assert (H0 : In (nth 0 H []) H) by (apply nth_In; lia).
  pose proof (load_spec (nth 0 H []) (n * hM) hM fl (s_a (scr n)) ltac:(nia) ltac:(lia) ltac:(lia) ltac:(rewrite (Hhs _ H0); nia) S1) as Ea.
  pose proof (load_spec U (0 * L) L fl (s_b (scr n)) ltac:(lia) ltac:(lia) ltac:(lia) ltac:(lia) S2) as Eb.
  destruct (copy_in (nth 0 H []) (n * hM) hM (s_a (scr n))) as [a0|?|]; cbn [bind] in Ea |- *; try discriminate Ea.
  rewrite Ea. cbn [bind].
  destruct (copy_in U (0 * L) L (s_b (scr n))) as [b0|?|]; cbn [bind] in Eb |- *; try discriminate Eb.
  rewrite Eb. cbn [bind].
  set (xs := slice (n * hM) hM (nth 0 H [])) in *. set (ys := slice (0 * L) L U) in *.
  assert (Lx : length xs = Z.to_nat hM) by (apply length_slice; rewrite ?(Hhs _ H0); nia).
  assert (Ly : length ys = Z.to_nat L) by (apply length_slice; lia).
  assert (La : length (pad fl xs) = Z.to_nat (fp_len p)) by (rewrite length_pad; lia).
  assert (Lb : length (pad fl ys) = Z.to_nat (fp_len p)) by (rewrite length_pad; lia).
  destruct (fft_spec p _ (s_af (scr n)) Hp La ltac:(lia)) as (af & -> & Laf & Faf). cbn [bind].
  destruct (fft_spec p _ (s_bf (scr n)) Hp Lb ltac:(lia)) as (bf & -> & Lbf & Fbf). cbn [bind].
  destruct (for_upd dd 0 fl (fun i cf => do u <- buf_get af i; do v <- buf_get bf i;
                 buf_upd cf i (fun w => cadd w (cdiv (cmul u v) (nofZ fl))))
      (fun i w => cadd w (cdiv (cmul (nth i af dd) (nth i bf dd)) (nofZ fl))) cf) as (cf1 & E1 & Lcf1 & _).
  { lia. }
  { intros i h Hi Hhh. rewrite (get_nth af (Z.of_nat i) dd), (get_nth bf (Z.of_nat i) dd) by lia. cbn [bind].
    rewrite buf_upd_ok by lia. rewrite Nat2Z.id. reflexivity. }
  unfold for_loop in E1. rewrite E1. cbn [bind].
  (* second input *)
  change (0 + 1) with 1. rewrite (get_nth H 1 []) by lia. cbn [bind s_a s_b s_c s_af s_bf s_cf].
  assert (H1 : In (nth (Z.to_nat 1) H []) H) by (apply nth_In; lia).
  pose proof (load_spec (nth (Z.to_nat 1) H []) (n * hM) hM fl (pad fl xs) ltac:(nia) ltac:(lia) ltac:(lia) ltac:(rewrite (Hhs _ H1); nia) ltac:(lia)) as Ea2.
  destruct (copy_in (nth (Z.to_nat 1) H []) (n * hM) hM (pad fl xs)) as [a2|?|]; cbn [bind] in Ea2 |- *; try discriminate Ea2.
  rewrite Ea2. cbn [bind].
  assert (Eb2 : copy_in U (1 * L) L (pad fl ys) = UB UB_oob_read).
  { unfold copy_in, for_loop. destruct (Z.to_nat L) as [|m] eqn:Em; [lia|]. cbn [for_from].
    unfold buf_get, in_range. replace ((0 <=? 1 * L + 0) && (1 * L + 0 <? Z.of_nat (length U))) with false by lia. reflexivity. }
  rewrite Eb2. reflexivity.
Qed.
Print Assumptions C32_refuted_row_U.

(** The calls C32_refuted_scaling and C32_refuted_neg talk about do return. *)
Example C32_ex : exists Y', cols_call (N:=EN) (sum_fftconv_point (dft_plan 2 junk_trash) [reals [1; 2]%R; reals [3; 4]%R] 2 2 (reals [1; 1]%R) 1 cm_equ
    (fun _ => junk_scratch 2)) 1 1 (round_robin 4 1) (reals [0; 0]%R) = Ok (Some (Y', true)).
Proof.
  destruct (C32_sum_fftconv_partial [[1; 2]; [3; 4]]%R [1; 1]%R 2 1 1 cm_equ 1 (round_robin 4 1) (reals [0; 0]%R) junk_trash (fun _ => junk_scratch 2)) as (r & Er & Hf & Hr);
    auto; try lia.
  { intros h [<-|[<-|[]]]; reflexivity. }
  { intros X. apply map_length. }
  { intros n. exact (junk_ok 2). }
  destruct r as [[Y' running]|].
  2:{ exfalso. apply Hf; [|reflexivity]. intros i Hi. assert (i = 0) as -> by lia; vm_compute; discriminate. }
  destruct (Hr Y' running eq_refl) as (L & Hcc & Hall & _).
  assert (Hrun : running = true). { apply Hcc. intros Hin. vm_compute in Hin. repeat (destruct Hin as [Hin|Hin]; [discriminate|]). exact Hin. }
  subst running. exists Y'. exact Er.
Qed.
