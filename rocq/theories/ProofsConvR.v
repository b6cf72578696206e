(** ProofsConvR.v - exact arithmetic: the DFT based product is the Cauchy
    product. *)
From Coq Require Import Reals Lra.
From Verif Require Import Base BaseLemmas ModelSir ModelConv NumR SpecDft SpecConv ProofsLoop ProofsDft ProofsConv.
From Coq Require Import ZifyBool ZifyNat.
Ltac Zify.zify_post_hook ::= Z.div_mod_to_equations.
Open Scope R_scope.

Lemma all_some_map (v : list R) : all_some (map (@Some R) v) = Some v.
Proof. induction v as [|a v IH]; cbn; [reflexivity|]. now rewrite IH. Qed.
Lemma all_some_length l v : all_some l = Some v -> length v = length l.
Proof.
  revert v; induction l as [|[a|] l IH]; cbn; intros v; try discriminate; [now intros [= <-]|].
  destruct (all_some l) as [w|]; try discriminate. intros [= <-]. cbn. f_equal. now apply IH.
Qed.

Lemma half_dft L tr : half (dft_plan L tr) = (L / 2 + 1)%nat.
Proof. unfold half. cbn [fp_len dft_plan]. lia. Qed.

Lemma dft_plan_ok L tr : (1 <= L)%nat -> (forall X, length (tr X) = length X) -> plan_ok (dft_plan L tr).
Proof.
  intros HL Ht. split.
  - cbn. lia.
  - intros x Hx. rewrite half_dft. cbn [fp_r2c dft_plan]. destruct (all_some x).
    + now rewrite map_length, seq_length.
    + apply repeat_length.
  - intros X HX. cbn [fp_c2r dft_plan fp_len].
    destruct (all_some (map fst X)), (all_some (map snd X)); rewrite ?map_length, ?seq_length, ?repeat_length; lia.
  - exact Ht.
Qed.

Definition padr (L : nat) (x : list R) : list R := x ++ repeat 0 (L - length x).
Lemma pad_reals L x : pad (N:=EN) (Z.of_nat L) (reals x) = reals (padr L x).
Proof.
  unfold pad, reals, padr. rewrite map_app, map_length, Nat2Z.id. f_equal.
  generalize (L - length x)%nat. intros m. induction m as [|m IH]; [reflexivity|]. cbn [repeat map]. f_equal. exact IH.
Qed.
Lemma nth_padr L x n : nth n (padr L x) 0 = nth n x 0.
Proof.
  unfold padr. destruct (Nat.lt_ge_cases n (length x)) as [H|H].
  - now rewrite app_nth1.
  - rewrite app_nth2, nth_repeat, nth_overflow by lia. reflexivity.
Qed.

(** The spectrum of a padded real vector. *)
Lemma r2c_reals L tr x : fp_r2c (dft_plan L tr) (pad (N:=EN) (Z.of_nat L) (reals x)) =
  map (fun k => (Some (dft_re L (fun n => nth n x 0) k), Some (dft_im L (fun n => nth n x 0) k))) (seq 0 (L / 2 + 1)).
Proof.
  rewrite pad_reals. cbn [fp_r2c dft_plan]. unfold reals. rewrite all_some_map.
  apply map_ext. intros k. unfold dft_re, dft_im.
  rewrite (rsum_ext L (fun n => nth n (padr L x) 0 * cos (ang L (INR k * INR n))) (fun n => nth n x 0 * cos (ang L (INR k * INR n))))
    by (intros; now rewrite nth_padr).
  rewrite (rsum_ext L (fun n => nth n (padr L x) 0 * sin (ang L (INR k * INR n))) (fun n => nth n x 0 * sin (ang L (INR k * INR n))))
    by (intros; now rewrite nth_padr).
  reflexivity.
Qed.

Lemma c2r_eq L tr X re im : all_some (map fst X) = Some re -> all_some (map snd X) = Some im ->
  fp_c2r (dft_plan L tr) X = map (fun n => Some (idft L (fun k => nth k re 0%R) (fun k => nth k im 0%R) n)) (seq 0 L).
Proof.
  intros E1 E2. cbn [fp_c2r dft_plan].
  change (match all_some (map fst X), all_some (map snd X) with
              | Some re, Some im => map (fun n => Some (idft L (fun k => nth k re 0%R) (fun k => nth k im 0%R) n)) (seq 0 L)
              | _, _ => repeat None L
              end = map (fun n => Some (idft L (fun k => nth k re 0%R) (fun k => nth k im 0%R) n)) (seq 0 L)).
  rewrite E1, E2. reflexivity.
Qed.

(** The inverse transform of a defined half spectrum. *)
Lemma c2r_defined L tr re im :
  fp_c2r (dft_plan L tr) (map (fun k => (Some (re k), Some (im k))) (seq 0 (L / 2 + 1))) =
  map (fun n => Some (idft L re im n)) (seq 0 L).
Proof.
  etransitivity.
  { apply (c2r_eq L tr _ (map re (seq 0 (L / 2 + 1))) (map im (seq 0 (L / 2 + 1)))).
    - rewrite map_map. cbn [fst]. rewrite <- (all_some_map (map re (seq 0 (L / 2 + 1)))). now rewrite map_map.
    - rewrite map_map. cbn [snd]. rewrite <- (all_some_map (map im (seq 0 (L / 2 + 1)))). now rewrite map_map. }
  apply map_ext_in. intros n Hn. f_equal.
  assert (A : forall (g : nat -> R) k, (k <= L / 2)%nat -> nth k (map g (seq 0 (L / 2 + 1))) 0 = g k).
  { intros g k Hk. rewrite (nth_indep _ 0 (g O)) by (rewrite map_length, seq_length; lia).
    rewrite map_nth, seq_nth by lia. reflexivity. }
  apply idft_ext; intros k Hk; apply A; exact Hk.
Qed.

Lemma combine_map {A B C} (f : A -> B) (g : A -> C) l : combine (map f l) (map g l) = map (fun a => (f a, g a)) l.
Proof. induction l as [|a l IH]; cbn; [reflexivity|]. now rewrite IH. Qed.

Lemma fft_product_E L tr x y : (1 <= length x)%nat -> (1 <= length y)%nat -> L = (length x + length y - 1)%nat ->
  fft_product (dft_plan L tr) (reals x) (reals y) = reals (convolution x y).
Proof.
  intros Hx Hy HL. unfold fft_product. change (fp_len (dft_plan L tr)) with (Z.of_nat L).
  rewrite !r2c_reals, combine_map, map_map. cbn [fst snd].
  etransitivity.
  { apply (f_equal (map (fun v : EN => ndiv v (nofZ (Z.of_nat L))))).
    exact (c2r_defined L tr
      (fun k => dft_re L (fun n => nth n x 0) k * dft_re L (fun n => nth n y 0) k - dft_im L (fun n => nth n x 0) k * dft_im L (fun n => nth n y 0) k)
      (fun k => dft_re L (fun n => nth n x 0) k * dft_im L (fun n => nth n y 0) k + dft_im L (fun n => nth n x 0) k * dft_re L (fun n => nth n y 0) k)). }
  unfold reals, convolution. rewrite <- HL, !map_map. apply map_ext_in. intros n Hn. apply in_seq in Hn.
  subst L. rewrite dft_convolution by lia. set (L := (length x + length y - 1)%nat) in *.
  change (e_div (Some (INR L * cauchy x y n)) (Some (IZR (Z.of_nat L))) = Some (cauchy x y n)).
  rewrite <- INR_IZR_INZ. assert (0 < INR L) by (apply lt_0_INR; lia).
  cbn [e_div]. destruct (Req_EM_T (INR L) 0) as [E|E]; [lra|]. f_equal. field. exact E.
Qed.

(** ** Sums in the code's order are the Cauchy product *)
Lemma fold_add_E (f : nat -> R) l v :
  fold_left (fun acc i => e2 Rplus acc (Some (f i))) l (Some v) = Some (v + fold_right Rplus 0 (map f l)).
Proof. revert v; induction l as [|i l IH]; intros v; cbn [fold_left map fold_right e2]; [f_equal; lra|]. rewrite IH. f_equal. lra. Qed.
Lemma fold_sub_E (f : nat -> R) l v :
  fold_left (fun acc i => e2 Rminus acc (Some (f i))) l (Some v) = Some (v - fold_right Rplus 0 (map f l)).
Proof. revert v; induction l as [|i l IH]; intros v; cbn [fold_left map fold_right e2]; [f_equal; lra|]. rewrite IH. f_equal. lra. Qed.
Lemma fold_none (op : R -> R -> R) (f : nat -> option R) l : fold_left (fun acc i => e2 op acc (f i)) l None = None.
Proof. induction l as [|i l IH]; cbn; [reflexivity|]. exact IH. Qed.

Lemma rsum_seq n f : rsum n f = fold_right Rplus 0 (map f (seq 0 n)).
Proof.
  induction n as [|n IH]; [reflexivity|]. cbn [rsum]. rewrite IH, seq_S, map_app, fold_right_app. cbn [Nat.add map fold_right].
  generalize (map f (seq 0 n)). intros l. rewrite Rplus_0_r. induction l as [|a l IHl]; cbn [fold_right]; [lra|]. rewrite <- IHl. lra.
Qed.
Lemma fold_filter (p : nat -> bool) (f : nat -> R) l :
  fold_right Rplus 0 (map f (filter p l)) = fold_right Rplus 0 (map (fun i => if p i then f i else 0) l).
Proof. induction l as [|a l IH]; cbn [filter map fold_right]; [reflexivity|]. destruct (p a); cbn [map fold_right]; rewrite IH; lra. Qed.

Lemma cauchy_filter x y k :
  fold_right Rplus 0 (map (fun i => nth i x 0 * nth (k - i) y 0)
    (filter (fun i => (i <=? k) && (k - i <? length y))%nat (seq 0 (length x)))) = cauchy x y k.
Proof.
  rewrite fold_filter, <- rsum_seq. unfold cauchy.
  set (g := fun i => if ((i <=? k) && (k - i <? length y))%nat then nth i x 0 * nth (k - i) y 0 else 0).
  transitivity (rsum (length x + S k) g).
  - symmetry. apply rsum_tail; [lia|]. intros i Hi. unfold g. destruct (_ && _); [|reflexivity].
    rewrite (nth_overflow x) by lia. lra.
  - rewrite (rsum_tail (S k) (length x + S k) g).
    + apply rsum_ext. intros i Hi. unfold g. replace (i <=? k)%nat with true by lia. cbn [andb].
      destruct (k - i <? length y)%nat eqn:E; [reflexivity|]. rewrite (nth_overflow y) by lia. lra.
    + lia.
    + intros i Hi. unfold g. replace (i <=? k)%nat with false by lia. reflexivity.
Qed.

Lemma nth_reals l i : nth i (reals l) (nofZ (n:=EN) 0) = Some (nth i l 0).
Proof. unfold reals. change (nofZ (n:=EN) 0) with (Some 0). apply (map_nth (@Some R)). Qed.

Lemma cauchy_from_E (op : R -> R -> R) x y k (v : option R) :
  cauchy_from (N:=EN) (e2 op) (reals x) (reals y) k v =
  fold_left (fun acc i => e2 op acc (Some (nth i x 0 * nth (k - i) y 0)))
      (filter (fun i => (i <=? k) && (k - i <? length y))%nat (seq 0 (length x))) v.
Proof.
  unfold cauchy_from. replace (length (reals x)) with (length x) by (unfold reals; now rewrite map_length).
  replace (length (reals y)) with (length y) by (unfold reals; now rewrite map_length).
  generalize (filter (fun i => (i <=? k) && (k - i <? length y))%nat (seq 0 (length x))). intros l.
  revert v; induction l as [|i l IH]; intros v; [reflexivity|]. cbn [fold_left].
  rewrite !nth_reals. exact (IH _).
Qed.

Lemma conv_sample_E mode x y (v : EN) k :
  conv_sample (N:=EN) mode (reals x) (reals y) v k = comb (N:=EN) mode v (Some (cauchy x y k)).
Proof.
  destruct mode; cbn [conv_sample comb].
  - etransitivity; [exact (cauchy_from_E Rplus x y k (Some 0))|]. rewrite fold_add_E, cauchy_filter. f_equal. lra.
  - etransitivity; [exact (cauchy_from_E Rplus x y k v)|]. destruct v as [v|].
    + rewrite fold_add_E, cauchy_filter. reflexivity.
    + apply fold_none.
  - etransitivity; [exact (cauchy_from_E Rminus x y k v)|]. destruct v as [v|].
    + rewrite fold_sub_E, cauchy_filter. reflexivity.
    + apply fold_none.
Qed.

Lemma slice_reals off len l : slice off len (reals l) = reals (slice off len l).
Proof. unfold slice, reals. now rewrite skipn_map, firstn_map. Qed.
Lemma nth_convolution x y k : (k < length x + length y - 1)%nat -> nth k (convolution x y) 0 = cauchy x y k.
Proof.
  intros H. unfold convolution. rewrite (nth_indep _ 0 (cauchy x y O)) by (rewrite map_length, seq_length; lia).
  rewrite map_nth, seq_nth by lia. reflexivity.
Qed.
