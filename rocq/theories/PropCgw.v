(** PropCgw.v - property theorems about copy_p and add_p (C52, C53), the mode
    argument (C54) and complete calls of the convolution functions
    (C55-C58). *)
From Coq Require Strings.String.
Import Coq.Strings.String.StringSyntax.
From Coq Require Import Reals Lra.
From Verif Require Import Base BaseLemmas ModelSir ModelArr ModelSmp ModelConv NumR SpecDft SpecSmp SpecConv
  ProofsLoop ProofsSmp ProofsSmp2 ProofsDft ProofsConv ProofsConvR ProofsCols ProofsOla PropConv ModelGw SpecGwR ModelCgw SpecCgw ProofsCgw ProofsR.
From Coq Require Import ZifyBool ZifyNat.
Ltac Zify.zify_post_hook ::= Z.div_mod_to_equations.
Open Scope Z_scope.

(** ** C52, C53: copy_p and add_p *)

Lemma copy_unfold fe f hw env sch (va : value EN) AM AN (a : list R) st BM BN (b : list R) vr vk r1 r2 k1 k2 sta :
  has_pfun fe f = true -> va = VNum sta AM AN (exact a) ->
  pair_of vr r1 r2 -> pair_of vk k1 k2 ->
  let cast z := to_idx (idx_of fe) (Some (Ztruncr (IZR z))) in
  copy_gateway fe f hw env sch 0 [va; vr; vk; VNum st BM BN (exact b)] =
    (do ir1 <- cast r2;
      if (ir1 <? 1)%Z then Ok (Some CRejected) else
      do ir0 <- cast r1;
      if (AM <? ir0)%Z || (AM <? ir1)%Z then Ok (Some CRejected) else
      do ik1 <- cast k2;
      if (ik1 <? 1)%Z then Ok (Some CRejected) else
      do ik0 <- cast k1;
      if (AN <? ik0)%Z || (AN <? ik1)%Z then Ok (Some CRejected) else
      do dr <- cast (r2 - r1);
      if (BM <? dr + 1)%Z then Ok (Some CRejected) else
      do dk <- cast (k2 - k1);
      if negb (BN =? dk + 1)%Z then Ok (Some CRejected) else
      do rs <- cast (r1 - 1); do ks <- cast (k1 - 1); do len <- cast (r2 - r1 + 1);
      do x <- cols_call (N:=EN) (copy_point f AM BM rs ks len (exact b)) AN (num_threads hw env AN) sch (exact a);
      match x with
      | None => Ok None
      | Some (A', running) =>
        let A' := seen fe va (exact a) A' in
        Ok (Some (if running then CInPlace A' else CtrlCStop A'))
      end).
Proof.
  intros Hp -> (s1 & m1 & n1 & -> & E1) (s2 & m2 & n2 & -> & E2). cbv zeta.
  unfold copy_gateway. rewrite Hp. cbn [negb]. change (0 <? 0) with false. cbv iota.
  assert (Hd : forall fe s m n (d : list (car EN)), gw_data fe (VNum s m n d) = Ok d) by (intros []; reflexivity).
  rewrite !Hd. cbn [bind get_m get_n]. rewrite E1, E2.
  rewrite !minus_IZR, plus_IZR, !minus_IZR. reflexivity.
Qed.

(** C52: whole columns.  A call with valid row indices and
    col_idx = [1 N] (B has as many columns as A), whatever the schedule and
    the number of workers: it returns; when it was not interrupted the rows
    r1..r2 of A hold (have been increased by) the rows of B and nothing else
    changed; in an interrupted call this is so column by column. *)
Theorem C52_whole_columns : forall fe f hw env sch AM AN (a : list R) st BM (b : list R) vr vk r1 r2,
  has_pfun fe f = true -> 0 <= hw -> has_size AM AN a -> has_size BM AN b -> fits AM -> fits AN ->
  1 <= r1 -> r1 <= r2 -> r2 <= AM -> r2 - r1 + 1 <= BM -> 1 <= AN ->
  pair_of vr r1 r2 -> pair_of vk 1 AN ->
  exists out, copy_gateway fe f hw env sch 0 [mat AM AN a; vr; vk; VNum st BM AN (exact b)] = Ok out /\
    (runs_to_end hw env AN sch -> exists A', out = Some (CInPlace A')) /\
    (forall A', out = Some (CInPlace A') -> block_done f AM AN BM r1 r2 1 AN (exact a) (exact b) A') /\
    (forall A', out = Some (CtrlCStop A') -> length A' = length a /\ forall j, 0 <= j < AN ->
       (forall i, 0 <= i < AM -> entry (Some 0%R) AM A' i j = entry (Some 0%R) AM (exact a) i j) \/
       (forall i, 0 <= i < AM -> entry (Some 0%R) AM A' i j =
          if ((r1 - 1 <=? i) && (i <? r2))%bool
          then pvalue f (entry (Some 0%R) AM (exact a) i j) (entry (Some 0%R) BM (exact b) (i - (r1 - 1)) j)
          else entry (Some 0%R) AM (exact a) i j)).
Proof.
  intros fe f hw env sch AM AN a st BM b vr vk r1 r2 Hp Hhw (HA1 & HA2 & LA) (HB1 & _ & LB) F1 F2 Hr1 Hr12 Hr2 Hb HAN Vr Vk.
  unfold mat; rewrite (copy_unfold fe f hw env sch _ AM AN a st BM AN b vr vk r1 r2 1 AN Full Hp eq_refl Vr Vk). cbv zeta.
  assert (LA' : length (exact a) = length a) by apply map_length.
  assert (LB' : length (exact b) = length b) by apply map_length.
  unfold fits in F1, F2.
  assert (C : forall z, Z.abs z < 2^62 -> 0 <= z -> to_idx (idx_of fe) (Some (Ztruncr (IZR z))) = Ok z) by (intros; apply cast_int; auto).
  rewrite !C by lia. cbn [bind].
  replace (r2 <? 1) with false by lia. replace ((AM <? r1) || (AM <? r2)) with false by lia.
  replace (AN <? 1) with false by lia. replace (false || (AN <? AN)) with false by lia.
  replace (BM <? r2 - r1 + 1) with false by lia. replace (negb (AN =? AN - 1 + 1)) with false by lia.
  cbv iota. change (1 - 1) with 0.
  destruct (num_threads_ok hw env AN Hhw ltac:(lia)) as (Hth & _).
  set (F := fun (n : Z) (k : nat) (v : car EN) =>
    if (r1 - 1 <=? Z.of_nat k) && (Z.of_nat k <? r1 - 1 + (r2 - r1 + 1))
    then pv f v (nth (Z.to_nat (n * BM + (Z.of_nat k - (r1 - 1)))) (exact b) (nofZ (n:=EN) 0)) else v).
  destruct (cols_call_spec (N:=EN) AM AN (num_threads hw env AN) (copy_point f AM BM (r1 - 1) 0 (r2 - r1 + 1) (exact b)) F
    HA1 HA2 Hth) with (Y0 := exact a) (sch := sch) as (r & Er & Hf & Hr).
  { intros n Y Hn LY.
    destruct (copy_point_ok f AM AN BM (r1 - 1) (r2 - r1 + 1) (exact b) n Y) as (Y' & E & L & H); try lia.
    exists Y'. split; [exact E|]. split; [exact L|]. exact H. }
  { rewrite LA'. nia. }
  rewrite Er. cbn [bind].
  assert (En : forall l : list (car EN), forall i j, 0 <= i < AM -> 0 <= j ->
     entry (Some 0%R) AM l i j = nth (Z.to_nat (j * AM) + Z.to_nat i) l (nofZ (n:=EN) 0)).
  { intros l i j Hi Hj. unfold entry. change (Some 0%R : car EN) with (nofZ (n:=EN) 0). f_equal. rewrite Z2Nat.inj_add by nia. reflexivity. }
  assert (Eb : forall i j, 0 <= i -> 0 <= j ->
     nth (Z.to_nat (j * BM + i)) (exact b) (nofZ (n:=EN) 0) = entry (Some 0%R) BM (exact b) i j) by reflexivity.
  assert (HFE : forall n k v, 0 <= n -> F n k v = if ((r1 - 1 <=? Z.of_nat k) && (Z.of_nat k <? r2))%bool
       then pvalue f v (entry (Some 0%R) BM (exact b) (Z.of_nat k - (r1 - 1)) n) else v).
  { intros n k v Hn. unfold F. replace (r1 - 1 + (r2 - r1 + 1)) with r2 by lia. reflexivity. }
  destruct r as [[Y' running]|].
  2:{ eexists. split; [reflexivity|]. split; [|split; discriminate].
      intros [_ Hfair]. exfalso. exact (Hf Hfair eq_refl). }
  destruct (Hr Y' running eq_refl) as (L & Hcc & Hall & Hsome).
  eexists. split; [reflexivity|]. 
  replace (seen fe (VNum Full AM AN (exact a)) (exact a) Y') with Y' by (destruct fe; reflexivity).
  split; [intros [Hc _]; rewrite (Hcc Hc); eauto|]. split.
  - intros A'. destruct running; [|discriminate]. intros [= <-]. split; [exact L|]. intros i j Hi Hj.
    rewrite !En by lia. rewrite (Hall eq_refl j (Z.to_nat i)) by lia. rewrite HFE, Z2Nat.id by lia.
    replace ((1 - 1 <=? j) && true) with true by lia.
    destruct ((r1 - 1 <=? i) && (i <? r2)) eqn:E1; cbn [andb].
    + replace (1 - 1 <=? j) with true by lia. replace (j <? AN) with true by lia. cbn [andb]. replace (j - (1 - 1)) with j by lia. reflexivity.
    + reflexivity.
  - intros A'. destruct running; [discriminate|]. intros [= <-]. split; [rewrite <- LA'; exact L|]. intros j Hj.
    destruct (Hsome j Hj) as [H|H]; [left|right]; intros i Hi; rewrite !En by lia; rewrite H by lia; [reflexivity|].
    rewrite HFE, Z2Nat.id by lia. reflexivity.
Qed.
Print Assumptions C52_whole_columns.

(** C53, refuted: whatever non-empty block the call names, if it is not a block of
    whole columns with valid rows, no call gets to its end (the loop runs
    over all columns of A, and the lower bounds are checked on the wrong
    index): accepted calls leave A or B.  Without CTRL-C the call either
    refuses its arguments or, once every worker has had its steps, has made a
    bad access. *)
Theorem C53_refuted_other_blocks : forall fe f hw env sch AM AN (a : list R) st BM BN (b : list R) vr vk r1 r2 k1 k2,
  has_pfun fe f = true -> 0 <= hw -> has_size AM AN a -> has_size BM BN b ->
  r1 <= r2 -> 1 <= AN -> pair_of vr r1 r2 -> pair_of vk k1 k2 ->
  ~ (1 <= r1 /\ k1 = 1 /\ k2 = AN) ->
  let c := copy_gateway fe f hw env sch 0 [mat AM AN a; vr; vk; VNum st BM BN (exact b)] in
  (forall A', c <> Ok (Some (CInPlace A'))) /\
  (runs_to_end hw env AN sch -> c = Ok (Some CRejected) \/ exists u, c = UB u \/ c = Diverge).
Proof.
  intros fe f hw env sch AM AN a st BM BN b vr vk r1 r2 k1 k2 Hp Hhw (HA1 & HA2 & LA) (HB1 & HB2 & LB) Hr HAN Vr Vk Hnot c.
  unfold c, mat. rewrite (copy_unfold fe f hw env sch _ AM AN a st BM BN b vr vk r1 r2 k1 k2 Full Hp eq_refl Vr Vk). cbv zeta. clear c.
  assert (LB' : length (exact b) = length b) by apply map_length.
  assert (QR : forall x : res (option (coutcome EN)), x = Ok (Some CRejected) ->
    (forall A', x <> Ok (Some (CInPlace A'))) /\ (runs_to_end hw env AN sch -> x = Ok (Some CRejected) \/ exists u, x = UB u \/ x = Diverge)).
  { intros x ->. split; [discriminate|]. auto. }
  assert (QU : forall u, (forall A', UB u <> Ok (Some (@CInPlace EN A'))) /\ (runs_to_end hw env AN sch -> @UB (option (coutcome EN)) u = Ok (Some CRejected) \/ exists u', @UB (option (coutcome EN)) u = UB u' \/ UB u = @Diverge (option (coutcome EN)))).
  { intros u. split; [discriminate|]. intros _. right. exists u. now left. }
  destruct (cast_bad fe r2) as [-> | ->]; cbn [bind]; [|apply QU]. destruct (r2 <? 1) eqn:T1; [now apply QR|].
  destruct (cast_bad fe r1) as [-> | ->]; cbn [bind]; [|apply QU]. destruct ((AM <? r1) || (AM <? r2)) eqn:T2; [now apply QR|].
  destruct (cast_bad fe k2) as [-> | ->]; cbn [bind]; [|apply QU]. destruct (k2 <? 1) eqn:T3; [now apply QR|].
  destruct (cast_bad fe k1) as [-> | ->]; cbn [bind]; [|apply QU]. destruct ((AN <? k1) || (AN <? k2)) eqn:T4; [now apply QR|].
  destruct (cast_bad fe (r2 - r1)) as [-> | ->]; cbn [bind]; [|apply QU]. destruct (BM <? r2 - r1 + 1) eqn:T5; [now apply QR|].
  destruct (cast_bad fe (k2 - k1)) as [-> | ->]; cbn [bind]; [|apply QU]. destruct (negb (BN =? k2 - k1 + 1)) eqn:T6; [now apply QR|].
  destruct (cast_bad fe (r1 - 1)) as [-> | ->]; cbn [bind]; [|apply QU].
  destruct (cast_bad fe (k1 - 1)) as [-> | ->]; cbn [bind]; [|apply QU].
  destruct (cast_bad fe (r2 - r1 + 1)) as [-> | ->]; cbn [bind]; [|apply QU].
  destruct (num_threads_ok hw env AN Hhw ltac:(lia)) as (Hth & _).
  set (pt := copy_point f AM BM (r1 - 1) (k1 - 1) (r2 - r1 + 1) (exact b)).
  assert (Hbad : exists n0, 0 <= n0 < AN /\ forall Y s, pt n0 Y <> Ok s).
  { destruct (Z_lt_le_dec k1 1) as [Hk|Hk].
    - exists 0. split; [lia|]. intros Y s. apply copy_point_bad_write; [lia|]. nia.
    - destruct (Z.eq_dec BN AN) as [HB|HB].
      + exists 0. split; [lia|]. intros Y s. apply copy_point_bad_write; [lia|]. assert (k1 = 1 /\ k2 = AN) by lia. nia.
      + exists (AN - 1). split; [lia|]. intros Y s. apply copy_point_bad_read; [lia|]. rewrite LB', LB. nia. }
  destruct Hbad as (n0 & Hn0 & Hbad).
  destruct (gen_bad pt AN (num_threads hw env AN) n0 (copy_point_none _ _ _ _ _ _ _) Hbad Hn0 Hth (exact a) sch) as (G1 & G2).
  split.
  - intros A'. destruct (cols_call pt _ _ _ _) as [[[Y r]|]|?|] eqn:E; cbn [bind]; try discriminate.
    destruct r; [exfalso; exact (G1 Y eq_refl)|discriminate].
  - intros [Hcc Hf]. right. destruct (G2 Hcc) as (_ & G3).
    destruct (cols_call pt _ _ _ _) as [x|u|] eqn:E; cbn [bind].
    + exfalso. exact (G3 Hf x eq_refl).
    + exists u. now left.
    + exists UB_cast. now right.
Qed.
Print Assumptions C53_refuted_other_blocks.

(** C53: a block that reaches beyond A, or a B of the wrong size, is refused
    (indices and sizes below 2^62). *)
Theorem C53_rejected_partial : forall fe f hw env sch AM AN (a : list R) st BM BN (b : list R) vr vk r1 r2 k1 k2,
  has_pfun fe f = true -> fits r1 -> fits r2 -> fits k1 -> fits k2 ->
  1 <= r1 <= r2 -> 1 <= k1 <= k2 -> pair_of vr r1 r2 -> pair_of vk k1 k2 ->
  AM < r2 \/ AN < k2 \/ BM < r2 - r1 + 1 \/ BN <> k2 - k1 + 1 ->
  copy_gateway fe f hw env sch 0 [mat AM AN a; vr; vk; VNum st BM BN (exact b)] = Ok (Some CRejected).
Proof.
  intros fe f hw env sch AM AN a st BM BN b vr vk r1 r2 k1 k2 Hp F1 F2 F3 F4 Hr Hk Vr Vk Hx.
  unfold mat; rewrite (copy_unfold fe f hw env sch _ AM AN a st BM BN b vr vk r1 r2 k1 k2 Full Hp eq_refl Vr Vk). cbv zeta.
  unfold fits in *.
  assert (C : forall z, Z.abs z < 2^62 -> 0 <= z -> to_idx (idx_of fe) (Some (Ztruncr (IZR z))) = Ok z) by (intros; apply cast_int; auto).
  rewrite (C r2), (C r1), (C k2), (C k1), (C (r2 - r1)), (C (k2 - k1)) by lia. cbn [bind].
  replace (r2 <? 1) with false by lia. replace (k2 <? 1) with false by lia. cbv iota.
  destruct ((AM <? r1) || (AM <? r2)) eqn:T1; [reflexivity|]. destruct ((AN <? k1) || (AN <? k2)) eqn:T2; [reflexivity|].
  destruct (BM <? r2 - r1 + 1) eqn:T3; [reflexivity|]. destruct (negb (BN =? k2 - k1 + 1)) eqn:T4; [reflexivity|]. lia.
Qed.
Print Assumptions C53_rejected_partial.

(** C53, refuted: in Octave, if A is a scalar, a range, a single or an integer
    matrix, every completed call leaves the variable as it was. *)
Theorem C53_refuted_octave_temporary : forall f hw env sch nlhs AM AN (a A' : list (car EN)) rest,
  copy_gateway Octave f hw env sch nlhs (VNum Temp AM AN a :: rest) = Ok (Some (CInPlace A')) -> A' = a.
Proof.
  intros f hw env sch nlhs AM AN a A' rest. unfold copy_gateway. cbn [has_pfun negb].
  destruct rest as [|vr [|vk [|vb [|]]]]; try discriminate.
  destruct (0 <? nlhs); [discriminate|]. cbn [gw_data bind get_m get_n].
  repeat (match goal with
          | |- context [bind ?m _] => destruct m as [?|?|]; cbn [bind]; try discriminate
          | |- context [if ?b then Ok (Some CRejected) else _] => destruct b; try discriminate
          end).
  match goal with |- context [match ?o with Some _ => _ | None => _ end] => destruct o as [[Y r]|]; [|discriminate] end.
  cbn [seen]. destruct r; [|discriminate]. now intros [= <-].
Qed.
Print Assumptions C53_refuted_octave_temporary.

(** Witnesses.  Rows 2..3 of both columns of a 3 x 2 matrix, two workers. *)
Example C52_ex : exists A', copy_gateway Octave PAdd 2 None (round_robin 4 2) 0
    [mat 3 2 [1; 2; 3; 4; 5; 6]%R; mat 1 2 [2; 3]%R; mat 2 1 [1; 2]%R; mat 2 2 [10; 20; 30; 40]%R] = Ok (Some (CInPlace A')) /\
  entry (Some 0%R) 3 A' 1 0 = Some 12%R /\ entry (Some 0%R) 3 A' 0 1 = Some 4%R /\ entry (Some 0%R) 3 A' 2 1 = Some 46%R.
Proof.
  destruct (C52_whole_columns Octave PAdd 2 None (round_robin 4 2) 3 2 [1; 2; 3; 4; 5; 6]%R Full 2 [10; 20; 30; 40]%R
     (mat 1 2 [2; 3]%R) (mat 2 1 [1; 2]%R) 2 3) as (out & E & Hf & Hd & _); try reflexivity; try lia; try (unfold has_size; cbn; lia);
     try (unfold pair_of, mat; eauto 6).
  destruct Hf as (A' & ->).
  { split. { intros Hin. vm_compute in Hin. repeat (destruct Hin as [Hin|Hin]; [discriminate|]). exact Hin. }
    change (num_threads 2 None 2) with 2. intros i Hi. assert (i = 0 \/ i = 1) as [->| ->] by lia; vm_compute; discriminate. }
  exists A'. split; [exact E|]. destruct (Hd A' eq_refl) as (_ & H).
  split; [|split].
  - etransitivity; [apply (H 1 0); lia|]. unfold entry. pnat. f_equal. lra.
  - etransitivity; [apply (H 0 1); lia|]. unfold entry. pnat. reflexivity.
  - etransitivity; [apply (H 2 1); lia|]. unfold entry. pnat. f_equal. lra.
Qed.

(** The documented kind of call that C53_refuted_other_blocks is about:
    copy_p(A, [1 1], [2 2], B) for a 1 x 3 matrix A. *)
Example C53_ex : copy_gateway Octave PCopy 1 None (round_robin 12 1) 0
    [mat 1 3 [1; 2; 3]%R; mat 1 2 [1; 1]%R; mat 1 2 [2; 2]%R; mat 1 1 [7]%R] = UB UB_oob_read.
Proof.
  unfold mat.
  unfold mat; rewrite (copy_unfold Octave PCopy 1 None (round_robin 12 1) _ 1 3 [1; 2; 3]%R Full 1 1 [7]%R _ _ 1 1 2 2 Full eq_refl eq_refl);
    try (unfold pair_of, mat; eauto 6).
  cbv zeta. change (1 - 1) with 0. change (2 - 2) with 0. change (0 + 1) with 1. change (2 - 1) with 1.
  rewrite !trunc_IZR. reflexivity.
Qed.
