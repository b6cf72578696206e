(** ProofsDasJ.v - delay-and-sum calls over the reals. *)
From Coq Require Import Reals Lra Lia ZArith List Bool ZifyBool ZifyNat.
From Verif Require Import Base BaseLemmas ModelSir ModelArr ModelSmp ModelDas NumR SpecSmp SpecDft SpecDas
  ProofsLocal ProofsLocalArr ProofsSmp ProofsLoop ProofsCallG ProofsSmp2 ProofsR ProofsDas ProofsDasR ProofsRca.
Import ListNotations.
Open Scope R_scope.

Lemma get_emb (l : list R) z : (0 <= z < Z.of_nat (length l))%Z ->
  buf_get (map Some l : list EN) z = Ok (Some (nth (Z.to_nat z) l 0) : EN).
Proof.
  intros H. rewrite (get_nth _ z (Some 0 : EN)) by (rewrite map_length; exact H).
  f_equal. exact (map_nth (@Some R) l 0 (Z.to_nat z)).
Qed.

Section J.
  Variables (K : idx_kind) (J : rjob).
  Hypothesis OK : rjob_ok J.

  Lemma emb_wf : das_wf (emb_das J).
  Proof.
    destruct OK as [O1 O2 O3 O4 O5 O6].
    split; cbn [emb_das d_len d_No d_num_t d_num_r d_Ro d_delay_type d_delay d_Gt d_Gr]; try lia.
    - etransitivity; [exact (f_equal Z.of_nat (map_length _ _))|lia].
    - replace (Z.of_nat (length (map Some (q_delay J) : list EN))) with (Z.of_nat (length (q_delay J)))
        by (symmetry; exact (f_equal Z.of_nat (map_length _ _))). destruct (q_dty J); lia.
    - etransitivity; [exact (f_equal Z.of_nat (map_length _ _))|lia].
    - etransitivity; [exact (f_equal Z.of_nat (map_length _ _))|lia].
  Qed.

  Lemma emb_args n : (n < q_No J)%nat ->
    let xo := (Some (vx (point_of J n)) : EN) in let yo := (Some (vy (point_of J n)) : EN) in
    let zo := (Some (vz (point_of J n)) : EN) in let dl := (Some (delay_of J n) : EN) in
    let Y := (map Some (q_Y J) : list EN) in let Gt := (map Some (q_Gt J) : list EN) in
    let Gr := (map Some (q_Gr J) : list EN) in let dt := (Some (q_dt J) : EN) in let cp := (Some (q_cp J) : EN) in
    let len := Z.of_nat (q_len J) in let nt := Z.of_nat (q_nt J) in let nr := Z.of_nat (q_nr J) in
    das_value (N:=EN) K (emb_das J) (Z.of_nat n) =
    match das_method (emb_das J) with
    | das_saft => das_saft_serial (N:=EN) K Y len Gt nt xo yo zo dt dl cp (q_lvl J)
    | das_tfm => das_tfm_serial (N:=EN) K Y len Gt nt Gr nr xo yo zo dt dl cp (q_lvl J)
    | das_rca_coltx => das_rca_serial_coltx (N:=EN) K Y len Gt nt Gr nr xo yo zo dt dl cp (q_lvl J)
    | das_rca_rowtx => das_rca_serial_rowtx (N:=EN) K Y len Gt nt Gr nr xo yo zo dt dl cp (q_lvl J)
    end.
  Proof.
    intros Hn. destruct OK as [O1 O2 O3 O4 O5 O6]. cbv zeta. unfold das_value.
    cbn [emb_das d_len d_No d_num_t d_num_r d_Ro d_delay_type d_delay d_Gt d_Gr d_Y d_dt d_cp d_lvl].
    rewrite !get_emb by (rewrite O1; lia). cbn [bind].
    unfold point_of, row3, vx, vy, vz. cbn [fst snd].
    replace (Z.to_nat (Z.of_nat n + 1 * Z.of_nat (q_No J))) with (n + q_No J)%nat by lia.
    replace (Z.to_nat (Z.of_nat n + 2 * Z.of_nat (q_No J))) with (n + 2 * q_No J)%nat by lia.
    rewrite Nat2Z.id. unfold delay_of. destruct (q_dty J); rewrite get_emb by lia; cbn [bind]; rewrite ?Nat2Z.id; reflexivity.
  Qed.

  Lemma method_tfm : q_type J = das_tfm -> (1 <= q_nr J)%nat -> das_method (emb_das J) = das_tfm.
  Proof. intros E H. unfold das_method. cbn. replace (Z.of_nat (q_nr J) =? 0)%Z with false by lia. exact E. Qed.
  Lemma method_saft : q_type J = das_saft \/ q_nr J = 0%nat -> das_method (emb_das J) = das_saft.
  Proof.
    intros E. unfold das_method. cbn. destruct (Z.of_nat (q_nr J) =? 0)%Z eqn:Z; [reflexivity|].
    destruct E as [E|E]; [exact E|lia].
  Qed.

  Lemma point_eta n : point_of J n = (vx (point_of J n), vy (point_of J n), vz (point_of J n)).
  Proof. destruct (point_of J n) as [[x y] z]. reflexivity. Qed.

  Lemma value_tfm n : (n < q_No J)%nat -> q_type J = das_tfm -> (1 <= q_nr J)%nat ->
    (q_nt J * q_nr J * q_len J <= length (q_Y J))%nat ->
    (forall t r, (t < q_nt J)%nat -> (r < q_nr J)%nat -> fits K (pair_sample (q_dt J) (q_cp J) (delay_of J n) (tx_dist J n t) (rx_dist J n r))) ->
    das_value (N:=EN) K (emb_das J) (Z.of_nat n) =
    Ok (das_result K (q_Y J) (Z.of_nat (q_len J)) (q_lvl J)
         (rpairs (q_nt J) (q_nr J) (g_pair (q_dt J) (q_cp J) (delay_of J n) (tx_dist J n) (rx_dist J n)))).
  Proof.
    intros Hn Ht Hr HY Hf. etransitivity; [exact (emb_args n Hn)|]. rewrite method_tfm by assumption.
    destruct OK as [O1 O2 O3 O4 O5 O6].
    etransitivity; [refine (tfm_R K (q_Y J) (Z.of_nat (q_len J)) _ _ _ _ _ _ (q_lvl J) _ O5 O6 (q_Gt J) (q_Gr J) _ _ _ _ _ _); try lia|].
    - rewrite !Nat2Z.id. intros i j Hi Hj. rewrite <- point_eta. apply Hf; assumption.
    - rewrite !Nat2Z.id, <- point_eta. reflexivity.
  Qed.

  Lemma value_saft n : (n < q_No J)%nat -> q_type J = das_saft \/ q_nr J = 0%nat ->
    (q_nt J * q_len J <= length (q_Y J))%nat ->
    (forall t, (t < q_nt J)%nat -> fits K (pair_sample (q_dt J) (q_cp J) (2 * delay_of J n) (tx_dist J n t) (tx_dist J n t))) ->
    das_value (N:=EN) K (emb_das J) (Z.of_nat n) =
    Ok (das_result K (q_Y J) (Z.of_nat (q_len J)) (q_lvl J)
         (map (fun i => (i, g_saft (q_dt J) (q_cp J) (delay_of J n) (tx_dist J n) i)) (seq 0 (q_nt J)))).
  Proof.
    intros Hn Ht HY Hf. etransitivity; [exact (emb_args n Hn)|]. rewrite method_saft by assumption.
    destruct OK as [O1 O2 O3 O4 O5 O6].
    etransitivity; [refine (saft_R K (q_Y J) (Z.of_nat (q_len J)) _ _ _ _ _ _ (q_lvl J) _ O5 O6 (q_Gt J) _ _ _ _); try lia|].
    - rewrite !Nat2Z.id. intros i Hi. rewrite <- point_eta. apply Hf; assumption.
    - rewrite !Nat2Z.id, <- point_eta. reflexivity.
  Qed.

  Lemma value_rca n (dcol drow : nat -> R) : (n < q_No J)%nat ->
    q_type J = das_rca_coltx \/ q_type J = das_rca_rowtx -> q_nt J = q_nr J -> (1 <= q_nr J)%nat ->
    (q_nt J * q_nr J * q_len J <= length (q_Y J))%nat ->
    vy (row3 (q_Gr J) (q_nr J) 0) <= vy (row3 (q_Gr J) (q_nr J) (q_nr J - 1)) ->
    vx (row3 (q_Gt J) (q_nt J) 0) <= vx (row3 (q_Gt J) (q_nt J) (q_nt J - 1)) ->
    (forall c, (c < q_nt J)%nat ->
       segment_dist (fst (column_stripe (q_Gt J) (q_Gr J) (q_nt J) (q_nr J) c)) (snd (column_stripe (q_Gt J) (q_Gr J) (q_nt J) (q_nr J) c)) (point_of J n) (dcol c)) ->
    (forall r, (r < q_nr J)%nat ->
       segment_dist (fst (row_stripe (q_Gt J) (q_Gr J) (q_nt J) (q_nr J) r)) (snd (row_stripe (q_Gt J) (q_Gr J) (q_nt J) (q_nr J) r)) (point_of J n) (drow r)) ->
    (forall c r, (c < q_nt J)%nat -> (r < q_nr J)%nat -> fits K (pair_sample (q_dt J) (q_cp J) (delay_of J n) (dcol c) (drow r))) ->
    das_value (N:=EN) K (emb_das J) (Z.of_nat n) =
    Ok (das_result K (q_Y J) (Z.of_nat (q_len J)) (q_lvl J)
      (if DASType_eqb (q_type J) das_rca_coltx
       then rpairs (q_nt J) (q_nr J) (g_pair (q_dt J) (q_cp J) (delay_of J n) dcol drow)
       else rpairs (q_nr J) (q_nt J) (g_pair (q_dt J) (q_cp J) (delay_of J n) drow dcol))).
  Proof.
    intros Hn Ht Hsq Hr HY Hy Hx Hc Hd Hf. etransitivity; [exact (emb_args n Hn)|].
    destruct OK as [O1 O2 O3 O4 O5 O6].
    assert (Em : das_method (emb_das J) = q_type J).
    { unfold das_method. cbn. replace (Z.of_nat (q_nr J) =? 0)%Z with false by lia. reflexivity. }
    rewrite Em. rewrite point_eta in Hc, Hd.
    destruct Ht as [Ht|Ht]; rewrite Ht; cbn [DASType_eqb].
    - etransitivity; [refine (coltx_R K (q_Y J) (Z.of_nat (q_len J)) _ _ _ _ _ _ (q_lvl J) _ O5 O6 (q_Gt J) (q_Gr J) _ _ _ _ dcol drow _ _ _ _ _ _ _ _);
        rewrite ?Nat2Z.id; first [lia|assumption]|].
      rewrite !Nat2Z.id. reflexivity.
    - etransitivity; [refine (rowtx_R K (q_Y J) (Z.of_nat (q_len J)) _ _ _ _ _ _ (q_lvl J) _ O5 O6 (q_Gt J) (q_Gr J) _ _ _ _ dcol drow _ _ _ _ _ _ _ _);
        rewrite ?Nat2Z.id; first [lia|assumption|idtac]|].
      + intros i j Hi Hj. specialize (Hf j i Hj Hi). unfold pair_sample in *.
        replace (travel_ms (q_cp J) (drow i) + travel_ms (q_cp J) (dcol j)) with
          (travel_ms (q_cp J) (dcol j) + travel_ms (q_cp J) (drow i)) by ring. exact Hf.
      + rewrite !Nat2Z.id. reflexivity.
  Qed.
End J.

Lemma result_clean K Y len lvl ps im e : das_result K Y len lvl ps = (im, e) -> e <> err_oob ->
  im = Some (psum Y len ps).
Proof.
  unfold das_result. destruct (forallb _ _); [intros [= <- <-]; reflexivity|].
  destruct (SIRError_eqb _ _); intros [= <- <-]; congruence.
Qed.
Lemma result_none K Y len lvl ps im e : das_result K Y len lvl ps = (im, e) -> lvl <> lvl_none ->
  (e = err_none <-> forallb (pin len) ps = true).
Proof.
  unfold das_result. intros H Hl. destruct (forallb (pin len) ps); [injection H as <- <-; tauto|].
  destruct lvl; cbn in H; injection H as <- <-; split; congruence.
Qed.

(** From the value of every point to the image. *)
Section Call.
  Variables (K : idx_kind) (J : rjob) (nthreads : Z) (Im0 : list EN) (ps : nat -> list (nat * R)).
  Hypothesis OK : rjob_ok J.
  Hypothesis Hth : (1 <= nthreads)%Z.
  Hypothesis HI : length Im0 = q_No J.
  Hypothesis Hv : forall n, (n < q_No J)%nat ->
    das_value (N:=EN) K (emb_das J) (Z.of_nat n) = Ok (das_result K (q_Y J) (Z.of_nat (q_len J)) (q_lvl J) (ps n)).
  Let W := emb_wf J OK.
  Lemma HIz : Z.of_nat (length Im0) = d_No (emb_das J).
  Proof. cbn [emb_das d_No]. rewrite HI. reflexivity. Qed.

  Lemma call_image sch Im stt :
    das_call (N:=EN) K (emb_das J) nthreads sch Im0 = Ok (Some (Im, stt, true)) ->
    length Im = q_No J /\
    (forall n, (n < q_No J)%nat -> nth n Im None = Some (psum (q_Y J) (Z.of_nat (q_len J)) (ps n))) /\
    ((1 < nthreads)%Z -> q_lvl J <> lvl_none ->
      (stt = err_none <-> forall n, (n < q_No J)%nat -> forallb (pin (Z.of_nat (q_len J))) (ps n) = true)) /\
    (q_lvl J = lvl_stop \/ q_lvl J = lvl_parallel_stop ->
      forall n, (n < q_No J)%nat -> forallb (pin (Z.of_nat (q_len J))) (ps n) = true).
  Proof.
    intros E.
    assert (Hn : forall n im e, (n < q_No J)%nat ->
      das_value (N:=EN) K (emb_das J) (Z.of_nat n) = Ok (im, e) -> e <> err_oob).
    { intros n im e Hn Ev He. subst e.
      refine (das_call_clean K (emb_das J) nthreads Im0 W Hth HIz sch Im stt (Z.of_nat n) im E _ Ev). cbn. lia. }
    destruct (das_call_columns K (emb_das J) nthreads Im0 W Hth HIz sch Im stt None E) as [L C].
    repeat split.
    - exact (eq_trans L HI).
    - intros n Hlt. destruct (C (Z.of_nat n) ltac:(cbn; lia)) as (e & Ev).
      pose proof (Hn n _ e Hlt Ev) as He. rewrite (Hv n Hlt) in Ev. injection Ev as Ev.
      rewrite Nat2Z.id in Ev. exact (result_clean _ _ _ _ _ _ _ Ev He).
    - intros Est n Hlt. destruct (das_call_status K (emb_das J) nthreads Im0 W Hth HIz sch Im stt H E) as [S _].
      pose proof (proj1 S Est (Z.of_nat n)) as S'.
      destruct (das_result K (q_Y J) (Z.of_nat (q_len J)) (q_lvl J) (ps n)) as [im e] eqn:Er.
      apply (result_none _ _ _ _ _ _ _ Er H0). apply (S' im e); [cbn; lia|]. rewrite (Hv n Hlt). f_equal. exact Er.
    - intros Hall. destruct (das_call_status K (emb_das J) nthreads Im0 W Hth HIz sch Im stt H E) as [S _].
      apply S. intros z im e Hz Ev. cbn in Hz.
      assert (Hlt : (Z.to_nat z < q_No J)%nat) by lia.
      replace z with (Z.of_nat (Z.to_nat z)) in Ev by lia. rewrite (Hv _ Hlt) in Ev. injection Ev as Ev.
      apply (result_none _ _ _ _ _ _ _ Ev H0). apply Hall; exact Hlt.
    - intros Hs n Hlt. destruct (das_result K (q_Y J) (Z.of_nat (q_len J)) (q_lvl J) (ps n)) as [im e] eqn:Er.
      assert (He : e <> err_oob). { apply (Hn n im e Hlt). rewrite (Hv n Hlt). f_equal. exact Er. }
      unfold das_result in Er. destruct (forallb _ (ps n)); [reflexivity|].
      destruct Hs as [Hs|Hs]; rewrite Hs in Er; cbn in Er; congruence.
  Qed.

  (** Fair schedules without CTRL-C finish, with the flag up if no stop
      condition was met. *)
  Lemma call_ends sch : no_ctrlc sch ->
    (forall i, (0 <= i < nthreads)%Z ->
       (3 * (part_stop i (Z.of_nat (q_No J)) nthreads - part_start i (Z.of_nat (q_No J)) nthreads) + 1 <= steps_of (Z.to_nat i) sch)%Z) ->
    exists Im stt r, das_call (N:=EN) K (emb_das J) nthreads sch Im0 = Ok (Some (Im, stt, r)) /\
     ((q_lvl J <> lvl_stop /\ q_lvl J <> lvl_parallel_stop) \/
      (forall n, (n < q_No J)%nat -> forallb (pin (Z.of_nat (q_len J))) (ps n) = true) -> r = true).
  Proof.
    intros Hc Hf.
    assert (Hz : forall z, (0 <= z < d_No (emb_das J))%Z ->
      das_value (N:=EN) K (emb_das J) z = Ok (das_result K (q_Y J) (Z.of_nat (q_len J)) (q_lvl J) (ps (Z.to_nat z)))).
    { intros z Hz. cbn in Hz. rewrite <- (Hv (Z.to_nat z)) by lia. f_equal. lia. }
    destruct (das_call_completes K (emb_das J) nthreads Im0 W Hth HIz sch) as (r & Er & Hr).
    { intros z H. rewrite (Hz z H). eauto. }
    destruct r as [[[Im stt] r]|]; [|exfalso; apply (Hr Hf); reflexivity].
    exists Im, stt, r. split; [exact Er|]. intros Hl.
    apply (das_call_running K (emb_das J) nthreads Im0 W Hth HIz sch Im stt r Hc); [|exact Er].
    intros z im H Ev. rewrite (Hz z H) in Ev. injection Ev as Ev. unfold das_result in Ev.
    destruct Hl as [[L1 L2]|Hall].
    - destruct (forallb _ _); [discriminate|]. destruct (q_lvl J); cbn in Ev; try discriminate; congruence.
    - cbn in H. rewrite (Hall (Z.to_nat z)) in Ev by lia. discriminate.
  Qed.
End Call.

(** ** Linearity in the data, for every list of indices *)
Definition lin_rel (a b : R) (s1 s2 s3 : EN * SIRError) : Prop :=
  exists x y e, s1 = (Some x, e) /\ s2 = (Some y, e) /\ s3 = (Some (a * x + b * y), e).
Definition lin_ctl (a b : R) (c1 c2 c3 : ctl (EN * SIRError) (EN * SIRError)) : Prop :=
  match c1, c2, c3 with
  | Go s1, Go s2, Go s3 | Ret s1, Ret s2, Ret s3 => lin_rel a b s1 s2 s3
  | _, _, _ => False
  end.
Definition lin_res {A} (P : A -> A -> A -> Prop) (r1 r2 r3 : res A) : Prop :=
  match r1, r2, r3 with
  | Ok a, Ok b, Ok c => P a b c
  | UB u, UB u', UB u'' => u = u' /\ u = u''
  | Diverge, Diverge, Diverge => True
  | _, _, _ => False
  end.
Lemma lin_bind {A B} (P : A -> A -> A -> Prop) (Q : B -> B -> B -> Prop) r1 r2 r3 (f : A -> res B) g h :
  lin_res P r1 r2 r3 -> (forall x y z, P x y z -> lin_res Q (f x) (g y) (h z)) ->
  lin_res Q (bind r1 f) (bind r2 g) (bind r3 h).
Proof. destruct r1, r2, r3; cbn; try tauto. intros H F. apply F; exact H. Qed.

Section Lin.
  Variables (K : idx_kind) (a b : R) (Y1 Y2 Y3 : list R) (len : Z) (lvl : ErrorLevel).
  Hypothesis L2 : length Y2 = length Y1.
  Hypothesis L3 : length Y3 = length Y1.
  Hypothesis HY : forall k, nth k Y3 0 = a * nth k Y1 0 + b * nth k Y2 0.
  Local Notation EL := (fun l : list R => (map Some l : list EN)).

  Lemma get_lin z : lin_res (fun x y w : EN => exists p q, x = Some p /\ y = Some q /\ w = Some (a * p + b * q))
    (buf_get (EL Y1) z) (buf_get (EL Y2) z) (buf_get (EL Y3) z).
  Proof.
    destruct (Z_le_dec 0 z) as [H0|H0]; [destruct (Z_lt_dec z (Z.of_nat (length Y1))) as [H1|H1]|].
    - rewrite !get_emb by lia. cbn. rewrite HY. eauto.
    - unfold buf_get, in_range. rewrite !map_length, L2, L3.
      replace ((0 <=? z) && (z <? Z.of_nat (length Y1)))%Z with false by lia. cbn. auto.
    - unfold buf_get, in_range. rewrite !map_length, L2, L3.
      replace ((0 <=? z) && (z <? Z.of_nat (length Y1)))%Z with false by lia. cbn. auto.
  Qed.

  Lemma put_lin off x s1 s2 s3 : lin_rel a b s1 s2 s3 ->
    lin_res (lin_ctl a b) (das_put (N:=EN) K (EL Y1) len off lvl x s1)
      (das_put (N:=EN) K (EL Y2) len off lvl x s2) (das_put (N:=EN) K (EL Y3) len off lvl x s3).
  Proof.
    intros (p & q & e & -> & -> & ->). unfold das_put.
    destruct (to_idx K (ntrunc (n:=EN) x)) as [k|u|]; cbn [bind lin_res]; auto.
    destruct (_ && _)%bool.
    - apply (lin_bind _ _ _ _ _ _ _ _ (get_lin (off + k))).
      intros v w z (p' & q' & -> & -> & ->). cbn. exists (p + p'), (q + q'), e. split; [reflexivity|]. split; [reflexivity|].
      f_equal. f_equal. ring.
    - destruct (SIRError_eqb _ _); cbn; exists p, q, (dream_out_of_bounds_err lvl); auto.
  Qed.

  Lemma fold_lin l : forall s1 s2 s3, lin_rel a b s1 s2 s3 ->
    lin_res (lin_ctl a b) (das_fold (N:=EN) K (EL Y1) len lvl l s1)
      (das_fold (N:=EN) K (EL Y2) len lvl l s2) (das_fold (N:=EN) K (EL Y3) len lvl l s3).
  Proof.
    induction l as [|[off x] l IH]; intros s1 s2 s3 H; cbn [das_fold]; [exact H|].
    apply (lin_bind _ _ _ _ _ _ _ _ (put_lin off x s1 s2 s3 H)).
    intros [c1|c1] [c2|c2] [c3|c3] Hc; cbn in Hc; try contradiction; [apply IH; exact Hc|exact Hc].
  Qed.

  Lemma lin0 : lin_rel a b (nofZ (n:=EN) 0, err_none) (nofZ (n:=EN) 0, err_none) (nofZ (n:=EN) 0, err_none).
  Proof. exists 0, 0, err_none. cbn. repeat split. f_equal. f_equal. ring. Qed.

  Lemma finish_lin l :
    lin_res (lin_rel a b)
      (do c <- das_fold (N:=EN) K (EL Y1) len lvl l (nofZ (n:=EN) 0, err_none); Ok (finish c))
      (do c <- das_fold (N:=EN) K (EL Y2) len lvl l (nofZ (n:=EN) 0, err_none); Ok (finish c))
      (do c <- das_fold (N:=EN) K (EL Y3) len lvl l (nofZ (n:=EN) 0, err_none); Ok (finish c)).
  Proof.
    apply (lin_bind _ _ _ _ _ _ _ _ (fold_lin l _ _ _ lin0)).
    intros [c1|c1] [c2|c2] [c3|c3] Hc; cbn in Hc; try contradiction; exact Hc.
  Qed.
End Lin.

(** The same job with other data. *)
Definition with_data (J : rjob) (Y : list R) : rjob :=
  {| q_type := q_type J; q_len := q_len J; q_No := q_No J; q_nt := q_nt J; q_nr := q_nr J;
     q_Y := Y; q_Ro := q_Ro J; q_Gt := q_Gt J; q_Gr := q_Gr J;
     q_dt := q_dt J; q_dty := q_dty J; q_delay := q_delay J; q_cp := q_cp J; q_lvl := q_lvl J |}.

Lemma value_lin K J a b Y1 Y2 Y3 n : rjob_ok J -> (n < q_No J)%nat ->
  length Y2 = length Y1 -> length Y3 = length Y1 -> (forall k, nth k Y3 0 = a * nth k Y1 0 + b * nth k Y2 0) ->
  lin_res (lin_rel a b) (das_value (N:=EN) K (emb_das (with_data J Y1)) (Z.of_nat n))
    (das_value (N:=EN) K (emb_das (with_data J Y2)) (Z.of_nat n))
    (das_value (N:=EN) K (emb_das (with_data J Y3)) (Z.of_nat n)).
Proof.
  intros OK Hn L2 L3 HY.
  assert (OKY : forall Y, rjob_ok (with_data J Y)). { intros Y. destruct OK. split; assumption. }
  assert (HG : forall l num, length l = (3 * num)%nat -> Z.of_nat (length (map Some l : list EN)) = (3 * Z.of_nat num)%Z).
  { intros l num E. etransitivity; [exact (f_equal Z.of_nat (map_length _ _))|lia]. }
  pose proof (HG _ _ (qo_Gt J OK)) as G1. pose proof (HG _ _ (qo_Gr J OK)) as G2.
  pose proof (emb_args K _ (OKY Y1) n Hn) as E1. pose proof (emb_args K _ (OKY Y2) n Hn) as E2.
  pose proof (emb_args K _ (OKY Y3) n Hn) as E3. cbv zeta in E1, E2, E3.
  rewrite E1, E2, E3. clear E1 E2 E3.
  replace (das_method (emb_das (with_data J Y2))) with (das_method (emb_das (with_data J Y1))) by reflexivity.
  replace (das_method (emb_das (with_data J Y3))) with (das_method (emb_das (with_data J Y1))) by reflexivity.
  cbn [with_data q_Y q_Gt q_Gr q_nt q_nr q_len q_dt q_cp q_lvl].
  destruct (das_method (emb_das (with_data J Y1))).
  - rewrite !saft_fold by exact G1. apply finish_lin; assumption.
  - rewrite !tfm_fold by assumption. apply finish_lin; assumption.
  - rewrite !coltx_fold by assumption.
    destruct (rca_edges _ _ _ _) as [e|u|]; cbn [bind lin_res]; auto. apply finish_lin; assumption.
  - rewrite !rowtx_fold by assumption.
    destruct (rca_edges _ _ _ _) as [e|u|]; cbn [bind lin_res]; auto. apply finish_lin; assumption.
Qed.
