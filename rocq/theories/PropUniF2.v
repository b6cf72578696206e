(** PropUniF2.v - property theorems: das_uni images in double precision
    (C133). *)
From Coq Require Import Floats.
From Coq Require Import Reals Lra Lia ZArith List Bool.
From Verif Require Import Base ModelSir ModelDas NumF NumR SpecDft SpecDas SpecRound SpecRoundSir SpecRoundDas SpecUniF
  ProofsTermF ProofsRound ProofsRoundDas3 ProofsUniF2.
Import ListNotations.
Open Scope R_scope.
Local Notation val := SpecRound.val.

Section Kernels.
  Context (fsin fcos fatan fasin facos fexp flog : PrimFloat.float -> PrimFloat.float).
  Local Notation F := (FN fsin fcos fatan fasin facos fexp flog).
  Local Notation grid_of := (grid_of fsin fcos fatan fasin facos fexp flog).
  Local Notation grid_pos := (grid_pos fsin fcos fatan fasin facos fexp flog).
  Local Notation image_at := (image_at fsin fcos fatan fasin facos fexp flog).
  Local Notation val3 := (val3 fsin fcos fatan fasin facos fexp flog).
  Local Notation data_ok := (data_ok fsin fcos fatan fasin facos fexp flog).
  Local Notation ends_ok := (ends_ok fsin fcos fatan fasin facos fexp flog).
  Local Notation first_of := (first_of fsin fcos fatan fasin facos fexp flog).
  Local Notation last_of := (last_of fsin fcos fatan fasin facos fexp flog).

  Lemma tfm_F (Y : list F) len (gt gr rx ry rz : F * F * F) (dt delay cp : F) no nt nr o :
    data_ok Y len (nt * nr) dt delay cp -> grid_of gt nt -> grid_of gr nr -> image_at rx ry rz no o ->
    let dtx i := edist (val (grid_pos gt i), 0, 0) (val3 o) in let drx j := edist (val (grid_pos gr j), 0, 0) (val3 o) in
    (forall i j, (i < nt)%nat -> (j < nr)%nat -> safe_pair (val dt) (val cp) (val delay) (dtx i) (drx j) /\
       fits32 (pair_sample (val dt) (val cp) (val delay) (dtx i) (drx j))) ->
    let image W := das_sum W len nt nr dtx drx (val dt) (val cp) (val delay) in
    image_range (nt * nr) (image (map Rabs (vals Y))) ->
    exists v, uni_value (N:=F) das_tfm Y len gt gr rx ry rz dt delay cp no = Ok v /\
      near_image (nt * nr) (image (map Rabs (vals Y))) (image (vals Y)) v.
  Proof.
    destruct gt as [[t0 pt] t1], gr as [[r0 pr] r1], o as [[xo yo] zo].
    intros (Hlen & HY & HL & Hdt & Hcp & Hd) [Ct Ot] [Cr Or] (Ho & Ox & Oy & Oz) dtx drx Hp image HR. cbn [fst snd] in Ox, Oy, Oz.
    unfold uni_value. rewrite Ho. cbn [bind]. unfold uni_tfm. rewrite Ct, Cr. cbn [bind].
    apply (double_F fsin fcos fatan fasin facos fexp flog Y len Hlen HY nt nr
      (fun i j => nmul (n:=F) (nadd (n:=F) (nadd (n:=F) (uni_travel (N:=F) cp (nsub (n:=F) (uni_pos (N:=F) t0 pt i) xo) yo zo) (delay_ms (N:=F) delay))
         (uni_travel (N:=F) cp (nsub (n:=F) (uni_pos (N:=F) r0 pr j) xo) yo zo)) (Fs_khz (N:=F) dt))
      (fun i j => pair_sample (val dt) (val cp) (val delay) (dtx i) (drx j))); [|exact HL|exact HR].
    intros i j Hi Hj. destruct (Hp i j Hi Hj) as [(S1 & S2 & S3) S4]. split; [|exact S4].
    unfold pair_sample, sample_no, travel_ms. rewrite !val_V.
    apply (pair_trunc fsin fcos fatan fasin facos fexp flog _ _ _ _ cp).
    - apply point_time; auto; first [exact (Ot i Hi)|exact S1].
    - apply point_time; auto; first [exact (Or j Hj)|exact S2].
    - exact Hd.
    - exact Hdt.
    - intros z. rewrite <- !val_V. exact (S3 z).
  Qed.

  Lemma saft_F (Y : list F) len (gt gr rx ry rz : F * F * F) (dt delay cp : F) no nt o :
    data_ok Y len nt dt delay cp -> grid_of gt nt -> image_at rx ry rz no o ->
    let d i := edist (val (grid_pos gt i), 0, 0) (val3 o) in
    (forall i, (i < nt)%nat -> safe_pair (val dt) (val cp) (2 * val delay) (d i) (d i) /\
       fits32 (pair_sample (val dt) (val cp) (2 * val delay) (d i) (d i))) ->
    let image W := saft_sum W len nt d (val dt) (val cp) (2 * val delay) in
    image_range nt (image (map Rabs (vals Y))) ->
    exists v, uni_value (N:=F) das_saft Y len gt gr rx ry rz dt delay cp no = Ok v /\
      near_image nt (image (map Rabs (vals Y))) (image (vals Y)) v.
  Proof.
    destruct gt as [[t0 pt] t1], gr as [[r0 pr] r1], o as [[xo yo] zo].
    intros (Hlen & HY & HL & Hdt & Hcp & Hd) [Ct Ot] (Ho & Ox & Oy & Oz) d Hp image HR. cbn [fst snd] in Ox, Oy, Oz.
    unfold uni_value. rewrite Ho. cbn [bind]. unfold uni_saft. rewrite Ct. cbn [bind].
    apply (single_F fsin fcos fatan fasin facos fexp flog Y len Hlen HY nt
      (fun i => nmul (n:=F) (nmul (n:=F) (nofZ (n:=F) 2) (nadd (n:=F) (uni_travel (N:=F) cp (nsub (n:=F) (uni_pos (N:=F) t0 pt i) xo) yo zo) (delay_ms (N:=F) delay))) (Fs_khz (N:=F) dt))
      (fun i => pair_sample (val dt) (val cp) (2 * val delay) (d i) (d i))); [|exact HL|exact HR].
    intros i Hi. destruct (Hp i Hi) as [(S1 & S2 & S3) S4]. split; [|exact S4].
    unfold pair_sample, sample_no, travel_ms. rewrite !val_V.
    apply (saft_trunc fsin fcos fatan fasin facos fexp flog _ _ _ cp).
    - apply point_time; auto; first [exact (Ot i Hi)|exact S1].
    - exact Hd.
    - exact Hdt.
    - intros z. rewrite <- !val_V. exact (S3 z).
  Qed.

  Section Rca.
    Variables (Y : list F) (len : Z) (gt gr rx ry rz : F * F * F) (dt delay cp : F) (no : Z) (nt nr : nat) (o : F * F * F) (dcol drow : nat -> R).
    Hypothesis (HD : data_ok Y len (nt * nr) dt delay cp) (Gt : grid_of gt nt) (Gr : grid_of gr nr) (Et : ends_ok gt) (Er : ends_ok gr) (Ho : image_at rx ry rz no o).
    Hypothesis Hc : forall c, (c < nt)%nat -> segment_dist (val (grid_pos gt c), val (first_of gr), 0) (val (grid_pos gt c), val (last_of gr), 0) (val3 o) (dcol c).
    Hypothesis Hr : forall r, (r < nr)%nat -> segment_dist (val (first_of gt), val (grid_pos gr r), 0) (val (last_of gt), val (grid_pos gr r), 0) (val3 o) (drow r).

    Lemma coltx_F :
      (forall c r, (c < nt)%nat -> (r < nr)%nat -> safe_pair (val dt) (val cp) (val delay) (dcol c) (drow r) /\
         fits32 (pair_sample (val dt) (val cp) (val delay) (dcol c) (drow r))) ->
      let image W := das_sum W len nt nr dcol drow (val dt) (val cp) (val delay) in
      image_range (nt * nr) (image (map Rabs (vals Y))) ->
      exists v, uni_value (N:=F) das_rca_coltx Y len gt gr rx ry rz dt delay cp no = Ok v /\
        near_image (nt * nr) (image (map Rabs (vals Y))) (image (vals Y)) v.
    Proof.
      destruct gt as [[t0 pt] t1], gr as [[r0 pr] r1], o as [[xo yo] zo]. destruct HD as (Hlen & HY & HL & Hdt & Hcp & Hd).
      destruct Gt as [Ct Ot], Gr as [Cr Or], Et as (T1 & T2 & T3), Er as (R1 & R2 & R3), Ho as (Ho' & Ox & Oy & Oz). cbn [fst snd] in Ox, Oy, Oz.
      intros Hp image HR. unfold uni_value. rewrite Ho'. cbn [bind]. unfold uni_rca_coltx. rewrite Ct, Cr. cbn [bind].
      apply (double_F fsin fcos fatan fasin facos fexp flog Y len Hlen HY nt nr
        (fun i j => nmul (n:=F) (nadd (n:=F) (nadd (n:=F) (uni_travel (N:=F) cp (nsub (n:=F) (uni_pos (N:=F) t0 pt i) xo) (stripe (N:=F) r0 r1 yo) zo) (delay_ms (N:=F) delay))
           (uni_travel (N:=F) cp (stripe_cl (N:=F) t0 t1 xo) (nsub (n:=F) (uni_pos (N:=F) r0 pr j) yo) zo)) (Fs_khz (N:=F) dt))
        (fun i j => pair_sample (val dt) (val cp) (val delay) (dcol i) (drow j))); [|exact HL|exact HR].
      intros i j Hi Hj. destruct (Hp i j Hi Hj) as [(S1 & S2 & S3) S4]. split; [|exact S4].
      unfold pair_sample, sample_no, travel_ms. rewrite !val_V.
      apply (pair_trunc fsin fcos fatan fasin facos fexp flog _ _ _ _ cp).
      - apply col_time_F; auto; first [exact (Ot i Hi)|exact (Hc i Hi)].
      - apply row_time_F; auto; first [exact (Or j Hj)|exact (Hr j Hj)].
      - exact Hd.
      - exact Hdt.
      - intros z. rewrite <- !val_V. exact (S3 z).
    Qed.
    Lemma rowtx_F :
      (forall r c, (r < nr)%nat -> (c < nt)%nat -> safe_pair (val dt) (val cp) (val delay) (drow r) (dcol c) /\
         fits32 (pair_sample (val dt) (val cp) (val delay) (drow r) (dcol c))) ->
      let image W := das_sum W len nr nt drow dcol (val dt) (val cp) (val delay) in
      image_range (nr * nt) (image (map Rabs (vals Y))) ->
      exists v, uni_value (N:=F) das_rca_rowtx Y len gt gr rx ry rz dt delay cp no = Ok v /\
        near_image (nr * nt) (image (map Rabs (vals Y))) (image (vals Y)) v.
    Proof.
      destruct gt as [[t0 pt] t1], gr as [[r0 pr] r1], o as [[xo yo] zo]. destruct HD as (Hlen & HY & HL & Hdt & Hcp & Hd).
      destruct Gt as [Ct Ot], Gr as [Cr Or], Et as (T1 & T2 & T3), Er as (R1 & R2 & R3), Ho as (Ho' & Ox & Oy & Oz). cbn [fst snd] in Ox, Oy, Oz.
      intros Hp image HR. unfold uni_value. rewrite Ho'. cbn [bind]. unfold uni_rca_rowtx. rewrite Ct, Cr. cbn [bind].
      apply (double_F fsin fcos fatan fasin facos fexp flog Y len Hlen HY nr nt
        (fun i j => nmul (n:=F) (nadd (n:=F) (uni_travel (N:=F) cp (nsub (n:=F) (uni_pos (N:=F) t0 pt j) xo) (stripe (N:=F) r0 r1 yo) zo)
           (nadd (n:=F) (uni_travel (N:=F) cp (stripe_cl (N:=F) t0 t1 xo) (nsub (n:=F) (uni_pos (N:=F) r0 pr i) yo) zo) (delay_ms (N:=F) delay))) (Fs_khz (N:=F) dt))
        (fun i j => pair_sample (val dt) (val cp) (val delay) (drow i) (dcol j))); [|rewrite Nat.mul_comm; exact HL|exact HR].
      intros i j Hi Hj. destruct (Hp i j Hi Hj) as [(S1 & S2 & S3) S4]. split; [|exact S4].
      unfold pair_sample, sample_no, travel_ms. rewrite !val_V.
      match goal with |- f_trunc (nmul (nadd ?a ?b) _) = _ => rewrite (float_add_comm a b : nadd (n:=F) a b = nadd (n:=F) b a) end.
      apply (pair_trunc fsin fcos fatan fasin facos fexp flog _ _ _ _ cp).
      - apply row_time_F; auto; first [exact (Or i Hi)|exact (Hr i Hi)].
      - apply col_time_F; auto; first [exact (Ot j Hj)|exact (Hc j Hj)].
      - exact Hd.
      - exact Hdt.
      - intros z. rewrite <- !val_V. exact (S3 z).
    Qed.
  End Rca.
End Kernels.

(** TFM: image point [no] in doubles is a double within (number of A-scans)
    eps of the exact delay-and-sum value over the elements at the doubles the
    kernel computes, relative to the image of the absolute values. *)
Theorem C133_tfm : forall fsin fcos fatan fasin facos fexp flog,
  let F := FN fsin fcos fatan fasin facos fexp flog in
  let pos g i := val (grid_pos fsin fcos fatan fasin facos fexp flog g i) in let value o := val3 fsin fcos fatan fasin facos fexp flog o in
  forall (Y : list F) len (gt gr rx ry rz : F * F * F) (dt delay cp : F) no nt nr o,
  data_ok fsin fcos fatan fasin facos fexp flog Y len (nt * nr) dt delay cp ->
  grid_of fsin fcos fatan fasin facos fexp flog gt nt -> grid_of fsin fcos fatan fasin facos fexp flog gr nr ->
  image_at fsin fcos fatan fasin facos fexp flog rx ry rz no o ->
  let dtx i := edist (pos gt i, 0, 0) (value o) in let drx j := edist (pos gr j, 0, 0) (value o) in
  (forall i j, (i < nt)%nat -> (j < nr)%nat -> safe_pair (val dt) (val cp) (val delay) (dtx i) (drx j) /\
     fits32 (pair_sample (val dt) (val cp) (val delay) (dtx i) (drx j))) ->
  let image W := das_sum W len nt nr dtx drx (val dt) (val cp) (val delay) in
  image_range (nt * nr) (image (map Rabs (vals Y))) ->
  exists v, uni_value (N:=F) das_tfm Y len gt gr rx ry rz dt delay cp no = Ok v /\
    near_image (nt * nr) (image (map Rabs (vals Y))) (image (vals Y)) v.
Proof. intros. cbv zeta in *. eapply tfm_F; eassumption. Qed.
Print Assumptions C133_tfm.

(** SAFT: the same, with the delay counted twice (C39). *)
Theorem C133_saft_partial : forall fsin fcos fatan fasin facos fexp flog,
  let F := FN fsin fcos fatan fasin facos fexp flog in
  let pos g i := val (grid_pos fsin fcos fatan fasin facos fexp flog g i) in let value o := val3 fsin fcos fatan fasin facos fexp flog o in
  forall (Y : list F) len (gt gr rx ry rz : F * F * F) (dt delay cp : F) no nt o,
  data_ok fsin fcos fatan fasin facos fexp flog Y len nt dt delay cp ->
  grid_of fsin fcos fatan fasin facos fexp flog gt nt -> image_at fsin fcos fatan fasin facos fexp flog rx ry rz no o ->
  let d i := edist (pos gt i, 0, 0) (value o) in
  (forall i, (i < nt)%nat -> safe_pair (val dt) (val cp) (2 * val delay) (d i) (d i) /\
     fits32 (pair_sample (val dt) (val cp) (2 * val delay) (d i) (d i))) ->
  let image W := saft_sum W len nt d (val dt) (val cp) (2 * val delay) in
  image_range nt (image (map Rabs (vals Y))) ->
  exists v, uni_value (N:=F) das_saft Y len gt gr rx ry rz dt delay cp no = Ok v /\
    near_image nt (image (map Rabs (vals Y))) (image (vals Y)) v.
Proof. intros. cbv zeta in *. eapply saft_F; eassumption. Qed.
Print Assumptions C133_saft_partial.

(** Row-column arrays: distances to the line elements through the doubles the
    kernel computes, running from min to max of the other direction; any
    numbers of rows and columns, columns or rows transmitting. *)
Theorem C133_rca : forall fsin fcos fatan fasin facos fexp flog,
  let F := FN fsin fcos fatan fasin facos fexp flog in
  let pos g i := val (grid_pos fsin fcos fatan fasin facos fexp flog g i) in let value o := val3 fsin fcos fatan fasin facos fexp flog o in
  let lo g := val (first_of fsin fcos fatan fasin facos fexp flog g) in let hi g := val (last_of fsin fcos fatan fasin facos fexp flog g) in
  forall (Y : list F) len (gt gr rx ry rz : F * F * F) (dt delay cp : F) no nt nr o dcol drow,
  data_ok fsin fcos fatan fasin facos fexp flog Y len (nt * nr) dt delay cp ->
  grid_of fsin fcos fatan fasin facos fexp flog gt nt -> grid_of fsin fcos fatan fasin facos fexp flog gr nr ->
  ends_ok fsin fcos fatan fasin facos fexp flog gt -> ends_ok fsin fcos fatan fasin facos fexp flog gr ->
  image_at fsin fcos fatan fasin facos fexp flog rx ry rz no o ->
  (forall c, (c < nt)%nat -> segment_dist (pos gt c, lo gr, 0) (pos gt c, hi gr, 0) (value o) (dcol c)) ->
  (forall r, (r < nr)%nat -> segment_dist (lo gt, pos gr r, 0) (hi gt, pos gr r, 0) (value o) (drow r)) ->
  (forall c r, (c < nt)%nat -> (r < nr)%nat -> safe_pair (val dt) (val cp) (val delay) (dcol c) (drow r) /\
     fits32 (pair_sample (val dt) (val cp) (val delay) (dcol c) (drow r))) ->
  let cols W := das_sum W len nt nr dcol drow (val dt) (val cp) (val delay) in
  let rows W := das_sum W len nr nt drow dcol (val dt) (val cp) (val delay) in
  (image_range (nt * nr) (cols (map Rabs (vals Y))) ->
   exists v, uni_value (N:=F) das_rca_coltx Y len gt gr rx ry rz dt delay cp no = Ok v /\
     near_image (nt * nr) (cols (map Rabs (vals Y))) (cols (vals Y)) v) /\
  (image_range (nr * nt) (rows (map Rabs (vals Y))) ->
   exists v, uni_value (N:=F) das_rca_rowtx Y len gt gr rx ry rz dt delay cp no = Ok v /\
     near_image (nr * nt) (rows (map Rabs (vals Y))) (rows (vals Y)) v).
Proof.
  intros fsin fcos fatan fasin facos fexp flog F pos value lo hi Y len gt gr rx ry rz dt delay cp no nt nr o dcol drow HD Gt Gr Et Er Ho Hc Hr Hp cols rows.
  split; intros HR.
  - exact (coltx_F fsin fcos fatan fasin facos fexp flog Y len gt gr rx ry rz dt delay cp no nt nr o dcol drow HD Gt Gr Et Er Ho Hc Hr Hp HR).
  - apply (rowtx_F fsin fcos fatan fasin facos fexp flog Y len gt gr rx ry rz dt delay cp no nt nr o dcol drow HD Gt Gr Et Er Ho Hc Hr); [|exact HR].
    intros r c H1 H2. destruct (Hp c r H2 H1) as [(S1 & S2 & S3) S4].
    assert (Sw : pair_sample (val dt) (val cp) (val delay) (drow r) (dcol c) = pair_sample (val dt) (val cp) (val delay) (dcol c) (drow r))
      by (unfold pair_sample; f_equal; ring).
    assert (Tw : forall e, pair_time (val dt) (val cp) e (drow r) (dcol c) = pair_time (val dt) (val cp) e (dcol c) (drow r))
      by (intros e; unfold pair_time, Rdiv; ring).
    rewrite Sw. split; [|exact S4]. split; [exact S2|]. split; [exact S1|]. intros z. rewrite !Tw. exact (S3 z).
Qed.
Print Assumptions C133_rca.
