(** PropUgw.v - property theorems: whole das_uni calls (C68-C71). *)
From Coq Require Strings.String.
Import Coq.Strings.String.StringSyntax.
From Coq Require Import Reals Lra Lia ZArith List Bool ZifyBool ZifyNat.
From Verif Require Import Base BaseLemmas ModelSir ModelArr ModelSmp ModelDas NumR SpecSmp SpecDft SpecDas
  ProofsLocal ProofsSmp ProofsLoop ProofsSmp2 ProofsR ProofsDas ProofsUni PropUni
  ModelGw SpecGw ProofsGw SpecGwR ModelDgw SpecDgw ModelUgw SpecUgw ProofsUgw.
Import ListNotations.
Local Open Scope string_scope.
Local Open Scope Z_scope.
Ltac Zify.zify_post_hook ::= Z.div_mod_to_equations.

(** ** C68: sessions *)

(** Whatever calls were made before - other sizes, methods, precisions, calls
    that failed -, the next call gives the user the same. *)
Theorem C68_history : forall (N : Num) fe h1 h2 s1 s2 nlhs (junk : list N) args,
  uni_session (N:=N) fe uni_start h1 = Ok s1 -> uni_session (N:=N) fe uni_start h2 = Ok s2 ->
  usees (uni_gateway fe nlhs junk s1 args) = usees (uni_gateway fe nlhs junk s2 args).
Proof.
  intros N fe h1 h2 s1 s2 nlhs junk args E1 E2.
  rewrite (gateway_any fe nlhs junk s1 args), (gateway_any fe nlhs junk s2 args); [reflexivity|..];
    eapply session_inv; eauto using start_inv.
Qed.
Print Assumptions C68_history.

(** ** C69: the image *)

(** A call in exact numbers: positive pitches, non-empty grids, counts that
    fit a C int, at least one sample, exactly the A-scans that the method
    needs, buffers below 2 GB, a multiple of 64 image points, and a delay
    argument whose entries are all equal. *)
Record uni_exact (c : cls) (scans len : Z) (Y : list R) (gt gr gx gy gz : grid) (dt cp delay : R) (delays : list R) : Prop := {
  ue_dt : dt <> 0%R; ue_cp : cp <> 0%R;
  ue_t : grid_ok gt; ue_r : grid_ok gr; ue_x : grid_ok gx; ue_y : grid_ok gy; ue_z : grid_ok gz;
  ue_nt : fits32 (grid_num gt); ue_nr : fits32 (grid_num gr);
  ue_nx : fits32 (grid_num gx); ue_ny : fits32 (grid_num gy); ue_nz : fits32 (grid_num gz);
  ue_Y : Z.of_nat (length Y) = len * scans; ue_len : 0 <= len;
  ue_bufY : device_fits c (len * scans); ue_bufI : device_fits c (grid_num gx * grid_num gy * grid_num gz);
  ue_64 : (grid_num gx * grid_num gy * grid_num gz) mod 64 = 0;
  ue_delay : exists k, delays = repeat delay (S k) }.

Lemma fits_any K n : 1 <= n -> fits32 n -> fits K n.
Proof. unfold fits32, fits. destruct K; lia. Qed.
Section Exact.
  Variables (fe : front) (c : cls) (t : DASType) (scans len : Z) (Y : list R) (gt gr gx gy gz : grid) (dt cp delay : R) (delays : list R).
  Hypothesis U : uni_exact c scans len Y gt gr gx gy gz dt cp delay delays.
  Local Notation No := (grid_num gx * grid_num gy * grid_num gz).

  Lemma exact_sizes : uni_sizes (N:=EN) (idx_of fe) (emb3 gt) (emb3 gr) (emb3 gx) (emb3 gy) (emb3 gz) = Ok (grid_num gt, grid_num gr, No).
  Proof.
    destruct U as [U1 U2 U3 U4 U5 U6 U7 U8 U9 U10 U11 U12 _ _ _ _ _ _].
    unfold uni_sizes.
    assert (C : forall g, grid_ok g -> fits32 (grid_num g) -> (let '(lo, p, hi) := emb3 g in uni_count (N:=EN) (idx_of fe) lo p hi) = Ok (grid_num g)).
    { intros g Og Fg. apply uni_count_R; [exact Og|]. apply fits_any; [now apply grid_num_pos|exact Fg]. }
    rewrite !C by assumption. reflexivity.
  Qed.
  Lemma exact_uni_ok no : (no < Z.to_nat No)%nat -> uni_ok Y len scans gt gr gx gy gz dt cp no.
  Proof.
    destruct U as [U1 U2 U3 U4 U5 U6 U7 U8 U9 U10 U11 U12 U13 U14 U15 U16 U17 U18]. intros H. split; try assumption; lia.
  Qed.
  Lemma exact_call h s nlhs (junk : list EN) ny args (v : nat -> R) :
    uni_session (N:=EN) fe uni_start h = Ok s ->
    uni_args fe c t len ny (exact Y) (emb3 gt) (emb3 gr) (emb3 gx) (emb3 gy) (emb3 gz) (Some dt) (exact delays) (Some cp) No args ->
    nlhs <= 1 -> scans = (match t with das_saft => grid_num gt | _ => grid_num gt * grid_num gr end) ->
    (forall no, (no < Z.to_nat No)%nat ->
       uni_value (N:=EN) t (exact Y) len (emb3 gt) (emb3 gr) (emb3 gx) (emb3 gy) (emb3 gz) (Some dt) (Some delay) (Some cp) (Z.of_nat no) = Ok (Some (v no))) ->
    exists Im, usees (uni_gateway fe nlhs junk s args) = Ok (UReturned Im) /\ Z.of_nat (length Im) = No /\
      forall no, (no < Z.to_nat No)%nat -> nth_error Im no = Some (Some (v no)).
  Proof.
    intros Es D Hn Esc Hv. pose proof exact_sizes as Ez.
    destruct U as [U1 U2 U3 U4 U5 U6 U7 U8 U9 U10 U11 U12 U13 U14 U15 U16 U17 [k U18]]. subst delays scans.
    change (exact (repeat delay (S k))) with ((Some delay : EN) :: exact (repeat delay k)) in D.
    refine (uni_call_items fe nlhs junk s c t len ny (exact Y) _ _ _ _ _ (Some dt : EN) (Some delay : EN) _ (Some cp : EN) _ _ No args
      (fun no => Some (v no) : EN) _ D Hn Ez _ _ U15 U16 U17 Hv).
    - eapply session_inv; [apply start_inv|exact Es].
    - right. pose proof (grid_num_pos _ U4). lia.
    - unfold exact. rewrite map_length. exact U13.
  Qed.
End Exact.

(** TFM: after any session, a documented call returns one value per image
    point: the delay-and-sum for elements at (min + i pitch, 0, 0). *)
Theorem C69_tfm : forall fe c len Y gt gr gx gy gz dt cp delay delays h s nlhs junk ny args,
  uni_exact c (grid_num gt * grid_num gr) len Y gt gr gx gy gz dt cp delay delays ->
  uni_session (N:=EN) fe uni_start h = Ok s ->
  uni_args fe c das_tfm len ny (exact Y) (emb3 gt) (emb3 gr) (emb3 gx) (emb3 gy) (emb3 gz) (Some dt) (exact delays) (Some cp)
    (grid_num gx * grid_num gy * grid_num gz) args -> nlhs <= 1 ->
  let nt := Z.to_nat (grid_num gt) in let nr := Z.to_nat (grid_num gr) in
  let o no := box_point gx gy gz (Z.to_nat (grid_num gy)) (Z.to_nat (grid_num gz)) no in
  let dtx no i := edist (grid_at gt i, 0, 0)%R (o no) in let drx no j := edist (grid_at gr j, 0, 0)%R (o no) in
  let No := grid_num gx * grid_num gy * grid_num gz in
  (forall no i j, (no < Z.to_nat No)%nat -> (i < nt)%nat -> (j < nr)%nat -> fits32 (pair_sample dt cp delay (dtx no i) (drx no j))) ->
  exists Im, usees (uni_gateway fe nlhs junk s args) = Ok (UReturned Im) /\ Z.of_nat (length Im) = No /\
    forall no, (no < Z.to_nat No)%nat -> nth_error Im no = Some (Some (das_sum Y len nt nr (dtx no) (drx no) dt cp delay)).
Proof.
  intros fe c len Y gt gr gx gy gz dt cp delay delays h s nlhs junk ny args U Es D Hn nt nr o dtx drx No Hf.
  eapply (exact_call fe c das_tfm _ len Y gt gr gx gy gz dt cp delay delays U h s nlhs junk ny args); eauto.
  intros no Hno. refine (C39_uni_tfm Y len gt gr gx gy gz dt cp delay no _ _).
  - eapply exact_uni_ok; eauto.
  - intros i j Hi Hj. apply Hf; assumption.
Qed.
Print Assumptions C69_tfm.

(** Row-column arrays: distances to line elements, any numbers of rows and
    columns. *)
Theorem C69_rca : forall fe c t len Y gt gr gx gy gz dt cp delay delays h s nlhs junk ny args dcol drow,
  uni_exact c (grid_num gt * grid_num gr) len Y gt gr gx gy gz dt cp delay delays ->
  uni_session (N:=EN) fe uni_start h = Ok s -> t = das_rca_coltx \/ t = das_rca_rowtx ->
  uni_args fe c t len ny (exact Y) (emb3 gt) (emb3 gr) (emb3 gx) (emb3 gy) (emb3 gz) (Some dt) (exact delays) (Some cp)
    (grid_num gx * grid_num gy * grid_num gz) args -> nlhs <= 1 ->
  let nt := Z.to_nat (grid_num gt) in let nr := Z.to_nat (grid_num gr) in
  let o no := box_point gx gy gz (Z.to_nat (grid_num gy)) (Z.to_nat (grid_num gz)) no in
  let No := grid_num gx * grid_num gy * grid_num gz in
  (forall no, (no < Z.to_nat No)%nat ->
    (forall i, (i < nt)%nat -> segment_dist (grid_at gt i, grid_lo gr, 0)%R (grid_at gt i, grid_hi gr, 0)%R (o no) (dcol no i)) /\
    (forall j, (j < nr)%nat -> segment_dist (grid_lo gt, grid_at gr j, 0)%R (grid_hi gt, grid_at gr j, 0)%R (o no) (drow no j)) /\
    (forall i j, (i < nt)%nat -> (j < nr)%nat -> fits32 (pair_sample dt cp delay (dcol no i) (drow no j)))) ->
  exists Im, usees (uni_gateway fe nlhs junk s args) = Ok (UReturned Im) /\ Z.of_nat (length Im) = No /\
    forall no, (no < Z.to_nat No)%nat ->
      (t = das_rca_coltx -> nth_error Im no = Some (Some (das_sum Y len nt nr (dcol no) (drow no) dt cp delay))) /\
      (t = das_rca_rowtx -> nth_error Im no = Some (Some (das_sum Y len nr nt (drow no) (dcol no) dt cp delay))).
Proof.
  intros fe c t len Y gt gr gx gy gz dt cp delay delays h s nlhs junk ny args dcol drow U Es Ht D Hn nt nr o No Hf.
  assert (V : forall no, (no < Z.to_nat No)%nat -> _) by
    (intros no Hno; destruct (Hf no Hno) as (H1 & H2 & H3);
     exact (C39_uni_rca Y len gt gr gx gy gz dt cp delay no (dcol no) (drow no) (exact_uni_ok _ _ _ _ _ _ _ _ _ _ _ _ _ U no Hno) H1 H2 H3)).
  destruct Ht as [-> | ->].
  - destruct (exact_call fe c das_rca_coltx _ len Y gt gr gx gy gz dt cp delay delays U h s nlhs junk ny args
      (fun no => das_sum Y len nt nr (dcol no) (drow no) dt cp delay) Es D Hn eq_refl (fun no Hno => proj1 (V no Hno))) as (Im & E & L & I).
    exists Im. split; [exact E|]. split; [exact L|]. intros no Hno. split; [intros _; now apply I|discriminate].
  - destruct (exact_call fe c das_rca_rowtx _ len Y gt gr gx gy gz dt cp delay delays U h s nlhs junk ny args
      (fun no => das_sum Y len nr nt (drow no) (dcol no) dt cp delay) Es D Hn eq_refl (fun no Hno => proj2 (V no Hno))) as (Im & E & L & I).
    exists Im. split; [exact E|]. split; [exact L|]. intros no Hno. split; [discriminate|intros _; now apply I].
Qed.
Print Assumptions C69_rca.

(** SAFT with some (unused) 3-element receive vector: the SAFT sum for twice
    the delay. *)
Theorem C69_saft_partial : forall fe c len Y gt gr gx gy gz dt cp delay delays h s nlhs junk ny args,
  uni_exact c (grid_num gt) len Y gt gr gx gy gz dt cp delay delays ->
  uni_session (N:=EN) fe uni_start h = Ok s ->
  uni_args fe c das_saft len ny (exact Y) (emb3 gt) (emb3 gr) (emb3 gx) (emb3 gy) (emb3 gz) (Some dt) (exact delays) (Some cp)
    (grid_num gx * grid_num gy * grid_num gz) args -> nlhs <= 1 ->
  let nt := Z.to_nat (grid_num gt) in
  let o no := box_point gx gy gz (Z.to_nat (grid_num gy)) (Z.to_nat (grid_num gz)) no in
  let d no i := edist (grid_at gt i, 0, 0)%R (o no) in
  let No := grid_num gx * grid_num gy * grid_num gz in
  (forall no i, (no < Z.to_nat No)%nat -> (i < nt)%nat -> fits32 (pair_sample dt cp (2 * delay) (d no i) (d no i))) ->
  exists Im, usees (uni_gateway fe nlhs junk s args) = Ok (UReturned Im) /\ Z.of_nat (length Im) = No /\
    forall no, (no < Z.to_nat No)%nat -> nth_error Im no = Some (Some (saft_sum Y len nt (d no) dt cp (2 * delay))).
Proof.
  intros fe c len Y gt gr gx gy gz dt cp delay delays h s nlhs junk ny args U Es D Hn nt o d No Hf.
  eapply (exact_call fe c das_saft _ len Y gt gr gx gy gz dt cp delay delays U h s nlhs junk ny args); eauto.
  intros no Hno. refine (C39_uni_saft_partial Y len gt gr gx gy gz dt cp delay no _ _).
  - eapply exact_uni_ok; eauto.
  - intros i Hi. apply Hf; assumption.
Qed.
Print Assumptions C69_saft_partial.

(** The hypotheses are satisfiable: a 2-element array, 4 x 4 x 4 image
    points. *)
Definition ex_uni : Prop := uni_exact CDouble (2 * 2) 10 (repeat 1%R 40) (0, 3, 3)%R (0, 3, 3)%R (0, 1, 3)%R (0, 1, 3)%R (4, 1, 7)%R 1 1000 0 [0%R].
Lemma floor4 a b n : (b - a = IZR n)%R -> Zfloor ((b - a) / 1) = n.
Proof. intros H. apply Zfloor_unique. rewrite H. replace (IZR n / 1)%R with (IZR n) by field. lra. Qed.
Example C69_ex : ex_uni.
Proof.
  assert (Z1 : Zfloor ((3 - 0) / 3) = 1) by (apply Zfloor_unique; lra).
  assert (Z2 : Zfloor ((3 - 0) / 1) = 3) by (apply floor4; lra).
  assert (Z3 : Zfloor ((7 - 4) / 1) = 3) by (apply floor4; lra).
  split; cbn [grid_num grid_ok]; unfold fits32, device_fits; rewrite ?Z1, ?Z2, ?Z3;
    try solve [lra|lia|split; lra|cbn; lia|rewrite repeat_length; lia].
  exists 0%nat. reflexivity.
Qed.
Example C69_ex_args : forall fe, fe = Octave \/ fe = Matlab ->
  exists args, uni_args (N:=EN) fe CDouble das_tfm 10 4 (exact (repeat 1%R 40)) (emb3 (0, 3, 3)%R) (emb3 (0, 3, 3)%R) (emb3 (0, 1, 3)%R)
    (emb3 (0, 1, 3)%R) (emb3 (4, 1, 7)%R) (Some 1%R) (exact [0%R]) (Some 1000%R) 64 args.
Proof.
  intros fe H. eexists. exists "tfm", Full, 1, 3, Full, 3, 1, Full, Full, Full, 1, 1, Full.
  split; [exact H|]. split; [left; reflexivity|]. split; [reflexivity|]. split; [cbn; auto|]. repeat split; auto.
Qed.
