(** PropAnnu.v - property theorems about the annular array (C22). *)
From Coq Require Import Reals Lra Floats.
From Verif Require Import Base BaseLemmas ModelSir ModelArr NumR NumF SpecSir SpecRayleigh SpecAnnu
  ProofsLocal ProofsLocalArr ProofsLoop ProofsAnnu ProofsSirR ExJob.
From Coq Require Import ZifyBool ZifyNat.
Open Scope Z_scope.

(** C22, what the code does, any arithmetic, lossless or attenuated, any error
    level: if every disc response is defined and inside the record where the
    level demands it, sample k is the sum over the rings of
    weight * (outer disc - inner disc), moved by the ring's focusing delay in
    samples plus one. *)
Theorem C22_annular_partial : forall (N : Num) K fuel (q : samp N) att lvl xo yo zo delay (p : annu_par N)
    (D : nat -> list N) (w : nat -> N) (s : nat -> nat) h,
  0 <= nt q -> att_wf (nt q) att -> length h = Z.to_nat (nt q) ->
  (1 <= length (Gr p))%nat ->
  ((if FocusMet_is_ud (an_foc_met p) then rings (Gr p) else 1) <= length (an_focal p))%nat ->
  (forall n, (n < length (Gr p))%nat -> disc_response K fuel q att lvl xo yo zo delay (Gr p) n (D n)) ->
  (forall n, (n < rings (Gr p))%nat -> ring_weight p n (w n)) ->
  (forall n, (n < rings (Gr p))%nat -> exists z,
     to_idx K (nrint (ndiv (ring_delay q p n) (dt q))) = Ok z /\ z + 1 = Z.of_nat (s n)) ->
  exists out e,
    serial K fuel (TArrAnnu p) q att lvl xo yo zo delay 0 h = Ok (out, e) /\
    length out = Z.to_nat (nt q) /\
    forall k, (k < Z.to_nat (nt q))%nat ->
      nth k out (nofZ 0) =
      fold_left (fun acc n => nadd acc (nmul (w n) (moved D (s n) n k))) (seq 0 (rings (Gr p))) (nofZ 0).
Proof.
  intros N K fuel q att lvl xo yo zo delay p D w s h Hnt Ha Hh Hg Hf HD Hw Hs.
  cbn [serial].
  assert (HL : forall n, (n < length (Gr p))%nat -> length (D n) = Z.to_nat (nt q)).
  { intros n Hn. specialize (HD n Hn). unfold disc_response in HD. destruct (_ && _).
    - rewrite HD. apply repeat_length.
    - destruct HD as (e & E & _). cbn [serial] in E.
      pose proof (run_scanner_local K fuel (circ_scanner q (nth n (Gr p) (nofZ 0)) delay (nofZ 1) xo yo zo) att lvl (nt q) Ha) as Loc.
      destruct (Loc (zeros (nt q)) (repeat_length _ _)) as [Good _]. rewrite E in Good. exact Good. }
  exact (annu_E K fuel q att lvl xo yo zo delay Hnt Ha (Gr p) D HD HL p eq_refl Hg w s Hf Hw Hs h Hh).
Qed.
Print Assumptions C22_annular_partial.

(** A single disc without focusing and apodization, exact arithmetic: the
    response is that of dreamcirc, one sample late, the last sample lost. *)
Theorem C22_one_disc_partial : forall K fuel q ntz lvl delay o (r : R) fo am av ap h out e,
  par_ok q -> (0 <= ntz)%Z -> length h = Z.to_nat ntz -> (/ 2 ^ 52 < r)%R -> (exists f0, fo = Some f0 :> option R) ->
  sir K fuel q ntz (GCirc r) lvl delay o (repeat 0%R (Z.to_nat ntz)) = Ok (map (@Some R) out, e) -> e <> err_oob ->
  exists out' e',
    serial K fuel (@TArrAnnu EN (@Build_annu_par EN [Some r] foc_none [fo] false am av ap)) (emb_samp q ntz) None lvl
      (Some (p_x o)) (Some (p_y o)) (Some (p_z o)) (Some delay) 0 (map (@Some R) h) = Ok (out', e') /\
    length out' = Z.to_nat ntz /\
    forall k, (k < Z.to_nat ntz)%nat ->
      nth k out' (Some 0%R) = Some (match k with O => 0%R | S j => nth j out 0%R end).
Proof.
  intros K fuel q ntz lvl delay o r fo am av ap h out e Hq Hnt Hh Hr (f0 & ->) E He.
  set (p := @Build_annu_par EN [Some r] foc_none [Some f0] false am av ap).
  assert (Hrr : rings (N:=EN) (Gr p) = 1%nat) by reflexivity.
  destruct (C22_annular_partial EN K fuel (emb_samp q ntz) None lvl (Some (p_x o)) (Some (p_y o)) (Some (p_z o)) (Some delay)
     p (fun _ => map (@Some R) out) (fun _ => nofZ (n:=EN) 1) (fun _ => 1%nat) (map (@Some R) h)) as (out' & e' & E' & L & H').
  - exact Hnt.
  - exact I.
  - rewrite map_length. exact Hh.
  - cbn. lia.
  - cbn. lia.
  - intros n Hn. cbn in Hn. assert (n = O) by lia. subst n. unfold disc_response.
    replace (nle (n:=EN) (nth 0 (Gr p) (nofZ 0)) neps) with false.
    + cbn [andb Nat.eqb]. exists e. split; [|exact He]. unfold sir in E.
      unfold zeros. change (nofZ (n:=EN) 0) with (Some 0%R). rewrite <- (map_repeat (@Some R) 0%R). exact E.
    + symmetry. change (Rleb r (/ 2 ^ 52) = false). unfold Rleb. destruct (Rle_dec r (/ 2 ^ 52)) as [Hle|_]; [exfalso; lra|reflexivity].
  - intros n Hn. reflexivity.
  - intros n Hn. exists 0. split; [|reflexivity].
    unfold ring_delay. cbn [p an_foc_met focusing_annular]. cbn [ndiv EN emb_samp dt nofZ e_div].
    destruct (Req_EM_T (p_dt q) 0) as [Z0|_]; [destruct Hq as (_ & _ & H & _); contradiction|].
    cbn [nrint EN]. replace (0 / p_dt q)%R with (IZR 0) by (unfold Rdiv; ring). rewrite ProofsR.Zrint_IZR.
    destruct K; reflexivity.
  - exists out', e'. split; [exact E'|]. split; [exact L|]. intros k Hk. etransitivity; [exact (H' k Hk)|]. rewrite Hrr.
    cbn [seq fold_left]. unfold moved, ring. destruct k as [|j].
    + cbn. f_equal. ring.
    + cbn [Nat.leb]. replace (S j - 1)%nat with j by lia.
      change (e2 Rplus (Some 0%R) (e2 Rmult (Some 1%R) (nth j (map (@Some R) out) (Some 0%R))) = Some (nth j out 0%R)).
      rewrite (map_nth (@Some R)).
      change (e2 Rplus (Some 0%R) (e2 Rmult (Some 1%R) (Some (nth j out 0%R))) = Some (nth j out 0%R)). cbn [e2]. f_equal. ring.
Qed.
Print Assumptions C22_one_disc_partial.

(** So it is false that one disc gives dreamcirc: a 1 mm disc, over doubles. *)
Definition ex_annu (foc : FocusMet) (fo : list FI) : transducer FI :=
  @TArrAnnu FI (@Build_annu_par FI [1%float] foc fo false apod_ud [] 0%float).
Theorem C22_late_refuted : exists h1 h2,
  serial SignedIdx 10 (ex_annu foc_none [0%float]) (ex_samp 25) None lvl_warn 0%float 0%float 10%float 6%float 0 (repeat 0%float 25) = Ok (h1, err_none) /\
  serial SignedIdx 10 (@TCirc FI 1%float) (ex_samp 25) None lvl_warn 0%float 0%float 10%float 6%float 0 (repeat 0%float 25) = Ok (h2, err_none) /\
  existsb (fun k => negb (PrimFloat.eqb (nth k h1 0%float) (nth k h2 0%float))) (seq 0 25) = true.
Proof. do 2 eexists. split; [vm_compute; reflexivity|]. split; vm_compute; reflexivity. Qed.
Print Assumptions C22_late_refuted.

(** A user defined focusing delay of -1 us (-25 samples) writes before the
    start of the scratch buffer. *)
Theorem C22_negative_delay_refuted :
  serial SignedIdx 10 (ex_annu foc_ud [(-1)%float]) (ex_samp 25) None lvl_warn 0%float 0%float 10%float 6%float 0 (repeat 0%float 25) = UB UB_oob_write.
Proof. vm_compute. reflexivity. Qed.
Print Assumptions C22_negative_delay_refuted.

(** The Hann and Hamming windows are accepted and ignored. *)
Theorem C22_hann_refuted : forall (N : Num) (p : annu_par N) n w,
  an_do_apod p = true -> an_apod_met p = apod_hann \/ an_apod_met p = apod_hamming ->
  ring_weight p n w -> w = nofZ 1.
Proof.
  intros N p n w H1 H2 H3. unfold ring_weight in H3. rewrite H1 in H3. destruct H2 as [E|E]; rewrite E in H3; now injection H3.
Qed.
Print Assumptions C22_hann_refuted.

(** Non-vacuity: three radii over doubles (a disc and a ring), focused. *)
Definition ex_annu3 : annu_par FI :=
  @Build_annu_par FI [0.5%float; 0.75%float; 1%float] foc_xy [10%float] true apod_triangle [] 0%float.
Definition ex_disc (R : float) : list FI :=
  match serial SignedIdx 10 (@TCirc FI R) (ex_samp 25) None lvl_warn 0%float 0%float 10%float 6%float 0 (zeros (N:=FI) 25) with
  | Ok (d, _) => d | _ => [] end.
Definition ex_D (n : nat) : list FI := ex_disc (nth n [0.5%float; 0.75%float; 1%float] 0%float).
Example C22_ex :
  rings (N:=FI) (Gr ex_annu3) = 2%nat /\
  (forall n, (n < 3)%nat -> disc_response SignedIdx 10 (ex_samp 25) None lvl_warn 0%float 0%float 10%float 6%float (Gr ex_annu3) n (ex_D n)) /\
  ring_weight ex_annu3 1 0%float /\
  to_idx SignedIdx (nrint (n:=FI) (ndiv (n:=FI) (ring_delay (ex_samp 25) ex_annu3 0) (dt (ex_samp 25)))) = Ok 1.
Proof.
  split; [reflexivity|]. split; [|split; vm_compute; reflexivity].
  intros n Hn. unfold disc_response. destruct n as [|[|[|n]]]; [| | |lia].
  all: match goal with |- if ?b then _ else _ => replace b with false by (vm_compute; reflexivity) end.
  all: exists err_none; split; [vm_compute; reflexivity|discriminate].
Qed.
