(** ProofsUniF2.v - the uniform-grid kernels in double precision. *)
From Coq Require Import Floats Uint63.
From Coq Require Import Reals Lra Lia ZArith List Bool.
From Flocq Require Import Core Plus_error Relative BinarySingleNaN PrimFloat.
From Verif Require Import Base BaseLemmas NumF NumR ProofsTermF SpecRound ProofsRound ProofsRel SpecRoundSir ProofsRoundSir ProofsRoundDas
  ModelSir ModelArr ModelSmp ModelDas SpecSmp SpecDft SpecDas ProofsSmp ProofsLoop ProofsR ProofsDft ProofsDas ProofsDasR ProofsRca ProofsDasJ SpecRoundDas
  ProofsRoundDas2 ProofsRoundDas3.
From Coq Require Import ZifyBool ZifyNat.
Import ListNotations.
Open Scope R_scope.
Local Notation val := SpecRound.val.

(** After m additions: the double s stands for X, A is the sum of the absolute
    values. *)
Definition acc (m : nat) (A X : R) (s : PrimFloat.float) : Prop :=
  fin s = true /\ Rabs X <= A /\ Rabs (V s - X) <= ((1 + u) ^ m - 1) * A.

Lemma acc_mono m m' A X s : (m <= m')%nat -> acc m A X s -> acc m' A X s.
Proof.
  intros Hm (F & B & E). split; [exact F|]. split; [exact B|]. eapply Rle_trans; [exact E|]. pose proof (Rabs_pos X). pose proof u_small.
  apply Rmult_le_compat_r; [lra|]. apply Rplus_le_compat_r. apply Rle_pow; [lra|exact Hm].
Qed.

(** Addition of doubles commutes. *)
Lemma float_add_comm x y : (x + y)%float = (y + x)%float.
Proof.
  rewrite <- (SF2Prim_Prim2SF (x + y)), <- (SF2Prim_Prim2SF (y + x)). f_equal. rewrite !FloatAxioms.add_spec.
  unfold FloatAxioms.SF64add, SpecFloat.SFadd.
  destruct (Prim2SF x) as [sx|sx| |sx mx ex], (Prim2SF y) as [sy|sy| |sy my ey]; try reflexivity; try (destruct sx, sy; reflexivity).
  cbv zeta. rewrite (Z.min_comm ey ex). f_equal. apply Z.add_comm.
Qed.

Section Loop.
  Variable cnt : nat.
  Hypothesis Hcnt : INR cnt * u <= / 4.

  (** n rounds of at most c additions each, with terms t i and absolute
      values a i. *)
  Lemma loop_acc (c n : nat) (body : Z -> PrimFloat.float -> res PrimFloat.float) (t a : nat -> R) :
    (forall i, (i < n)%nat -> 0 <= a i) ->
    (forall i m A X s, (i < n)%nat -> (m + c <= cnt)%nat -> acc m A X s -> A + a i <= large ->
       exists s', body (Z.of_nat i) s = Ok s' /\ acc (m + c) (A + a i) (X + t i) s') ->
    forall m A X s, (m + n * c <= cnt)%nat -> acc m A X s -> A + rsum n a <= large ->
    exists s', for_loop (Z.of_nat n) body s = Ok s' /\ acc (m + n * c) (A + rsum n a) (X + rsum n t) s'.
  Proof.
    intros Ha Hb. unfold for_loop. rewrite Nat2Z.id.
    assert (G : forall k i m A X s, (i + k = n)%nat -> (m + k * c <= cnt)%nat -> acc m A X s -> A + rsum k (fun j => a (i + j)%nat) <= large ->
      exists s', for_from (Z.of_nat i) k body s = Ok s' /\ acc (m + k * c) (A + rsum k (fun j => a (i + j)%nat)) (X + rsum k (fun j => t (i + j)%nat)) s').
    { induction k as [|k IH]; intros i m A X s Hi Hm HA HL; cbn [for_from].
      - exists s. split; [reflexivity|]. cbn [rsum]. rewrite Nat.add_0_r, !Rplus_0_r. exact HA.
      - assert (Sa : rsum (S k) (fun j => a (i + j)%nat) = a i + rsum k (fun j => a (S i + j)%nat)).
        { rewrite rsum_S_l, Nat.add_0_r. f_equal. apply rsum_ext. intros j _. f_equal. lia. }
        assert (St : rsum (S k) (fun j => t (i + j)%nat) = t i + rsum k (fun j => t (S i + j)%nat)).
        { rewrite rsum_S_l, Nat.add_0_r. f_equal. apply rsum_ext. intros j _. f_equal. lia. }
        assert (Pk : 0 <= rsum k (fun j => a (S i + j)%nat)).
        { clear - Ha Hi. assert (Q : forall q, (q <= k)%nat -> 0 <= rsum q (fun j => a (S i + j)%nat)).
          { induction q as [|q IHq]; intros Hq; cbn [rsum]; [lra|]. assert (0 <= a (S i + q)%nat) by (apply Ha; lia). specialize (IHq ltac:(lia)). lra. }
          apply Q. lia. }
        rewrite Sa in *. rewrite St. clear Sa St.
        destruct (Hb i m A X s ltac:(lia) ltac:(lia) HA ltac:(lra)) as (s1 & E1 & A1). rewrite E1. cbn [bind].
        destruct (IH (S i) (m + c)%nat (A + a i) (X + t i) s1 ltac:(lia) ltac:(lia) A1 ltac:(lra)) as (s2 & E2 & A2).
        replace (Z.of_nat i + 1)%Z with (Z.of_nat (S i)) by lia. exists s2. split; [exact E2|].
        replace (m + S k * c)%nat with (m + c + k * c)%nat by lia. rewrite <- !Rplus_assoc. exact A2. }
    intros m A X s Hm HA HL. exact (G n 0%nat m A X s eq_refl Hm HA HL).
  Qed.
End Loop.

Section Kernel.
  Context (fsin fcos fatan fasin facos fexp flog : PrimFloat.float -> PrimFloat.float).
  Local Notation F := (FN fsin fcos fatan fasin facos fexp flog).
  Variables (Y : list F) (len : Z).
  Hypothesis Hlen : (0 <= len)%Z.
  Hypothesis HY : Forall finite Y.
  Local Notation Yv := (vals Y).
  Local Notation Ya := (map Rabs (vals Y)).

  Lemma cl_put_F cnt (Hcnt : INR cnt * u <= / 4) c arg k m A X s : f_trunc arg = Some k -> fits32 k -> (Z.of_nat c * len + len <= Z.of_nat (length Y))%Z ->
    (m + 1 <= cnt)%nat -> acc m A X s -> A + ascan Ya len c k <= large ->
    exists s', cl_put (N:=F) Y len (Z.of_nat c * len)%Z arg s = Ok s' /\ acc (m + 1) (A + ascan Ya len c k) (X + ascan Yv len c k) s'.
  Proof.
    intros Ek F32 HL Hm HA HR. unfold cl_put. change (ntrunc (n:=F) arg) with (f_trunc arg). rewrite Ek.
    unfold to_int. destruct F32 as [K1 K2]. apply Z.leb_le in K1. apply Z.ltb_lt in K2. rewrite K1, K2. cbn [andb bind].
    rewrite (abs_ascan _ _ _ _ _ _ _ Y len c k) in *. rewrite (andb_comm (k <? len)%Z). fold (inside len k).
    pose proof u_small as Hu. destruct HA as (Fs & HX & HE).
    assert (Hmu : INR m * u <= / 4).
    { apply Rle_trans with (2 := Hcnt). apply Rmult_le_compat_r; [lra|]. apply le_INR. lia. }
    destruct (pow_linear m Hmu) as (_ & G2). assert (G1 : 1 <= (1 + u) ^ m) by (apply pow_R1_Rle; lra).
    destruct (inside len k) eqn:Ei.
    - assert (D : exists y : F, buf_get Y (Z.of_nat c * len + k)%Z = Ok y /\ fin y = true /\ V y = ascan Yv len c k).
      { assert (Hin := Ei). unfold inside in Hin. destruct (buf_get_ok Y (Z.of_nat c * len + k)%Z ltac:(nia)) as (y & En & Eg). exists y. split; [exact Eg|].
        pose proof (nth_error_nth Y _ 0%float En) as Ny. split.
        - apply finite_fin. rewrite Forall_forall in HY. apply HY. eapply nth_error_In; eauto.
        - unfold ascan. rewrite Ei. replace (c * Z.to_nat len + Z.to_nat k)%nat with (Z.to_nat (Z.of_nat c * len + k)) by nia.
          rewrite <- nth_vals. f_equal. symmetry. exact Ny. }
      destruct D as (y & Eg & Fy & Vy). rewrite Eg. cbn [bind]. exists (s + y)%float. split; [reflexivity|].
      destruct (add_step s y X _ A _ ((1 + u) ^ m) Fs Fy Vy HX (Rle_refl _) (conj G1 G2) HE HR) as (Fa & Ea).
      split; [exact Fa|]. split; [eapply Rle_trans; [apply Rabs_triang|]; lra|]. rewrite Nat.add_1_r. cbn [pow]. rewrite (Rmult_comm (1 + u)). exact Ea.
    - exists s. split; [reflexivity|]. assert (Za : ascan Yv len c k = 0) by (unfold ascan; now rewrite Ei). rewrite Za, Rabs_R0, !Rplus_0_r.
      apply (acc_mono m); [lia|]. split; [exact Fs|]. split; [exact HX|exact HE].
  Qed.
  Lemma Ya_pos c k : 0 <= ascan Ya len c k.
  Proof. rewrite (abs_ascan _ _ _ _ _ _ _ Y len c k). apply Rabs_pos. Qed.

  Lemma acc0 : acc 0 0 0 0%float.
  Proof. split; [reflexivity|]. rewrite V0. cbn [pow]. rewrite Rabs_R0. split; [lra|]. rewrite Rminus_0_r, Rabs_R0. lra. Qed.
  Lemma acc_near n A X s : INR n <= powerRZ 2 50 -> acc n A X s -> near_image n A X s.
  Proof.
    intros Hn (Fs & HX & HE). split; [now apply finite_fin|]. rewrite val_V. eapply Rle_trans; [exact HE|]. pose proof u_small as Hu.
    replace (powerRZ 2 50) with (bpow radix2 50) in Hn by (now rewrite bpow_powerRZ).
    destruct (pow_linear n) as (G1 & _).
    { pose proof u50. apply Rle_trans with (bpow radix2 50 * u); [apply Rmult_le_compat_r; lra|lra]. }
    rewrite u_eps. pose proof (Rabs_pos X). replace (INR n * (2 * u) * A) with ((2 * INR n * u) * A) by ring. apply Rmult_le_compat_r; lra.
  Qed.

  (** Transmitters by receivers. *)
  Lemma double_F (n1 n2 : nat) (arg : Z -> Z -> F) (k : nat -> nat -> Z) :
    (forall i j, (i < n1)%nat -> (j < n2)%nat -> f_trunc (arg (Z.of_nat i) (Z.of_nat j)) = Some (k i j) /\ fits32 (k i j)) ->
    (Z.of_nat (n1 * n2) * len <= Z.of_nat (length Y))%Z ->
    let S W := rsum n1 (fun i => rsum n2 (fun j => ascan W len (i * n2 + j) (k i j))) in
    image_range (n1 * n2) (S Ya) ->
    exists v, for_loop (Z.of_nat n1) (fun i im => for_loop (Z.of_nat n2) (fun j im =>
        cl_put (N:=F) Y len ((i * Z.of_nat n2 + j) * len)%Z (arg i j) im) im) (nofZ (n:=F) 0) = Ok v /\
      near_image (n1 * n2) (S Ya) (S Yv) v.
  Proof.
    intros Hk HL S [HR Hn].
    assert (Hcnt : INR (n1 * n2) * u <= / 4).
    { replace (powerRZ 2 50) with (bpow radix2 50) in Hn by (now rewrite bpow_powerRZ). pose proof u50. pose proof u_small.
      apply Rle_trans with (bpow radix2 50 * u); [apply Rmult_le_compat_r; lra|lra]. }
    destruct (loop_acc (n1 * n2) n2 n1 (fun i im => for_loop (Z.of_nat n2) (fun j im =>
        cl_put (N:=F) Y len ((i * Z.of_nat n2 + j) * len)%Z (arg i j) im) im)
      (fun i => rsum n2 (fun j => ascan Yv len (i * n2 + j) (k i j))) (fun i => rsum n2 (fun j => ascan Ya len (i * n2 + j) (k i j))))
      with (m := 0%nat) (A := 0) (X := 0) (s := 0%float) as (v & Ev & Av).
    - intros i Hi. assert (G : forall p, 0 <= rsum p (fun j => ascan Ya len (i * n2 + j) (k i j))); [|apply G].
      induction p as [|p IHp]; cbn [rsum]; [lra|]. pose proof (Ya_pos (i * n2 + p) (k i p)). lra.
    - intros i m A X s Hi Hm HA HRi.
      destruct (loop_acc (n1 * n2) 1 n2 (fun j im => cl_put (N:=F) Y len ((Z.of_nat i * Z.of_nat n2 + j) * len)%Z (arg (Z.of_nat i) j) im)
        (fun j => ascan Yv len (i * n2 + j) (k i j)) (fun j => ascan Ya len (i * n2 + j) (k i j))) with (m := m) (A := A) (X := X) (s := s) as (v & Ev & Av).
      + intros j Hj. apply Ya_pos.
      + intros j m' A' X' s' Hj Hm' HA' HR'. destruct (Hk i j Hi Hj) as [K1 K2].
        replace ((Z.of_nat i * Z.of_nat n2 + Z.of_nat j) * len)%Z with (Z.of_nat (i * n2 + j) * len)%Z by lia.
        apply (cl_put_F (n1 * n2) Hcnt); auto.
        assert (i * n2 + j + 1 <= n1 * n2)%nat by nia. nia.
      + lia.
      + exact HA.
      + exact HRi.
      + exists v. split; [exact Ev|]. rewrite Nat.mul_1_r in Av. exact Av.
    - lia.
    - exact acc0.
    - rewrite Rplus_0_l. exact HR.
    - exists v. split; [exact Ev|]. rewrite !Rplus_0_l, Nat.add_0_l in Av. apply acc_near; [exact Hn|exact Av].
  Qed.
  (** One loop (SAFT). *)
  Lemma single_F (n : nat) (arg : Z -> F) (k : nat -> Z) :
    (forall i, (i < n)%nat -> f_trunc (arg (Z.of_nat i)) = Some (k i) /\ fits32 (k i)) ->
    (Z.of_nat n * len <= Z.of_nat (length Y))%Z ->
    let S W := rsum n (fun i => ascan W len i (k i)) in
    image_range n (S Ya) ->
    exists v, for_loop (Z.of_nat n) (fun i im => cl_put (N:=F) Y len (i * len)%Z (arg i) im) (nofZ (n:=F) 0) = Ok v /\
      near_image n (S Ya) (S Yv) v.
  Proof.
    intros Hk HL S [HR Hn].
    assert (Hcnt : INR n * u <= / 4).
    { replace (powerRZ 2 50) with (bpow radix2 50) in Hn by (now rewrite bpow_powerRZ). pose proof u50. pose proof u_small.
      apply Rle_trans with (bpow radix2 50 * u); [apply Rmult_le_compat_r; lra|lra]. }
    destruct (loop_acc n 1 n (fun i im => cl_put (N:=F) Y len (i * len)%Z (arg i) im)
      (fun i => ascan Yv len i (k i)) (fun i => ascan Ya len i (k i))) with (m := 0%nat) (A := 0) (X := 0) (s := 0%float) as (v & Ev & Av).
    - intros i Hi. apply Ya_pos.
    - intros i m A X s Hi Hm HA HRi. destruct (Hk i Hi) as [K1 K2]. apply (cl_put_F n Hcnt); auto. nia.
    - lia.
    - exact acc0.
    - rewrite Rplus_0_l. exact HR.
    - exists v. split; [exact Ev|]. rewrite !Rplus_0_l, Nat.add_0_l, Nat.mul_1_r in Av. apply acc_near; [exact Hn|exact Av].
  Qed.

  (** Travel times. *)
  Lemma near_self y : ordinary y -> near1 y (V y) /\ Rabs (V y) <= bpow radix2 104.
  Proof.
    intros Hy. apply ordinary_V in Hy. destruct Hy as [Fy By]. split; [now apply near1_exact|]. apply Rle_trans with (1 := By). apply bpow_le. lia.
  Qed.
  Lemma point_time (cp x xo yo zo : F) : ordinary_pos cp -> ordinary x -> ordinary xo -> ordinary yo -> ordinary zo ->
    powerRZ 2 (-100) <= edist (val x, 0, 0) (val xo, val yo, val zo) ->
    rel 6 (-200) 205 (uni_travel (N:=F) cp (nsub (n:=F) x xo) yo zo) (edist (val x, 0, 0) (val xo, val yo, val zo) / V cp).
  Proof.
    intros Hc Hx Hxo Hyo Hzo. unfold edist. rewrite !val_V. intros Hd. destruct (near_diff _ _ Hx Hxo) as [N1 B1].
    destruct (near_self yo Hyo) as [N2 B2]. destruct (near_self zo Hzo) as [N3 B3].
    replace (sqrt ((V x - V xo) ^ 2 + (0 - V yo) ^ 2 + (0 - V zo) ^ 2)) with (sqrt ((V x - V xo) ^ 2 + V yo ^ 2 + V zo ^ 2)) in * by (f_equal; ring).
    change (uni_travel (N:=F) cp (nsub (n:=F) x xo) yo zo) with (travel (N:=F) cp (nsub (n:=F) x xo) yo zo).
    apply travel_F; auto.
  Qed.
  Lemma stripe_cl_F (lo hi o : F) : ordinary lo -> ordinary hi -> ordinary o -> V lo <= V hi ->
    near1 (stripe_cl (N:=F) lo hi o) (rstripe (V lo) (V hi) (V o)) /\ Rabs (rstripe (V lo) (V hi) (V o)) <= bpow radix2 104.
  Proof.
    intros Hl Hh Ho Hle. destruct (near_diff _ _ Hl Ho) as [N1 B1]. destruct (near_diff _ _ Hh Ho) as [N2 B2].
    apply ordinary_V in Hl, Hh, Ho. destruct Hl as [Fl _], Hh as [Fh _], Ho as [Fo _].
    assert (Z0 : near1 (0%float) 0 /\ Rabs 0 <= bpow radix2 104).
    { split; [rewrite <- V0; apply near1_exact; reflexivity|]. rewrite Rabs_R0. apply bpow_ge_0. }
    unfold stripe_cl, rstripe. change (nlt (n:=F)) with PrimFloat.ltb.
    destruct (Rle_dec (V lo) (V o)) as [L1|L1].
    - rewrite (ltb_false o lo Fo Fl L1). cbn [orb]. destruct (Rle_dec (V o) (V hi)) as [L2|L2].
      + rewrite (ltb_false hi o Fh Fo L2). exact Z0.
      + rewrite (ltb_true hi o Fh Fo ltac:(lra)). destruct (Rlt_dec (V o) (V lo)); [lra|]. auto.
    - rewrite (ltb_true o lo Fo Fl ltac:(lra)). cbn [orb]. destruct (Rlt_dec (V o) (V lo)); [|lra]. auto.
  Qed.
  Lemma col_time_F (cp x lo hi xo yo zo : F) d : ordinary_pos cp -> ordinary x -> ordinary lo -> ordinary hi -> val lo <= val hi -> ordinary xo -> ordinary yo -> ordinary zo ->
    segment_dist (val x, val lo, 0) (val x, val hi, 0) (val xo, val yo, val zo) d -> powerRZ 2 (-100) <= d ->
    rel 6 (-200) 205 (uni_travel (N:=F) cp (nsub (n:=F) x xo) (stripe (N:=F) lo hi yo) zo) (d / V cp).
  Proof.
    intros Hc Hx Hlo Hhi Hle Hxo Hyo Hzo Hs Hd. rewrite !val_V in *. destruct (near_diff _ _ Hx Hxo) as [N1 B1].
    destruct (stripe_F fsin fcos fatan fasin facos fexp flog lo hi yo Hlo Hhi Hyo) as [N2 B2]. destruct (near_self zo Hzo) as [N3 B3].
    pose proof (segment_y (V x) (V lo) (V hi) 0 (V xo) (V yo) (V zo) Hle) as H'. rewrite (segment_unique _ _ _ _ _ Hs H') in *.
    replace (sqrt ((V x - V xo) * (V x - V xo) + rstripe (V lo) (V hi) (V yo) * rstripe (V lo) (V hi) (V yo) + (0 - V zo) * (0 - V zo)))
      with (sqrt ((V x - V xo) ^ 2 + rstripe (V lo) (V hi) (V yo) ^ 2 + V zo ^ 2)) in * by (f_equal; ring).
    change (uni_travel (N:=F) cp (nsub (n:=F) x xo) (stripe (N:=F) lo hi yo) zo) with (travel (N:=F) cp (nsub (n:=F) x xo) (stripe (N:=F) lo hi yo) zo).
    apply travel_F; auto.
  Qed.
  Lemma row_time_F (cp y lo hi xo yo zo : F) d : ordinary_pos cp -> ordinary y -> ordinary lo -> ordinary hi -> val lo <= val hi -> ordinary xo -> ordinary yo -> ordinary zo ->
    segment_dist (val lo, val y, 0) (val hi, val y, 0) (val xo, val yo, val zo) d -> powerRZ 2 (-100) <= d ->
    rel 6 (-200) 205 (uni_travel (N:=F) cp (stripe_cl (N:=F) lo hi xo) (nsub (n:=F) y yo) zo) (d / V cp).
  Proof.
    intros Hc Hy Hlo Hhi Hle Hxo Hyo Hzo Hs Hd. rewrite !val_V in *. destruct (near_diff _ _ Hy Hyo) as [N1 B1].
    destruct (stripe_cl_F lo hi xo Hlo Hhi Hxo Hle) as [N2 B2]. destruct (near_self zo Hzo) as [N3 B3].
    pose proof (segment_x (V y) (V lo) (V hi) 0 (V xo) (V yo) (V zo) Hle) as H'. rewrite (segment_unique _ _ _ _ _ Hs H') in *.
    replace (sqrt (rstripe (V lo) (V hi) (V xo) * rstripe (V lo) (V hi) (V xo) + (V y - V yo) * (V y - V yo) + (0 - V zo) * (0 - V zo)))
      with (sqrt (rstripe (V lo) (V hi) (V xo) ^ 2 + (V y - V yo) ^ 2 + V zo ^ 2)) in * by (f_equal; ring).
    change (uni_travel (N:=F) cp (stripe_cl (N:=F) lo hi xo) (nsub (n:=F) y yo) zo) with (travel (N:=F) cp (stripe_cl (N:=F) lo hi xo) (nsub (n:=F) y yo) zo).
    apply travel_F; auto.
  Qed.
End Kernel.
