(** ProofsSum.v - add_fftconv (extra_src/fftconv.cc 127-209) in exact
    arithmetic. *)
From Coq Require Import Reals Lra.
From Verif Require Import Base BaseLemmas ModelSir ModelConv NumR SpecDft SpecConv ProofsLoop ProofsDft ProofsConv ProofsConvR.
From Coq Require Import ZifyBool ZifyNat.
Ltac Zify.zify_post_hook ::= Z.div_mod_to_equations.
Open Scope R_scope.

Lemma dft_re_ext L f g k : (forall n, (n < L)%nat -> f n = g n) -> dft_re L f k = dft_re L g k.
Proof. intros H. unfold dft_re. apply rsum_ext. intros n Hn. now rewrite H. Qed.
Lemma dft_im_ext L f g k : (forall n, (n < L)%nat -> f n = g n) -> dft_im L f k = dft_im L g k.
Proof. intros H. unfold dft_im. f_equal. apply rsum_ext. intros n Hn. now rewrite H. Qed.
Lemma dft_re_lin L f g c k : dft_re L (fun n => f n + g n / c) k = dft_re L f k + dft_re L g k / c.
Proof. unfold dft_re, Rdiv. rewrite <- rsum_scal_r, <- rsum_plus. apply rsum_ext. intros n Hn. ring. Qed.
Lemma dft_im_lin L f g c k : dft_im L (fun n => f n + g n / c) k = dft_im L f k + dft_im L g k / c.
Proof.
  unfold dft_im, Rdiv. rewrite Ropp_mult_distr_l_reverse, <- rsum_scal_r, <- Ropp_plus_distr, <- rsum_plus. f_equal.
  apply rsum_ext. intros n Hn. ring.
Qed.
Lemma dft_re_0 L k : dft_re L (fun _ => 0) k = 0.
Proof. unfold dft_re. apply rsum_0. intros; ring. Qed.
Lemma dft_im_0 L k : dft_im L (fun _ => 0) k = 0.
Proof. unfold dft_im. rewrite rsum_0; [ring|]. intros; ring. Qed.

Section Sum.
  Variables (hs : list (list R)) (u : list R) (hlen ulen n : Z) (tr : list (EN * EN) -> list (EN * EN)).
  Let Lz := (hlen + ulen - 1)%Z.
  Let L := Z.to_nat Lz.
  Let p := dft_plan L tr.
  Hypothesis Htr : forall X, length (tr X) = length X.
  Hypothesis Hh : (1 <= hlen)%Z.
  Hypothesis Hu : (1 <= ulen)%Z.
  Hypothesis Hn : (0 <= n)%Z.
  Hypothesis Hhs : forall h, In h hs -> ((n + 1) * hlen <= Z.of_nat (length h))%Z.
  Hypothesis Hul : (Z.of_nat (length hs) * ulen <= Z.of_nat (length u))%Z.

  (** Response of input l at the point, and its signal. *)
  Definition resp (l : nat) : list R := slice (n * hlen) hlen (nth l hs []).
  Definition sig (l : nat) : list R := slice (Z.of_nat l * ulen) ulen u.
  Definition part (m : nat) (t : nat) : R := rsum m (fun l => cauchy (resp l) (sig l) t) / INR L.

  Lemma sp_ok : plan_ok p.
  Proof. apply dft_plan_ok; [unfold L, Lz; lia|exact Htr]. Qed.
  Lemma sp_len : fp_len p = Lz.
  Proof. unfold p, L. cbn [dft_plan fp_len]. unfold Lz. lia. Qed.
  Lemma L_pos : 0 < INR L.
  Proof. apply lt_0_INR. unfold L, Lz. lia. Qed.
  Lemma ediv_L (x : R) : e_div (Some x) (Some (IZR Lz)) = Some (x / INR L).
  Proof.
    pose proof L_pos as HL. rewrite INR_IZR_INZ in *. unfold L in *. rewrite Z2Nat.id in * by (unfold Lz; lia).
    cbn [e_div]. destruct (Req_EM_T (IZR Lz) 0) as [E|E]; [lra|reflexivity].
  Qed.

  Definition d0 : EN * EN := (nofZ (n:=EN) 0, nofZ (n:=EN) 0).
  Definition spec_ok (m : nat) (cf : list (EN * EN)) : Prop :=
    length cf = L /\ forall k, (k < L / 2 + 1)%nat -> nth k cf d0 = (Some (dft_re L (part m) k), Some (dft_im L (part m) k)).

  Lemma part_S m t : part (S m) t = part m t + cauchy (resp m) (sig m) t / INR L.
  Proof. unfold part. cbn [rsum]. unfold Rdiv. ring. Qed.

  Lemma add_loop (s : scratch EN) : scratch_ok Lz s -> spec_ok O (s_cf s) ->
    exists s', for_loop (Z.of_nat (length hs)) (fun l s =>
      do Hl <- buf_get (map reals hs) l;
      do a <- copy_in Hl (n * hlen) hlen (s_a s);
      do a <- zero_pad hlen Lz a;
      do b <- copy_in (reals u) (l * ulen) ulen (s_b s);
      do b <- zero_pad ulen Lz b;
      do af <- fft p a (s_af s);
      do bf <- fft p b (s_bf s);
      do cf <- for_loop Lz (fun i cf =>
                 do u <- buf_get af i; do v <- buf_get bf i;
                 buf_upd cf i (fun w => cadd w (cdiv (cmul u v) (nofZ Lz)))) (s_cf s);
      Ok {| s_a := a; s_b := b; s_c := s_c s; s_af := af; s_bf := bf; s_cf := cf |}) s = Ok s' /\
      scratch_ok Lz s' /\ spec_ok (length hs) (s_cf s').
  Proof.
    intros Hs Hc.
    match goal with |- exists s', for_loop ?mm ?body ?s0 = _ /\ _ =>
      destruct (for_inv (S:=scratch EN) (fun m s => scratch_ok Lz s /\ spec_ok m (s_cf s)) mm body s0) as (s' & E & HI) end.
    3:{ exists s'. rewrite Nat2Z.id in HI. split; [exact E|exact HI]. }
    { auto. }
    clear s Hs Hc. intros j s Hj ((S1 & S2 & S3 & S4 & S5 & S6) & Lcf & Ncf). rewrite Nat2Z.id in Hj.
    rewrite (get_nth (map reals hs) (Z.of_nat j) []) by (rewrite map_length; lia). cbn [bind]. rewrite Nat2Z.id.
    change (@nil (car EN)) with (reals []). rewrite (map_nth reals).
    assert (Hin : In (nth j hs []) hs) by (apply nth_In; lia). pose proof (Hhs _ Hin) as Hlh.
    assert (LR : forall l : list R, length (reals l) = length l) by (intros; unfold reals; apply map_length).
    pose proof (load_spec (reals (nth j hs [])) (n * hlen) hlen Lz (s_a s) ltac:(nia) ltac:(lia) ltac:(unfold Lz; lia)
      ltac:(rewrite LR; nia) S1) as Ea.
    pose proof (load_spec (reals u) (Z.of_nat j * ulen) ulen Lz (s_b s) ltac:(nia) ltac:(lia) ltac:(unfold Lz; lia)
      ltac:(rewrite LR; nia) S2) as Eb.
    destruct (copy_in (reals (nth j hs [])) (n * hlen) hlen (s_a s)) as [a0|?|]; cbn [bind] in Ea |- *; try discriminate Ea.
    rewrite Ea. cbn [bind].
    destruct (copy_in (reals u) (Z.of_nat j * ulen) ulen (s_b s)) as [b0|?|]; cbn [bind] in Eb |- *; try discriminate Eb.
    rewrite Eb. cbn [bind]. rewrite !slice_reals. fold (resp j). fold (sig j).
    assert (Lx : length (resp j) = Z.to_nat hlen) by (apply length_slice; nia).
    assert (Ly : length (sig j) = Z.to_nat ulen) by (apply length_slice; nia).
    assert (La : length (pad (N:=EN) Lz (reals (resp j))) = Z.to_nat (fp_len p)) by (rewrite sp_len; apply length_pad; rewrite LR; unfold Lz; lia).
    assert (Lb : length (pad (N:=EN) Lz (reals (sig j))) = Z.to_nat (fp_len p)) by (rewrite sp_len; apply length_pad; rewrite LR; unfold Lz; lia).
    destruct (fft_spec p _ (s_af s) sp_ok La ltac:(rewrite sp_len; exact S4)) as (af & -> & Laf & Faf). cbn [bind].
    destruct (fft_spec p _ (s_bf s) sp_ok Lb ltac:(rewrite sp_len; exact S5)) as (bf & -> & Lbf & Fbf). cbn [bind].
    assert (HLz : Lz = Z.of_nat L) by (unfold L, Lz; lia).
    destruct (for_upd d0 0 Lz (fun i cf => do u <- buf_get af i; do v <- buf_get bf i;
                 buf_upd cf i (fun w => cadd w (cdiv (cmul u v) (nofZ (n:=EN) Lz))))
      (fun i w => cadd w (cdiv (cmul (nth i af d0) (nth i bf d0)) (nofZ (n:=EN) Lz))) (s_cf s)) as (cf & -> & Lcf' & Ncf').
    { lia. }
    { intros i h Hi Hhh. rewrite (get_nth af (Z.of_nat i) d0), (get_nth bf (Z.of_nat i) d0) by lia. cbn [bind].
      rewrite buf_upd_ok by lia. rewrite Nat2Z.id. reflexivity. }
    cbn [bind]. eexists. split; [reflexivity|]. cbn [s_cf]. split.
    { unfold scratch_ok. cbn [s_a s_b s_c s_af s_bf s_cf]. rewrite sp_len in La, Lb. repeat split; lia. }
    split; [lia|]. intros k Hk. rewrite Ncf'. cbn [Nat.add]. rewrite Nat.sub_0_r.
    replace (_ && _)%bool with true by (unfold L in *; lia). rewrite (Ncf k Hk).
    assert (A : forall (x : list R) xf, firstn (half p) xf = fp_r2c p (pad (N:=EN) Lz (reals x)) ->
       nth k xf d0 = (Some (dft_re L (fun n => nth n x 0) k), Some (dft_im L (fun n => nth n x 0) k))).
    { intros x xf F. assert (E1 : nth k (firstn (half p) xf) d0 = nth k xf d0).
      { rewrite nth_firstn. replace (k <? half p)%nat with true; [reflexivity|]. unfold p. rewrite half_dft. lia. }
      rewrite <- E1, F, HLz. unfold p. rewrite r2c_reals.
      rewrite (nth_indep _ d0 ((fun k => (Some (dft_re L (fun n => nth n x 0) k), Some (dft_im L (fun n => nth n x 0) k))) O))
        by (rewrite map_length, seq_length; lia).
      rewrite (map_nth (fun k => (Some (dft_re L (fun n => nth n x 0) k), Some (dft_im L (fun n => nth n x 0) k)))).
      rewrite seq_nth by lia. reflexivity. }
    rewrite (A _ _ Faf), (A _ _ Fbf). unfold cmul, cdiv, cadd. cbn [fst snd].
    assert (EL : (length (resp j) + length (sig j) - 1)%nat = L) by (unfold L, Lz; lia).
    pose proof (dft_conv_re (resp j) (sig j) ltac:(lia) ltac:(lia) k) as Cre. rewrite EL in Cre.
    pose proof (dft_conv_im (resp j) (sig j) ltac:(lia) ltac:(lia) k) as Cim. rewrite EL in Cim.
    rewrite (dft_re_ext L (part (S j)) (fun t => part j t + cauchy (resp j) (sig j) t / INR L) k) by (intros; apply part_S).
    rewrite (dft_im_ext L (part (S j)) (fun t => part j t + cauchy (resp j) (sig j) t / INR L) k) by (intros; apply part_S).
    rewrite dft_re_lin, dft_im_lin, Cre, Cim. f_equal.
    - change (e2 Rplus (Some (dft_re L (part j) k)) (e_div (Some (dft_re L (fun n => nth n (resp j) 0) k * dft_re L (fun n => nth n (sig j) 0) k -
         dft_im L (fun n => nth n (resp j) 0) k * dft_im L (fun n => nth n (sig j) 0) k)) (Some (IZR Lz))) = 
         Some (dft_re L (part j) k + (dft_re L (fun n => nth n (resp j) 0) k * dft_re L (fun n => nth n (sig j) 0) k -
         dft_im L (fun n => nth n (resp j) 0) k * dft_im L (fun n => nth n (sig j) 0) k) / INR L)).
      rewrite ediv_L. reflexivity.
    - change (e2 Rplus (Some (dft_im L (part j) k)) (e_div (Some (dft_re L (fun n => nth n (resp j) 0) k * dft_im L (fun n => nth n (sig j) 0) k +
         dft_im L (fun n => nth n (resp j) 0) k * dft_re L (fun n => nth n (sig j) 0) k)) (Some (IZR Lz))) = 
         Some (dft_im L (part j) k + (dft_re L (fun n => nth n (resp j) 0) k * dft_im L (fun n => nth n (sig j) 0) k +
         dft_im L (fun n => nth n (resp j) 0) k * dft_re L (fun n => nth n (sig j) 0) k) / INR L)).
      rewrite ediv_L. reflexivity.
  Qed.

  (** Column n: the sum of the convolutions divided by the transform length,
      stored ('=' and '-=') or added ('+='). *)
  Lemma add_fftconv_E mode zo (s : scratch EN) (z : list EN) :
    scratch_ok Lz s -> (0 <= zo)%Z -> (zo + Lz <= Z.of_nat (length z))%Z ->
    exists s' z', add_fftconv p (map reals hs) (Z.of_nat (length hs)) hlen n (reals u) ulen mode zo s z = Ok (s', z') /\
      length z' = length z /\
      forall j, nth j z' (nofZ (n:=EN) 0) =
        if ((Z.to_nat zo <=? j) && (j <? Z.to_nat zo + L))%nat
        then comb (N:=EN) (match mode with cm_sum => cm_sum | _ => cm_equ end) (nth j z (nofZ (n:=EN) 0))
               (Some (part (length hs) (j - Z.to_nat zo)))
        else nth j z (nofZ (n:=EN) 0).
  Proof.
    intros (S1 & S2 & S3 & S4 & S5 & S6) Hzo Hz. unfold add_fftconv. fold Lz.
    assert (HLz : Lz = Z.of_nat L) by (unfold L, Lz; lia).
    destruct (for_upd d0 0 Lz (fun i cf => buf_upd cf i (fun _ => d0)) (fun _ _ => d0) (s_cf s)) as (cf & E & Lcf & Ncf).
    { lia. }
    { intros i h Hi Hhh. rewrite buf_upd_ok by lia. rewrite Nat2Z.id. reflexivity. }
    unfold d0 in E. rewrite E. cbn [bind]. clear E.
    destruct (add_loop {| s_a := s_a s; s_b := s_b s; s_c := s_c s; s_af := s_af s; s_bf := s_bf s; s_cf := cf |}) as (s1 & E & Hs1 & Hc1).
    { unfold scratch_ok. cbn [s_a s_b s_c s_af s_bf s_cf]. repeat split; lia. }
    { cbn [s_cf]. split; [unfold L in *; lia|]. intros k Hk. rewrite Ncf.
      replace (_ && _)%bool with true by (unfold L in *; lia). unfold d0, part.
      rewrite (dft_re_ext L _ (fun _ => 0)) by (intros; cbn [rsum]; unfold Rdiv; ring).
      rewrite (dft_im_ext L _ (fun _ => 0)) by (intros; cbn [rsum]; unfold Rdiv; ring).
      rewrite dft_re_0, dft_im_0. reflexivity. }
    cbn [s_a s_b s_c s_af s_bf s_cf] in E. rewrite E. cbn [bind]. clear E.
    destruct Hs1 as (T1 & T2 & T3 & T4 & T5 & T6). destruct Hc1 as (Lc1 & Nc1).
    rewrite (ifft_spec p (s_cf s1) (s_c s1) sp_ok) by (rewrite sp_len; assumption). cbn [bind].
    assert (Ef : firstn (half p) (s_cf s1) = map (fun k => (Some (dft_re L (part (length hs)) k), Some (dft_im L (part (length hs)) k))) (seq 0 (L / 2 + 1))).
    { unfold p. rewrite half_dft. apply (nth_ext_len d0).
      - rewrite firstn_length, map_length, seq_length. lia.
      - intros k Hk. rewrite firstn_length in Hk. rewrite nth_firstn. replace (k <? L / 2 + 1)%nat with true by lia.
        rewrite Nc1 by lia.
        rewrite (nth_indep _ d0 ((fun k => (Some (dft_re L (part (length hs)) k), Some (dft_im L (part (length hs)) k))) O))
          by (rewrite map_length, seq_length; lia).
        rewrite (map_nth (fun k => (Some (dft_re L (part (length hs)) k), Some (dft_im L (part (length hs)) k)))).
        rewrite seq_nth by lia. reflexivity. }
    rewrite Ef.
    assert (Ec : map (fun v : EN => ndiv v (nofZ (fp_len p))) (fp_c2r p (map (fun k => (Some (dft_re L (part (length hs)) k), Some (dft_im L (part (length hs)) k))) (seq 0 (L / 2 + 1))))
               = reals (map (part (length hs)) (seq 0 L))).
    { etransitivity; [apply (f_equal (map (fun v : EN => ndiv v (nofZ (fp_len p))))); exact (c2r_defined L tr _ _)|].
      unfold reals. rewrite !map_map. apply map_ext_in. intros t Ht. apply in_seq in Ht.
      rewrite idft_dft by lia. rewrite sp_len.
      etransitivity; [exact (ediv_L _)|]. f_equal. pose proof L_pos. field. lra. }
    rewrite Ec. cbv zeta.
    assert (Lr : length (reals (map (part (length hs)) (seq 0 L))) = L) by (unfold reals; now rewrite !map_length, seq_length).
    destruct (store_spec (N:=EN) (match mode with cm_sum => cm_sum | _ => cm_equ end) Lz (reals (map (part (length hs)) (seq 0 L))) zo z)
      as (z' & -> & Lz' & Nz); [lia..|].
    cbn [bind]. eexists _, z'. split; [reflexivity|]. split; [exact Lz'|]. intros j. rewrite Nz. fold L.
    destruct ((Z.to_nat zo <=? j) && (j <? Z.to_nat zo + L))%nat eqn:Ej; [|reflexivity]. f_equal.
    rewrite nth_reals. f_equal. rewrite (nth_indep _ 0 (part (length hs) O)) by (rewrite map_length, seq_length; lia).
    rewrite map_nth, seq_nth by lia. reflexivity.
  Qed.
End Sum.
