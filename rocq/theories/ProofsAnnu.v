(** ProofsAnnu.v - the annular array. *)
From Verif Require Import Base BaseLemmas ModelSir ModelArr SpecSir SpecAnnu ProofsLocal ProofsLocalArr ProofsLoop.
From Coq Require Import ZifyBool ZifyNat.
Ltac Zify.zify_post_hook ::= Z.div_mod_to_equations.

Section Annu.
  Context {N : Num} (K : idx_kind).
  Local Open Scope num_scope.
  Local Notation buf := (list N).
  Local Notation d0 := (nofZ 0 : N).

  Lemma nth_zeros nt k : nth k (zeros (N:=N) nt) d0 = d0.
  Proof. unfold zeros. apply nth_repeat. Qed.

  (** ** The middle radii *)
  Lemma radii_E (gr : buf) : (1 <= length gr)%nat ->
    exists r, annular_disc_radii gr = Ok r /\ length r = rings gr /\
      forall n, (n < rings gr)%nat -> nth n r d0 = mid_radius gr n.
  Proof.
    intros Hg. unfold annular_disc_radii, rings.
    set (ne := Z.to_nat ((Z.of_nat (length gr) + 1) / 2)).
    assert (Hne : ne = ((length gr + 1) / 2)%nat) by lia.
    rewrite buf_upd_ok by (rewrite repeat_length; lia). cbn [bind].
    change (Z.to_nat 0) with O.
    destruct (for_upd d0 1 ((Z.of_nat (length gr) - 1) / 2) (fun i r =>
      do g1 <- buf_get gr (2 * (i + 1))%Z;
      do g0 <- buf_get gr (2 * (i + 1) - 1)%Z;
      buf_upd r (i + 1)%Z (fun _ => (g1 + g0) / #2))
      (fun i _ => mid_radius gr (S i)) (upd (repeat d0 ne) 0 (fun _ => d0))) as (h' & E & L & Hn).
    - rewrite length_upd, repeat_length. lia.
    - intros j h Hj Hh. rewrite length_upd, repeat_length in Hh.
      rewrite (get_nth gr _ d0), (get_nth gr _ d0) by lia. cbn [bind]. rewrite buf_upd_ok by lia.
      f_equal. unfold mid_radius. replace (Z.to_nat (2 * (Z.of_nat j + 1))) with (2 * S j)%nat by lia.
      replace (Z.to_nat (2 * (Z.of_nat j + 1) - 1)) with (2 * S j - 1)%nat by lia.
      f_equal. lia.
    - exists h'. rewrite length_upd, repeat_length in L. split; [exact E|]. split; [lia|].
      intros n Hlt. rewrite Hn. rewrite nth_updg by (rewrite repeat_length; lia). rewrite nth_repeat.
      destruct n as [|n].
      + replace (_ && _) with false by lia. reflexivity.
      + replace (_ && _) with true by lia. f_equal. lia.
  Qed.

  (** ** The discs *)
  Variables (fuel : nat) (q : samp N) (att : option (att_plan N)) (lvl : ErrorLevel) (xo yo zo delay : N).
  Let ntn := Z.to_nat (nt q).
  Hypothesis Hnt : 0 <= nt q.
  Hypothesis Hatt : att_wf (nt q) att.

  Definition dfun (R : N) (n : Z) (hd : buf) : res (buf * SIRError) :=
    run_scanner K fuel (circ_scanner q R delay #1 xo yo zo) att lvl (nt q) (n * nt q) hd.

  Variable gr : buf.
  Variable D : nat -> buf.
  Hypothesis HD : forall n, (n < length gr)%nat -> disc_response K fuel q att lvl xo yo zo delay gr n (D n).
  Hypothesis HDlen : forall n, (n < length gr)%nat -> length (D n) = ntn.

  Definition filled (n : nat) : buf := concat (map D (seq 0 n)) ++ repeat d0 ((length gr - n) * ntn).

  Lemma length_concat_D n : (n <= length gr)%nat -> length (concat (map D (seq 0 n))) = (n * ntn)%nat.
  Proof.
    induction n as [|n IH]; intros H; [reflexivity|].
    rewrite seq_S, map_app, concat_app, app_length, IH by lia. cbn [seq map concat Nat.add]. rewrite app_nil_r, HDlen by lia. lia.
  Qed.
  Lemma filled_S n : (n < length gr)%nat ->
    filled n = emb (concat (map D (seq 0 n))) (repeat d0 ((length gr - S n) * ntn)) (zeros (nt q)).
  Proof.
    intros H. unfold filled, emb, zeros. f_equal. rewrite <- repeat_app. f_equal. fold ntn. nia.
  Qed.
  Lemma filled_S' n : (n < length gr)%nat ->
    emb (concat (map D (seq 0 n))) (repeat d0 ((length gr - S n) * ntn)) (D n) = filled (S n).
  Proof.
    intros H. unfold filled, emb. rewrite seq_S, map_app, concat_app. cbn [map concat Nat.add]. rewrite app_nil_r, <- app_assoc. reflexivity.
  Qed.

  Lemma discs_E : forall left n e, (n + left = length gr)%nat ->
    exists e', annu_discs gr (nt q) dfun (Z.of_nat n) left (filled n, e) = Ok (Go (filled (length gr), e')).
  Proof.
    induction left as [|left IH]; intros n e Hn.
    - exists e. cbn [annu_discs]. replace n with (length gr) by lia. reflexivity.
    - cbn [annu_discs]. rewrite (get_nth gr (Z.of_nat n) d0), Nat2Z.id by lia. cbn [bind].
      replace (Z.of_nat n =? 0)%Z with (Nat.eqb n 0) by lia.
      replace (Z.of_nat n + 1)%Z with (Z.of_nat (S n)) by lia.
      pose proof (HD n ltac:(lia)) as Hd. unfold disc_response in Hd.
      destruct (Nat.eqb n 0 && (nth n gr d0 <=? neps))%bool eqn:C.
      + assert (n = O) by lia. subst n.
        destruct (for_upd d0 0 (nt q) (fun i hd => buf_upd hd i (fun _ => d0)) (fun _ _ => d0) (filled 0)) as (h' & E & L & Hn').
        * unfold filled. cbn [seq map concat app]. rewrite repeat_length. fold ntn. nia.
        * intros j h Hj Hh. rewrite buf_upd_ok.
          -- rewrite Nat2Z.id. reflexivity.
          -- rewrite Hh. unfold filled. cbn [seq map concat app]. rewrite repeat_length. fold ntn in Hj. nia.
        * cbn [fst]. rewrite E. cbn [bind snd].
          replace h' with (filled 1); [apply (IH 1%nat); lia|].
          apply (nth_ext_len d0).
          -- rewrite L. unfold filled. cbn [seq map concat app]. rewrite app_nil_r, app_length, !repeat_length, HDlen by lia. nia.
          -- intros k Hk. rewrite Hn'. unfold filled. cbn [seq map concat app]. rewrite app_nil_r, Hd.
             unfold zeros. rewrite <- repeat_app, !nth_repeat. match goal with |- context [if ?b then _ else _] => destruct b end; reflexivity.
      + destruct Hd as (e1 & E1 & Ne). cbn [fst]. unfold dfun at 1.
        pose proof (run_scanner_local K fuel (circ_scanner q (nth n gr d0) delay #1 xo yo zo) att lvl (nt q) Hatt) as Loc.
        destruct (Loc (zeros (nt q)) (repeat_length _ _)) as [_ Lo]. cbn [serial] in E1.
        rewrite filled_S by lia.
        replace (Z.of_nat n * nt q)%Z with (Z.of_nat (length (concat (map D (seq 0 n)))))
          by (rewrite length_concat_D, Nat2Z.inj_mul by lia; unfold ntn; rewrite Z2Nat.id by exact Hnt; reflexivity).
        rewrite Lo, E1. cbn [rmap bind emb_st fst snd].
        replace (SIRError_eqb e1 err_oob) with false by (destruct e1; try reflexivity; congruence).
        unfold emb_st. cbn [fst snd]. rewrite filled_S' by lia. apply IH. lia.
  Qed.

  Lemma nth_filled n k : (n < length gr)%nat -> (k < ntn)%nat -> nth (k + n * ntn) (filled (length gr)) d0 = nth k (D n) d0.
  Proof.
    intros Hn Hk. unfold filled. rewrite app_nth1 by (rewrite length_concat_D by lia; nia).
    assert (G : forall m, (n < m)%nat -> (m <= length gr)%nat -> nth (k + n * ntn) (concat (map D (seq 0 m))) d0 = nth k (D n) d0).
    { induction m as [|m IH]; intros H1 H2; [lia|].
      rewrite seq_S, map_app, concat_app. cbn [map concat Nat.add]. rewrite app_nil_r.
      destruct (Nat.eq_dec n m) as [ -> |Ne].
      - rewrite app_nth2 by (rewrite length_concat_D by lia; lia). rewrite length_concat_D by lia. f_equal. lia.
      - rewrite app_nth1 by (rewrite length_concat_D by lia; nia). apply IH; lia. }
    apply G; lia.
  Qed.
  Lemma length_filled : length (filled (length gr)) = (length gr * ntn)%nat.
  Proof. unfold filled. rewrite app_length, length_concat_D, repeat_length by lia. nia. Qed.

  (** ** One ring *)
  Lemma resp_E (hr : buf) n : (n < rings gr)%nat -> length hr = (rings gr * ntn)%nat ->
    exists hr', resp_annular (filled (length gr)) hr (nt q) (Z.of_nat n) = Ok hr' /\ length hr' = length hr /\
      forall k, (k < ntn)%nat -> nth (k + n * ntn) hr' d0 = ring D n k.
  Proof.
    intros Hn Hl. unfold resp_annular. unfold rings in *.
    assert (Hg : (2 * n < length gr)%nat) by lia.
    destruct (Z.eqb_spec (2 * Z.of_nat n) 0) as [E0|E0].
    - assert (n = O) by lia. subst n.
      destruct (for_upd d0 0 (nt q) (fun i hr => do x <- buf_get (filled (length gr)) i; buf_upd hr (i + Z.of_nat 0 * nt q)%Z (fun _ => x))
        (fun i _ => nth i (D O) d0) hr) as (h' & E & L & Hn').
      + fold ntn. nia.
      + intros j h Hj Hh. fold ntn in Hj. rewrite (get_nth _ _ d0) by (rewrite length_filled; nia). cbn [bind].
        rewrite buf_upd_ok by nia. f_equal. rewrite Nat2Z.id.
        rewrite <- (nth_filled 0 j) by lia. replace (j + 0 * ntn)%nat with j by lia. f_equal. lia.
      + exists h'. split; [exact E|]. split; [exact L|]. intros k Hk. fold ntn in Hn'. rewrite Hn'.
        replace (_ && _) with true by lia. cbn [ring]. f_equal. lia.
    - destruct (for_upd d0 (n * ntn) (nt q) (fun i hr =>
        do x <- buf_get (filled (length gr)) (i + 2 * Z.of_nat n * nt q)%Z;
        do y <- buf_get (filled (length gr)) (i + (2 * Z.of_nat n - 1) * nt q)%Z;
        buf_upd hr (i + Z.of_nat n * nt q)%Z (fun _ => x - y))
        (fun i _ => ring D n i) hr) as (h' & E & L & Hn').
      + fold ntn. nia.
      + intros j h Hj Hh. fold ntn in Hj.
        replace (Z.of_nat j + 2 * Z.of_nat n * nt q)%Z with (Z.of_nat (j + (2 * n) * ntn)) by nia.
        replace (Z.of_nat j + (2 * Z.of_nat n - 1) * nt q)%Z with (Z.of_nat (j + (2 * n - 1) * ntn)) by nia.
        rewrite !(get_nth (filled (length gr)) _ d0) by (rewrite length_filled; nia). cbn [bind]. rewrite !Nat2Z.id.
        rewrite !nth_filled by lia. rewrite buf_upd_ok by nia. f_equal.
        replace (Z.to_nat (Z.of_nat j + Z.of_nat n * nt q)) with (n * ntn + j)%nat by nia.
        destruct n; [lia|]. reflexivity.
      + exists h'. split; [exact E|]. split; [exact L|]. intros k Hk. fold ntn in Hn'. rewrite Hn'.
        replace (_ && _) with true by nia. f_equal. lia.
  Qed.

  Lemma superpos_E (hr h : buf) n w fd z s : (n < rings gr)%nat -> length hr = (rings gr * ntn)%nat -> length h = ntn ->
    (forall k, (k < ntn)%nat -> nth (k + n * ntn) hr d0 = ring D n k) ->
    to_idx K (nrint (fd / dt q)) = Ok z -> (z + 1 = Z.of_nat s)%Z ->
    exists h', superpos_annular K hr 0 (nt q) w fd (Z.of_nat n) (dt q) h = Ok h' /\ length h' = ntn /\
      forall k, (k < ntn)%nat -> nth k h' d0 = nth k h d0 + w * moved D s n k.
  Proof.
    intros Hn Hl Hh Hring Ez Es. unfold superpos_annular. rewrite Ez. cbn [bind]. rewrite Es.
    assert (B : exists b, for_loop (nt q) (fun i b =>
        if (Z.of_nat s <? nt q)%Z then
          do x <- buf_get hr (i + Z.of_nat n * nt q)%Z; buf_upd b (i + Z.of_nat s)%Z (fun _ => x)
        else Ok b) (repeat d0 (Z.to_nat (2 * nt q))) = Ok b /\ length b = (2 * ntn)%nat /\
        forall k, (k < ntn)%nat -> nth k b d0 = moved D s n k).
    { destruct (Z.ltb_spec (Z.of_nat s) (nt q)) as [Hs|Hs].
      - destruct (for_upd d0 s (nt q) (fun i b =>
          do x <- buf_get hr (i + Z.of_nat n * nt q)%Z; buf_upd b (i + Z.of_nat s)%Z (fun _ => x))
          (fun i _ => ring D n i) (repeat d0 (Z.to_nat (2 * nt q)))) as (b & E & L & Hb).
        + rewrite repeat_length. lia.
        + intros j h1 Hj Hh1. rewrite repeat_length in Hh1. fold ntn in Hj.
          replace (Z.of_nat j + Z.of_nat n * nt q)%Z with (Z.of_nat (j + n * ntn)) by nia.
          rewrite (get_nth hr _ d0) by nia. cbn [bind]. rewrite Nat2Z.id, Hring by lia. rewrite buf_upd_ok by lia.
          f_equal. f_equal. lia.
        + exists b. split; [exact E|]. rewrite repeat_length in L. split; [lia|]. intros k Hk. rewrite Hb, nth_repeat.
          fold ntn. unfold moved. destruct (s <=? k)%nat eqn:C.
          * replace (_ && _) with true by lia. reflexivity.
          * replace (_ && _) with false by lia. reflexivity.
      - exists (repeat d0 (Z.to_nat (2 * nt q))). split; [|split].
        + apply for_noop.
        + rewrite repeat_length. lia.
        + intros k Hk. rewrite nth_repeat. unfold moved. replace (s <=? k)%nat with false by lia. reflexivity. }
    destruct B as (b & E & Lb & Hb). rewrite E. cbn [bind].
    destruct (for_upd d0 0 (nt q) (fun i h => do x <- buf_get b i; buf_upd h (0 + i)%Z (fun y => y + w * x))
      (fun i y => y + w * moved D s n i) h) as (h' & E' & L & Hn').
    - fold ntn. lia.
    - intros j h1 Hj Hh1. fold ntn in Hj. rewrite (get_nth b _ d0) by lia. cbn [bind]. rewrite Nat2Z.id, Hb by exact Hj.
      rewrite buf_upd_ok by lia. f_equal. f_equal. lia.
    - exists h'. split; [exact E'|]. split; [lia|]. intros k Hk. rewrite Hn'. fold ntn.
      replace (_ && _) with true by lia. f_equal. f_equal. f_equal. lia.
  Qed.

  (** ** All rings *)
  Variable p : annu_par N.
  Hypothesis Hp : Gr p = gr.
  Hypothesis Hgr : (1 <= length gr)%nat.
  Variables (w : nat -> N) (s : nat -> nat).
  Hypothesis Hfoc : ((if FocusMet_is_ud (an_foc_met p) then rings gr else 1) <= length (an_focal p))%nat.
  Hypothesis Hw : forall n, (n < rings gr)%nat -> ring_weight p n (w n).
  Hypothesis Hs : forall n, (n < rings gr)%nat -> exists z,
    to_idx K (nrint (ring_delay q p n / dt q)) = Ok z /\ (z + 1 = Z.of_nat (s n))%Z.

  Definition annu_out (m k : nat) : N :=
    fold_left (fun acc n => acc + w n * moved D (s n) n k) (seq 0 m) d0.

  Lemma annu_E h : length h = ntn -> exists out e,
    annu_serial K (nt q) 0 p (dt q) (cp q) dfun h = Ok (out, e) /\ length out = ntn /\
    forall k, (k < ntn)%nat -> nth k out d0 = annu_out (rings gr) k.
  Proof.
    intros Hh. unfold annu_serial. rewrite Hp.
    assert (Cl : exists h0, clear_h 0 (nt q) h = Ok h0 /\ length h0 = ntn /\ forall k, nth k h0 d0 = d0).
    { unfold clear_h. destruct (for_upd d0 0 (nt q) (fun i h => buf_upd h (0 + i)%Z (fun _ => d0)) (fun _ _ => d0) h) as (h0 & E & L & Hn).
      - fold ntn. lia.
      - intros j h1 Hj Hh1. fold ntn in Hj. rewrite buf_upd_ok by lia. f_equal. f_equal. lia.
      - exists h0. split; [exact E|]. split; [lia|]. intros k. rewrite Hn. fold ntn. destruct (_ && _) eqn:C; [reflexivity|].
        apply nth_overflow. lia. }
    destruct Cl as (h0 & -> & L0 & H0). cbn [bind].
    destruct (discs_E (length gr) 0 err_none ltac:(lia)) as (e & E).
    replace (repeat d0 (Z.to_nat (nt q * Z.of_nat (length gr)))) with (filled 0)
      by (unfold filled; cbn [seq map concat app]; f_equal; rewrite Nat.sub_0_r, Z.mul_comm, Z2Nat.inj_mul, Nat2Z.id by lia; reflexivity).
    change (Z.of_nat 0) with 0%Z in E. rewrite E. cbn [bind].
    destruct (radii_E gr Hgr) as (rr & -> & Lr & Hr). cbn [bind].
    assert (Hne : ((Z.of_nat (length gr) + 1) / 2 = Z.of_nat (rings gr))%Z) by (unfold rings; lia).
    assert (H1 : (1 <= rings gr)%nat) by (unfold rings; lia).
    rewrite Hne. rewrite (get_nth rr _ d0) by lia. cbn [bind].
    replace (Z.to_nat (Z.of_nat (rings gr) - 1)) with (rings gr - 1)%nat by lia. rewrite (Hr (rings gr - 1)%nat) by lia.
    match goal with |- exists out e, (do s <- for_loop ?nn ?body ?s0; _) = _ /\ _ =>
      destruct (for_inv (fun m (sh : buf * buf) => length (fst sh) = ntn /\ length (snd sh) = (rings gr * ntn)%nat /\
                           forall k, (k < ntn)%nat -> nth k (fst sh) d0 = annu_out m k) nn body s0) as ([h1 hr1] & E1 & I1) end.
    - cbn [fst snd]. split; [exact L0|]. split; [rewrite repeat_length, Z.mul_comm, Z2Nat.inj_mul, Nat2Z.id by lia; reflexivity|]. intros k _. rewrite H0. reflexivity.
    - intros n [h1 hr1] Hn (I1 & I2 & I3). cbn [fst snd] in *. rewrite Nat2Z.id in Hn.
      assert (Fo : (if FocusMet_is_ud (an_foc_met p) then buf_get (an_focal p) (Z.of_nat n) else buf_get (an_focal p) 0) =
                   Ok (nth (if FocusMet_is_ud (an_foc_met p) then n else O) (an_focal p) d0)).
      { destruct (FocusMet_is_ud (an_foc_met p)).
        - rewrite (get_nth _ _ d0), Nat2Z.id by lia. reflexivity.
        - rewrite (get_nth _ _ d0) by lia. reflexivity. }
      rewrite Fo. cbn [bind]. rewrite (get_nth rr _ d0), Nat2Z.id, Hr by lia. cbn [bind].
      pose proof (Hw n Hn) as W. unfold ring_weight in W. rewrite Hp in W. rewrite W. cbn [bind].
      destruct (resp_E hr1 n Hn I2) as (hr2 & -> & L2 & H2). cbn [bind].
      destruct (Hs n Hn) as (z & Ez & Es). unfold ring_delay in Ez. rewrite Hp in Ez.
      destruct (superpos_E hr2 h1 n (w n) _ z (s n) Hn (eq_trans L2 I2) I1 H2 Ez Es) as (h2 & -> & L3 & H3). cbn [bind].
      eexists. split; [reflexivity|]. cbn [fst snd]. split; [exact L3|]. split; [lia|].
      intros k Hk. rewrite H3, I3 by exact Hk. unfold annu_out. rewrite seq_S, fold_left_app. reflexivity.
    - rewrite E1. cbn [bind fst]. rewrite Nat2Z.id in I1. destruct I1 as (I1 & _ & I3). cbn [fst] in *. eauto.
  Qed.
End Annu.
