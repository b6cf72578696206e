(** PropUni.v - property theorems: uniform grids (C38), uniform-grid
    delay-and-sum (C39), GPU against CPU (C40), object reuse (C37). *)
From Coq Require Import Reals Lra Lia ZArith List Bool ZifyBool ZifyNat.
From Verif Require Import Base BaseLemmas ModelSir ModelArr ModelSmp ModelDas NumR SpecSmp SpecDft SpecDas
  ProofsLocal ProofsLocalArr ProofsSmp ProofsLoop ProofsCallG ProofsSmp2 ProofsR ProofsRayleigh ProofsDft ProofsDas ProofsDasR ProofsRca ProofsDasJ
  ProofsUni PropDas PropDas2.
Import ListNotations.
Ltac Zify.zify_post_hook ::= Z.div_mod_to_equations.
Open Scope R_scope.

(** ** C38 *)

(** In exact arithmetic lo:pitch:hi has floor((hi-lo)/pitch)+1 points, all in
    [lo,hi], and there is no room for another one. *)
Theorem C38_exact_partial : forall K lo p hi, 0 < p -> lo <= hi -> fits K (grid_num (lo, p, hi)) ->
  uni_count (N:=EN) K (Some lo) (Some p) (Some hi) = Ok (Zfloor ((hi - lo) / p) + 1)%Z /\
  (forall i, (0 <= i < Zfloor ((hi - lo) / p) + 1)%Z -> exists x,
     uni_pos (N:=EN) (Some lo) (Some p) i = Some x /\ lo <= x <= hi) /\
  (exists x, uni_pos (N:=EN) (Some lo) (Some p) (Zfloor ((hi - lo) / p) + 1) = Some x /\ hi < x).
Proof.
  intros K lo p hi Hp Hl F. assert (G : grid_ok (lo, p, hi)) by (split; assumption).
  pose proof (grid_num_pos _ G) as Hn. cbn [grid_num] in Hn.
  split; [exact (uni_count_R K (lo, p, hi) G F)|]. split.
  - intros i Hi. exists (grid_at (lo, p, hi) (Z.to_nat i)). split.
    + rewrite <- (uni_pos_R (lo, p, hi)). rewrite Z2Nat.id by lia. reflexivity.
    + apply (grid_inside (lo, p, hi)); [exact G|]. cbn [grid_num]. lia.
  - exists (grid_at (lo, p, hi) (Z.to_nat (grid_num (lo, p, hi)))). split.
    + rewrite <- (uni_pos_R (lo, p, hi)). rewrite Z2Nat.id by (cbn [grid_num]; lia). reflexivity.
    + exact (grid_beyond _ G).
Qed.
Print Assumptions C38_exact_partial.
Example C38_ex : uni_count (N:=EN) SignedIdx (Some (-1)) (Some (1/2)) (Some 1) = Ok 5%Z.
Proof.
  assert (Z : Zfloor ((1 - -1) / (1/2)) = 4%Z) by (apply Zfloor_unique; lra).
  destruct (C38_exact_partial SignedIdx (-1) (1/2) 1) as [E _]; try lra.
  - cbn [grid_num fits]. rewrite Z. lia.
  - rewrite E, Z. reflexivity.
Qed.

(** The linear index of a work item and its three subscripts determine each
    other, and every image point is in the box. *)
Theorem C38_points : forall gx gy gz, grid_ok gx -> grid_ok gy -> grid_ok gz ->
  fits32 (grid_num gx) -> fits32 (grid_num gy) -> fits32 (grid_num gz) ->
  (forall no, (Z.of_nat no < grid_num gx * grid_num gy * grid_num gz)%Z -> exists i j k,
     (Z.of_nat i < grid_num gx)%Z /\ (Z.of_nat j < grid_num gy)%Z /\ (Z.of_nat k < grid_num gz)%Z /\
     Z.of_nat no = ((Z.of_nat i * grid_num gz + Z.of_nat k) * grid_num gy + Z.of_nat j)%Z /\
     uni_at (N:=EN) (emb3 gx) (emb3 gy) (emb3 gz) (Z.of_nat no) =
       Ok (Some (grid_at gx i) : EN, Some (grid_at gy j) : EN, Some (grid_at gz k) : EN) /\
     grid_lo gx <= grid_at gx i <= grid_hi gx /\ grid_lo gy <= grid_at gy j <= grid_hi gy /\
     grid_lo gz <= grid_at gz k <= grid_hi gz) /\
  (forall i j k, (Z.of_nat i < grid_num gx)%Z -> (Z.of_nat j < grid_num gy)%Z -> (Z.of_nat k < grid_num gz)%Z ->
     exists no, (Z.of_nat no < grid_num gx * grid_num gy * grid_num gz)%Z /\
       uni_at (N:=EN) (emb3 gx) (emb3 gy) (emb3 gz) (Z.of_nat no) =
       Ok (Some (grid_at gx i) : EN, Some (grid_at gy j) : EN, Some (grid_at gz k) : EN)).
Proof.
  intros gx gy gz Ox Oy Oz Fx Fy Fz.
  pose proof (grid_num_pos _ Ox) as Px. pose proof (grid_num_pos _ Oy) as Py. pose proof (grid_num_pos _ Oz) as Pz.
  assert (X : forall no i j k, (Z.of_nat no < grid_num gx * grid_num gy * grid_num gz)%Z ->
     Z.of_nat no = ((Z.of_nat i * grid_num gz + Z.of_nat k) * grid_num gy + Z.of_nat j)%Z ->
     (Z.of_nat i < grid_num gx)%Z -> (Z.of_nat j < grid_num gy)%Z -> (Z.of_nat k < grid_num gz)%Z ->
     uni_at (N:=EN) (emb3 gx) (emb3 gy) (emb3 gz) (Z.of_nat no) =
       Ok (Some (grid_at gx i) : EN, Some (grid_at gy j) : EN, Some (grid_at gz k) : EN)).
  { intros no i j k Hno E Hi Hj Hk.
    rewrite (uni_at_R gx gy gz no Ox Oy Oz Fx Fy Fz Hno). unfold box_point, vx, vy, vz. cbn [fst snd].
    set (ny := Z.to_nat (grid_num gy)). set (nz := Z.to_nat (grid_num gz)).
    assert (En : no = ((i * nz + k) * ny + j)%nat) by (apply Nat2Z.inj; unfold ny, nz; rewrite E; lia).
    assert (D1 : (no / ny = i * nz + k)%nat) by (rewrite En; rewrite Nat.add_comm, Nat.div_add, Nat.div_small by lia; lia).
    assert (M1 : (no mod ny = j)%nat) by (rewrite En; rewrite Nat.add_comm, Nat.mod_add, Nat.mod_small by lia; lia).
    rewrite D1, M1.
    rewrite (Nat.add_comm (i * nz) k), Nat.div_add, Nat.mod_add, Nat.div_small, Nat.mod_small by lia. reflexivity. }
  split.
  - intros no Hno.
    destruct (uni_sub_spec (grid_num gx) (grid_num gy) (grid_num gz) (Z.of_nat no) ltac:(lia) ltac:(lia) ltac:(lia) ltac:(lia))
      as (nx & ny & nz & _ & Bx & By & Bz & E & _).
    exists (Z.to_nat nx), (Z.to_nat ny), (Z.to_nat nz). rewrite !Z2Nat.id by lia.
    repeat (split; [lia|]). split; [apply X; rewrite ?Z2Nat.id; lia|].
    split; [apply grid_inside; auto; lia|]. split; apply grid_inside; auto; lia.
  - intros i j k Hi Hj Hk. exists ((i * Z.to_nat (grid_num gz) + k) * Z.to_nat (grid_num gy) + j)%nat.
    assert (B : (Z.of_nat ((i * Z.to_nat (grid_num gz) + k) * Z.to_nat (grid_num gy) + j) =
                 (Z.of_nat i * grid_num gz + Z.of_nat k) * grid_num gy + Z.of_nat j)%Z) by lia.
    split.
    + rewrite B. assert (H1 : (Z.of_nat i * grid_num gz + Z.of_nat k + 1 <= grid_num gx * grid_num gz)%Z) by nia.
      assert (H2 : ((Z.of_nat i * grid_num gz + Z.of_nat k + 1) * grid_num gy <= grid_num gx * grid_num gz * grid_num gy)%Z) by nia. nia.
    + apply X; auto. rewrite B. assert (H1 : (Z.of_nat i * grid_num gz + Z.of_nat k + 1 <= grid_num gx * grid_num gz)%Z) by nia.
      assert (H2 : ((Z.of_nat i * grid_num gz + Z.of_nat k + 1) * grid_num gy <= grid_num gx * grid_num gz * grid_num gy)%Z) by nia. nia.
Qed.
Print Assumptions C38_points.

(** ** C39: uniform-grid delay-and-sum *)
Section Uni.
  Variables (Y : list R) (len : Z) (gt gr gx gy gz : grid) (dt cp delay : R) (no : nat).
  Hypothesis Hlen : (0 <= len)%Z.
  Hypothesis Hdt : dt <> 0.
  Hypothesis Hcp : cp <> 0.
  Hypothesis Ot : grid_ok gt.
  Hypothesis Or : grid_ok gr.
  Hypothesis Ft : fits32 (grid_num gt).
  Hypothesis Fr : fits32 (grid_num gr).
  Hypothesis Ox : grid_ok gx.
  Hypothesis Oy : grid_ok gy.
  Hypothesis Oz : grid_ok gz.
  Hypothesis Fx : fits32 (grid_num gx).
  Hypothesis Fy : fits32 (grid_num gy).
  Hypothesis Fz : fits32 (grid_num gz).
  Hypothesis Hno : (Z.of_nat no < grid_num gx * grid_num gy * grid_num gz)%Z.
  Let o := box_point gx gy gz (Z.to_nat (grid_num gy)) (Z.to_nat (grid_num gz)) no.
  Let nt := Z.to_nat (grid_num gt).
  Let nr := Z.to_nat (grid_num gr).
  Local Notation EY := (map Some Y : list EN).
  Local Notation E := (fun x : R => (Some x : EN)).

  Lemma uni_travel_E a b c : uni_travel (N:=EN) (E cp) (E a) (E b) (E c) = E (sqrt (a * a + b * b + c * c) / cp).
  Proof.
    etransitivity; [|exact (travel_E cp a b c Hcp)]. reflexivity.
  Qed.
  Lemma o_eta : o = (vx o, vy o, vz o).
  Proof. destruct o as [[x y] z]. reflexivity. Qed.
  Lemma edist_x0 a : edist (a, 0, 0) o = sqrt ((a - vx o) * (a - vx o) + vy o * vy o + vz o * vz o).
  Proof. rewrite o_eta, edist_sq. cbn [vx vy vz fst snd]. f_equal. ring. Qed.

  Lemma put_arg c (arg : EN) x im : arg = E x -> fits32 (Ztruncr x) -> (Z.of_nat (S c) * len <= Z.of_nat (length Y))%Z ->
    cl_put (N:=EN) EY len (Z.of_nat c * len) arg (E im) = Ok (E (im + ascan Y len c (Ztruncr x))).
  Proof. intros -> F HY. apply (cl_put_R Y len Hlen); assumption. Qed.
  Lemma put_pair c a b im : fits32 (pair_sample dt cp delay a b) -> (Z.of_nat (S c) * len <= Z.of_nat (length Y))%Z ->
    cl_put (N:=EN) EY len (Z.of_nat c * len)
      (nmul (n:=EN) (nadd (n:=EN) (nadd (n:=EN) (E (a / cp)) (delay_ms (N:=EN) (E delay))) (E (b / cp))) (Fs_khz (N:=EN) (E dt))) (E im) =
    Ok (E (im + ascan Y len c (pair_sample dt cp delay a b))).
  Proof.
    intros F HY. apply (put_arg c _ (1000 * (a / cp + b / cp + delay / 1000) / dt)); try assumption.
    exact (arg_pair dt cp delay a b Hdt Hcp).
  Qed.
  (** The delay may be added to either leg. *)
  Lemma put_pair' c a b im : fits32 (pair_sample dt cp delay a b) -> (Z.of_nat (S c) * len <= Z.of_nat (length Y))%Z ->
    cl_put (N:=EN) EY len (Z.of_nat c * len)
      (nmul (n:=EN) (nadd (n:=EN) (E (b / cp)) (nadd (n:=EN) (E (a / cp)) (delay_ms (N:=EN) (E delay)))) (Fs_khz (N:=EN) (E dt))) (E im) =
    Ok (E (im + ascan Y len c (pair_sample dt cp delay a b))).
  Proof.
    intros F HY. apply (put_arg c _ (1000 * (a / cp + b / cp + delay / 1000) / dt)); try assumption.
    etransitivity; [|exact (arg_pair dt cp delay a b Hdt Hcp)].
    apply (f_equal (fun x => nmul (n:=EN) x (Fs_khz (N:=EN) (E dt)))).
    pose proof (dms_E delay) as D. unfold EN in *. cbn [car] in *. rewrite D. ered. unfold e2. f_equal. ring.
  Qed.

  Lemma pos_rel g x i : nsub (n:=EN) (uni_pos (N:=EN) (fst (fst (emb3 g))) (snd (fst (emb3 g))) (Z.of_nat i)) (E x) = E (grid_at g i - x).
  Proof. rewrite uni_pos_R. reflexivity. Qed.

  Lemma grid_head (g : grid) : emb3 g = (fst (fst (emb3 g)), snd (fst (emb3 g)), snd (emb3 g)).
  Proof. destruct g as [[a b] c]. reflexivity. Qed.
  Lemma count_head g : grid_ok g -> fits32 (grid_num g) ->
    uni_count_cl (N:=EN) (fst (fst (emb3 g))) (snd (fst (emb3 g))) (snd (emb3 g)) = Ok (grid_num g).
  Proof. destruct g as [[a b] c]. apply uni_count_cl_R. Qed.

  Lemma pairs_bound i j n1 n2 : (i < n1)%nat -> (j < n2)%nat -> (Z.of_nat n1 * Z.of_nat n2 * len <= Z.of_nat (length Y))%Z ->
    (Z.of_nat (S (i * n2 + j)) * len <= Z.of_nat (length Y))%Z.
  Proof. intros Hi Hj H. assert (Z.of_nat (S (i * n2 + j)) <= Z.of_nat n1 * Z.of_nat n2)%Z by nia. nia. Qed.

  (** Generic double loop. *)
  Lemma double_loop (g1 g2 : grid) (body : Z -> Z -> EN -> res EN) (d1 d2 : nat -> R) :
    (forall i j im, (i < Z.to_nat (grid_num g1))%nat -> (j < Z.to_nat (grid_num g2))%nat ->
      body (Z.of_nat i) (Z.of_nat j) (E im) =
      Ok (E (im + ascan Y len (i * Z.to_nat (grid_num g2) + j) (pair_sample dt cp delay (d1 i) (d2 j))))) ->
    for_loop (grid_num g1) (fun i im => for_loop (grid_num g2) (fun j im => body i j im) im) (nofZ (n:=EN) 0) =
    Ok (E (das_sum Y len (Z.to_nat (grid_num g1)) (Z.to_nat (grid_num g2)) d1 d2 dt cp delay)).
  Proof.
    intros Hb. etransitivity.
    - refine (for_sum (grid_num g1) _ (fun i => rsum (Z.to_nat (grid_num g2)) (fun j => ascan Y len (i * Z.to_nat (grid_num g2) + j) (pair_sample dt cp delay (d1 i) (d2 j)))) 0 _).
      intros i im Hi. apply for_sum. intros j im' Hj. apply Hb; assumption.
    - rewrite Rplus_0_l. reflexivity.
  Qed.

  Lemma uni_tfm_R :
    (Z.of_nat nt * Z.of_nat nr * len <= Z.of_nat (length Y))%Z ->
    let dtx i := edist (grid_at gt i, 0, 0) o in let drx j := edist (grid_at gr j, 0, 0) o in
    (forall i j, (i < nt)%nat -> (j < nr)%nat -> fits32 (pair_sample dt cp delay (dtx i) (drx j))) ->
    uni_value (N:=EN) das_tfm EY len (emb3 gt) (emb3 gr) (emb3 gx) (emb3 gy) (emb3 gz) (E dt) (E delay) (E cp) (Z.of_nat no) =
    Ok (E (das_sum Y len nt nr dtx drx dt cp delay)).
  Proof.
    intros HY dtx drx Hf. unfold uni_value. rewrite (uni_at_R gx gy gz no) by assumption. cbv zeta. fold o. cbn [bind].
    rewrite (grid_head gt), (grid_head gr). unfold uni_tfm. rewrite !count_head by assumption. cbn [bind].
    apply double_loop. intros i j im Hi Hj. rewrite !pos_rel, !uni_travel_E.
    rewrite <- !edist_x0.
    replace ((Z.of_nat i * grid_num gr + Z.of_nat j) * len)%Z with (Z.of_nat (i * nr + j) * len)%Z
      by (unfold nr; pose proof (grid_num_pos _ Or); f_equal; lia).
    apply put_pair; [apply Hf; assumption|]. apply (pairs_bound i j nt nr); assumption.
  Qed.

  Lemma uni_saft_R :
    (Z.of_nat nt * len <= Z.of_nat (length Y))%Z ->
    let d i := edist (grid_at gt i, 0, 0) o in
    (forall i, (i < nt)%nat -> fits32 (pair_sample dt cp (2 * delay) (d i) (d i))) ->
    uni_value (N:=EN) das_saft EY len (emb3 gt) (emb3 gr) (emb3 gx) (emb3 gy) (emb3 gz) (E dt) (E delay) (E cp) (Z.of_nat no) =
    Ok (E (saft_sum Y len nt d dt cp (2 * delay))).
  Proof.
    intros HY d Hf. unfold uni_value. rewrite (uni_at_R gx gy gz no) by assumption. cbv zeta. fold o. cbn [bind].
    rewrite (grid_head gt), (grid_head gr). unfold uni_saft. rewrite !count_head by assumption. cbn [bind].
    etransitivity.
    - refine (for_sum (grid_num gt) _ (fun i => ascan Y len i (pair_sample dt cp (2 * delay) (d i) (d i))) 0 _).
      intros i im Hi. rewrite pos_rel, uni_travel_E, <- edist_x0. fold (d i).
      rewrite (arg_saft dt cp delay (d i)) by assumption. apply (cl_put_R Y len Hlen); [apply Hf; exact Hi|].
      assert (Z.of_nat (S i) <= Z.of_nat nt)%Z by (unfold nt; lia). nia.
    - rewrite Rplus_0_l. reflexivity.
  Qed.

  Lemma stripe_cl_E lo hi x : stripe_cl (N:=EN) (E lo) (E hi) (E x) = E (rstripe lo hi x).
  Proof.
    etransitivity; [apply stripe_same|apply stripe_E]. unfold total3. cbn. unfold ecmp, Rleb, Rltb.
    destruct (Rle_dec lo x), (Rlt_dec x lo), (Rle_dec x hi), (Rlt_dec hi x); try lra; auto.
  Qed.

  Definition col_seg (g1 g2 : grid) c : vec * vec := ((grid_at g1 c, grid_lo g2, 0), (grid_at g1 c, grid_hi g2, 0)).
  Definition row_seg (g1 g2 : grid) r : vec * vec := ((grid_lo g1, grid_at g2 r, 0), (grid_hi g1, grid_at g2 r, 0)).

  Lemma emb_lo g : fst (fst (emb3 g)) = E (grid_lo g).
  Proof. destruct g as [[a b] c]. reflexivity. Qed.
  Lemma emb_hi g : snd (emb3 g) = E (grid_hi g).
  Proof. destruct g as [[a b] c]. reflexivity. Qed.
  Lemma lo_hi g : grid_ok g -> grid_lo g <= grid_hi g.
  Proof. destruct g as [[a b] c]. intros [_ H]. exact H. Qed.

  Variables (dcol drow : nat -> R).
  Hypothesis Hdc : forall c, (c < nt)%nat -> segment_dist (fst (col_seg gt gr c)) (snd (col_seg gt gr c)) o (dcol c).
  Hypothesis Hdr : forall r, (r < nr)%nat -> segment_dist (fst (row_seg gt gr r)) (snd (row_seg gt gr r)) o (drow r).
  Hypothesis HY : (Z.of_nat nt * Z.of_nat nr * len <= Z.of_nat (length Y))%Z.
  Hypothesis Hf : forall c r, (c < nt)%nat -> (r < nr)%nat -> fits32 (pair_sample dt cp delay (dcol c) (drow r)).

  Lemma col_time c : (c < nt)%nat ->
    uni_travel (N:=EN) (E cp) (nsub (n:=EN) (uni_pos (N:=EN) (fst (fst (emb3 gt))) (snd (fst (emb3 gt))) (Z.of_nat c)) (E (vx o)))
      (stripe (N:=EN) (fst (fst (emb3 gr))) (snd (emb3 gr)) (E (vy o))) (E (vz o)) = E (dcol c / cp).
  Proof.
    intros Hc. rewrite pos_rel, emb_lo, emb_hi, stripe_E, uni_travel_E. f_equal. f_equal.
    pose proof (Hdc c Hc) as H. rewrite o_eta in H. unfold col_seg in H. cbn [fst snd] in H.
    pose proof (segment_y (grid_at gt c) (grid_lo gr) (grid_hi gr) 0 (vx o) (vy o) (vz o) (lo_hi _ Or)) as H'.
    rewrite <- (segment_unique _ _ _ _ _ H' H). f_equal. ring.
  Qed.
  Lemma row_time r : (r < nr)%nat ->
    uni_travel (N:=EN) (E cp) (stripe_cl (N:=EN) (fst (fst (emb3 gt))) (snd (emb3 gt)) (E (vx o)))
      (nsub (n:=EN) (uni_pos (N:=EN) (fst (fst (emb3 gr))) (snd (fst (emb3 gr))) (Z.of_nat r)) (E (vy o))) (E (vz o)) = E (drow r / cp).
  Proof.
    intros Hr. rewrite pos_rel, emb_lo, emb_hi, stripe_cl_E, uni_travel_E. f_equal. f_equal.
    pose proof (Hdr r Hr) as H. rewrite o_eta in H. unfold row_seg in H. cbn [fst snd] in H.
    pose proof (segment_x (grid_at gr r) (grid_lo gt) (grid_hi gt) 0 (vx o) (vy o) (vz o) (lo_hi _ Ot)) as H'.
    rewrite <- (segment_unique _ _ _ _ _ H' H). f_equal. ring.
  Qed.

  Lemma uni_coltx_R :
    uni_value (N:=EN) das_rca_coltx EY len (emb3 gt) (emb3 gr) (emb3 gx) (emb3 gy) (emb3 gz) (E dt) (E delay) (E cp) (Z.of_nat no) =
    Ok (E (das_sum Y len nt nr dcol drow dt cp delay)).
  Proof.
    unfold uni_value. rewrite (uni_at_R gx gy gz no) by assumption. cbv zeta. fold o. cbn [bind].
    rewrite (grid_head gt), (grid_head gr). unfold uni_rca_coltx. rewrite !count_head by assumption. cbn [bind].
    apply double_loop. intros i j im Hi Hj. rewrite col_time, row_time by assumption.
    replace ((Z.of_nat i * grid_num gr + Z.of_nat j) * len)%Z with (Z.of_nat (i * nr + j) * len)%Z
      by (unfold nr; pose proof (grid_num_pos _ Or); f_equal; lia).
    apply put_pair; [apply Hf; assumption|]. apply (pairs_bound i j nt nr); assumption.
  Qed.
  Lemma uni_rowtx_R :
    uni_value (N:=EN) das_rca_rowtx EY len (emb3 gt) (emb3 gr) (emb3 gx) (emb3 gy) (emb3 gz) (E dt) (E delay) (E cp) (Z.of_nat no) =
    Ok (E (das_sum Y len nr nt drow dcol dt cp delay)).
  Proof.
    unfold uni_value. rewrite (uni_at_R gx gy gz no) by assumption. cbv zeta. fold o. cbn [bind].
    rewrite (grid_head gt), (grid_head gr). unfold uni_rca_rowtx. rewrite !count_head by assumption. cbn [bind].
    apply double_loop. intros i j im Hi Hj. rewrite col_time, row_time by assumption.
    replace ((Z.of_nat i * grid_num gt + Z.of_nat j) * len)%Z with (Z.of_nat (i * nt + j) * len)%Z
      by (unfold nt; pose proof (grid_num_pos _ Ot); f_equal; lia).
    apply put_pair'.
    - specialize (Hf j i Hj Hi). unfold pair_sample in *.
      replace (travel_ms cp (drow i) + travel_ms cp (dcol j)) with (travel_ms cp (dcol j) + travel_ms cp (drow i)) by ring. exact Hf.
    - apply (pairs_bound i j nr nt); try assumption. rewrite (Z.mul_comm (Z.of_nat nr)). exact HY.
  Qed.
End Uni.

(** Everything the kernels need: positive pitches, non-empty grids, counts
    that fit a C int, a work item inside the image, enough data. *)
Record uni_ok (Y : list R) (len : Z) (scans : Z) (gt gr gx gy gz : grid) (dt cp : R) (no : nat) : Prop := {
  uo_len : (0 <= len)%Z; uo_dt : dt <> 0; uo_cp : cp <> 0;
  uo_t : grid_ok gt; uo_r : grid_ok gr; uo_x : grid_ok gx; uo_y : grid_ok gy; uo_z : grid_ok gz;
  uo_nt : fits32 (grid_num gt); uo_nr : fits32 (grid_num gr);
  uo_nx : fits32 (grid_num gx); uo_ny : fits32 (grid_num gy); uo_nz : fits32 (grid_num gz);
  uo_no : (Z.of_nat no < grid_num gx * grid_num gy * grid_num gz)%Z;
  uo_Y : (scans * len <= Z.of_nat (length Y))%Z }.

(** C39, TFM: image point [no] of the uniform grid gets the delay-and-sum of
    elements at (min + i pitch, 0, 0). *)
Theorem C39_uni_tfm : forall Y len gt gr gx gy gz dt cp delay no,
  uni_ok Y len (grid_num gt * grid_num gr) gt gr gx gy gz dt cp no ->
  let nt := Z.to_nat (grid_num gt) in let nr := Z.to_nat (grid_num gr) in
  let o := box_point gx gy gz (Z.to_nat (grid_num gy)) (Z.to_nat (grid_num gz)) no in
  let dtx i := edist (grid_at gt i, 0, 0) o in let drx j := edist (grid_at gr j, 0, 0) o in
  (forall i j, (i < nt)%nat -> (j < nr)%nat -> fits32 (pair_sample dt cp delay (dtx i) (drx j))) ->
  uni_value (N:=EN) das_tfm (map Some Y : list EN) len (emb3 gt) (emb3 gr) (emb3 gx) (emb3 gy) (emb3 gz)
    (Some dt) (Some delay) (Some cp) (Z.of_nat no) = Ok (Some (das_sum Y len nt nr dtx drx dt cp delay)).
Proof.
  intros Y len gt gr gx gy gz dt cp delay no [U1 U2 U3 U4 U5 U6 U7 U8 U9 U10 U11 U12 U13 U14 U15] nt nr o dtx drx Hf.
  apply uni_tfm_R; auto. pose proof (grid_num_pos _ U4). pose proof (grid_num_pos _ U5). rewrite !Z2Nat.id by lia. exact U15.
Qed.
Print Assumptions C39_uni_tfm.
(** SAFT: as on the CPU, the delay is counted twice. *)
Theorem C39_uni_saft_partial : forall Y len gt gr gx gy gz dt cp delay no,
  uni_ok Y len (grid_num gt) gt gr gx gy gz dt cp no ->
  let nt := Z.to_nat (grid_num gt) in
  let o := box_point gx gy gz (Z.to_nat (grid_num gy)) (Z.to_nat (grid_num gz)) no in
  let d i := edist (grid_at gt i, 0, 0) o in
  (forall i, (i < nt)%nat -> fits32 (pair_sample dt cp (2 * delay) (d i) (d i))) ->
  uni_value (N:=EN) das_saft (map Some Y : list EN) len (emb3 gt) (emb3 gr) (emb3 gx) (emb3 gy) (emb3 gz)
    (Some dt) (Some delay) (Some cp) (Z.of_nat no) = Ok (Some (saft_sum Y len nt d dt cp (2 * delay))).
Proof.
  intros Y len gt gr gx gy gz dt cp delay no [U1 U2 U3 U4 U5 U6 U7 U8 U9 U10 U11 U12 U13 U14 U15] nt o d Hf.
  apply uni_saft_R; auto. pose proof (grid_num_pos _ U4). rewrite !Z2Nat.id by lia. exact U15.
Qed.
Print Assumptions C39_uni_saft_partial.
(** Row-column arrays: the true distances to line elements that run from min
    to max of the other direction, for any numbers of rows and columns. *)
Theorem C39_uni_rca : forall Y len gt gr gx gy gz dt cp delay no dcol drow,
  uni_ok Y len (grid_num gt * grid_num gr) gt gr gx gy gz dt cp no ->
  let nt := Z.to_nat (grid_num gt) in let nr := Z.to_nat (grid_num gr) in
  let o := box_point gx gy gz (Z.to_nat (grid_num gy)) (Z.to_nat (grid_num gz)) no in
  (forall c, (c < nt)%nat -> segment_dist (grid_at gt c, grid_lo gr, 0) (grid_at gt c, grid_hi gr, 0) o (dcol c)) ->
  (forall r, (r < nr)%nat -> segment_dist (grid_lo gt, grid_at gr r, 0) (grid_hi gt, grid_at gr r, 0) o (drow r)) ->
  (forall c r, (c < nt)%nat -> (r < nr)%nat -> fits32 (pair_sample dt cp delay (dcol c) (drow r))) ->
  uni_value (N:=EN) das_rca_coltx (map Some Y : list EN) len (emb3 gt) (emb3 gr) (emb3 gx) (emb3 gy) (emb3 gz)
    (Some dt) (Some delay) (Some cp) (Z.of_nat no) = Ok (Some (das_sum Y len nt nr dcol drow dt cp delay)) /\
  uni_value (N:=EN) das_rca_rowtx (map Some Y : list EN) len (emb3 gt) (emb3 gr) (emb3 gx) (emb3 gy) (emb3 gz)
    (Some dt) (Some delay) (Some cp) (Z.of_nat no) = Ok (Some (das_sum Y len nr nt drow dcol dt cp delay)).
Proof.
  intros Y len gt gr gx gy gz dt cp delay no dcol drow [U1 U2 U3 U4 U5 U6 U7 U8 U9 U10 U11 U12 U13 U14 U15] nt nr o Hc Hr Hf.
  pose proof (grid_num_pos _ U4). pose proof (grid_num_pos _ U5).
  assert (HY : (Z.of_nat (Z.to_nat (grid_num gt)) * Z.of_nat (Z.to_nat (grid_num gr)) * len <= Z.of_nat (length Y))%Z)
    by (rewrite !Z2Nat.id by lia; exact U15).
  split; [apply uni_coltx_R|apply uni_rowtx_R]; auto.
Qed.
Print Assumptions C39_uni_rca.
(** Hypotheses are satisfiable: a 2-element array, a 2 x 1 x 2 image. *)
Example C39_ex : uni_ok (repeat 1 40) 10 (2 * 2) (0, 3, 3) (0, 3, 3) (0, 1, 1) (0, 1, 0) (4, 1, 5) 1 1000 3.
Proof.
  assert (Z1 : Zfloor ((3 - 0) / 3) = 1%Z) by (apply Zfloor_unique; lra).
  assert (Z2 : Zfloor ((1 - 0) / 1) = 1%Z) by (apply Zfloor_unique; lra).
  assert (Z3 : Zfloor ((0 - 0) / 1) = 0%Z) by (apply Zfloor_unique; lra).
  assert (Z4 : Zfloor ((5 - 4) / 1) = 1%Z) by (apply Zfloor_unique; lra).
  split; cbn [grid_num grid_ok]; unfold fits32; rewrite ?Z1, ?Z2, ?Z3, ?Z4;
    first [lra|lia|split; lra|cbn; lia|rewrite repeat_length; lia].
Qed.

(** ** C40: GPU and CPU *)

(** Whenever the GPU call of a job with one delay, a multiple of 64 image
    points and a level that does not stop is defined, the CPU computes the
    same image, in any arithmetic (row-column: provided the stripe limits and
    the image points are comparable, i.e. not NaN).  Missing: other numbers of
    image points and per-point delays (refuted below). *)
Theorem C40_gpu_cpu_partial : forall (N : Num) (J : das_job N) junk Im d nthreads sch Im0 Im' stt,
  das_wf J -> (1 <= nthreads)%Z -> Z.of_nat (length Im0) = d_No J ->
  (d_No J mod 64 = 0)%Z -> Z.of_nat (length junk) = d_No J ->
  ~ is_stop (d_lvl J) -> d_delay_type J = delay_single -> (d_type J = das_saft \/ 0 < d_num_r J)%Z ->
  (d_type J = das_rca_coltx \/ d_type J = das_rca_rowtx -> forall no xo y1 y2 x1 x2,
     buf_get (d_Ro J) no = Ok xo -> rca_edges (d_Gt J) (d_num_t J) (d_Gr J) (d_num_r J) = Ok (y1, y2, x1, x2) -> total3 x1 x2 xo) ->
  cl_das J junk = Ok Im -> das_call SignedIdx J nthreads sch Im0 = Ok (Some (Im', stt, true)) ->
  length Im = length Im' /\ forall n, (0 <= n < d_No J)%Z -> nth (Z.to_nat n) Im d = nth (Z.to_nat n) Im' d.
Proof.
  intros N J junk Im d nthreads sch Im0 Im' stt W Hth HI Hm Hjunk Hl Hd Ht Htot Eg Ec.
  destruct (das_call_columns SignedIdx J nthreads Im0 W Hth HI sch Im' stt d Ec) as [L C].
  destruct (cl_das_items J junk Im d Eg Hm) as [L2 G]. split; [lia|]. intros n Hn.
  destruct (C n Hn) as (e & Ev).
  assert (Hl' : dream_out_of_bounds_err (d_lvl J) <> err_oob).
  { unfold is_stop in Hl. destruct (d_lvl J); cbn; try discriminate; tauto. }
  assert (Hme : das_method J = d_type J).
  { unfold das_method. destruct (d_num_r J =? 0)%Z eqn:E; [|reflexivity]. destruct Ht as [->|Ht]; [reflexivity|lia]. }
  destruct (value_sim J n _ Hl' Hd Hme (fun H xo y1 y2 x1 x2 => Htot H n xo y1 y2 x1 x2) (G n Hn)) as (e' & Ev').
  rewrite Ev in Ev'. injection Ev' as Ev' _. symmetry. exact Ev'.
Qed.
Print Assumptions C40_gpu_cpu_partial.

(** C40 is false for other numbers of points: the kernel is not launched (the
    work-group size 64 must divide the number of work items) and the caller
    gets whatever was in the device buffer, whatever the job. *)
Theorem C40_workgroup_refuted : forall (N : Num) (J : das_job N) junk, (d_No J mod 64 <> 0)%Z -> cl_das J junk = Ok junk.
Proof. intros N J junk H. unfold cl_das. destruct (d_No J mod 64 =? 0)%Z eqn:E; [lia|reflexivity]. Qed.
Print Assumptions C40_workgroup_refuted.
(** ... and for one delay per image point: only the first is used. *)
Definition with_delay {N : Num} (J : das_job N) (ty : DelayType) (d : list N) : das_job N :=
  {| d_type := d_type J; d_len := d_len J; d_No := d_No J; d_num_t := d_num_t J; d_num_r := d_num_r J;
     d_Y := d_Y J; d_Ro := d_Ro J; d_Gt := d_Gt J; d_Gr := d_Gr J; d_dt := d_dt J;
     d_delay_type := ty; d_delay := d; d_cp := d_cp J; d_lvl := d_lvl J |}.
Theorem C40_delays_refuted : forall (N : Num) (J : das_job N) d0 ds junk,
  cl_das (with_delay J delay_multiple (d0 :: ds)) junk = cl_das (with_delay J delay_single [d0]) junk.
Proof. reflexivity. Qed.
Print Assumptions C40_delays_refuted.

(** ** C37: object reuse *)

(** The gateways' state: the single and the double precision object, if any;
    extra_src/oct_das.cc 446-504 (mex_das.cc 302-360).  [None] for the
    result means that set_running was called through an empty pointer. *)
Record gw := { gw_f : option das_obj; gw_d : option das_obj }.
Record gw_args := { a_float : bool; a_type : DASType; a_len : Z; a_No : Z; a_nt : Z; a_nr : Z }.
Definition gw_reuse (old : option das_obj) (a : gw_args) : bool * das_obj :=
  das_reuse old (a_type a) (a_len a) (a_No a) (a_nt a) (a_nr a) false.
Definition gw_call (s : gw) (a : gw_args) : gw * bool * bool :=    (* state, rebuilt?, empty pointer used? *)
  if a_float a then
    let '(rebuilt, o) := gw_reuse (gw_f s) a in
    let s' := {| gw_f := Some o; gw_d := if rebuilt then None else gw_d s |} in
    (s', rebuilt, match gw_d s' with None => true | Some _ => false end)
  else
    let '(rebuilt, o) := gw_reuse (gw_d s) a in
    ({| gw_f := if rebuilt then None else gw_f s; gw_d := Some o |}, rebuilt, false).
Definition gw_start : gw := {| gw_f := None; gw_d := None |}.
Fixpoint gw_run (s : gw) (h : list gw_args) : gw :=
  match h with [] => s | a :: h' => gw_run (fst (fst (gw_call s a))) h' end.

(** The object of a call describes exactly the call. *)
Definition describes (o : das_obj) (a : gw_args) : Prop :=
  o_type o = a_type a /\ o_len o = a_len a /\ o_No o = a_No a /\ o_num_t o = a_nt a /\ o_num_r o = a_nr a /\ o_gpu o = false.
Definition holds (s : gw) (last : option gw_args) : Prop :=
  match last with
  | None => s = gw_start
  | Some a => if a_float a then gw_d s = None /\ exists o, gw_f s = Some o /\ describes o a
              else gw_f s = None /\ exists o, gw_d s = Some o /\ describes o a
  end.
Lemma type_eqb_spec a b : DASType_eqb a b = true <-> a = b.
Proof. destruct a, b; cbn; split; congruence. Qed.
Lemma changed_spec o a b : describes o b ->
  (das_setup_has_changed o (a_type a) (a_len a) (a_No a) (a_nt a) (a_nr a) false = false <->
   a_type a = a_type b /\ a_len a = a_len b /\ a_No a = a_No b /\ a_nt a = a_nt b /\ a_nr a = a_nr b).
Proof.
  intros (D1 & D2 & D3 & D4 & D5 & D6). unfold das_setup_has_changed. rewrite D1, D2, D3, D4, D5, D6.
  rewrite !orb_false_iff, !negb_false_iff, type_eqb_spec, !Z.eqb_eq. cbn. tauto.
Qed.
Lemma call_holds s last a : holds s last -> holds (fst (fst (gw_call s a))) (Some a) /\
  (snd (fst (gw_call s a)) = false <-> last = Some a) /\ snd (gw_call s a) = a_float a.
Proof.
  intros H. unfold gw_call, gw_reuse, das_reuse.
  assert (New : forall a, describes (das_new_cpu (a_type a) (a_len a) (a_No a) (a_nt a) (a_nr a) false) a) by (intros x; repeat split).
  assert (Eq : forall b, a_float a = a_float b -> a_type a = a_type b /\ a_len a = a_len b /\ a_No a = a_No b /\ a_nt a = a_nt b /\ a_nr a = a_nr b -> b = a).
  { intros [b0 b1 b2 b3 b4 b5]. destruct a. cbn. intros. f_equal; symmetry; tauto. }
  destruct last as [b|]; cbn [holds] in H.
  - destruct (a_float b) eqn:Fb; destruct H as [Hn (o & Ho & Hd)]; rewrite Ho, Hn; destruct (a_float a) eqn:Fa.
    + pose proof (changed_spec o a b Hd) as X. destruct (das_setup_has_changed _ _ _ _ _ _ _) eqn:Ec; cbn.
      * rewrite Fa. split; [split; [reflexivity|eauto]|]. split; [|reflexivity]. split; [discriminate|]. intros [= ->]. exfalso.
        assert (true = false); [apply X; tauto|discriminate].
      * rewrite Fa. split; [split; [reflexivity|]|].
        { exists o. split; [reflexivity|]. destruct (proj1 X eq_refl) as (X1 & X2 & X3 & X4 & X5).
          destruct Hd as (D1 & D2 & D3 & D4 & D5 & D6). repeat split; congruence. }
        split; [|reflexivity]. split; [|reflexivity]. intros _. f_equal. apply Eq; [congruence|apply X; reflexivity].
    + cbn. rewrite Fa. split; [split; [reflexivity|eauto]|]. split; [|reflexivity]. split; [discriminate|]. intros [= ->]. congruence.
    + cbn. rewrite Fa. split; [split; [reflexivity|eauto]|]. split; [|reflexivity]. split; [discriminate|]. intros [= ->]. congruence.
    + pose proof (changed_spec o a b Hd) as X. destruct (das_setup_has_changed _ _ _ _ _ _ _) eqn:Ec; cbn.
      * rewrite Fa. split; [split; [reflexivity|eauto]|]. split; [|reflexivity]. split; [discriminate|]. intros [= ->]. exfalso.
        assert (true = false); [apply X; tauto|discriminate].
      * rewrite Fa. split; [split; [reflexivity|]|].
        { exists o. split; [reflexivity|]. destruct (proj1 X eq_refl) as (X1 & X2 & X3 & X4 & X5).
          destruct Hd as (D1 & D2 & D3 & D4 & D5 & D6). repeat split; congruence. }
        split; [|reflexivity]. split; [|reflexivity]. intros _. f_equal. apply Eq; [congruence|apply X; reflexivity].
  - subst s. cbn [gw_start gw_f gw_d]. destruct (a_float a) eqn:Fa; cbn; rewrite Fa; (split; [split; [reflexivity|eauto]|]; split; [|reflexivity]; split; discriminate).
Qed.

Lemma last_any : forall (h : list gw_args) g (l l' : option gw_args), last (map Some (g :: h)) l = last (map Some (g :: h)) l'.
Proof. induction h as [|x h IH]; intros; [reflexivity|]. cbn [map last] in *. apply (IH x). Qed.
Lemma run_holds : forall h s l, holds s l -> holds (gw_run s h) (last (map Some h) l).
Proof.
  induction h as [|b h IH]; intros s l Hs; [exact Hs|].
  destruct (call_holds s l b Hs) as [H1 _]. specialize (IH _ _ H1).
  destruct h as [|g h]; [exact IH|].
  change (last (map Some (b :: g :: h)) l) with (last (map Some (g :: h)) l).
  change (gw_run s (b :: g :: h)) with (gw_run (fst (fst (gw_call s b))) (g :: h)).
  rewrite (last_any h g l (Some b)). exact IH.
Qed.

(** Over every history of calls: a call rebuilds the object iff its precision
    or one of the parameters differs from the previous call's (or there was
    none), and the object used always describes the call. *)
Theorem C37_cpu : forall h a,
  let s := gw_run gw_start h in
  (snd (fst (gw_call s a)) = false <-> last (map Some h) None = Some a) /\
  exists o, (if a_float a then gw_f else gw_d) (fst (fst (gw_call s a))) = Some o /\ describes o a.
Proof.
  intros h a s.
  destruct (call_holds s (last (map Some h) None) a (run_holds h gw_start None eq_refl)) as (H1 & H2 & _).
  split; [exact H2|]. cbn [holds] in H1. destruct (a_float a); destruct H1 as [_ H1]; exact H1.
Qed.
Print Assumptions C37_cpu.
(** Every single-precision call, and no other, goes through an empty pointer. *)
Theorem C37_float_refuted : forall h a, snd (gw_call (gw_run gw_start h) a) = a_float a.
Proof.
  intros h a.
  apply (call_holds _ (last (map Some h) None) a (run_holds h gw_start None eq_refl)).
Qed.
Print Assumptions C37_float_refuted.

(** The uniform-grid object is rebuilt iff a size changed, except for SAFT ... *)
Theorem C37_uni_partial : forall (N : Num) K t len gt gr rx ry rz o (t' : DASType) len' gt' gr' rx' ry' rz' nt nr No nt' nr' No',
  t <> das_saft ->
  uni_sizes (N:=N) K gt gr rx ry rz = Ok (nt, nr, No) -> uni_new K t len gt gr rx ry rz = Ok o ->
  uni_sizes K gt' gr' rx' ry' rz' = Ok (nt', nr', No') ->
  exists b, uni_setup_has_changed (N:=N) K o t' len' gt' gr' rx' ry' rz' = Ok b /\
    (b = false <-> t' = t /\ len' = len /\ nt' = nt /\ nr' = nr /\ No' = No).
Proof.
  intros N K t len gt gr rx ry rz o t' len' gt' gr' rx' ry' rz' nt nr No nt' nr' No' Ht E1 Eo E2.
  unfold uni_new in Eo. rewrite E1 in Eo. cbn [bind] in Eo. injection Eo as <-.
  unfold uni_setup_has_changed. rewrite E2. cbn [bind u_type u_len u_No u_num_t u_num_r]. eexists. split; [reflexivity|].
  replace (DASType_eqb t das_saft) with false by (destruct t; [congruence|reflexivity..]).
  rewrite !orb_false_iff, !negb_false_iff, type_eqb_spec, !Z.eqb_eq. tauto.
Qed.
Print Assumptions C37_uni_partial.
(** ... where a repeated call with a receive grid that is not empty is always
    taken for a changed one. *)
Theorem C37_uni_saft_refuted : forall (N : Num) K len gt gr rx ry rz o nt nr No,
  uni_sizes (N:=N) K gt gr rx ry rz = Ok (nt, nr, No) -> nr <> 0%Z ->
  uni_new K das_saft len gt gr rx ry rz = Ok o ->
  uni_setup_has_changed (N:=N) K o das_saft len gt gr rx ry rz = Ok true.
Proof.
  intros N K len gt gr rx ry rz o nt nr No E Hr Eo.
  unfold uni_new in Eo. rewrite E in Eo. cbn [bind] in Eo. injection Eo as <-.
  unfold uni_setup_has_changed. rewrite E. cbn [bind u_type u_len u_No u_num_t u_num_r DASType_eqb]. f_equal.
  rewrite !Z.eqb_refl. cbn. destruct nr; [congruence|reflexivity..].
Qed.
Print Assumptions C37_uni_saft_refuted.
