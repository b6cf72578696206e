(** ProofsUni.v - uniform grids and the OpenCL kernels. *)
From Coq Require Import Reals Lra Lia ZArith List Bool ZifyBool ZifyNat.
From Verif Require Import Base BaseLemmas ModelSir ModelArr ModelSmp ModelDas NumR SpecSmp SpecDft SpecDas
  ProofsLocal ProofsLocalArr ProofsSmp ProofsLoop ProofsCallG ProofsSmp2 ProofsR ProofsRayleigh ProofsDft ProofsDas ProofsDasR ProofsRca ProofsDasJ.
Import ListNotations.
Ltac Zify.zify_post_hook ::= Z.div_mod_to_equations.
Open Scope Z_scope.

(** ** GPU kernels against the CPU code, any arithmetic *)
Section Sim.
  Context {N : Num}.
  Local Notation buf := (list N).
  Local Notation ist := (N * SIRError)%type.

  Definition sim (r : res N) (c : res (ctl ist ist)) : Prop :=
    forall im, r = Ok im -> exists e, c = Ok (Go (im, e)).

  Lemma sim_bind {A} (m : res A) (f : A -> res N) (g : A -> res (ctl ist ist)) :
    (forall x, m = Ok x -> sim (f x) (g x)) -> sim (do x <- m; f x) (do x <- m; g x).
  Proof. intros H im E. destruct m as [x|u|]; cbn in *; try discriminate. exact (H x eq_refl im E). Qed.

  Lemma put_sim Y len off lvl arg im e : dream_out_of_bounds_err lvl <> err_oob ->
    sim (cl_put Y len off arg im) (das_put (N:=N) SignedIdx Y len off lvl arg (im, e)).
  Proof.
    intros Hl im' E. unfold cl_put in E. apply bind_Ok_inv in E as (k & Ek & E).
    unfold das_put. unfold to_int in Ek. destruct (ntrunc arg) as [z|]; [|discriminate].
    destruct ((-2^31 <=? z) && (z <? 2^31)) eqn:Ez; [|discriminate]. injection Ek as ->.
    unfold to_idx. replace ((-2^63 <=? k) && (k <? 2^63)) with true by lia. cbn [bind].
    destruct ((k <? len) && (0 <=? k)).
    - apply bind_Ok_inv in E as (y & Ey & E). injection E as <-. rewrite Ey. cbn. eauto.
    - injection E as <-. destruct (SIRError_eqb_spec (dream_out_of_bounds_err lvl) err_oob); [contradiction|]. eauto.
  Qed.

  Lemma for_sim_from n : forall i (b : Z -> N -> res N) (b' : Z -> ist -> res (ctl ist ist)) im e,
    (forall j im e, i <= j < i + Z.of_nat n -> sim (b j im) (b' j (im, e))) ->
    sim (for_from i n b im) (for_ctl_from i n b' (im, e)).
  Proof.
    induction n as [|n IH]; intros i b b' im e Hb im' E; cbn [for_from for_ctl_from] in *.
    - injection E as <-. eauto.
    - apply bind_Ok_inv in E as (im1 & E1 & E2). destruct (Hb i im e ltac:(lia) im1 E1) as (e1 & ->). cbn [bind].
      refine (IH (i + 1) b b' im1 e1 _ im' E2). intros j x y Hj. apply Hb. lia.
  Qed.
  Lemma for_sim n (b : Z -> N -> res N) (b' : Z -> ist -> res (ctl ist ist)) im e :
    (forall j im e, 0 <= j < n -> sim (b j im) (b' j (im, e))) -> sim (for_loop n b im) (for_ctl n b' (im, e)).
  Proof. intros H. apply for_sim_from. intros j x y Hj. apply H. lia. Qed.

  Lemma sim_finish r c im : sim r c -> r = Ok im -> exists e, (do x <- c; Ok (finish x)) = Ok (im, e).
  Proof. intros H E. destruct (H im E) as (e & ->). cbn. eauto. Qed.

  Definition total3 (lo hi o : N) : Prop := (lo <=? o)%num = negb (o <? lo)%num /\ (o <=? hi)%num = negb (hi <? o)%num.
  Lemma stripe_same lo hi o : total3 lo hi o -> stripe_cl lo hi o = stripe lo hi o.
  Proof. intros [H1 H2]. unfold stripe_cl, stripe. rewrite H1, H2. destruct (o <? lo)%num, (hi <? o)%num; reflexivity. Qed.

  Lemma value_sim (J : das_job N) no im :
    dream_out_of_bounds_err (d_lvl J) <> err_oob -> d_delay_type J = delay_single -> das_method J = d_type J ->
    (d_type J = das_rca_coltx \/ d_type J = das_rca_rowtx -> forall xo y1 y2 x1 x2,
       buf_get (d_Ro J) no = Ok xo -> rca_edges (d_Gt J) (d_num_t J) (d_Gr J) (d_num_r J) = Ok (y1, y2, x1, x2) -> total3 x1 x2 xo) ->
    cl_value J no = Ok im -> exists e, das_value SignedIdx J no = Ok (im, e).
  Proof.
    intros Hl Hd Hm Ht E. unfold cl_value in E. unfold das_value.
    apply bind_Ok_inv in E as (xo & Ex & E). rewrite Ex in Ht |- *. cbn [bind].
    apply bind_Ok_inv in E as (yo & -> & E). cbn [bind].
    apply bind_Ok_inv in E as (zo & -> & E). cbn [bind].
    apply bind_Ok_inv in E as (dl & Ed & E). rewrite Hd, Ed. cbn [bind]. rewrite Hm.
    destruct (d_type J) eqn:Et.
    - refine (sim_finish _ _ im _ E). apply for_sim. intros j x y Hj. apply sim_bind. intros [[gx gy] gz] _.
      apply put_sim; exact Hl.
    - refine (sim_finish _ _ im _ E). apply for_sim. intros j x y Hj. apply sim_bind. intros [[gx gy] gz] _.
      apply for_sim. intros j' x' y' Hj'. apply sim_bind. intros [[gx' gy'] gz'] _. apply put_sim; exact Hl.
    - unfold cl_rca_coltx in E. unfold das_rca_serial_coltx. apply bind_Ok_inv in E as ([[[y1 y2] x1] x2] & Ee & E).
      rewrite Ee. cbn [bind]. specialize (Ht (or_introl eq_refl) xo y1 y2 x1 x2 eq_refl Ee).
      refine (sim_finish _ _ im _ E). apply for_sim. intros j x y Hj. apply sim_bind. intros t_c _.
      apply for_sim. intros j' x' y' Hj'. unfold row_travel_cl, row_travel. rewrite (stripe_same _ _ _ Ht).
      apply sim_bind. intros t_r _. apply put_sim; exact Hl.
    - unfold cl_rca_rowtx in E. unfold das_rca_serial_rowtx. apply bind_Ok_inv in E as ([[[y1 y2] x1] x2] & Ee & E).
      rewrite Ee. cbn [bind]. specialize (Ht (or_intror eq_refl) xo y1 y2 x1 x2 eq_refl Ee).
      refine (sim_finish _ _ im _ E). apply for_sim. intros j x y Hj. unfold row_travel_cl, row_travel.
      rewrite (stripe_same _ _ _ Ht). apply sim_bind. intros t_r _.
      apply for_sim. intros j' x' y' Hj'. apply sim_bind. intros t_c _. apply put_sim; exact Hl.
  Qed.

  (** What the loop over the work items leaves in the image. *)
  Lemma items_from (f : Z -> res N) n : forall i (Im Im' : buf) d,
    for_from (Z.of_nat i) n (fun no Im => do im <- f no; buf_upd Im no (fun _ => im)) Im = Ok Im' ->
    length Im' = length Im /\
    (forall j, (i <= j < i + n)%nat -> f (Z.of_nat j) = Ok (nth j Im' d)) /\
    (forall j, ~ (i <= j < i + n)%nat -> nth j Im' d = nth j Im d).
  Proof.
    induction n as [|n IH]; intros i Im Im' d E; cbn [for_from] in E.
    - injection E as <-. split; [reflexivity|]. split; [intros; lia|reflexivity].
    - apply bind_Ok_inv in E as (Im1 & E1 & E2). apply bind_Ok_inv in E1 as (im & Ef & E1).
      apply buf_upd_inv in E1 as [Hr ->].
      replace (Z.of_nat i + 1) with (Z.of_nat (S i)) in E2 by lia.
      destruct (IH _ _ _ d E2) as (L & A & B). rewrite length_upd in L. split; [exact L|]. rewrite Nat2Z.id in *. split.
      + intros j Hj. destruct (Nat.eq_dec j i) as [->|Hne].
        * rewrite B by lia. rewrite Ef. f_equal. symmetry. rewrite nth_updg by lia.
          destruct (Nat.eqb_spec i i); [reflexivity|lia].
        * apply A. lia.
      + intros j Hj. rewrite B by lia. rewrite nth_updg by lia. destruct (Nat.eqb_spec i j); [lia|reflexivity].
  Qed.
  Lemma cl_das_items (J : das_job N) junk Im d : cl_das J junk = Ok Im -> d_No J mod 64 = 0 ->
    length Im = length junk /\ forall n, 0 <= n < d_No J -> cl_value J n = Ok (nth (Z.to_nat n) Im d).
  Proof.
    unfold cl_das. intros E Hm. rewrite Hm in E. cbn [Z.eqb] in E.
    destruct (items_from (cl_value J) _ 0%nat junk Im d E) as (L & A & _). split; [exact L|].
    intros n Hn. rewrite <- (A (Z.to_nat n)) by lia. f_equal. lia.
  Qed.
End Sim.

(** ** Uniform grids in exact arithmetic *)
Open Scope R_scope.
Lemma grid_num_pos g : grid_ok g -> (1 <= grid_num g)%Z.
Proof.
  destruct g as [[lo p] hi]. intros [Hp Hl]. unfold grid_num.
  assert (0 <= Zfloor ((hi - lo) / p))%Z; [|lia]. apply Zfloor_ge. apply Rmult_le_pos; [lra|]. apply Rlt_le, Rinv_0_lt_compat, Hp.
Qed.
Lemma grid_count g : grid_ok g -> ntrunc (n:=EN) (nadd (n:=EN) (ndiv (n:=EN) (nsub (n:=EN) (snd (emb3 g)) (fst (fst (emb3 g)))) (snd (fst (emb3 g)))) (nofZ (n:=EN) 1)) = Some (grid_num g).
Proof.
  destruct g as [[lo p] hi]. intros [Hp Hl]. cbn [emb3 fst snd].
  change (nsub (n:=EN) (Some hi) (Some lo)) with (Some (hi - lo) : EN).
  change (ndiv (n:=EN) (Some (hi - lo)) (Some p)) with (e_div (Some (hi - lo)) (Some p)).
  rewrite e_div_ok by lra. cbn. f_equal.
  assert (0 <= (hi - lo) / p) by (apply Rmult_le_pos; [lra|apply Rlt_le, Rinv_0_lt_compat, Hp]).
  rewrite Ztruncr_nonneg by lra. rewrite (Zfloor_plus _ 1). reflexivity.
Qed.
Lemma uni_count_R K g : grid_ok g -> fits K (grid_num g) ->
  (let '(lo, p, hi) := emb3 g in uni_count (N:=EN) K lo p hi) = Ok (grid_num g).
Proof.
  intros H F. pose proof (grid_count g H) as E. destruct g as [[lo p] hi]. cbn [emb3 fst snd] in *.
  unfold uni_count. rewrite E. now apply to_idx_fits.
Qed.
Lemma uni_count_cl_R lo p hi : grid_ok (lo, p, hi) -> fits32 (grid_num (lo, p, hi)) ->
  uni_count_cl (N:=EN) (Some lo) (Some p) (Some hi) = Ok (grid_num (lo, p, hi)).
Proof.
  intros H F. pose proof (grid_count _ H) as E. cbn [emb3 fst snd] in E. unfold uni_count_cl. rewrite E.
  unfold fits32 in F. cbn [to_int]. replace (_ && _)%bool with true by lia. reflexivity.
Qed.
Lemma uni_pos_R g i : uni_pos (N:=EN) (fst (fst (emb3 g))) (snd (fst (emb3 g))) (Z.of_nat i) = Some (grid_at g i).
Proof. destruct g as [[lo p] hi]. cbn. rewrite INR_IZR_INZ. reflexivity. Qed.

Lemma grid_inside g i : grid_ok g -> (Z.of_nat i < grid_num g)%Z -> grid_lo g <= grid_at g i <= grid_hi g.
Proof.
  destruct g as [[lo p] hi]. intros [Hp Hl] Hi. unfold grid_num in Hi. unfold grid_lo, grid_hi, grid_at. cbn [fst snd].
  assert (H0 : 0 <= INR i) by apply pos_INR.
  assert (H1 : IZR (Z.of_nat i) <= (hi - lo) / p).
  { apply Rle_trans with (IZR (Zfloor ((hi - lo) / p))); [apply IZR_le; lia|apply Zfloor_spec]. }
  rewrite <- INR_IZR_INZ in H1.
  assert (INR i * p <= hi - lo).
  { apply (Rmult_le_compat_r p) in H1; [|lra]. unfold Rdiv in H1. rewrite Rmult_assoc, Rinv_l, Rmult_1_r in H1 by lra. exact H1. }
  split; [nra|lra].
Qed.
Lemma grid_beyond g : grid_ok g -> grid_hi g < grid_at g (Z.to_nat (grid_num g)).
Proof.
  intros Hok. pose proof (grid_num_pos g Hok) as Hn. destruct g as [[lo p] hi]. destruct Hok as [Hp Hl].
  unfold grid_hi, grid_at. cbn [fst snd]. rewrite INR_IZR_INZ, Z2Nat.id by lia. unfold grid_num. rewrite plus_IZR.
  destruct (Zfloor_spec ((hi - lo) / p)) as [_ H].
  apply (Rmult_lt_compat_r p) in H; [|lra]. unfold Rdiv in H at 1. rewrite Rmult_assoc, Rinv_l, Rmult_1_r in H by lra. lra.
Qed.

(** Subscripts. *)
Lemma uni_sub_spec Nx Ny Nz no : (0 < Nx)%Z -> (0 < Ny)%Z -> (0 < Nz)%Z -> (0 <= no < Nx * Ny * Nz)%Z ->
  exists nx ny nz, uni_sub Nx Ny Nz no = (nx, ny, nz) /\
    (0 <= nx < Nx)%Z /\ (0 <= ny < Ny)%Z /\ (0 <= nz < Nz)%Z /\ (no = (nx * Nz + nz) * Ny + ny)%Z /\
    (nx = no / Ny / Nz /\ ny = no mod Ny /\ nz = no / Ny mod Nz)%Z.
Proof.
  intros Hx Hy Hz Hn. unfold uni_sub. eexists _, _, _. split; [reflexivity|].
  assert (E1 : (no - no / Ny * Ny = no mod Ny)%Z) by (rewrite Z.mod_eq by lia; ring).
  assert (E2 : (no / Ny - no / Ny / Nz * Nz = (no / Ny) mod Nz)%Z) by (rewrite (Z.mod_eq (no / Ny)) by lia; ring).
  assert (Q : (0 <= no / Ny / Nz < Nx)%Z).
  { split; [apply Z.div_pos; [apply Z.div_pos; lia|lia]|]. apply Z.div_lt_upper_bound; [lia|].
    apply Z.div_lt_upper_bound; [lia|]. nia. }
  assert (E3 : (no / Ny / Nz - no / Ny / Nz / Nx * Nx = no / Ny / Nz)%Z) by (rewrite (Z.div_small (no / Ny / Nz)) by lia; ring).
  rewrite E1, E2, E3. pose proof (Z.mod_pos_bound no Ny Hy). pose proof (Z.mod_pos_bound (no / Ny) Nz Hz).
  split; [lia|]. split; [lia|]. split; [lia|]. split; [|auto].
  pose proof (Z.div_mod no Ny ltac:(lia)). pose proof (Z.div_mod (no / Ny) Nz ltac:(lia)). nia.
Qed.

Lemma uni_at_R gx gy gz no : grid_ok gx -> grid_ok gy -> grid_ok gz ->
  fits32 (grid_num gx) -> fits32 (grid_num gy) -> fits32 (grid_num gz) ->
  (Z.of_nat no < grid_num gx * grid_num gy * grid_num gz)%Z ->
  uni_at (N:=EN) (emb3 gx) (emb3 gy) (emb3 gz) (Z.of_nat no) =
  let o := box_point gx gy gz (Z.to_nat (grid_num gy)) (Z.to_nat (grid_num gz)) no in
  Ok (Some (vx o) : EN, Some (vy o) : EN, Some (vz o) : EN).
Proof.
  intros Ox Oy Oz Fx Fy Fz Hn.
  pose proof (grid_num_pos _ Ox) as Px. pose proof (grid_num_pos _ Oy) as Py. pose proof (grid_num_pos _ Oz) as Pz.
  destruct (uni_sub_spec (grid_num gx) (grid_num gy) (grid_num gz) (Z.of_nat no) ltac:(lia) ltac:(lia) ltac:(lia) ltac:(lia))
    as (nx & ny & nz & Es & Bx & By & Bz & _ & Ex & Ey & Ez).
  pose proof (uni_pos_R gx (Z.to_nat nx)) as Ux. pose proof (uni_pos_R gy (Z.to_nat ny)) as Uy. pose proof (uni_pos_R gz (Z.to_nat nz)) as Uz.
  rewrite Z2Nat.id in Ux, Uy, Uz by lia.
  destruct gx as [[x0 dx] x1], gy as [[y0 dy] y1], gz as [[z0 dz] z1]. unfold uni_at. cbn [emb3 fst snd] in *.
  rewrite !uni_count_cl_R by assumption. cbn [bind]. rewrite Es. rewrite Ux, Uy, Uz. cbv zeta.
  unfold box_point, vx, vy, vz. cbn [fst snd].
  assert (Nx : Z.to_nat nx = (no / Z.to_nat (grid_num (y0, dy, y1)) / Z.to_nat (grid_num (z0, dz, z1)))%nat).
  { apply Nat2Z.inj. rewrite Nat2Z.inj_div, Nat2Z.inj_div, !Z2Nat.id by lia. exact Ex. }
  assert (Ny : Z.to_nat ny = (no mod Z.to_nat (grid_num (y0, dy, y1)))%nat).
  { apply Nat2Z.inj. rewrite Nat2Z.inj_mod, !Z2Nat.id by lia. exact Ey. }
  assert (Nz : Z.to_nat nz = (no / Z.to_nat (grid_num (y0, dy, y1)) mod Z.to_nat (grid_num (z0, dz, z1)))%nat).
  { apply Nat2Z.inj. rewrite Nat2Z.inj_mod, Nat2Z.inj_div, !Z2Nat.id by lia. exact Ez. }
  rewrite Nx, Ny, Nz. reflexivity.
Qed.

(** Kernel loops as sums. *)
Section Kernel.
  Variables (Y : list R) (len : Z).
  Hypothesis Hlen : (0 <= len)%Z.
  Local Notation EY := (map Some Y : list EN).

  Lemma cl_put_R c x im : fits32 (Ztruncr x) -> (Z.of_nat (S c) * len <= Z.of_nat (length Y))%Z ->
    cl_put (N:=EN) EY len (Z.of_nat c * len) (Some x) (Some im) = Ok (Some (im + ascan Y len c (Ztruncr x)) : EN).
  Proof.
    intros F HY. unfold cl_put. change (ntrunc (n:=EN) (Some x)) with (Some (Ztruncr x)). unfold fits32 in F.
    cbn [to_int]. replace ((-2^31 <=? Ztruncr x) && (Ztruncr x <? 2^31))%Z with true by lia. cbn [bind].
    unfold ascan, inside. rewrite (andb_comm (0 <=? _)%Z).
    destruct ((Ztruncr x <? len) && (0 <=? Ztruncr x))%Z eqn:E.
    - assert (0 <= Z.of_nat c * len)%Z by nia. rewrite get_emb by nia. cbn [bind].
      replace (Z.to_nat (Z.of_nat c * len + Ztruncr x)) with (c * Z.to_nat len + Z.to_nat (Ztruncr x))%nat by nia. reflexivity.
    - rewrite Rplus_0_r. reflexivity.
  Qed.

  Lemma for_sum_from n : forall i (b : Z -> EN -> res EN) f im,
    (forall j im, (i <= j < i + n)%nat -> b (Z.of_nat j) (Some im) = Ok (Some (im + f j) : EN)) ->
    for_from (Z.of_nat i) n b (Some im : EN) = Ok (Some (im + rsum n (fun j => f (i + j)%nat)) : EN).
  Proof.
    induction n as [|n IH]; intros i b f im Hb; cbn [for_from].
    - cbn [rsum]. rewrite Rplus_0_r. reflexivity.
    - rewrite Hb by lia. cbn [bind]. replace (Z.of_nat i + 1)%Z with (Z.of_nat (S i)) by lia.
      rewrite (IH (S i) b f) by (intros; apply Hb; lia). f_equal. f_equal. rewrite rsum_S_l.
      rewrite Nat.add_0_r. rewrite Rplus_assoc. f_equal. f_equal. apply rsum_ext. intros j _. f_equal. lia.
  Qed.
  Lemma for_sum (n : Z) (b : Z -> EN -> res EN) f im :
    (forall j im, (j < Z.to_nat n)%nat -> b (Z.of_nat j) (Some im) = Ok (Some (im + f j) : EN)) ->
    for_loop n b (Some im : EN) = Ok (Some (im + rsum (Z.to_nat n) f) : EN).
  Proof. intros H. unfold for_loop. apply (for_sum_from (Z.to_nat n) 0%nat b f). intros; apply H; lia. Qed.
End Kernel.
