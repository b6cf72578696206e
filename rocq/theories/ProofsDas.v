(** ProofsDas.v - delay-and-sum: traversal, memory safety, threaded driver. *)
From Verif Require Import Base BaseLemmas ModelSir ModelArr ModelSmp ModelDas ProofsLocal ProofsLocalArr ProofsSmp ProofsCallG SpecSmp ProofsSmp2.
From Coq Require Import ZifyBool ZifyNat.
Ltac Zify.zify_post_hook ::= Z.div_mod_to_equations.

Section DasAny.
  Context {N : Num} (K : idx_kind).
  Local Notation buf := (list N).
  Local Notation ist := (N * SIRError)%type.

  (** ** Loops as one traversal of a list of (A-scan offset, index) pairs *)
  Fixpoint das_fold (Y : buf) (len : Z) (lvl : ErrorLevel) (l : list (Z * N)) (s : ist) : res (ctl ist ist) :=
    match l with
    | [] => Ok (Go s)
    | (off, a) :: r =>
      do c <- das_put K Y len off lvl a s;
      match c with Go s' => das_fold Y len lvl r s' | Ret x => Ok (Ret x) end
    end.

  Lemma das_fold_app Y len lvl l1 : forall l2 s,
    das_fold Y len lvl (l1 ++ l2) s =
    do c <- das_fold Y len lvl l1 s;
    match c with Go s' => das_fold Y len lvl l2 s' | Ret x => Ok (Ret x) end.
  Proof.
    induction l1 as [|[off a] l1 IH]; intros l2 s; cbn [das_fold app]; [reflexivity|].
    destruct (das_put K Y len off lvl a s) as [[s'|x]|u|]; cbn [bind]; auto.
  Qed.

  Lemma for_ctl_fold Y len lvl (body : Z -> ist -> res (ctl ist ist)) (f : nat -> list (Z * N)) n : forall i s,
    (forall j s, (i <= j < i + n)%nat -> body (Z.of_nat j) s = das_fold Y len lvl (f j) s) ->
    for_ctl_from (Z.of_nat i) n body s = das_fold Y len lvl (flat_map f (seq i n)) s.
  Proof.
    induction n as [|n IH]; intros i s Hb; cbn [for_ctl_from seq flat_map]; [reflexivity|].
    rewrite das_fold_app, Hb by lia. apply bind_ext. intros [s'|x] _; [|reflexivity].
    replace (Z.of_nat i + 1) with (Z.of_nat (S i)) by lia. apply IH. intros j s0 Hj. apply Hb. lia.
  Qed.

  Lemma for_ctl_fold0 Y len lvl (body : Z -> ist -> res (ctl ist ist)) (f : nat -> list (Z * N)) n s :
    (forall j s, (j < Z.to_nat n)%nat -> body (Z.of_nat j) s = das_fold Y len lvl (f j) s) ->
    for_ctl n body s = das_fold Y len lvl (flat_map f (seq 0 (Z.to_nat n))) s.
  Proof. intros Hb. unfold for_ctl. apply (for_ctl_fold Y len lvl body f (Z.to_nat n) 0%nat s). intros; apply Hb; lia. Qed.

  Lemma das_fold_good Y len lvl l : (forall off a, In (off, a) l -> 0 <= off /\ off + len <= Z.of_nat (length Y)) ->
    forall s, good (fun _ => True) (das_fold Y len lvl l s).
  Proof.
    induction l as [|[off a] l IH]; intros Hl s; cbn [das_fold]; [exact I|].
    eapply good_bind with (P := fun _ => True).
    - unfold das_put. destruct s as [im err]. eapply good_bind with (P := fun _ => True).
      + unfold to_idx. destruct (ntrunc a); [|exact I]. destruct K; destruct (_ && _); exact I.
      + intros k _. destruct ((k <? len) && (0 <=? k)) eqn:Ek.
        * destruct (Hl off a (or_introl eq_refl)) as [H1 H2].
          eapply good_bind with (P := fun _ => True); [apply buf_get_good; auto; lia|]. intros; exact I.
        * destruct (SIRError_eqb _ _); exact I.
    - intros [s'|x] _; [|exact I]. apply IH. intros o b Hin. apply (Hl o b). right; exact Hin.
  Qed.

  (** ** Element coordinates *)
  Lemma elem_rel_ok (G : buf) num n xo yo zo : 0 <= n < num -> Z.of_nat (length G) = 3 * num ->
    exists gx gy gz, elem_rel G num n xo yo zo = Ok (nsub gx xo, nsub gy yo, nsub gz zo) /\
      buf_get G n = Ok gx /\ buf_get G (n + 1 * num) = Ok gy /\ buf_get G (n + 2 * num) = Ok gz.
  Proof.
    intros Hn HG.
    destruct (buf_get_ok G n ltac:(lia)) as (gx & _ & Ex).
    destruct (buf_get_ok G (n + 1 * num) ltac:(lia)) as (gy & _ & Ey).
    destruct (buf_get_ok G (n + 2 * num) ltac:(lia)) as (gz & _ & Ez).
    exists gx, gy, gz. unfold elem_rel. rewrite Ex, Ey, Ez. cbn [bind]. auto.
  Qed.

  Definition val (r : res N) (d : N) : N := match r with Ok x => x | _ => d end.
  Lemma val_ok (l : buf) z : 0 <= z < Z.of_nat (length l) -> buf_get l z = Ok (val (buf_get l z) (nofZ 0)).
  Proof. intros H. destruct (buf_get_ok l z H) as (x & _ & ->). reflexivity. Qed.

  Definition erel (G : buf) (num n : Z) (xo yo zo : N) : N * N * N :=
    (nsub (val (buf_get G n) (nofZ 0)) xo, nsub (val (buf_get G (n + 1 * num)) (nofZ 0)) yo,
     nsub (val (buf_get G (n + 2 * num)) (nofZ 0)) zo).
  Lemma elem_rel_E (G : buf) num n xo yo zo : 0 <= n < num -> Z.of_nat (length G) = 3 * num ->
    elem_rel G num n xo yo zo = Ok (erel G num n xo yo zo).
  Proof.
    intros Hn HG. unfold elem_rel, erel.
    destruct (buf_get_ok G n ltac:(lia)) as (gx & _ & ->).
    destruct (buf_get_ok G (n + 1 * num) ltac:(lia)) as (gy & _ & ->).
    destruct (buf_get_ok G (n + 2 * num) ltac:(lia)) as (gz & _ & ->). reflexivity.
  Qed.
  Definition etime (G : buf) (num n : Z) (xo yo zo cp : N) : N :=
    let '(gx, gy, gz) := erel G num n xo yo zo in travel cp gx gy gz.

  (** ** The four methods *)
  Definition saft_args (len : Z) (G : buf) (num : Z) (xo yo zo dt delay cp : N) : list (Z * N) :=
    flat_map (fun j => [(Z.of_nat j * len,
       nmul (nmul (nofZ 2) (nadd (etime G num (Z.of_nat j) xo yo zo cp) (delay_ms delay))) (Fs_khz dt))]) (seq 0 (Z.to_nat num)).
  Lemma saft_fold Y len G num xo yo zo dt delay cp lvl : Z.of_nat (length G) = 3 * num ->
    das_saft_serial K Y len G num xo yo zo dt delay cp lvl =
    do c <- das_fold Y len lvl (saft_args len G num xo yo zo dt delay cp) (nofZ 0, err_none); Ok (finish c).
  Proof.
    intros HG. unfold das_saft_serial, saft_args. apply f_equal with (f := fun m => bind m _).
    apply for_ctl_fold0. intros j s Hj. rewrite elem_rel_E by lia. cbn [bind das_fold].
    unfold etime. destruct (erel G num (Z.of_nat j) xo yo zo) as [[gx gy] gz].
    destruct (das_put _ _ _ _ _ _ _) as [[s'|x]|u|]; reflexivity.
  Qed.

  (** Two nested loops with A-scan number i*n2 + j. *)
  Definition pairs (len n1 n2 : Z) (f : nat -> nat -> N) : list (Z * N) :=
    flat_map (fun i => flat_map (fun j => [((Z.of_nat i * n2 + Z.of_nat j) * len, f i j)]) (seq 0 (Z.to_nat n2)))
      (seq 0 (Z.to_nat n1)).

  Lemma das_put_fold1 Y len lvl off a s : das_put K Y len off lvl a s = das_fold Y len lvl [(off, a)] s.
  Proof. cbn [das_fold]. destruct (das_put _ _ _ _ _ _ _) as [[s'|x]|u|]; reflexivity. Qed.

  Definition tfm_args (len : Z) (Gt : buf) (num_t : Z) (Gr : buf) (num_r : Z) (xo yo zo dt delay cp : N) :=
    pairs len num_t num_r (fun i j => nmul (nadd (nadd (etime Gt num_t (Z.of_nat i) xo yo zo cp) (delay_ms delay))
                                                 (etime Gr num_r (Z.of_nat j) xo yo zo cp)) (Fs_khz dt)).
  Lemma tfm_fold Y len Gt num_t Gr num_r xo yo zo dt delay cp lvl :
    Z.of_nat (length Gt) = 3 * num_t -> Z.of_nat (length Gr) = 3 * num_r ->
    das_tfm_serial K Y len Gt num_t Gr num_r xo yo zo dt delay cp lvl =
    do c <- das_fold Y len lvl (tfm_args len Gt num_t Gr num_r xo yo zo dt delay cp) (nofZ 0, err_none); Ok (finish c).
  Proof.
    intros HGt HGr. unfold das_tfm_serial, tfm_args, pairs. apply f_equal with (f := fun m => bind m _).
    apply for_ctl_fold0. intros i s Hi. rewrite elem_rel_E by lia. cbn [bind].
    unfold etime at 1. destruct (erel Gt num_t (Z.of_nat i) xo yo zo) as [[gx gy] gz].
    apply for_ctl_fold0. intros j s' Hj. rewrite elem_rel_E by lia. cbn [bind].
    unfold etime. destruct (erel Gr num_r (Z.of_nat j) xo yo zo) as [[hx hy] hz].
    apply das_put_fold1.
  Qed.

  Definition ctime (G_col : buf) (num_cols n_c : Z) (y_min y_max xo yo zo cp : N) : N :=
    val (col_travel G_col num_cols n_c y_min y_max xo yo zo cp) (nofZ 0).
  Definition rtime (G_row : buf) (num_rows n_r : Z) (x_min x_max xo yo zo cp : N) : N :=
    val (row_travel G_row num_rows n_r x_min x_max xo yo zo cp) (nofZ 0).
  Lemma col_travel_E G num n y1 y2 xo yo zo cp : 0 <= n < num -> Z.of_nat (length G) = 3 * num ->
    col_travel G num n y1 y2 xo yo zo cp = Ok (ctime G num n y1 y2 xo yo zo cp).
  Proof. intros Hn HG. unfold ctime, col_travel.
    destruct (buf_get_ok G n ltac:(lia)) as (gx & _ & ->).
    destruct (buf_get_ok G (n + 2 * num) ltac:(lia)) as (gz & _ & ->). reflexivity. Qed.
  Lemma row_travel_E G num n y1 y2 xo yo zo cp : 0 <= n < num -> Z.of_nat (length G) = 3 * num ->
    row_travel G num n y1 y2 xo yo zo cp = Ok (rtime G num n y1 y2 xo yo zo cp).
  Proof. intros Hn HG. unfold rtime, row_travel.
    destruct (buf_get_ok G (n + 1 * num) ltac:(lia)) as (gx & _ & ->).
    destruct (buf_get_ok G (n + 2 * num) ltac:(lia)) as (gz & _ & ->). reflexivity. Qed.

  Definition coltx_args (e : N * N * N * N) (len : Z) (Gc : buf) (nc : Z) (Gr : buf) (nr : Z) (xo yo zo dt delay cp : N) :=
    let '(y1, y2, x1, x2) := e in
    pairs len nc nr (fun i j => nmul (nadd (nadd (ctime Gc nc (Z.of_nat i) y1 y2 xo yo zo cp) (delay_ms delay))
                                                 (rtime Gr nr (Z.of_nat j) x1 x2 xo yo zo cp)) (Fs_khz dt)).
  Definition rowtx_args (e : N * N * N * N) (len : Z) (Gc : buf) (nc : Z) (Gr : buf) (nr : Z) (xo yo zo dt delay cp : N) :=
    let '(y1, y2, x1, x2) := e in
    pairs len nr nc (fun i j => nmul (nadd (nadd (ctime Gc nc (Z.of_nat j) y1 y2 xo yo zo cp) (delay_ms delay))
                                                 (rtime Gr nr (Z.of_nat i) x1 x2 xo yo zo cp)) (Fs_khz dt)).

  Lemma coltx_fold Y len Gc nc Gr nr xo yo zo dt delay cp lvl :
    Z.of_nat (length Gc) = 3 * nc -> Z.of_nat (length Gr) = 3 * nr ->
    das_rca_serial_coltx K Y len Gc nc Gr nr xo yo zo dt delay cp lvl =
    do e <- rca_edges Gc nc Gr nr;
    do c <- das_fold Y len lvl (coltx_args e len Gc nc Gr nr xo yo zo dt delay cp) (nofZ 0, err_none); Ok (finish c).
  Proof.
    intros HGt HGr. unfold das_rca_serial_coltx. apply bind_ext. intros [[[y1 y2] x1] x2] _.
    unfold coltx_args, pairs. apply f_equal with (f := fun m => bind m _).
    apply for_ctl_fold0. intros i s Hi. rewrite col_travel_E by lia. cbn [bind].
    apply for_ctl_fold0. intros j s' Hj. rewrite row_travel_E by lia. cbn [bind].
    apply das_put_fold1.
  Qed.
  Lemma rowtx_fold Y len Gc nc Gr nr xo yo zo dt delay cp lvl :
    Z.of_nat (length Gc) = 3 * nc -> Z.of_nat (length Gr) = 3 * nr ->
    das_rca_serial_rowtx K Y len Gc nc Gr nr xo yo zo dt delay cp lvl =
    do e <- rca_edges Gc nc Gr nr;
    do c <- das_fold Y len lvl (rowtx_args e len Gc nc Gr nr xo yo zo dt delay cp) (nofZ 0, err_none); Ok (finish c).
  Proof.
    intros HGt HGr. unfold das_rca_serial_rowtx. apply bind_ext. intros [[[y1 y2] x1] x2] _.
    unfold rowtx_args, pairs. apply f_equal with (f := fun m => bind m _).
    apply for_ctl_fold0. intros i s Hi. rewrite row_travel_E by lia. cbn [bind].
    apply for_ctl_fold0. intros j s' Hj. rewrite col_travel_E by lia. cbn [bind].
    apply das_put_fold1.
  Qed.

  (** ** Memory safety *)
  Lemma in_pairs len n1 n2 f off a : In (off, a) (pairs len n1 n2 f) -> 0 <= len ->
    0 <= off /\ off + len <= n1 * n2 * len.
  Proof.
    unfold pairs. intros H Hl. apply in_flat_map in H as (i & Hi & H). apply in_flat_map in H as (j & Hj & H).
    apply in_seq in Hi, Hj. destruct H as [H|[]]. injection H as <- _.
    assert (0 <= Z.of_nat i < n1) by lia. assert (0 <= Z.of_nat j < n2) by lia.
    assert (Z.of_nat i * n2 + Z.of_nat j + 1 <= n1 * n2) by nia.
    assert (0 <= Z.of_nat i * n2 + Z.of_nat j) by nia. nia.
  Qed.
  Lemma in_saft len G num xo yo zo dt delay cp off a :
    In (off, a) (saft_args len G num xo yo zo dt delay cp) -> 0 <= len -> 0 <= off /\ off + len <= num * len.
  Proof.
    unfold saft_args. intros H Hl. apply in_flat_map in H as (i & Hi & H). apply in_seq in Hi.
    destruct H as [H|[]]. injection H as <- _. nia.
  Qed.

  Lemma good_finish {A} (m : res (ctl A A)) : good (fun _ => True) m -> good (fun _ => True) (do c <- m; Ok (finish c)).
  Proof. intros H. eapply good_bind; [exact H|]. intros; exact I. Qed.

  (** What the gateway checks (shapes of Gt, Gr, Ro, delay) and what it does
      not check (the number of A-scans in Y; equal row and column counts). *)
  Record das_wf (J : das_job N) : Prop := {
    dw_len : 0 <= d_len J; dw_No : 0 <= d_No J; dw_nt : 0 <= d_num_t J; dw_nr : 0 <= d_num_r J;
    dw_Ro : Z.of_nat (length (d_Ro J)) = 3 * d_No J;
    dw_delay : match d_delay_type J with delay_single => 1 | delay_multiple => d_No J end
               <= Z.of_nat (length (d_delay J));
    dw_Gt : Z.of_nat (length (d_Gt J)) = 3 * d_num_t J;
    dw_Gr : Z.of_nat (length (d_Gr J)) = 3 * d_num_r J
  }.
  Definition das_scans (J : das_job N) : Z :=
    match das_method J with das_saft => d_num_t J | _ => d_num_t J * d_num_r J end.
  Definition das_data_ok (J : das_job N) : Prop := das_scans J * d_len J <= Z.of_nat (length (d_Y J)).
  Definition das_edges_ok (J : das_job N) : Prop :=
    match das_method J with
    | das_rca_coltx | das_rca_rowtx =>
      1 <= d_num_t J /\ 2 * d_num_t J <= 3 * d_num_r J /\ d_num_r J <= 3 * d_num_t J
    | _ => True
    end.

  Lemma das_args (J : das_job N) n : das_wf J -> 0 <= n < d_No J -> exists xo yo zo dl,
    buf_get (d_Ro J) n = Ok xo /\ buf_get (d_Ro J) (n + 1 * d_No J) = Ok yo /\
    buf_get (d_Ro J) (n + 2 * d_No J) = Ok zo /\
    buf_get (d_delay J) (match d_delay_type J with delay_single => 0 | delay_multiple => n end) = Ok dl /\
    das_value K J n = match das_method J with
    | das_saft => das_saft_serial K (d_Y J) (d_len J) (d_Gt J) (d_num_t J) xo yo zo (d_dt J) dl (d_cp J) (d_lvl J)
    | das_tfm => das_tfm_serial K (d_Y J) (d_len J) (d_Gt J) (d_num_t J) (d_Gr J) (d_num_r J) xo yo zo (d_dt J) dl (d_cp J) (d_lvl J)
    | das_rca_coltx => das_rca_serial_coltx K (d_Y J) (d_len J) (d_Gt J) (d_num_t J) (d_Gr J) (d_num_r J) xo yo zo (d_dt J) dl (d_cp J) (d_lvl J)
    | das_rca_rowtx => das_rca_serial_rowtx K (d_Y J) (d_len J) (d_Gt J) (d_num_t J) (d_Gr J) (d_num_r J) xo yo zo (d_dt J) dl (d_cp J) (d_lvl J)
    end.
  Proof.
    intros W Hn. destruct W as [W1 W2 W3 W4 W5 W6 W7 W8].
    destruct (buf_get_ok (d_Ro J) n ltac:(lia)) as (xo & _ & Ex).
    destruct (buf_get_ok (d_Ro J) (n + 1 * d_No J) ltac:(lia)) as (yo & _ & Ey).
    destruct (buf_get_ok (d_Ro J) (n + 2 * d_No J) ltac:(lia)) as (zo & _ & Ez).
    destruct (buf_get_ok (d_delay J) (match d_delay_type J with delay_single => 0 | delay_multiple => n end)
                ltac:(destruct (d_delay_type J); lia)) as (dl & _ & Ed).
    exists xo, yo, zo, dl. repeat (split; [assumption|]). unfold das_value. rewrite Ex, Ey, Ez. cbn [bind].
    destruct (d_delay_type J); rewrite Ed; cbn [bind]; reflexivity.
  Qed.

  Lemma rca_edges_ok (Gc : buf) nc (Gr : buf) nr : Z.of_nat (length Gc) = 3 * nc -> Z.of_nat (length Gr) = 3 * nr ->
    1 <= nc -> 1 <= nr -> 2 * nc <= 3 * nr -> nr <= 3 * nc -> exists e, rca_edges Gc nc Gr nr = Ok e.
  Proof.
    intros H1 H2 H3 H4 H5 H6. unfold rca_edges.
    destruct (buf_get_ok Gr (0 + 1 * nc) ltac:(lia)) as (y1 & _ & ->).
    destruct (buf_get_ok Gr (nc - 1 + 1 * nc) ltac:(lia)) as (y2 & _ & ->).
    destruct (buf_get_ok Gc 0 ltac:(lia)) as (x1 & _ & ->).
    destruct (buf_get_ok Gc (nr - 1) ltac:(lia)) as (x2 & _ & ->). cbn [bind]. eauto.
  Qed.

  Lemma das_value_good (J : das_job N) n : das_wf J -> das_data_ok J -> das_edges_ok J -> 0 <= n < d_No J ->
    good (fun _ => True) (das_value K J n).
  Proof.
    intros W Hy He Hn. destruct (das_args J n W Hn) as (xo & yo & zo & dl & _ & _ & _ & _ & ->).
    destruct W as [W1 W2 W3 W4 W5 W6 W7 W8]. unfold das_data_ok, das_scans in Hy. unfold das_edges_ok in He.
    assert (Hr : das_method J <> das_saft -> 1 <= d_num_r J).
    { unfold das_method. destruct (d_num_r J =? 0) eqn:E; [congruence|]. intros _. lia. }
    destruct (das_method J) eqn:Em.
    - rewrite saft_fold by exact W7. apply good_finish, das_fold_good.
      intros off a Hin. apply in_saft in Hin; auto. lia.
    - rewrite tfm_fold by assumption. apply good_finish, das_fold_good.
      intros off a Hin. apply in_pairs in Hin; auto. lia.
    - rewrite coltx_fold by assumption.
      destruct (rca_edges_ok (d_Gt J) (d_num_t J) (d_Gr J) (d_num_r J)) as (e & ->); auto; try lia.
      cbn [bind]. apply good_finish, das_fold_good. destruct e as [[[y1 y2] x1] x2].
      intros off a Hin. apply in_pairs in Hin; auto. lia.
    - rewrite rowtx_fold by assumption.
      destruct (rca_edges_ok (d_Gt J) (d_num_t J) (d_Gr J) (d_num_r J)) as (e & ->); auto; try lia.
      cbn [bind]. apply good_finish, das_fold_good. destruct e as [[[y1 y2] x1] x2].
      intros off a Hin. apply in_pairs in Hin; auto. lia.
  Qed.

  (** ** Driver *)
  Definition das_col (J : das_job N) (n : Z) (c : buf) : res (buf * SIRError) :=
    if (0 <=? n) && (n <? d_No J) then do s <- das_value K J n; Ok ([fst s], snd s) else Diverge.
  Lemma upd_set_col (H : buf) n x : 0 <= n < Z.of_nat (length H) ->
    upd H (Z.to_nat n) (fun _ => x) = set_col 1 n [x] H.
  Proof.
    intros Hn. unfold set_col. rewrite Z.mul_1_r. replace (Z.to_nat 1) with 1%nat by reflexivity.
    assert (E : (Z.to_nat n < length H)%nat) by lia. clear Hn.
    revert E. generalize (Z.to_nat n). clear n. induction H as [|y H IH]; intros [|k] E; cbn [length] in E; try lia.
    - reflexivity.
    - cbn [upd firstn Nat.add skipn app]. rewrite IH by lia. reflexivity.
  Qed.
  Lemma das_Hpt J n H : 0 <= n < d_No J -> length H = Z.to_nat (d_No J * 1) ->
    das_point K J n H = rmap (fun s => (set_col 1 n (fst s) H, snd s)) (das_col J n (col 1 n H)).
  Proof.
    intros Hn HL. unfold das_point, das_col. replace ((0 <=? n) && (n <? d_No J)) with true by lia.
    destruct (das_value K J n) as [[im err]|u|]; cbn [bind rmap fst snd]; auto.
    rewrite buf_upd_ok by lia. cbn [bind]. rewrite upd_set_col by lia. reflexivity.
  Qed.
  Lemma das_Hlen J n c c' e : length c = Z.to_nat 1 -> das_col J n c = Ok (c', e) -> length c' = Z.to_nat 1.
  Proof.
    intros _ E. unfold das_col in E. destruct (_ && _); [|discriminate].
    apply bind_Ok_inv in E as (s & _ & E). injection E as <- _. reflexivity.
  Qed.

  Lemma col1 (H : buf) n d : 0 <= n < Z.of_nat (length H) -> col 1 n H = [nth (Z.to_nat n) H d].
  Proof.
    intros Hn. unfold col. rewrite Z.mul_1_r. replace (Z.to_nat 1) with 1%nat by reflexivity.
    assert (E : (Z.to_nat n < length H)%nat) by lia. clear Hn. revert E. generalize (Z.to_nat n). clear n.
    induction H as [|y H IH]; intros [|k] E; cbn [length] in E; try lia; cbn [skipn firstn nth].
    - reflexivity.
    - apply IH. lia.
  Qed.

  Section Job.
    Variables (J : das_job N) (nthreads : Z) (Im0 : buf).
    Hypothesis W : das_wf J.
    Hypothesis Hth : 1 <= nthreads.
    Hypothesis HI : Z.of_nat (length Im0) = d_No J.

    Let H1 : 0 <= 1 := Z.le_0_1.
    Lemma HI' : length Im0 = Z.to_nat (d_No J * 1).
    Proof. lia. Qed.

    Lemma das_call_gcall sch : das_call K J nthreads sch Im0 = gcall (d_No J) nthreads (das_point K J) Im0 sch.
    Proof. reflexivity. Qed.

    Lemma das_call_good sch : das_data_ok J -> das_edges_ok J -> good (fun _ => True) (das_call K J nthreads sch Im0).
    Proof.
      intros Hy He. rewrite das_call_gcall.
      apply (gcall_good 1 (d_No J) nthreads (das_point K J) (das_col J) Im0 H1 (dw_No J W) Hth HI' (das_Hpt J) (das_Hlen J)).
      intros n c Hn _. unfold das_col. replace ((0 <=? n) && (n <? d_No J)) with true by lia.
      eapply good_bind; [exact (das_value_good J n W Hy He Hn)|]. intros; exact I.
    Qed.

    Lemma das_call_columns sch Im stt d : das_call K J nthreads sch Im0 = Ok (Some (Im, stt, true)) ->
      length Im = length Im0 /\
      forall n, 0 <= n < d_No J -> exists e, das_value K J n = Ok (nth (Z.to_nat n) Im d, e).
    Proof.
      rewrite das_call_gcall. intros E.
      destruct (gcall_columns 1 (d_No J) nthreads (das_point K J) (das_col J) Im0 H1 (dw_No J W) Hth HI' (das_Hpt J) (das_Hlen J)
                  sch Im stt E) as [L C]. split; auto.
      intros n Hn. destruct (C n Hn) as (e & He). rewrite (col1 Im n d) in He by lia.
      unfold das_col in He. replace ((0 <=? n) && (n <? d_No J)) with true in He by lia.
      apply bind_Ok_inv in He as ([im e'] & Ev & He). cbn in He. injection He as -> ->. eauto.
    Qed.

    Lemma das_call_prefix sch s d : gsteps (das_point K J) (init (d_No J) nthreads Im0) sch = Ok s ->
      length (g_H s) = length Im0 /\
      forall n, 0 <= n < d_No J -> nth (Z.to_nat n) (g_H s) d = nth (Z.to_nat n) Im0 d \/
        exists e, das_value K J n = Ok (nth (Z.to_nat n) (g_H s) d, e).
    Proof.
      intros E. destruct (gcall_prefix 1 (d_No J) nthreads (das_point K J) (das_col J) Im0 H1 (dw_No J W) Hth HI' (das_Hpt J) (das_Hlen J) sch s E)
        as [L C]. split; auto. intros n Hn. destruct (C n Hn) as [C1|(e & He)].
      - left. rewrite (col1 (g_H s) n d), (col1 Im0 n d) in C1 by lia. injection C1; auto.
      - right. rewrite (col1 (g_H s) n d) in He by lia. unfold das_col in He.
        replace ((0 <=? n) && (n <? d_No J)) with true in He by lia.
        apply bind_Ok_inv in He as ([im e'] & Ev & He). cbn in He. injection He as -> ->. eauto.
    Qed.

    Lemma das_call_completes sch : (forall n, 0 <= n < d_No J -> exists s, das_value K J n = Ok s) ->
      exists r, das_call K J nthreads sch Im0 = Ok r /\
      ((forall i, 0 <= i < nthreads ->
         3 * (part_stop i (d_No J) nthreads - part_start i (d_No J) nthreads) + 1 <= steps_of (Z.to_nat i) sch) -> r <> None).
    Proof.
      intros Hok. rewrite das_call_gcall.
      apply (gcall_completes 1 (d_No J) nthreads (das_point K J) (das_col J) Im0 H1 (dw_No J W) Hth HI' (das_Hpt J) (das_Hlen J)).
      intros n Hn. destruct (Hok n Hn) as ([im e] & E). unfold das_col.
      replace ((0 <=? n) && (n <? d_No J)) with true by lia. rewrite E. cbn. eauto.
    Qed.

    Lemma das_call_running sch Im stt r : no_ctrlc sch ->
      (forall n im, 0 <= n < d_No J -> das_value K J n <> Ok (im, err_oob)) ->
      das_call K J nthreads sch Im0 = Ok (Some (Im, stt, r)) -> r = true.
    Proof.
      intros Hc Hno. rewrite das_call_gcall.
      apply (gcall_running 1 (d_No J) nthreads (das_point K J) (das_col J) Im0 H1 (dw_No J W) Hth HI' (das_Hpt J) (das_Hlen J)).
      - exact (existsb_ctrlc sch Hc).
      - intros n c Hn E. unfold das_col in E. replace ((0 <=? n) && (n <? d_No J)) with true in E by lia.
        apply bind_Ok_inv in E as ([im e'] & Ev & E). cbn in E. injection E as _ ->. exact (Hno n im Hn Ev).
    Qed.

    Lemma das_call_status sch Im stt : 1 < nthreads ->
      das_call K J nthreads sch Im0 = Ok (Some (Im, stt, true)) ->
      (stt = err_none <-> forall n im e, 0 <= n < d_No J -> das_value K J n = Ok (im, e) -> e = err_none) /\
      (stt <> err_none -> exists n im, 0 <= n < d_No J /\ das_value K J n = Ok (im, stt)).
    Proof.
      intros Hgt. rewrite das_call_gcall. intros E.
      destruct (gcall_status 1 (d_No J) nthreads (das_point K J) (das_col J) Im0 H1 (dw_No J W) Hth HI' (das_Hpt J) (das_Hlen J)
        sch Im stt Hgt E) as [S1 S2].
      assert (X : forall n e, 0 <= n < d_No J -> ((exists c, das_col J n (col 1 n Im0) = Ok (c, e)) <-> exists im, das_value K J n = Ok (im, e))).
      { intros n e Hn. unfold das_col. replace ((0 <=? n) && (n <? d_No J)) with true by lia. split.
        - intros (c & Ec). apply bind_Ok_inv in Ec as ([im e'] & Ev & Ec). cbn in Ec. injection Ec as _ ->. eauto.
        - intros (im & ->). cbn. eauto. }
      split.
      - rewrite S1. split; intros H n.
        + intros im e Hn Ev. destruct (proj2 (X n e Hn)) as (c & Ec); eauto.
        + intros c e Hn Ec. destruct (proj1 (X n e Hn)) as (im & Ev); eauto.
      - intros Hne. destruct (S2 Hne) as (n & c & Hn & Ec). destruct (proj1 (X n stt Hn)) as (im & Ev); eauto.
    Qed.

    Lemma das_call_clean sch Im stt n im : das_call K J nthreads sch Im0 = Ok (Some (Im, stt, true)) ->
      0 <= n < d_No J -> das_value K J n <> Ok (im, err_oob).
    Proof.
      rewrite das_call_gcall. intros E Hn Ev.
      apply (gcall_clean 1 (d_No J) nthreads (das_point K J) (das_col J) Im0 H1 (dw_No J W) Hth HI' (das_Hpt J) (das_Hlen J)
        sch Im stt n [im] E Hn).
      unfold das_col. replace ((0 <=? n) && (n <? d_No J)) with true by lia. rewrite Ev. reflexivity.
    Qed.
  End Job.
End DasAny.
