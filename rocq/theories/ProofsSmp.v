(** ProofsSmp.v - work split and interleavings. *)
From Verif Require Import Base BaseLemmas ModelSir ModelArr ModelSmp ProofsLocal ProofsLocalArr.
From Coq Require Import ZifyBool ZifyNat.
Ltac Zify.zify_post_hook ::= Z.div_mod_to_equations.

(** ** Work split *)
Section Part.
  Variables (No n : Z).
  Hypothesis HNo : 0 <= No.
  Hypothesis Hn : 1 <= n.

  Lemma part_start_0 : part_start 0 No n = 0.
  Proof. unfold part_start. rewrite Z.mul_0_l. apply Z.div_0_l. lia. Qed.
  Lemma part_stop_last : part_stop (n - 1) No n = No.
  Proof. unfold part_stop. replace (n - 1 + 1) with n by lia. rewrite Z.mul_comm. apply Z.div_mul. lia. Qed.
  Lemma part_stop_next t : part_stop t No n = part_start (t + 1) No n.
  Proof. reflexivity. Qed.
  Lemma part_start_mono t u : t <= u -> part_start t No n <= part_start u No n.
  Proof. intros H. unfold part_start. apply Z.div_le_mono; nia. Qed.
  Lemma part_start_le_stop t : part_start t No n <= part_stop t No n.
  Proof. rewrite part_stop_next. apply part_start_mono. lia. Qed.
  Lemma part_range t : 0 <= t < n -> 0 <= part_start t No n /\ part_stop t No n <= No.
  Proof.
    intros Ht. split.
    - rewrite <- part_start_0. apply part_start_mono. lia.
    - pose proof part_stop_last as Hl. rewrite part_stop_next in *.
      pose proof (part_start_mono (t + 1) (n - 1 + 1)). lia.
  Qed.

  (** Every point has exactly one owner. *)
  Lemma part_cover m : 0 <= m < No -> exists t, 0 <= t < n /\ part_start t No n <= m < part_stop t No n.
  Proof.
    intros Hm.
    assert (H : forall k : nat, (Z.of_nat k <= n) -> m < part_start (Z.of_nat k) No n ->
              exists t, 0 <= t < Z.of_nat k /\ part_start t No n <= m < part_stop t No n).
    { induction k as [|k IH]; intros Hk Hlt.
      - change (Z.of_nat 0) with 0 in Hlt. rewrite part_start_0 in Hlt. lia.
      - destruct (Z_lt_dec m (part_start (Z.of_nat k) No n)) as [Hl|Hl].
        + destruct IH as (t & Ht & Hr); try lia. exists t. lia.
        + exists (Z.of_nat k). split; [lia|]. rewrite part_stop_next.
          replace (Z.of_nat k + 1) with (Z.of_nat (S k)) by lia. lia. }
    destruct (H (Z.to_nat n)) as (t & Ht & Hr); try lia.
    - replace (Z.of_nat (Z.to_nat n)) with (n - 1 + 1) by lia.
      rewrite <- part_stop_next, part_stop_last. lia.
    - exists t. lia.
  Qed.

  Lemma part_disjoint t u m : t < u ->
    part_start t No n <= m < part_stop t No n -> part_start u No n <= m < part_stop u No n -> False.
  Proof.
    intros H [_ H1] [H2 _]. rewrite part_stop_next in H1.
    pose proof (part_start_mono (t + 1) u). lia.
  Qed.
End Part.

(** ** Columns of the output matrix *)
Section Cols.
  Context {A : Type}.
  Implicit Types (H : list A).

  (** Column n of a matrix with nt rows, column major. *)
  Definition col (nt n : Z) H : list A := firstn (Z.to_nat nt) (skipn (Z.to_nat (n * nt)) H).
  Definition set_col (nt n : Z) (c : list A) H : list A :=
    firstn (Z.to_nat (n * nt)) H ++ c ++ skipn (Z.to_nat (n * nt) + Z.to_nat nt) H.

  Lemma col_split nt n H : H = firstn (Z.to_nat (n * nt)) H ++ col nt n H ++ skipn (Z.to_nat (n * nt) + Z.to_nat nt) H.
  Proof.
    unfold col.
    replace (skipn (Z.to_nat (n * nt) + Z.to_nat nt) H)
      with (skipn (Z.to_nat nt) (skipn (Z.to_nat (n * nt)) H)).
    - now rewrite !firstn_skipn.
    - rewrite <- (firstn_skipn (Z.to_nat (n * nt)) H) at 2.
      rewrite skipn_app, firstn_length.
      destruct (Nat.le_gt_cases (Z.to_nat (n * nt)) (length H)) as [Hl|Hl].
      + rewrite Nat.min_l by lia.
        rewrite (skipn_all2 (firstn _ _)) by (rewrite firstn_length; lia).
        cbn [app]. f_equal. lia.
      + rewrite (skipn_all2 H) by lia. rewrite firstn_all2 by lia.
        rewrite (skipn_all2 H) by lia. rewrite !skipn_nil. reflexivity.
  Qed.

  Lemma nth_error_firstn' (l : list A) : forall n i, nth_error (firstn n l) i = if Nat.ltb i n then nth_error l i else None.
  Proof.
    induction l as [|x t IH]; intros n i.
    - rewrite firstn_nil. destruct i, (Nat.ltb _ n); reflexivity.
    - destruct n, i; cbn [firstn nth_error]; auto.
      rewrite IH. reflexivity.
  Qed.
  Lemma nth_error_skipn' (l : list A) : forall n i, nth_error (skipn n l) i = nth_error l (n + i).
  Proof.
    induction l as [|x t IH]; intros [|n] i; cbn; auto.
    - destruct i; reflexivity.
  Qed.

  Lemma col_nth nt n H i : nth_error (col nt n H) i =
    if Nat.ltb i (Z.to_nat nt) then nth_error H (Z.to_nat (n * nt) + i) else None.
  Proof. unfold col. now rewrite nth_error_firstn', nth_error_skipn'. Qed.

  Lemma length_col nt n No H : 0 <= nt -> 0 <= n < No -> length H = Z.to_nat (No * nt) ->
    length (col nt n H) = Z.to_nat nt.
  Proof. intros. unfold col. rewrite firstn_length, skipn_length. nia. Qed.

  Lemma length_set_col nt n No c H : 0 <= nt -> 0 <= n < No -> length H = Z.to_nat (No * nt) ->
    length c = Z.to_nat nt -> length (set_col nt n c H) = length H.
  Proof.
    intros. unfold set_col. rewrite !app_length, firstn_length, skipn_length. nia.
  Qed.

  Lemma col_set_same nt n No c H : 0 <= nt -> 0 <= n < No -> length H = Z.to_nat (No * nt) ->
    length c = Z.to_nat nt -> col nt n (set_col nt n c H) = c.
  Proof.
    intros. unfold col, set_col. rewrite skipn_app, firstn_length.
    rewrite (skipn_all2 (firstn _ _)) by (rewrite firstn_length; lia). cbn [app].
    replace (Z.to_nat (n * nt) - Nat.min (Z.to_nat (n * nt)) (length H))%nat with O by nia.
    cbn [skipn]. rewrite firstn_app, firstn_all2 by lia.
    replace (Z.to_nat nt - length c)%nat with O by lia. cbn. apply app_nil_r.
  Qed.

  Lemma set_col_nth nt n No c H k : 0 <= nt -> 0 <= n < No -> length H = Z.to_nat (No * nt) ->
    length c = Z.to_nat nt ->
    (Z.of_nat k < n * nt \/ (n + 1) * nt <= Z.of_nat k) ->
    nth_error (set_col nt n c H) k = nth_error H k.
  Proof.
    intros Hnt Hn HH Hc Hk. unfold set_col.
    assert (Hle : (Z.to_nat (n * nt) <= length H)%nat) by nia.
    destruct Hk as [Hk|Hk].
    - rewrite nth_error_app1 by (rewrite firstn_length; lia).
      rewrite nth_error_firstn'. destruct (Nat.ltb_spec k (Z.to_nat (n * nt))); auto. lia.
    - rewrite nth_error_app2 by (rewrite firstn_length; nia).
      rewrite firstn_length, Nat.min_l by lia.
      rewrite nth_error_app2 by nia.
      rewrite nth_error_skipn'. f_equal. nia.
  Qed.

  Lemma col_set_other nt n m No c H : 0 <= nt -> 0 <= n < No -> 0 <= m < No -> n <> m ->
    length H = Z.to_nat (No * nt) -> length c = Z.to_nat nt ->
    col nt m (set_col nt n c H) = col nt m H.
  Proof.
    intros Hnt Hn Hm Hnm HH Hc. apply nth_error_ext. intros i. rewrite !col_nth.
    destruct (Nat.ltb_spec i (Z.to_nat nt)); auto.
    apply (set_col_nth nt n No); auto.
    assert (E : Z.of_nat (Z.to_nat (m * nt) + i) = m * nt + Z.of_nat i) by nia. rewrite E.
    destruct (Z_lt_dec m n) as [Hl|Hl]; [left|right].
    - pose proof (Z.mul_le_mono_nonneg_r (m + 1) n nt Hnt ltac:(lia)). lia.
    - pose proof (Z.mul_le_mono_nonneg_r (n + 1) m nt Hnt ltac:(lia)). lia.
  Qed.

  (** A matrix is determined by its columns. *)
  Lemma cols_ext nt No H H' : 0 <= nt -> length H = Z.to_nat (No * nt) -> length H' = length H ->
    (forall n, 0 <= n < No -> col nt n H' = col nt n H) -> H' = H.
  Proof.
    intros Hnt HH HH' E. apply nth_error_ext. intros i.
    destruct (Nat.lt_ge_cases i (length H)) as [Hi|Hi].
    - assert (Hntp : 0 < nt).
      { destruct (Z.eq_dec nt 0) as [->|]; [|lia]. rewrite Z.mul_0_r in HH. cbn in HH. lia. }
      assert (HiZ : Z.of_nat i < No * nt) by lia.
      set (n := Z.of_nat i / nt).
      assert (Hn : 0 <= n < No) by (subst n; split; [apply Z.div_pos; lia|apply Z.div_lt_upper_bound; nia]).
      pose proof (E n Hn) as En.
      assert (Hr : Z.of_nat i = n * nt + Z.of_nat i mod nt).
      { subst n. rewrite (Z.div_mod (Z.of_nat i) nt) at 1 by lia. lia. }
      pose proof (Z.mod_pos_bound (Z.of_nat i) nt Hntp) as Hb.
      pose proof (f_equal (fun l => nth_error l (Z.to_nat (Z.of_nat i mod nt))) En) as Ei.
      cbv beta in Ei. rewrite !col_nth in Ei.
      destruct (Nat.ltb_spec (Z.to_nat (Z.of_nat i mod nt)) (Z.to_nat nt)); [|lia].
      replace (Z.to_nat (n * nt) + Z.to_nat (Z.of_nat i mod nt))%nat with i in Ei by nia.
      exact Ei.
    - rewrite !(proj2 (nth_error_None _ _)); auto; lia.
  Qed.
End Cols.

(** ** Interleavings *)
Section Sched.
  Context {N : Num}.
  Local Notation buf := (list N).
  Local Notation st := (buf * SIRError)%type.
  Variables (nt No nthreads : Z) (pt : Z -> buf -> res st) (colf : Z -> buf -> res st) (H0 : buf).
  Hypothesis Hnt : 0 <= nt.
  Hypothesis HNo : 0 <= No.
  Hypothesis Hth : 1 <= nthreads.
  Hypothesis HH0 : length H0 = Z.to_nat (No * nt).
  Hypothesis Hpt : forall n H, 0 <= n < No -> length H = Z.to_nat (No * nt) ->
    pt n H = rmap (fun s => (set_col nt n (fst s) H, snd s)) (colf n (col nt n H)).
  Hypothesis Hlen : forall n c c' e, length c = Z.to_nat nt -> colf n c = Ok (c', e) -> length c' = Z.to_nat nt.

  Definition t_start (i : nat) : Z := part_start (Z.of_nat i) No nthreads.
  Definition t_end (i : nat) : Z := part_stop (Z.of_nat i) No nthreads.

  (** Point n of this worker has been computed. *)
  Definition processed (t : thread) (n : Z) : Prop :=
    n < t_n t \/ (n = t_n t /\ n < t_stop t /\ t_pc t <> PHead).

  (** The single-point result for column n. *)
  Definition result (n : Z) (c : buf) (e : SIRError) : Prop := colf n (col nt n H0) = Ok (c, e).

  Record TInv (H : buf) (running : bool) (i : nat) (t : thread) : Prop := {
    ti_n : t_start i <= t_n t <= t_end i;
    ti_stop : t_stop t = t_end i;
    ti_pc : match t_pc t with PFlag _ | PCheck => t_n t < t_stop t | _ => True end;
    ti_done : forall n, t_start i <= n < t_end i -> processed t n ->
              exists c e, result n c e /\ col nt n H = c;
    ti_todo : forall n, t_start i <= n < t_end i -> ~ processed t n -> col nt n H = col nt n H0;
    ti_err_none : t_err t = err_none -> forall n c e, t_start i <= n < t_end i -> processed t n ->
              result n c e -> e = err_none;
    ti_err : t_err t <> err_none -> exists n c, t_start i <= n < t_end i /\ processed t n /\ result n c (t_err t);
    ti_flag : forall err, t_pc t = PFlag err -> exists c, result (t_n t) c err;
    ti_oob : forall n c, t_start i <= n < t_end i -> processed t n -> result n c err_oob ->
              running = false \/ (n = t_n t /\ t_pc t = PFlag err_oob);
    ti_bail : t_pc t = PDone -> t_n t < t_stop t -> running = false
  }.

  Record GInv (cc : bool) (s : gstate) : Prop := {
    gi_len : length (g_H s) = Z.to_nat (No * nt);
    gi_num : length (g_threads s) = Z.to_nat nthreads;
    gi_t : forall i t, nth_error (g_threads s) i = Some t -> TInv (g_H s) (g_running s) i t;
    gi_run : g_running s = false -> cc = true \/
             exists n c, 0 <= n < No /\ result n c err_oob /\ col nt n (g_H s) = c
  }.

  Lemma t_range i : (i < Z.to_nat nthreads)%nat -> 0 <= t_start i /\ t_end i <= No.
  Proof. intros Hi. apply part_range; lia. Qed.

  Lemma ranges_disjoint i j n : i <> j -> t_start i <= n < t_end i -> t_start j <= n < t_end j -> False.
  Proof.
    intros Hij H1 H2. destruct (Nat.lt_ge_cases i j) as [Hl|Hl].
    - exact (part_disjoint No nthreads HNo Hth (Z.of_nat i) (Z.of_nat j) n ltac:(lia) H1 H2).
    - exact (part_disjoint No nthreads HNo Hth (Z.of_nat j) (Z.of_nat i) n ltac:(lia) H2 H1).
  Qed.

  Lemma result_fun n c e c' e' : result n c e -> result n c' e' -> c = c' /\ e = e'.
  Proof. unfold result. intros E1 E2. rewrite E1 in E2. injection E2; auto. Qed.

  Lemma SIRError_eqb_spec a b : reflect (a = b) (SIRError_eqb a b).
  Proof. destruct a, b; cbn; constructor; congruence. Qed.

  Lemma init_inv : GInv false (init No nthreads H0).
  Proof.
    split; cbn [init g_H g_running g_threads].
    - exact HH0.
    - rewrite map_length, seq_length. reflexivity.
    - intros i t Hi. rewrite nth_error_map in Hi.
      destruct (nth_error (seq 0 (Z.to_nat nthreads)) i) as [k|] eqn:E; [|discriminate].
      injection Hi as <-.
      assert (Hk : k = i).
      { assert (Hlt : (i < length (seq 0 (Z.to_nat nthreads)))%nat) by (apply nth_error_Some; congruence).
        rewrite seq_length in Hlt.
        apply nth_error_nth with (d := O) in E. rewrite seq_nth in E by lia. lia. }
      subst k.
      assert (NP : forall n, t_start i <= n -> ~ processed (init_thread No nthreads i) n).
      { intros n Hn [Hp|(_ & _ & Hp)]; cbn in Hp; [|congruence]. fold (t_start i) in Hp. lia. }
      split; cbn; auto; try (intros; exfalso; eapply NP; [|eassumption]; lia).
      + split; [unfold t_start; lia|]. apply part_start_le_stop; lia.
      + congruence.
      + discriminate.
      + discriminate.
    - discriminate.
  Qed.

  (** Changing [running] from true to false, or a column owned by another
      worker, keeps a worker's invariant. *)
  Lemma TInv_frame H H' r r' i t :
    TInv H r i t -> (r = false -> r' = false) ->
    (forall n, t_start i <= n < t_end i -> col nt n H' = col nt n H) ->
    TInv H' r' i t.
  Proof.
    intros T Hr Hc. destruct T. split; auto.
    - intros n Hn Hp. destruct (ti_done0 n Hn Hp) as (c & e & R & E). exists c, e. split; auto.
      rewrite Hc; auto.
    - intros n Hn Hp. rewrite Hc; auto.
    - intros n c Hn Hp R. destruct (ti_oob0 n c Hn Hp R); auto.
  Qed.

  Ltac inv_pc t E := destruct (t_pc t) eqn:E.

  Lemma thread_step_inv H r i t H' r' t' :
    (i < Z.to_nat nthreads)%nat -> length H = Z.to_nat (No * nt) ->
    TInv H r i t -> thread_step pt H r t = Ok (H', r', t') ->
    TInv H' r' i t' /\ length H' = Z.to_nat (No * nt) /\ (r = false -> r' = false) /\
    (forall n, ~ (t_start i <= n < t_end i) -> 0 <= n < No -> col nt n H' = col nt n H) /\
    (r' = false -> r = false \/ exists n c, 0 <= n < No /\ result n c err_oob /\ col nt n H' = c).
  Proof.
    intros Hi HL T Hs. pose proof (t_range i Hi) as [R0 R1].
    pose proof T as [Tn Tstop Tpc Tdone Ttodo Ten Te Tflag Toob Tbail].
    unfold thread_step in Hs. destruct (t_pc t) as [|err| |] eqn:Epc.
    - (* PHead *)
      destruct (t_n t <? t_stop t) eqn:Elt.
      + assert (Hn : 0 <= t_n t < No) by lia.
        rewrite Hpt in Hs by auto.
        assert (Hnp : ~ processed t (t_n t)).
        { intros [Hp|(_ & _ & Hp)]; [lia|congruence]. }
        rewrite (Ttodo (t_n t) ltac:(lia) Hnp) in Hs.
        destruct (colf (t_n t) (col nt (t_n t) H0)) as [[c err]|u|] eqn:Ec; cbn in Hs; try discriminate.
        injection Hs as <- <- <-.
        assert (HR : result (t_n t) c err) by exact Ec.
        assert (Hcl : length c = Z.to_nat nt).
        { eapply Hlen; [|exact Ec]. apply (length_col nt (t_n t) No); auto. }
        set (t1 := {| t_pc := PFlag err; t_n := t_n t; t_stop := t_stop t;
                      t_err := if SIRError_eqb err err_none then t_err t else err |}).
        assert (Pmono : forall n, processed t n -> processed t1 n).
        { intros n [Hp|(_ & _ & Hp)]; [left; exact Hp|congruence]. }
        assert (Pinv : forall n, processed t1 n -> n = t_n t \/ processed t n).
        { intros n [Hp|(-> & _)]; [right; left; exact Hp|left; reflexivity]. }
        assert (Pcur : processed t1 (t_n t)).
        { right. cbn. repeat split; try lia; congruence. }
        split; [|split; [|split; [|split]]].
        * split; cbn [t1 t_n t_stop t_pc t_err]; try fold t1; auto; try lia.
          -- intros n Hr Hp. destruct (Z.eq_dec n (t_n t)) as [->|Hne].
             ++ exists c, err. split; auto. apply (col_set_same nt (t_n t) No); auto.
             ++ destruct (Pinv n Hp) as [|Hp']; [contradiction|].
                destruct (Tdone n Hr Hp') as (c1 & e1 & HR1 & E1). exists c1, e1. split; auto.
                rewrite (col_set_other nt (t_n t) n No); auto; lia.
          -- intros n Hr Hp. assert (n <> t_n t) by (intros ->; auto).
             rewrite (col_set_other nt (t_n t) n No); auto; lia.
          -- intros Eerr n c1 e1 Hr Hp HR1. destruct (SIRError_eqb_spec err err_none) as [->|]; [|contradiction].
             destruct (Pinv n Hp) as [->|Hp'].
             ++ destruct (result_fun _ _ _ _ _ HR HR1). auto.
             ++ eapply Ten; eauto.
          -- intros Eerr. destruct (SIRError_eqb_spec err err_none) as [->|Hne].
             ++ destruct (Te Eerr) as (n & c1 & Hr & Hp & HR1). exists n, c1. auto.
             ++ exists (t_n t), c. split; [lia|]. auto.
          -- intros e1 [= <-]. eauto.
          -- intros n c1 Hr Hp HR1. destruct (Pinv n Hp) as [->|Hp'].
             ++ destruct (result_fun _ _ _ _ _ HR HR1) as [_ ->]. auto.
             ++ destruct (Toob n c1 Hr Hp' HR1) as [|(_ & Hx)]; auto. congruence.
          -- discriminate.
        * rewrite (length_set_col nt (t_n t) No); auto.
        * auto.
        * intros n Hr Hn2. apply (col_set_other nt (t_n t) n No); auto. lia.
        * auto.
      + injection Hs as <- <- <-.
        assert (Pd : forall n, n < t_stop t -> processed {| t_pc := PDone; t_n := t_n t; t_stop := t_stop t; t_err := t_err t |} n
                   <-> processed t n).
        { intros n Hn. unfold processed; cbn. split; intros [Hp|(-> & Hp & _)]; auto; try lia. }
        split; [|auto].
        split; cbn; auto.
        * intros n Hr Hp. apply Tdone; auto. apply Pd; auto; lia.
        * intros n Hr Hp. apply Ttodo; auto. intros Hq. apply Hp. apply Pd; auto; lia.
        * intros Eerr n c e Hr Hp. apply Ten; auto. apply Pd; auto; lia.
        * intros Eerr. destruct (Te Eerr) as (n & c & Hr & Hp & HR). exists n, c.
          split; auto. split; auto. apply Pd; auto; lia.
        * discriminate.
        * intros n c Hr Hp HR. apply Pd in Hp; [|lia]. destruct (Toob n c Hr Hp HR) as [|(_ & Hx)]; auto. congruence.
        * intros _ Hx. lia.
    - (* PFlag *)
      injection Hs as <- <- <-.
      assert (Pd : forall n, processed {| t_pc := PCheck; t_n := t_n t; t_stop := t_stop t; t_err := t_err t |} n
                   <-> processed t n).
      { intros n. unfold processed; cbn. rewrite Epc. split; intros [Hp|(-> & Hp & _)]; auto; right; repeat split; auto; congruence. }
      assert (Pcur : processed t (t_n t)) by (right; rewrite Epc; repeat split; auto; congruence).
      destruct (Tflag err eq_refl) as (cf & Hf).
      assert (Hcol : col nt (t_n t) H = cf).
      { destruct (Tdone (t_n t) ltac:(lia) Pcur) as (c1 & e1 & HR1 & E1).
        destruct (result_fun _ _ _ _ _ Hf HR1) as [-> _]. exact E1. }
      split; [|split; [exact HL|split; [|split]]].
      + split; cbn; auto.
        * intros n Hr Hp. apply Tdone; auto. now apply Pd.
        * intros n Hr Hp. apply Ttodo; auto. intros Hq. apply Hp. now apply Pd.
        * intros Eerr n c e Hr Hp. apply Ten; auto. now apply Pd.
        * intros Eerr. destruct (Te Eerr) as (n & c & Hr & Hp & HR). exists n, c.
          split; auto. split; auto. now apply Pd.
        * discriminate.
        * intros n c Hr Hp HR. apply Pd in Hp. destruct (Toob n c Hr Hp HR) as [->|(-> & Hx)].
          -- left. destruct (SIRError_eqb err err_oob); reflexivity.
          -- left. injection Hx as ->. reflexivity.
        * discriminate.
      + intros ->. destruct (SIRError_eqb err err_oob); reflexivity.
      + auto.
      + destruct (SIRError_eqb_spec err err_oob) as [->|]; [|auto].
        intros _. right. exists (t_n t), cf. split; [lia|]. auto.
    - (* PCheck *)
      destruct r.
      + injection Hs as <- <- <-.
        assert (Pd : forall n, processed {| t_pc := PHead; t_n := t_n t + 1; t_stop := t_stop t; t_err := t_err t |} n
                   <-> processed t n).
        { intros n. unfold processed; cbn. rewrite Epc. split.
          - intros [Hp|(-> & Hp & Hq)]; [|congruence].
            destruct (Z.eq_dec n (t_n t)) as [->|]; [right; repeat split; auto; congruence|left; lia].
          - intros [Hp|(-> & Hp & _)]; left; lia. }
        split; [|auto].
        split; cbn; auto; try lia.
        * intros n Hr Hp. apply Tdone; auto. now apply Pd.
        * intros n Hr Hp. apply Ttodo; auto. intros Hq. apply Hp. now apply Pd.
        * intros Eerr n c e Hr Hp. apply Ten; auto. now apply Pd.
        * intros Eerr. destruct (Te Eerr) as (n & c & Hr & Hp & HR). exists n, c.
          split; auto. split; auto. now apply Pd.
        * discriminate.
        * intros n c Hr Hp HR. apply Pd in Hp. destruct (Toob n c Hr Hp HR) as [Hf|(_ & Hx)]; [discriminate|congruence].
        * discriminate.
      + injection Hs as <- <- <-.
        assert (Pd : forall n, processed {| t_pc := PDone; t_n := t_n t; t_stop := t_stop t; t_err := t_err t |} n
                   <-> processed t n).
        { intros n. unfold processed; cbn. rewrite Epc. split; intros [Hp|(-> & Hp & _)]; auto; right; repeat split; auto; congruence. }
        split; [|auto].
        split; cbn; auto.
        * intros n Hr Hp. apply Tdone; auto. now apply Pd.
        * intros n Hr Hp. apply Ttodo; auto. intros Hq. apply Hp. now apply Pd.
        * intros Eerr n c e Hr Hp. apply Ten; auto. now apply Pd.
        * intros Eerr. destruct (Te Eerr) as (n & c & Hr & Hp & HR). exists n, c.
          split; auto. split; auto. now apply Pd.
        * discriminate.
    - (* PDone *)
      injection Hs as <- <- <-. split; [exact T|]. auto.
  Qed.

  Definition is_ctrlc (e : event) : bool := match e with CtrlC => true | _ => false end.

  Lemma gstep_inv cc s e s' : GInv cc s -> gstep pt s e = Ok s' -> GInv (cc || is_ctrlc e) s'.
  Proof.
    intros [GL GN GT GR] Hs. destruct e as [i|]; cbn [gstep is_ctrlc] in *.
    - rewrite orb_false_r. destruct (nth_error (g_threads s) i) as [t|] eqn:Et.
      2:{ injection Hs as <-. split; auto. }
      apply bind_Ok_inv in Hs as ([[H' r'] t'] & Est & Hs). injection Hs as <-.
      assert (Hi : (i < Z.to_nat nthreads)%nat) by (rewrite <- GN; apply nth_error_Some; congruence).
      destruct (thread_step_inv _ _ i _ _ _ _ Hi GL (GT i t Et) Est) as (T' & L' & Hr & Hc & Hrun).
      split; cbn [g_H g_running g_threads]; auto.
      + now rewrite length_upd.
      + intros j u Hj. rewrite nth_error_upd in Hj. destruct (Nat.eqb_spec i j) as [<-|Hne].
        * rewrite Et in Hj. injection Hj as <-. exact T'.
        * assert (Hj' : (j < Z.to_nat nthreads)%nat) by (rewrite <- GN; apply nth_error_Some; congruence).
          apply (TInv_frame (g_H s) H' (g_running s) r' j u); auto.
          intros n Hn. pose proof (t_range j Hj'). apply Hc; [|lia].
          intros Hn2. exact (ranges_disjoint i j n Hne Hn2 Hn).
      + intros Hf. destruct (Hrun Hf) as [Hf0|Hf1]; [|right; exact Hf1].
        destruct (GR Hf0) as [|(n & c & Hn & HR & Ec)]; [left; auto|right].
        exists n, c. split; auto. split; auto.
        (* column n was already complete; if it is owned by thread i it still is *)
        destruct (Z_le_dec (t_start i) n) as [H1|H1]; [destruct (Z_lt_dec n (t_end i)) as [H2|H2]|].
        * assert (Hp' : processed t' n \/ ~ processed t' n).
          { unfold processed. destruct (Z_lt_dec n (t_n t')); auto.
            destruct (Z.eq_dec n (t_n t')); [|right; intros [|(? & _)]; contradiction].
            destruct (Z_lt_dec n (t_stop t')); [|right; intros [|(_ & ? & _)]; contradiction].
            destruct (t_pc t') eqn:Ep; try (left; right; repeat split; auto; congruence).
            right. intros [|(_ & _ & Hx)]; auto. }
          destruct Hp' as [Hp'|Hp'].
          -- destruct (ti_done _ _ _ _ T' n ltac:(lia) Hp') as (c1 & e1 & HR1 & E1).
             destruct (result_fun _ _ _ _ _ HR HR1) as [-> _]. exact E1.
          -- rewrite (ti_todo _ _ _ _ T' n ltac:(lia) Hp').
             assert (Hp0 : ~ processed t n).
             { intros Hp. unfold thread_step in Est. destruct (t_pc t) eqn:Epc.
               - destruct (t_n t <? t_stop t).
                 + apply bind_Ok_inv in Est as ([H1' err] & _ & Est). injection Est as <- <- <-.
                   apply Hp'. destruct Hp as [Hp|(_ & _ & Hp)]; [left; exact Hp|congruence].
                 + injection Est as <- <- <-. apply Hp'. destruct Hp as [Hp|(_ & _ & Hp)]; [left; exact Hp|congruence].
               - injection Est as <- <- <-. apply Hp'. destruct Hp as [Hp|(-> & Hp & _)]; [left; exact Hp|].
                 right. cbn. repeat split; auto. congruence.
               - destruct (g_running s).
                 + injection Est as <- <- <-. apply Hp'. left. cbn.
                   destruct Hp as [Hp|(-> & _)]; lia.
                 + injection Est as <- <- <-. apply Hp'. destruct Hp as [Hp|(-> & Hp & _)]; [left; exact Hp|].
                   right. cbn. repeat split; auto. congruence.
               - injection Est as <- <- <-. contradiction. }
             rewrite <- (ti_todo _ _ _ _ (GT i t Et) n ltac:(lia) Hp0). exact Ec.
        * rewrite Hc; [exact Ec|lia|exact Hn].
        * rewrite Hc; [exact Ec|lia|exact Hn].
    - injection Hs as <-. split; cbn [g_H g_running g_threads]; auto.
      + intros i t Hi. apply (TInv_frame (g_H s) (g_H s) (g_running s) false i t); auto.
      + intros _. left. apply orb_true_r.
  Qed.

  Lemma gsteps_inv sch : forall cc s s', GInv cc s -> gsteps pt s sch = Ok s' ->
    GInv (cc || existsb is_ctrlc sch) s'.
  Proof.
    induction sch as [|e sch IH]; intros cc s s' G Hs; cbn [gsteps existsb] in *.
    - injection Hs as <-. now rewrite orb_false_r.
    - apply bind_Ok_inv in Hs as (s1 & E1 & Hs). rewrite orb_assoc.
      apply (IH _ s1); auto. eapply gstep_inv; eauto.
  Qed.

  Lemma owner n s cc : GInv cc s -> 0 <= n < No ->
    exists i t, nth_error (g_threads s) i = Some t /\ t_start i <= n < t_end i.
  Proof.
    intros G Hn. destruct (part_cover No nthreads Hth n Hn) as (k & Hk & Hr).
    destruct (nth_error (g_threads s) (Z.to_nat k)) as [t|] eqn:E.
    - exists (Z.to_nat k), t. split; auto. unfold t_start, t_end.
      replace (Z.of_nat (Z.to_nat k)) with k by lia. exact Hr.
    - apply nth_error_None in E. rewrite (gi_num cc s G) in E. lia.
  Qed.

  Lemma all_done_spec (s : gstate (N:=N)) : all_done s = true <-> forall i t, nth_error (g_threads s) i = Some t -> t_pc t = PDone.
  Proof.
    unfold all_done. rewrite forallb_forall. split.
    - intros H i t Hi. apply nth_error_In in Hi. specialize (H t Hi). unfold is_done in H.
      destruct (t_pc t); congruence.
    - intros H t Ht. apply In_nth_error in Ht as (i & Hi). unfold is_done. rewrite (H i t Hi). reflexivity.
  Qed.

  (** *** Every reachable state: a column is either untouched or complete. *)
  Lemma reach_columns sch s : gsteps pt (init No nthreads H0) sch = Ok s ->
    length (g_H s) = length H0 /\
    forall n, 0 <= n < No ->
      col nt n (g_H s) = col nt n H0 \/ exists e, result n (col nt n (g_H s)) e.
  Proof.
    intros Hs. pose proof (gsteps_inv sch _ _ _ init_inv Hs) as G. split.
    - rewrite HH0. apply (gi_len _ _ G).
    - intros n Hn. destruct (owner n s _ G Hn) as (i & t & Et & Hr).
      pose proof (gi_t _ _ G i t Et) as T.
      assert (Hp : processed t n \/ ~ processed t n).
      { unfold processed. destruct (Z_lt_dec n (t_n t)); auto.
        destruct (Z.eq_dec n (t_n t)); [|right; intros [|(? & _)]; contradiction].
        destruct (Z_lt_dec n (t_stop t)); [|right; intros [|(_ & ? & _)]; contradiction].
        destruct (t_pc t) eqn:Ep; try (left; right; repeat split; auto; congruence).
        right. intros [|(_ & _ & Hx)]; auto. }
      destruct Hp as [Hp|Hp].
      + right. destruct (ti_done _ _ _ _ T n Hr Hp) as (c & e & HR & <-). eauto.
      + left. apply (ti_todo _ _ _ _ T n Hr Hp).
  Qed.

  (** *** Completed call without stop. *)
  Definition no_stop : Prop := forall n c, 0 <= n < No -> ~ result n c err_oob.

  Lemma done_running sch s : existsb is_ctrlc sch = false -> no_stop ->
    gsteps pt (init No nthreads H0) sch = Ok s -> g_running s = true.
  Proof.
    intros Hcc Hns Hs. pose proof (gsteps_inv sch _ _ _ init_inv Hs) as G.
    destruct (g_running s) eqn:E; auto.
    destruct (gi_run _ _ G E) as [Hx|(n & c & Hn & HR & _)].
    - rewrite Hcc in Hx. discriminate.
    - exfalso. exact (Hns n c Hn HR).
  Qed.

  Lemma done_columns sch s :
    gsteps pt (init No nthreads H0) sch = Ok s -> all_done s = true -> g_running s = true ->
    forall n, 0 <= n < No -> exists e, result n (col nt n (g_H s)) e.
  Proof.
    intros Hs Hd Hr n Hn. pose proof (gsteps_inv sch _ _ _ init_inv Hs) as G.
    destruct (owner n s _ G Hn) as (i & t & Et & Hrng).
    pose proof (gi_t _ _ G i t Et) as T. pose proof (proj1 (all_done_spec s) Hd i t Et) as Hpc.
    assert (Hp : processed t n).
    { left. destruct (Z_lt_dec (t_n t) (t_stop t)) as [Hl|Hl].
      - pose proof (ti_bail _ _ _ _ T Hpc Hl). congruence.
      - pose proof (ti_stop _ _ _ _ T). lia. }
    destruct (ti_done _ _ _ _ T n Hrng Hp) as (c & e & HR & <-). eauto.
  Qed.

  (** *** Status of a completed call *)
  Lemma join_any_none ts : join_any ts = err_none <-> forall t, In t ts -> t_err t = err_none.
  Proof.
    unfold join_any.
    assert (H : forall l e0, fold_left (fun err t => if SIRError_eqb (t_err t) err_none then err else t_err t) l e0 = err_none
                 <-> (e0 = err_none /\ forall t, In t l -> t_err t = err_none) \/
                     (exists l1 t l2, l = l1 ++ t :: l2 /\ False)).
    { induction l as [|t l IH]; intros e0; cbn [fold_left].
      - split; [intros ->; left; split; [reflexivity|intros t []]|].
        intros [[-> _]|(? & ? & ? & _ & [])]; reflexivity.
      - rewrite IH. destruct (SIRError_eqb_spec (t_err t) err_none) as [E|E].
        + split; intros [[-> Hl]|(? & ? & ? & _ & [])]; left; split; auto.
          * intros u [<-|Hu]; auto.
          * intros u Hu. apply Hl. right; exact Hu.
        + split; intros [[E0 Hl]|(? & ? & ? & _ & [])]; exfalso.
          * contradiction.
          * apply E. apply Hl. left; reflexivity. }
    rewrite H. split; [intros [[_ Hl]|(? & ? & ? & _ & [])]; exact Hl|left; auto].
  Qed.

  Lemma join_any_in ts : join_any ts <> err_none -> exists t, In t ts /\ t_err t = join_any ts.
  Proof.
    unfold join_any.
    assert (H : forall l e0, fold_left (fun err t => if SIRError_eqb (t_err t) err_none then err else t_err t) l e0 = e0
                 \/ exists t, In t l /\ t_err t = fold_left (fun err t => if SIRError_eqb (t_err t) err_none then err else t_err t) l e0).
    { induction l as [|t l IH]; intros e0; cbn [fold_left]; auto.
      destruct (SIRError_eqb (t_err t) err_none).
      - destruct (IH e0) as [E|(u & Hu & E)]; auto. right. exists u. split; auto. right; exact Hu.
      - destruct (IH (t_err t)) as [E|(u & Hu & E)].
        + right. exists t. split; [left; reflexivity|]. rewrite E. reflexivity.
        + right. exists u. split; auto. right; exact Hu. }
    intros Hne. destruct (H ts err_none) as [E|E]; [contradiction|exact E].
  Qed.

  Lemma join_sphere_spec ts : (join_sphere ts = err_oob <-> exists t, In t ts /\ t_err t = err_oob) /\
    (join_sphere ts = err_oob \/ join_sphere ts = err_none).
  Proof.
    unfold join_sphere.
    assert (H : forall l e0, (e0 = err_oob \/ e0 = err_none) ->
      let r := fold_left (fun err t => if SIRError_eqb err err_oob || SIRError_eqb (t_err t) err_oob
                            then err_oob else err) l e0 in
      (r = err_oob <-> e0 = err_oob \/ exists t, In t l /\ t_err t = err_oob) /\ (r = err_oob \/ r = err_none)).
    { induction l as [|t l IH]; intros e0 He0; cbn [fold_left].
      - split; [|exact He0]. split; [auto|]. intros [E|(t & [] & _)]; exact E.
      - destruct (SIRError_eqb_spec e0 err_oob) as [E0|E0]; [|destruct (SIRError_eqb_spec (t_err t) err_oob) as [Et|Et]]; cbn [orb].
        + destruct (IH err_oob (or_introl eq_refl)) as [I1 I2]. split; [|exact I2].
          split; [auto|]. intros _. apply I1. auto.
        + destruct (IH err_oob (or_introl eq_refl)) as [I1 I2]. split; [|exact I2].
          split; [|intros _; apply I1; auto]. intros _. right. exists t. split; [left; reflexivity|exact Et].
        + destruct (IH e0 He0) as [I1 I2]. split; [|exact I2]. rewrite I1. split.
          * intros [|(u & Hu & Eu)]; auto. right. exists u. split; [right; exact Hu|exact Eu].
          * intros [|(u & [<-|Hu] & Eu)]; auto; [contradiction|]. right. exists u. auto. }
    destruct (H ts err_none (or_intror eq_refl)) as [I1 I2]. split; [|exact I2].
    rewrite I1. split; [intros [|]; [discriminate|auto]|auto].
  Qed.

  (** With several workers: the status is zero iff every processed point had
      status zero. *)
  Lemma status_none sch s : gsteps pt (init No nthreads H0) sch = Ok s ->
    (join_any (g_threads s) = err_none <->
     forall i t, nth_error (g_threads s) i = Some t ->
       forall n c e, t_start i <= n < t_end i -> processed t n -> result n c e -> e = err_none).
  Proof.
    intros Hs. pose proof (gsteps_inv sch _ _ _ init_inv Hs) as G. rewrite join_any_none. split.
    - intros H i t Hi. apply (ti_err_none _ _ _ _ (gi_t _ _ G i t Hi)).
      apply H. eapply nth_error_In; eauto.
    - intros H t Ht. apply In_nth_error in Ht as (i & Hi).
      destruct (SIRError_eqb_spec (t_err t) err_none) as [E|E]; auto.
      destruct (ti_err _ _ _ _ (gi_t _ _ G i t Hi) E) as (n & c & Hr & Hp & HR).
      eapply H; eauto.
  Qed.

  (** *** Progress: every step of an unfinished worker brings it closer to
      its end; three steps per observation point. *)
  Definition tmeasure (t : thread) : Z :=
    match t_pc t with
    | PHead => 3 * (t_stop t - t_n t) + 1
    | PFlag _ => 3 * (t_stop t - t_n t)
    | PCheck => 3 * (t_stop t - t_n t) - 1
    | PDone => 0
    end.

  Lemma thread_step_measure H r i t H' r' t' :
    TInv H r i t -> thread_step pt H r t = Ok (H', r', t') ->
    (t_pc t = PDone /\ t' = t) \/ (t_pc t <> PDone /\ 0 <= tmeasure t' < tmeasure t).
  Proof.
    intros T Hs. pose proof (ti_n _ _ _ _ T) as Tn. pose proof (ti_stop _ _ _ _ T) as Ts.
    pose proof (ti_pc _ _ _ _ T) as Tp.
    unfold thread_step in Hs. unfold tmeasure. destruct (t_pc t) eqn:Epc.
    - right. split; [congruence|]. destruct (t_n t <? t_stop t) eqn:El.
      + apply bind_Ok_inv in Hs as ([h e] & _ & Hs). injection Hs as <- <- <-. cbn [t_pc t_n t_stop]. lia.
      + injection Hs as <- <- <-. cbn [t_pc t_n t_stop]. lia.
    - right. split; [congruence|]. injection Hs as <- <- <-. cbn [t_pc t_n t_stop]. lia.
    - right. split; [congruence|]. destruct r; injection Hs as <- <- <-; cbn [t_pc t_n t_stop]; lia.
    - left. injection Hs as <- <- <-. auto.
  Qed.

  Definition count_run (i : nat) (sch : list event) : Z :=
    Z.of_nat (length (filter (fun e => match e with Run j => Nat.eqb i j | CtrlC => false end) sch)).

  Lemma progress sch : forall cc s s', GInv cc s -> gsteps pt s sch = Ok s' ->
    forall i t, nth_error (g_threads s) i = Some t ->
    exists t', nth_error (g_threads s') i = Some t' /\
      (t_pc t' = PDone \/ (t_pc t' <> PDone /\ tmeasure t' <= tmeasure t - count_run i sch)).
  Proof.
    induction sch as [|e sch IH]; intros cc s s' G Hs i t Hi; cbn [gsteps] in Hs.
    - injection Hs as <-. exists t. split; auto. destruct (t_pc t) eqn:E; auto; right; (split; [congruence|]);
      unfold count_run; cbn; lia.
    - apply bind_Ok_inv in Hs as (s1 & E1 & Hs). pose proof (gstep_inv _ _ _ _ G E1) as G1.
      assert (Hdone : forall u, nth_error (g_threads s1) i = Some u -> t_pc u = PDone ->
        exists t', nth_error (g_threads s') i = Some t' /\ t_pc t' = PDone).
      { intros u Hu Eu. destruct (IH _ s1 s' G1 Hs i u Hu) as (t' & Ht' & [Ed|(En & Em)]); [eauto|].
        exfalso. unfold tmeasure in Em at 2. rewrite Eu in Em.
        pose proof (gi_t _ _ (gsteps_inv sch _ _ _ G1 Hs) i t' Ht') as T'.
        pose proof (ti_n _ _ _ _ T'). pose proof (ti_stop _ _ _ _ T'). pose proof (ti_pc _ _ _ _ T') as Tp.
        unfold tmeasure in Em. unfold count_run in Em. destruct (t_pc t') eqn:Ep; try lia; congruence. }
      destruct e as [j|]; cbn [gstep] in E1.
      + destruct (nth_error (g_threads s) j) as [u|] eqn:Ej.
        2:{ injection E1 as <-. destruct (IH _ s s' G1 Hs i t Hi) as (t' & Ht' & [Ed|(En & Em)]); [eauto|].
            exists t'. split; auto. right. split; auto. unfold count_run in *. cbn [filter].
            destruct (Nat.eqb_spec i j) as [->|]; [congruence|exact Em]. }
        apply bind_Ok_inv in E1 as ([[H' r'] u'] & Est & E1). injection E1 as <-.
        destruct (Nat.eqb_spec i j) as [->|Hne].
        * rewrite Ej in Hi. injection Hi as <-.
          assert (Hu' : nth_error (upd (g_threads s) j (fun _ => u')) j = Some u').
          { rewrite nth_error_upd, Nat.eqb_refl, Ej. reflexivity. }
          destruct (thread_step_measure _ _ j _ _ _ _ (gi_t _ _ G j u Ej) Est) as [(Ed & ->)|(En & Em)].
          -- destruct (Hdone u Hu' Ed) as (t' & Ht' & Et'). eauto.
          -- destruct (IH _ _ s' G1 Hs j u' Hu') as (t' & Ht' & [Ed'|(En' & Em')]); [eauto|].
             exists t'. split; auto. right. split; auto. unfold count_run in *. cbn [filter].
             rewrite Nat.eqb_refl. cbn [length]. lia.
        * destruct (IH _ _ s' G1 Hs i t) as (t' & Ht' & [Ed|(En & Em)]).
          { cbn [g_threads]. rewrite nth_error_upd. destruct (Nat.eqb_spec j i); [congruence|exact Hi]. }
          { eauto. }
          exists t'. split; auto. right. split; auto. unfold count_run in *. cbn [filter].
          destruct (Nat.eqb_spec i j); [contradiction|exact Em].
      + injection E1 as <-. destruct (IH _ _ s' G1 Hs i t Hi) as (t' & Ht' & [Ed|(En & Em)]); [eauto|].
        exists t'. split; auto.
  Qed.

  Lemma fair_done sch s : gsteps pt (init No nthreads H0) sch = Ok s ->
    (forall i, (i < Z.to_nat nthreads)%nat -> 3 * (t_end i - t_start i) + 1 <= count_run i sch) ->
    all_done s = true.
  Proof.
    intros Hs Hc. apply all_done_spec. intros i t' Hi.
    pose proof (gsteps_inv sch _ _ _ init_inv Hs) as G.
    assert (Hlt : (i < Z.to_nat nthreads)%nat).
    { rewrite <- (gi_num _ _ G). apply nth_error_Some. congruence. }
    assert (Hi0 : nth_error (g_threads (init No nthreads H0)) i = Some (init_thread No nthreads i)).
    { cbn [init g_threads]. rewrite nth_error_map.
      replace (nth_error (seq 0 (Z.to_nat nthreads)) i) with (Some i); [reflexivity|].
      symmetry. rewrite (nth_error_nth' _ O) by (rewrite seq_length; lia). now rewrite seq_nth by lia. }
    destruct (progress sch _ _ _ init_inv Hs i _ Hi0) as (t2 & Ht2 & [Ed|(En & Em)]); [congruence|].
    rewrite Hi in Ht2. injection Ht2 as <-.
    pose proof (gi_t _ _ G i t' Hi) as T'.
    pose proof (ti_n _ _ _ _ T'). pose proof (ti_stop _ _ _ _ T'). pose proof (ti_pc _ _ _ _ T') as Tp.
    specialize (Hc i Hlt). unfold tmeasure in Em at 2. cbn [init_thread t_pc t_stop t_n] in Em.
    fold (t_start i) (t_end i) in Em. exfalso. unfold tmeasure in Em.
    destruct (t_pc t') eqn:Ep; try congruence; lia.
  Qed.

  (** *** Abort is prompt: once the flag is down no worker starts another
      point after the one it is at, and three steps later it has finished. *)
  Lemma abort_no_progress sch : forall cc s s', GInv cc s -> g_running s = false -> gsteps pt s sch = Ok s' ->
    g_running s' = false /\
    forall i t, nth_error (g_threads s) i = Some t ->
    exists t', nth_error (g_threads s') i = Some t' /\ t_n t' = t_n t /\
      (3 <= count_run i sch -> t_pc t' = PDone).
  Proof.
    intros cc s s' G Hr Hs.
    assert (Hgen : g_running s' = false /\
      forall i t, nth_error (g_threads s) i = Some t ->
      exists t', nth_error (g_threads s') i = Some t' /\ t_n t' = t_n t /\
        ((match t_pc t with PHead => 3 | PFlag _ => 2 | PCheck => 1 | PDone => 0 end) <= count_run i sch -> t_pc t' = PDone)).
    { revert cc s s' G Hr Hs. induction sch as [|e sch IH]; intros cc s s' G Hr Hs; cbn [gsteps] in Hs.
      - injection Hs as <-. split; auto. intros i t Hi. exists t. split; auto. split; auto.
        unfold count_run; cbn. destruct (t_pc t); auto; lia.
      - apply bind_Ok_inv in Hs as (s1 & E1 & Hs). pose proof (gstep_inv _ _ _ _ G E1) as G1.
        destruct e as [j|]; cbn [gstep] in E1.
        + destruct (nth_error (g_threads s) j) as [u|] eqn:Ej.
          2:{ injection E1 as <-. destruct (IH _ s s' G1 Hr Hs) as [R1 R2]. split; auto.
              intros i t Hi. destruct (R2 i t Hi) as (t' & Ht' & En & Ed). exists t'. split; auto. split; auto.
              unfold count_run in *. cbn [filter]. destruct (Nat.eqb_spec i j) as [->|]; [congruence|exact Ed]. }
          apply bind_Ok_inv in E1 as ([[H' r'] u'] & Est & E1). injection E1 as <-.
          assert (Hu : r' = false /\ t_n u' = t_n u /\
             match t_pc u' with PHead => 3 | PFlag _ => 2 | PCheck => 1 | PDone => 0 end <=
             Z.max 0 (match t_pc u with PHead => 3 | PFlag _ => 2 | PCheck => 1 | PDone => 0 end - 1)).
          { unfold thread_step in Est. rewrite Hr in Est. destruct (t_pc u) eqn:Epc.
            - destruct (t_n u <? t_stop u).
              + apply bind_Ok_inv in Est as ([h e] & _ & Est). injection Est as <- <- <-. cbn. lia.
              + injection Est as <- <- <-. cbn. lia.
            - injection Est as <- <- <-. cbn. split; [|lia]. destruct (SIRError_eqb err err_oob); auto.
            - injection Est as <- <- <-. cbn. lia.
            - injection Est as <- <- <-. rewrite Epc. split; auto. split; auto. lia. }
          destruct Hu as (Hr' & Hn' & Hk'). destruct (IH _ _ s' G1 Hr' Hs) as [R1 R2]. split; auto.
          intros i t Hi. destruct (Nat.eqb_spec i j) as [->|Hne].
          * rewrite Ej in Hi. injection Hi as <-.
            destruct (R2 j u') as (t' & Ht' & En & Ed).
            { cbn [g_threads]. rewrite nth_error_upd, Nat.eqb_refl, Ej. reflexivity. }
            exists t'. split; auto. split; [congruence|]. intros Hc. apply Ed.
            unfold count_run in *. cbn [filter] in Hc. rewrite Nat.eqb_refl in Hc. cbn [length] in Hc. lia.
          * destruct (R2 i t) as (t' & Ht' & En & Ed).
            { cbn [g_threads]. rewrite nth_error_upd. destruct (Nat.eqb_spec j i); [congruence|exact Hi]. }
            exists t'. split; auto. split; auto. unfold count_run in *. cbn [filter].
            destruct (Nat.eqb_spec i j); [contradiction|exact Ed].
        + injection E1 as <-. destruct (IH _ _ s' G1 eq_refl Hs) as [R1 R2]. split; [exact R1|].
          intros i t Hi. exact (R2 i t Hi). }
    destruct Hgen as [R1 R2]. split; auto. intros i t Hi. destruct (R2 i t Hi) as (t' & Ht' & En & Ed).
    exists t'. split; auto. split; auto. intros Hc. apply Ed. destruct (t_pc t); lia.
  Qed.
End Sched.
