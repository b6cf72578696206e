(** ProofsAna.v - the analytic responses, any number system: every sample is a
    function of the point and the sample time only, and the threaded calls
    compute exactly these samples. *)
From Verif Require Import Base BaseLemmas ModelSir ModelArr ModelSmp ModelAna ProofsLocal ProofsLocalArr
  ProofsSmp SpecSmp ProofsCallG SpecSir ProofsEnum SpecAna.
From Coq Require Import ZifyBool ZifyNat.
Ltac Zify.zify_post_hook ::= Z.div_mod_to_equations.

Section AnaG.
  Context {N : Num}.
  Local Notation buf := (list N).
  Local Notation st := (buf * SIRError)%type.
  Local Open Scope num_scope.

  Fixpoint imap (i : Z) (f : Z -> N -> N) (c : buf) : buf :=
    match c with [] => [] | x :: c' => f i x :: imap (i + 1)%Z f c' end.
  Lemma length_imap f c : forall i, length (imap i f c) = length c.
  Proof. induction c; intros; cbn; auto. Qed.
  Lemma imap_imap f g c : forall i, imap i f (imap i g c) = imap i (fun it x => f it (g it x)) c.
  Proof. induction c; intros; cbn; f_equal; auto. Qed.
  Lemma imap_zeros f n i : imap (Z.of_nat i) f (repeat (#0) n) = map (fun j => f (Z.of_nat j) (#0)) (seq i n).
  Proof.
    revert i. induction n as [|n IH]; intros i; cbn; f_equal.
    rewrite <- IH. f_equal. lia.
  Qed.

  Lemma fill_spec nt f (pre c post : buf) : length c = Z.to_nat nt ->
    fill (Z.of_nat (length pre)) nt f (pre ++ c ++ post) = Ok (pre ++ imap 0 f c ++ post).
  Proof.
    unfold fill, for_loop. intros <-.
    assert (G : forall (c d : buf), 
      for_from (Z.of_nat (length d)) (length c) (fun it H => buf_upd H (Z.of_nat (length pre) + it) (f it)) (pre ++ d ++ c ++ post)
      = Ok (pre ++ d ++ imap (Z.of_nat (length d)) f c ++ post)).
    { clear c. induction c as [|x c IH]; intros d; cbn [length for_from imap]; [reflexivity|].
      rewrite buf_upd_ok by (rewrite !app_length; cbn [length]; lia). cbn [bind].
      replace (Z.to_nat (Z.of_nat (length pre) + Z.of_nat (length d))) with (length pre + length d)%nat by lia.
      rewrite upd_app_r. replace (length d) with (length d + 0)%nat at 2 by lia. rewrite upd_app_r.
      cbn [app upd]. specialize (IH (d ++ [f (Z.of_nat (length d)) x])).
      rewrite app_length in IH. cbn [length] in IH.
      replace (Z.of_nat (length d + 1)) with (Z.of_nat (length d) + 1)%Z in IH by lia.
      rewrite <- !app_assoc in IH. cbn [app] in IH. exact IH. }
    exact (G c []).
  Qed.

  Lemma clear_spec nt (pre c post : buf) : length c = Z.to_nat nt ->
    clear_h (Z.of_nat (length pre)) nt (pre ++ c ++ post) = Ok (pre ++ zeros nt ++ post).
  Proof.
    intros Hc. change (clear_h (Z.of_nat (length pre)) nt (pre ++ c ++ post)) with
      (fill (Z.of_nat (length pre)) nt (fun _ _ => #0) (pre ++ c ++ post)).
    rewrite fill_spec by exact Hc. f_equal. f_equal. f_equal. unfold zeros. rewrite <- Hc.
    assert (G : forall i, imap i (fun _ _ => #0) c = repeat (#0) (length c)); [|apply G].
    clear. induction c as [|x c IH]; intros i; [reflexivity|]. cbn [imap length repeat]. now rewrite IH.
  Qed.

  Lemma length_zeros nt : length (zeros (N:=N) nt) = Z.to_nat nt.
  Proof. apply repeat_length. Qed.

  (** ** The samples *)
  Definition circ_val (xo_i yo_i zo_i r_i dt delay v cp : N) (it : Z) : N :=
    let xo := xo_i / #1000 in let yo := yo_i / #1000 in let zo := zo_i / #1000 in let r := r_i / #1000 in
    let r_cyl := nsqrt (xo*xo + yo*yo) in
    circ_sir_at zo r r_cyl (nsqrt (zo*zo + (r - r_cyl)*(r - r_cyl))) (nsqrt (zo*zo + (r + r_cyl)*(r + r_cyl)))
      v cp (t_at dt delay it) (#0).
  Definition scirc_val (xo_i yo_i zo_i r_i dt delay v cp : N) (n : Z) (it : Z) : N :=
    let xo := xo_i / #1000 in let yo := yo_i / #1000 in let zo := zo_i / #1000 in let r := r_i / #1000 in
    let r_cyl := nsqrt (xo*xo + yo*yo) in
    scirc_sir_at zo r r_cyl (nsqrt (zo*zo + (r - r_cyl)*(r - r_cyl))) (nsqrt (zo*zo + (r + r_cyl)*(r + r_cyl)))
      v cp n (scirc_t1 dt delay it) (scirc_t2 dt delay it) (#0) / (dt / #1000000).

  Definition rect_corner (add : N -> N -> N -> N) (xo yo zo a b cp t : N) (p : N * N * N) (k : Z) (x : N) : N * N * N * N :=
    let p := sub_rect xo yo a b k p in
    let '(g, s, l) := p in (p, add x g (corner zo s l cp t)).
  Definition rect_at (add : N -> N -> N -> N) (xo yo zo a b cp t : N) : N :=
    let '(p, x) := rect_corner add xo yo zo a b cp t (#0, #0, #0) 1 (#0) in
    let '(p, x) := rect_corner add xo yo zo a b cp t p 2 x in
    let '(p, x) := rect_corner add xo yo zo a b cp t p 3 x in
    let '(p, x) := rect_corner add xo yo zo a b cp t p 4 x in x.
  Definition add_cpu (x g c : N) : N := x + g * c.
  Definition add_gpu (x g c : N) : N := if #0 <? c then x + g * c else x.
  Definition rect_val (add : N -> N -> N -> N) (xo_i yo_i zo_i a_i b_i dt delay cp : N) (it : Z) : N :=
    rect_at add (nabs xo_i / #1000) (nabs yo_i / #1000) (zo_i / #1000) (a_i / #1000) (b_i / #1000) cp (t_at dt delay it).

  Definition samples (nt : Z) (f : Z -> N) : buf := map (fun j => f (Z.of_nat j)) (seq 0 (Z.to_nat nt)).
  Lemma imap_samples nt f : imap 0 f (zeros nt) = samples nt (fun it => f it (#0)).
  Proof. unfold zeros, samples. exact (imap_zeros f (Z.to_nat nt) 0). Qed.
  Lemma length_samples nt f : length (samples nt f) = Z.to_nat nt.
  Proof. unfold samples. now rewrite map_length, seq_length. Qed.
  Lemma nth_samples nt f it : 0 <= it < nt -> nth_error (samples nt f) (Z.to_nat it) = Some (f it).
  Proof.
    intros H. unfold samples. rewrite nth_error_map, (nth_error_nth' _ 0%nat) by (rewrite seq_length; lia).
    rewrite seq_nth by lia. cbn. f_equal. f_equal. lia.
  Qed.

  Lemma circ_sir_spec xo yo zo r dt nt delay v cp (pre c post : buf) : length c = Z.to_nat nt ->
    circ_sir xo yo zo r dt nt delay v cp (Z.of_nat (length pre)) (pre ++ c ++ post) =
    Ok (pre ++ samples nt (circ_val xo yo zo r dt delay v cp) ++ post).
  Proof.
    intros Hc. unfold circ_sir. cbv zeta. rewrite clear_spec by exact Hc. cbn [bind].
    rewrite fill_spec by apply length_zeros. rewrite imap_samples. reflexivity.
  Qed.
  Lemma scirc_sir_spec xo yo zo r dt nt delay v cp n (pre c post : buf) : length c = Z.to_nat nt ->
    scirc_sir xo yo zo r dt nt delay v cp n (Z.of_nat (length pre)) (pre ++ c ++ post) =
    Ok (pre ++ samples nt (scirc_val xo yo zo r dt delay v cp n) ++ post).
  Proof.
    intros Hc. unfold scirc_sir. cbv zeta. rewrite clear_spec by exact Hc. cbn [bind].
    rewrite fill_spec by apply length_zeros. rewrite imap_samples. reflexivity.
  Qed.

  Lemma imap_ext f g c : (forall it x, f it x = g it x) -> forall i, imap i f c = imap i g c.
  Proof. intros E. induction c; intros; cbn; f_equal; auto. Qed.

  Lemma rect_loop_spec add (xo yo zo a b : N) dt nt delay cp (pre c post : buf) : length c = Z.to_nat nt ->
    (do H <- clear_h (Z.of_nat (length pre)) nt (pre ++ c ++ post);
     do r <- for_from 1 4 (fun k '(p, H) =>
      let p := sub_rect xo yo a b k p in
      let '(g_k, s_k, l_k) := p in
      do H <- fill (Z.of_nat (length pre)) nt (fun it x => add x g_k (corner zo s_k l_k cp (t_at dt delay it))) H;
      Ok (p, H)) ((#0, #0, #0), H);
     Ok (snd r)) =
    Ok (pre ++ samples nt (fun it => rect_at add xo yo zo a b cp (t_at dt delay it)) ++ post).
  Proof.
    intros Hc. rewrite clear_spec by exact Hc. cbn [bind].
    unfold rect_at, rect_corner. cbn [for_from]. cbv zeta.
    destruct (sub_rect xo yo a b 1 (#0, #0, #0)) as [[g1 s1] l1] eqn:E1.
    rewrite fill_spec by apply length_zeros. cbn [bind].
    destruct (sub_rect xo yo a b (1 + 1) (g1, s1, l1)) as [[g2 s2] l2] eqn:E2.
    rewrite fill_spec by (rewrite length_imap; apply length_zeros). cbn [bind].
    destruct (sub_rect xo yo a b (1 + 1 + 1) (g2, s2, l2)) as [[g3 s3] l3] eqn:E3.
    rewrite fill_spec by (rewrite !length_imap; apply length_zeros). cbn [bind].
    destruct (sub_rect xo yo a b (1 + 1 + 1 + 1) (g3, s3, l3)) as [[g4 s4] l4] eqn:E4.
    rewrite fill_spec by (rewrite !length_imap; apply length_zeros). cbn [bind snd].
    rewrite !imap_imap, imap_samples.
    do 3 f_equal. unfold samples. apply map_ext. intros j.
    change 2%Z with (1 + 1)%Z. rewrite E2. change 3%Z with (1 + 1 + 1)%Z. rewrite E3.
    change 4%Z with (1 + 1 + 1 + 1)%Z. rewrite E4. reflexivity.
  Qed.
  Lemma rect_sir_spec xo yo zo a b dt nt delay v cp (pre c post : buf) : length c = Z.to_nat nt ->
    rect_sir xo yo zo a b dt nt delay v cp (Z.of_nat (length pre)) (pre ++ c ++ post) =
    Ok (pre ++ samples nt (rect_val add_cpu xo yo zo a b dt delay cp) ++ post).
  Proof. intros Hc. exact (rect_loop_spec add_cpu _ _ _ _ _ dt nt delay cp pre c post Hc). Qed.
  Lemma rect_sir_cl_spec xo yo zo a b dt nt delay v cp (pre c post : buf) : length c = Z.to_nat nt ->
    rect_sir_cl xo yo zo a b dt nt delay v cp (Z.of_nat (length pre)) (pre ++ c ++ post) =
    Ok (pre ++ samples nt (rect_val add_gpu xo yo zo a b dt delay cp) ++ post).
  Proof. intros Hc. exact (rect_loop_spec add_gpu _ _ _ _ _ dt nt delay cp pre c post Hc). Qed.

  Definition ana_val (T : analytic N) (dt v cp xo yo zo delay : N) (it : Z) : N :=
    match T with
    | ACirc r => circ_val xo yo zo r dt delay v cp it
    | ASCirc r n => scirc_val xo yo zo r dt delay v cp n it
    | ARect a b => rect_val add_cpu xo yo zo a b dt delay cp it
    end.
  Lemma ana_serial_spec T dt nt v cp xo yo zo delay (pre c post : buf) : length c = Z.to_nat nt ->
    ana_serial T dt nt v cp xo yo zo delay (Z.of_nat (length pre)) (pre ++ c ++ post) =
    Ok (pre ++ samples nt (ana_val T dt v cp xo yo zo delay) ++ post).
  Proof.
    intros Hc. destruct T; cbn [ana_serial].
    - apply circ_sir_spec; auto.
    - apply scirc_sir_spec; auto.
    - apply rect_sir_spec; auto.
  Qed.

  (** ** The threaded call *)
  Definition sample_of (J : ajob N) (n it : Z) : N :=
    ana_val (a_T J) (a_dt J) (a_v J) (a_cp J) (obs_x J n) (obs_y J n) (obs_z J n) (obs_delay J n) it.

  Variable J : ajob N.
  Hypothesis W : wf_ajob J.
  Local Notation nt := (a_nt J).
  Local Notation No := (a_No J).

  Lemma get_nth (l : buf) k : 0 <= k < Z.of_nat (length l) -> buf_get l k = Ok (nth (Z.to_nat k) l (#0)).
  Proof.
    intros H.
    destruct (buf_get l k) as [x|u|] eqn:E.
    - now rewrite (buf_get_nth _ _ _ (#0) E).
    - exfalso. unfold buf_get in E. rewrite (proj2 (in_range_spec l k) H) in E.
      destruct (nth_error l (Z.to_nat k)) eqn:F; [discriminate|]. apply nth_error_None in F. lia.
    - exfalso. unfold buf_get in E. rewrite (proj2 (in_range_spec l k) H) in E.
      destruct (nth_error l (Z.to_nat k)); discriminate.
  Qed.

  Lemma ana_args n : 0 <= n < No ->
    buf_get (a_Ro J) n = Ok (obs_x J n) /\ buf_get (a_Ro J) (n + 1 * No)%Z = Ok (obs_y J n) /\
    buf_get (a_Ro J) (n + 2 * No)%Z = Ok (obs_z J n) /\
    (match a_delay_type J with delay_single => buf_get (a_delay J) 0 | delay_multiple => buf_get (a_delay J) n end)
      = Ok (obs_delay J n).
  Proof.
    intros Hn. destruct W as [W1 W2 W3 W4]. unfold obs_x, obs_y, obs_z, obs_delay.
    rewrite !get_nth by lia. replace (n + 1 * No)%Z with (n + No)%Z by lia.
    repeat split; auto. destruct (a_delay_type J); apply get_nth; lia.
  Qed.

  Lemma ana_pt n (H : buf) : 0 <= n < No -> length H = Z.to_nat (No * nt) ->
    ana_point J n H = rmap (fun s => (set_col nt n (fst s) H, snd s)) (Ok (samples nt (sample_of J n), err_none)).
  Proof.
    intros Hn HL. destruct (ana_args n Hn) as (Ex & Ey & Ez & Ed).
    unfold ana_point. rewrite Ex, Ey, Ez, Ed. cbn [bind rmap fst snd].
    rewrite (col_split nt n H) at 1.
    assert (Hp : Z.of_nat (length (firstn (Z.to_nat (n * nt)) H)) = (n * nt)%Z).
    { destruct W. rewrite firstn_length. assert (0 <= n * nt) by nia. assert (n * nt <= No * nt) by nia. lia. }
    rewrite <- Hp at 1. rewrite ana_serial_spec by (destruct W; apply (length_col nt n No); auto).
    reflexivity.
  Qed.
  Lemma ana_len n (c c' : buf) e : length c = Z.to_nat nt ->
    @Ok (buf * SIRError) (samples nt (sample_of J n), err_none) = Ok (c', e) -> length c' = Z.to_nat nt.
  Proof. intros _ [= <- _]. apply length_samples. Qed.

  Variables (nthreads : Z) (H0 : buf).
  Hypothesis Hth : 1 <= nthreads.
  Hypothesis HH0 : length H0 = Z.to_nat (No * nt).

  Definition colf (n : Z) (c : buf) : res st := Ok (samples nt (sample_of J n), err_none).

  Lemma ana_call_gcall sch : ana_call J nthreads sch H0 =
    rmap (fun r => match r with Some (H', _, b) => Some (H', b) | None => None end) (gcall No nthreads (ana_point J) H0 sch).
  Proof.
    unfold ana_call, gcall. destruct (gsteps (ana_point J) (init No nthreads H0) sch) as [s| |]; cbn [bind rmap]; auto.
    destruct (all_done s); reflexivity.
  Qed.

  Lemma ana_ok sch : exists r, ana_call J nthreads sch H0 = Ok r /\
    ((forall i, 0 <= i < nthreads ->
       3 * (part_stop i No nthreads - part_start i No nthreads) + 1 <= steps_of (Z.to_nat i) sch) -> r <> None).
  Proof.
    destruct (gcall_completes nt No nthreads (ana_point J) colf H0 (wa_nt J W) (wa_No J W) Hth HH0
                ana_pt ana_len sch) as (r & Er & Hr).
    { intros n Hn. unfold colf. eauto. }
    rewrite ana_call_gcall, Er. cbn [rmap]. eexists. split; [reflexivity|].
    intros Hf. specialize (Hr Hf). destruct r as [[[? ?] ?]|]; congruence.
  Qed.

  Lemma ana_gcall sch H' b : ana_call J nthreads sch H0 = Ok (Some (H', b)) ->
    exists e, gcall No nthreads (ana_point J) H0 sch = Ok (Some (H', e, b)).
  Proof.
    rewrite ana_call_gcall. destruct (gcall No nthreads (ana_point J) H0 sch) as [[[[h e] r]|]| |]; cbn [rmap]; try discriminate.
    intros [= <- <-]. eauto.
  Qed.

  Lemma ana_columns sch H' : ana_call J nthreads sch H0 = Ok (Some (H', true)) ->
    length H' = length H0 /\ forall n, 0 <= n < No -> col nt n H' = samples nt (sample_of J n).
  Proof.
    intros E. destruct (ana_gcall _ _ _ E) as (e & Eg).
    destruct (gcall_columns nt No nthreads (ana_point J) colf H0 (wa_nt J W) (wa_No J W) Hth HH0 ana_pt ana_len
                sch H' e Eg) as [L Hc].
    split; [exact L|]. intros n Hn. destruct (Hc n Hn) as (e' & Ec). unfold colf in Ec. congruence.
  Qed.

  Lemma ana_running sch H' b : existsb is_ctrlc sch = false ->
    ana_call J nthreads sch H0 = Ok (Some (H', b)) -> b = true.
  Proof.
    intros Hc E. destruct (ana_gcall _ _ _ E) as (e & Eg).
    apply (gcall_running nt No nthreads (ana_point J) colf H0 (wa_nt J W) (wa_No J W) Hth HH0 ana_pt ana_len sch H' e b Hc); auto.
    intros n c Hn. unfold colf. congruence.
  Qed.

  Lemma ana_partial sch H' b n : ana_call J nthreads sch H0 = Ok (Some (H', b)) -> 0 <= n < No ->
    length H' = length H0 /\ (col nt n H' = col nt n H0 \/ col nt n H' = samples nt (sample_of J n)).
  Proof.
    intros E Hn. destruct (ana_gcall _ _ _ E) as (e & Eg).
    apply gcall_inv in Eg as (s & Es & Er).
    destruct (all_done s); [|discriminate]. injection Er as -> _ _.
    destruct (gcall_prefix nt No nthreads (ana_point J) colf H0 (wa_nt J W) (wa_No J W) Hth HH0 ana_pt ana_len sch s Es) as [L Hc].
    split; [exact L|]. destruct (Hc n Hn) as [?|(e' & Ec)]; auto. right. unfold colf in Ec. congruence.
  Qed.

End AnaG.

(** ** The OpenCL rect_sir *)
Section RsGpu.
  Context {N : Num}.
  Local Notation buf := (list N).
  Variables (J : ajob N) (a b : N).
  Hypothesis W : wf_ajob J.
  Hypothesis HT : a_T J = ARect a b.
  Hypothesis Hd : a_delay_type J = delay_single.
  Local Notation nt := (a_nt J).
  Local Notation No := (a_No J).

  Definition gpu_sample (n it : Z) : N :=
    rect_val add_gpu (obs_x J n) (obs_y J n) (obs_z J n) a b (a_dt J) (obs_delay J n) (a_cp J) it.

  Lemma rs_item_col n (H : buf) : 0 <= n < No -> length H = Z.to_nat (No * nt) ->
    rs_item J n H = Ok (set_col nt n (samples nt (gpu_sample n)) H).
  Proof.
    intros Hn HL. destruct (ana_args J W n Hn) as (Ex & Ey & Ez & Ed). rewrite Hd in Ed.
    unfold rs_item. rewrite Ed, Ex. replace (n + No * 1)%Z with (n + 1 * No)%Z by lia. rewrite Ey.
    replace (n + No * 2)%Z with (n + 2 * No)%Z by lia. rewrite Ez. cbn [bind]. rewrite HT.
    replace (0 + nt * n)%Z with (n * nt)%Z by lia.
    rewrite (col_split nt n H) at 1.
    assert (Hp : Z.of_nat (length (firstn (Z.to_nat (n * nt)) H)) = (n * nt)%Z).
    { destruct W. rewrite firstn_length. assert (0 <= n * nt) by nia. assert (n * nt <= No * nt) by nia. lia. }
    rewrite <- Hp at 1. rewrite rect_sir_cl_spec by (destruct W; apply (length_col nt n No); auto).
    reflexivity.
  Qed.

  Lemma rs_items_cols items : (forall n, In n items -> 0 <= n < No) ->
    forall H, length H = Z.to_nat (No * nt) -> exists H', rs_items J items H = Ok H' /\
    length H' = length H /\
    (forall n, In n items -> col nt n H' = samples nt (gpu_sample n)) /\
    (forall n, 0 <= n < No -> ~ In n items -> col nt n H' = col nt n H).
  Proof.
    induction items as [|m items IH]; intros Hin H HL; cbn [rs_items].
    { eexists. split; [reflexivity|]. split; auto. split; [intros n []|auto]. }
    assert (Hm : 0 <= m < No) by (apply Hin; left; reflexivity).
    rewrite rs_item_col by auto. cbn [bind].
    pose proof (wa_nt J W) as Hnt. pose proof (length_samples nt (gpu_sample m)) as Lc.
    assert (HL1 : length (set_col nt m (samples nt (gpu_sample m)) H) = Z.to_nat (No * nt)) by (rewrite (length_set_col nt m No); auto).
    destruct (IH (fun n Hn => Hin n (or_intror Hn)) _ HL1) as (H' & E & A & B & C).
    exists H'. split; [exact E|].
    split; [rewrite A, HL1; auto|]. split.
    - intros n Hn. destruct (in_dec Z.eq_dec n items) as [I|NI]; [exact (B n I)|].
      destruct Hn as [<-|Hn]; [|contradiction]. rewrite (C m Hm NI).
      rewrite (col_set_same nt m No); auto.
    - intros n Hn Hni. rewrite (C n Hn) by (intros X; apply Hni; right; exact X).
      rewrite (col_set_other nt m n No); auto. intros ->. apply Hni. left. reflexivity.
  Qed.
End RsGpu.
