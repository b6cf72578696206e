(** ProofsFine3.v - the same for delay-and-sum and the convolutions. *)
From Verif Require Import Base BaseLemmas ModelSir ModelArr ModelSmp ModelDas ModelConv ModelFine SpecFine
  ProofsLocal ProofsSmp ProofsFine ProofsFine2.
From Coq Require Import ZifyBool ZifyNat.
Ltac Zify.zify_post_hook ::= Z.div_mod_to_equations.

Lemma upd_upd {A} (l : list A) : forall k f g, upd (upd l k f) k g = upd l k (fun x => g (f x)).
Proof. induction l as [|y t IH]; intros [|k] f g; cbn; auto. f_equal. apply IH. Qed.

Section Das.
  Context {N : Num} (K : idx_kind).
  Local Notation buf := (list N).
  Variables (base : Z) (h : buf).
  Hypothesis Hb : 0 <= base < Z.of_nat (length h).

  Local Notation ist := (N * SIRError)%type.
  Definition in_im (s : ist) : buf * SIRError := (upd h (Z.to_nat base) (fun _ => fst s), snd s).
  Local Notation sp := (split_ctl in_im in_im).

  Lemma x_das_put Y len off lvl arg (s : ist) :
    exec (p_das_put K Y len off lvl arg (snd (in_im s))) base (fst (in_im s)) = rmap sp (das_put K Y len off lvl arg s).
  Proof.
    destruct s as [im err]. unfold p_das_put, das_put. cbn [in_im fst snd]. rewrite exec_bind, exec_pure.
    destruct (to_idx K (ntrunc arg)) as [k|u|]; cbn [rmap bind fst snd]; try reflexivity.
    destruct ((k <? len) && (0 <=? k)).
    - rewrite exec_bind, exec_pure. destruct (buf_get Y (off + k)) as [y|u|]; cbn [rmap bind fst snd]; try reflexivity.
      rewrite exec_bind. unfold p_add. rewrite (exec_rmw base 0 (fun x => nadd x y)) by (rewrite length_upd; lia).
      rewrite Z.add_0_r, buf_upd_ok by (rewrite length_upd; lia). cbn [rmap bind fst snd exec split_ctl in_im].
      rewrite upd_upd. reflexivity.
    - destruct (SIRError_eqb _ _); reflexivity.
  Qed.

  Lemma x_start (p : prog N SIRError) r :
    exec p base (fst (in_im (nofZ 0, err_none))) = rmap in_im r ->
    exec (Write 0 (nofZ 0) p) base h = rmap in_im r.
  Proof. intros E. cbn [exec]. rewrite Z.add_0_r, buf_upd_ok by lia. exact E. Qed.

  Lemma x_loop m (b : Z -> SIRError -> prog N (ctl SIRError SIRError)) (f : Z -> ist -> res (ctl ist ist)) s :
    (forall j c, exec (b j (snd (in_im c))) base (fst (in_im c)) = rmap sp (f j c)) ->
    exec (pfor_ctl m b (snd (in_im s))) base (fst (in_im s)) = rmap sp (for_ctl m f s).
  Proof.
    intros H. apply (exec_pfor_ctl base in_im in_im b f (length h) m).
    - intros j c _. apply H.
    - cbn. apply length_upd.
  Qed.
  Lemma x_finish m (r : res (ctl ist ist)) s :
    exec m base (fst (in_im s)) = rmap sp r ->
    exec (pdo c <- m; p_finish c) base (fst (in_im s)) = rmap in_im (do c <- r; Ok (finish c)).
  Proof. intros E. rewrite exec_bind, E. destruct r as [[c|c]|u|]; reflexivity. Qed.

  Lemma x_saft Y len G num xo yo zo dt delay cp lvl :
    exec (p_das_saft K Y len G num xo yo zo dt delay cp lvl) base h = rmap in_im (das_saft_serial K Y len G num xo yo zo dt delay cp lvl).
  Proof.
    unfold p_das_saft, das_saft_serial. apply x_start. apply x_finish.
    apply (x_loop num _ _ (nofZ 0, err_none)). intros j c. rewrite exec_bind, exec_pure.
    destruct (elem_rel G num j xo yo zo) as [[[a b] d]|u|]; cbn [rmap bind fst snd]; try reflexivity. apply x_das_put.
  Qed.
  Lemma x_tfm Y len Gt nt Gr nr xo yo zo dt delay cp lvl :
    exec (p_das_tfm K Y len Gt nt Gr nr xo yo zo dt delay cp lvl) base h = rmap in_im (das_tfm_serial K Y len Gt nt Gr nr xo yo zo dt delay cp lvl).
  Proof.
    unfold p_das_tfm, das_tfm_serial. apply x_start. apply x_finish.
    apply (x_loop nt _ _ (nofZ 0, err_none)). intros j c. rewrite exec_bind, exec_pure.
    destruct (elem_rel Gt nt j xo yo zo) as [[[a b] d]|u|]; cbn [rmap bind fst snd]; try reflexivity.
    apply x_loop. intros i c'. rewrite exec_bind, exec_pure.
    destruct (elem_rel Gr nr i xo yo zo) as [[[a' b'] d']|u|]; cbn [rmap bind fst snd]; try reflexivity. apply x_das_put.
  Qed.
  Lemma x_coltx Y len Gc nc Gr nr xo yo zo dt delay cp lvl :
    exec (p_das_rca_coltx K Y len Gc nc Gr nr xo yo zo dt delay cp lvl) base h = rmap in_im (das_rca_serial_coltx K Y len Gc nc Gr nr xo yo zo dt delay cp lvl).
  Proof.
    unfold p_das_rca_coltx, das_rca_serial_coltx. apply x_start. rewrite exec_bind, exec_pure.
    destruct (rca_edges Gc nc Gr nr) as [[[[y0 y1] x0] x1]|u|]; cbn [rmap bind fst snd]; try reflexivity.
    change (upd h (Z.to_nat base) (fun _ => nofZ 0)) with (fst (in_im (nofZ 0, err_none))). apply x_finish.
    apply (x_loop nc _ _ (nofZ 0, err_none)). intros j c. rewrite exec_bind, exec_pure.
    destruct (col_travel _ _ _ _ _ _ _ _ _) as [t|u|]; cbn [rmap bind fst snd]; try reflexivity.
    apply x_loop. intros i c'. rewrite exec_bind, exec_pure.
    destruct (row_travel _ _ _ _ _ _ _ _ _) as [t'|u|]; cbn [rmap bind fst snd]; try reflexivity. apply x_das_put.
  Qed.
  Lemma x_rowtx Y len Gc nc Gr nr xo yo zo dt delay cp lvl :
    exec (p_das_rca_rowtx K Y len Gc nc Gr nr xo yo zo dt delay cp lvl) base h = rmap in_im (das_rca_serial_rowtx K Y len Gc nc Gr nr xo yo zo dt delay cp lvl).
  Proof.
    unfold p_das_rca_rowtx, das_rca_serial_rowtx. apply x_start. rewrite exec_bind, exec_pure.
    destruct (rca_edges Gc nc Gr nr) as [[[[y0 y1] x0] x1]|u|]; cbn [rmap bind fst snd]; try reflexivity.
    change (upd h (Z.to_nat base) (fun _ => nofZ 0)) with (fst (in_im (nofZ 0, err_none))). apply x_finish.
    apply (x_loop nr _ _ (nofZ 0, err_none)). intros j c. rewrite exec_bind, exec_pure.
    destruct (row_travel _ _ _ _ _ _ _ _ _) as [t|u|]; cbn [rmap bind fst snd]; try reflexivity.
    apply x_loop. intros i c'. rewrite exec_bind, exec_pure.
    destruct (col_travel _ _ _ _ _ _ _ _ _) as [t'|u|]; cbn [rmap bind fst snd]; try reflexivity. apply x_das_put.
  Qed.
End Das.

Section DasPoint.
  Context {N : Num} (K : idx_kind).
  Local Notation buf := (list N).
  Lemma x_das_point (J : das_job N) n (Im : buf) : 0 <= n < d_No J -> length Im = Z.to_nat (d_No J * 1) ->
    das_point K J n Im = exec (p_das_point K J n) (n * 1) Im.
  Proof.
    intros Hn HL. rewrite Z.mul_1_r in *. symmetry.
    assert (E : exec (p_das_point K J n) n Im = rmap (in_im n Im) (das_value K J n)).
    { unfold p_das_point, das_value.
      rewrite exec_bind, exec_pure. destruct (buf_get (d_Ro J) n) as [xo|u|]; cbn [rmap bind fst snd]; try reflexivity.
      rewrite exec_bind, exec_pure. destruct (buf_get (d_Ro J) (n + 1 * d_No J)) as [yo|u|]; cbn [rmap bind fst snd]; try reflexivity.
      rewrite exec_bind, exec_pure. destruct (buf_get (d_Ro J) (n + 2 * d_No J)) as [zo|u|]; cbn [rmap bind fst snd]; try reflexivity.
      rewrite exec_bind, exec_pure. destruct (match d_delay_type J with delay_single => _ | _ => _ end) as [d|u|]; cbn [rmap bind fst snd]; try reflexivity.
      destruct (das_method J); [apply x_saft|apply x_tfm|apply x_coltx|apply x_rowtx]; lia. }
    rewrite E. unfold das_point. destruct (das_value K J n) as [[im err]|u|]; cbn [rmap bind]; try reflexivity.
    rewrite buf_upd_ok by lia. reflexivity.
  Qed.
  Lemma in_das_put Y len off lvl (arg : N) err : inside 1 (p_das_put K Y len off lvl arg err).
  Proof.
    unfold p_das_put. apply inside_bind; [apply inside_pure|]. intros k. destruct ((k <? len) && (0 <=? k)).
    - apply inside_bind; [apply inside_pure|]. intros y. apply inside_bind; [cbn; split; [lia|intros _; split; [lia|exact I]]|]. intros a. exact I.
    - destruct (SIRError_eqb _ _); exact I.
  Qed.
  Lemma in_finish nt (p : prog N (ctl SIRError SIRError)) : inside nt p -> inside nt (pdo c <- p; p_finish c).
  Proof. intros H. apply inside_bind; [exact H|]. intros [e|e]; exact I. Qed.
  Ltac pin := apply inside_bind; [apply inside_pure|]; let a := fresh "a" in intros a; try destruct a as [[[? ?] ?] ?]; try destruct a as [[? ?] ?].
  Lemma in_das_point (J : das_job N) n : inside 1 (p_das_point K J n).
  Proof.
    unfold p_das_point. pin; pin; pin; pin. destruct (das_method J).
    - split; [lia|]. apply in_finish. apply inside_pfor_ctl. intros j s. pin. apply in_das_put.
    - split; [lia|]. apply in_finish. apply inside_pfor_ctl. intros j s. pin.
      apply inside_pfor_ctl. intros i s'. pin. apply in_das_put.
    - split; [lia|]. pin. apply in_finish. apply inside_pfor_ctl. intros j s. pin.
      apply inside_pfor_ctl. intros i s'. pin. apply in_das_put.
    - split; [lia|]. pin. apply in_finish. apply inside_pfor_ctl. intros j s. pin.
      apply inside_pfor_ctl. intros i s'. pin. apply in_das_put.
  Qed.
End DasPoint.

Section Conv.
  Context {N : Num}.
  Local Notation buf := (list N).
  Local Notation unit_of := (fun h : buf => (h, tt)).
  Variables (base : Z) (L : nat).

  Lemma x_conv x xo nx y yo ny mode h : 0 <= base -> base + (nx + ny - 1) <= Z.of_nat L -> length h = L ->
    exec (p_conv x xo nx y yo ny mode) base h = rmap unit_of (conv x xo nx y yo ny mode base h).
  Proof.
    intros Hb0 Hb1 HL. unfold p_conv, conv. rewrite exec_bind.
    set (z0 := match mode with
               | cm_equ => for_loop (nx + ny - 1) (fun i z => buf_upd z (base + i) (fun _ => nofZ 0)) h
               | _ => Ok h end).
    assert (E : exec (match mode with cm_equ => pfor (nx + ny - 1) (fun i _ => Write i (nofZ 0) (Done tt)) tt | _ => Done tt end) base h
                = rmap unit_of z0).
    { unfold z0. destruct mode; try reflexivity.
      apply (exec_pfor_tt base _ (fun i z => buf_upd z (base + i) (fun _ => nofZ 0)) L); [|exact HL].
      intros j h' _ _. apply exec_write. }
    rewrite E. destruct z0 as [h1|u|]; cbn [rmap bind fst snd] in *; try reflexivity.
    apply exec_len in E. rewrite HL in E.
    match goal with |- _ = rmap _ (for_loop nx ?f h1) => apply (exec_pfor_tt base _ f L) end; [|exact E].
    intros i h2 Hi HL2.
    match goal with |- _ = rmap _ (for_loop ny ?f h2) => apply (exec_pfor_tt base _ f L) end; [|exact HL2].
    intros j h3 Hj HL3. rewrite exec_bind, exec_pure.
    destruct (buf_get x (xo + i)) as [xi|u|]; cbn [rmap bind fst snd]; try reflexivity.
    rewrite exec_bind, exec_pure. destruct (buf_get y (yo + j)) as [yj|u|]; cbn [rmap bind fst snd]; try reflexivity.
    apply (exec_rmw base (i + j) (fun v => match mode with cm_neg => nsub v (nmul xi yj) | _ => nadd v (nmul xi yj) end)). lia.
  Qed.

  Lemma x_store mode len (c : buf) h : 0 <= base -> base + len <= Z.of_nat L -> length h = L ->
    exec (p_store mode len c) base h = rmap unit_of (store mode len c base h).
  Proof.
    intros Hb0 Hb1 HL. unfold p_store, store.
    match goal with |- _ = rmap _ (for_loop len ?f h) => apply (exec_pfor_tt base _ f L) end; [|exact HL].
    intros j h' Hj HL'. rewrite exec_bind, exec_pure.
    destruct (buf_get c j) as [cn|u|]; cbn [rmap bind fst snd]; try reflexivity.
    destruct mode.
    - apply exec_write.
    - apply (exec_rmw base j (fun v => nadd v cn)). lia.
    - apply (exec_rmw base j (fun v => nsub v cn)). lia.
  Qed.

  Lemma x_fftconv (p : fft_plan N) x xo nx y yo ny mode s h : 0 <= base -> base + (nx + ny - 1) <= Z.of_nat L -> length h = L ->
    exec (p_fftconv p x xo nx y yo ny mode s) base h = rmap (fun r => (snd r, tt)) (fftconv p x xo nx y yo ny mode base s h).
  Proof.
    intros Hb0 Hb1 HL. unfold p_fftconv, fftconv.
    rewrite exec_bind, exec_pure. destruct (copy_in x xo nx (s_a s)) as [a|u|]; cbn [rmap bind fst snd]; try reflexivity.
    rewrite exec_bind, exec_pure. destruct (zero_pad nx _ a) as [a'|u|]; cbn [rmap bind fst snd]; try reflexivity.
    rewrite exec_bind, exec_pure. destruct (copy_in y yo ny (s_b s)) as [b|u|]; cbn [rmap bind fst snd]; try reflexivity.
    rewrite exec_bind, exec_pure. destruct (zero_pad ny _ b) as [b'|u|]; cbn [rmap bind fst snd]; try reflexivity.
    rewrite exec_bind, exec_pure. destruct (fft p a' (s_af s)) as [af|u|]; cbn [rmap bind fst snd]; try reflexivity.
    rewrite exec_bind, exec_pure. destruct (fft p b' (s_bf s)) as [bf|u|]; cbn [rmap bind fst snd]; try reflexivity.
    rewrite exec_bind, exec_pure. destruct (for_loop _ _ (s_cf s)) as [cf|u|]; cbn [rmap bind fst snd]; try reflexivity.
    rewrite exec_bind, exec_pure. destruct (ifft p cf (s_c s)) as [[cf' c]|u|]; cbn [rmap bind fst snd]; try reflexivity.
    rewrite x_store by auto. destruct (store _ _ _ _ _); reflexivity.
  Qed.
End Conv.

Section ConvPoint.
  Context {N : Num}.
  Local Notation buf := (list N).
  Lemma x_conv_point (M : mats N) mode n (Y : buf) No : 0 <= m_AM M + m_BM M - 1 -> 0 <= n < No ->
    length Y = Z.to_nat (No * (m_AM M + m_BM M - 1)) ->
    conv_point M mode n Y = exec (p_conv_point M mode n) (n * (m_AM M + m_BM M - 1)) Y.
  Proof.
    intros Hl Hn HL. unfold conv_point, p_conv_point. symmetry. rewrite exec_bind.
    destruct (1 <? m_BN M); rewrite (x_conv _ (length Y)) by (auto; nia); destruct (conv _ _ _ _ _ _ _ _ _); reflexivity.
  Qed.
  Lemma x_fftconv_point p (M : mats N) mode scr n (Y : buf) No : 0 <= m_AM M + m_BM M - 1 -> 0 <= n < No ->
    length Y = Z.to_nat (No * (m_AM M + m_BM M - 1)) ->
    fftconv_point p M mode scr n Y = exec (p_fftconv_point p M mode scr n) (n * (m_AM M + m_BM M - 1)) Y.
  Proof.
    intros Hl Hn HL. unfold fftconv_point, p_fftconv_point. symmetry. rewrite exec_bind.
    destruct (1 <? m_BN M); rewrite (x_fftconv _ (length Y)) by (auto; nia); destruct (fftconv _ _ _ _ _ _ _ _ _ _ _); reflexivity.
  Qed.
  Lemma in_conv x xo nx (y : buf) yo ny mode : inside (nx + ny - 1) (p_conv x xo nx y yo ny mode).
  Proof.
    unfold p_conv. apply inside_bind.
    - destruct mode; try exact I. apply inside_pfor. intros j s Hj. cbn. lia.
    - intros _. apply inside_pfor. intros i s Hi. apply inside_pfor. intros j s' Hj.
      apply inside_bind; [apply inside_pure|]. intros a. apply inside_bind; [apply inside_pure|]. intros b.
      cbn [inside]. split; [lia|]. intros v. split; [lia|exact I].
  Qed.
  Lemma in_conv_point (M : mats N) mode n : inside (m_AM M + m_BM M - 1) (p_conv_point M mode n).
  Proof. unfold p_conv_point. apply inside_bind; [destruct (1 <? m_BN M); apply in_conv|]. intros a. exact I. Qed.
  Lemma in_fftconv (p : fft_plan N) x xo nx y yo ny mode s : inside (nx + ny - 1) (p_fftconv p x xo nx y yo ny mode s).
  Proof.
    unfold p_fftconv. do 7 (apply inside_bind; [apply inside_pure|]; intros ?).
    apply inside_bind; [apply inside_pure|]. intros [cf c]. unfold p_store. apply inside_pfor. intros j u Hj.
    apply inside_bind; [apply inside_pure|]. intros cn. destruct mode; cbn [inside p_add]; repeat split; lia || auto.
  Qed.
  Lemma in_fftconv_point p (M : mats N) mode scr n : inside (m_AM M + m_BM M - 1) (p_fftconv_point p M mode scr n).
  Proof. unfold p_fftconv_point. apply inside_bind; [destruct (1 <? m_BN M); apply in_fftconv|]. intros a. exact I. Qed.
End ConvPoint.
