(** ProofsFine4.v - the programs of ModelFine2 compute what the functions of
    the model compute and stay inside their column. *)
From Verif Require Import Base BaseLemmas ModelSir ModelArr ModelSmp ModelDas ModelConv ModelAna ModelFine ModelFine2 SpecFine
  ProofsLocal ProofsLocalArr ProofsSmp ProofsCall ProofsFine ProofsFine2 ProofsFine3.
From Coq Require Import ZifyBool ZifyNat.
Ltac Zify.zify_post_hook ::= Z.div_mod_to_equations.

Ltac xpure e := rewrite exec_bind, exec_pure; destruct e eqn:?; cbn [rmap bind fst snd]; try reflexivity.

Section Ana.
  Context {N : Num}.
  Local Notation buf := (list N).
  Local Notation unit_of := (fun h : buf => (h, tt)).
  Variables (nt base : Z) (L : nat).
  Hypothesis Hnt : 0 <= nt.
  Hypothesis Hb0 : 0 <= base.
  Hypothesis Hb1 : base + nt <= Z.of_nat L.

  Lemma x_fill f h : length h = L -> exec (p_fill nt f) base h = rmap unit_of (fill base nt f h).
  Proof.
    intros HL. unfold p_fill, fill.
    apply (exec_pfor_tt base _ (fun it H => buf_upd H (base + it) (f it)) L); [|exact HL].
    intros j h' Hj HL'. apply (exec_rmw base j (f j)). lia.
  Qed.
  Lemma exec_len_eq {A} (p : prog N A) h h' a : exec p base h = Ok (h', a) -> length h = L -> length h' = L.
  Proof. intros E HL. apply exec_len in E. congruence. Qed.
  Lemma clear_len (h h' : buf) : length h = L -> clear_h base nt h = Ok h' -> length h' = L.
  Proof.
    intros HL E. pose proof (x_clear nt base L h HL) as X. rewrite E in X. cbn [rmap] in X.
    exact (exec_len_eq _ _ _ _ X HL).
  Qed.
  Lemma fill_len f (h h' : buf) : length h = L -> fill base nt f h = Ok h' -> length h' = L.
  Proof.
    intros HL E. pose proof (x_fill f h HL) as X. rewrite E in X. cbn [rmap] in X.
    exact (exec_len_eq _ _ _ _ X HL).
  Qed.

  Lemma x_ana_serial T dt v cp xo yo zo delay h : length h = L ->
    exec (p_ana_serial T dt nt v cp xo yo zo delay) base h = rmap unit_of (ana_serial T dt nt v cp xo yo zo delay base h).
  Proof.
    intros HL. destruct T as [r|r il|a b]; cbn [p_ana_serial ana_serial].
    - unfold p_circ_sir, circ_sir. rewrite exec_bind, (x_clear nt base L) by auto.
      destruct (clear_h base nt h) as [h1|u|] eqn:E; cbn [rmap bind fst snd]; try reflexivity.
      apply x_fill. exact (clear_len h h1 HL E).
    - unfold p_scirc_sir, scirc_sir. rewrite exec_bind, (x_clear nt base L) by auto.
      destruct (clear_h base nt h) as [h1|u|] eqn:E; cbn [rmap bind fst snd]; try reflexivity.
      apply x_fill. exact (clear_len h h1 HL E).
    - unfold p_rect_sir, rect_sir. rewrite exec_bind, (x_clear nt base L) by auto.
      destruct (clear_h base nt h) as [h1|u|] eqn:E; cbn [rmap bind fst snd]; try reflexivity.
      pose proof (clear_len h h1 HL E) as HL1. clear E HL h.
      rewrite exec_bind.
      match goal with |- context [pfor_from 1 4 ?body ?s0] =>
        match goal with |- context [for_from 1 4 ?f _] =>
          assert (G : forall n i s h, length h = L ->
             exec (pfor_from i n body s) base h = rmap (fun r => (snd r, fst r)) (for_from i n f (s, h))) end end.
      { induction n as [|n IH]; intros i s h HL; cbn [pfor_from for_from]; [reflexivity|].
        rewrite exec_bind. destruct (sub_rect _ _ _ _ i s) as [[g sk] lk].
        rewrite exec_bind, x_fill by exact HL.
        destruct (fill base nt _ h) as [h2|u|] eqn:E; cbn [rmap bind fst snd exec]; try reflexivity.
        apply IH. exact (fill_len _ h h2 HL E). }
      rewrite (G 4%nat) by exact HL1. destruct (for_from 1 4 _ _) as [[p h2]|u|]; reflexivity.
  Qed.
End Ana.

Section AnaPoint.
  Context {N : Num}.
  Local Notation buf := (list N).
  Lemma x_ana_point (J : ajob N) n (H : buf) : 0 <= a_nt J -> 0 <= n < a_No J -> length H = Z.to_nat (a_No J * a_nt J) ->
    ana_point J n H = exec (p_ana_point J n) (n * a_nt J) H.
  Proof.
    intros Hnt Hn HL. unfold ana_point, p_ana_point. symmetry.
    rewrite exec_bind, exec_pure. destruct (buf_get (a_Ro J) n) as [xo|u|]; cbn [rmap bind fst snd]; try reflexivity.
    rewrite exec_bind, exec_pure. destruct (buf_get (a_Ro J) (n + 1 * a_No J)) as [yo|u|]; cbn [rmap bind fst snd]; try reflexivity.
    rewrite exec_bind, exec_pure. destruct (buf_get (a_Ro J) (n + 2 * a_No J)) as [zo|u|]; cbn [rmap bind fst snd]; try reflexivity.
    rewrite exec_bind, exec_pure.
    destruct (match a_delay_type J with delay_single => buf_get (a_delay J) 0 | delay_multiple => buf_get (a_delay J) n end)
      as [d|u|]; cbn [rmap bind fst snd]; try reflexivity.
    rewrite exec_bind, (x_ana_serial _ _ (length H)) by (auto; nia).
    destruct (ana_serial _ _ _ _ _ _ _ _ _ _ _); reflexivity.
  Qed.
  Lemma in_clear nt : inside nt (p_clear (N:=N) nt).
  Proof. apply inside_pfor. intros j s Hj. cbn. lia. Qed.
  Lemma in_fill nt (f : Z -> N -> N) : inside nt (p_fill nt f).
  Proof. apply inside_pfor. intros j s Hj. cbn [inside]. split; [lia|]. intros x. cbn. lia. Qed.
  Lemma in_ana_point (J : ajob N) n : inside (a_nt J) (p_ana_point J n).
  Proof.
    unfold p_ana_point. do 4 (apply inside_bind; [apply inside_pure|]; intros ?).
    apply inside_bind; [|intros _; exact I].
    destruct (a_T J); cbn [p_ana_serial]; unfold p_circ_sir, p_scirc_sir, p_rect_sir;
      (apply inside_bind; [apply in_clear|intros _]); try apply in_fill.
    apply inside_bind; [|intros _; exact I].
    generalize 4%nat 1 (nofZ (n:=N) 0, nofZ (n:=N) 0, nofZ (n:=N) 0). induction n0 as [|m IH]; intros i s; cbn [pfor_from]; [exact I|].
    apply inside_bind; [|intros s'; apply IH]. destruct (sub_rect _ _ _ _ i s) as [[g sk] lk].
    apply inside_bind; [apply in_fill|intros _; exact I].
  Qed.
End AnaPoint.

Section SumPoint.
  Context {N : Num}.
  Local Notation buf := (list N).
  Lemma x_sum_fftconv_point p (H : list buf) L H_M U U_M mode scr n (Y : buf) No : 0 <= H_M + U_M - 1 -> 0 <= n < No ->
    length Y = Z.to_nat (No * (H_M + U_M - 1)) ->
    sum_fftconv_point p H L H_M U U_M mode scr n Y = exec (p_sum_fftconv_point p H L H_M U U_M mode scr n) (n * (H_M + U_M - 1)) Y.
  Proof.
    intros Hl Hn HL. unfold sum_fftconv_point, p_sum_fftconv_point. symmetry. rewrite exec_bind.
    unfold p_add_fftconv, add_fftconv. rewrite exec_bind, exec_pure.
    destruct (for_loop _ _ (s_cf (scr n))) as [cf|u|]; cbn [rmap bind fst snd]; try reflexivity.
    rewrite exec_bind, exec_pure.
    match goal with |- context [rmap _ (for_loop L ?f ?s)] => destruct (for_loop L f s) as [s1|u|] end;
      cbn [rmap bind fst snd]; try reflexivity.
    rewrite exec_bind, exec_pure.
    destruct (ifft p (s_cf s1) (s_c s1)) as [[cf' c]|u|]; cbn [rmap bind fst snd]; try reflexivity.
    rewrite (x_store _ (length Y)) by (auto; nia). destruct (store _ _ _ _ _); reflexivity.
  Qed.
  Lemma in_store mode len (c : buf) : inside len (p_store mode len c).
  Proof.
    apply inside_pfor. intros j u Hj. apply inside_bind; [apply inside_pure|]. intros cn.
    destruct mode; cbn [inside p_add]; repeat split; lia || auto.
  Qed.
  Lemma in_sum_fftconv_point p (H : list buf) L H_M U U_M mode scr n :
    inside (H_M + U_M - 1) (p_sum_fftconv_point p H L H_M U U_M mode scr n).
  Proof.
    unfold p_sum_fftconv_point. apply inside_bind; [|intros _; exact I]. unfold p_add_fftconv.
    do 2 (apply inside_bind; [apply inside_pure|]; intros ?). apply inside_bind; [apply inside_pure|]. intros [cf c].
    apply in_store.
  Qed.
End SumPoint.

Section Post.
  Context {V : Type}.
  (** Every value the program can return satisfies Q. *)
  Fixpoint post {A} (Q : A -> Prop) (p : prog V A) : Prop :=
    match p with
    | Done a => Q a
    | Fail _ | Spin => True
    | Read _ k => forall x, post Q (k x)
    | Write _ _ k => post Q k
    end.
  Lemma post_bind {A B} (Q : A -> Prop) (R : B -> Prop) (p : prog V A) (f : A -> prog V B) :
    post Q p -> (forall a, Q a -> post R (f a)) -> post R (pbind p f).
  Proof. intros Hp Hf. induction p as [a|u| |i k IH|i v k IH]; cbn [pbind post] in *; auto. Qed.
  Lemma post_true {A} (p : prog V A) : post (fun _ => True) p.
  Proof. induction p; cbn [post]; auto. Qed.
  Lemma inside_bind_post {A B} n (Q : A -> Prop) (p : prog V A) (f : A -> prog V B) :
    inside n p -> post Q p -> (forall a, Q a -> inside n (f a)) -> inside n (pbind p f).
  Proof.
    intros Hp HQ Hf. induction p as [a|u| |i k IH|i v k IH]; cbn [pbind inside post] in *; auto.
    - destruct Hp as [Hi Hk]. split; auto.
    - destruct Hp as [Hi Hk]. split; auto.
  Qed.
End Post.

Section Ola.
  Context {N : Num}.
  Local Notation buf := (list N).
  Variables (fuel : nat) (p : fft_plan N) (M : mats N) (block_len : Z) (mode : ConvMode).
  Hypothesis Hbl : 0 <= block_len.
  Let AM := m_AM M.
  Let BM := m_BM M.
  Let W := AM + BM - 1.

  Lemma in_ola_block bo n k ap s y ab : 0 <= k -> inside W (p_ola_block p M block_len bo mode n (k, ap, s, y, ab)).
  Proof.
    intros Hk. unfold p_ola_block. apply inside_bind; [apply inside_pure|]. intros [[[scr y'] ab'] len].
    apply inside_bind; [|intros _; exact I]. apply inside_pfor. intros j u Hj.
    apply inside_bind; [apply inside_pure|]. intros yl. unfold p_add. cbn [inside].
    assert (0 <= k + j < W).
    { unfold W, AM, BM. destruct (k + (block_len + m_BM M - 1) <? m_AM M + m_BM M - 1) eqn:E; lia. }
    repeat split; lia.
  Qed.
  Lemma post_ola_block bo n k ap s y ab : 0 <= k ->
    post (fun st => 0 <= fst (fst (fst (fst st)))) (p_ola_block p M block_len bo mode n (k, ap, s, y, ab)).
  Proof.
    intros Hk. unfold p_ola_block. eapply post_bind; [apply post_true|]. intros [[[scr y'] ab'] len] _.
    eapply post_bind; [apply post_true|]. intros _ _. cbn. lia.
  Qed.
  Lemma in_ola_point cs loc n : inside W (p_ola_point fuel p M block_len mode cs loc n).
  Proof.
    unfold p_ola_point. destruct (loc n) as [[s y] ab]. apply inside_bind; [|intros _; exact I].
    set (bo := if _ <? _ then _ else _).
    assert (G : forall f k ap s y ab, 0 <= k ->
      inside W (pwhile (A := unit) f (fun '(k, _, _, _, _) => (k <? m_AM M)%Z)
        (fun st => pbind (p_ola_block p M block_len bo mode n st) (fun st' => Done (Go st'))) (k, ap, s, y, ab))); [|apply G; lia].
    clear s y ab. induction f as [|f IH]; intros k ap s y ab Hk; cbn [pwhile]; destruct (k <? m_AM M); try exact I.
    apply (inside_bind_post W (fun c => match c with Go st => 0 <= fst (fst (fst (fst st))) | Ret _ => True end)).
    - apply inside_bind; [apply in_ola_block; exact Hk|intros ?; exact I].
    - eapply post_bind; [apply post_ola_block; exact Hk|]. intros st Hst. exact Hst.
    - intros [[[[[k' ap'] s'] y'] ab']|a] Hst; [|exact I]. apply IH. exact Hst.
  Qed.

  Definition ola_hs (s : @ola_st N) : buf * (Z * Z * scratch N * buf * buf) :=
    (o_Y s, (o_k s, o_ap s, o_s s, o_y s, o_ab s)).

  Lemma x_ola_block bo n L s : 0 <= n * W -> n * W + W <= Z.of_nat L -> 0 <= o_k s -> length (o_Y s) = L ->
    exec (p_ola_block p M block_len bo mode n (snd (ola_hs s))) (n * W) (o_Y s)
    = rmap (fun s' => (o_Y s', snd (ola_hs s'))) (ola_block p M block_len bo mode n s).
  Proof.
    intros Hb0 Hb1 Hk HL. unfold p_ola_block, ola_block. cbn [ola_hs snd].
    rewrite exec_bind, exec_pure.
    match goal with |- context [rmap _ ?e] => destruct e as [[[[scr y] ab] len]|u|] end; cbn [rmap bind fst snd]; try reflexivity.
    set (count := if _ <? _ then _ else _).
    assert (Hc : o_k s + count <= W).
    { unfold count, W, AM, BM. destruct (o_k s + (block_len + m_BM M - 1) <? m_AM M + m_BM M - 1) eqn:E; lia. }
    rewrite exec_bind.
    rewrite (exec_pfor_tt (n * W) _ (fun l Y => do yl <- buf_get y l;
       buf_upd Y (o_k s + l + n * (m_AM M + m_BM M - 1)) (fun v => nadd v yl)) L).
    - destruct (for_loop count _ (o_Y s)); reflexivity.
    - intros j h Hj HL'. rewrite exec_bind, exec_pure.
      destruct (buf_get y j) as [yl|u|]; cbn [rmap bind fst snd]; try reflexivity.
      replace (o_k s + j + n * (m_AM M + m_BM M - 1)) with (n * W + (o_k s + j)) by (unfold W, AM, BM; lia).
      apply (exec_rmw (n * W) (o_k s + j) (fun v => nadd v yl)). lia.
    - exact HL.
  Qed.
  Lemma ola_block_k bo n s s' : 0 <= o_k s -> ola_block p M block_len bo mode n s = Ok s' -> 0 <= o_k s'.
  Proof.
    intros Hk E. unfold ola_block in E. apply bind_Ok_inv in E as ([[[scr y] ab] len] & _ & E).
    apply bind_Ok_inv in E as (Y & _ & E). injection E as <-. cbn [o_k]. lia.
  Qed.
  Lemma x_ola_point cs loc n Y No : 0 <= W -> 0 <= n < No -> length Y = Z.to_nat (No * W) ->
    ola_point fuel p M block_len mode cs loc n Y = exec (p_ola_point fuel p M block_len mode cs loc n) (n * W) Y.
  Proof.
    intros Hl Hn HL. unfold ola_point, p_ola_point. destruct (loc n) as [[s y] ab]. unfold ola_column.
    assert (B0 : 0 <= n * W) by nia. assert (B1 : n * W + W <= Z.of_nat (length Y)) by nia.
    symmetry. rewrite exec_bind. set (bo := if _ <? _ then _ else _).
    set (s0 := {| o_k := 0; o_ap := ola_ap M (cs n) n; o_s := s; o_y := y; o_ab := ab; o_Y := Y |}).
    assert (G : forall f st, 0 <= o_k st -> length (o_Y st) = length Y ->
      exec (pwhile (A := unit) f (fun '(k, _, _, _, _) => (k <? m_AM M)%Z)
              (fun st => pbind (p_ola_block p M block_len bo mode n st) (fun st' => Done (Go st'))) (snd (ola_hs st))) (n * W) (o_Y st)
      = rmap (fun c => match c with Go s' => (o_Y s', Go (snd (ola_hs s'))) | Ret _ => ([], Ret tt) end)
          (while (A := @ola_st N) f (fun s => (o_k s <? m_AM M)%Z) (fun s => do s' <- ola_block p M block_len bo mode n s; Ok (Go s')) st)).
    { induction f as [|f IH]; intros st Hk HL'; cbn [pwhile while ola_hs snd]; destruct (o_k st <? m_AM M); try reflexivity.
      rewrite !exec_bind. fold (snd (ola_hs st)). change (o_k st, o_ap st, o_s st, o_y st, o_ab st) with (snd (ola_hs st)).
      pose proof (x_ola_block bo n (length Y) st B0 B1 Hk HL') as X. rewrite X.
      destruct (ola_block p M block_len bo mode n st) as [s'|u|] eqn:E; cbn [rmap bind fst snd exec] in *; try reflexivity.
      apply IH.
      - exact (ola_block_k bo n st s' Hk E).
      - apply exec_len in X. congruence. }
    pose proof (G fuel s0 ltac:(cbn; lia) eq_refl) as G'. cbn [ola_hs s0 snd o_k o_ap o_s o_y o_ab o_Y] in G'.
    rewrite G'. clear G G'.
    assert (R : forall f st a, while (A := @ola_st N) f (fun s => (o_k s <? m_AM M)%Z) (fun s => do s' <- ola_block p M block_len bo mode n s; Ok (Go s')) st <> Ok (Ret a)).
    { induction f as [|f IH]; intros st a; cbn [while]; destruct (o_k st <? m_AM M); try discriminate.
      destruct (ola_block p M block_len bo mode n st); cbn [bind]; try discriminate. apply IH. }
    pose proof (R fuel s0) as R'.
    destruct (while fuel _ _ _) as [[s'|a]|u|]; cbn [rmap bind fst snd exec]; try reflexivity.
    exfalso. exact (R' a eq_refl).
  Qed.
End Ola.
