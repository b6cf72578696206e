(** ProofsFine2.v - the access programs of ModelFine compute what the functions
    of the model compute, and stay inside their column. *)
From Verif Require Import Base BaseLemmas ModelSir ModelArr ModelSmp ModelDas ModelConv ModelFine SpecFine
  ProofsLocal ProofsLocalArr ProofsSmp ProofsCall ProofsFine.
From Coq Require Import ZifyBool ZifyNat.
Ltac Zify.zify_post_hook ::= Z.div_mod_to_equations.

Lemma upd_const {A} (l : list A) : forall k x f, nth_error l k = Some x -> upd l k (fun _ => f x) = upd l k f.
Proof. induction l as [|y t IH]; intros [|k] x f E; cbn in *; try discriminate; [injection E as ->; reflexivity|f_equal; auto]. Qed.

Section Loops.
  Context {V : Type} (base : Z).

  Lemma exec_rmw i (f : V -> V) h : 0 <= base + i < Z.of_nat (length h) ->
    exec (Read i (fun x => Write i (f x) (Done tt))) base h = rmap (fun h => (h, tt)) (buf_upd h (base + i) f).
  Proof.
    intros Hi. cbn [exec]. destruct (buf_get_ok h (base + i) Hi) as (x & Ex & ->). cbn [bind].
    rewrite !buf_upd_ok by exact Hi. cbn [bind rmap]. rewrite (upd_const h _ x f Ex). reflexivity.
  Qed.
  Lemma exec_write i (v : V) h : exec (Write i v (Done tt)) base h = rmap (fun h => (h, tt)) (buf_upd h (base + i) (fun _ => v)).
  Proof. cbn [exec]. destruct (buf_upd _ _ _); reflexivity. Qed.

  Lemma exec_pfor {S} (body : Z -> S -> prog V S) (f : Z -> list V * S -> res (list V * S)) L m :
    (forall j s h, 0 <= j < m -> length h = L -> exec (body j s) base h = f j (h, s)) ->
    forall s h, length h = L -> exec (pfor m body s) base h = for_loop m f (h, s).
  Proof.
    intros Hb. unfold pfor, for_loop.
    assert (G : forall n i s h, 0 <= i -> i + Z.of_nat n <= m -> length h = L ->
              exec (pfor_from i n body s) base h = for_from i n f (h, s)).
    { induction n as [|n IH]; intros i s h Hi Hn HL; cbn [pfor_from for_from]; [reflexivity|].
      rewrite exec_bind, Hb by (auto; lia).
      destruct (f i (h, s)) as [[h' s']|u|] eqn:E; cbn [bind fst snd]; try reflexivity.
      apply IH; try lia. rewrite <- Hb in E by (auto; lia). apply exec_len in E. congruence. }
    intros s h HL. destruct (Z_le_gt_dec 0 m).
    - apply G; auto; lia.
    - replace (Z.to_nat m) with O by lia. reflexivity.
  Qed.
  Lemma exec_pfor_tt (body : Z -> unit -> prog V unit) (f : Z -> list V -> res (list V)) L m :
    (forall j h, 0 <= j < m -> length h = L -> exec (body j tt) base h = rmap (fun h => (h, tt)) (f j h)) ->
    forall h, length h = L -> exec (pfor m body tt) base h = rmap (fun h => (h, tt)) (for_loop m f h).
  Proof.
    intros Hb. unfold pfor, for_loop.
    assert (G : forall n i h, 0 <= i -> i + Z.of_nat n <= m -> length h = L ->
              exec (pfor_from i n body tt) base h = rmap (fun h => (h, tt)) (for_from i n f h)).
    { induction n as [|n IH]; intros i h Hi Hn HL; cbn [pfor_from for_from]; [reflexivity|].
      rewrite exec_bind, Hb by (auto; lia).
      destruct (f i h) as [h'|u|] eqn:E; cbn [bind rmap fst snd]; try reflexivity.
      apply IH; try lia. pose proof (Hb i h ltac:(lia) HL) as E2. rewrite E in E2. apply exec_len in E2. congruence. }
    intros h HL. destruct (Z_le_gt_dec 0 m).
    - apply G; auto; lia.
    - replace (Z.to_nat m) with O by lia. reflexivity.
  Qed.

  (** Loops with early return; [hs] splits the model's state into array and rest. *)
  Section Split.
    Context {S S' A A' : Type} (hs : S' -> list V * S) (ha : A' -> list V * A).
    Definition split_ctl (c : ctl S' A') : list V * ctl S A :=
      match c with Go c => (fst (hs c), Go (snd (hs c))) | Ret a => (fst (ha a), Ret (snd (ha a))) end.

    Lemma exec_pwhile (cond : S -> bool) (cond' : S' -> bool) (body : S -> prog V (ctl S A)) (f : S' -> res (ctl S' A')) L :
      (forall c, cond' c = cond (snd (hs c))) ->
      (forall c, length (fst (hs c)) = L -> exec (body (snd (hs c))) base (fst (hs c)) = rmap split_ctl (f c)) ->
      forall fuel c, length (fst (hs c)) = L ->
        exec (pwhile fuel cond body (snd (hs c))) base (fst (hs c)) = rmap split_ctl (while fuel cond' f c).
    Proof.
      intros Hc Hb. induction fuel as [|fuel IH]; intros c HL; cbn [pwhile while]; rewrite Hc;
        destruct (cond (snd (hs c))); try reflexivity.
      rewrite exec_bind, Hb by exact HL.
      destruct (f c) as [[c'|a]|u|] eqn:E; cbn [bind rmap split_ctl fst snd]; try reflexivity.
      apply IH. pose proof (Hb c HL) as E2. rewrite E in E2. cbn [rmap split_ctl] in E2.
      apply exec_len in E2. congruence.
    Qed.
    Lemma exec_pfor_ctl (body : Z -> S -> prog V (ctl S A)) (f : Z -> S' -> res (ctl S' A')) L m :
      (forall j c, length (fst (hs c)) = L -> exec (body j (snd (hs c))) base (fst (hs c)) = rmap split_ctl (f j c)) ->
      forall c, length (fst (hs c)) = L ->
        exec (pfor_ctl m body (snd (hs c))) base (fst (hs c)) = rmap split_ctl (for_ctl m f c).
    Proof.
      intros Hb. unfold pfor_ctl, for_ctl. intros c HL. generalize 0 as i. revert c HL.
      induction (Z.to_nat m) as [|n IH]; intros c HL i; cbn [pfor_ctl_from for_ctl_from]; [reflexivity|].
      rewrite exec_bind, Hb by exact HL.
      destruct (f i c) as [[c'|a]|u|] eqn:E; cbn [bind rmap split_ctl fst snd]; try reflexivity.
      apply IH. pose proof (Hb i c HL) as E2. rewrite E in E2. cbn [rmap split_ctl] in E2.
      apply exec_len in E2. congruence.
    Qed.
  End Split.
End Loops.

Section Inside.
  Context {V : Type} (n : Z).
  Lemma inside_pfor {S} (body : Z -> S -> prog V S) m :
    (forall j s, 0 <= j < m -> inside n (body j s)) -> forall s, inside n (pfor m body s).
  Proof.
    intros Hb. unfold pfor.
    assert (G : forall k i s, 0 <= i -> i + Z.of_nat k <= m -> inside n (pfor_from i k body s)).
    { induction k as [|k IH]; intros i s Hi Hk; cbn [pfor_from]; [exact I|].
      apply inside_bind; [apply Hb; lia|]. intros a. apply IH; lia. }
    intros s. destruct (Z_le_gt_dec 0 m); [apply G; lia|]. replace (Z.to_nat m) with O by lia. exact I.
  Qed.
  Lemma inside_pwhile {S A} cond (body : S -> prog V (ctl S A)) :
    (forall s, inside n (body s)) -> forall fuel s, inside n (pwhile fuel cond body s).
  Proof.
    intros Hb. induction fuel as [|fuel IH]; intros s; cbn [pwhile]; destruct (cond s); try exact I.
    apply inside_bind; [apply Hb|]. intros [s'|a]; [apply IH|exact I].
  Qed.
  Lemma inside_pfor_ctl {S A} (body : Z -> S -> prog V (ctl S A)) m :
    (forall j s, inside n (body j s)) -> forall s, inside n (pfor_ctl m body s).
  Proof.
    intros Hb. unfold pfor_ctl. generalize 0. induction (Z.to_nat m) as [|k IH]; intros i s; cbn [pfor_ctl_from]; [exact I|].
    apply inside_bind; [apply Hb|]. intros [s'|a]; [apply IH|exact I].
  Qed.
End Inside.

Section Serial.
  Context {N : Num} (K : idx_kind).
  Local Notation buf := (list N).
  Local Notation st := (buf * SIRError)%type.
  Variables (nt base : Z) (L : nat).
  Hypothesis Hnt : 0 <= nt.
  Hypothesis Hb0 : 0 <= base.
  Hypothesis Hb1 : base + nt <= Z.of_nat L.

  Local Notation unit_of := (fun h : buf => (h, tt)).
  Local Notation ctl_split := (split_ctl (fun s : st => s) (fun s : st => s)).

  Lemma x_clear h : length h = L -> exec (p_clear nt) base h = rmap unit_of (clear_h base nt h).
  Proof.
    intros HL. unfold p_clear, clear_h.
    apply (exec_pfor_tt base _ (fun i h => buf_upd h (base + i) (fun _ => nofZ 0)) L); [|exact HL].
    intros j h' _ _. apply exec_write.
  Qed.
  Lemma x_add i d h : 0 <= i < nt -> length h = L ->
    exec (p_add i d) base h = rmap unit_of (buf_upd h (base + i) (fun x => nadd x d)).
  Proof. intros Hi HL. apply (exec_rmw base i (fun x => nadd x d)). lia. Qed.

  Lemma x_emit att it r ai h : att_wf nt att -> 0 <= it < nt -> length h = L ->
    exec (p_emit att it r ai) base h = rmap unit_of (emit att base it r ai h).
  Proof.
    intros Ha Hi HL. destruct att as [p|]; cbn [p_emit emit].
    - unfold p_emit_att, emit_att. destruct Ha as [Hlen _]. rewrite exec_bind, exec_pure.
      destruct (att_spectrum _ _ _ _) as [xc|u|]; cbn [rmap bind fst snd]; try reflexivity.
      rewrite Hlen. apply (exec_pfor_tt base _ (fun i h => do xi <- buf_get (att_c2r p xc) i;
        buf_upd h (base + i) (fun y => nadd y (nmul ai xi))) L); [|exact HL].
      intros j h' Hj HL'. rewrite exec_bind, exec_pure.
      destruct (buf_get _ j) as [x|u|]; cbn [rmap bind fst snd]; try reflexivity.
      apply x_add; auto.
    - apply x_add; auto.
  Qed.

  Lemma x_put by_level att lvl (c : contrib N) (s : st) : att_wf nt att -> length (fst s) = L ->
    exec (p_put K by_level att lvl nt c (snd s)) base (fst s) = rmap ctl_split (put K by_level att lvl nt base c s).
  Proof.
    destruct s as [h err]. cbn [fst snd]. intros Ha HL. unfold p_put, put. rewrite exec_bind, exec_pure.
    destruct (to_idx K (nrint (c_arg c))) as [it|u|]; cbn [rmap bind fst snd]; try reflexivity.
    destruct ((it <? nt) && (0 <=? it)) eqn:E.
    - rewrite exec_bind, x_emit by (auto; lia).
      destruct (emit att base it (c_r c) (c_ai c) h); reflexivity.
    - destruct (bail _ _ _); reflexivity.
  Qed.

  Lemma x_scan fuel x0 xmax d (pt : N -> SIRError -> prog N (ctl SIRError SIRError)) (f : N -> st -> res (ctl st st)) :
    (forall x s, length (fst s) = L -> exec (pt x (snd s)) base (fst s) = rmap ctl_split (f x s)) ->
    forall s, length (fst s) = L ->
      exec (p_scan fuel x0 xmax d pt (snd s)) base (fst s) = rmap ctl_split (scan fuel x0 xmax d f s).
  Proof.
    intros Hp s HL. unfold p_scan, scan.
    pose (hs := fun c : N * st => (fst (snd c), (fst c, snd (snd c)))).
    rewrite exec_bind.
    pose proof (exec_pwhile base hs (fun s : st => s) (fun '(x, _) => nle x xmax) (fun '(x, _) => nle x xmax)
      (fun '(x, s) => pdo c <- pt x s;
         match c with Go s' => Done (Go (nadd x d, s')) | Ret a => Done (Ret a) end)
      (fun '(x, s) => do c <- f x s;
         match c with Go s' => Ok (Go (nadd x d, s')) | Ret a => Ok (Ret a) end) L) as W.
    rewrite (W) with (c := (x0, s)).
    - destruct (while _ _ _ _) as [[[x s']|a]|u|]; reflexivity.
    - intros [x c]. reflexivity.
    - intros [x c] HLc. cbn [hs fst snd] in *. rewrite exec_bind, Hp by exact HLc.
      destruct (f x c) as [[c'|a]|u|]; reflexivity.
    - exact HL.
  Qed.

  Lemma x_run_scanner fuel (Sc : scanner N) att lvl h : att_wf nt att -> length h = L ->
    exec (p_run_scanner K fuel Sc att lvl nt) base h = run_scanner K fuel Sc att lvl nt base h.
  Proof.
    intros Ha HL. unfold p_run_scanner, run_scanner. rewrite exec_bind.
    assert (E : exec (if sc_clear Sc then p_clear nt else Done tt) base h =
                rmap unit_of (if sc_clear Sc then clear_h base nt h else Ok h)).
    { destruct (sc_clear Sc); [apply x_clear; exact HL|reflexivity]. }
    rewrite E. destruct (if sc_clear Sc then clear_h base nt h else Ok h) as [h'|u|]; cbn [rmap bind fst snd] in *; try reflexivity.
    apply exec_len in E. rewrite HL in E. rewrite exec_bind.
    assert (F : exec (p_run_loops fuel Sc (p_put K (sc_by_level Sc) att lvl nt) err_none) base h' =
                rmap ctl_split (run_loops fuel Sc (put K (sc_by_level Sc) att lvl nt base) (h', err_none))).
    { unfold p_run_loops, run_loops.
      assert (In : forall y s, length (fst s) = L ->
        exec (p_scan fuel (row_x0 (sc_row Sc y)) (row_xmax (sc_row Sc y)) (row_dx (sc_row Sc y))
                (fun x => p_put K (sc_by_level Sc) att lvl nt (sc_pt Sc y x)) (snd s)) base (fst s) =
        rmap ctl_split (scan fuel (row_x0 (sc_row Sc y)) (row_xmax (sc_row Sc y)) (row_dx (sc_row Sc y))
                (fun x => put K (sc_by_level Sc) att lvl nt base (sc_pt Sc y x)) s)).
      { intros y s Hs. apply (x_scan fuel _ _ _ (fun x => p_put K (sc_by_level Sc) att lvl nt (sc_pt Sc y x))
          (fun x => put K (sc_by_level Sc) att lvl nt base (sc_pt Sc y x))); [|exact Hs].
        intros x s' Hs'. apply x_put; auto. }
      destruct (sc_outer Sc) as [o|].
      - match goal with |- exec (p_scan _ _ _ _ ?g _) _ _ = rmap _ (scan _ _ _ _ ?f _) =>
          apply (x_scan fuel (row_x0 o) (row_xmax o) (row_dx o) g f) with (s := (h', err_none)) end;
          [|exact E]. intros y s Hs. apply In. exact Hs.
      - apply (In (nofZ 0) (h', err_none) E). }
    rewrite F. destruct (run_loops _ _ _ _) as [[s|s]|u|]; cbn [rmap bind fst snd split_ctl]; try reflexivity;
      destruct s; reflexivity.
  Qed.

  Lemma x_arr_elems p c x_max y_max r_max xo yo zo delay pe (e : N -> N -> N -> N -> N -> buf -> res st) :
    (forall x y z d w h, length h = L -> exec (pe x y z d w) base h = e x y z d w h) ->
    forall left n h err, length h = L ->
      exec (p_arr_elems p c x_max y_max r_max xo yo zo delay pe n left err) base h =
      arr_elems p c x_max y_max r_max xo yo zo delay e n left (h, err).
  Proof.
    intros He. induction left as [|left IH]; intros n h err HL; cbn [p_arr_elems arr_elems]; [reflexivity|].
    rewrite exec_bind, exec_pure.
    destruct (elem_delays _ _ _ _ _ _) as [[[fd sd] w]|u|]; cbn [rmap bind fst snd]; try reflexivity.
    rewrite exec_bind, exec_pure. destruct (gx p n) as [gxn|u|]; cbn [rmap bind fst snd]; try reflexivity.
    rewrite exec_bind, exec_pure. destruct (gy p n) as [gyn|u|]; cbn [rmap bind fst snd]; try reflexivity.
    rewrite exec_bind, exec_pure. destruct (gz p n) as [gzn|u|]; cbn [rmap bind fst snd]; try reflexivity.
    rewrite exec_bind, He by exact HL.
    match goal with |- context [e ?a1 ?a2 ?a3 ?a4 ?a5 h] => pose proof (He a1 a2 a3 a4 a5 h HL) as E;
      destruct (e a1 a2 a3 a4 a5 h) as [[h' err']|u|] end; cbn [bind fst snd]; try reflexivity.
    destruct (SIRError_eqb err' err_oob); [reflexivity|]. apply IH. apply exec_len in E. congruence.
  Qed.

  Lemma x_arr_serial clear p c xo yo zo delay pe (e : N -> N -> N -> N -> N -> buf -> res st) h :
    (forall x y z d w h, length h = L -> exec (pe x y z d w) base h = e x y z d w h) -> length h = L ->
    exec (p_arr_serial clear nt p c xo yo zo delay pe) base h = arr_serial clear nt base p c xo yo zo delay e h.
  Proof.
    intros He HL. unfold p_arr_serial, arr_serial. rewrite exec_bind.
    assert (E : exec (if clear then p_clear nt else Done tt) base h =
                rmap unit_of (if clear then clear_h base nt h else Ok h)).
    { destruct clear; [apply x_clear; exact HL|reflexivity]. }
    rewrite E. destruct (if clear then clear_h base nt h else Ok h) as [h'|u|]; cbn [rmap bind fst snd] in *; try reflexivity.
    apply exec_len in E. rewrite exec_bind, exec_pure.
    destruct (max_dim_arr p) as [[[xm ym] rm]|u|]; cbn [rmap bind fst snd]; try reflexivity.
    apply x_arr_elems; auto. congruence.
  Qed.

  Lemma x_superpos h_ring weight fd n dt h : length h = L ->
    exec (p_superpos_annular K h_ring nt weight fd n dt) base h =
    rmap unit_of (superpos_annular K h_ring base nt weight fd n dt h).
  Proof.
    intros HL. unfold p_superpos_annular, superpos_annular. rewrite exec_bind, exec_pure.
    destruct (to_idx K _) as [d|u|]; cbn [rmap bind fst snd]; try reflexivity.
    rewrite exec_bind, exec_pure.
    match goal with |- context [for_loop nt ?f (repeat _ _)] => destruct (for_loop nt f (repeat (nofZ 0) (Z.to_nat (2 * nt)))) as [b|u|] end;
      cbn [rmap bind fst snd]; try reflexivity.
    apply (exec_pfor_tt base _ (fun i h => do x <- buf_get b i; buf_upd h (base + i) (fun y => nadd y (nmul weight x))) L); [|exact HL].
    intros j h' Hj HL'. rewrite exec_bind, exec_pure.
    destruct (buf_get b j) as [x|u|]; cbn [rmap bind fst snd]; try reflexivity. apply x_add; auto.
  Qed.

  Lemma x_annu_serial (p : annu_par N) (dt c : N) disc h : length h = L ->
    exec (p_annu_serial K nt p dt c disc) base h = annu_serial K nt base p dt c disc h.
  Proof.
    intros HL. unfold p_annu_serial, annu_serial. rewrite exec_bind.
    pose proof (x_clear h HL) as E. rewrite E.
    destruct (clear_h base nt h) as [h'|u|]; cbn [rmap bind fst snd] in *; try reflexivity.
    apply exec_len in E. rewrite HL in E. rewrite exec_bind, exec_pure.
    destruct (annu_discs _ _ _ _ _ _) as [[[hd err]|[hd err]]|u|]; cbn [rmap bind fst snd]; try reflexivity.
    rewrite exec_bind, exec_pure. destruct (annular_disc_radii _) as [ring|u|]; cbn [rmap bind fst snd]; try reflexivity.
    rewrite exec_bind, exec_pure. destruct (buf_get ring _) as [rmax|u|]; cbn [rmap bind fst snd]; try reflexivity.
    rewrite exec_bind.
    match goal with |- context [for_loop ?m ?f (h', ?s)] =>
      match goal with |- context [exec (pfor m ?b s) base h'] => rewrite (exec_pfor base b f L m) end end.
    - destruct (for_loop _ _ _) as [[h2 r2]|u|]; reflexivity.
    - clear h HL h' E. intros j s h Hj HL. rewrite exec_bind, exec_pure.
      destruct (if FocusMet_is_ud (an_foc_met p) then _ else _) as [fo|u|]; cbn [rmap bind fst snd]; try reflexivity.
      rewrite exec_bind, exec_pure. destruct (buf_get ring j) as [rr|u|]; cbn [rmap bind fst snd]; try reflexivity.
      rewrite exec_bind, exec_pure. destruct (if an_do_apod p then _ else _) as [w|u|]; cbn [rmap bind fst snd]; try reflexivity.
      rewrite exec_bind, exec_pure. destruct (resp_annular _ _ _ _) as [hr|u|]; cbn [rmap bind fst snd]; try reflexivity.
      rewrite exec_bind, x_superpos by exact HL.
      destruct (superpos_annular _ _ _ _ _ _ _ _ _) as [h2|u|]; reflexivity.
    - exact E.
  Qed.
End Serial.

Section Point.
  Context {N : Num} (K : idx_kind).
  Local Notation buf := (list N).

  Lemma x_serial fuel (T : transducer N) q att lvl xo yo zo delay base h :
    0 <= nt q -> att_wf (nt q) att -> 0 <= base -> base + nt q <= Z.of_nat (length h) ->
    exec (p_serial K fuel T q att lvl xo yo zo delay) base h = serial K fuel T q att lvl xo yo zo delay base h.
  Proof.
    intros Hnt Ha H0 H1.
    assert (R : forall Sc h', length h' = length h ->
              exec (p_run_scanner K fuel Sc att lvl (nt q)) base h' = run_scanner K fuel Sc att lvl (nt q) base h').
    { intros Sc h' HL. apply (x_run_scanner K (nt q) base (length h)); auto. }
    destruct T; cbn [p_serial serial]; try (apply R; reflexivity).
    - apply (x_arr_serial (nt q) base (length h)); auto.
    - apply (x_arr_serial (nt q) base (length h)); auto.
    - apply (x_arr_serial (nt q) base (length h)); auto.
    - apply (x_annu_serial K (nt q) base (length h)); auto.
  Qed.

  Lemma x_point (J : job N) n H : 0 <= nt (j_q J) -> att_wf (nt (j_q J)) (j_att J) -> 0 <= n < j_No J ->
    length H = Z.to_nat (j_No J * nt (j_q J)) ->
    point K J n H = exec (p_point K J n) (n * nt (j_q J)) H.
  Proof.
    intros Hnt Ha Hn HL. unfold point, p_point. symmetry.
    rewrite exec_bind, exec_pure. destruct (buf_get (j_Ro J) n) as [xo|u|]; cbn [rmap bind fst snd]; try reflexivity.
    rewrite exec_bind, exec_pure. destruct (buf_get (j_Ro J) (n + 1 * j_No J)) as [yo|u|]; cbn [rmap bind fst snd]; try reflexivity.
    rewrite exec_bind, exec_pure. destruct (buf_get (j_Ro J) (n + 2 * j_No J)) as [zo|u|]; cbn [rmap bind fst snd]; try reflexivity.
    rewrite exec_bind, exec_pure. destruct (match j_delay_type J with delay_single => _ | _ => _ end) as [d|u|]; cbn [rmap bind fst snd]; try reflexivity.
    apply x_serial; auto; nia.
  Qed.

  (** ** Staying inside *)
  Lemma in_add nt i (d : N) : 0 <= i < nt -> inside nt (p_add i d).
  Proof. intros Hi. cbn. auto. Qed.
  Lemma in_clear nt : inside nt (p_clear (N:=N) nt).
  Proof. apply inside_pfor. intros j s Hj. cbn. auto. Qed.
  Lemma in_emit nt att it r ai : att_wf (N:=N) nt att -> 0 <= it < nt -> inside nt (p_emit att it r ai).
  Proof.
    intros Ha Hi. destruct att as [p|]; cbn [p_emit]; [|apply in_add; exact Hi].
    destruct Ha as [Hlen _]. unfold p_emit_att. apply inside_bind; [apply inside_pure|]. intros xc.
    apply inside_pfor. intros j s Hj. apply inside_bind; [apply inside_pure|]. intros x. apply in_add. lia.
  Qed.
  Lemma in_put nt bl att lvl (c : contrib N) err : att_wf nt att -> inside nt (p_put K bl att lvl nt c err).
  Proof.
    intros Ha. unfold p_put. apply inside_bind; [apply inside_pure|]. intros it.
    destruct ((it <? nt) && (0 <=? it)) eqn:E.
    - apply inside_bind; [apply in_emit; [exact Ha|lia]|]. intros a. exact I.
    - destruct (bail _ _ _); exact I.
  Qed.
  Lemma in_scan nt {S A} fuel (x0 xmax d : N) (pt : N -> S -> prog N (ctl S A)) :
    (forall x s, inside nt (pt x s)) -> forall s, inside nt (p_scan fuel x0 xmax d pt s).
  Proof.
    intros Hp s. unfold p_scan. apply inside_bind.
    - apply inside_pwhile. intros [x c]. apply inside_bind; [apply Hp|]. intros [s'|a]; exact I.
    - intros [[x s']|a]; exact I.
  Qed.
  Lemma in_run_scanner nt fuel (Sc : scanner N) att lvl : att_wf nt att -> inside nt (p_run_scanner K fuel Sc att lvl nt).
  Proof.
    intros Ha. unfold p_run_scanner. apply inside_bind; [destruct (sc_clear Sc); [apply in_clear|exact I]|].
    intros _. apply inside_bind; [|intros [e|e]; exact I]. unfold p_run_loops.
    destruct (sc_outer Sc); apply in_scan; intros x s; [apply in_scan; intros y s'|]; apply in_put; exact Ha.
  Qed.
  Lemma in_arr_serial nt clear p c xo yo zo delay (pe : N -> N -> N -> N -> N -> prog N SIRError) :
    (forall x y z d w, inside nt (pe x y z d w)) -> inside nt (p_arr_serial clear nt p c xo yo zo delay pe).
  Proof.
    intros He. unfold p_arr_serial. apply inside_bind; [destruct clear; [apply in_clear|exact I]|]. intros _.
    apply inside_bind; [apply inside_pure|]. intros [[xm ym] rm].
    generalize 0 as n. generalize err_none as err.
    induction (Z.to_nat (num_elements p)) as [|k IH]; intros err n; cbn [p_arr_elems]; [exact I|].
    apply inside_bind; [apply inside_pure|]. intros [[fd sd] w].
    apply inside_bind; [apply inside_pure|]. intros a. apply inside_bind; [apply inside_pure|]. intros b.
    apply inside_bind; [apply inside_pure|]. intros cc. apply inside_bind; [apply He|]. intros e.
    destruct (SIRError_eqb e err_oob); [exact I|apply IH].
  Qed.
  Lemma in_annu nt p dt c disc : inside nt (p_annu_serial (N:=N) K nt p dt c disc).
  Proof.
    unfold p_annu_serial. apply inside_bind; [apply in_clear|]. intros _.
    apply inside_bind; [apply inside_pure|]. intros [[hd e]|[hd e]]; [|exact I].
    apply inside_bind; [apply inside_pure|]. intros ring. apply inside_bind; [apply inside_pure|]. intros rm.
    apply inside_bind; [|intros a; exact I]. apply inside_pfor. intros j s Hj.
    apply inside_bind; [apply inside_pure|]. intros fo. apply inside_bind; [apply inside_pure|]. intros rr.
    apply inside_bind; [apply inside_pure|]. intros w. apply inside_bind; [apply inside_pure|]. intros hr.
    apply inside_bind; [|intros a; exact I]. unfold p_superpos_annular.
    apply inside_bind; [apply inside_pure|]. intros d. apply inside_bind; [apply inside_pure|]. intros b.
    apply inside_pfor. intros i s' Hi. apply inside_bind; [apply inside_pure|]. intros x. apply in_add. exact Hi.
  Qed.
  Lemma in_point (J : job N) n : att_wf (nt (j_q J)) (j_att J) -> inside (nt (j_q J)) (p_point K J n).
  Proof.
    intros Ha. unfold p_point.
    apply inside_bind; [apply inside_pure|]. intros xo. apply inside_bind; [apply inside_pure|]. intros yo.
    apply inside_bind; [apply inside_pure|]. intros zo. apply inside_bind; [apply inside_pure|]. intros d.
    destruct (j_T J); cbn [p_serial]; try (apply in_run_scanner; exact Ha);
      try (apply in_arr_serial; intros; apply in_run_scanner; exact Ha). apply in_annu.
  Qed.
End Point.
