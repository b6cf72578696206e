(** ProofsErr.v - error levels, termination and non-termination. *)
From Coq Require Import ZifyBool ZifyNat.
From Verif Require Import Base BaseLemmas ModelSir ModelArr SpecSir ProofsEnum.

Section Err.
  Context {N : Num} (K : idx_kind).
  Local Notation buf := (list N).

  Definition is_att (att : option (att_plan N)) : bool := match att with Some _ => true | None => false end.

  Lemma visited_scanner fuel T q att xo yo zo delay pts :
    visited fuel T q xo yo zo delay = Some pts ->
    exists Sc, source_points fuel Sc = Some pts /\ sc_clear Sc = negb (adds_up (N:=N) T) /\
      forall lvl h base, serial K fuel T q att lvl xo yo zo delay base h = run_scanner K fuel Sc att lvl (nt q) base h.
  Proof.
    unfold visited. intros H.
    destruct T; cbn [scanner_of_T] in H; try discriminate;
      match type of H with source_points _ ?S = _ => first [ match S with rect_f_scanner _ _ _ _ _ _ _ _ _ _ => idtac end | exists S; split; [exact H|split; reflexivity] ] end.
    eexists. split; [|split; [|intros; cbn [serial]; reflexivity]]; [exact H|reflexivity].
  Qed.

  Lemma start_E T Sc (q : samp N) (h : buf) : sc_clear Sc = negb (adds_up (N:=N) T) ->
    start_buf Sc (nt q) h = start T (nt q) h.
  Proof. intros E. unfold start_buf, start. rewrite E. destruct (adds_up T); reflexivity. Qed.

  (** Every error level, lossless or attenuated. *)
  Lemma serial_nobail fuel (T : transducer N) q att lvl xo yo zo delay (pts : list (contrib N)) (h : buf) :
    visited fuel T q xo yo zo delay = Some pts -> representable K pts ->
    length h = Z.to_nat (nt q) -> no_bail lvl ->
    serial K fuel T q att lvl xo yo zo delay 0 h =
    do h' <- emit_all att (nt q) pts (start T (nt q) h);
    Ok (h', if all_in (nt q) pts then err_none else dream_out_of_bounds_err lvl).
  Proof.
    intros Hv Hr Hh Hl. destruct (visited_scanner fuel T q att xo yo zo delay pts Hv) as (Sc & Hp & Hc & Hs).
    rewrite Hs. rewrite (run_scanner_nobail K fuel Sc att lvl (nt q) pts h Hp Hh Hr Hl).
    now rewrite (start_E T).
  Qed.

  Lemma serial_bail fuel (T : transducer N) q att lvl xo yo zo delay (pts : list (contrib N)) (h : buf) :
    visited fuel T q xo yo zo delay = Some pts -> representable K pts ->
    length h = Z.to_nat (nt q) -> bails lvl ->
    serial K fuel T q att lvl xo yo zo delay 0 h =
    do h' <- emit_all att (nt q) (before_first_out (nt q) pts) (start T (nt q) h);
    Ok (h', if all_in (nt q) pts then err_none else err_oob).
  Proof.
    intros Hv Hr Hh Hl. destruct (visited_scanner fuel T q att xo yo zo delay pts Hv) as (Sc & Hp & Hc & Hs).
    rewrite Hs. rewrite (run_scanner_bail K fuel Sc att lvl (nt q) pts h Hp Hh Hr Hl).
    now rewrite (start_E T).
  Qed.

  Lemma length_start T (q : samp N) (h : buf) : length h = Z.to_nat (nt q) -> length (start (N:=N) T (nt q) h) = Z.to_nat (nt q).
  Proof. unfold start, zeros. destruct (adds_up T); auto. now rewrite repeat_length. Qed.

  (** ** Termination *)
  Definition nodiv {A} (m : res A) : Prop := m <> Diverge.

  Lemma nodiv_bind {A B} (m : res A) (f : A -> res B) : nodiv m -> (forall a, nodiv (f a)) -> nodiv (bind m f).
  Proof. unfold nodiv. destruct m; cbn; auto; discriminate. Qed.
  Lemma nodiv_Ok {A} (a : A) : nodiv (Ok a).  Proof. discriminate. Qed.
  Lemma nodiv_upd {A} (h : list A) k f : nodiv (buf_upd h k f).
  Proof. unfold buf_upd, nodiv. destruct (in_range h k); discriminate. Qed.
  Lemma nodiv_get {A} (h : list A) k : nodiv (buf_get h k).
  Proof. unfold buf_get, nodiv. destruct (in_range h k); [destruct (nth_error h (Z.to_nat k))|]; discriminate. Qed.
  Lemma nodiv_idx k z : nodiv (to_idx k z).
  Proof. unfold to_idx, nodiv. destruct z; [|discriminate]. destruct k; destruct (_ && _); discriminate. Qed.
  Lemma nodiv_for_from {S} n : forall i (body : Z -> S -> res S) s, (forall j s, nodiv (body j s)) -> nodiv (for_from i n body s).
  Proof.
    induction n as [|n IH]; intros i body s H; cbn [for_from]; [apply nodiv_Ok|].
    apply nodiv_bind; auto.
  Qed.
  Lemma nodiv_for {S} n (body : Z -> S -> res S) s : (forall j s, nodiv (body j s)) -> nodiv (for_loop n body s).
  Proof. apply nodiv_for_from. Qed.

  (** Solve [nodiv] goals by following the structure of the term. *)
  Ltac nd :=
    repeat first
      [ apply nodiv_Ok | apply nodiv_upd | apply nodiv_get | apply nodiv_idx
      | assumption
      | apply nodiv_bind; [|intros]
      | apply nodiv_for; intros
      | apply nodiv_for_from; intros
      | match goal with |- nodiv (match ?x with _ => _ end) => destruct x end
      | match goal with |- nodiv (let '_ := ?x in _) => destruct x end
      | progress cbv zeta | progress intros ].

  Lemma nodiv_emit att base it r ai (h : buf) : nodiv (emit att base it r ai h).
  Proof. destruct att as [p|]; cbn [emit]; [unfold emit_att, att_spectrum|unfold emit_plain]; nd. Qed.
  Lemma nodiv_put bl att lvl n base c s : nodiv (put (N:=N) K bl att lvl n base c s).
  Proof. unfold put. destruct s as [h e]. apply nodiv_bind; [nd|]. intros it. destruct (_ && _); [apply nodiv_bind; [apply nodiv_emit|nd]|nd]. Qed.
  Lemma nodiv_clear base n (h : buf) : nodiv (clear_h base n h).
  Proof. unfold clear_h; nd. Qed.

  Lemma nodiv_scan {S A} xmax d (pt : N -> S -> res (ctl S A)) : (forall x s, nodiv (pt x s)) ->
    forall fuel x0 s, grid fuel x0 xmax d <> None -> nodiv (scan fuel x0 xmax d pt s).
  Proof.
    intros Hpt fuel x0 s Hg. unfold scan. apply nodiv_bind; [|nd].
    revert x0 s Hg. induction fuel as [|f IH]; intros x0 s Hg; cbn [grid while] in *.
    - destruct (nle x0 xmax); [congruence|apply nodiv_Ok].
    - destruct (nle x0 xmax) eqn:E; [|apply nodiv_Ok].
      specialize (Hpt x0 s). destruct (pt x0 s) as [[s'|a]|u|]; cbn [bind]; try discriminate; [|congruence].
      apply IH. intros F. rewrite F in Hg. congruence.
  Qed.

  Lemma grid_more xmax d : forall f f' x, (f <= f')%nat -> grid f x xmax d <> None -> grid (N:=N) f' x xmax d <> None.
  Proof.
    induction f as [|f IH]; intros [|f'] x Hle H; cbn [grid] in *; try lia; destruct (nle x xmax); auto; try congruence.
    intros E. specialize (IH f' (nadd x d)). destruct (grid f (nadd x d) xmax d) eqn:G; [|congruence].
      destruct (grid f' (nadd x d) xmax d) eqn:G'; [congruence|]. apply IH; [lia|congruence|reflexivity].
  Qed.

  (** All loops of a scanner terminate within the budget. *)
  Definition loops_end (fuel : nat) (Sc : scanner N) : Prop :=
    (match sc_outer Sc with
     | Some o => grid fuel (row_x0 o) (row_xmax o) (row_dx o) <> None
     | None => True
     end) /\
    forall y, grid fuel (row_x0 (sc_row Sc y)) (row_xmax (sc_row Sc y)) (row_dx (sc_row Sc y)) <> None.

  Lemma nodiv_scanner fuel Sc att lvl n base h : loops_end fuel Sc -> nodiv (run_scanner K fuel Sc att lvl n base h).
  Proof.
    intros [Ho Hi]. unfold run_scanner. apply nodiv_bind; [destruct (sc_clear Sc); [apply nodiv_clear|nd]|].
    intros h'. apply nodiv_bind; [|nd]. unfold run_loops.
    assert (Hrow : forall y s, nodiv (scan fuel (row_x0 (sc_row Sc y)) (row_xmax (sc_row Sc y)) (row_dx (sc_row Sc y))
               (fun x => put K (sc_by_level Sc) att lvl n base (sc_pt Sc y x)) s)).
    { intros y s. apply nodiv_scan; [intros; apply nodiv_put|apply Hi]. }
    destruct (sc_outer Sc) as [o|]; [|apply Hrow]. apply nodiv_scan; auto.
  Qed.

  (** The loop bounds of all transducers; arrays and annular arrays use those
      of their elements. *)
  Definition loops_T (fuel : nat) (T : transducer N) (q : samp N) : Prop :=
    match T with
    | TRect a b | TArrRect a b _ => forall d w x y z, loops_end fuel (rect_scanner q a b d w x y z)
    | TRectF a b f F => forall at_ d x y z, loops_end fuel (rect_f_scanner q a b f F at_ d x y z)
    | TCirc R | TArrCirc R _ => forall d w x y z, loops_end fuel (circ_scanner q R d w x y z)
    | TCircF R f F => forall d x y z, loops_end fuel (circ_f_scanner q R f F d x y z)
    | TLine a => forall d x y z, loops_end fuel (line_scanner q a d x y z)
    | TSphere R Rc => forall d x y z, loops_end fuel (sphere_scanner q R Rc d x y z)
    | TCylind a b Rc | TArrCylind a b Rc _ => forall d w x y z, loops_end fuel (cylind_scanner q a b Rc d w x y z)
    | TArrAnnu p => forall R d w x y z, In R (Gr p) -> loops_end fuel (circ_scanner q R d w x y z)
    end.

  Lemma nodiv_max_abs (g : Z -> res N) n : (forall i, nodiv (g i)) -> nodiv (max_abs g n).
  Proof. intros H. unfold max_abs. nd; apply H. Qed.

  Lemma nodiv_elem_delays p c xm ym rm n : nodiv (elem_delays (N:=N) p c xm ym rm n).
  Proof.
    unfold elem_delays, gx, gy. nd. unfold apodization. nd.
  Qed.

  Lemma nodiv_arr_elems p c xm ym rm xo yo zo delay elem :
    (forall x y z d w h, nodiv (elem x y z d w h)) ->
    forall left n s, nodiv (arr_elems (N:=N) p c xm ym rm xo yo zo delay elem n left s).
  Proof.
    intros He. induction left as [|l IH]; intros n s; cbn [arr_elems]; [nd|].
    destruct s as [h e]. apply nodiv_bind; [apply nodiv_elem_delays|]. intros [[f s] w].
    unfold gx, gy, gz. apply nodiv_bind; [nd|]. intros gxn. apply nodiv_bind; [nd|]. intros gyn.
    apply nodiv_bind; [nd|]. intros gzn. apply nodiv_bind; [apply He|]. intros s'.
    destruct (SIRError_eqb _ _); [nd|apply IH].
  Qed.

  Lemma nodiv_arr cl n base p c xo yo zo delay elem h :
    (forall x y z d w h, nodiv (elem x y z d w h)) ->
    nodiv (arr_serial (N:=N) cl n base p c xo yo zo delay elem h).
  Proof.
    intros He. unfold arr_serial. apply nodiv_bind; [destruct cl; [apply nodiv_clear|nd]|].
    intros h'. apply nodiv_bind.
    - unfold max_dim_arr. apply nodiv_bind; [apply nodiv_max_abs; unfold gx; intros; nd|]. intros.
      apply nodiv_bind; [apply nodiv_max_abs; unfold gy; intros; nd|]. intros. nd.
    - intros [[xm ym] rm]. now apply nodiv_arr_elems.
  Qed.

  Lemma nodiv_discs gr n disc : (forall R i h, In R gr -> nodiv (disc R i h)) ->
    forall left i s, nodiv (annu_discs (N:=N) gr n disc i left s).
  Proof.
    intros Hd. induction left as [|l IH]; intros i s; cbn [annu_discs]; [nd|].
    unfold buf_get at 1. destruct (in_range gr i); [|cbn; discriminate].
    destruct (nth_error gr (Z.to_nat i)) as [g|] eqn:E; [|cbn; discriminate]. cbn [bind].
    apply nth_error_In in E.
    destruct (_ && _).
    - apply nodiv_bind; [nd|]. intros. apply IH.
    - apply nodiv_bind; [now apply Hd|]. intros. destruct (SIRError_eqb _ _); [nd|apply IH].
  Qed.

  Theorem serial_terminates fuel T q att lvl xo yo zo delay base h :
    loops_T fuel T q -> nodiv (serial K fuel T q att lvl xo yo zo delay base h).
  Proof.
    intros H. destruct T; cbn [serial loops_T] in *.
    1-7: apply nodiv_scanner; apply H.
    1-3: apply nodiv_arr; intros; apply nodiv_scanner; apply H.
    unfold annu_serial. apply nodiv_bind; [apply nodiv_clear|]. intros h'.
    apply nodiv_bind; [apply nodiv_discs; intros; apply nodiv_scanner; now apply H|].
    intros [[hd e]|[hd e]]; [|nd]. unfold annular_disc_radii.
    apply nodiv_bind; [nd|]. intros ring. apply nodiv_bind; [nd|]. intros rm.
    apply nodiv_bind; [|nd]. apply nodiv_for. intros j [h0 hr].
    apply nodiv_bind; [nd|]. intros fo. apply nodiv_bind; [nd|]. intros rr.
    apply nodiv_bind; [destruct (an_do_apod p); [unfold apodization_annular|]; nd|]. intros wt.
    apply nodiv_bind; [unfold resp_annular; nd|]. intros. apply nodiv_bind; [unfold superpos_annular|nd].
    nd.
  Qed.

  (** ** Non-termination: a loop whose variable stays below its bound. *)
  Lemma scan_stuck {S A} (P : N -> Prop) xmax d (pt : N -> S -> res (ctl S A)) :
    (forall x, P x -> nle x xmax = true /\ P (nadd x d)) -> (forall x s a, pt x s <> Ok (Ret a)) ->
    forall fuel x0 s r, P x0 -> scan fuel x0 xmax d pt s <> Ok r.
  Proof.
    intros HP Hpt fuel x0 s r Hx. unfold scan.
    assert (G : forall f x0 s r', P x0 -> while f (fun '(x, _) => nle x xmax)
         (fun '(x, s) => do c <- pt x s; match c with Go s' => Ok (Go (nadd x d, s')) | Ret a => Ok (Ret a) end)
         (x0, s) <> Ok r').
    { induction f as [|f IH]; intros x1 s0 r' Hx1; cbn [while]; destruct (HP x1 Hx1) as [Hle Hn]; rewrite Hle; [discriminate|].
      specialize (Hpt x1 s0). destruct (pt x1 s0) as [[s1|a]|u|]; cbn [bind]; try discriminate.
      - now apply IH.
      - exfalso. now apply (Hpt a). }
    destruct (while fuel _ _ (x0, s)) eqn:E; cbn [bind]; try discriminate.
    exfalso. exact (G _ _ _ _ Hx E).
  Qed.

  Lemma put_no_ret bl att lvl n base c s a : no_bail lvl -> put (N:=N) K bl att lvl n base c s <> Ok (Ret a).
  Proof.
    intros Hl. unfold put. destruct s as [h e]. destruct (to_idx K (nrint (c_arg c))); cbn [bind]; try discriminate.
    destruct (_ && _).
    - destruct (emit att base a0 (c_r c) (c_ai c) h); cbn; discriminate.
    - replace (bail bl lvl (dream_out_of_bounds_err lvl)) with false; [discriminate|].
      destruct Hl as [ -> |[ -> | -> ]]; destruct bl; reflexivity.
  Qed.

  (** A scanner whose first row does not end never returns (levels ignore and warn). *)
  Lemma scanner_stuck (P : N -> Prop) fuel Sc att lvl n base h r y : no_bail lvl ->
    (match sc_outer Sc with
     | Some o => nle (row_x0 o) (row_xmax o) = true /\ y = row_x0 o
     | None => y = nofZ 0
     end) ->
    P (row_x0 (sc_row Sc y)) ->
    (forall x, P x -> nle x (row_xmax (sc_row Sc y)) = true /\ P (nadd x (row_dx (sc_row Sc y)))) ->
    run_scanner (N:=N) K fuel Sc att lvl n base h <> Ok r.
  Proof.
    intros Hl Ho H0 HP. unfold run_scanner.
    destruct (if sc_clear Sc then clear_h base n h else Ok h) as [h'|u|]; cbn [bind]; try discriminate.
    assert (Hrow : forall s r', scan fuel (row_x0 (sc_row Sc y)) (row_xmax (sc_row Sc y)) (row_dx (sc_row Sc y))
               (fun x => put K (sc_by_level Sc) att lvl n base (sc_pt Sc y x)) s <> Ok r').
    { intros s r'. apply (scan_stuck P); auto. intros x s0 a. now apply put_no_ret. }
    destruct (run_loops fuel Sc _ (h', err_none)) eqn:E; cbn [bind]; try discriminate.
    exfalso. unfold run_loops in E. destruct (sc_outer Sc) as [o|].
    - destruct Ho as [Hle' ->]. unfold scan at 1 in E.
      destruct fuel as [|f]; cbn [while] in E; rewrite Hle' in E; cbn [bind] in E; [discriminate|].
      set (f' := Datatypes.S f) in *.
      destruct (scan f' (row_x0 (sc_row Sc (row_x0 o))) (row_xmax (sc_row Sc (row_x0 o)))
                 (row_dx (sc_row Sc (row_x0 o))) (fun x => put K (sc_by_level Sc) att lvl n base (sc_pt Sc (row_x0 o) x))
                 (h', err_none)) eqn:F; cbn [bind] in E; try discriminate.
      exact (Hrow _ _ F).
    - subst y. exact (Hrow _ _ E).
  Qed.

  (** The first row of a transducer: x0, bound, step (dreamline: its only row;
      [None]: the row loop is not entered). *)
  Lemma serial_stuck (P : N -> Prop) fuel T q att lvl xo yo zo delay base h r Sc y : no_bail lvl ->
    scanner_of_T T q (is_att att) xo yo zo delay = Some Sc ->
    (match sc_outer Sc with
     | Some o => nle (row_x0 o) (row_xmax o) = true /\ y = row_x0 o
     | None => y = nofZ 0
     end) ->
    P (row_x0 (sc_row Sc y)) ->
    (forall x, P x -> nle x (row_xmax (sc_row Sc y)) = true /\ P (nadd x (row_dx (sc_row Sc y)))) ->
    serial (N:=N) K fuel T q att lvl xo yo zo delay base h <> Ok r.
  Proof.
    intros Hl HT Ho H0 HP.
    assert (E : serial K fuel T q att lvl xo yo zo delay base h = run_scanner K fuel Sc att lvl (nt q) base h).
    { destruct T; cbn [scanner_of_T] in HT; try discriminate; injection HT as <-; reflexivity. }
    rewrite E. now apply (scanner_stuck P) with (y := y).
  Qed.
End Err.
