(** ProofsEnum.v - the loops of a SIR function are a walk over its list of
    source points. *)
From Verif Require Import Base BaseLemmas ModelSir SpecSir ProofsLocal.
From Coq Require Import ZifyBool ZifyNat.
Ltac Zify.zify_post_hook ::= Z.div_mod_to_equations.

Section Enum.
  Context {N : Num} (K : idx_kind).
  Local Notation buf := (list N).
  Local Notation st := (buf * SIRError)%type.

  (** Walk over a list with early exit. *)
  Fixpoint feed {X S A} (pt : X -> S -> res (ctl S A)) (l : list X) (s : S) : res (ctl S A) :=
    match l with
    | [] => Ok (Go s)
    | x :: l' => do r <- pt x s; match r with Go s' => feed pt l' s' | Ret a => Ok (Ret a) end
    end.

  Lemma feed_app {X S A} (pt : X -> S -> res (ctl S A)) l1 l2 s :
    feed pt (l1 ++ l2) s =
    do r <- feed pt l1 s; match r with Go s' => feed pt l2 s' | Ret a => Ok (Ret a) end.
  Proof.
    revert s; induction l1 as [|x l1 IH]; intros s; cbn; auto.
    destruct (pt x s) as [[s'|a]|u|]; cbn; auto.
  Qed.

  Lemma feed_map {X Y S A} (f : Y -> X) (pt : X -> S -> res (ctl S A)) l s :
    feed pt (map f l) s = feed (fun y => pt (f y)) l s.
  Proof.
    revert s; induction l as [|x l IH]; intros s; cbn; auto.
    destruct (pt (f x) s) as [[s'|a]|u|]; cbn; auto.
  Qed.

  Lemma feed_ext {X S A} (p1 p2 : X -> S -> res (ctl S A)) l s :
    (forall x s, In x l -> p1 x s = p2 x s) -> feed p1 l s = feed p2 l s.
  Proof.
    revert s; induction l as [|x l IH]; intros s H; cbn; auto.
    rewrite H by (left; reflexivity).
    destruct (p2 x s) as [[s'|a]|u|]; cbn; auto. apply IH. intros; apply H; right; auto.
  Qed.

  Lemma scan_feed {S A} (xmax d : N) (pt : N -> S -> res (ctl S A)) :
    forall fuel x0 l s, grid fuel x0 xmax d = Some l -> scan fuel x0 xmax d pt s = feed pt l s.
  Proof.
    unfold scan.
    induction fuel as [|f IH]; intros x0 l s; cbn [grid while];
      destruct (nle x0 xmax) eqn:E; cbn [bind].
    - discriminate.
    - intros [= <-]. reflexivity.
    - destruct (grid f (nadd x0 d) xmax d) as [l'|] eqn:G; [|discriminate]. intros [= <-].
      cbn [feed]. destruct (pt x0 s) as [[s'|a]|u|]; cbn [bind]; auto.
    - intros [= <-]. reflexivity.
  Qed.

  Lemma run_loops_feed (fuel : nat) (Sc : scanner N) (pt : contrib N -> st -> res (ctl st st)) l s :
    source_points fuel Sc = Some l -> run_loops fuel Sc pt s = feed pt l s.
  Proof.
    unfold source_points, run_loops. intros H.
    assert (Hrow : forall y l s, source_row fuel Sc y = Some l ->
      scan fuel (row_x0 (sc_row Sc y)) (row_xmax (sc_row Sc y)) (row_dx (sc_row Sc y))
           (fun x => pt (sc_pt Sc y x)) s = feed pt l s).
    { clear. intros y l s H. unfold source_row in H.
      destruct (grid fuel _ _ _) as [xs|] eqn:G; [|discriminate]. injection H as <-.
      rewrite feed_map. apply scan_feed. exact G. }
    destruct (sc_outer Sc) as [o|]; [|now apply Hrow].
    destruct (grid fuel (row_x0 o) (row_xmax o) (row_dx o)) as [ys|] eqn:G; [|discriminate].
    rewrite (scan_feed _ _ _ _ _ _ _ G). clear G. revert l s H.
    induction ys as [|y ys IH]; intros l s H; cbn [map concat_opt] in H.
    - injection H as <-. reflexivity.
    - destruct (source_row fuel Sc y) as [a|] eqn:Ea; [|discriminate].
      destruct (concat_opt (map (source_row fuel Sc) ys)) as [b|] eqn:Eb; [|discriminate].
      injection H as <-. rewrite feed_app. cbn [feed].
      rewrite (Hrow y a s Ea). apply bind_ext. intros [s'|r] _; auto.
  Qed.

  (** The index conversion. *)
  Lemma to_idx_some (c : contrib N) z :
    sample_of c = Some z ->
    match K with SignedIdx => -2^63 <= z < 2^63 | UnsignedIdx => 0 <= z < 2^64 end ->
    to_idx K (nrint (c_arg c)) = Ok z.
  Proof.
    unfold sample_of. intros E H. rewrite E. unfold to_idx. destruct K.
    - destruct (_ && _) eqn:F; auto. lia.
    - destruct (_ && _) eqn:F; auto. lia.
  Qed.

  (** Levels which do not stop. *)
  Definition no_bail (lvl : ErrorLevel) : Prop := lvl = lvl_none \/ lvl = lvl_ignore \/ lvl = lvl_warn.

  (** Emission of one source point as a total function on a buffer of nt samples. *)
  Definition emit_all (att : option (att_plan N)) (nt : Z) (l : list (contrib N)) (h : buf) : res buf :=
    fold_left (fun rh c => do h <- rh;
      match sample_of c with
      | Some z => if in_window nt c then emit att 0 z (c_r c) (c_ai c) h else Ok h
      | None => Ok h
      end) l (Ok h).

  Lemma emit_all_cons att nt c l h :
    emit_all att nt (c :: l) h =
    do h' <- (match sample_of c with
              | Some z => if in_window nt c then emit att 0 z (c_r c) (c_ai c) h else Ok h
              | None => Ok h
              end); emit_all att nt l h'.
  Proof.
    unfold emit_all. cbn [fold_left bind].
    match goal with |- fold_left ?F l ?X = _ => set (F0 := F); destruct X as [h'|u|] end; cbn [bind]; auto.
    - clear. induction l; cbn [fold_left]; auto.
    - clear. induction l; cbn [fold_left]; auto.
  Qed.

  Lemma feed_put_nobail by_level att lvl nt l : no_bail lvl -> representable K l ->
    forall h err, feed (put K by_level att lvl nt 0) l (h, err) =
    do h' <- emit_all att nt l h;
    Ok (Go (h', if all_in nt l then err else dream_out_of_bounds_err lvl)).
  Proof.
    intros Hl Hr. induction l as [|c l IH]; intros h err; [reflexivity|].
    inversion Hr as [|c0 l0 (z & Ez & Hz) Hr']; subst. specialize (IH Hr').
    rewrite emit_all_cons. cbn [feed put all_in forallb].
    rewrite (to_idx_some c z Ez Hz). cbn [bind]. rewrite Ez.
    unfold in_window at 1 2. rewrite Ez.
    replace ((z <? nt) && (0 <=? z)) with ((0 <=? z) && (z <? nt)) by apply andb_comm.
    destruct ((0 <=? z) && (z <? nt)) eqn:Ew; cbn [andb].
    - destruct (emit att 0 z (c_r c) (c_ai c) h) as [h'|u|]; cbn [bind]; auto.
    - replace (bail by_level lvl (dream_out_of_bounds_err lvl)) with false
        by (destruct Hl as [->|[->| ->]], by_level; reflexivity).
      cbn [bind]. rewrite IH. apply bind_ext. intros h' _. fold (all_in nt l). destruct (all_in nt l); reflexivity.
  Qed.

  (** Levels which stop. *)
  Definition bails (lvl : ErrorLevel) : Prop := lvl = lvl_stop \/ lvl = lvl_parallel_stop.

  Lemma feed_put_bail by_level att lvl nt l : bails lvl -> representable K l ->
    forall h err, feed (put K by_level att lvl nt 0) l (h, err) =
    do h' <- emit_all att nt (before_first_out nt l) h;
    Ok (if all_in nt l then Go (h', err) else Ret (h', err_oob)).
  Proof.
    intros Hl Hr. induction l as [|c l IH]; intros h err; [reflexivity|].
    inversion Hr as [|c0 l0 (z & Ez & Hz) Hr']; subst. specialize (IH Hr').
    cbn [feed put all_in forallb before_first_out].
    rewrite (to_idx_some c z Ez Hz). cbn [bind].
    assert (Hw : in_window nt c = ((0 <=? z) && (z <? nt))) by (unfold in_window; rewrite Ez; reflexivity).
    rewrite Hw. replace ((z <? nt) && (0 <=? z)) with ((0 <=? z) && (z <? nt)) by apply andb_comm.
    destruct ((0 <=? z) && (z <? nt)) eqn:Ew; cbn [andb].
    - rewrite emit_all_cons, Ez, Hw.
      destruct (emit att 0 z (c_r c) (c_ai c) h) as [h'|u|]; cbn [bind]; auto.
    - replace (dream_out_of_bounds_err lvl) with err_oob by (destruct Hl as [-> | ->]; reflexivity).
      replace (bail by_level lvl err_oob) with true by (destruct Hl as [-> | ->], by_level; reflexivity).
      reflexivity.
  Qed.

  Lemma accumulate_cons nt c l (h : buf) : accumulate nt (c :: l) h =
    accumulate nt l (match sample_of c with
      | Some z => if in_window nt c then upd h (Z.to_nat z) (fun x => nadd x (c_ai c)) else h
      | None => h
      end).
  Proof. reflexivity. Qed.

  (** Lossless emission never fails and is plain accumulation. *)
  Lemma emit_all_lossless nt l : forall h, length h = Z.to_nat nt ->
    emit_all None nt l h = Ok (accumulate nt l h).
  Proof.
    induction l as [|c l IH]; intros h Hh; [reflexivity|].
    rewrite emit_all_cons, accumulate_cons.
    destruct (sample_of c) as [z|] eqn:Ez; cbn [bind]; [|now apply IH].
    destruct (in_window nt c) eqn:Ew; cbn [bind]; [|now apply IH].
    unfold in_window in Ew. rewrite Ez in Ew.
    cbn [emit emit_plain]. unfold emit_plain. rewrite Z.add_0_l, buf_upd_ok by lia. cbn [bind].
    apply IH. now rewrite length_upd.
  Qed.

  Lemma length_accumulate nt l : forall h : buf, length (accumulate nt l h) = length h.
  Proof.
    induction l as [|c l IH]; intros h; [reflexivity|].
    rewrite accumulate_cons, IH.
    destruct (sample_of c); auto. destruct (in_window nt c); auto. apply length_upd.
  Qed.

  (** ** run_scanner *)
  Lemma clear_zeros nt (h : buf) : length h = Z.to_nat nt -> clear_h 0 nt h = Ok (zeros nt).
  Proof.
    intros Hh. unfold clear_h, for_loop, zeros.
    assert (G : forall n i (h : buf), length h = (i + n)%nat ->
       for_from (Z.of_nat i) n (fun i h => buf_upd h (0 + i) (fun _ => nofZ 0)) h
       = Ok (firstn i h ++ repeat (nofZ 0) n)).
    { induction n as [|n IH]; intros i h0 H0; cbn [for_from].
      - cbn. rewrite app_nil_r, firstn_all2 by lia. reflexivity.
      - rewrite Z.add_0_l, buf_upd_ok by lia. cbn [bind].
        replace (Z.of_nat i + 1) with (Z.of_nat (S i)) by lia.
        rewrite IH by (rewrite length_upd; lia). f_equal.
        rewrite Nat2Z.id.
        assert (E : firstn (S i) (upd h0 i (fun _ => nofZ 0)) = firstn i h0 ++ [nofZ (n:=N) 0]).
        { clear IH. revert h0 H0. induction i as [|i IHi]; intros [|x t] H0; cbn in H0; try lia.
          - reflexivity.
          - cbn. f_equal. apply IHi. lia. }
        rewrite E, <- app_assoc. reflexivity. }
    specialize (G (Z.to_nat nt) O h Hh). exact G.
  Qed.

  Definition start_buf (Sc : scanner N) (nt : Z) (h : buf) : buf := if sc_clear Sc then zeros nt else h.

  Lemma length_start_buf Sc nt h : length h = Z.to_nat nt -> length (start_buf Sc nt h) = Z.to_nat nt.
  Proof. unfold start_buf, zeros. destruct (sc_clear Sc); auto. now rewrite repeat_length. Qed.

  Lemma run_scanner_feed fuel Sc att lvl nt l h :
    source_points fuel Sc = Some l -> length h = Z.to_nat nt ->
    run_scanner K fuel Sc att lvl nt 0 h =
    do r <- feed (put K (sc_by_level Sc) att lvl nt 0) l (start_buf Sc nt h, err_none);
    match r with Go s => Ok s | Ret s => Ok s end.
  Proof.
    intros Hp Hh. unfold run_scanner, start_buf.
    destruct (sc_clear Sc); [rewrite clear_zeros by exact Hh|]; cbn [bind];
      rewrite (run_loops_feed _ _ _ _ _ Hp); reflexivity.
  Qed.

  Theorem run_scanner_nobail fuel Sc att lvl nt l h :
    source_points fuel Sc = Some l -> length h = Z.to_nat nt -> representable K l -> no_bail lvl ->
    run_scanner K fuel Sc att lvl nt 0 h =
    do h' <- emit_all att nt l (start_buf Sc nt h);
    Ok (h', if all_in nt l then err_none else dream_out_of_bounds_err lvl).
  Proof.
    intros Hp Hh Hr Hl. rewrite (run_scanner_feed fuel Sc att lvl nt l h Hp Hh).
    rewrite feed_put_nobail by auto.
    destruct (emit_all att nt l (start_buf Sc nt h)); reflexivity.
  Qed.

  Theorem run_scanner_bail fuel Sc att lvl nt l h :
    source_points fuel Sc = Some l -> length h = Z.to_nat nt -> representable K l -> bails lvl ->
    run_scanner K fuel Sc att lvl nt 0 h =
    do h' <- emit_all att nt (before_first_out nt l) (start_buf Sc nt h);
    Ok (h', if all_in nt l then err_none else err_oob).
  Proof.
    intros Hp Hh Hr Hl. rewrite (run_scanner_feed fuel Sc att lvl nt l h Hp Hh).
    rewrite feed_put_bail by auto.
    destruct (emit_all att nt (before_first_out nt l) (start_buf Sc nt h)); cbn [bind]; auto.
    destruct (all_in nt l); reflexivity.
  Qed.

  Lemma before_first_out_all nt (l : list (contrib N)) : all_in nt l = true -> before_first_out nt l = l.
  Proof.
    induction l as [|c l IH]; cbn; auto. destruct (in_window nt c); cbn; [|discriminate].
    intros H. rewrite IH; auto.
  Qed.
End Enum.
