(** ProofsLocal.v - memory safety and locality of every serial function, for
    an arbitrary number system. *)
From Verif Require Import Base BaseLemmas ModelSir ModelArr ModelSmp.
From Coq Require Import ZifyBool ZifyNat.
Ltac Zify.zify_post_hook ::= Z.div_mod_to_equations.

Section Local.
  Context {N : Num} (K : idx_kind).
  Local Notation buf := (list N).
  Local Notation st := (buf * SIRError)%type.

  (** [emb pre post]: the same state inside a larger buffer. *)
  Definition emb (pre post : buf) (c : buf) : buf := pre ++ c ++ post.
  Definition emb_st (pre post : buf) (s : st) : st := (emb pre post (fst s), snd s).

  (** [f base h] behaves on the slice at [base] as on a buffer of its own. *)
  Definition local (n : nat) (f : Z -> buf -> res buf) : Prop :=
    forall col, length col = n ->
      good (fun c => length c = n) (f 0 col) /\
      forall pre post, f (Z.of_nat (length pre)) (emb pre post col) = rmap (emb pre post) (f 0 col).
  Definition local_st (n : nat) (f : Z -> buf -> res st) : Prop :=
    forall col, length col = n ->
      good (fun s => length (fst s) = n) (f 0 col) /\
      forall pre post, f (Z.of_nat (length pre)) (emb pre post col) = rmap (emb_st pre post) (f 0 col).

  Lemma good_Ok {A} (P : A -> Prop) (r : res A) a : good P r -> r = Ok a -> P a.
  Proof. intros H ->. exact H. Qed.

  (** The generic for loop over the samples of the column. *)
  Lemma local_for (n : nat) (m : Z) (body : Z -> Z -> buf -> res buf) :
    (forall j, 0 <= j < m -> local n (fun base => body base j)) ->
    local n (fun base => for_loop m (body base)).
  Proof.
    intros Hb col Hc. split.
    - apply (for_loop_good' (fun c : buf => length c = n)); auto.
      intros j s Hj Hs. apply (Hb j Hj s Hs).
    - intros pre post.
      apply (for_loop_sim (emb pre post) (fun c : buf => length c = n)); auto.
      + intros j s Hj Hs. apply (Hb j Hj s Hs).
      + intros j s s' Hj Hs E. exact (good_Ok _ _ _ (proj1 (Hb j Hj s Hs)) E).
  Qed.

  Lemma local_upd (n : nat) (i : Z) (f : N -> N) : 0 <= i < Z.of_nat n ->
    local n (fun base h => buf_upd h (base + i) f).
  Proof.
    intros Hi col Hc. split.
    - apply buf_upd_good; auto. lia.
    - intros pre post. unfold emb. rewrite Z.add_0_l. apply buf_upd_mid. lia.
  Qed.

  Lemma local_bind_const {X} (n : nat) (m : res X) (f : X -> Z -> buf -> res buf) :
    good (fun _ => True) m ->
    (forall x, m = Ok x -> local n (f x)) ->
    local n (fun base h => bind m (fun x => f x base h)).
  Proof.
    intros Hm Hf. destruct m as [x|[]|]; cbn in *; try contradiction.
    - apply Hf; reflexivity.
    - intros col Hc; split; cbn; auto.
    - intros col Hc; split; cbn; auto.
  Qed.

  Lemma clear_local ntz : local (Z.to_nat ntz) (fun base => clear_h base ntz).
  Proof. unfold clear_h. apply local_for. intros j Hj. apply local_upd. lia. Qed.

  (** ** Attenuation *)
  Definition att_ok (ntz : Z) (p : att_plan N) : Prop :=
    att_len p = ntz /\ forall xc, length xc = Z.to_nat (att_len p) ->
                                  length (att_c2r p xc) = Z.to_nat (att_len p).

  Lemma att_spectrum_good (p : att_plan N) r it xc0 :
    0 < att_len p -> length xc0 = Z.to_nat (att_len p) ->
    good (fun xc => length xc = Z.to_nat (att_len p)) (att_spectrum p r it xc0).
  Proof.
    intros Hp Hl. unfold att_spectrum. eapply good_bind.
    - apply (buf_upd_good xc0 0 _ (Z.to_nat (att_len p))); auto. lia.
    - intros xc Hxc.
      apply (for_loop_good' (fun xc => length xc = Z.to_nat (att_len p))); auto.
      intros j s Hj Hs. cbv beta in *. destruct (att_bin p r it (j + 1)) as [re im].
      eapply good_bind.
      + apply (buf_upd_good s (j + 1) _ (Z.to_nat (att_len p))); auto. lia.
      + intros s' Hs'. cbv beta in *. apply buf_upd_good; auto. lia.
  Qed.

  Lemma emit_att_local ntz p it r ai : att_ok ntz p -> 0 < ntz ->
    local (Z.to_nat ntz) (fun base => emit_att p base it r ai).
  Proof.
    intros [Hlen Hc2r] Hnt. unfold emit_att. rewrite Hlen in *.
    assert (Hsp : good (fun xc => length xc = Z.to_nat ntz)
                    (att_spectrum p r it (repeat (nofZ 0, nofZ 0) (Z.to_nat ntz)))).
    { rewrite <- Hlen. apply att_spectrum_good; rewrite ?Hlen; auto.
      rewrite repeat_length; auto. }
    intros col Hc.
    destruct (att_spectrum p r it (repeat (nofZ 0, nofZ 0) (Z.to_nat ntz))) as [xc|u|] eqn:E.
    - cbn [good] in Hsp. specialize (Hc2r xc Hsp).
      assert (L : local (Z.to_nat ntz) (fun base h =>
         for_loop ntz (fun i h => do xi <- buf_get (att_c2r p xc) i;
           buf_upd h (base + i) (fun y => nadd y (nmul ai xi))) h)).
      { apply local_for. intros j Hj. apply local_bind_const.
        - apply buf_get_good; auto. lia.
        - intros x _. apply local_upd. lia. }
      exact (L col Hc).
    - cbn in *. destruct u; try contradiction. auto.
    - cbn. auto.
  Qed.

  Definition att_wf (ntz : Z) (att : option (att_plan N)) : Prop :=
    match att with None => True | Some p => att_ok ntz p end.

  Lemma emit_local ntz att it r ai : att_wf ntz att -> 0 <= it < ntz ->
    local (Z.to_nat ntz) (fun base => emit att base it r ai).
  Proof.
    intros Ha Hit. destruct att as [p|]; cbn [emit].
    - apply emit_att_local; auto. lia.
    - unfold emit_plain. apply local_upd. lia.
  Qed.

  Lemma to_idx_good o (P : Z -> Prop) : (forall z, o = Some z -> P z) -> good P (to_idx K o).
  Proof.
    intros H. unfold to_idx. destruct o as [z|]; [|exact I]. destruct K.
    - destruct (_ && _); cbn; auto.
    - destruct (_ && _); cbn; auto.
  Qed.

  (** ** Scan loops *)
  Lemma put_local by_level att lvl ntz (c : contrib N) col err :
    att_wf ntz att -> length col = Z.to_nat ntz ->
    good (call_ (fun s : st => length (fst s) = Z.to_nat ntz) (fun s : st => length (fst s) = Z.to_nat ntz))
         (put K by_level att lvl ntz 0 c (col, err)) /\
    forall pre post,
      put K by_level att lvl ntz (Z.of_nat (length pre)) c (emb_st pre post (col, err)) =
      rmap (cmap (emb_st pre post) (emb_st pre post)) (put K by_level att lvl ntz 0 c (col, err)).
  Proof.
    intros Ha Hc. unfold put, emb_st; cbn [fst snd].
    pose proof (to_idx_good (nrint (c_arg c)) (fun _ => True) (fun _ _ => I)) as Hg.
    destruct (to_idx K (nrint (c_arg c))) as [it|u|] eqn:E; cbn [bind].
    2:{ split; [|reflexivity]. destruct u; auto. }
    2:{ split; [exact I|reflexivity]. }
    destruct ((it <? ntz) && (0 <=? it)) eqn:Ein.
    - destruct (emit_local ntz att it (c_r c) (c_ai c) Ha ltac:(lia) col Hc) as [G L].
      split.
      + eapply good_bind; [exact G|]. intros h' Hh'. exact Hh'.
      + intros pre post. rewrite L, bind_rmap, rmap_bind. apply bind_ext. reflexivity.
    - destruct (bail by_level lvl (dream_out_of_bounds_err lvl)); cbn; auto.
  Qed.

  Section Scan.
    Context {S S' A A' : Type} (I : S -> Prop) (Q : A -> Prop) (e : S -> S') (g : A -> A').

    Lemma scan_good (fuel : nat) (x0 xmax d : N) (pt : N -> S -> res (ctl S A)) :
      (forall x s, I s -> good (call_ I Q) (pt x s)) ->
      forall s, I s -> good (call_ I Q) (scan fuel x0 xmax d pt s).
    Proof.
      intros Hp s Hs. unfold scan. eapply good_bind.
      - apply (while_good (fun xs : N * S => I (snd xs)) Q); [|exact Hs].
        intros [x s0] H0 _. cbn [snd] in H0. eapply good_bind; [apply Hp; exact H0|].
        intros [s1|a] H; exact H.
      - intros [[x s1]|a] H; exact H.
    Qed.

    Lemma scan_sim (fuel : nat) (x0 xmax d : N) (pt : N -> S -> res (ctl S A)) (pt' : N -> S' -> res (ctl S' A')) :
      (forall x s, I s -> pt' x (e s) = rmap (cmap e g) (pt x s)) ->
      (forall x s, I s -> good (call_ I Q) (pt x s)) ->
      forall s, I s -> scan fuel x0 xmax d pt' (e s) = rmap (cmap e g) (scan fuel x0 xmax d pt s).
    Proof.
      intros Hp Hg s Hs. unfold scan.
      pose (e2 := fun xs : N * S => (fst xs, e (snd xs))).
      change (x0, e s) with (e2 (x0, s)).
      rewrite (while_sim e2 g (fun xs : N * S => I (snd xs)) (fun '(x, _) => nle x xmax) _
                 (fun '(x, s) => do c <- pt x s;
                    match c with Go s' => Ok (Go (nadd x d, s')) | Ret a => Ok (Ret a) end)).
      - rewrite bind_rmap, rmap_bind. apply bind_ext. intros [[x s1]|a] _; reflexivity.
      - intros [x s0] _. reflexivity.
      - intros [x s0] H0 _. cbn [e2 fst snd]. cbn [snd] in H0. rewrite Hp by exact H0.
        rewrite bind_rmap, rmap_bind. apply bind_ext. intros [s1|a] _; reflexivity.
      - intros [x s0] [x1 s1] H0 _ E. cbn [snd] in *. apply bind_Ok_inv in E as (c & Ec & E).
        specialize (Hg x s0 H0). rewrite Ec in Hg. destruct c as [s2|a]; [|discriminate].
        injection E as _ <-. exact Hg.
      - exact Hs.
    Qed.
  End Scan.

  Lemma run_scanner_local fuel (Sc : scanner N) att lvl ntz :
    att_wf ntz att ->
    local_st (Z.to_nat ntz) (fun base => run_scanner K fuel Sc att lvl ntz base).
  Proof.
    intros Ha.
    pose (I := fun s : st => length (fst s) = Z.to_nat ntz).
    assert (Hpg : forall (c : contrib N) (s : st), I s ->
              good (call_ I I) (put K (sc_by_level Sc) att lvl ntz 0 c s)).
    { intros c [h er] Hs. apply put_local; auto. }
    assert (Hps : forall pre post (c : contrib N) (s : st), I s ->
              put K (sc_by_level Sc) att lvl ntz (Z.of_nat (length pre)) c (emb_st pre post s) =
              rmap (cmap (emb_st pre post) (emb_st pre post)) (put K (sc_by_level Sc) att lvl ntz 0 c s)).
    { intros pre post c [h er] Hs. apply put_local; auto. }
    assert (Hlg : forall s, I s ->
              good (call_ I I) (run_loops fuel Sc (put K (sc_by_level Sc) att lvl ntz 0) s)).
    { intros s Hs. unfold run_loops. destruct (sc_outer Sc).
      - apply (scan_good I I); auto. intros x s0 H0. apply (scan_good I I); auto.
      - apply (scan_good I I); auto. }
    assert (Hls : forall pre post s, I s ->
              run_loops fuel Sc (put K (sc_by_level Sc) att lvl ntz (Z.of_nat (length pre))) (emb_st pre post s) =
              rmap (cmap (emb_st pre post) (emb_st pre post))
                   (run_loops fuel Sc (put K (sc_by_level Sc) att lvl ntz 0) s)).
    { intros pre post s Hs. unfold run_loops. destruct (sc_outer Sc).
      - apply (scan_sim I I); auto.
        + intros x s0 H0. apply (scan_sim I I); auto.
        + intros x s0 H0. apply (scan_good I I); auto.
      - apply (scan_sim I I); auto. }
    intros col Hc. unfold run_scanner.
    assert (Hcl : local (Z.to_nat ntz)
              (fun base h => if sc_clear Sc then clear_h base ntz h else Ok h)).
    { destruct (sc_clear Sc); [apply clear_local|].
      intros c1 H1; split; [exact H1|reflexivity]. }
    destruct (Hcl col Hc) as [Gc Lc]. split.
    - eapply good_bind; [exact Gc|]. intros h Hh. eapply good_bind.
      + apply Hlg. exact Hh.
      + intros [s|s] Hs; exact Hs.
    - intros pre post. rewrite Lc, bind_rmap, rmap_bind. apply bind_ext. intros h Eh.
      change (emb pre post h, err_none) with (emb_st pre post (h, err_none)).
      rewrite Hls by (exact (good_Ok _ _ _ Gc Eh)).
      rewrite bind_rmap, rmap_bind. apply bind_ext. intros [s|s] _; reflexivity.
  Qed.
End Local.
