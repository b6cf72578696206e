(** BaseLemmas.v - reasoning rules for the vocabulary of Base.v. *)
From Verif Require Import Base.
From Coq Require Import ZifyBool ZifyNat.
Ltac Zify.zify_post_hook ::= Z.div_mod_to_equations.

(** [good P r]: no access outside an array, and the result satisfies [P]. *)
Definition good {A} (P : A -> Prop) (r : res A) : Prop :=
  match r with
  | Ok a => P a
  | UB UB_cast => True
  | UB _ => False
  | Diverge => True
  end.

Definition rmap {A B} (f : A -> B) (r : res A) : res B :=
  match r with Ok a => Ok (f a) | UB u => UB u | Diverge => Diverge end.

Definition cmap {S S' A A'} (f : S -> S') (g : A -> A') (c : ctl S A) : ctl S' A' :=
  match c with Go s => Go (f s) | Ret a => Ret (g a) end.

Definition call_ {S A} (P : S -> Prop) (Q : A -> Prop) (c : ctl S A) : Prop :=
  match c with Go s => P s | Ret a => Q a end.

Lemma good_bind {A B} (P : A -> Prop) (Q : B -> Prop) (m : res A) (f : A -> res B) :
  good P m -> (forall a, P a -> good Q (f a)) -> good Q (bind m f).
Proof. destruct m as [a|[]|]; cbn; auto; contradiction. Qed.

Lemma good_imp {A} (P Q : A -> Prop) (m : res A) :
  (forall a, P a -> Q a) -> good P m -> good Q m.
Proof. destruct m as [a|[]|]; cbn; auto. Qed.

Lemma bind_Ok_inv {A B} (m : res A) (f : A -> res B) b :
  bind m f = Ok b -> exists a, m = Ok a /\ f a = Ok b.
Proof. destruct m; cbn; try discriminate. eauto. Qed.

Lemma rmap_bind {A B C} (m : res A) (f : A -> res B) (g : B -> C) :
  rmap g (bind m f) = bind m (fun a => rmap g (f a)).
Proof. destruct m; reflexivity. Qed.

Lemma bind_rmap {A B C} (m : res A) (g : A -> B) (f : B -> res C) :
  bind (rmap g m) f = bind m (fun a => f (g a)).
Proof. destruct m; reflexivity. Qed.

Lemma bind_ext {A B} (m : res A) (f g : A -> res B) :
  (forall a, m = Ok a -> f a = g a) -> bind m f = bind m g.
Proof. destruct m; cbn; auto. Qed.

(** ** while *)
Lemma while_good {S A} (I : S -> Prop) (Q : A -> Prop) cond body :
  (forall s, I s -> cond s = true -> good (call_ I Q) (body s)) ->
  forall fuel s, I s -> good (call_ I Q) (while (A:=A) fuel cond body s).
Proof.
  intros Hb fuel; induction fuel as [|f IH]; intros s Hs; cbn [while];
    destruct (cond s) eqn:Hc; cbn; auto.
  specialize (Hb s Hs Hc). destruct (body s) as [[s'|a]|[]|]; cbn in *; auto.
Qed.

Lemma while_sim {S S' A A'} (e : S -> S') (g : A -> A') (I : S -> Prop) cond cond' body body' :
  (forall s, I s -> cond' (e s) = cond s) ->
  (forall s, I s -> cond s = true -> body' (e s) = rmap (cmap e g) (body s)) ->
  (forall s s', I s -> cond s = true -> body s = Ok (Go s') -> I s') ->
  forall fuel s, I s ->
  while (A:=A') fuel cond' body' (e s) = rmap (cmap e g) (while (A:=A) fuel cond body s).
Proof.
  intros Hc Hb Hi fuel; induction fuel as [|f IH]; intros s Hs; cbn [while];
    rewrite (Hc s Hs); destruct (cond s) eqn:E; auto.
  rewrite (Hb s Hs E). destruct (body s) as [[s'|a]|u|] eqn:Eb; cbn; auto.
  apply IH. eapply Hi; eauto.
Qed.

(** ** for loops *)
Lemma for_from_good {S} (I : Z -> S -> Prop) body :
  forall n i s,
  (forall j s, i <= j < i + Z.of_nat n -> I j s -> good (I (j + 1)) (body j s)) ->
  I i s -> good (I (i + Z.of_nat n)) (for_from i n body s).
Proof.
  induction n as [|n IH]; intros i s Hb Hs; cbn [for_from].
  - rewrite Z.add_0_r. exact Hs.
  - eapply good_bind; [apply Hb; [lia|exact Hs]|].
    intros s' Hs'. replace (i + Z.of_nat (Datatypes.S n)) with ((i + 1) + Z.of_nat n) by lia.
    apply IH; auto. intros j s0 Hj. apply Hb; lia.
Qed.

Lemma for_loop_good {S} (I : Z -> S -> Prop) n body s :
  (forall j s, 0 <= j < n -> I j s -> good (I (j + 1)) (body j s)) ->
  I 0 s -> good (I (Z.max 0 n)) (for_loop n body s).
Proof.
  intros Hb Hs. unfold for_loop.
  replace (Z.max 0 n) with (0 + Z.of_nat (Z.to_nat n)) by lia.
  apply for_from_good; auto. intros j s0 Hj. apply Hb; lia.
Qed.

(** Invariant that does not mention the index. *)
Lemma for_loop_good' {S} (I : S -> Prop) n body s :
  (forall j s, 0 <= j < n -> I s -> good I (body j s)) ->
  I s -> good I (for_loop n body s).
Proof. intros Hb Hs. apply (for_loop_good (fun _ => I)); auto. Qed.

Lemma for_from_sim {S S'} (e : S -> S') (I : S -> Prop) body body' :
  forall n i,
  (forall j s, i <= j < i + Z.of_nat n -> I s -> body' j (e s) = rmap e (body j s)) ->
  (forall j s s', i <= j < i + Z.of_nat n -> I s -> body j s = Ok s' -> I s') ->
  forall s, I s -> for_from i n body' (e s) = rmap e (for_from i n body s).
Proof.
  induction n as [|n IH]; intros i Hb Hi s Hs; cbn [for_from]; auto.
  rewrite Hb by (auto; lia). rewrite bind_rmap, rmap_bind.
  apply bind_ext. intros s' E. apply IH.
  - intros; apply Hb; auto; lia.
  - intros j s0 s0' Hj; eapply Hi; lia.
  - eapply Hi; eauto; lia.
Qed.

Lemma for_loop_sim {S S'} (e : S -> S') (I : S -> Prop) body body' n :
  (forall j s, 0 <= j < n -> I s -> body' j (e s) = rmap e (body j s)) ->
  (forall j s s', 0 <= j < n -> I s -> body j s = Ok s' -> I s') ->
  forall s, I s -> for_loop n body' (e s) = rmap e (for_loop n body s).
Proof.
  intros Hb Hi s Hs. unfold for_loop. apply (for_from_sim e I); auto.
  - intros; apply Hb; auto; lia.
  - intros j s0 s' Hj; apply Hi; lia.
Qed.

Lemma for_from_ext {S} (b1 b2 : Z -> S -> res S) :
  forall n i s, (forall j s, i <= j < i + Z.of_nat n -> b1 j s = b2 j s) ->
  for_from i n b1 s = for_from i n b2 s.
Proof.
  induction n as [|n IH]; intros i s H; cbn [for_from]; auto.
  rewrite H by lia. apply bind_ext. intros; apply IH. intros; apply H; lia.
Qed.

(** ** Buffers *)
Section Buf.
  Context {A : Type}.
  Implicit Types (h : list A).

  Lemma length_upd h : forall k f, length (upd h k f) = length h.
  Proof. induction h as [|x t IH]; intros [|k] f; cbn; auto. Qed.

  Lemma nth_error_upd h : forall k j f,
    nth_error (upd h k f) j =
    if Nat.eqb k j then option_map f (nth_error h j) else nth_error h j.
  Proof.
    induction h as [|x t IH]; intros [|k] [|j] f; cbn; auto.
    - destruct (Nat.eqb k j); reflexivity.
  Qed.

  Lemma upd_app_r h1 h2 k f :
    upd (h1 ++ h2) (length h1 + k) f = h1 ++ upd h2 k f.
  Proof. induction h1 as [|x t IH]; cbn; auto. now rewrite IH. Qed.

  Lemma upd_app_l h1 h2 k f : (k < length h1)%nat -> upd (h1 ++ h2) k f = upd h1 k f ++ h2.
  Proof.
    revert k; induction h1 as [|x t IH]; intros [|k] H; cbn in *; try lia; auto.
    rewrite IH by lia. reflexivity.
  Qed.

  Lemma in_range_spec h k : in_range h k = true <-> 0 <= k < Z.of_nat (length h).
  Proof. unfold in_range. lia. Qed.

  Lemma buf_upd_ok h k f : 0 <= k < Z.of_nat (length h) ->
    buf_upd h k f = Ok (upd h (Z.to_nat k) f).
  Proof. intros H. unfold buf_upd. now rewrite (proj2 (in_range_spec h k) H). Qed.

  Lemma buf_upd_inv h k f h' : buf_upd h k f = Ok h' ->
    0 <= k < Z.of_nat (length h) /\ h' = upd h (Z.to_nat k) f.
  Proof.
    unfold buf_upd. destruct (in_range h k) eqn:E; try discriminate.
    intros [= <-]. split; auto. now apply in_range_spec.
  Qed.

  Lemma buf_get_ok h k : 0 <= k < Z.of_nat (length h) ->
    exists x, nth_error h (Z.to_nat k) = Some x /\ buf_get h k = Ok x.
  Proof.
    intros H. unfold buf_get. rewrite (proj2 (in_range_spec h k) H).
    destruct (nth_error h (Z.to_nat k)) eqn:E; eauto.
    apply nth_error_None in E. lia.
  Qed.

  Lemma buf_get_good h k (P : A -> Prop) : 0 <= k < Z.of_nat (length h) ->
    (forall x, nth_error h (Z.to_nat k) = Some x -> P x) -> good P (buf_get h k).
  Proof. intros H HP. destruct (buf_get_ok h k H) as (x & E & ->). cbn. auto. Qed.

  Lemma buf_get_inv h k x : buf_get h k = Ok x ->
    0 <= k < Z.of_nat (length h) /\ nth_error h (Z.to_nat k) = Some x.
  Proof.
    unfold buf_get. destruct (in_range h k) eqn:E; try discriminate.
    destruct (nth_error h (Z.to_nat k)) eqn:F; try discriminate.
    intros [= <-]. split; auto. now apply in_range_spec.
  Qed.

  Lemma buf_get_nth h k x d : buf_get h k = Ok x -> nth (Z.to_nat k) h d = x.
  Proof. intros H. apply buf_get_inv in H as [_ H]. now apply nth_error_nth. Qed.

  Lemma buf_upd_good h k f n : 0 <= k < Z.of_nat (length h) -> length h = n ->
    good (fun h' => length h' = n) (buf_upd h k f).
  Proof. intros H E. rewrite buf_upd_ok by exact H. cbn. now rewrite length_upd. Qed.

  (** A write into the middle part of a buffer. *)
  Lemma buf_upd_mid (pre col post : list A) i f : 0 <= i < Z.of_nat (length col) ->
    buf_upd (pre ++ col ++ post) (Z.of_nat (length pre) + i) f =
    rmap (fun c => pre ++ c ++ post) (buf_upd col i f).
  Proof.
    intros H. rewrite !buf_upd_ok by (rewrite ?app_length; lia). cbn [rmap]. f_equal.
    replace (Z.to_nat (Z.of_nat (length pre) + i)) with (length pre + Z.to_nat i)%nat by lia.
    rewrite upd_app_r, upd_app_l by lia. reflexivity.
  Qed.
End Buf.

(** Lists that agree at every index are equal. *)
Lemma nth_error_ext {A} (l1 l2 : list A) :
  (forall i, nth_error l1 i = nth_error l2 i) -> l1 = l2.
Proof.
  revert l2; induction l1 as [|x t IH]; intros [|y u] H; auto.
  - specialize (H O); discriminate.
  - specialize (H O); discriminate.
  - pose proof (H O) as H0; cbn in H0. injection H0 as ->. f_equal.
    apply IH. intros i. exact (H (S i)).
Qed.
