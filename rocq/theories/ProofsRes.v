(** ProofsRes.v - invariant of the interleavings of ModelRes. *)
From Coq Require Import List ZArith Bool Lia Arith.
From Verif Require Import SpecRes ModelRes.
Import ListNotations.

Definition cnt {A} (f : A -> bool) (l : list A) : nat := length (filter f l).
Lemma cnt_app {A} (f : A -> bool) l1 l2 : cnt f (l1 ++ l2) = (cnt f l1 + cnt f l2)%nat.
Proof. unfold cnt. now rewrite filter_app, app_length. Qed.
Lemma cnt_cons {A} (f : A -> bool) a l : cnt f (a :: l) = ((if f a then 1 else 0) + cnt f l)%nat.
Proof. unfold cnt. cbn [filter]. destruct (f a); reflexivity. Qed.
Lemma cnt_repeat {A} (f : A -> bool) a n : cnt f (repeat a n) = if f a then n else 0%nat.
Proof. induction n as [|n IH]; cbn [repeat]; [now destruct (f a)|]. rewrite cnt_cons, IH. destruct (f a); reflexivity. Qed.
Lemma cnt_pos {A} (f : A -> bool) l x : In x l -> f x = true -> (0 < cnt f l)%nat.
Proof. intros H Hf. induction l as [|a l IH]; [easy|]. rewrite cnt_cons. destruct H as [->|H]; [rewrite Hf; lia|]. specialize (IH H). lia. Qed.
Lemma cnt_zero {A} (f : A -> bool) l : (forall x, In x l -> f x = false) -> cnt f l = 0%nat.
Proof. induction l as [|a l IH]; intros H; [reflexivity|]. rewrite cnt_cons, (H a) by now left. apply IH. intros x Hx. apply H. now right. Qed.
Lemma cnt_in {A} (f : A -> bool) l : (0 < cnt f l)%nat -> exists x, In x l /\ f x = true.
Proof.
  induction l as [|a l IH]; [cbn; lia|]. rewrite cnt_cons. destruct (f a) eqn:E; [intros _; exists a; split; [now left|exact E]|].
  intros H. destruct (IH ltac:(lia)) as (x & Hx & Ex). exists x. split; [now right|exact Ex].
Qed.
Definition is_take r (d : deed) := match d with Take r' => thing_eq r r' | _ => false end.
Definition is_give r (d : deed) := match d with Give r' => thing_eq r r' | _ => false end.
Definition is_spawn i (d : deed) := match d with Spawn j => Nat.eqb i j | _ => false end.
Definition is_join i (d : deed) := match d with Join j => Nat.eqb i j | _ => false end.
Lemma taken_cnt r l : taken r l = cnt (is_take r) l. Proof. reflexivity. Qed.
Lemma given_cnt r l : given r l = cnt (is_give r) l. Proof. reflexivity. Qed.
Lemma spawned_cnt r l : spawned r l = cnt (is_spawn r) l. Proof. reflexivity. Qed.
Lemma joined_cnt r l : joined r l = cnt (is_join r) l. Proof. reflexivity. Qed.

(** Deeds of the caller's program. *)
Definition deed_of (x : instr) : list deed := match x with Do d => [d] | Start i => [Spawn i] | Wait i => [Join i] | _ => [] end.
Definition deeds_of (p : list instr) : list deed := flat_map deed_of p.
Lemma deeds_of_app p q : deeds_of (p ++ q) = deeds_of p ++ deeds_of q.
Proof. unfold deeds_of. apply flat_map_app. Qed.
Lemma deeds_of_repeat d n : deeds_of (repeat (Do d) n) = repeat d n.
Proof. induction n as [|n IH]; [reflexivity|]. cbn. now rewrite <- IH. Qed.

(** Use and release with k held. *)
Fixpoint fine (r : thing) (k : nat) (l : list deed) : Prop :=
  match l with
  | [] => True
  | d :: l =>
    (d = Use r \/ d = Give r -> (0 < k)%nat) /\ fine r (k + (if is_take r d then 1 else 0) - (if is_give r d then 1 else 0)) l
  end.
Lemma thing_eq_spec a b : thing_eq a b = true <-> a = b.
Proof. split; [|intros ->; destruct b; reflexivity]. destruct a, b; cbn; congruence. Qed.
Lemma fine_app r l1 : forall k l2, fine r k l1 -> fine r (k + taken r l1 - given r l1) l2 -> fine r k (l1 ++ l2).
Proof.
  induction l1 as [|d l1 IH]; intros k l2 H1 H2.
  - cbn in H2 |- *. now replace (k + 0 - 0)%nat with k in H2 by lia.
  - cbn [fine app] in *. destruct H1 as [A B]. split; [exact A|]. apply IH; [exact B|].
    rewrite taken_cnt, given_cnt, !cnt_cons in H2. rewrite taken_cnt, given_cnt.
    assert (E : (k + ((if is_take r d then 1 else 0) + cnt (is_take r) l1) - ((if is_give r d then 1 else 0) + cnt (is_give r) l1) =
      k + (if is_take r d then 1 else 0) - (if is_give r d then 1 else 0) + cnt (is_take r) l1 - cnt (is_give r) l1)%nat).
    { destruct (is_give r d) eqn:Eg; [|lia]. assert (is_take r d = false) by (destruct d; cbn in *; congruence). rewrite H.
      assert (d = Give r) by (destruct d; cbn in Eg; try discriminate; apply thing_eq_spec in Eg; now subst). specialize (A (or_intror H0)). lia. }
    now rewrite E in H2.
Qed.
Lemma fine_le r l : forall k, fine r k l -> (given r l <= k + taken r l)%nat.
Proof.
  induction l as [|d l IH]; intros k H; [cbn; lia|]. cbn [fine] in H. destruct H as [A B]. specialize (IH _ B).
  rewrite taken_cnt, given_cnt in *. rewrite !cnt_cons. destruct (is_give r d) eqn:Eg; [|lia].
  assert (d = Give r) by (destruct d; cbn in Eg; try discriminate; apply thing_eq_spec in Eg; now subst). specialize (A (or_intror H)). lia.
Qed.
Lemma fine_at r l1 d l2 k : fine r k (l1 ++ d :: l2) -> d = Use r \/ d = Give r -> (given r l1 < k + taken r l1)%nat.
Proof.
  revert k. induction l1 as [|e l1 IH]; intros k H Hd.
  - cbn [app fine] in H. cbn. destruct H as [A _]. specialize (A Hd). lia.
  - cbn [app fine] in H. destruct H as [A B]. specialize (IH _ B Hd). rewrite taken_cnt, given_cnt in *. rewrite !cnt_cons.
    destruct (is_give r e) eqn:Eg; [|lia].
    assert (e = Give r) by (destruct e; cbn in Eg; try discriminate; apply thing_eq_spec in Eg; now subst). specialize (A (or_intror H)). lia.
Qed.
Lemma fine_more r l : forall k k', (k <= k')%nat -> fine r k l -> fine r k' l.
Proof.
  induction l as [|d l IH]; intros k k' Hk H; [exact I|]. cbn [fine] in *. destruct H as [A B]. split; [intros Hd; specialize (A Hd); lia|].
  eapply IH; [|exact B]. lia.
Qed.
(** No taking, giving or using of r. *)
Lemma fine_other r k l : (forall d, In d l -> d <> Use r /\ is_give r d = false) -> fine r k l.
Proof.
  revert k. induction l as [|d l IH]; intros k H; [exact I|]. cbn [fine]. destruct (H d ltac:(now left)) as [A B]. split.
  - intros [E|E]; [contradiction|]. subst d. cbn in B. assert (thing_eq r r = true) by now apply thing_eq_spec. congruence.
  - apply IH. intros e He. apply H. now right.
Qed.
(** Only uses of r. *)
Lemma fine_uses r k l : (0 < k)%nat -> (forall d, In d l -> is_give r d = false) -> fine r k l.
Proof.
  intros Hk H. revert k Hk. induction l as [|d l IH]; intros k Hk; [exact I|]. cbn [fine]. split; [intros _; exact Hk|].
  rewrite (H d ltac:(now left)). apply IH; [|lia]. intros e He. apply H. now right.
Qed.
Lemma proper_fine r l1 l2 : proper r l1 -> (given r l1 <= taken r l1)%nat -> fine r (taken r l1 - given r l1) l2 -> proper r (l1 ++ l2).
Proof.
  intros H Hle HF m1 d m2 E Hd.
  assert (D : (exists t, l1 = m1 ++ d :: t) \/ (exists t, m1 = l1 ++ t /\ l2 = t ++ d :: m2)).
  { clear -E. revert m1 E. induction l1 as [|a l1 IH]; intros m1 E; [right; exists m1; auto|].
    destruct m1 as [|b m1]; cbn [app] in E; injection E as -> E; [left; exists l1; reflexivity|].
    destruct (IH m1 E) as [[t ->]|(t & -> & ->)]; [left; exists t; reflexivity|right; exists t; auto]. }
  destruct D as [[t ->]|(t & -> & ->)]; [exact (H m1 d t eq_refl Hd)|].
  pose proof (fine_at r t d m2 _ HF Hd) as F. unfold held. rewrite taken_cnt, given_cnt in *. rewrite !cnt_app.
  rewrite !taken_cnt, !given_cnt in F. lia.
Qed.

(** ** Shape of the program *)
Definition is_begin i (x : instr) := match x with Start j | Call j => Nat.eqb i j | _ => false end.
Definition is_end i (x : instr) := match x with Wait j | Back j => Nat.eqb i j | _ => false end.
Lemma cnt_flat {B} (g : nat -> list B) (f : B -> bool) i c :
  (forall j, cnt f (g j) = if Nat.eqb i j then c else 0%nat) -> forall m a, cnt f (flat_map g (seq a m)) = if (a <=? i)%nat && (i <? a + m)%nat then c else 0%nat.
Proof.
  intros H. induction m as [|m IH]; intros a; cbn [seq flat_map].
  - destruct (a <=? i)%nat eqn:E1; [|reflexivity]. apply Nat.leb_le in E1. cbn [andb]. rewrite (proj2 (Nat.ltb_ge i (a + 0))) by lia. reflexivity.
  - rewrite cnt_app, H, IH. destruct (Nat.eqb_spec i a) as [->|Hn].
    + rewrite (proj2 (Nat.leb_gt (S a) a)) by lia. rewrite (proj2 (Nat.leb_le a a)) by lia. rewrite (proj2 (Nat.ltb_lt a (a + S m))) by lia. cbn [andb]. lia.
    + destruct (S a <=? i)%nat eqn:E1; [apply Nat.leb_le in E1|apply Nat.leb_gt in E1].
      * rewrite (proj2 (Nat.leb_le a i)) by lia. cbn [andb Nat.add]. replace (a + S m)%nat with (S a + m)%nat by lia. reflexivity.
      * rewrite (proj2 (Nat.leb_gt a i)) by lia. reflexivity.
Qed.
Lemma cnt_flat0 {B} (g : nat -> list B) (f : B -> bool) : (forall j, cnt f (g j) = 0%nat) -> forall m a, cnt f (flat_map g (seq a m)) = 0%nat.
Proof. intros H. induction m as [|m IH]; intros a; cbn [seq flat_map]; [reflexivity|]. now rewrite cnt_app, H, IH. Qed.

Section Host.
  Context (h : host) (n : nat).
  Local Notation prog := (program h n).
  Lemma before_begin i : cnt (is_begin i) (before h) = 0%nat /\ cnt (is_end i) (before h) = 0%nat.
  Proof. unfold before. rewrite !cnt_app, !cnt_repeat. destruct (table h); split; reflexivity. Qed.
  Lemma after_begin i : cnt (is_begin i) (after h) = 0%nat /\ cnt (is_end i) (after h) = 0%nat.
  Proof. unfold after. destruct (table h), (keeps h); split; reflexivity. Qed.
  Lemma prog_begin i : cnt (is_begin i) prog = if (i <? n)%nat then 1%nat else 0%nat.
  Proof.
    unfold program. rewrite !cnt_app, (proj1 (before_begin i)), (proj1 (after_begin i)).
    rewrite (cnt_flat _ _ i 1) by (intros j; unfold begin_worker; rewrite !cnt_cons; destruct (threaded h n); cbn; destruct (Nat.eqb i j); reflexivity).
    rewrite (cnt_flat0 _ _) by (intros j; unfold end_worker; destruct (threaded h n); reflexivity).
    cbn [Nat.leb andb Nat.add]. destruct (i <? n)%nat; reflexivity.
  Qed.
  Lemma prog_end i : cnt (is_end i) prog = if (i <? n)%nat then 1%nat else 0%nat.
  Proof.
    unfold program. rewrite !cnt_app, (proj2 (before_begin i)), (proj2 (after_begin i)).
    rewrite (cnt_flat0 (begin_worker h n) _) by (intros j; unfold begin_worker; destruct (threaded h n); reflexivity).
    rewrite (cnt_flat _ _ i 1) by (intros j; unfold end_worker; destruct (threaded h n); cbn; destruct (Nat.eqb i j); reflexivity).
    cbn [Nat.leb andb Nat.add]. destruct (i <? n)%nat; reflexivity.
  Qed.
  Lemma deeds_flat (g : nat -> list instr) m : forall a, deeds_of (flat_map g (seq a m)) = flat_map (fun i => deeds_of (g i)) (seq a m).
  Proof. induction m as [|m IH]; intros a; cbn [seq flat_map]; [reflexivity|]. now rewrite deeds_of_app, IH. Qed.
  Lemma deeds_prog : deeds_of prog =
    ((if table h then [Take RTable] else []) ++ repeat (Take RPlan) (plans h) ++ [Take RData; Take RArray]) ++
    flat_map (fun i => Use RData :: if threaded h n then [Spawn i] else []) (seq 0 n) ++
    flat_map (fun i => if threaded h n then [Join i; Use RData] else []) (seq 0 n) ++
    (Give RData :: if table h then if keeps h then [] else [Give RTable] else []).
  Proof.
    unfold program. rewrite !deeds_of_app. unfold before, after. rewrite !deeds_of_app, deeds_of_repeat, !deeds_flat.
    f_equal; [destruct (table h); reflexivity|]. f_equal; [|f_equal].
    - apply flat_map_ext. intros i. unfold begin_worker. destruct (threaded h n); reflexivity.
    - apply flat_map_ext. intros i. unfold end_worker. destruct (threaded h n); reflexivity.
    - destruct (table h), (keeps h); reflexivity.
  Qed.
  Lemma prog_counts r : shared r ->
    taken r (deeds_of prog) = match r with RData | RArray => 1%nat | RPlan => plans h | RTable => if table h then 1%nat else 0%nat | _ => 0%nat end /\
    given r (deeds_of prog) = match r with RData => 1%nat | RTable => if table h then if keeps h then 0%nat else 1%nat else 0%nat | _ => 0%nat end.
  Proof.
    intros Hr. rewrite deeds_prog, taken_cnt, given_cnt, !cnt_app, !cnt_cons, !cnt_repeat.
    rewrite !(cnt_flat0 (fun i => Use RData :: _)) by (intros j; destruct (threaded h n); reflexivity).
    rewrite !(cnt_flat0 (fun i => if threaded h n then [Join i; Use RData] else [])) by (intros j; destruct (threaded h n); reflexivity).
    destruct Hr as [H1 H2]. destruct r; try congruence; destruct (table h), (keeps h); cbn; lia.
  Qed.
  Lemma prog_own r : own r -> taken r (deeds_of prog) = 0%nat /\ given r (deeds_of prog) = 0%nat.
  Proof.
    intros Hr. rewrite deeds_prog, taken_cnt, given_cnt, !cnt_app, !cnt_cons, !cnt_repeat.
    rewrite !(cnt_flat0 (fun i => Use RData :: _)) by (intros j; destruct (threaded h n); reflexivity).
    rewrite !(cnt_flat0 (fun i => if threaded h n then [Join i; Use RData] else [])) by (intros j; destruct (threaded h n); reflexivity).
    destruct Hr as [-> | ->]; destruct (table h), (keeps h); cbn; lia.
  Qed.
  Lemma prog_spawn i : spawned i (deeds_of prog) = (if threaded h n && (i <? n)%nat then 1%nat else 0%nat) /\
    joined i (deeds_of prog) = (if threaded h n && (i <? n)%nat then 1%nat else 0%nat).
  Proof.
    rewrite deeds_prog, spawned_cnt, joined_cnt, !cnt_app, !cnt_cons, !cnt_repeat.
    rewrite (cnt_flat (fun j => Use RData :: if threaded h n then [Spawn j] else []) (is_spawn i) i (if threaded h n then 1 else 0)) by (intros j; destruct (threaded h n); cbn; destruct (Nat.eqb i j); reflexivity).
    rewrite (cnt_flat (fun j => if threaded h n then [Join j; Use RData] else []) (is_join i) i (if threaded h n then 1 else 0)) by (intros j; destruct (threaded h n); cbn; destruct (Nat.eqb i j); reflexivity).
    rewrite (cnt_flat0 _ (is_join i)) by (intros j; destruct (threaded h n); reflexivity).
    rewrite (cnt_flat0 _ (is_spawn i)) by (intros j; destruct (threaded h n); reflexivity).
    cbn [Nat.leb andb Nat.add]. generalize (i <? n)%nat; intros b. destruct (table h), (keeps h), (threaded h n), b; cbn; lia.
  Qed.
  Lemma fine_flat r (g : nat -> list deed) : (forall i, In i (seq 0 n) -> forall k, (0 < k)%nat -> fine r k (g i) /\ taken r (g i) = 0%nat /\ given r (g i) = 0%nat) ->
    forall k, (0 < k)%nat -> fine r k (flat_map g (seq 0 n)).
  Proof.
    intros H k Hk. assert (Gn : forall l, incl l (seq 0 n) -> fine r k (flat_map g l)); [|apply Gn; intros i Hi; exact Hi].
    induction l as [|i l IH]; intros Hl; [exact I|]. cbn [flat_map]. destruct (H i ltac:(apply Hl; now left) k Hk) as (A & B & C).
    apply fine_app; [exact A|]. rewrite B, C. replace (k + 0 - 0)%nat with k by lia. apply IH. intros j Hj. apply Hl. now right.
  Qed.
  Lemma fine_prog r : fine r 0 (deeds_of prog).
  Proof.
    rewrite deeds_prog. destruct (thing_eq r RData) eqn:ED; [apply thing_eq_spec in ED; subst r|].
    - apply fine_app.
      { apply fine_other. intros d Hd. apply in_app_or in Hd. destruct Hd as [Hd|Hd].
        - destruct (table h); [|easy]. destruct Hd as [<-|[]]. now split.
        - apply in_app_or in Hd. destruct Hd as [Hd|[<-|[<-|[]]]]; [apply repeat_spec in Hd; subst d| |]; now split. }
      match goal with |- fine _ ?k _ => assert (K : k = 1%nat) end.
      { rewrite taken_cnt, given_cnt, !cnt_app, !cnt_cons, !cnt_repeat. destruct (table h); reflexivity. }
      rewrite K. apply fine_app.
      { apply fine_flat; [|lia]. intros i _ k Hk. split; [apply fine_uses; [exact Hk|]; intros d Hd; destruct (threaded h n); cbn in Hd; intuition (subst; auto)|].
        destruct (threaded h n); split; reflexivity. }
      rewrite taken_cnt, given_cnt, !cnt_flat0 by (intros j; destruct (threaded h n); reflexivity). cbn [Nat.add Nat.sub].
      apply fine_app.
      { apply fine_flat; [|lia]. intros i _ k Hk. split; [apply fine_uses; [exact Hk|]; intros d Hd; destruct (threaded h n); cbn in Hd; intuition (subst; auto)|].
        destruct (threaded h n); split; reflexivity. }
      rewrite taken_cnt, given_cnt, !cnt_flat0 by (intros j; destruct (threaded h n); reflexivity). cbn [Nat.add Nat.sub fine].
      split; [intros _; lia|]. destruct (table h), (keeps h); cbn; auto. split; [|exact I]. intros [E|E]; discriminate.
    - destruct (thing_eq r RTable) eqn:ET; [apply thing_eq_spec in ET; subst r|].
      + destruct (table h) eqn:TB.
        * cbn [app fine]. split; [intros [E|E]; discriminate|]. change (0 + (if is_take RTable (Take RTable) then 1 else 0) - (if is_give RTable (Take RTable) then 1 else 0))%nat with 1%nat.
          rewrite !app_assoc. replace (Give RData :: (if keeps h then [] else [Give RTable])) with ([Give RData] ++ (if keeps h then [] else [Give RTable])) by reflexivity.
          rewrite !app_assoc. apply fine_app.
          -- apply fine_uses; [lia|]. intros d Hd. rewrite !in_app_iff in Hd. destruct Hd as [[[[Hd|Hd]|Hd]|Hd]|Hd].
             ++ apply repeat_spec in Hd. now subst.
             ++ cbn in Hd. intuition (subst; auto).
             ++ apply in_flat_map in Hd. destruct Hd as (i & _ & Hd). destruct (threaded h n); cbn in Hd; intuition (subst; auto).
             ++ apply in_flat_map in Hd. destruct Hd as (i & _ & Hd). destruct (threaded h n); cbn in Hd; intuition (subst; auto).
             ++ cbn in Hd. intuition (subst; auto).
          -- rewrite taken_cnt, given_cnt, !cnt_app, !cnt_repeat, !cnt_flat0 by (intros j; destruct (threaded h n); reflexivity). cbn.
             destruct (keeps h); cbn; intuition lia.
        * apply fine_other. intros d Hd. rewrite !in_app_iff in Hd. destruct Hd as [[[]|[Hd|Hd]]|[Hd|[Hd|Hd]]].
          ++ apply repeat_spec in Hd. subst. now split.
          ++ cbn in Hd. destruct Hd as [<-|[<-|[]]]; now split.
          ++ apply in_flat_map in Hd. destruct Hd as (i & _ & Hd). destruct (threaded h n); cbn in Hd; intuition (subst; auto; discriminate).
          ++ apply in_flat_map in Hd. destruct Hd as (i & _ & Hd). destruct (threaded h n); cbn in Hd; intuition (subst; auto; discriminate).
          ++ cbn in Hd. destruct Hd as [<-|[]]. now split.
      + assert (ND : forall d, d = Use RData \/ d = Give RData -> d <> Use r /\ is_give r d = false).
        { intros d [-> | ->]; (split; [|first [exact ED|reflexivity]]); try discriminate. intros E. injection E as <-. discriminate ED. }
        apply fine_other. intros d Hd. rewrite !in_app_iff in Hd. destruct Hd as [[Hd|[Hd|Hd]]|[Hd|[Hd|Hd]]].
        ++ destruct (table h); cbn in Hd; intuition (subst; try discriminate; auto).
        ++ apply repeat_spec in Hd. subst. now split.
        ++ cbn in Hd. destruct Hd as [<-|[<-|[]]]; now split.
        ++ apply in_flat_map in Hd. destruct Hd as (i & _ & Hd). destruct (threaded h n); cbn in Hd; destruct Hd as [<-|Hd]; try (apply ND; now left); try contradiction.
           destruct Hd as [<-|[]]. now split.
        ++ apply in_flat_map in Hd. destruct Hd as (i & _ & Hd). destruct (threaded h n); cbn in Hd; [|contradiction]. destruct Hd as [<-|[<-|[]]]; [now split|apply ND; now left].
        ++ cbn in Hd. destruct Hd as [<-|Hd]; [apply ND; now right|]. destruct (table h), (keeps h); cbn in Hd; try contradiction.
           destruct Hd as [<-|[]]. split; [discriminate|exact ET].
  Qed.

  (** Once a worker began, the caller holds everything; until all are finished
      it gives nothing back. *)
  Lemma split_front {A} (a b p q : list A) : a ++ b = p ++ q -> (exists t, p = a ++ t) \/ (exists t, a = p ++ t).
  Proof.
    revert p. induction a as [|x a IH]; intros p E; [left; exists p; reflexivity|].
    destruct p as [|y p]; [right; exists (x :: a); reflexivity|]. cbn [app] in E. injection E as -> E.
    destruct (IH p E) as [[t ->]|[t ->]]; [left|right]; exists t; reflexivity.
  Qed.
  Lemma begun_front p q i : prog = p ++ q -> (0 < cnt (is_begin i) p)%nat -> exists t, p = before h ++ t.
  Proof.
    intros E H. unfold program in E. destruct (split_front _ _ _ _ E) as [Ht|[t Et]]; [exact Ht|].
    pose proof (proj1 (before_begin i)) as Z. rewrite Et, cnt_app in Z. lia.
  Qed.
  Lemma unended_back p q i : prog = p ++ q -> (i < n)%nat -> cnt (is_end i) p = 0%nat ->
    exists t, before h ++ flat_map (begin_worker h n) (seq 0 n) ++ flat_map (end_worker h n) (seq 0 n) = p ++ t.
  Proof.
    intros E Hi H. unfold program in E. rewrite !app_assoc in E. rewrite <- (app_assoc (before h)) in E.
    destruct (split_front _ _ _ _ E) as [[t Et]|Ht]; [|exact Ht].
    exfalso. pose proof (prog_end i) as P. unfold program in P. rewrite !app_assoc, cnt_app, <- (app_assoc (before h)) in P.
    rewrite (proj2 (after_begin i)), (proj2 (Nat.ltb_lt _ _) Hi) in P.
    rewrite Et, cnt_app in H. lia.
  Qed.
  Lemma holding p q i r : prog = p ++ q -> (0 < cnt (is_begin i) p)%nat -> cnt (is_end i) p = 0%nat -> shared r ->
    given r (deeds_of p) = 0%nat /\ taken r (deeds_of p) = taken r (deeds_of prog).
  Proof.
    intros E Hb He Hr.
    assert (Hi : (i < n)%nat).
    { pose proof (prog_begin i) as B. rewrite E, cnt_app in B. destruct (i <? n)%nat eqn:L; [now apply Nat.ltb_lt|lia]. }
    destruct (unended_back p q i E Hi He) as [t Et]. destruct (begun_front p q i E Hb) as [t' Et'].
    assert (G0 : given r (deeds_of (before h ++ flat_map (begin_worker h n) (seq 0 n) ++ flat_map (end_worker h n) (seq 0 n))) = 0%nat).
    { rewrite !deeds_of_app, !deeds_flat, given_cnt, !cnt_app. rewrite !cnt_flat0 by (intros j; unfold begin_worker, end_worker; destruct (threaded h n); reflexivity).
      unfold before. rewrite !deeds_of_app, deeds_of_repeat, !cnt_app, cnt_repeat. destruct (table h); reflexivity. }
    split; [rewrite Et, deeds_of_app, given_cnt, cnt_app in G0; rewrite given_cnt; lia|].
    assert (T0 : taken r (deeds_of prog) = taken r (deeds_of (before h))).
    { unfold program. rewrite !deeds_of_app, !deeds_flat, !taken_cnt, !cnt_app. rewrite !cnt_flat0 by (intros j; unfold begin_worker, end_worker; destruct (threaded h n); reflexivity).
      unfold after. destruct (table h), (keeps h); cbn; lia. }
    rewrite T0. pose proof T0 as T1. rewrite E, deeds_of_app, taken_cnt, cnt_app in T1. rewrite Et' in T1 |- *.
    rewrite deeds_of_app in *. rewrite !taken_cnt, !cnt_app in *. lia.
  Qed.
End Host.
