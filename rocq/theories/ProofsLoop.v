(** ProofsLoop.v - for loops that fill a buffer. *)
From Verif Require Import Base BaseLemmas.
From Coq Require Import ZifyBool ZifyNat.

Lemma get_nth {A} (l : list A) z d : 0 <= z < Z.of_nat (length l) -> buf_get l z = Ok (nth (Z.to_nat z) l d).
Proof.
  intros H. destruct (buf_get_ok l z H) as (x & E & ->). f_equal. symmetry. now apply nth_error_nth.
Qed.

Lemma nth_updg {A} (d : A) (h : list A) k j f : (k < length h)%nat ->
  nth j (upd h k f) d = if Nat.eqb k j then f (nth j h d) else nth j h d.
Proof.
  revert k j; induction h as [|x t IH]; intros [|k] [|j] H; cbn in *; try lia; auto.
  apply IH. lia.
Qed.

Lemma for_upd_from {A} (d : A) (off : nat) (body : Z -> list A -> res (list A)) (f : nat -> A -> A) :
  forall n i h0, (off + i + n <= length h0)%nat ->
  (forall j h, (i <= j < i + n)%nat -> length h = length h0 -> body (Z.of_nat j) h = Ok (upd h (off + j) (f j))) ->
  exists h', for_from (Z.of_nat i) n body h0 = Ok h' /\ length h' = length h0 /\
    forall j, nth j h' d = if ((off + i <=? j)%nat && (j <? off + i + n)%nat)%bool then f (j - off)%nat (nth j h0 d) else nth j h0 d.
Proof.
  induction n as [|n IH]; intros i h0 Hl Hb.
  - exists h0. cbn [for_from]. repeat split; auto. intros j. replace (_ && _) with false by lia. reflexivity.
  - cbn [for_from]. rewrite Hb by (auto; lia). cbn [bind].
    replace (Z.of_nat i + 1) with (Z.of_nat (S i)) by lia.
    destruct (IH (S i) (upd h0 (off + i) (f i))) as (h' & E & L & Hn).
    + rewrite length_upd. lia.
    + intros j h Hj Hh. rewrite length_upd in Hh. apply Hb; auto. lia.
    + exists h'. rewrite length_upd in L. repeat split; auto.
      intros j. rewrite Hn, nth_updg by lia.
      destruct (Nat.eqb (off + i) j) eqn:Ej.
      * apply Nat.eqb_eq in Ej. replace (_ && _) with false by lia. replace (_ && _) with true by lia.
        replace (j - off)%nat with i by lia. reflexivity.
      * apply Nat.eqb_neq in Ej.
        destruct ((off + S i <=? j)%nat && (j <? off + S i + n)%nat) eqn:E1.
        -- replace (_ && _) with true by lia. reflexivity.
        -- replace (_ && _) with false by lia. reflexivity.
Qed.

Lemma for_upd {A} (d : A) (off : nat) (n : Z) (body : Z -> list A -> res (list A)) (f : nat -> A -> A) h0 :
  (off + Z.to_nat n <= length h0)%nat ->
  (forall j h, (j < Z.to_nat n)%nat -> length h = length h0 -> body (Z.of_nat j) h = Ok (upd h (off + j) (f j))) ->
  exists h', for_loop n body h0 = Ok h' /\ length h' = length h0 /\
    forall j, nth j h' d = if ((off <=? j)%nat && (j <? off + Z.to_nat n)%nat)%bool then f (j - off)%nat (nth j h0 d) else nth j h0 d.
Proof.
  intros Hl Hb. unfold for_loop.
  destruct (for_upd_from d off body f (Z.to_nat n) 0 h0) as (h' & E & L & Hn).
  - lia.
  - intros j h Hj. apply Hb. lia.
  - exists h'. repeat split; auto. intros j. rewrite Hn.
    replace (off + 0)%nat with off by lia. reflexivity.
Qed.

(** A for loop as iteration of a pure step, with an invariant. *)
Lemma for_inv {S} (I : nat -> S -> Prop) (n : Z) (body : Z -> S -> res S) (s0 : S) :
  I O s0 ->
  (forall j s, (j < Z.to_nat n)%nat -> I j s -> exists s', body (Z.of_nat j) s = Ok s' /\ I (Datatypes.S j) s') ->
  exists s', for_loop n body s0 = Ok s' /\ I (Z.to_nat n) s'.
Proof.
  intros H0 Hs. unfold for_loop.
  assert (G : forall k i s, (i + k = Z.to_nat n)%nat -> I i s ->
    exists s', for_from (Z.of_nat i) k body s = Ok s' /\ I (Z.to_nat n) s').
  { induction k as [|k IH]; intros i s Hik Hi.
    - exists s. split; [reflexivity|]. replace (Z.to_nat n) with i by lia. exact Hi.
    - destruct (Hs i s) as (s1 & E & H1); [lia|exact Hi|]. cbn [for_from]. rewrite E. cbn [bind].
      replace (Z.of_nat i + 1) with (Z.of_nat (Datatypes.S i)) by lia. apply IH; [lia|exact H1]. }
  apply (G (Z.to_nat n) O s0); auto.
Qed.

Lemma nth_ext_len {A} (d : A) (l l' : list A) : length l = length l' -> (forall k, (k < length l)%nat -> nth k l d = nth k l' d) -> l = l'.
Proof. intros. eapply nth_ext; eauto. Qed.

Lemma for_noop {S} (n : Z) (s : S) : for_loop n (fun _ b => Ok b) s = Ok s.
Proof. unfold for_loop. generalize 0%Z. induction (Z.to_nat n) as [|m IH]; intros i; [reflexivity|]. cbn [for_from bind]. apply IH. Qed.
