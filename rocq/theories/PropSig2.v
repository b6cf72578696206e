(** PropSig2.v - property theorems C101: a call does not depend on the running
    flag that an earlier call, or a signal, left behind; a call whose workers
    stop by themselves ends with an error. *)
From Coq Require Import Lia List.
From Verif Require Import Base ModelGw ModelSig SpecSig ProofsSig.
Import ListNotations.

(** [inside] is the state the call is in: the rest of the call runs from it. *)
Theorem C101_inside : forall fe f p e1 e2 r,
  call fe f p (e1 ++ e2) = Some r -> e2 <> [] ->
  exists saved pr, run_call f (to_come (script fe f) e1) saved pr (inside fe f p e1) e2 = Some r.
Proof.
  intros fe f p e1 e2 r. unfold call, inside. generalize (fun _ : signal => Host) as sv. generalize false as pr. generalize (script fe f) as ops. revert p.
  induction e1 as [|e e1 IH]; intros p ops pr sv H He2.
  - exists sv, pr. destruct ops; exact H.
  - assert (Hne : e1 ++ e2 <> []) by (destruct e1; [exact He2|discriminate]).
    cbn [app run_call] in H. destruct e as [| | |s].
    + destruct ops as [|[|s|s| | |v] o]; cbn [proc_at to_come]; try exact (IH _ _ _ _ H He2).
      * destruct (e1 ++ e2); [congruence|discriminate].
      * destruct (flag p f); [exact (IH _ _ _ _ H He2)|]. destruct v; [|exact (IH _ _ _ _ H He2)].
        destruct (e1 ++ e2); [congruence|discriminate].
    + destruct ops as [|[]]; try discriminate. destruct (e1 ++ e2); [congruence|discriminate].
    + destruct ops as [|[]]; try discriminate. destruct (can_stop f); [|discriminate]. cbn [proc_at to_come]. exact (IH _ _ _ _ H He2).
    + cbn [proc_at to_come]. exact (IH _ _ _ _ H He2).
Qed.
Print Assumptions C101_inside.

(** Whatever calls, interrupts and errors came before (p is any process), a
    call that nothing disturbs computes with its flag up and ends normally.
    (das_uni has no flag.) *)
Theorem C101_fresh_start : forall fe f p, offered fe f = true ->
  (exists p', call fe f p (undisturbed (S (length (script fe f)))) = Some (p', Normal)) /\
  (f <> SDasUni -> forall n, computing fe f (undisturbed n) -> flag (inside fe f p (undisturbed n)) f = true) /\
  exists n, (n < length (script fe f))%nat /\ computing fe f (undisturbed n).
Proof.
  intros fe f p Ho.
  split; [|split].
  - destruct f as [[]| | | | | | | | | | |], fe; try discriminate; eexists; vm_compute; reflexivity.
  - intros Hf n [o Hc]. 
    assert (L : (n <= 12)%nat).
    { destruct (Nat.le_gt_cases n 12) as [H|H]; [exact H|exfalso]. replace n with (13 + (n - 13))%nat in Hc by lia.
      unfold undisturbed in Hc. rewrite repeat_app in Hc. cbn [repeat app] in Hc. revert Hc. generalize (repeat Next (n - 13)). intros l Hc.
      destruct f as [[]| | | | | | | | | | |], fe; try discriminate; cbn in Hc; destruct l as [|[]]; discriminate. }
    destruct f as [[]| | | | | | | | | | |], fe; try discriminate; try congruence;
      do 13 (destruct n as [|n]; [first [cbn in Hc; discriminate Hc|vm_compute; reflexivity]|]); lia.
  - destruct f as [[]| | | | | | | | | | |], fe; try discriminate;
      first [exists 1%nat; split; [cbn; lia|eexists; reflexivity]|exists 3%nat; split; [cbn; lia|eexists; reflexivity]
            |exists 2%nat; split; [cbn; lia|eexists; reflexivity]|exists 5%nat; split; [cbn; lia|eexists; reflexivity]
            |exists 6%nat; split; [cbn; lia|eexists; reflexivity]|exists 7%nat; split; [cbn; lia|eexists; reflexivity]].
Qed.
Print Assumptions C101_fresh_start.

(** Error level 'stop': when the workers of a transducer function or of das
    have stopped by themselves, the call ends with an error, whatever signals
    arrive; and this can happen in every front end. *)
Lemma oob_low f : forall evs ops saved pr p p' out, (forall d o, ops = d ++ Work :: o -> low_end o true = Some Failed /\ low_end o false = Some Failed) ->
  In Oob evs -> run_call f ops saved pr p evs = Some (p', out) -> out = Failed.
Proof.
  induction evs as [|e r IH]; intros ops saved pr p p' out Hw Hin; [destruct Hin|]. cbn [run_call].
  assert (Hw' : forall x o, ops = x :: o -> forall d o', o = d ++ Work :: o' -> low_end o' true = Some Failed /\ low_end o' false = Some Failed).
  { intros x o E d o' E'. apply (Hw (x :: d)). rewrite E, E'. reflexivity. }
  destruct e as [| | |s].
  - destruct Hin as [Hin|Hin]; [discriminate|]. destruct ops as [|[|s|s| | |v] o]; try (intros H; eapply IH; [exact (Hw' _ _ eq_refl)|exact Hin|exact H]).
    + destruct r; [destruct Hin|discriminate].
    + destruct (flag p f); [intros H; eapply IH; [exact (Hw' _ _ eq_refl)|exact Hin|exact H]|].
      destruct v; [destruct r; [destruct Hin|discriminate]|intros H; eapply IH; [exact (Hw' _ _ eq_refl)|exact Hin|exact H]].
  - destruct ops as [|[]]; try discriminate. destruct r; [|discriminate]. destruct Hin as [Hin|[]]. discriminate.
  - destruct ops as [|[] o]; try discriminate. destruct (can_stop f); [|discriminate]. intros H.
    destruct (Hw [] o eq_refl) as [H1 H2].
    assert (Hf : flag (set_flag p f false) f = false) by (cbn; destruct (sfun_dec f f); congruence).
    pose proof (run_low _ _ _ _ _ _ _ _ H Hf) as L. destruct pr.
    + rewrite H1 in L. specialize (L ltac:(discriminate)). congruence.
    + rewrite H2 in L. specialize (L ltac:(discriminate)). congruence.
  - destruct Hin as [Hin|Hin]; [discriminate|]. intros H. eapply IH; [exact Hw|exact Hin|exact H].
Qed.
Theorem C101_stop_level : forall fe f p, (exists t, f = STr t) \/ f = SDas ->
  (forall evs p' out, In Oob evs -> call fe f p evs = Some (p', out) -> out = Failed) /\
  exists n p', computing fe f (undisturbed n) /\ call fe f p (undisturbed n ++ [Oob; Next]) = Some (p', Failed).
Proof.
  intros fe f p Hf. split.
  - intros evs p' out Hin H. refine (oob_low _ _ _ _ _ _ _ _ _ Hin H). intros d o E.
    assert (G : forall d0 o0, script fe f = d0 ++ Work :: o0 -> ~ In Work d0 -> ~ In Work o0 -> low_end o0 true = Some Failed /\ low_end o0 false = Some Failed ->
      low_end o true = Some Failed /\ low_end o false = Some Failed).
    { intros d0 o0 E0 N1 N2 Hl. destruct (prefix_work_split _ _ _ E _ _ E0 N1 N2) as [_ ->]. exact Hl. }
    destruct Hf as [[t ->]| ->].
    + destruct t, fe;
        first [eapply (G [Test; Take SigInt; Start] [Verdict VError]); [reflexivity|cbn; intuition discriminate|cbn; intuition discriminate|split; reflexivity]
              |eapply (G [Test; Start] [Verdict VError]); [reflexivity|cbn; intuition discriminate|cbn; intuition discriminate|split; reflexivity]].
    + destruct fe; (eapply (G [Test; Start; Take SigAbrt] [Verdict VError]); [reflexivity|cbn; intuition discriminate|cbn; intuition discriminate|split; reflexivity]).
  - destruct Hf as [[t ->]| ->].
    + destruct t, fe; first [exists 3%nat; eexists; split; [eexists; reflexivity|cbn; reflexivity]
                            |exists 2%nat; eexists; split; [eexists; reflexivity|cbn; reflexivity]].
    + destruct fe; exists 3%nat; eexists; (split; [eexists; reflexivity|cbn; reflexivity]).
Qed.
Print Assumptions C101_stop_level.

(** An interrupted call of dreamrect, then another one. *)
Example C101_ex : exists p1 p2,
  call Octave (STr FRect) fresh [Next; Next; Next; Sig SigInt; Next; Next] = Some (p1, Failed) /\ flag p1 (STr FRect) = false /\
  call Octave (STr FRect) p1 (undisturbed 6) = Some (p2, Normal).
Proof. eexists _, _. split; [reflexivity|]. split; reflexivity. Qed.
