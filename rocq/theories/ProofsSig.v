(** ProofsSig.v - lemmas about signal handling. *)
From Verif Require Import Base ModelGw ModelSig SpecSig.

Fixpoint eff (f : sfun) (ops : list op) (saved t : signal -> handler) : signal -> handler :=
  match ops with
  | [] => t
  | Take s :: o => eff f o (fun x => if signal_eqb x s then t s else saved x)
                         (fun x => if signal_eqb x s then Lib f else t x)
  | Give s :: o => eff f o saved (fun x => if signal_eqb x s then saved s else t x)
  | _ :: o => eff f o saved t
  end.

Fixpoint handler_free (ops : list op) : bool :=
  match ops with (Take _ | Give _) :: _ => false | [] => true | _ :: o => handler_free o end.

Fixpoint verdict_last (ops : list op) : bool :=
  match ops with [] => true | Verdict _ :: o => handler_free o | _ :: o => verdict_last o end.

Lemma deliver_tbl p s : tbl (deliver p s) = tbl p.
Proof. unfold deliver; destruct (tbl p s); reflexivity. Qed.

Lemma eff_free f : forall ops saved t, handler_free ops = true -> eff f ops saved t = t.
Proof. induction ops as [|[]]; cbn; intros; try discriminate; auto. Qed.

Lemma free_last : forall ops, handler_free ops = true -> verdict_last ops = true.
Proof. induction ops as [|[]]; cbn; intros; try discriminate; auto. Qed.

Lemma run_tbl f : forall evs ops saved pr p p' out,
  run_call f ops saved pr p evs = Some (p', out) -> out <> Refused -> verdict_last ops = true ->
  tbl p' = eff f ops saved (tbl p).
Proof.
  induction evs as [|e r IH]; intros ops saved pr p p' out; cbn [run_call]; [discriminate|].
  destruct e as [| | |s].
  - destruct ops as [|[|s|s| | |v] o]; cbn [verdict_last eff].
    + destruct r; [|discriminate]. intros [= <- _] _ _. reflexivity.
    + intros H Ho Hv; exact (IH _ _ _ _ _ _ H Ho Hv).
    + intros H Ho Hv; exact (IH _ _ _ _ _ _ H Ho Hv).
    + intros H Ho Hv; exact (IH _ _ _ _ _ _ H Ho Hv).
    + intros H Ho Hv; exact (IH _ _ _ _ _ _ H Ho Hv).
    + intros H Ho Hv; exact (IH _ _ _ _ _ _ H Ho Hv).
    + intros H Ho Hv. rewrite (eff_free _ _ _ _ Hv).
      destruct (flag p f).
      * rewrite (IH _ _ _ _ _ _ H Ho (free_last _ Hv)). apply eff_free, Hv.
      * destruct v.
        -- destruct r; [|discriminate]. injection H as <- _. reflexivity.
        -- rewrite (IH _ _ _ _ _ _ H Ho (free_last _ Hv)). apply eff_free, Hv.
  - destruct ops as [|[]]; try discriminate. destruct r; [|discriminate].
    intros [= _ <-]. congruence.
  - destruct ops as [|[]]; try discriminate. destruct (can_stop f); [|discriminate].
    intros H Ho Hv; exact (IH _ _ _ _ _ _ H Ho Hv).
  - intros H Ho Hv. rewrite (IH _ _ _ _ _ _ H Ho Hv), deliver_tbl. reflexivity.
Qed.

Lemma script_last fe f : verdict_last (script fe f) = true.
Proof. destruct f as [[]| | | | | | | | | | |], fe; reflexivity. Qed.

Lemma call_tbl fe f evs p p' out : call fe f p evs = Some (p', out) -> out <> Refused ->
  tbl p' = eff f (script fe f) (fun _ => Host) (tbl p).
Proof. intros H Ho. exact (run_tbl _ _ _ _ _ _ _ _ H Ho (script_last fe f)). Qed.

(** ** CTRL-C never reaches the host again *)
Fixpoint paired (ops : list op) (b : bool) : bool :=
  match ops with
  | [] => true
  | Take SigInt :: o => paired o true
  | Give SigInt :: o => b && paired o b
  | _ :: o => paired o b
  end.

Lemma script_paired fe f : paired (script fe f) false = true.
Proof. destruct f as [[]| | | | | | | | | | |], fe; reflexivity. Qed.

Lemma deliver_lost p s : tbl p SigInt <> Host -> ctrl_c_seen (deliver p s) = ctrl_c_seen p.
Proof.
  unfold deliver, ctrl_c_seen. intros H. destruct (tbl p s) eqn:E; [|reflexivity].
  destruct s; cbn; congruence.
Qed.

Lemma run_lost f : forall evs ops saved pr p p' out b,
  run_call f ops saved pr p evs = Some (p', out) -> paired ops b = true ->
  (b = true -> saved SigInt <> Host) -> tbl p SigInt <> Host ->
  tbl p' SigInt <> Host /\ ctrl_c_seen p' = ctrl_c_seen p.
Proof.
  induction evs as [|e r IH]; intros ops saved pr p p' out b; cbn [run_call]; [discriminate|].
  destruct e as [| | |s].
  - destruct ops as [|[|s|s| | |v] o]; cbn [paired].
    + destruct r; [|discriminate]. intros [= <- _] _ _ Ht. split; auto.
    + intros H Hp Hs Ht; exact (IH _ _ _ _ _ _ _ H Hp Hs Ht).
    + intros H Hp Hs Ht.
      destruct s; refine (IH _ _ _ _ _ _ _ H Hp _ _); cbn; auto; discriminate.
    + intros H Hp Hs Ht.
      destruct s; [apply andb_prop in Hp as [-> Hp]|..];
        refine (IH _ _ _ _ _ _ _ H Hp _ _); cbn; auto.
    + intros H Hp Hs Ht; exact (IH _ _ _ _ _ _ _ H Hp Hs Ht).
    + intros H Hp Hs Ht; exact (IH _ _ _ _ _ _ _ H Hp Hs Ht).
    + intros H Hp Hs Ht. destruct (flag p f); [exact (IH _ _ _ _ _ _ _ H Hp Hs Ht)|].
      destruct v; [|exact (IH _ _ _ _ _ _ _ H Hp Hs Ht)].
      destruct r; [|discriminate]. injection H as <- _. split; auto.
  - destruct ops as [|[]]; try discriminate. destruct r; [|discriminate].
    intros [= <- _] _ _ Ht. split; auto.
  - destruct ops as [|[]]; try discriminate. destruct (can_stop f); [|discriminate]. cbn [paired].
    intros H Hp Hs Ht; exact (IH _ _ _ _ _ _ _ H Hp Hs Ht).
  - intros H Hp Hs Ht. rewrite <- (deliver_lost p s Ht).
    refine (IH _ _ _ _ _ _ _ H Hp Hs _). rewrite deliver_tbl; exact Ht.
Qed.

Lemma session_lost fe : forall acts p p',
  session fe p acts = Some p' -> tbl p SigInt <> Host ->
  tbl p' SigInt <> Host /\ ctrl_c_seen p' = ctrl_c_seen p.
Proof.
  induction acts as [|[f evs|s] r IH]; intros p p'; cbn [session].
  - intros [= <-]; auto.
  - destruct (offered fe f); [|discriminate].
    destruct (call fe f p evs) as [[q out]|] eqn:E; [|discriminate].
    intros H Ht. destruct (run_lost _ _ _ _ _ _ _ _ _ E (script_paired fe f)) as [H1 H2]; [discriminate|exact Ht|].
    rewrite <- H2. exact (IH _ _ H H1).
  - intros H Ht. rewrite <- (deliver_lost p s Ht).
    apply (IH _ _ H). rewrite deliver_tbl; exact Ht.
Qed.

(** ** CTRL-C while the workers run *)
Lemma split_run f : forall e1 ops saved pr p e2 r,
  run_call f ops saved pr p (e1 ++ e2) = Some r -> e2 <> [] ->
  exists done saved' pr' p', ops = done ++ to_come ops e1 /\ tbl p' = eff f done saved (tbl p) /\
    run_call f (to_come ops e1) saved' pr' p' e2 = Some r.
Proof.
  induction e1 as [|e e1 IH]; intros ops saved pr p e2 r H He2.
  - exists [], saved, pr, p. destruct ops; auto.
  - assert (Hne : e1 ++ e2 <> []) by (destruct e1; [exact He2|discriminate]).
    cbn [app run_call] in H. destruct e as [| | |s].
    + destruct ops as [|[|s|s| | |v] o].
      * destruct (e1 ++ e2); [congruence|discriminate].
      * destruct (IH _ _ _ _ _ _ H He2) as (d & s' & q & p' & E & Et & Er).
        exists (Test :: d), s', q, p'. split; [cbn; f_equal; exact E|auto].
      * destruct (IH _ _ _ _ _ _ H He2) as (d & s' & q & p' & E & Et & Er).
        exists (Take s :: d), s', q, p'. split; [cbn; f_equal; exact E|auto].
      * destruct (IH _ _ _ _ _ _ H He2) as (d & s' & q & p' & E & Et & Er).
        exists (Give s :: d), s', q, p'. split; [cbn; f_equal; exact E|auto].
      * destruct (IH _ _ _ _ _ _ H He2) as (d & s' & q & p' & E & Et & Er).
        exists (Start :: d), s', q, p'. split; [cbn; f_equal; exact E|auto].
      * destruct (IH _ _ _ _ _ _ H He2) as (d & s' & q & p' & E & Et & Er).
        exists (Work :: d), s', q, p'. split; [cbn; f_equal; exact E|auto].
      * destruct (flag p f).
        -- destruct (IH _ _ _ _ _ _ H He2) as (d & s' & q & p' & E & Et & Er).
           exists (Verdict v :: d), s', q, p'. split; [cbn; f_equal; exact E|auto].
        -- destruct v.
           ++ destruct (e1 ++ e2); [congruence|discriminate].
           ++ destruct (IH _ _ _ _ _ _ H He2) as (d & s' & q & p' & E & Et & Er).
              exists (Verdict VPrint :: d), s', q, p'. split; [cbn; f_equal; exact E|auto].
    + destruct ops as [|[]]; try discriminate. destruct (e1 ++ e2); [congruence|discriminate].
    + destruct ops as [|[]]; try discriminate. destruct (can_stop f); [|discriminate].
      destruct (IH _ _ _ _ _ _ H He2) as (d & s' & q & p' & E & Et & Er).
      exists (Work :: d), s', q, p'. split; [cbn; f_equal; exact E|auto].
    + destruct (IH _ _ _ _ _ _ H He2) as (d & s' & q & p' & E & Et & Er).
      exists d, s', q, p'. rewrite deliver_tbl in Et. cbn. auto.
Qed.

Fixpoint low_end (ops : list op) (pr : bool) : option ending :=
  match ops with
  | [] => Some (if pr then Printed else Normal)
  | Verdict VError :: _ => Some Failed
  | Verdict VPrint :: o => low_end o true
  | (Start | Test) :: _ => None
  | _ :: o => low_end o pr
  end.

Lemma deliver_low p s f : flag p f = false -> flag (deliver p s) f = false.
Proof. unfold deliver. destruct (tbl p s); auto. cbn. destruct (sfun_dec f f0); auto. Qed.

Lemma run_low f : forall evs ops saved pr p p' out,
  run_call f ops saved pr p evs = Some (p', out) -> flag p f = false -> low_end ops pr <> None ->
  low_end ops pr = Some out.
Proof.
  induction evs as [|e r IH]; intros ops saved pr p p' out; cbn [run_call]; [discriminate|].
  destruct e as [| | |s].
  - destruct ops as [|[|s|s| | |v] o]; cbn [low_end].
    + destruct r; [|discriminate]. intros [= _ <-] _ _. reflexivity.
    + congruence.
    + intros H Hf Hl. exact (IH _ _ _ _ _ _ H Hf Hl).
    + intros H Hf Hl. exact (IH _ _ _ _ _ _ H Hf Hl).
    + congruence.
    + intros H Hf Hl. exact (IH _ _ _ _ _ _ H Hf Hl).
    + intros H Hf Hl. rewrite Hf in H. destruct v.
      * destruct r; [|discriminate]. injection H as _ <-. reflexivity.
      * exact (IH _ _ _ _ _ _ H Hf Hl).
  - destruct ops as [|[]]; try discriminate. cbn. congruence.
  - destruct ops as [|[]]; try discriminate. destruct (can_stop f); [|discriminate]. cbn [low_end].
    intros H Hf Hl. refine (IH _ _ _ _ _ _ H _ Hl). cbn. destruct (sfun_dec f f); congruence.
  - intros H Hf Hl. exact (IH _ _ _ _ _ _ H (deliver_low _ s _ Hf) Hl).
Qed.

Lemma prefix_work_split (ops d1 o1 : list op) : 
  ops = d1 ++ Work :: o1 -> forall d2 o2, ops = d2 ++ Work :: o2 ->
  ~ In Work d2 -> ~ In Work o2 -> d1 = d2 /\ o1 = o2.
Proof.
  intros -> d2. revert d1. induction d2 as [|x d2 IH]; intros d1 o2 E H1 H2.
  - destruct d1 as [|y d1]; cbn in E.
    + injection E as E2. auto.
    + injection E as E1 E2. exfalso. apply H2. rewrite <- E2. apply in_or_app; right; left; reflexivity.
  - destruct d1 as [|y d1]; cbn in E; injection E as E1 E2.
    + exfalso. apply H1. left; auto.
    + destruct (IH d1 o2 E2) as [-> ->]; [intros H; apply H1; right; exact H|exact H2|].
      subst; auto.
Qed.

Lemma computing_low fe f e1 e2 p p' out d o :
  computing fe f e1 -> call fe f p (e1 ++ Sig SigInt :: e2) = Some (p', out) ->
  script fe f = d ++ Work :: o -> ~ In Work d -> ~ In Work o ->
  eff f d (fun _ => Host) (tbl p) SigInt = Lib f -> 
  low_end o false <> None -> low_end o true <> None ->
  exists pr, low_end o pr = Some out.
Proof.
  intros [o1 Hc] H Hs Hd Ho He L1 L2. unfold call in H.
  destruct (split_run _ _ _ _ _ _ _ _ H) as (d1 & s' & q & p1 & E & Et & Er); [discriminate|].
  rewrite Hc in E, Er. destruct (prefix_work_split _ _ _ E _ _ Hs Hd Ho) as [-> ->].
  cbn [run_call] in Er. exists q.
  assert (Hf : flag (deliver p1 SigInt) f = false).
  { unfold deliver. rewrite Et, He. cbn. destruct (sfun_dec f f); congruence. }
  pose proof (run_low _ _ _ _ _ _ _ _ Er Hf) as Hl. cbn [low_end] in Hl. apply Hl.
  destruct q; assumption.
Qed.

(** ** Functions that do not take SIGINT *)
Definition takes (ops : list op) (s : signal) : bool :=
  existsb (fun o => match o with Take x => signal_eqb s x | _ => false end) ops.

Definition honest (fe : front) (t : signal -> handler) : Prop :=
  forall s g, t s = Lib g -> takes (script fe g) s = true.

Lemma run_honest fe f : forall evs ops saved pr p p' out,
  run_call f ops saved pr p evs = Some (p', out) ->
  (forall s, takes ops s = true -> takes (script fe f) s = true) ->
  honest fe saved -> honest fe (tbl p) -> honest fe (tbl p').
Proof.
  induction evs as [|e r IH]; intros ops saved pr p p' out; cbn [run_call]; [discriminate|].
  destruct e as [| | |s].
  - destruct ops as [|[|s|s| | |v] o].
    + destruct r; [|discriminate]. intros [= <- _] _ _ Ht. exact Ht.
    + intros H Hp Hs Ht; exact (IH _ _ _ _ _ _ H Hp Hs Ht).
    + intros H Hp Hs Ht. refine (IH _ _ _ _ _ _ H _ _ _).
      * intros x Hx. apply Hp. cbn. unfold takes in Hx. rewrite Hx. apply orb_true_r.
      * intros x g. destruct (signal_eqb x s) eqn:E; [|apply Hs]. 
        intros Hx. destruct x, s; try discriminate; exact (Ht _ _ Hx).
      * intros x g. cbn. destruct (signal_eqb x s) eqn:E; [|apply Ht].
        intros [= <-]. apply Hp. cbn. rewrite E. reflexivity.
    + intros H Hp Hs Ht. refine (IH _ _ _ _ _ _ H Hp Hs _).
      intros x g. cbn. destruct (signal_eqb x s) eqn:E; [|apply Ht].
      intros Hx. destruct x, s; try discriminate; exact (Hs _ _ Hx).
    + intros H Hp Hs Ht; exact (IH _ _ _ _ _ _ H Hp Hs Ht).
    + intros H Hp Hs Ht; exact (IH _ _ _ _ _ _ H Hp Hs Ht).
    + intros H Hp Hs Ht. destruct (flag p f); [exact (IH _ _ _ _ _ _ H Hp Hs Ht)|].
      destruct v; [|exact (IH _ _ _ _ _ _ H Hp Hs Ht)].
      destruct r; [|discriminate]. injection H as <- _. exact Ht.
  - destruct ops as [|[]]; try discriminate. destruct r; [|discriminate].
    intros [= <- _] _ _ Ht. exact Ht.
  - destruct ops as [|[]]; try discriminate. destruct (can_stop f); [|discriminate].
    intros H Hp Hs Ht; exact (IH _ _ _ _ _ _ H Hp Hs Ht).
  - intros H Hp Hs Ht. refine (IH _ _ _ _ _ _ H Hp Hs _). rewrite deliver_tbl; exact Ht.
Qed.

Lemma session_honest fe : forall acts p p',
  session fe p acts = Some p' -> honest fe (tbl p) -> honest fe (tbl p').
Proof.
  induction acts as [|[f evs|s] r IH]; intros p p'; cbn [session].
  - intros [= <-]; auto.
  - destruct (offered fe f); [|discriminate].
    destruct (call fe f p evs) as [[q out]|] eqn:E; [|discriminate].
    intros H Ht. apply (IH _ _ H). refine (run_honest fe _ _ _ _ _ _ _ _ E (fun _ h => h) _ Ht).
    intros s g; discriminate.
  - intros H Ht. apply (IH _ _ H). rewrite deliver_tbl; exact Ht.
Qed.

Lemma takes_int_cons o ops : takes (o :: ops) SigInt = false ->
  o <> Take SigInt /\ takes ops SigInt = false.
Proof.
  unfold takes; cbn. intros H. apply orb_false_iff in H as [H1 H2]. split; [|exact H2].
  intros ->. cbn in H1. discriminate.
Qed.

(** Same table and same flag of f; everything else may differ. *)
Lemma run_deaf f : forall evs ops saved pr p q p' out,
  run_call f ops saved pr p evs = Some (p', out) ->
  takes ops SigInt = false -> (forall o, In o ops -> o <> Give SigInt) ->
  tbl p SigInt <> Lib f -> tbl p = tbl q -> flag p f = flag q f ->
  exists q', run_call f ops saved pr q (without_ctrl_c evs) = Some (q', out) /\
    ctrl_c_seen p' = (ctrl_c_seen p + match tbl p SigInt with Host => presses evs | _ => 0 end)%nat.
Proof.
  induction evs as [|e r IH]; intros ops saved pr p q p' out; cbn [run_call]; [discriminate|].
  assert (Hone : forall e, match e with Sig SigInt => False | _ => True end ->
    without_ctrl_c (e :: r) = e :: without_ctrl_c r /\ presses (e :: r) = presses r).
  { intros x Hx. unfold without_ctrl_c, presses. cbn. destruct x as [| | |[]]; try contradiction; auto. }
  destruct e as [| | |s].
  - destruct (Hone Next I) as [-> ->]. clear Hone. cbn [run_call].
    destruct ops as [|o ops].
    + destruct r; [|discriminate]. intros [= <- <-] _ _ _ _ _. exists q. split; [reflexivity|].
      unfold presses; cbn. destruct (tbl p SigInt); lia.
    + intros H Hk Hg Ht Et Ef. apply takes_int_cons in Hk as [Hk1 Hk2].
      assert (Hg2 : forall x, In x ops -> x <> Give SigInt) by (intros x Hx; apply Hg; right; exact Hx).
      assert (Hg1 : o <> Give SigInt) by (apply Hg; left; reflexivity).
      destruct o as [|s|s| | |v].
      * exact (IH _ _ _ _ _ _ _ H Hk2 Hg2 Ht Et Ef).
      * assert (Hs : signal_eqb SigInt s = false) by (destruct s; [congruence|reflexivity|reflexivity]).
        rewrite <- Et.
        destruct (IH _ _ _ _ (set_tbl q s (Lib f)) _ _ H Hk2 Hg2) as (q' & Hq & Hc).
        -- unfold set_tbl; cbn [tbl]. rewrite Hs. exact Ht.
        -- cbn. rewrite Et. reflexivity.
        -- exact Ef.
        -- exists q'. split; [exact Hq|]. rewrite Hc. unfold set_tbl, ctrl_c_seen; cbn [tbl host]. rewrite Hs. reflexivity.
      * assert (Hs : signal_eqb SigInt s = false) by (destruct s; [congruence|reflexivity|reflexivity]).
        destruct (IH _ _ _ _ (set_tbl q s (saved s)) _ _ H Hk2 Hg2) as (q' & Hq & Hc).
        -- unfold set_tbl; cbn [tbl]. rewrite Hs. exact Ht.
        -- cbn. rewrite Et. reflexivity.
        -- exact Ef.
        -- exists q'. split; [exact Hq|]. rewrite Hc. unfold set_tbl, ctrl_c_seen; cbn [tbl host]. rewrite Hs. reflexivity.
      * destruct (IH _ _ _ _ (set_flag q f true) _ _ H Hk2 Hg2 Ht Et) as (q' & Hq & Hc).
        { cbn. destruct (sfun_dec f f); congruence. } exists q'; auto.
      * exact (IH _ _ _ _ _ _ _ H Hk2 Hg2 Ht Et Ef).
      * rewrite <- Ef. destruct (flag p f) eqn:E.
        -- exact (IH _ _ _ _ _ _ _ H Hk2 Hg2 Ht Et (eq_trans E Ef)).
        -- destruct v; [|exact (IH _ _ _ _ _ _ _ H Hk2 Hg2 Ht Et (eq_trans E Ef))].
           destruct r; [|discriminate]. injection H as <- <-. exists q. split; [reflexivity|].
           unfold presses; cbn. destruct (tbl p SigInt); lia.
  - destruct (Hone Fail I) as [-> ->]. clear Hone. cbn [run_call].
    destruct ops as [|[]]; try discriminate. destruct r; [|discriminate].
    intros [= <- <-] _ _ _ _ _. exists q. split; [reflexivity|].
    unfold presses; cbn. destruct (tbl p SigInt); lia.
  - destruct (Hone Oob I) as [-> ->]. clear Hone. cbn [run_call].
    destruct ops as [|[]]; try discriminate. destruct (can_stop f); [|discriminate].
    intros H Hk Hg Ht Et Ef. apply takes_int_cons in Hk as [Hk1 Hk2].
    destruct (IH _ _ _ _ (set_flag q f false) _ _ H Hk2) with (3 := Et) as (q' & Hq & Hc).
    + intros x Hx; apply Hg; right; exact Hx.
    + exact Ht.
    + cbn. destruct (sfun_dec f f); congruence.
    + exists q'; auto.
  - destruct s.
    + clear Hone. intros H Hk Hg Ht Et Ef.
      assert (W : without_ctrl_c (Sig SigInt :: r) = without_ctrl_c r) by reflexivity.
      assert (P : presses (Sig SigInt :: r) = S (presses r)) by reflexivity.
      rewrite W, P.
      destruct (IH _ _ _ _ q _ _ H Hk Hg) as (q' & Hq & Hc).
      * rewrite deliver_tbl; exact Ht.
      * rewrite deliver_tbl; exact Et.
      * unfold deliver. destruct (tbl p SigInt) eqn:E; [exact Ef|]. cbn.
        destruct (sfun_dec f f0); [congruence|exact Ef].
      * exists q'. split; [exact Hq|]. rewrite Hc, deliver_tbl.
        unfold deliver, ctrl_c_seen. destruct (tbl p SigInt); cbn; lia.
    + destruct (Hone (Sig SigAbrt) I) as [-> ->]. cbn [run_call].
      intros H Hk Hg Ht Et Ef.
      assert (K : tbl (deliver p SigAbrt) = tbl p) by apply deliver_tbl.
      destruct (IH _ _ _ _ (deliver q SigAbrt) _ _ H Hk Hg) as (q' & Hq & Hc).
      * rewrite K; exact Ht.
      * rewrite K, deliver_tbl; exact Et.
      * unfold deliver. rewrite <- Et. destruct (tbl p SigAbrt); [exact Ef|]. cbn.
        destruct (sfun_dec f f0); [congruence|exact Ef].
      * exists q'. split; [exact Hq|]. rewrite Hc, K.
        unfold deliver, ctrl_c_seen. destruct (tbl p SigAbrt); cbn; lia.
    + destruct (Hone (Sig SigTerm) I) as [-> ->]. cbn [run_call].
      intros H Hk Hg Ht Et Ef.
      assert (K : tbl (deliver p SigTerm) = tbl p) by apply deliver_tbl.
      destruct (IH _ _ _ _ (deliver q SigTerm) _ _ H Hk Hg) as (q' & Hq & Hc).
      * rewrite K; exact Ht.
      * rewrite K, deliver_tbl; exact Et.
      * unfold deliver. rewrite <- Et. destruct (tbl p SigTerm); [exact Ef|]. cbn.
        destruct (sfun_dec f f0); [congruence|exact Ef].
      * exists q'. split; [exact Hq|]. rewrite Hc, K.
        unfold deliver, ctrl_c_seen. destruct (tbl p SigTerm); cbn; lia.
Qed.
