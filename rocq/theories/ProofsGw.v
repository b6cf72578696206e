(** ProofsGw.v - argument parsing: option strings, memory safety of the
    parser, well-formedness of the job handed to the driver. *)
From Coq Require Strings.String Strings.Ascii.
Import Coq.Strings.String.StringSyntax.
From Verif Require Import Base BaseLemmas ModelSir ModelArr ModelSmp ProofsLocal ProofsLocalArr
  ProofsSmp ProofsCall SpecSmp ProofsSmp2 SpecSir ProofsEnum ModelGw SpecGw.
Local Open Scope string_scope.
Local Open Scope Z_scope.
Ltac Zify.zify_post_hook ::= Z.div_mod_to_equations.

(** ** Option strings *)
Ltac by_cases s :=
  repeat match goal with
  | |- context[String.eqb s ?t] => destruct (String.eqb_spec s t); [subst s|]
  end.
Ltac table :=
  cbn -[String.eqb]; cbn; split;
  [ let H := fresh in intros H; try discriminate H; try injection H as <-; auto 20
  | let H := fresh in intros H; repeat destruct H as [H|H]; try contradiction;
    injection H; intros; subst; try congruence ].

Lemma err_of_string_doc s l : err_of_string s = Some l <-> In (s, l) err_doc.
Proof. unfold err_of_string, err_doc. by_cases s; table. Qed.
Lemma foc_of_string_doc s l : foc_of_string s = Some l <-> In (s, l) foc_doc.
Proof. unfold foc_of_string, foc_doc. by_cases s; table. Qed.
Lemma steer_of_string_doc s l : steer_of_string s = Some l <-> In (s, l) steer_doc.
Proof. unfold steer_of_string, steer_doc. by_cases s; table. Qed.
Lemma apod_of_string_doc s on l : apod_of_string s = Some (on, l) <->
  (s = "off" /\ on = false /\ l = apod_gauss) \/ (on = true /\ In (s, l) apod_doc).
Proof.
  unfold apod_of_string, apod_doc. by_cases s; cbn; split;
    try (intros H; injection H as <- <-; auto 20; fail);
    try (intros H; discriminate H);
    intros [(E & -> & ->)|(-> & H)]; try congruence; try discriminate;
    repeat destruct H as [H|H]; try contradiction; injection H; intros; subst; congruence.
Qed.

Lemma c_str_id s : no_nul s -> c_str s = s.
Proof.
  induction s as [|c s IH]; cbn; [reflexivity|]. intros [Hc Hs].
  destruct (Ascii.eqb_spec c Ascii.zero); [contradiction|]. now rewrite IH.
Qed.

(** Strings of at least 50 characters are read as "" by MATLAB; no option is
    that long and "" is no option. *)
Lemma string_arg_id fe s : printable fe s ->
  get_string_arg fe s = s \/ (get_string_arg fe s = "" /\ (50 <= String.length s)%nat).
Proof.
  intros P. destruct fe; cbn [get_string_arg]; auto.
  destruct (Z.ltb_spec (2 * Z.of_nat (String.length s) + 1) 100).
  - left. apply c_str_id, P. reflexivity.
  - right. split; [reflexivity|lia].
Qed.

Lemma through_arg {A} (dec : string -> option A) fe s l :
  printable fe s -> dec "" = None -> (forall t x, dec t = Some x -> (String.length t < 50)%nat) ->
  (dec (get_string_arg fe s) = Some l <-> dec s = Some l).
Proof.
  intros P D0 Dl. destruct (string_arg_id fe s P) as [->|[-> Hl]]; [reflexivity|].
  rewrite D0. split; [discriminate|]. intros H. specialize (Dl _ _ H). lia.
Qed.

Lemma err_short t x : err_of_string t = Some x -> (String.length t < 50)%nat.
Proof.
  intros H. apply err_of_string_doc in H. cbn in H.
  repeat destruct H as [H|H]; try contradiction; injection H; intros _ <-; cbn; lia.
Qed.
Lemma foc_short t x : foc_of_string t = Some x -> (String.length t < 50)%nat.
Proof.
  intros H. apply foc_of_string_doc in H. cbn in H.
  repeat destruct H as [H|H]; try contradiction; injection H; intros _ <-; cbn; lia.
Qed.
Lemma steer_short t x : steer_of_string t = Some x -> (String.length t < 50)%nat.
Proof.
  intros H. apply steer_of_string_doc in H. cbn in H.
  repeat destruct H as [H|H]; try contradiction; injection H; intros _ <-; cbn; lia.
Qed.
Lemma apod_short t x : apod_of_string t = Some x -> (String.length t < 50)%nat.
Proof.
  destruct x as [on l]. intros H. apply apod_of_string_doc in H as [(-> & _ & _)|(_ & H)]; [cbn; lia|].
  cbn in H. repeat destruct H as [H|H]; try contradiction; injection H; intros _ <-; cbn; lia.
Qed.

Section Parse.
  Context {N : Num}.
  Local Notation buf := (list N).
  Implicit Type v : value N.

  Definition numval (fe : front) v : Prop :=
    exists st m n d, v = VNum st m n d /\ 0 <= m /\ 0 <= n /\ Z.of_nat (length d) = m * n /\
      (st = Full \/ (fe = Octave /\ m = 1 /\ n = 1 /\ st = Temp)).

  Lemma arg_good (args : list (value N)) i : (i < length args)%nat ->
    good (fun v => nth_error args i = Some v) (arg args i).
  Proof.
    intros Hi. unfold arg. destruct (nth_error args i) eqn:E; [exact eq_refl|].
    apply nth_error_None in E. lia.
  Qed.

  Lemma shape_ok_numval fe v : numval fe v -> shape_ok fe v = Ok tt.
  Proof.
    intros (st & m & n & d & -> & _ & _ & _ & H). destruct fe; try reflexivity.
    destruct H as [->|(H & _)]; [reflexivity|discriminate].
  Qed.

  Lemma tidy_numval fe f args i v : tidy fe f args -> nth_error args i = Some v ->
    nth_error (signature f) i = Some Number -> numval fe v.
  Proof.
    intros [T1 T2] E S. specialize (T2 i v E S). destruct v as [st m n d|s]; [|contradiction].
    destruct (T1 _ (nth_error_In _ _ E)) as [(A & B & C) D]. cbn in D.
    exists st, m, n, d. auto.
  Qed.

  Lemma num_arg_good fe f args i : tidy fe f args -> nth_error (signature f) i = Some Number ->
    (i < length args)%nat ->
    good (fun v => nth_error args i = Some v /\ numval fe v) (num_arg fe args i).
  Proof.
    intros T S Hi. unfold num_arg. eapply good_bind; [apply arg_good; exact Hi|]. intros v Hv.
    pose proof (tidy_numval fe f args i v T Hv S) as Nv. rewrite (shape_ok_numval fe v Nv). cbn. auto.
  Qed.

  Lemma get_good (d : buf) i : 0 <= i < Z.of_nat (length d) -> good (fun _ => True) (buf_get d i).
  Proof. intros H. apply buf_get_good; auto. Qed.

  Lemma parser_data_good fe v : numval fe v -> get_m v * get_n v <> 1 ->
    good (fun d => Z.of_nat (length d) = get_m v * get_n v) (parser_data fe v).
  Proof.
    intros (st & m & n & d & -> & Hm & Hn & Hd & Hs) H1. cbn in H1.
    destruct Hs as [->|(-> & -> & -> & _)]; [|lia]. destruct fe; exact Hd.
  Qed.
  Lemma parser_data_good' fe v : numval fe v -> fe <> Octave ->
    good (fun d => Z.of_nat (length d) = get_m v * get_n v) (parser_data fe v).
  Proof.
    intros (st & m & n & d & -> & Hm & Hn & Hd & Hs) H1.
    destruct Hs as [->|(-> & _)]; [|congruence]. destruct fe; exact Hd.
  Qed.
  Lemma gw_data_good fe v : numval fe v ->
    good (fun d => Z.of_nat (length d) = get_m v * get_n v) (gw_data fe v).
  Proof. intros (st & m & n & d & -> & Hm & Hn & Hd & Hs). destruct fe; exact Hd. Qed.

  Lemma check_vec_len fe num v : check_vec fe num v = true -> get_m v * get_n v = num.
  Proof. unfold check_vec. destruct fe; lia. Qed.

  Lemma get_data_len fe v : numval fe v -> Z.of_nat (length (get_data v)) = get_m v * get_n v.
  Proof. intros (st & m & n & d & -> & Hm & Hn & Hd & Hs). exact Hd. Qed.

  Lemma parse_geometry_good fe num v : numval fe v -> 1 <= num <= 3 ->
    good (fun _ => True) (parse_geometry fe num v).
  Proof.
    intros Nv Hn. unfold parse_geometry. destruct (check_vec fe num v) eqn:E; cbn [negb]; [|exact I].
    pose proof (check_vec_len _ _ _ E) as HL. pose proof (get_data_len fe v Nv) as HD.
    destruct (Z.eqb_spec num 1).
    - eapply good_bind; [apply get_good; lia|]. intros; exact I.
    - eapply good_bind; [apply (parser_data_good fe v Nv); lia|]. intros d Hd. cbv beta in Hd.
      eapply good_bind; [apply get_good; lia|]. intros a _.
      eapply good_bind; [apply get_good; lia|]. intros b _.
      destruct (Z.ltb_spec 2 num); [|exact I].
      eapply good_bind; [apply get_good; lia|]. intros; exact I.
  Qed.

  Lemma to_idx_good (K : idx_kind) (x : option Z) : good (fun _ => True) (to_idx K x).
  Proof. unfold to_idx. destruct x as [z|], K; cbn; repeat (match goal with |- context[if ?b then _ else _] => destruct b end; cbn); exact I. Qed.

  Lemma parse_sampling_good fe v : numval fe v -> good (fun _ => True) (parse_sampling fe v).
  Proof.
    intros Nv. unfold parse_sampling. destruct (check_vec fe 4 v) eqn:E; cbn [negb]; [|exact I].
    pose proof (check_vec_len _ _ _ E) as HL.
    eapply good_bind; [apply (parser_data_good fe v Nv); lia|]. intros d Hd. cbv beta in Hd.
    do 4 (eapply good_bind; [apply get_good; lia|]; intros ? _).
    eapply good_bind; [apply to_idx_good|]. intros; exact I.
  Qed.

  Lemma parse_material_good fe v : numval fe v -> good (fun _ => True) (parse_material fe v).
  Proof.
    intros Nv. unfold parse_material. destruct (check_vec fe 3 v) eqn:E; cbn [negb]; [|exact I].
    pose proof (check_vec_len _ _ _ E) as HL.
    eapply good_bind; [apply (parser_data_good fe v Nv); lia|]. intros d Hd. cbv beta in Hd.
    do 3 (eapply good_bind; [apply get_good; lia|]; intros ? _). exact I.
  Qed.

  Lemma parse_steer_good fe vs v : numval fe v -> good (fun _ => True) (parse_steer_args fe vs v).
  Proof.
    intros Nv. unfold parse_steer_args. destruct (is_string vs); cbn [negb]; [|exact I].
    destruct (steer_of_string _); [|exact I].
    destruct (check_vec fe 2 v) eqn:E; cbn [negb]; [|exact I].
    pose proof (check_vec_len _ _ _ E) as HL.
    eapply good_bind; [apply (parser_data_good fe v Nv); lia|]. intros d Hd. cbv beta in Hd.
    do 2 (eapply good_bind; [apply get_good; lia|]; intros ? _). exact I.
  Qed.

  Lemma memcpy_good (dst src : buf) num : 0 <= num -> num <= Z.of_nat (length dst) ->
    num <= Z.of_nat (length src) -> good (fun r => length r = length dst) (memcpy dst src num).
  Proof.
    intros H0 H1 H2. unfold memcpy.
    destruct (Z.ltb_spec (Z.of_nat (length src)) num); [lia|].
    destruct (Z.ltb_spec (Z.of_nat (length dst)) num); [lia|].
    cbn. rewrite app_length, firstn_length, skipn_length. lia.
  Qed.

  (** Octave cannot read a scalar through get_data. *)
  Definition no_scalar_ud (fe : front) (vs v : value N) : Prop :=
    fe = Octave -> str_of vs = "ud" -> get_m v * get_n v <> 1.

  Lemma parser_data_ud fe vs v : numval fe v -> no_scalar_ud fe vs v ->
    get_string_arg fe (str_of vs) = "ud" ->
    good (fun d => Z.of_nat (length d) = get_m v * get_n v) (parser_data fe v).
  Proof.
    intros Nv S E. destruct fe.
    - apply parser_data_good; auto.
    - apply parser_data_good'; auto. discriminate.
    - apply parser_data_good'; auto. discriminate.
    - apply parser_data_good'; auto. discriminate.
  Qed.

  Lemma parse_focus_good fe vs v num (focal0 : buf) : numval fe v -> no_scalar_ud fe vs v ->
    1 <= num -> Z.of_nat (length focal0) = num ->
    good (fun p => p_ok p = true \/ p_msg p = true)
      (parse_focus_args fe vs v num focal0) /\
    good (fun p => length (snd (p_val p)) = length focal0) (parse_focus_args fe vs v num focal0).
  Proof.
    intros Nv S Hn HL. unfold parse_focus_args.
    destruct (is_string vs) eqn:Es; cbn [negb]; [|split; cbn; auto].
    set (s := get_string_arg fe (str_of vs)) in *.
    destruct (String.eqb_spec s "ud") as [E|E].
    - destruct (Z.eqb_spec (get_m v * get_n v) num) as [EL|]; cbn [negb]; [|split; cbn; auto].
      split; (eapply good_bind; [apply (parser_data_ud fe vs v Nv S E)|]; intros d Hd; cbv beta in Hd;
        eapply good_bind; [apply (memcpy_good focal0 d num); lia|]; intros r Hr; cbn; auto).
    - destruct (Z.eqb_spec (get_m v * get_n v) 1) as [EL|]; cbn [negb]; [|split; cbn; auto].
      pose proof (get_data_len fe v Nv).
      split; (eapply good_bind; [apply get_good; lia|]; intros x _;
        eapply good_bind; [apply (buf_upd_good focal0 0 _ (length focal0)); auto; lia|]; intros r Hr;
        cbv beta in Hr; destruct (foc_of_string s); cbn; auto).
  Qed.

  Lemma parse_apod_good fe vs v vp num (apod0 : buf) : numval fe v -> no_scalar_ud fe vs v ->
    numval fe vp -> 0 <= num -> Z.of_nat (length apod0) = num ->
    good (fun p => length (snd (fst (fst (p_val p)))) = length apod0)
      (parse_apod_args fe vs v vp num apod0).
  Proof.
    intros Nv S Np Hn HL. unfold parse_apod_args.
    destruct (is_string vs) eqn:Es; cbn [negb]; [|cbn; auto].
    set (s := get_string_arg fe (str_of vs)) in *.
    destruct (apod_of_string s) as [[on met]|]; [|cbn; auto].
    rewrite (shape_ok_numval fe v Nv).
    replace (do _ <- (if String.eqb s "ud" then Ok tt else Ok tt);
             do ap <- (if String.eqb s "ud" && negb (String.eqb s "ud" && negb (get_m v * get_n v =? num))
                       then do d <- parser_data fe v; memcpy apod0 d num else Ok apod0);
             match fe with
             | Octave | Matlab =>
               if negb ((get_m vp =? 1) && (get_n vp =? 1)) then Ok (reject (on, ap, met, nofZ 0))
               else if String.eqb s "ud" && negb (get_m v * get_n v =? num)
               then Ok (reject_silent (on, ap, met, nofZ 0))
               else do w <- buf_get (get_data vp) 0; Ok (accept (on, ap, met, w))
             | Python | Julia =>
               if String.eqb s "ud" && negb (get_m v * get_n v =? num)
               then Ok (reject_silent (on, ap, met, nofZ 0)) else Ok (accept (on, ap, met, nofZ 0))
             end) with
            (do ap <- (if String.eqb s "ud" && negb (String.eqb s "ud" && negb (get_m v * get_n v =? num))
                       then do d <- parser_data fe v; memcpy apod0 d num else Ok apod0);
             match fe with
             | Octave | Matlab =>
               if negb ((get_m vp =? 1) && (get_n vp =? 1)) then Ok (reject (on, ap, met, nofZ 0))
               else if String.eqb s "ud" && negb (get_m v * get_n v =? num)
               then Ok (reject_silent (on, ap, met, nofZ 0))
               else do w <- buf_get (get_data vp) 0; Ok (accept (on, ap, met, w))
             | Python | Julia =>
               if String.eqb s "ud" && negb (get_m v * get_n v =? num)
               then Ok (reject_silent (on, ap, met, nofZ 0)) else Ok (accept (on, ap, met, nofZ 0))
             end) by (destruct (String.eqb s "ud"); reflexivity).
    eapply (good_bind (fun ap => length ap = length apod0)).
    { destruct (String.eqb_spec s "ud") as [E|E]; cbn [andb negb]; [|reflexivity].
      destruct (Z.eqb_spec (get_m v * get_n v) num) as [EL|]; cbn [negb]; [|reflexivity].
      eapply good_bind; [apply (parser_data_ud fe vs v Nv S E)|]. intros d Hd. cbv beta in Hd.
      apply memcpy_good; lia. }
    intros ap Hap.
    set (bad := String.eqb s "ud" && negb (get_m v * get_n v =? num)).
    pose proof (get_data_len fe vp Np).
    destruct fe.
    1, 2: destruct ((get_m vp =? 1) && (get_n vp =? 1)) eqn:E1; cbn [negb]; [|exact Hap];
      destruct bad; [exact Hap|];
      eapply good_bind; [apply get_good; lia|]; intros; exact Hap.
    all: destruct bad; exact Hap.
  Qed.

  (** ** parse_call *)
  Lemma andthen_good {A B} fe (p : parsed A) (k : A -> res (option B)) (P : option B -> Prop) :
    P None -> (goes_on fe p = true -> good P (k (p_val p))) -> good P (andthen fe p k).
  Proof. intros H0 H1. unfold andthen. destruct (goes_on fe p); cbn; auto. Qed.
  Lemma require_good {B} (b : bool) (k : res (option B)) (P : option B -> Prop) :
    P None -> (b = true -> good P k) -> good P (require b k).
  Proof. intros H0 H1. unfold require. destruct b; cbn; auto. Qed.

  Definition delay_fits (dty : DelayType) (del : buf) (No : Z) : Prop :=
    match dty with delay_single => 1 | delay_multiple => No end <= Z.of_nat (length del).

  Lemma parse_common_good {B} fe f args p No (P : option B -> Prop)
    (k : samp N * N * DelayType * buf -> res (option B)) :
    tidy fe f args -> delay_nonempty f args -> delay_pos f = (p + 1)%nat ->
    nth_error (signature f) p = Some Number -> nth_error (signature f) (p + 1) = Some Number ->
    nth_error (signature f) (p + 2) = Some Number -> (p + 2 < length args)%nat ->
    P None ->
    (forall q alpha dty del, delay_fits dty del No -> good P (k (q, alpha, dty, del))) ->
    good P (parse_common fe args p No k).
  Proof.
    intros T D Dp S1 S2 S3 HL P0 Hk. unfold parse_common.
    eapply good_bind; [apply (num_arg_good fe f); auto; lia|]. intros vs (_ & Nvs).
    eapply good_bind; [apply parse_sampling_good; exact Nvs|]. intros sp _.
    apply andthen_good; auto. intros _. destruct (p_val sp) as [[[dx dy] dt] nt].
    eapply good_bind; [apply (num_arg_good fe f); auto; lia|]. intros vd (Ed & Nvd).
    apply require_good; auto. intros Hc.
    eapply good_bind; [apply gw_data_good; exact Nvd|]. intros del Hdel. cbv beta in Hdel.
    eapply good_bind; [apply (num_arg_good fe f); auto; lia|]. intros vm (_ & Nvm).
    eapply good_bind; [apply parse_material_good; exact Nvm|]. intros mp _.
    apply andthen_good; auto. intros _. destruct (p_val mp) as [[v c] al].
    apply Hk. unfold delay_fits, delay_type_of.
    unfold delay_nonempty in D. rewrite Dp in D. specialize (D _ Ed).
    destruct Nvd as (st & m & n & d & -> & Hm & Hn & Hd & Hs). cbn [get_m get_n nonempty] in *.
    unfold check_delay in Hc. cbn [get_m get_n] in Hc.
    destruct (Z.eqb_spec (m * n) 1); [lia|].
    destruct (Z.ltb_spec 1 (m * n)); [|lia]. destruct (Z.eqb_spec (m * n) No); [lia|discriminate].
  Qed.

  Lemma parse_level_good {B} fe f (args : list (value N)) (P : option B -> Prop) (k : ErrorLevel -> res (option B)) :
    (err_pos f < Z.to_nat (fst (arity fe f)))%nat \/
      (forall n, reads_err fe f n = true -> Z.of_nat (err_pos f) < n) ->
    (Z.to_nat (fst (arity fe f)) <= length args)%nat ->
    P None -> (forall l, good P (k l)) -> good P (parse_level fe f args k).
  Proof.
    intros H HL P0 Hk. unfold parse_level. destruct (reads_err fe f (Z.of_nat (length args))) eqn:E; [|apply Hk].
    eapply good_bind.
    - apply arg_good. destruct H as [H|H]; [lia|]. apply H in E. lia.
    - intros v _. apply andthen_good; auto.
  Qed.

  Lemma err_in_range fe f :
    (err_pos f < Z.to_nat (fst (arity fe f)))%nat \/
      (forall n, reads_err fe f n = true -> Z.of_nat (err_pos f) < n).
  Proof. destruct fe, f; cbn; try (left; lia); right; intros; lia. Qed.

  Lemma att_wf_make c2r ntz (dtv alpha : N) : keeps_length c2r -> att_wf ntz (make_att c2r ntz dtv alpha).
  Proof.
    intros Hk. unfold make_att, att_wf. destruct (nlt neps alpha); [|exact I].
    split; cbn; [reflexivity|]. intros xc Hx. rewrite Hk. exact Hx.
  Qed.

  Definition job_fits (fe : front) (f : func) (o : option (job N)) : Prop :=
    match o with
    | Some J => 0 <= nt (j_q J) -> (f = FArrAnnu -> idx_of fe = UnsignedIdx) -> wf_job (idx_of fe) J
    | None => True
    end.

  Lemma job_good fe f fuel T q c2r alpha lvl No (ro : buf) dty del :
    keeps_length c2r -> 0 <= No -> Z.of_nat (length ro) = 3 * No -> delay_fits dty del No ->
    ((f = FArrAnnu -> idx_of fe = UnsignedIdx) -> wf_transducer (idx_of fe) q T) ->
    good (job_fits fe f)
      (Ok (Some {| j_fuel := fuel; j_T := T; j_q := q; j_att := make_att c2r (nt q) (dt q) alpha;
                   j_lvl := lvl; j_No := No; j_Ro := ro; j_delay_type := dty; j_delay := del |})).
  Proof.
    intros Hk HN Hr Hd HT. cbn [good job_fits]. intros Hnt Hf. split; cbn [j_q j_No j_Ro j_delay_type j_delay j_att j_T];
      auto. apply att_wf_make. exact Hk.
  Qed.

  Definition two_ud (args : list (value N)) (fe : front) : Prop :=
    fe = Octave -> forall i v, nth_error args i = Some (VStr "ud") -> nth_error args (S i) = Some v ->
      get_m v * get_n v <> 1.

  Lemma ud_of args fe i vs v : two_ud args fe -> nth_error args i = Some vs -> nth_error args (S i) = Some v ->
    no_scalar_ud fe vs v.
  Proof.
    intros H Es Ev Hf Hs. destruct vs as [st m n d|s]; cbn in Hs; [discriminate|]. subst s.
    exact (H Hf i v Es Ev).
  Qed.

  Lemma repeat_len (x : N) n : 0 <= n -> Z.of_nat (length (repeat x (Z.to_nat n))) = n.
  Proof. intros H. rewrite repeat_length. lia. Qed.

  Lemma parse_call_good fuel c2r fe f nlhs (args : list (value N)) :
    tidy fe f args -> delay_nonempty f args -> array_nonempty f args -> two_ud args fe ->
    keeps_length c2r ->
    good (job_fits fe f) (parse_call fuel c2r fe f nlhs args).
  Proof.
    intros T D A U Hk. unfold parse_call.
    apply require_good; [exact I|]. intros Hb.
    assert (HL : (Z.to_nat (fst (arity fe f)) <= length args)%nat).
    { unfold in_bounds in Hb. destruct (Z.ltb_spec (Z.of_nat (length args)) (fst (arity fe f))); [discriminate|]. lia. }
    assert (HL5 : (5 <= length args)%nat) by (destruct fe, f; cbn in HL; lia).
    apply require_good; [exact I|]. intros _.
    eapply good_bind; [apply (num_arg_good fe f); auto; [destruct f; reflexivity|lia]|]. intros vo (_ & No).
    apply require_good; [exact I|]. intros Ho.
    eapply good_bind; [apply gw_data_good; exact No|]. intros ro Hro. cbv beta in Hro.
    assert (HN : 0 <= get_m vo /\ Z.of_nat (length ro) = 3 * get_m vo).
    { unfold check_obs_points in Ho. destruct No as (st & m & n & d & -> & Hm & Hn & Hd & Hs).
      cbn [get_m get_n] in *. split; [lia|]. apply Z.eqb_eq in Ho. subst n. lia. }
    clear Ho Hro. destruct HN as [HN Hro].
    pose proof (err_in_range fe f) as HE.
    assert (Simple : forall p, delay_pos f = (p + 1)%nat -> (p + 2 < length args)%nat ->
      nth_error (signature f) p = Some Number -> nth_error (signature f) (p + 1) = Some Number ->
      nth_error (signature f) (p + 2) = Some Number ->
      forall k, (forall q alpha dty del, delay_fits dty del (get_m vo) ->
        good (job_fits fe f) (k (q, alpha, dty, del))) ->
      good (job_fits fe f) (parse_common fe args p (get_m vo) k)).
    { intros p E1 E2 E3 E4 E5 k Hkk. apply (parse_common_good fe f); auto. exact I. }
    destruct f.
    1, 3, 5, 6, 7: (
      eapply good_bind; [eapply num_arg_good; [exact T|reflexivity|lia]|]; intros vg (_ & Nvg);
      eapply good_bind; [apply parse_geometry_good; [exact Nvg|cbn; lia]|]; intros g _;
      apply andthen_good; [exact I|]; intros _; destruct (p_val g) as [[g1 g2] g3];
      apply Simple; [reflexivity|lia|reflexivity..|]; intros q alpha dty del Hdel;
      apply parse_level_good; [exact HE|exact HL|exact I|]; intros lvl;
      apply require_good; [exact I|]; intros _;
      apply job_good; auto; intros _; exact I).
    1, 2: (
      assert (HL7 : (7 <= length args)%nat) by (destruct fe; cbn in HL; lia);
      eapply good_bind; [eapply num_arg_good; [exact T|reflexivity|lia]|]; intros vg (_ & Nvg);
      eapply good_bind; [apply parse_geometry_good; [exact Nvg|cbn; lia]|]; intros g _;
      apply andthen_good; [exact I|]; intros _; destruct (p_val g) as [[g1 g2] g3];
      apply Simple; [reflexivity|lia|reflexivity..|]; intros q alpha dty del Hdel;
      eapply good_bind; [apply arg_good; lia|]; intros v5 E5;
      eapply good_bind; [eapply num_arg_good; [exact T|reflexivity|lia]|]; intros v6 (E6 & N6);
      eapply good_bind; [exact (proj2 (parse_focus_good fe v5 v6 1 [nofZ 0] N6 (ud_of args fe 5 v5 v6 U E5 E6)
        (Z.le_refl 1) eq_refl))|]; intros fo Hfo; cbv beta in Hfo;
      apply andthen_good; [exact I|]; intros _; destruct (p_val fo) as [met fbuf]; cbn [snd length] in Hfo;
      apply parse_level_good; [exact HE|exact HL|exact I|]; intros lvl;
      eapply good_bind; [apply get_good; lia|]; intros focal _;
      apply job_good; auto; intros _; exact I).
    1, 2, 3: (
      assert (HL13 : (13 <= length args)%nat) by (destruct fe; cbn in HL; lia);
      eapply good_bind; [eapply num_arg_good; [exact T|reflexivity|lia]|]; intros vg (_ & Nvg);
      eapply good_bind; [apply parse_geometry_good; [exact Nvg|cbn; lia]|]; intros g _;
      apply andthen_good; [exact I|]; intros _; destruct (p_val g) as [[g1 g2] g3];
      eapply good_bind; [eapply num_arg_good; [exact T|reflexivity|lia]|]; intros va (Ea & Na);
      apply require_good; [exact I|]; intros Ha;
      eapply good_bind; [apply gw_data_good; exact Na|]; intros gg Hgg; cbv beta in Hgg;
      assert (Hnum : 1 <= get_m va /\ Z.of_nat (length gg) = 3 * get_m va) by
       (pose proof (A 2%nat va eq_refl Ea) as Hne; unfold check_array in Ha; apply Z.eqb_eq in Ha;
        destruct Na as (st & m & n & d & -> & Hm & Hn & Hd & Hs); cbn [get_m get_n nonempty] in *; subst n; lia);
      destruct Hnum as [Hnum Hg3];
      apply Simple; [reflexivity|lia|reflexivity..|]; intros q alpha dty del Hdel;
      eapply good_bind; [apply arg_good; lia|]; intros v6 E6;
      eapply good_bind; [eapply num_arg_good; [exact T|reflexivity|lia]|]; intros v7 (E7 & N7);
      eapply good_bind; [exact (proj2 (parse_focus_good fe v6 v7 (get_m va) _ N7
         (ud_of args fe 6 v6 v7 U E6 E7) Hnum (repeat_len (nofZ 0) (get_m va) ltac:(lia))))|]; intros fo Hfo; cbv beta in Hfo;
      apply andthen_good; [exact I|]; intros _; destruct (p_val fo) as [met fbuf]; cbn [snd] in Hfo;
      rewrite repeat_length in Hfo;
      eapply good_bind; [apply arg_good; lia|]; intros v8 E8;
      eapply good_bind; [eapply num_arg_good; [exact T|reflexivity|lia]|]; intros v9 (E9 & N9);
      eapply good_bind; [apply parse_steer_good; exact N9|]; intros sp _;
      apply andthen_good; [exact I|]; intros _; destruct (p_val sp) as [[smet th] ph];
      eapply good_bind; [apply arg_good; lia|]; intros v10 E10;
      eapply good_bind; [apply arg_good; lia|]; intros v11 E11;
      eapply good_bind; [apply arg_good; lia|]; intros v12 E12;
      eapply good_bind; [exact (parse_apod_good fe v10 v11 v12 (get_m va) _
         (tidy_numval fe _ args 11 v11 T E11 eq_refl) (ud_of args fe 10 v10 v11 U E10 E11)
         (tidy_numval fe _ args 12 v12 T E12 eq_refl) ltac:(lia) (repeat_len (nofZ 0) (get_m va) ltac:(lia)))|];
      intros ap Hap; cbv beta in Hap;
      apply andthen_good; [exact I|]; intros _; destruct (p_val ap) as [[[on abuf] amet] apar];
      cbn [fst snd] in Hap; rewrite repeat_length in Hap;
      apply parse_level_good; [exact HE|exact HL|exact I|]; intros lvl;
      apply job_good; auto; intros _; cbn [wf_transducer];
      split; cbn [num_elements G foc_met focal do_apod apod_met apod]; auto;
      [ destruct (FocusMet_is_ud met); lia | intros _ _; lia ]).
    assert (HL10 : (10 <= length args)%nat) by (destruct fe; cbn in HL; lia).
    eapply good_bind; [eapply num_arg_good; [exact T|reflexivity|lia]|]. intros vr (Er & Nr).
    apply require_good; [exact I|]. intros _. apply require_good; [exact I|]. intros _.
    eapply good_bind; [apply gw_data_good; exact Nr|]. intros gr Hgr. cbv beta in Hgr.
    set (num_radii := match fe with Python => get_m vr | _ => get_m vr * get_n vr end).
    set (num := match fe with Octave | Matlab => (num_radii + 1) / 2 | _ => num_radii end).
    assert (Hnr : 1 <= num_radii <= Z.of_nat (length gr)).
    { pose proof (A 1%nat vr eq_refl Er) as Hne. subst num_radii.
      destruct Nr as (st & m & n & d & -> & Hm & Hn & Hd & Hs). cbn [get_m get_n nonempty] in *.
      rewrite Hgr. clear - Hne Hm Hn. assert (1 <= m) by nia. assert (1 <= n) by nia.
      assert (m <= m * n) by nia. destruct fe; lia. }
    assert (Hnum : 1 <= num /\ (num_radii + 1) / 2 <= num) by (subst num; destruct fe; lia).
    destruct Hnum as [Hnum Hann].
    destruct (Z.ltb_spec (Z.of_nat (length gr)) num_radii); [lia|].
    apply Simple; [reflexivity|lia|reflexivity..|]. intros q alpha dty del Hdel.
    eapply good_bind; [apply arg_good; lia|]. intros v5 E5.
    eapply good_bind; [eapply num_arg_good; [exact T|reflexivity|lia]|]. intros v6 (E6 & N6).
    eapply good_bind; [exact (proj2 (parse_focus_good fe v5 v6 num _ N6
       (ud_of args fe 5 v5 v6 U E5 E6) Hnum (repeat_len (nofZ 0) num ltac:(lia))))|]. intros fo Hfo. cbv beta in Hfo.
    apply andthen_good; [exact I|]. intros _. destruct (p_val fo) as [met fbuf]. cbn [snd] in Hfo.
    rewrite repeat_length in Hfo.
    eapply good_bind; [apply arg_good; lia|]. intros v7 E7.
    eapply good_bind; [apply arg_good; lia|]. intros v8 E8.
    eapply good_bind; [apply arg_good; lia|]. intros v9 E9.
    eapply good_bind; [exact (parse_apod_good fe v7 v8 v9 num _
       (tidy_numval fe _ args 8 v8 T E8 eq_refl) (ud_of args fe 7 v7 v8 U E7 E8)
       (tidy_numval fe _ args 9 v9 T E9 eq_refl) ltac:(lia) (repeat_len (nofZ 0) num ltac:(lia)))|].
    intros ap Hap. cbv beta in Hap.
    apply andthen_good; [exact I|]. intros _. destruct (p_val ap) as [[[on abuf] amet] apar].
    cbn [fst snd] in Hap. rewrite repeat_length in Hap.
    apply parse_level_good; [exact HE|exact HL|exact I|]. intros lvl.
    apply job_good; auto. intros Hu. cbn [wf_transducer].
    assert (Hlen : length (firstn (Z.to_nat num_radii) gr) = Z.to_nat num_radii) by (apply firstn_length_le; lia).
    split; cbn [Gr an_foc_met an_focal an_do_apod an_apod_met an_apod]; unfold annu_num; cbn [Gr].
    - rewrite Hlen. lia.
    - rewrite Hlen. rewrite Z2Nat.id by lia. destruct (FocusMet_is_ud met); lia.
    - intros _ _. rewrite Hlen, Z2Nat.id by lia. lia.
    - left. apply Hu. reflexivity.
  Qed.

  (** ** The whole gateway *)
  Lemma alloc_length (junk : buf) n : length (alloc junk n) = n.
  Proof. unfold alloc. rewrite firstn_length, app_length, repeat_length. lia. Qed.

  (** The gateway clears the freshly allocated matrix. *)
  Lemma sir_clear_alloc (junk : buf) len No : 0 <= len -> 0 <= No ->
    sir_clear len No (alloc junk (Z.to_nat (len * No))) = Ok (zeros (len * No)).
  Proof. intros H1 H2. unfold sir_clear. apply clear_zeros. apply alloc_length. Qed.

  Lemma gateway_good fuel c2r fe f nlhs hw env sch (junk : buf) args :
    tidy fe f args -> delay_nonempty f args -> array_nonempty f args -> two_ud args fe ->
    keeps_length c2r -> 0 <= hw -> (f = FArrAnnu -> idx_of fe = UnsignedIdx) ->
    good (fun _ => True) (gateway fuel c2r fe f nlhs hw env sch junk args).
  Proof.
    intros T D A U Hk Hh Hf. unfold gateway.
    eapply good_bind; [apply parse_call_good; eassumption|]. intros [J|] HJ; [|exact I].
    cbn [job_fits] in HJ. unfold run_gateway. destruct (Z.ltb_spec (nt (j_q J)) 0) as [|Hnt]; [exact I|].
    specialize (HJ Hnt Hf).
    pose proof (wj_No _ _ HJ) as HN. rewrite sir_clear_alloc by auto. cbn [bind].
    eapply good_bind.
    - apply (call_good (idx_of fe) J HJ).
      + apply num_threads_ok; auto.
      + unfold zeros. rewrite repeat_length. f_equal. lia.
    - intros [[[H e] r]|] _; exact I.
  Qed.
End Parse.
