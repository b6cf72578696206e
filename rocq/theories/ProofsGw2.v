(** ProofsGw2.v - what an accepted call looks like. *)
From Coq Require Strings.String Strings.Ascii.
Import Coq.Strings.String.StringSyntax.
From Verif Require Import Base BaseLemmas ModelSir ModelArr ModelSmp ModelGw SpecGw ProofsGw.
Local Open Scope string_scope.
Local Open Scope Z_scope.
Ltac Zify.zify_post_hook ::= Z.div_mod_to_equations.

Section Inv.
  Context {N : Num}.
  Local Notation buf := (list N).
  Implicit Types v vs vp : value N.

  Lemma require_inv {B} (b : bool) (k : res (option B)) x :
    require b k = Ok (Some x) -> b = true /\ k = Ok (Some x).
  Proof. destruct b; cbn; auto; discriminate. Qed.
  Lemma andthen_inv {A B} fe (p : parsed A) (k : A -> res (option B)) x :
    andthen fe p k = Ok (Some x) -> goes_on fe p = true /\ k (p_val p) = Ok (Some x).
  Proof. unfold andthen. destruct (goes_on fe p); auto; discriminate. Qed.
  Lemma arg_inv (args : list (value N)) i v : arg args i = Ok v -> nth_error args i = Some v.
  Proof. unfold arg. destruct (nth_error args i); [congruence|discriminate]. Qed.
  Lemma num_arg_inv fe (args : list (value N)) i v : num_arg fe args i = Ok v -> nth_error args i = Some v.
  Proof.
    unfold num_arg. intros H. apply bind_Ok_inv in H as (v' & H1 & H).
    apply bind_Ok_inv in H as (u & _ & H). injection H as <-. now apply arg_inv.
  Qed.

  Lemma goes_on_reject {A} fe (a : A) : goes_on fe (reject a) = false.
  Proof. destruct fe; reflexivity. Qed.

  Lemma parse_geometry_inv fe num v p : parse_geometry fe num v = Ok p -> goes_on fe p = true ->
    entries v = num.
  Proof.
    unfold parse_geometry. destruct (check_vec fe num v) eqn:E; cbn [negb].
    - intros _ _. exact (check_vec_len fe num v E).
    - intros [= <-]. now rewrite goes_on_reject.
  Qed.
  Lemma parse_sampling_inv fe v p : parse_sampling fe v = Ok p -> goes_on fe p = true -> entries v = 4.
  Proof.
    unfold parse_sampling. destruct (check_vec fe 4 v) eqn:E; cbn [negb].
    - intros _ _. exact (check_vec_len fe 4 v E).
    - intros [= <-]. now rewrite goes_on_reject.
  Qed.
  Lemma parse_material_inv fe v p : parse_material fe v = Ok p -> goes_on fe p = true -> entries v = 3.
  Proof.
    unfold parse_material. destruct (check_vec fe 3 v) eqn:E; cbn [negb].
    - intros _ _. exact (check_vec_len fe 3 v E).
    - intros [= <-]. now rewrite goes_on_reject.
  Qed.

  Lemma parse_error_inv fe v : goes_on fe (parse_error_arg fe v) = true ->
    (forall s, v = VStr s -> printable fe s) ->
    exists s, v = VStr s /\ In (s, p_val (parse_error_arg fe v)) err_doc.
  Proof.
    intros G P. unfold parse_error_arg in *. destruct v as [st m n d|s]; cbn [is_string negb str_of] in *.
    - now rewrite goes_on_reject in G.
    - exists s. split; [reflexivity|].
      destruct (err_of_string (get_string_arg fe s)) as [l|] eqn:E; [|now rewrite goes_on_reject in G].
      cbn. apply err_of_string_doc. apply (through_arg err_of_string fe s l (P s eq_refl) eq_refl); auto.
      intros t x. apply err_short.
  Qed.

  Lemma parse_focus_inv fe vs v num focal0 p : parse_focus_args fe vs v num focal0 = Ok p ->
    goes_on fe p = true -> (forall s, vs = VStr s -> printable fe s) ->
    exists s, vs = VStr s /\ In (s, fst (p_val p)) foc_doc /\
      entries v = (if String.eqb s "ud" then num else 1).
  Proof.
    intros E G P. unfold parse_focus_args in E.
    destruct vs as [st m n d|s]; cbn [is_string negb str_of] in *.
    { injection E as <-. now rewrite goes_on_reject in G. }
    exists s. split; [reflexivity|]. specialize (P s eq_refl).
    destruct (String.eqb_spec (get_string_arg fe s) "ud") as [Eu|Eu].
    - assert (s = "ud").
      { assert (H : In (s, foc_ud) foc_doc).
        { apply foc_of_string_doc, (through_arg foc_of_string fe s foc_ud P eq_refl).
          - intros t x. apply foc_short.
          - rewrite Eu. reflexivity. }
        cbn in H. repeat destruct H as [H|H]; try contradiction; congruence. }
      subst s. cbn [String.eqb]. change (String.eqb "ud" "ud") with true.
      destruct (Z.eqb_spec (get_m v * get_n v) num); cbn [negb] in E.
      + apply bind_Ok_inv in E as (d & _ & E). apply bind_Ok_inv in E as (f & _ & E). injection E as <-.
        cbn. auto 20.
      + injection E as <-. now rewrite goes_on_reject in G.
    - destruct (Z.eqb_spec (get_m v * get_n v) 1); cbn [negb] in E.
      2:{ injection E as <-. now rewrite goes_on_reject in G. }
      apply bind_Ok_inv in E as (x & _ & E). apply bind_Ok_inv in E as (f & _ & E).
      destruct (foc_of_string (get_string_arg fe s)) as [m|] eqn:Ef.
      + injection E as <-. cbn [accept p_val fst].
        apply (through_arg foc_of_string fe s m P eq_refl) in Ef; [|intros t y; apply foc_short].
        split; [now apply foc_of_string_doc|].
        destruct (String.eqb_spec s "ud") as [->|]; [|assumption].
        exfalso. apply Eu. destruct fe; reflexivity.
      + injection E as <-. now rewrite goes_on_reject in G.
  Qed.

  Lemma parse_steer_inv fe vs v p : parse_steer_args fe vs v = Ok p ->
    goes_on fe p = true -> (forall s, vs = VStr s -> printable fe s) ->
    exists s, vs = VStr s /\ In (s, fst (fst (p_val p))) steer_doc /\ entries v = 2.
  Proof.
    intros E G P. unfold parse_steer_args in E.
    destruct vs as [st m n d|s]; cbn [is_string negb str_of] in *.
    { injection E as <-. now rewrite goes_on_reject in G. }
    exists s. split; [reflexivity|]. specialize (P s eq_refl).
    destruct (steer_of_string (get_string_arg fe s)) as [m|] eqn:Ef.
    2:{ injection E as <-. now rewrite goes_on_reject in G. }
    apply (through_arg steer_of_string fe s m P eq_refl) in Ef; [|intros t y; apply steer_short].
    destruct (check_vec fe 2 v) eqn:Ev; cbn [negb] in E.
    2:{ injection E as <-. now rewrite goes_on_reject in G. }
    apply bind_Ok_inv in E as (d & _ & E). apply bind_Ok_inv in E as (th & _ & E).
    apply bind_Ok_inv in E as (ph & _ & E). injection E as <-. cbn [accept p_val fst].
    split; [now apply steer_of_string_doc|]. exact (check_vec_len fe 2 v Ev).
  Qed.

  Lemma parse_apod_inv fe vs v vp num apod0 p : parse_apod_args fe vs v vp num apod0 = Ok p ->
    goes_on fe p = true -> (forall s, vs = VStr s -> printable fe s) ->
    exists s, vs = VStr s /\
      ((s = "off" /\ fst (fst (fst (p_val p))) = false) \/
       (fst (fst (fst (p_val p))) = true /\ In (s, snd (fst (p_val p))) apod_doc)) /\
      (fe <> Matlab -> s = "ud" -> entries v = num).
  Proof.
    intros E G P. unfold parse_apod_args in E.
    destruct vs as [st m n d|s]; cbn [is_string negb str_of] in *.
    { injection E as <-. now rewrite goes_on_reject in G. }
    exists s. split; [reflexivity|]. specialize (P s eq_refl).
    destruct (apod_of_string (get_string_arg fe s)) as [[on m]|] eqn:Ef.
    2:{ injection E as <-. now rewrite goes_on_reject in G. }
    pose proof Ef as Ef'.
    apply (through_arg apod_of_string fe s (on, m) P eq_refl) in Ef'; [|intros t y; apply apod_short].
    apply bind_Ok_inv in E as (u & _ & E). apply bind_Ok_inv in E as (ap & _ & E).
    set (bad := String.eqb (get_string_arg fe s) "ud" && negb (get_m v * get_n v =? num)) in *.
    assert (Hp : fst (fst (fst (p_val p))) = on /\ snd (fst (p_val p)) = m /\ (fe <> Matlab -> bad = false)).
    { destruct fe.
      1, 2: destruct ((get_m vp =? 1) && (get_n vp =? 1)); cbn [negb] in E;
        [|injection E as <-; cbn in G; discriminate];
        destruct bad; [injection E as <-; cbn in *; try discriminate; repeat split; congruence|];
        apply bind_Ok_inv in E as (w & _ & E); injection E as <-; cbn; auto.
      all: destruct bad; injection E as <-; cbn in *; [discriminate|auto]. }
    destruct Hp as (-> & -> & Hb). split.
    - apply apod_of_string_doc in Ef' as [(-> & -> & _)|(-> & H)]; auto.
    - intros Hm ->. specialize (Hb Hm). subst bad.
      replace (String.eqb (get_string_arg fe "ud") "ud") with true in Hb by (destruct fe; reflexivity).
      unfold entries. lia.
  Qed.

  Lemma parse_common_inv {B} fe (args : list (value N)) p No (k : samp N * N * DelayType * buf -> res (option B)) x :
    parse_common fe args p No k = Ok (Some x) ->
    exists vs vd vm q alpha dty del,
      nth_error args p = Some vs /\ entries vs = 4 /\
      nth_error args (p + 1) = Some vd /\ (entries vd <= 0 \/ entries vd = 1 \/ entries vd = No) /\
      nth_error args (p + 2) = Some vm /\ entries vm = 3 /\
      k (q, alpha, dty, del) = Ok (Some x).
  Proof.
    unfold parse_common. intros E.
    apply bind_Ok_inv in E as (vs & Evs & E). apply num_arg_inv in Evs.
    apply bind_Ok_inv in E as (sp & Esp & E). apply andthen_inv in E as [Gs E].
    apply parse_sampling_inv in Esp; auto. destruct (p_val sp) as [[[dx dy] dt] nt].
    apply bind_Ok_inv in E as (vd & Evd & E). apply num_arg_inv in Evd.
    apply require_inv in E as [Hd E]. apply bind_Ok_inv in E as (del & _ & E).
    apply bind_Ok_inv in E as (vm & Evm & E). apply num_arg_inv in Evm.
    apply bind_Ok_inv in E as (mp & Emp & E). apply andthen_inv in E as [Gm E].
    apply parse_material_inv in Emp; auto. destruct (p_val mp) as [[v c] al].
    exists vs, vd, vm. do 4 eexists. repeat (split; [eassumption|]). split.
    - unfold check_delay in Hd. unfold entries. lia.
    - split; [eassumption|]. split; [eassumption|exact E].
  Qed.

  Lemma parse_level_inv {B} fe f (args : list (value N)) (k : ErrorLevel -> res (option B)) x :
    (forall s, In (VStr s) args -> printable fe s) ->
    parse_level fe f args k = Ok (Some x) ->
    exists l, k l = Ok (Some x) /\
      (reads_err fe f (Z.of_nat (length args)) = true ->
         exists s, nth_error args (err_pos f) = Some (VStr s) /\ In (s, l) err_doc) /\
      (reads_err fe f (Z.of_nat (length args)) = false -> l = lvl_stop).
  Proof.
    intros P. unfold parse_level. destruct (reads_err fe f (Z.of_nat (length args))) eqn:R.
    - intros E. apply bind_Ok_inv in E as (v & Ev & E). apply arg_inv in Ev.
      apply andthen_inv in E as [G E].
      destruct (parse_error_inv fe v G) as (s & -> & Hs).
      { intros s ->. apply P. eapply nth_error_In; eauto. }
      eexists. split; [exact E|]. split; [|discriminate].
      intros _. exists s. split; [exact Ev|exact Hs].
    - intros E. exists lvl_stop. split; [exact E|]. split; [discriminate|auto].
  Qed.

  Lemma level_from fe f (args : list (value N)) J l :
    fst (arity fe f) <= Z.of_nat (length args) <= snd (arity fe f) ->
    ~ (fe = Matlab /\ (f = FRect \/ f = FCirc) /\ length args = 7%nat) ->
    j_lvl J = l ->
    (reads_err fe f (Z.of_nat (length args)) = true ->
         exists s, nth_error args (err_pos f) = Some (VStr s) /\ In (s, l) err_doc) ->
    (reads_err fe f (Z.of_nat (length args)) = false -> l = lvl_stop) -> level_ok f args J.
  Proof.
    intros Hc Hx HJ H1 H2. unfold level_ok.
    destruct (reads_err fe f (Z.of_nat (length args))) eqn:R.
    - destruct (H1 eq_refl) as (s & Es & Hin). rewrite Es. exists s. subst l. auto.
    - specialize (H2 eq_refl). subst l.
      assert (Hn : nth_error args (err_pos f) = None); [|rewrite Hn; assumption].
      apply nth_error_None. destruct fe, f; cbn in R, Hc |- *; try discriminate R; try lia.
      all: destruct (Nat.eq_dec (length args) 7) as [E7|E7]; [exfalso; apply Hx; repeat split; auto|lia].
  Qed.

  Definition all_ok fe f (args : list (value N)) J : Prop :=
    shapes_ok fe f args J /\ options_ok fe f args J /\
    (~ (fe = Matlab /\ (f = FRect \/ f = FCirc) /\ length args = 7%nat) -> level_ok f args J) /\
    (fe <> Matlab -> weights_ok fe f args).

  Lemma parse_call_inv fuel c2r fe f nlhs (args : list (value N)) J :
    (forall s, In (VStr s) args -> printable fe s) ->
    parse_call fuel c2r fe f nlhs args = Ok (Some J) -> all_ok fe f args J.
  Proof.
    intros P E. unfold parse_call in E.
    apply require_inv in E as [Hc E]. apply require_inv in E as [_ E].
    assert (Hcount : fst (arity fe f) <= Z.of_nat (length args) <= snd (arity fe f)) by (unfold in_bounds in Hc; lia).
    clear Hc.
    apply bind_Ok_inv in E as (vo & Evo & E). apply num_arg_inv in Evo.
    apply require_inv in E as [Hvo E]. unfold check_obs_points in Hvo. apply Z.eqb_eq in Hvo.
    apply bind_Ok_inv in E as (ro & _ & E). cbv zeta in E.
    assert (PP : forall i v s, nth_error args i = Some v -> v = VStr s -> printable fe s).
    { intros i v s Ei ->. apply P. eapply nth_error_In; eauto. }
    destruct f.
    1, 3, 5, 6, 7:
      apply bind_Ok_inv in E as (vg & Evg & E); apply num_arg_inv in Evg;
      apply bind_Ok_inv in E as (g & Eg & E); apply andthen_inv in E as [Gg E];
      apply parse_geometry_inv in Eg; [|exact Gg]; destruct (p_val g) as [[g1 g2] g3];
      apply parse_common_inv in E as (vs & vd & vm & q & alpha & dty & del & E1 & E2 & E3 & E4 & E5 & E6 & E);
      apply parse_level_inv in E as (l & E & L1 & L2); [|exact P];
      apply require_inv in E as [_ E]; injection E as <-;
      (split; [split; cbn; try discriminate; eauto; try (intros; discriminate)|]);
      (split; [split; cbn; intros; discriminate|]);
      (split; [intros Hx; eapply level_from; eauto; reflexivity|]);
      intros _ ? ?; discriminate.
    1, 2:
      apply bind_Ok_inv in E as (vg & Evg & E); apply num_arg_inv in Evg;
      apply bind_Ok_inv in E as (g & Eg & E); apply andthen_inv in E as [Gg E];
      apply parse_geometry_inv in Eg; [|exact Gg]; destruct (p_val g) as [[g1 g2] g3];
      apply parse_common_inv in E as (vs & vd & vm & q & alpha & dty & del & E1 & E2 & E3 & E4 & E5 & E6 & E);
      apply bind_Ok_inv in E as (v5 & Ev5 & E); apply arg_inv in Ev5;
      apply bind_Ok_inv in E as (v6 & Ev6 & E); apply num_arg_inv in Ev6;
      apply bind_Ok_inv in E as (fo & Efo & E); apply andthen_inv in E as [Gf E];
      apply parse_focus_inv in Efo as (s5 & -> & F1 & F2); [|exact Gf|intros s Hs; exact (PP _ _ _ Ev5 Hs)];
      destruct (p_val fo) as [met fbuf]; cbn [fst] in F1;
      apply parse_level_inv in E as (l & E & L1 & L2); [|exact P];
      apply bind_Ok_inv in E as (focal & _ & E); injection E as <-;
      (split; [split; cbn; try discriminate; eauto; try (intros; discriminate);
               intros p [= <-]; exists s5, v6; auto|]);
      (split; [split; cbn; try (intros; discriminate); intros p [= <-]; exists s5, met; auto|]);
      (split; [intros Hx; eapply level_from; eauto; reflexivity|]);
      intros _ ? ?; discriminate.
    1, 2, 3:
      apply bind_Ok_inv in E as (vg & Evg & E); apply num_arg_inv in Evg;
      apply bind_Ok_inv in E as (g & Eg & E); apply andthen_inv in E as [Gg E];
      apply parse_geometry_inv in Eg; [|exact Gg]; destruct (p_val g) as [[g1 g2] g3];
      apply bind_Ok_inv in E as (va & Eva & E); apply num_arg_inv in Eva;
      apply require_inv in E as [Ha E]; unfold check_array in Ha; apply Z.eqb_eq in Ha;
      apply bind_Ok_inv in E as (gg & _ & E);
      apply parse_common_inv in E as (vs & vd & vm & q & alpha & dty & del & E1 & E2 & E3 & E4 & E5 & E6 & E);
      apply bind_Ok_inv in E as (v5 & Ev5 & E); apply arg_inv in Ev5;
      apply bind_Ok_inv in E as (v6 & Ev6 & E); apply num_arg_inv in Ev6;
      apply bind_Ok_inv in E as (fo & Efo & E); apply andthen_inv in E as [Gf E];
      apply parse_focus_inv in Efo as (s5 & -> & F1 & F2); [|exact Gf|intros s Hs; exact (PP _ _ _ Ev5 Hs)];
      destruct (p_val fo) as [met fbuf]; cbn [fst] in F1;
      apply bind_Ok_inv in E as (v8 & Ev8 & E); apply arg_inv in Ev8;
      apply bind_Ok_inv in E as (v9 & Ev9 & E); apply num_arg_inv in Ev9;
      apply bind_Ok_inv in E as (st & Est & E); apply andthen_inv in E as [Gs E];
      apply parse_steer_inv in Est as (s8 & -> & S1 & S2); [|exact Gs|intros s Hs; exact (PP _ _ _ Ev8 Hs)];
      destruct (p_val st) as [[smet th] ph]; cbn [fst] in S1;
      apply bind_Ok_inv in E as (v10 & Ev10 & E); apply arg_inv in Ev10;
      apply bind_Ok_inv in E as (v11 & Ev11 & E); apply arg_inv in Ev11;
      apply bind_Ok_inv in E as (v12 & Ev12 & E); apply arg_inv in Ev12;
      apply bind_Ok_inv in E as (ap & Eap & E); apply andthen_inv in E as [Ga E];
      apply parse_apod_inv in Eap as (s10 & -> & A1 & A2); [|exact Ga|intros s Hs; exact (PP _ _ _ Ev10 Hs)];
      destruct (p_val ap) as [[[on abuf] amet] apar]; cbn [fst snd] in A1;
      apply parse_level_inv in E as (l & E & L1 & L2); [|exact P];
      injection E as <-;
      match type of Hcount with fst (arity _ ?f) <= _ <= _ =>
        assert (Hel : elements fe f args = get_m va) by (unfold elements; rewrite Eva; reflexivity);
        rewrite <- Hel in F2, A2
      end;
      (split; [split; [exact Hcount|exists vo; auto|intros _; exists vg; auto|intros p [= <-] _; exists va; auto|
                       exists vs; auto|exists vd; auto|exists vm; auto|
                       intros p [= <-]; exists s5, v6; auto|intros p [= <-]; exists v9; auto]|]);
      (split; [split; cbn; intros p [= <-]; [exists s5, met; auto|exists s8, smet; auto|exists s10; split; [exact Ev10|];
        destruct A1 as [[-> ->]|[-> A1]]; [left; auto|right; exists amet; auto]]|]);
      (split; [intros Hx; eapply level_from; eauto; reflexivity|]);
      intros Hm p [= <-]; exists s10, v11; auto.
    apply bind_Ok_inv in E as (vr & Evr & E); apply num_arg_inv in Evr.
    apply require_inv in E as [_ E]; apply require_inv in E as [_ E].
    apply bind_Ok_inv in E as (gr & _ & E).
    match type of E with (if ?b then _ else _) = _ => destruct b; [discriminate|] end.
    apply parse_common_inv in E as (vs & vd & vm & q & alpha & dty & del & E1 & E2 & E3 & E4 & E5 & E6 & E).
    apply bind_Ok_inv in E as (v5 & Ev5 & E); apply arg_inv in Ev5.
    apply bind_Ok_inv in E as (v6 & Ev6 & E); apply num_arg_inv in Ev6.
    apply bind_Ok_inv in E as (fo & Efo & E); apply andthen_inv in E as [Gf E].
    apply parse_focus_inv in Efo as (s5 & -> & F1 & F2); [|exact Gf|intros s Hs; exact (PP _ _ _ Ev5 Hs)].
    destruct (p_val fo) as [met fbuf]; cbn [fst] in F1.
    apply bind_Ok_inv in E as (v10 & Ev10 & E); apply arg_inv in Ev10.
    apply bind_Ok_inv in E as (v11 & Ev11 & E); apply arg_inv in Ev11.
    apply bind_Ok_inv in E as (v12 & Ev12 & E); apply arg_inv in Ev12.
    apply bind_Ok_inv in E as (ap & Eap & E); apply andthen_inv in E as [Ga E].
    apply parse_apod_inv in Eap as (s10 & -> & A1 & A2); [|exact Ga|intros s Hs; exact (PP _ _ _ Ev10 Hs)].
    destruct (p_val ap) as [[[on abuf] amet] apar]; cbn [fst snd] in A1.
    apply parse_level_inv in E as (l & E & L1 & L2); [|exact P].
    injection E as <-.
    assert (Hel : elements fe FArrAnnu args =
      match fe with Octave | Matlab => (match fe with Python => get_m vr | _ => get_m vr * get_n vr end + 1) / 2
               | _ => match fe with Python => get_m vr | _ => get_m vr * get_n vr end end).
    { cbn [elements]. rewrite Evr. destruct fe; reflexivity. }
    split; [split; try (intros; congruence); cbn [array_pos delay_pos focus_pos steer_pos Nat.sub Nat.add j_No]; eauto|].
    - intros p [= <-]. exists s5, v6. rewrite Hel. auto.
    - intros p; discriminate.
    - split; [split; cbn; try (intros; discriminate); intros p [= <-]; [exists s5, met; auto|exists s10; split; [exact Ev10|];
        destruct A1 as [[-> ->]|[-> A1]]; [left; auto|right; exists amet; auto]]|].
      split; [intros Hx; eapply level_from; eauto; reflexivity|].
      intros Hm p [= <-]. exists s10, v11. rewrite Hel. auto.
  Qed.
End Inv.
