(** ProofsGw3.v - well-formed calls are accepted and computed as asked. *)
From Coq Require Strings.String Strings.Ascii.
Import Coq.Strings.String.StringSyntax.
From Verif Require Import Base BaseLemmas ModelSir ModelArr ModelSmp ModelGw SpecGw ProofsGw ProofsGw2.
Local Open Scope string_scope.
Local Open Scope Z_scope.
Ltac Zify.zify_post_hook ::= Z.div_mod_to_equations.

Section Fun.
  Context {N : Num}.
  Local Notation buf := (list N).
  Implicit Types v vs vp vd vm : value N.

  Lemma shape_ordinary fe v : ordinary fe v -> shape_ok fe v = Ok tt.
  Proof.
    destruct v as [st m n d|s]; destruct fe; try reflexivity. intros [->|(H & _)]; [reflexivity|discriminate].
  Qed.
  Lemma num_arg_ok fe (args : list (value N)) i v : nth_error args i = Some v -> ordinary fe v ->
    num_arg fe args i = Ok v.
  Proof. intros E O. unfold num_arg, arg. rewrite E. cbn. now rewrite (shape_ordinary fe v O). Qed.
  Lemma arg_ok (args : list (value N)) i v : nth_error args i = Some v -> arg args i = Ok v.
  Proof. intros E. unfold arg. now rewrite E. Qed.

  Lemma vec_ordinary fe d v : vec fe d v -> ordinary fe v.
  Proof. intros (st & m & n & -> & O & _). exact O. Qed.
  Lemma vec_entries fe d v : vec fe d v -> get_m v * get_n v = Z.of_nat (length d).
  Proof. intros (st & m & n & -> & O & H). cbn. destruct H as [[-> ->]|[-> ->]]; lia. Qed.
  Lemma vec_check fe d v num : vec fe d v -> Z.of_nat (length d) = num -> check_vec fe num v = true.
  Proof.
    intros V E. pose proof (vec_entries fe d v V) as HE. destruct V as (st & m & n & -> & O & H).
    unfold check_vec. cbn [get_m get_n] in *. destruct fe; try lia.
  Qed.
  Lemma vec_data fe d v : vec fe d v -> get_data v = d.
  Proof. intros (st & m & n & -> & _). reflexivity. Qed.
  Lemma vec_parser_data fe d v : vec fe d v -> ~ (fe = Octave /\ length d = 1%nat) -> parser_data fe v = Ok d.
  Proof.
    intros (st & m & n & -> & O & H) X. cbn in O. destruct O as [->|(-> & -> & -> & ->)].
    - destruct fe; reflexivity.
    - exfalso. apply X. split; [reflexivity|]. lia.
  Qed.
  Lemma vec_gw_data fe d v : vec fe d v -> gw_data fe v = Ok d.
  Proof. intros (st & m & n & -> & _). destruct fe; reflexivity. Qed.

  Lemma goes_accept {A} fe (a : A) : goes_on fe (accept a) = true.
  Proof. destruct fe; reflexivity. Qed.
  Lemma andthen_accept {A B} fe (a : A) (k : A -> res (option B)) : andthen fe (accept a) k = k a.
  Proof. unfold andthen. now rewrite goes_accept. Qed.

  Ltac pdv V := rewrite (vec_parser_data _ _ _ V) by (intros [_ HH]; cbn in HH; discriminate HH).

  Lemma geometry_ok1 fe a v : vec fe [a] v -> parse_geometry fe 1 v = Ok (accept (a, nofZ 0, nofZ 0)).
  Proof.
    intros V. unfold parse_geometry. rewrite (vec_check fe [a] v 1 V eq_refl). cbn [negb Z.eqb Pos.eqb].
    rewrite (vec_data fe _ v V). reflexivity.
  Qed.
  Lemma geometry_ok2 fe a b v : vec fe [a; b] v -> parse_geometry fe 2 v = Ok (accept (a, b, nofZ 0)).
  Proof.
    intros V. unfold parse_geometry. rewrite (vec_check fe [a; b] v 2 V eq_refl). cbn [negb Z.eqb Pos.eqb].
    pdv V. reflexivity.
  Qed.
  Lemma geometry_ok3 fe a b c v : vec fe [a; b; c] v -> parse_geometry fe 3 v = Ok (accept (a, b, c)).
  Proof.
    intros V. unfold parse_geometry. rewrite (vec_check fe [a; b; c] v 3 V eq_refl). cbn [negb Z.eqb Pos.eqb].
    pdv V. reflexivity.
  Qed.

  Lemma common_ok {B} fe args p No dx dy dt ntf n dty del (v c al : N) vs vd vm
    (k : samp N * N * DelayType * buf -> res (option B)) :
    nth_error args p = Some vs -> nth_error args (p + 1) = Some vd -> nth_error args (p + 2) = Some vm ->
    vec fe [dx; dy; dt; ntf] vs -> to_idx (idx_of fe) (ntrunc ntf) = Ok n ->
    delay_given fe No vd dty del -> vec fe [v; c; al] vm ->
    parse_common fe args p No k =
    k ({| dx := dx; dy := dy; dt := dt; nt := n; vel := v; cp := c |}, al, dty, del).
  Proof.
    intros E1 E2 E3 V1 Hn D V3. unfold parse_common.
    rewrite (num_arg_ok fe args p vs E1 (vec_ordinary _ _ _ V1)). cbn [bind].
    unfold parse_sampling at 1. rewrite (vec_check fe _ vs 4 V1 eq_refl). cbn [negb]. pdv V1.
    cbn [bind]. change (buf_get [dx; dy; dt; ntf] 0) with (Ok dx). change (buf_get [dx; dy; dt; ntf] 1) with (Ok dy).
    change (buf_get [dx; dy; dt; ntf] 2) with (Ok dt). change (buf_get [dx; dy; dt; ntf] 3) with (Ok ntf).
    cbn [bind]. rewrite Hn. cbn [bind].
    rewrite andthen_accept.
    assert (Hd : ordinary fe vd /\ check_delay vd No = true /\ gw_data fe vd = Ok del /\ delay_type_of vd = dty).
    { destruct D as [(d & Vd & -> & ->)|(Vd & HL & H1 & ->)].
      - split; [exact (vec_ordinary _ _ _ Vd)|]. unfold check_delay, delay_type_of. rewrite (vec_entries _ _ _ Vd).
        split; [reflexivity|]. split; [exact (vec_gw_data _ _ _ Vd)|reflexivity].
      - split; [exact (vec_ordinary _ _ _ Vd)|]. unfold check_delay, delay_type_of. rewrite (vec_entries _ _ _ Vd).
        split; [lia|]. split; [exact (vec_gw_data _ _ _ Vd)|].
        destruct (Z.eqb_spec (Z.of_nat (length del)) 1); [lia|reflexivity]. }
    destruct Hd as (O & Hc & Hg & <-).
    rewrite (num_arg_ok fe args (p + 1) vd E2 O). cbn [bind]. rewrite Hc. cbn [require]. rewrite Hg. cbn [bind].
    rewrite (num_arg_ok fe args (p + 2) vm E3 (vec_ordinary _ _ _ V3)). cbn [bind].
    unfold parse_material. rewrite (vec_check fe _ vm 3 V3 eq_refl). cbn [negb]. pdv V3. cbn [bind].
    change (buf_get [v; c; al] 0) with (Ok v). change (buf_get [v; c; al] 1) with (Ok c).
    change (buf_get [v; c; al] 2) with (Ok al). cbn [bind]. rewrite andthen_accept. reflexivity.
  Qed.

  Lemma err_decode fe s l : In (s, l) err_doc -> parse_error_arg fe (VStr s : value N) = accept l.
  Proof.
    intros H. cbn in H. repeat destruct H as [H|H]; try contradiction; injection H as <- <-; destruct fe; reflexivity.
  Qed.

  Lemma level_ok_eq {B} fe f (args tail : list (value N)) l (k : ErrorLevel -> res (option B)) :
    level_given fe tail l -> length args = err_pos f ->
    parse_level fe f (args ++ tail)%list k = k l.
  Proof.
    intros [(s & -> & Hs)|(Hf & -> & ->)] HL; unfold parse_level.
    - assert (R : reads_err fe f (Z.of_nat (length (args ++ [VStr s])%list)) = true).
      { rewrite app_length, HL. destruct fe, f; reflexivity. }
      rewrite R. rewrite (arg_ok _ _ (VStr s)).
      2:{ rewrite nth_error_app2 by lia. rewrite HL, Nat.sub_diag. reflexivity. }
      cbn [bind]. rewrite (err_decode fe s l Hs). apply andthen_accept.
    - assert (R : reads_err fe f (Z.of_nat (length (args ++ [])%list)) = false).
      { rewrite app_length, HL. destruct Hf as [-> | ->]; destruct f; reflexivity. }
      rewrite R. reflexivity.
  Qed.

  Lemma arity_ok fe f (args tail : list (value N)) l : level_given fe tail l -> length args = err_pos f ->
    in_bounds (Z.of_nat (length (args ++ tail)%list)) (fst (arity fe f)) (snd (arity fe f)) = true.
  Proof.
    intros [(s & -> & Hs)|(Hf & -> & ->)] HL; rewrite app_length, HL.
    - destruct fe, f; reflexivity.
    - destruct Hf as [-> | ->]; destruct f; reflexivity.
  Qed.

  Lemma mat3_ok fe rows d v : mat3 fe rows d v ->
    ordinary fe v /\ get_n v = 3 /\ get_m v = rows /\ gw_data fe v = Ok d.
  Proof. intros (st & -> & O & _ & _). repeat split; auto. Qed.

  Lemma nlhs_ok nlhs : 0 <= nlhs <= 2 -> in_bounds nlhs 0 2 = true.
  Proof. unfold in_bounds. lia. Qed.

  Lemma single_call fuel c2r fe f nlhs g T No ro dx dy dt ntf n dty del (v c al : N) l vo vg vs vd vm tail :
    single_transducer f g = Some T -> 0 <= nlhs <= 2 ->
    mat3 fe No ro vo -> vec fe g vg -> vec fe [dx; dy; dt; ntf] vs ->
    to_idx (idx_of fe) (ntrunc ntf) = Ok n -> delay_given fe No vd dty del -> vec fe [v; c; al] vm ->
    level_given fe tail l ->
    parse_call fuel c2r fe f nlhs ([vo; vg; vs; vd; vm] ++ tail)%list =
    Ok (Some (asks fuel c2r T dx dy dt n v c al l No ro dty del)).
  Proof.
    intros HT Hl Mo Vg Vs Hn D Vm L.
    assert (He : err_pos f = 5%nat) by (destruct f; cbn in HT; try discriminate HT; reflexivity).
    unfold parse_call. cbv zeta. rewrite (arity_ok fe f [vo; vg; vs; vd; vm] tail l L (eq_sym He)).
    cbn [require]. rewrite (nlhs_ok nlhs Hl). cbn [require].
    destruct (mat3_ok _ _ _ _ Mo) as (Oo & Ho3 & Hom & Hod).
    match goal with |- context[num_arg fe ?a 0] => rewrite (num_arg_ok fe a 0 vo eq_refl Oo) end. cbn [bind]. unfold check_obs_points. rewrite Ho3, Hom, Hod.
    cbn [Z.eqb Pos.eqb require bind].
    assert (Hdev : device_ok fe ([vo; vg; vs; vd; vm] ++ tail)%list = true).
    { destruct L as [(s & -> & _)|(_ & -> & _)]; destruct fe; reflexivity. }
    assert (X : forall gp, parse_geometry fe (geom_pars f) vg = Ok (accept gp) ->
      (match f with
        | FRect => TRect (fst (fst gp)) (snd (fst gp)) | FCirc => TCirc (fst (fst gp)) | FLine => TLine (fst (fst gp))
        | FSphere => TSphere (fst (fst gp)) (snd (fst gp)) | _ => TCylind (fst (fst gp)) (snd (fst gp)) (snd gp)
        end) = T -> exists gp', parse_geometry fe (geom_pars f) vg = Ok (accept gp') /\
      (match f with
        | FRect => TRect (fst (fst gp')) (snd (fst gp')) | FCirc => TCirc (fst (fst gp')) | FLine => TLine (fst (fst gp'))
        | FSphere => TSphere (fst (fst gp')) (snd (fst gp')) | _ => TCylind (fst (fst gp')) (snd (fst gp')) (snd gp')
        end) = T) by eauto.
    assert (Y : exists gp, parse_geometry fe (geom_pars f) vg = Ok (accept gp) /\
      (match f with
        | FRect => TRect (fst (fst gp)) (snd (fst gp)) | FCirc => TCirc (fst (fst gp)) | FLine => TLine (fst (fst gp))
        | FSphere => TSphere (fst (fst gp)) (snd (fst gp)) | _ => TCylind (fst (fst gp)) (snd (fst gp)) (snd gp)
        end) = T).
    { clear X. destruct f; cbn in HT; try discriminate HT;
        destruct g as [|a [|b [|r [|]]]]; try discriminate HT; injection HT as <-; cbn [geom_pars].
      - exists (a, b, nofZ 0). split; [now apply geometry_ok2|reflexivity].
      - exists (a, nofZ 0, nofZ 0). split; [now apply geometry_ok1|reflexivity].
      - exists (a, nofZ 0, nofZ 0). split; [now apply geometry_ok1|reflexivity].
      - exists (a, b, nofZ 0). split; [now apply geometry_ok2|reflexivity].
      - exists (a, b, r). split; [now apply geometry_ok3|reflexivity]. }
    clear X. destruct Y as ([[g1 g2] g3] & HG & HTT). cbn [fst snd] in HTT.
    assert (HC : forall B (k : samp N * N * DelayType * buf -> res (option B)),
      parse_common fe ([vo; vg; vs; vd; vm] ++ tail)%list 2 No k =
      k ({| dx := dx; dy := dy; dt := dt; nt := n; vel := v; cp := c |}, al, dty, del)).
    { intros B k. apply (common_ok fe _ 2 No dx dy dt ntf n dty del v c al vs vd vm); auto. }
    destruct f; cbn in HT; try discriminate HT;
      match goal with |- context[num_arg fe ?a 1] => rewrite (num_arg_ok fe a 1 vg eq_refl (vec_ordinary _ _ _ Vg)) end; cbn [bind]; rewrite HG; cbn [bind];
      rewrite andthen_accept, HC, (level_ok_eq fe _ [vo; vg; vs; vd; vm] tail l) by auto;
      rewrite Hdev; cbn [require]; subst T; reflexivity.
  Qed.

  Lemma foc_decode fe s m : In (s, m) foc_doc -> foc_of_string (get_string_arg fe s) = Some m /\
    (s <> "ud" -> String.eqb (get_string_arg fe s) "ud" = false).
  Proof.
    intros H. cbn in H. repeat destruct H as [H|H]; try contradiction; injection H as <- <-; destruct fe;
      split; try reflexivity; congruence.
  Qed.

  Lemma memcpy_all (dst src : buf) num : Z.of_nat (length src) = num -> Z.of_nat (length dst) = num ->
    memcpy dst src num = Ok src.
  Proof.
    intros H1 H2. unfold memcpy.
    destruct (Z.ltb_spec (Z.of_nat (length src)) num); [lia|].
    destruct (Z.ltb_spec (Z.of_nat (length dst)) num); [lia|].
    f_equal. rewrite firstn_all2 by lia. rewrite skipn_all2 by lia. apply app_nil_r.
  Qed.

  Lemma focus_ok fe num vs v m fbuf : 1 <= num -> focus_given fe num vs v m fbuf ->
    ordinary fe v /\
    parse_focus_args fe vs v num (repeat (nofZ 0) (Z.to_nat num)) = Ok (accept (m, fbuf)).
  Proof.
    intros Hnum [(s & x & -> & Hs & Hud & V & ->)|(-> & -> & V & HL & HO)].
    - split; [exact (vec_ordinary _ _ _ V)|]. unfold parse_focus_args. cbn [is_string negb str_of].
      destruct (foc_decode fe s m Hs) as [D1 D2]. rewrite (D2 Hud), (vec_entries _ _ _ V).
      cbn [length Z.of_nat Pos.of_succ_nat Z.eqb Pos.eqb negb]. rewrite (vec_data fe _ v V).
      change (buf_get [x] 0) with (Ok x). cbn [bind].
      rewrite buf_upd_ok by (rewrite repeat_length; lia). cbn [bind]. rewrite D1. do 4 f_equal.
      replace (Z.to_nat num) with (S (Z.to_nat (num - 1))) by lia. reflexivity.
    - split; [exact (vec_ordinary _ _ _ V)|]. unfold parse_focus_args. cbn [is_string negb str_of].
      replace (String.eqb (get_string_arg fe "ud") "ud") with true by (destruct fe; reflexivity).
      rewrite (vec_entries _ _ _ V), HL, Z.eqb_refl. cbn [negb].
      rewrite (vec_parser_data _ _ _ V) by (intros [-> HH]; apply HO; split; [reflexivity|lia]). cbn [bind].
      rewrite memcpy_all; auto. rewrite repeat_length. lia.
  Qed.

  Lemma steer_ok fe vs v m th ph : steer_given fe vs v m th ph ->
    ordinary fe v /\ parse_steer_args fe vs v = Ok (accept (m, th, ph)).
  Proof.
    intros (s & -> & Hs & V). split; [exact (vec_ordinary _ _ _ V)|].
    unfold parse_steer_args. cbn [is_string negb str_of].
    assert (E : steer_of_string (get_string_arg fe s) = Some m).
    { cbn in Hs. repeat destruct Hs as [Hs|Hs]; try contradiction; injection Hs as <- <-; destruct fe; reflexivity. }
    rewrite E, (vec_check fe _ v 2 V eq_refl). cbn [negb]. pdv V. reflexivity.
  Qed.

  Lemma apod_decode fe s m : In (s, m) apod_doc -> apod_of_string (get_string_arg fe s) = Some (true, m) /\
    (s <> "ud" -> String.eqb (get_string_arg fe s) "ud" = false).
  Proof.
    intros H. cbn in H. repeat destruct H as [H|H]; try contradiction; injection H as <- <-; destruct fe;
      split; try reflexivity; congruence.
  Qed.

  Lemma window_ok fe w vp (r : bool * buf * ApodMet) : vec fe [w] vp ->
    (match fe with
     | Octave | Matlab =>
       if negb ((get_m vp =? 1) && (get_n vp =? 1)) then Ok (reject (r, nofZ 0))
       else do w <- buf_get (get_data vp) 0; Ok (accept (r, w))
     | Python | Julia => Ok (accept (r, nofZ 0))
     end) = Ok (accept (r, window_par fe w)).
  Proof.
    intros V. rewrite (vec_data _ _ _ V). destruct V as (st & m & n & -> & O & H). cbn [length Z.of_nat Pos.of_succ_nat] in H.
    assert (m = 1 /\ n = 1) as [-> ->] by lia. destruct fe; reflexivity.
  Qed.

  Lemma apod_ok fe num vs v vp on m abuf w : 0 <= num -> apod_given fe num vs v vp on m abuf w ->
    parse_apod_args fe vs v vp num (repeat (nofZ 0) (Z.to_nat num)) = Ok (accept (on, abuf, m, window_par fe w)).
  Proof.
    intros Hnum [Vp [(-> & O & -> & -> & ->)|[(s & -> & O & -> & Hs & Hud & ->)|(-> & -> & -> & V & HL & HO)]]];
      unfold parse_apod_args; cbn [is_string negb str_of].
    - replace (apod_of_string (get_string_arg fe "off")) with (Some (false, apod_gauss)) by (destruct fe; reflexivity).
      replace (String.eqb (get_string_arg fe "off") "ud") with false by (destruct fe; reflexivity).
      cbn [andb bind]. exact (window_ok fe w vp (false, _, apod_gauss) Vp).
    - destruct (apod_decode fe s m Hs) as [D1 D2]. rewrite D1, (D2 Hud). cbn [andb bind].
      exact (window_ok fe w vp (true, _, m) Vp).
    - replace (apod_of_string (get_string_arg fe "ud")) with (Some (true, apod_ud)) by (destruct fe; reflexivity).
      replace (String.eqb (get_string_arg fe "ud") "ud") with true by (destruct fe; reflexivity).
      rewrite (shape_ordinary fe v (vec_ordinary _ _ _ V)).
      rewrite (vec_entries _ _ _ V), HL, Z.eqb_refl. cbn [negb andb bind].
      rewrite (vec_parser_data _ _ _ V) by (intros [-> HH]; apply HO; split; [reflexivity|lia]). cbn [bind].
      rewrite memcpy_all by (rewrite ?repeat_length; lia). cbn [bind].
      exact (window_ok fe w vp (true, abuf, apod_ud) Vp).
  Qed.

  Lemma geometry_any fe f g v : vec fe g v -> Z.of_nat (length g) = geom_pars f -> f <> FArrAnnu ->
    parse_geometry fe (geom_pars f) v = Ok (accept (nth 0 g (nofZ 0), nth 1 g (nofZ 0), nth 2 g (nofZ 0))).
  Proof.
    intros V HL Hf. destruct g as [|a [|b [|r [|]]]]; destruct f; cbn in HL; try lia; try congruence; cbn [geom_pars nth];
      solve [now apply geometry_ok1 | now apply geometry_ok2 | now apply geometry_ok3].
  Qed.

  Lemma focused_call fuel c2r fe f nlhs g T No ro dx dy dt ntf n dty del (v c al : N) m x l vo vg vs vd vm v5 v6 tail :
    focused_transducer f g m x = Some T -> 0 <= nlhs <= 2 ->
    mat3 fe No ro vo -> vec fe g vg -> vec fe [dx; dy; dt; ntf] vs ->
    to_idx (idx_of fe) (ntrunc ntf) = Ok n -> delay_given fe No vd dty del -> vec fe [v; c; al] vm ->
    focus_given fe 1 v5 v6 m [x] -> level_given fe tail l ->
    parse_call fuel c2r fe f nlhs ([vo; vg; vs; vd; vm; v5; v6] ++ tail)%list =
    Ok (Some (asks fuel c2r T dx dy dt n v c al l No ro dty del)).
  Proof.
    intros HT Hl Mo Vg Vs Hn D Vm F L.
    set (args := ([vo; vg; vs; vd; vm; v5; v6] ++ tail)%list).
    assert (He : err_pos f = 7%nat) by (destruct f; cbn in HT; try discriminate HT; reflexivity).
    destruct (mat3_ok _ _ _ _ Mo) as (Oo & Ho3 & Hom & Hod).
    destruct (focus_ok fe 1 v5 v6 m [x] (Z.le_refl 1) F) as [O6 HF]. cbn [Z.to_nat Pos.to_nat Pos.iter_op Nat.add repeat] in HF.
    change (Pos.to_nat 1) with 1%nat in HF. cbn [repeat] in HF.
    assert (HG : parse_geometry fe (geom_pars f) vg = Ok (accept (nth 0 g (nofZ 0), nth 1 g (nofZ 0), nth 2 g (nofZ 0)))).
    { destruct f; cbn in HT; try discriminate HT; apply geometry_any; auto; try discriminate;
        destruct g as [|a [|b [|]]]; try discriminate HT; reflexivity. }
    assert (HC : forall B (k : samp N * N * DelayType * buf -> res (option B)),
      parse_common fe args 2 No k =
      k ({| dx := dx; dy := dy; dt := dt; nt := n; vel := v; cp := c |}, al, dty, del)).
    { intros B k. apply (common_ok fe _ 2 No dx dy dt ntf n dty del v c al vs vd vm); auto. }
    unfold parse_call. cbv zeta.
    unfold args at 1. rewrite (arity_ok fe f [vo; vg; vs; vd; vm; v5; v6] tail l L (eq_sym He)).
    cbn [require]. rewrite (nlhs_ok nlhs Hl). cbn [require].
    match goal with |- context[num_arg fe ?a 0] => rewrite (num_arg_ok fe a 0 vo eq_refl Oo) end. cbn [bind]. unfold check_obs_points. rewrite Ho3, Hom, Hod.
    cbn [Z.eqb Pos.eqb require bind]. fold args.
    destruct f; cbn in HT; try discriminate HT;
      rewrite (num_arg_ok fe args 1 vg eq_refl (vec_ordinary _ _ _ Vg)); cbn [bind]; rewrite HG; cbn [bind];
      rewrite andthen_accept, HC; rewrite (arg_ok args 5 v5 eq_refl); cbn [bind];
      rewrite (num_arg_ok fe args 6 v6 eq_refl O6); cbn [bind]; rewrite HF; cbn [bind]; rewrite andthen_accept;
      unfold args; rewrite (level_ok_eq fe _ [vo; vg; vs; vd; vm; v5; v6] tail l) by auto;
      change (buf_get [x] 0) with (Ok x); cbn [bind];
      destruct g as [|a [|b [|]]]; try discriminate HT; injection HT as <-; reflexivity.
  Qed.

  Lemma array_call fuel c2r fe f nlhs g T No ro num gg dx dy dt ntf n dty del (v c al : N)
    fm fbuf sm th ph on am abuf w l vo vg va vs vd vm v6 v7 v8 v9 v10 v11 v12 tail :
    array_transducer f g
      {| num_elements := num; G := gg; foc_met := fm; focal := fbuf; steer_met := sm; theta := th; phi := ph;
         do_apod := on; apod_met := am; apod := abuf; apod_par := window_par fe w |} = Some T ->
    0 <= nlhs <= 2 -> 1 <= num ->
    mat3 fe No ro vo -> vec fe g vg -> mat3 fe num gg va -> vec fe [dx; dy; dt; ntf] vs ->
    to_idx (idx_of fe) (ntrunc ntf) = Ok n -> delay_given fe No vd dty del -> vec fe [v; c; al] vm ->
    focus_given fe num v6 v7 fm fbuf -> steer_given fe v8 v9 sm th ph ->
    apod_given fe num v10 v11 v12 on am abuf w -> level_given fe tail l ->
    parse_call fuel c2r fe f nlhs ([vo; vg; va; vs; vd; vm; v6; v7; v8; v9; v10; v11; v12] ++ tail)%list =
    Ok (Some (asks fuel c2r T dx dy dt n v c al l No ro dty del)).
  Proof.
    intros HT Hl Hnum Mo Vg Ma Vs Hn D Vm F S A L.
    set (args := ([vo; vg; va; vs; vd; vm; v6; v7; v8; v9; v10; v11; v12] ++ tail)%list).
    assert (He : err_pos f = 13%nat) by (destruct f; cbn in HT; try discriminate HT; reflexivity).
    destruct (mat3_ok _ _ _ _ Mo) as (Oo & Ho3 & Hom & Hod).
    destruct (mat3_ok _ _ _ _ Ma) as (Oa & Ha3 & Ham & Had).
    destruct (focus_ok fe num v6 v7 fm fbuf Hnum F) as [O7 HF].
    destruct (steer_ok fe v8 v9 sm th ph S) as [O9 HS].
    pose proof (apod_ok fe num v10 v11 v12 on am abuf w ltac:(lia) A) as HA.
    assert (HG : parse_geometry fe (geom_pars f) vg = Ok (accept (nth 0 g (nofZ 0), nth 1 g (nofZ 0), nth 2 g (nofZ 0)))).
    { destruct f; cbn in HT; try discriminate HT; apply geometry_any; auto; try discriminate;
        destruct g as [|a [|b [|r [|]]]]; try discriminate HT; reflexivity. }
    assert (HC : forall B (k : samp N * N * DelayType * buf -> res (option B)),
      parse_common fe args 3 No k =
      k ({| dx := dx; dy := dy; dt := dt; nt := n; vel := v; cp := c |}, al, dty, del)).
    { intros B k. apply (common_ok fe _ 3 No dx dy dt ntf n dty del v c al vs vd vm); auto. }
    unfold parse_call. cbv zeta.
    unfold args at 1. rewrite (arity_ok fe f [vo; vg; va; vs; vd; vm; v6; v7; v8; v9; v10; v11; v12] tail l L (eq_sym He)).
    cbn [require]. rewrite (nlhs_ok nlhs Hl). cbn [require].
    match goal with |- context[num_arg fe ?a 0] => rewrite (num_arg_ok fe a 0 vo eq_refl Oo) end. cbn [bind]. unfold check_obs_points. rewrite Ho3, Hom, Hod.
    cbn [Z.eqb Pos.eqb require bind]. fold args.
    destruct f; cbn in HT; try discriminate HT;
      rewrite (num_arg_ok fe args 1 vg eq_refl (vec_ordinary _ _ _ Vg)); cbn [bind]; rewrite HG; cbn [bind];
      rewrite andthen_accept; rewrite (num_arg_ok fe args 2 va eq_refl Oa); cbn [bind];
      unfold check_array; rewrite Ha3, Ham, Had; cbn [Z.eqb Pos.eqb require bind];
      rewrite HC; rewrite (arg_ok args 6 v6 eq_refl); cbn [bind];
      rewrite (num_arg_ok fe args 7 v7 eq_refl O7); cbn [bind]; rewrite HF; cbn [bind]; rewrite andthen_accept;
      rewrite (arg_ok args 8 v8 eq_refl); cbn [bind];
      rewrite (num_arg_ok fe args 9 v9 eq_refl O9); cbn [bind]; rewrite HS; cbn [bind]; rewrite andthen_accept;
      rewrite (arg_ok args 10 v10 eq_refl), (arg_ok args 11 v11 eq_refl), (arg_ok args 12 v12 eq_refl); cbn [bind];
      rewrite HA; cbn [bind]; rewrite andthen_accept;
      unfold args; rewrite (level_ok_eq fe _ [vo; vg; va; vs; vd; vm; v6; v7; v8; v9; v10; v11; v12] tail l) by auto;
      destruct g as [|a [|b [|r [|]]]]; try discriminate HT; injection HT as <-; reflexivity.
  Qed.

  (** Annular arrays; Python needs a column vector. *)
  Lemma annu_call fuel c2r fe nlhs No ro gr dx dy dt ntf n dty del (v c al : N)
    fm fbuf on am abuf w l vo vr vs vd vm v5 v6 v7 v8 v9 tail :
    let num := match fe with Octave | Matlab => (Z.of_nat (length gr) + 1) / 2 | _ => Z.of_nat (length gr) end in
    0 <= nlhs <= 2 -> (1 <= length gr)%nat ->
    (fe = Julia -> Nat.odd (length gr) = true) -> (fe = Python -> get_n vr = 1) ->
    mat3 fe No ro vo -> vec fe gr vr -> vec fe [dx; dy; dt; ntf] vs ->
    to_idx (idx_of fe) (ntrunc ntf) = Ok n -> delay_given fe No vd dty del -> vec fe [v; c; al] vm ->
    focus_given fe num v5 v6 fm fbuf ->
    apod_given fe num v7 v8 v9 on am abuf w -> level_given fe tail l ->
    parse_call fuel c2r fe FArrAnnu nlhs ([vo; vr; vs; vd; vm; v5; v6; v7; v8; v9] ++ tail)%list =
    Ok (Some (asks fuel c2r
      (TArrAnnu {| Gr := gr; an_foc_met := fm; an_focal := fbuf; an_do_apod := on; an_apod_met := am;
                   an_apod := abuf; an_apod_par := window_par fe w |})
      dx dy dt n v c al l No ro dty del)).
  Proof.
    intros num Hl Hgr Hj Hp Mo Vr Vs Hn D Vm F A L.
    set (args := ([vo; vr; vs; vd; vm; v5; v6; v7; v8; v9] ++ tail)%list).
    destruct (mat3_ok _ _ _ _ Mo) as (Oo & Ho3 & Hom & Hod).
    assert (Hnum : 1 <= num) by (subst num; destruct fe; lia).
    destruct (focus_ok fe num v5 v6 fm fbuf Hnum F) as [O6 HF].
    pose proof (apod_ok fe num v7 v8 v9 on am abuf w ltac:(lia) A) as HA.
    assert (HC : forall B (k : samp N * N * DelayType * buf -> res (option B)),
      parse_common fe args 2 No k =
      k ({| dx := dx; dy := dy; dt := dt; nt := n; vel := v; cp := c |}, al, dty, del)).
    { intros B k. apply (common_ok fe _ 2 No dx dy dt ntf n dty del v c al vs vd vm); auto. }
    unfold parse_call. cbv zeta.
    unfold args at 1. rewrite (arity_ok fe FArrAnnu [vo; vr; vs; vd; vm; v5; v6; v7; v8; v9] tail l L eq_refl).
    cbn [require]. rewrite (nlhs_ok nlhs Hl). cbn [require].
    match goal with |- context[num_arg fe ?a 0] => rewrite (num_arg_ok fe a 0 vo eq_refl Oo) end. cbn [bind]. unfold check_obs_points. rewrite Ho3, Hom, Hod.
    cbn [Z.eqb Pos.eqb require bind]. fold args.
    rewrite (num_arg_ok fe args 1 vr eq_refl (vec_ordinary _ _ _ Vr)). cbn [bind].
    assert (Hent := vec_entries _ _ _ Vr).
    assert (Hchk : check_array_annu fe vr = true).
    { unfold check_array_annu. destruct Vr as (st & m & k & -> & O & H). cbn [get_m get_n] in *. destruct fe; try lia.
      specialize (Hj eq_refl). rewrite Hent. apply Nat.odd_spec in Hj as [q Hq]. lia. }
    rewrite Hchk. cbn [require].
    assert (H2 : (match fe with Octave => negb ((1 <? get_m vr) && (1 <? get_n vr)) | _ => true end) = true).
    { destruct Vr as (st & m & k & -> & O & H). cbn [get_m get_n] in *. destruct fe; lia. }
    rewrite H2. cbn [require]. rewrite (vec_gw_data _ _ _ Vr). cbn [bind].
    assert (H3 : (match fe with Python => get_m vr | _ => get_m vr * get_n vr end) = Z.of_nat (length gr)).
    { destruct fe; auto. specialize (Hp eq_refl). rewrite Hp in Hent. lia. }
    rewrite H3. destruct (Z.ltb_spec (Z.of_nat (length gr)) (Z.of_nat (length gr))); [lia|].
    fold num. rewrite HC. rewrite (arg_ok args 5 v5 eq_refl). cbn [bind].
    rewrite (num_arg_ok fe args 6 v6 eq_refl O6). cbn [bind]. rewrite HF. cbn [bind]. rewrite andthen_accept.
    rewrite (arg_ok args 7 v7 eq_refl), (arg_ok args 8 v8 eq_refl), (arg_ok args 9 v9 eq_refl). cbn [bind].
    rewrite HA. cbn [bind]. rewrite andthen_accept.
    unfold args. rewrite (level_ok_eq fe _ [vo; vr; vs; vd; vm; v5; v6; v7; v8; v9] tail l) by auto.
    rewrite Nat2Z.id, firstn_all. reflexivity.
  Qed.
End Fun.
