(** PropShapes.v - property theorems C100: malformed calls of das, das_uni and
    the analytic functions are refused. *)
From Coq Require Strings.String.
Import Coq.Strings.String.StringSyntax.
From Coq Require Import Lia ZArith List Bool Floats.
From Verif Require Import Base BaseLemmas ModelSir ModelArr ModelSmp ModelDas ModelGw SpecGw ProofsGw2 ModelDgw SpecDgw PropDgw ModelUgw SpecUgw ModelAgw SpecAgw SpecShapes NumF ExJob.
Import ListNotations.
Local Open Scope string_scope.
Local Open Scope Z_scope.

Lemma in_bounds_inv n lo hi : in_bounds n lo hi = true -> lo <= n <= hi.
Proof. unfold in_bounds. lia. Qed.

Section Gen.
  Context {N : Num}.
  Lemma double_class (a : darg N) : is_double a = true -> class_is CDouble a.
  Proof. unfold is_double, cls_of, class_is. destruct (g_val a); [|discriminate]. destruct (g_cls a); try discriminate. eauto 6. Qed.
  Lemma single_class (a : darg N) : is_single a = true -> class_is CSingle a.
  Proof. unfold is_single, cls_of, class_is. destruct (g_val a); [|discriminate]. destruct (g_cls a); try discriminate. eauto 6. Qed.
  Lemma class_single (a : darg N) : class_is CSingle a -> is_single a = true.
  Proof. unfold is_single, cls_of, class_is. intros (H & st & m & n & d & E). now rewrite E, H. Qed.
  Lemma delay_inv (v : value N) No : check_delay v No = true -> delay_shape No v.
  Proof. unfold check_delay, delay_shape. lia. Qed.
  Lemma isstr (v : value N) : is_string v = true -> exists s, v = VStr s.
  Proof. destruct v; [discriminate|eauto]. Qed.
  Lemma at_ex {A} (l : list A) i a (P : A -> Prop) : nth_error l i = Some a -> P a -> at_pos l i P.
  Proof. intros H HP. exists a. auto. Qed.
End Gen.

(** das: an accepted double precision call has the documented shapes. *)
Theorem C100_das_partial : forall (N : Num) fe opencl nlhs hw env sch (junk : list N) old args o s,
  das_gateway fe opencl nlhs hw env sch junk old args = Ok (Some (o, s)) -> o <> DRejected -> o <> DSingle ->
  das_shapes fe args.
Proof.
  intros N fe opencl nlhs hw env sch junk old args o s E H1 H2. unfold das_gateway in E.
  apply bind_Ok_inv in E as (p & Ep & E). destruct p as [| |c]; [congruence|congruence|]. clear E.
  assert (Om : fe = Octave \/ fe = Matlab -> parse_das_om fe nlhs args = Ok (PCall c) -> das_shapes fe args).
  { intros Hfe E. unfold parse_das_om in E. apply dreq_call in E as (B1 & E). apply in_bounds_inv in B1. apply dreq_call in E as (_ & E).
    apply bind_Ok_inv in E as (a0 & E0 & E). apply bind_Ok_inv in E as (a1 & E1 & E). apply bind_Ok_inv in E as (a2 & E2 & E).
    apply bind_Ok_inv in E as (a3 & E3 & E). apply bind_Ok_inv in E as (a4 & E4 & E). apply bind_Ok_inv in E as (a5 & E5 & E).
    apply bind_Ok_inv in E as (a6 & E6 & E). apply bind_Ok_inv in E as (a7 & E7 & E).
    apply darg_at_ok in E0, E1, E2, E3, E4, E5, E6, E7.
    destruct (is_single a0). { exfalso. unfold dreq in E. match type of E with (if ?b then _ else _) = _ => destruct b end; discriminate. }
    apply dreq_call in E as (B2 & E). apply andb_prop in B2 as (B2 & D5). apply andb_prop in B2 as (B2 & D3). apply andb_prop in B2 as (D1 & D2).
    apply dreq_call in E as (G1 & E). cbv zeta in E. apply dreq_call in E as (G2 & E). apply dreq_call in E as (G3 & E).
    apply dreq_call in E as (G4 & E). apply bind_Ok_inv in E as (dt & _ & E). apply dreq_call in E as (G5 & E). apply dreq_call in E as (G6 & E).
    apply bind_Ok_inv in E as (cp & _ & E). apply dthen_call in E as (_ & E). cbv beta in E.
    assert (L : (length args = 10%nat -> optional_text (@g_val N) args 9) /\ optional_text (@g_val N) args 10).
    { assert (L : exists lvl, (do dev <- (if Z.of_nat (length args) =? 10 then do a <- darg_at args 9; Ok (Some (g_val a)) else Ok None);
        dreq (match dev with Some v => is_string v | None => true end) (
        do verb <- (if Z.of_nat (length args) =? 11 then do a <- darg_at args 10; Ok (Some (g_val a)) else Ok None);
        dreq (match verb with Some v => is_string v | None => true end) (lvl dev verb))) = Ok (PCall c)).
      { destruct (9 <=? Z.of_nat (length args)).
        - apply bind_Ok_inv in E as (a8 & _ & E). apply dthen_call in E as (_ & E). cbv beta in E.
          eexists (fun dev verb => _). exact E.
        - eexists (fun dev verb => _). exact E. }
      destruct L as (lvl & L). clear E. apply bind_Ok_inv in L as (dev & Ed & L). apply dreq_call in L as (Sd & L).
      apply bind_Ok_inv in L as (verb & Ev & L). apply dreq_call in L as (Sv & L). split.
      - intros L10 a Ha. replace (Z.of_nat (length args) =? 10) with true in Ed by lia.
        apply bind_Ok_inv in Ed as (a' & Ea & Ed). apply darg_at_ok in Ea. injection Ed as <-. replace a with a' by congruence. now apply isstr.
      - intros a Ha. assert (11 <= length args)%nat by (assert (10 < length args)%nat by (apply nth_error_Some; congruence); lia).
        replace (Z.of_nat (length args) =? 11) with true in Ev by lia.
        apply bind_Ok_inv in Ev as (a' & Ea & Ev). apply darg_at_ok in Ea. injection Ev as <-. replace a with a' by congruence. now apply isstr. }
    destruct L as (L1 & L2). exists (get_m (g_val a3)). split.
    - split; [|split]; (eapply at_ex; [eassumption|]).
      + unfold columns. lia.
      + unfold columns. lia.
      + now apply delay_inv.
    - assert (G : match fe with Octave | Matlab => True | _ => False end -> (8 <= length args <= 11)%nat /\
      at_pos args 1 (class_is CDouble) /\ at_pos args 2 (class_is CDouble) /\
      at_pos args 3 (class_is CDouble) /\ at_pos args 5 (class_is CDouble) /\
      at_pos args 2 (fun a => columns 3 (g_val a) \/ get_m (g_val a) * get_n (g_val a) = 0) /\
      at_pos args 4 (fun a => scalar (g_val a)) /\ at_pos args 6 (fun a => scalar (g_val a)) /\
      (length args = 10%nat -> optional_text (@g_val N) args 9) /\ optional_text (@g_val N) args 10).
      { intros _. split; [lia|]. do 4 (split; [eapply at_ex; [eassumption|]; now apply double_class|]).
        split; [eapply at_ex; [eassumption|]|].
        { unfold columns. destruct Hfe as [-> | ->]; lia. }
        split; [eapply at_ex; [eassumption|unfold scalar; lia]|].
        split; [eapply at_ex; [eassumption|unfold scalar; lia]|]. auto. }
      destruct Hfe as [-> | ->]; apply G; exact I. }
  destruct fe; try (apply Om; [auto|exact Ep]); clear Om.
  all: unfold parse_das, parse_das_pj in Ep; apply dreq_call in Ep as (B & E); apply Nat.eqb_eq in B;
    apply bind_Ok_inv in E as (a0 & _ & E); apply bind_Ok_inv in E as (a1 & E1 & E); apply dnum_ok in E1; apply dreq_call in E as (G1 & E);
    apply bind_Ok_inv in E as (a7 & E7 & E); apply darg_at_ok in E7; apply dthen_call in E as (G7 & E); cbv beta zeta in E.
  all: match goal with _ : goes_on ?fe _ = true |- _ =>
    assert (R : exists k1 k2 k3 k4, (do a3 <- dnum fe args 3;
      dreq (check_obs_points (g_val a3)) (
      do a5 <- dnum fe args 5;
      dreq (check_delay (g_val a5) (get_m (g_val a3))) (
      do a4 <- darg_at args 4; do dt <- buf_get (read_now fe a4) 0;
      do a6 <- darg_at args 6; do cp <- buf_get (read_now fe a6) 0;
      do a8 <- darg_at args 8;
      dthen fe (parse_error_arg fe (g_val a8)) (fun lvl =>
      do a9 <- darg_at args 9;
      dreq (negb (negb (String.eqb (get_string_arg fe (str_of (g_val a9))) "cpu") && String.eqb (get_string_arg fe (str_of (g_val a9))) "gpu"))
       (Ok (PCall {| c_job := {| d_type := p_val (parse_das_arg fe (g_val a7)); d_len := k1; d_No := get_m (g_val a3); d_num_t := k2; d_num_r := k3;
                               d_Y := kept fe a0; d_Ro := kept fe a3; d_Gt := kept fe a1; d_Gr := k4;
                               d_dt := dt; d_delay_type := delay_type_of (g_val a5); d_delay := kept fe a5; d_cp := cp; d_lvl := lvl |};
                   c_gpu := String.eqb (get_string_arg fe (str_of (g_val a9))) "gpu" |})))))) = Ok (PCall c) /\
      (p_val (parse_das_arg fe (g_val a7)) <> das_saft -> at_pos args 2 (fun a => columns 3 (g_val a))))
    end.
  all: try (destruct (p_val (parse_das_arg _ (g_val a7))) eqn:Et;
    [eexists _, _, _, _; split; [unfold parse_das_arg in Et |- *; exact E|congruence]
    |apply bind_Ok_inv in E as (a2 & E2 & E); apply dnum_ok in E2; apply dreq_call in E as (G2 & E);
     eexists _, _, _, _; split; [unfold parse_das_arg in Et |- *; exact E|intros _; eapply at_ex; [exact E2|unfold columns; lia]]..]).
  all: clear E; destruct R as (k1 & k2 & k3 & k4 & E & R);
    apply bind_Ok_inv in E as (a3 & E3 & E); apply dnum_ok in E3; apply dreq_call in E as (G3 & E);
    apply bind_Ok_inv in E as (a5 & E5 & E); apply dnum_ok in E5; apply dreq_call in E as (G5 & E);
    apply bind_Ok_inv in E as (a4 & _ & E); apply bind_Ok_inv in E as (dt & _ & E);
    apply bind_Ok_inv in E as (a6 & _ & E); apply bind_Ok_inv in E as (cp & _ & E);
    apply bind_Ok_inv in E as (a8 & _ & E); apply dthen_call in E as (_ & E);
    apply bind_Ok_inv in E as (a9 & E9 & E); apply darg_at_ok in E9; apply dreq_call in E as (G9 & _);
    exists (get_m (g_val a3)); (split; [split; [|split]; (eapply at_ex; [eassumption|])|]).
  all: try (unfold columns, check_obs_points in *; lia).
  all: try (now apply delay_inv).
  all: split; [exact B|]; split; [intros (a & Ea & Hs); apply R; replace a with a7 in Hs by congruence|
    eapply at_ex; [exact E9|intros X; rewrite X in G9; cbn in G9; discriminate]].
  all: unfold parse_das_arg in *; destruct (g_val a7) as [|s0]; cbn [is_string negb] in *; [discriminate G7|];
    cbn [get_string_arg str_of] in *; unfold das_of_string in *.
  all: destruct (String.eqb s0 "saft") eqn:X; [apply String.eqb_eq in X; subst s0; congruence|].
  all: repeat match goal with |- context[if ?b then _ else _] => destruct b end; try discriminate.
  all: try (cbn in G7; discriminate G7).
Qed.
Print Assumptions C100_das_partial.

(** A call that goes on in single precision was in single precision. *)
Theorem C100_das_single : forall (N : Num) fe opencl nlhs hw env sch (junk : list N) old args s,
  das_gateway fe opencl nlhs hw env sch junk old args = Ok (Some (DSingle, s)) -> das_single fe args.
Proof.
  intros N fe opencl nlhs hw env sch junk old args s E. unfold das_gateway in E. apply bind_Ok_inv in E as (p & Ep & E).
  destruct p as [| |c]; [discriminate| |].
  2:{ exfalso. unfold run_das in E. destruct (opencl && c_gpu c).
      - apply bind_Ok_inv in E as (x & _ & E). apply bind_Ok_inv in E as (y & _ & E). discriminate E.
      - apply bind_Ok_inv in E as (x & _ & E). destruct x as [[[Im e] run]|]; [|discriminate].
        destruct run, (SIRError_eqb e err_oob); cbn [negb] in E; discriminate E. }
  assert (Om : fe = Octave \/ fe = Matlab -> parse_das_om fe nlhs args = Ok PSingle -> das_single fe args).
  { intros Hfe K. unfold parse_das_om in K. unfold dreq at 1 in K. destruct (in_bounds (Z.of_nat (length args)) 8 11) eqn:B; [|discriminate].
    apply in_bounds_inv in B. unfold dreq at 1 in K. destruct (in_bounds nlhs 0 2); [|discriminate].
    apply bind_Ok_inv in K as (a0 & E0 & K). apply bind_Ok_inv in K as (a1 & E1 & K). apply bind_Ok_inv in K as (a2 & E2 & K).
    apply bind_Ok_inv in K as (a3 & E3 & K). apply bind_Ok_inv in K as (a4 & E4 & K). apply bind_Ok_inv in K as (a5 & E5 & K).
    apply bind_Ok_inv in K as (a6 & E6 & K). apply bind_Ok_inv in K as (a7 & E7 & K).
    apply darg_at_ok in E0, E1, E2, E3, E4, E5, E6, E7. destruct (is_single a0) eqn:S0.
    - unfold dreq in K. destruct (is_single a1 && is_single a2 && is_single a3 && is_single a5) eqn:S; [|discriminate].
      apply andb_prop in S as (S & S5). apply andb_prop in S as (S & S3). apply andb_prop in S as (S1 & S2).
      split; [exact Hfe|]. split; [lia|]. intros i Hi. destruct Hi as [<-|[<-|[<-|[<-|[<-|[]]]]]]; eapply at_ex; try eassumption; now apply single_class.
    - exfalso. cbv zeta in K.
      repeat first [match type of K with dreq ?b _ = _ => unfold dreq at 1 in K; destruct b; [|discriminate K] end
                   |match type of K with bind _ _ = _ => let x := fresh "x" in apply bind_Ok_inv in K as (x & _ & K) end].
      unfold dthen in K at 1. match type of K with (if ?b then _ else _) = _ => destruct b; [|discriminate K] end.
      destruct (9 <=? Z.of_nat (length args)).
      + apply bind_Ok_inv in K as (a8 & _ & K). unfold dthen in K. match type of K with (if ?b then _ else _) = _ => destruct b; [|discriminate K] end.
        apply bind_Ok_inv in K as (y1 & _ & K). unfold dreq at 1 in K. match type of K with (if ?b then _ else _) = _ => destruct b; [|discriminate K] end.
        apply bind_Ok_inv in K as (y2 & _ & K). unfold dreq at 1 in K. match type of K with (if ?b then _ else _) = _ => destruct b; discriminate K end.
      + apply bind_Ok_inv in K as (y1 & _ & K). unfold dreq at 1 in K. match type of K with (if ?b then _ else _) = _ => destruct b; [|discriminate K] end.
        apply bind_Ok_inv in K as (y2 & _ & K). unfold dreq at 1 in K. match type of K with (if ?b then _ else _) = _ => destruct b; discriminate K end. }
  destruct fe; try (apply Om; [auto|exact Ep]); clear Om; exfalso; unfold parse_das, parse_das_pj in Ep; rename Ep into K.
  all: repeat (cbv beta zeta in K; match type of K with
    | dreq ?b _ = _ => unfold dreq at 1 in K; destruct b; [|discriminate K]
    | bind _ _ = _ => let x := fresh "x" in apply bind_Ok_inv in K as (x & _ & K)
    | dthen _ _ _ = _ => unfold dthen at 1 in K; match type of K with (if ?b then _ else _) = _ => destruct b; [|discriminate K] end
    | match ?t with _ => _ end = _ => destruct t
    end); discriminate K.
Qed.
Print Assumptions C100_das_single.

(** das_uni. *)
Lemma ureq_call {N : Num} b (k : res (uparse (N:=N))) c : ureq b k = Ok (UPCall c) -> b = true /\ k = Ok (UPCall c).
Proof. destruct b; [auto|discriminate]. Qed.
Lemma cls_eqb_eq a b : cls_eqb a b = true -> a = b.
Proof. destruct a, b; cbn; congruence. Qed.
Lemma okc_class {N : Num} (a : darg N) c : c <> COther -> cls_eqb (cls_of a) c = true -> class_is c a.
Proof.
  intros Hc H. apply cls_eqb_eq in H. unfold cls_of in H. unfold class_is. destruct (g_val a) as [st m n d|s].
  - split; [exact H|eauto].
  - congruence.
Qed.
Lemma entry_inv {N : Num} (b : list N) z x : buf_get b z = Ok x -> nth_error b (Z.to_nat z) = Some x.
Proof. intros H. apply buf_get_inv in H as [_ H]. exact H. Qed.
Lemma get3_inv {N : Num} (d : list N) i j k t : get3 d i j k = Ok t ->
  nth_error d (Z.to_nat i) = Some (fst (fst t)) /\ nth_error d (Z.to_nat j) = Some (snd (fst t)) /\ nth_error d (Z.to_nat k) = Some (snd t).
Proof.
  unfold get3. intros E. apply bind_Ok_inv in E as (x & Ex & E). apply bind_Ok_inv in E as (y & Ey & E). apply bind_Ok_inv in E as (z & Ez & E).
  injection E as <-. cbn [fst snd]. apply entry_inv in Ex, Ey, Ez. auto.
Qed.
Theorem C100_das_uni_partial : forall (N : Num) fe nlhs (junk : list N) s args o s',
  fe = Octave \/ fe = Matlab ->
  uni_gateway fe nlhs junk s args = Ok (o, s') -> o <> URejected -> uni_shapes fe args.
Proof.
  intros N fe nlhs junk s args o s' Hfe E Ho. unfold uni_gateway in E. apply bind_Ok_inv in E as (p & Ep & E).
  destruct p as [|c]; [congruence|]. clear E Ho. rename Ep into E. unfold parse_uni in E.
  apply ureq_call in E as (B & E). apply ureq_call in E as (_ & E).
  apply bind_Ok_inv in E as (a0 & E0 & E). apply bind_Ok_inv in E as (a1 & E1 & E). apply bind_Ok_inv in E as (a2 & E2 & E).
  apply bind_Ok_inv in E as (a3 & E3 & E). apply bind_Ok_inv in E as (a4 & E4 & E). apply bind_Ok_inv in E as (a5 & E5 & E).
  apply bind_Ok_inv in E as (a6 & E6 & E). apply bind_Ok_inv in E as (a7 & E7 & E).
  apply darg_at_ok in E0, E1, E2, E3, E4, E5, E6, E7. cbv zeta in E.
  set (k := if is_single a0 then CSingle else CDouble) in *.
  assert (Hk : k <> COther) by (unfold k; destruct (is_single a0); discriminate).
  apply ureq_call in E as (C & E). repeat (apply andb_prop in C as (C & ?)).
  apply ureq_call in E as (G1 & E). apply bind_Ok_inv in E as (gt & _ & E). apply ureq_call in E as (G2 & E).
  apply bind_Ok_inv in E as (gr & _ & E). apply ureq_call in E as (G3 & E).
  apply bind_Ok_inv in E as (rx & Rx & E). apply bind_Ok_inv in E as (ry & Ry & E). apply bind_Ok_inv in E as (rz & Rz & E).
  apply bind_Ok_inv in E as (Nx & Hx & E). apply bind_Ok_inv in E as (Ny & Hy & E). apply bind_Ok_inv in E as (Nz & Hz & E).
  apply ureq_call in E as (G4 & E). apply bind_Ok_inv in E as (dt & _ & E). apply ureq_call in E as (G5 & E). apply ureq_call in E as (G6 & E). clear E.
  split; [lia|]. exists k. split.
  { unfold k. destruct (is_single a0) eqn:S0.
    - left. split; [reflexivity|]. eapply at_ex; [exact E0|now apply single_class].
    - right. split; [reflexivity|]. intros (a & Ha & Hc). replace a with a0 in Hc by congruence. apply class_single in Hc. congruence. }
  split. { intros i Hi. destruct Hi as [<-|[<-|[<-|[<-|[<-|[<-|[]]]]]]]; eapply at_ex; try eassumption; apply okc_class; assumption. }
  split; [eapply at_ex; [exact E1|lia]|].
  split; [eapply at_ex; [exact E2|destruct Hfe as [-> | ->]; lia]|].
  split; [|split; eapply at_ex; try eassumption; unfold scalar; lia].
  eapply at_ex; [exact E3|]. apply andb_prop in G3 as (G3 & G3').
  split; [unfold columns; lia|]. split; [intros ->; lia|].
  match goal with H : cls_eqb (cls_of a3) k = true |- _ => unfold unow in Rx, Ry, Rz; rewrite H in Rx, Ry, Rz end.
  apply get3_inv in Rx as (X1 & X2 & X3). apply get3_inv in Ry as (Y1 & Y2 & Y3). apply get3_inv in Rz as (Z1 & Z2 & Z3).
  exists (fst (fst rx)), (snd (fst rx)), (snd rx), (fst (fst ry)), (snd (fst ry)), (snd ry), (fst (fst rz)), (snd (fst rz)), (snd rz), (skipn 9 (get_data (g_val a3))), Nx, Ny, Nz.
  split; [|split; [exact Hx|split; [exact Hy|split; [exact Hz|eapply at_ex; [exact E5|now apply delay_inv]]]]].
  change (Z.to_nat 0) with 0%nat in *. change (Z.to_nat 1) with 1%nat in *. change (Z.to_nat 2) with 2%nat in *. change (Z.to_nat 3) with 3%nat in *.
  change (Z.to_nat 4) with 4%nat in *. change (Z.to_nat 5) with 5%nat in *. change (Z.to_nat 6) with 6%nat in *. change (Z.to_nat 7) with 7%nat in *.
  change (Z.to_nat 8) with 8%nat in *.
  destruct (get_data (g_val a3)) as [|e0 [|e1 [|e2 [|e3 [|e4 [|e5 [|e6 [|e7 [|e8 r]]]]]]]]]; cbn [nth_error] in *; try discriminate.
  cbn [skipn]. congruence.
Qed.
Print Assumptions C100_das_uni_partial.

(** The analytic functions. *)
Theorem C100_analytic_partial : forall (N : Num) fe f cl nlhs hw env sch (junk : list N) items dev args o,
  has_analytic fe -> ana_gateway fe f cl nlhs hw env sch junk items dev args = Ok (Some o) -> o <> ARejected ->
  ana_shapes fe f nlhs args.
Proof.
  intros N fe f cl nlhs hw env sch junk items dev args o Hfe E Ho. unfold ana_gateway in E. apply bind_Ok_inv in E as (p & Ep & E).
  destruct p as [[J d]|]; [|congruence]. clear E Ho. rename Ep into E. unfold parse_ana in E.
  apply require_inv in E as (B1 & E). apply in_bounds_inv in B1. apply require_inv in E as (B2 & E). apply in_bounds_inv in B2.
  apply bind_Ok_inv in E as (vo & Eo & E). apply arg_inv in Eo. apply require_inv in E as (Go & E). apply bind_Ok_inv in E as (ro & _ & E).
  apply bind_Ok_inv in E as (vg & Eg & E). apply arg_inv in Eg. apply bind_Ok_inv in E as (g & Pg & E). apply andthen_inv in E as (Gg & E).
  destruct (p_val g) as [g1 g2] eqn:Pv.
  apply bind_Ok_inv in E as (vs & Es & E). apply arg_inv in Es. apply require_inv in E as (Gs & E).
  apply bind_Ok_inv in E as (dt & _ & E). apply bind_Ok_inv in E as (ntf & _ & E). apply bind_Ok_inv in E as (ntz & _ & E).
  apply bind_Ok_inv in E as (vd & Ed & E). apply arg_inv in Ed. apply require_inv in E as (Gd & E). apply bind_Ok_inv in E as (del & _ & E).
  apply bind_Ok_inv in E as (vm & Em & E). apply arg_inv in Em. apply require_inv in E as (Gm & E).
  apply bind_Ok_inv in E as (v & _ & E). apply bind_Ok_inv in E as (c & _ & E). apply bind_Ok_inv in E as (il & Ei & E).
  assert (V : forall n (w : value N), check_vec fe n w = true -> get_m w * get_n w = n).
  { intros n w Hw. unfold check_vec in Hw. destruct Hfe as [-> | ->]; apply orb_prop in Hw as [Hw|Hw]; apply andb_prop in Hw as (H1 & H2);
      apply Z.eqb_eq in H1, H2; rewrite H1, H2; lia. }
  split; [lia|]. split; [destruct f; cbn [ana_arity fst snd] in B1; lia|].
  exists (get_m vo). split; [eapply at_ex; [exact Eo|unfold check_obs_points in Go; unfold columns; lia]|].
  split.
  { eapply at_ex; [exact Eg|]. unfold ana_geom in Pg. destruct f; cbn [sides].
    - destruct (check_vec fe 1 vg) eqn:Hc; [now apply V|]. injection Pg as <-. exfalso. destruct Hfe as [-> | ->]; discriminate Gg.
    - destruct (check_vec fe 1 vg) eqn:Hc; [now apply V|]. injection Pg as <-. exfalso. destruct Hfe as [-> | ->]; discriminate Gg.
    - unfold parse_geometry in Pg. destruct (check_vec fe 2 vg) eqn:Hc; [now apply V|]. cbn in Pg. injection Pg as <-.
      exfalso. destruct Hfe as [-> | ->]; discriminate Gg. }
  split; [eapply at_ex; [exact Es|now apply V]|]. split; [eapply at_ex; [exact Ed|now apply delay_inv]|].
  split; [eapply at_ex; [exact Em|now apply V]|]. split.
  - intros ->. unfold ana_int_len in Ei. apply bind_Ok_inv in Ei as (w & Ew & Ei). apply arg_inv in Ew. eapply at_ex; [exact Ew|].
    match type of Ei with (if ?b then _ else _) = _ => destruct b eqn:Hb end.
    + apply bind_Ok_inv in Ei as (x & Ex & Ei). apply bind_Ok_inv in Ei as (n & En & Ei).
      apply entry_inv in Ex. change (Z.to_nat 0) with 0%nat in Ex.
      assert (T : ntrunc x = Some n).
      { unfold to_idx in En. destruct (ntrunc x) as [z|]; [|discriminate]. destruct (idx_of fe); match type of En with (if ?b then _ else _) = _ => destruct b end; congruence. }
      destruct (n <? 1) eqn:Hn; [injection Ei as <-; discriminate|]. split.
      * destruct Hfe as [-> | ->]; [lia|]. apply andb_prop in Hb as (H1 & H2). apply Z.eqb_eq in H1, H2. rewrite H1, H2. reflexivity.
      * exists x, n. split; [exact Ex|]. split; [exact T|]. lia.
    + injection Ei as <-. discriminate.
  - intros -> ->. intros w Hw. unfold ana_device in E. rewrite Hw in E. destruct w as [st m n dd|str]; [|eauto].
    destruct il; discriminate.
Qed.
Print Assumptions C100_analytic_partial.

(** Concrete calls over IEEE doubles: a well formed one is not refused; the
    same call with a grid of two or four columns, with two delays, with single
    precision receivers, or with a number as device is. *)
Definition dm (m n : Z) (d : list float) : darg FI := {| g_cls := CDouble; g_val := @VNum FI Full m n d |}.
Definition dcall_ex (gt gr delay dev : darg FI) : list (darg FI) :=
  [dm 100 2 (repeat 1%float 200); gt; gr; dm 3 3 ([0; 1; 2] ++ [0; 0; 0] ++ [10; 10; 10])%float; dm 1 1 [0x1.47ae147ae147bp-5%float];
   delay; dm 1 1 [1500%float]; dtext "tfm"; dtext "ignore"; dev].
Definition das_rejects (args : list (darg FI)) : bool :=
  match das_gateway Octave false 1 2 None (ModelSmp.Run 0%nat :: SpecSmp.round_robin 10 2) (repeat (7%float : FI) 100) None args with
  | Ok (Some (DRejected, _)) => true | _ => false end.
Definition gt2 : darg FI := dm 1 3 [0; 0; 0]%float.
Example C100_ex :
  das_rejects (dcall_ex gt2 (dm 2 3 [-1; 1; 0; 0; 0; 0]%float) (dm 1 1 [6%float]) (dtext "cpu")) = false /\
  das_rejects (dcall_ex (dm 1 2 [0; 0]%float) gt2 (dm 1 1 [6%float]) (dtext "cpu")) = true /\
  das_rejects (dcall_ex (dm 1 4 [0; 0; 0; 0]%float) gt2 (dm 1 1 [6%float]) (dtext "cpu")) = true /\
  das_rejects (dcall_ex gt2 gt2 (dm 1 2 [6; 6]%float) (dtext "cpu")) = true /\
  das_rejects (dcall_ex gt2 {| g_cls := CSingle; g_val := @VNum FI Full 1 3 [0; 0; 0]%float |} (dm 1 1 [6%float]) (dtext "cpu")) = true /\
  das_rejects (dcall_ex gt2 gt2 (dm 1 1 [6%float]) (dm 1 1 [6%float])) = true.
Proof. repeat (match goal with |- _ /\ _ => split end); vm_compute; reflexivity. Qed.
Definition ucall_ex (gr cp : darg FI) : list (darg FI) :=
  [dm 10 4 (repeat 1%float 40); dm 1 3 [0; 3; 3]%float; gr; dm 3 3 [0; 0; 4; 1; 1; 1; 3; 3; 7]%float; dm 1 1 [1%float]; dm 1 1 [0%float]; cp; dtext "tfm"].
Definition uni_rejects (args : list (darg FI)) : option bool :=
  match uni_gateway Octave 1 (repeat (7%float : FI) 100) uni_start args with Ok (URejected, _) => Some true | Ok (UReturned _, _) => Some false | _ => None end.
Definition acall_ex (tail : list (value FI)) : list (value FI) :=
  [@VNum FI Full 2 3 [0; 1; 0; 0; 10; 10]%float; @VNum FI Full 1 2 [3; 4]%float; @VNum FI Full 1 2 [0.25; 20]%float; @VNum FI Full 1 1 [0%float];
   @VNum FI Full 1 2 [1; 1500]%float] ++ tail.
Definition ana_rejects (args : list (value FI)) : option bool :=
  match ana_gateway Octave KRect false 1 2 None (SpecSmp.round_robin 10 2) (repeat (7%float : FI) 100) [] [] args with
  | Ok (Some ARejected) => Some true | Ok (Some (AReturned _ _ _ _)) => Some false | _ => None end.
Example C100_ex2 :
  uni_rejects (ucall_ex (dm 1 3 [0; 3; 3]%float) (dm 1 1 [1000%float])) = Some false /\
  uni_rejects (ucall_ex (dm 1 2 [0; 3]%float) (dm 1 1 [1000%float])) = Some true /\
  uni_rejects (ucall_ex (dm 1 3 [0; 3; 3]%float) {| g_cls := CSingle; g_val := @VNum FI Full 1 1 [1000%float] |}) = Some true /\
  ana_rejects (acall_ex []) = Some false /\ ana_rejects (acall_ex [VStr "cpu"]) = Some false /\
  ana_rejects (acall_ex [@VNum FI Full 1 1 [1%float]]) = Some true /\
  ana_rejects (acall_ex [VStr "cpu"; VStr "cpu"]) = Some true.
Proof. repeat (match goal with |- _ /\ _ => split end); vm_compute; reflexivity. Qed.
