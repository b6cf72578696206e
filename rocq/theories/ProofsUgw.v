(** ProofsUgw.v - the das_uni gateways: parsing of documented calls, sessions. *)
From Coq Require Strings.String.
Import Coq.Strings.String.StringSyntax.
From Coq Require Import Lia ZArith List Bool ZifyBool ZifyNat.
From Verif Require Import Base BaseLemmas ModelSir ModelArr ModelSmp ModelDas SpecSmp ProofsLoop ProofsSmp ProofsSmp2 ProofsDas
  ModelGw SpecGw ProofsGw ModelDgw SpecDgw ModelUgw SpecUgw.
Import ListNotations.
Local Open Scope Z_scope.
Ltac Zify.zify_post_hook ::= Z.div_mod_to_equations.

(** ** Sessions *)
Definition obj_inv (o : uni_obj) : Prop := u_type o = das_saft -> u_num_r o = 0.
Definition st_inv (s : uni_st) : Prop := forall c o, us_get c s = Some o -> obj_inv o.
Lemma start_inv : st_inv uni_start.
Proof. intros [] o; discriminate. Qed.

Lemma uni_new_inv {N : Num} K t len (gt gr gx gy gz : N * N * N) o : uni_new K t len gt gr gx gy gz = Ok o -> obj_inv o.
Proof.
  unfold uni_new. intros E. apply bind_Ok_inv in E as ([[nt nr] No] & _ & E). injection E as <-. unfold obj_inv. cbn. intros ->. reflexivity.
Qed.
Lemma reused_same {N : Num} K o t len (gt gr gx gy gz : N * N * N) : obj_inv o ->
  uni_setup_has_changed K o t len gt gr gx gy gz = Ok false -> uni_new K t len gt gr gx gy gz = Ok o.
Proof.
  unfold uni_setup_has_changed, uni_new. intros I E. apply bind_Ok_inv in E as ([[nt nr] No] & Es & E). rewrite Es. cbn [bind].
  injection E as E. rewrite !orb_false_iff, !negb_false_iff, !Z.eqb_eq in E. destruct E as ((((E1 & E2) & E3) & E4) & E5).
  assert (t = u_type o) as -> by (revert E1; destruct t, (u_type o); cbn; congruence).
  f_equal. unfold obj_inv in I. destruct o as [ty l n1 n2 n3]. cbn in *. subst. destruct ty; cbn [DASType_eqb]; try reflexivity.
  rewrite I; reflexivity.
Qed.

Lemma run_uni_any {N : Num} fe (junk : list N) s c : st_inv s ->
  usees (run_uni fe junk s c) = usees (run_uni fe junk uni_start c).
Proof.
  intros I. unfold run_uni. destruct (y_No c <? 0); [reflexivity|].
  replace (us_get (y_cls c) uni_start) with (@None uni_obj) by (destruct (y_cls c); reflexivity). cbn [bind].
  set (K := idx_of fe). set (new := uni_new K _ _ _ _ _ _ _).
  assert (G : forall r k1 k2, (forall o, r = Ok o -> usees (k1 o) = usees (k2 o)) -> usees (N:=N) (do o <- r; k1 o) = usees (do o : uni_obj <- r; k2 o)).
  { intros [o|u|] k1 k2 H; cbn [bind]; auto. }
  assert (F : forall f1 f2 g1 g2 o, usees (N:=N)
      (match uni_bufs (y_cls c) o with None => Ok (UNoImage, f1) | Some (ny, ni) => do r <- cl_das_uni junk o c ny ni; Ok (r, g1) end) =
      usees (match uni_bufs (y_cls c) o with None => Ok (UNoImage, f2) | Some (ny, ni) => do r <- cl_das_uni junk o c ny ni; Ok (r, g2) end)).
  { intros. destruct (uni_bufs _ o) as [[ny ni]|]; [|reflexivity]. destruct (cl_das_uni _ _ _ _ _); reflexivity. }
  destruct (us_get (y_cls c) s) as [o|] eqn:Eg; cbn [bind].
  - destruct (uni_setup_has_changed _ _ _ _ _ _ _ _ _) as [[]|u|] eqn:Ec; cbn [bind].
    + apply G. intros. apply F.
    + unfold new. rewrite (reused_same _ _ _ _ _ _ _ _ _ (I _ _ Eg) Ec). cbn [bind]. apply F.
    + unfold uni_setup_has_changed in Ec. unfold new, uni_new. destruct (uni_sizes _ _ _ _ _ _) as [[[a b] d]|v|]; cbn [bind] in *; congruence.
    + unfold uni_setup_has_changed in Ec. unfold new, uni_new. destruct (uni_sizes _ _ _ _ _ _) as [[[a b] d]|v|]; cbn [bind] in *; congruence.
  - apply G. intros. apply F.
Qed.
Lemma run_uni_inv {N : Num} fe (junk : list N) s c x : st_inv s -> run_uni fe junk s c = Ok x -> st_inv (snd x).
Proof.
  intros I. unfold run_uni. destruct (y_No c <? 0); [intros [= <-]; exact I|]. intros E.
  apply bind_Ok_inv in E as (re & Er & E). apply bind_Ok_inv in E as (o & Eo & E).
  destruct (uni_bufs _ o) as [[ny ni]|].
  - apply bind_Ok_inv in E as (r & _ & E). injection E as <-. cbn [snd]. destruct re; [exact I|].
    intros c' o' H. assert (o' = o) as -> by (destruct (y_cls c), c'; cbn in H; congruence). eapply uni_new_inv; eauto.
  - injection E as <-. cbn [snd]. intros c' o' H. apply (I c' o'). destruct (y_cls c), c'; cbn in *; congruence.
Qed.
Lemma gateway_inv {N : Num} fe nlhs (junk : list N) s args x : st_inv s -> uni_gateway fe nlhs junk s args = Ok x -> st_inv (snd x).
Proof.
  unfold uni_gateway. intros I E. apply bind_Ok_inv in E as ([|c] & _ & E); [injection E as <-; exact I|]. eapply run_uni_inv; eauto.
Qed.
Lemma session_inv {N : Num} fe (h : list (Z * list N * list (darg N))) : forall s s', st_inv s -> uni_session fe s h = Ok s' -> st_inv s'.
Proof.
  induction h as [|[[nlhs junk] args] h IH]; intros s s' I E; cbn [uni_session] in E; [injection E as <-; exact I|].
  apply bind_Ok_inv in E as (r & Er & E). eapply IH; [|exact E]. eapply gateway_inv; eauto.
Qed.
Lemma gateway_any {N : Num} fe nlhs (junk : list N) s args : st_inv s ->
  usees (uni_gateway fe nlhs junk s args) = usees (uni_gateway fe nlhs junk uni_start args).
Proof.
  intros I. unfold uni_gateway. destruct (parse_uni fe nlhs args) as [[|c]|u|]; try reflexivity. cbn [bind]. now apply run_uni_any.
Qed.

(** ** Documented calls *)
Lemma get3_entries {N : Num} (g : N * N * N) : get3 (entries g) 0 1 2 = Ok g.
Proof. destruct g as [[a b] c]. reflexivity. Qed.

Definition doc_call {N : Num} c t len (Y : list N) gt gr gx gy gz dt delays cp No : ucall N :=
  {| y_cls := c; y_No := No; y_type := t; y_len := len; y_Y := Y; y_t := gt; y_r := gr; y_x := gx; y_y := gy; y_z := gz;
     y_dt := dt; y_delay := delays; y_cp := cp |}.
(** [gr_held]: how the receive vector is given; an empty one stands for zeros. *)
Definition gr_held {N : Num} (fe : front) (m n : Z) (d : list N) (gr : N * N * N) : Prop :=
  (m * n = 3 /\ d = entries gr) \/ (n = 0 /\ gr = (nofZ 0, nofZ 0, nofZ 0)).
Lemma parse_uni_gen {N : Num} fe nlhs c t s len ny (Y : list N) gt gr gx gy gz dt delays cp Nx Ny Nz st1 m1 n1 st2 m2 n2 dr st3 st4 sd md nd st6 :
  (fe = Octave \/ fe = Matlab) -> (c = CDouble \/ c = CSingle) -> In (s, t) das_doc -> m1 * n1 = 3 -> gr_held fe m2 n2 dr gr ->
  (md * nd = 1 \/ md * nd = Nx * Ny * Nz) -> nlhs <= 1 ->
  uni_count (idx_of fe) (fst (fst gx)) (snd (fst gx)) (snd gx) = Ok Nx ->
  uni_count (idx_of fe) (fst (fst gy)) (snd (fst gy)) (snd gy) = Ok Ny ->
  uni_count (idx_of fe) (fst (fst gz)) (snd (fst gz)) (snd gz) = Ok Nz ->
  parse_uni fe nlhs
    [umat c Full len ny Y; umat c st1 m1 n1 (entries gt); umat c st2 m2 n2 dr;
     umat c st3 3 3 (let '(x0, dx, x1) := gx in let '(y0, dy, y1) := gy in let '(z0, dz, z1) := gz in
                              [x0; y0; z0; dx; dy; dz; x1; y1; z1]);
     umat c st4 1 1 [dt]; umat c sd md nd delays; umat c st6 1 1 [cp]; dtext s] =
  Ok (UPCall (doc_call c t len Y gt gr gx gy gz dt (ukept fe c (umat c sd md nd delays)) cp (Nx * Ny * Nz))).
Proof.
  intros Hfe Hc Hs H1 H2 Hdl Hn Ex Ey Ez.
  destruct gx as [[x0 dx] x1], gy as [[y0 dy] y1], gz as [[z0 dz] z1]. cbn [fst snd] in Ex, Ey, Ez.
  assert (Ht : goes_on fe (parse_das_arg fe (VStr (N:=N) s)) = true /\ p_val (parse_das_arg fe (VStr (N:=N) s)) = t).
  { cbn [das_doc In] in Hs. destruct Hs as [Hs|[Hs|[Hs|[Hs|[Hs|[]]]]]]; injection Hs as <- <-; destruct fe; repeat split. }
  destruct Ht as [Hg Hv].
  assert (Hcd : check_delay (VNum sd md nd delays) (Nx * Ny * Nz) = true).
  { unfold check_delay. cbn [get_m get_n]. destruct Hdl as [E|E]; rewrite E; [reflexivity|]. rewrite Z.eqb_refl. now rewrite Bool.andb_false_r. }
  assert (Hk : forall st m n d, cls_eqb (cls_of (umat (N:=N) c st m n d)) c = true) by (intros; destruct Hc as [-> | ->]; reflexivity).
  unfold parse_uni. change (Z.of_nat (length _) =? 8) with true. unfold ureq at 1 2. replace (nlhs <=? 1) with true by lia.
  cbn [darg_at nth_error bind].
  replace (if is_single (umat c Full len ny Y) then CSingle else CDouble) with c by (destruct Hc as [-> | ->]; reflexivity).
  rewrite !Hk. cbn [andb]. unfold ureq at 1.
  assert (Gm : forall st m n d, get_m (g_val (umat (N:=N) c st m n d)) = m) by reflexivity.
  assert (Gn : forall st m n d, get_n (g_val (umat (N:=N) c st m n d)) = n) by reflexivity.
  rewrite !Gm, !Gn, H1. change (3 =? 3) with true. unfold ureq at 1.
  assert (U : forall st m n d, unow (N:=N) c (umat c st m n d) = d) by (intros; unfold unow; rewrite Hk; reflexivity).
  rewrite !U, !get3_entries. cbn [bind].
  set (hr := match fe with Octave => negb (m2 * n2 =? 0) | _ => _ end).
  assert (Ehr : (negb hr || (m2 * n2 =? 3) = true)%bool /\ (if hr then get3 dr 0 1 2 else Ok (nofZ 0, nofZ 0, nofZ 0)) = Ok gr).
  { destruct H2 as [[H2 ->]|[H2 ->]].
    - assert (hr = true) as -> by (unfold hr; destruct (n2 =? 0) eqn:E; [assert (n2 = 0) by lia; subst n2; lia|]; rewrite H2; destruct fe; reflexivity).
      rewrite H2, get3_entries. split; reflexivity.
    - assert (hr = false) as -> by (unfold hr; subst n2; rewrite Z.mul_0_r; destruct fe; reflexivity). split; reflexivity. }
  destruct Ehr as [Ehr Egr]. rewrite Ehr. unfold ureq at 1. rewrite Egr. cbn [bind].
  replace ((match fe with Octave => true | _ => true end) && true)%bool with true by (destruct fe; reflexivity). unfold ureq at 1.
  change (get3 [x0; y0; z0; dx; dy; dz; x1; y1; z1] 0 3 6) with (@Ok (N * N * N) (x0, dx, x1)).
  change (get3 [x0; y0; z0; dx; dy; dz; x1; y1; z1] 1 4 7) with (@Ok (N * N * N) (y0, dy, y1)).
  change (get3 [x0; y0; z0; dx; dy; dz; x1; y1; z1] 2 5 8) with (@Ok (N * N * N) (z0, dz, z1)).
  cbn [bind fst snd]. rewrite Ex, Ey, Ez. cbn [bind]. change ((1 =? 1) && (1 =? 1))%bool with true. unfold ureq at 1.
  change (buf_get [dt] 0) with (@Ok N dt). change (buf_get [cp] 0) with (@Ok N cp). cbn [bind].
  change (g_val (umat (N:=N) c sd md nd delays)) with (VNum sd md nd delays).
  rewrite Hcd. unfold ureq at 1 2. change (g_val (dtext (N:=N) s)) with (VStr (N:=N) s). rewrite Hg, Hv.
  do 2 f_equal. unfold doc_call. f_equal. unfold ukept. rewrite !Hk. destruct fe; reflexivity.
Qed.

Lemma parse_uni_doc {N : Num} fe nlhs c t len ny (Y : list N) gt gr gx gy gz dt delays cp nt nr No args :
  uni_args fe c t len ny Y gt gr gx gy gz dt delays cp No args -> nlhs <= 1 ->
  uni_sizes (idx_of fe) gt gr gx gy gz = Ok (nt, nr, No) ->
  parse_uni fe nlhs args = Ok (UPCall (doc_call c t len Y gt gr gx gy gz dt delays cp No)).
Proof.
  intros (s & st1 & m1 & n1 & st2 & m2 & n2 & st3 & st4 & sd & md & nd & st6 & Hfe & Hc & -> & Hs & H1 & H2 & Hmd & Hdl & Hsd) Hn Es.
  unfold uni_sizes in Es. destruct gx as [[x0 dx] x1], gy as [[y0 dy] y1], gz as [[z0 dz] z1].
  apply bind_Ok_inv in Es as (nt' & _ & Es). apply bind_Ok_inv in Es as (nr' & _ & Es).
  apply bind_Ok_inv in Es as (Nx & Ex & Es). apply bind_Ok_inv in Es as (Ny & Ey & Es). apply bind_Ok_inv in Es as (Nz & Ez & Es).
  injection Es as <- <- <-.
  rewrite (parse_uni_gen fe nlhs c t s len ny Y gt gr (x0, dx, x1) (y0, dy, y1) (z0, dz, z1) dt delays cp Nx Ny Nz); try assumption; [|left; auto].
  do 3 f_equal. unfold ukept. replace (cls_eqb _ _) with true by (destruct Hc as [-> | ->]; reflexivity).
  destruct fe; try reflexivity. rewrite (Hsd eq_refl). reflexivity.
Qed.

Lemma cl_elems_fits c n : device_fits c n -> cl_elems (elem_size c) n = Some n.
Proof.
  unfold device_fits, cl_elems. intros H. rewrite Z.mod_small by lia.
  replace (0 <? n * elem_size c + 2 ^ 31 - 2 ^ 31) with true by lia. f_equal.
  replace (n * elem_size c + 2 ^ 31 - 2 ^ 31) with (n * elem_size c) by lia. apply Z.div_mul. destruct c; cbn; lia.
Qed.

(** The image of a documented call, point by point. *)
Lemma uni_call_items {N : Num} fe nlhs (junk : list N) s c t len ny (Y : list N) gt gr gx gy gz dt d0 ds cp nt nr No args (v : nat -> N) :
  st_inv s -> uni_args fe c t len ny Y gt gr gx gy gz dt (d0 :: ds) cp No args -> nlhs <= 1 ->
  uni_sizes (idx_of fe) gt gr gx gy gz = Ok (nt, nr, No) ->
  (t = das_saft \/ 0 < nr) ->
  let scans := match t with das_saft => nt | _ => nt * nr end in
  Z.of_nat (length Y) = len * scans -> device_fits c (len * scans) -> device_fits c No -> No mod 64 = 0 ->
  (forall no, (no < Z.to_nat No)%nat -> uni_value t Y len gt gr gx gy gz dt d0 cp (Z.of_nat no) = Ok (v no)) ->
  exists Im, usees (uni_gateway fe nlhs junk s args) = Ok (UReturned Im) /\ Z.of_nat (length Im) = No /\
    forall no, (no < Z.to_nat No)%nat -> nth_error Im no = Some (v no).
Proof.
  intros I D Hn Es Hnr scans HY Fy Fi Hm Hv.
  assert (PNo : 0 < No) by (unfold device_fits in Fi; destruct c; cbn in Fi; lia).
  rewrite (gateway_any fe nlhs junk s args I). unfold uni_gateway. rewrite (parse_uni_doc _ _ _ _ _ _ _ _ _ _ _ _ _ _ _ _ _ _ _ D Hn Es). cbn [bind].
  unfold run_uni. cbn [doc_call y_cls y_type y_len y_t y_r y_x y_y y_z y_No]. replace (No <? 0) with false by lia.
  replace (us_get c uni_start) with (@None uni_obj) by (destruct c; reflexivity). cbn [bind]. unfold uni_new. rewrite Es. cbn [bind].
  set (o := {| u_type := t; u_len := len; u_No := No; u_num_t := nt; u_num_r := if DASType_eqb t das_saft then 0 else nr |}).
  assert (Eb : uni_bufs c o = Some (len * scans, No)).
  { unfold uni_bufs. cbn [o u_type u_len u_num_t u_num_r u_No]. rewrite (cl_elems_fits c No Fi).
    replace (len * nt * match t with das_saft => 1 | _ => if DASType_eqb t das_saft then 0 else nr end) with (len * scans)
      by (unfold scans; destruct t; cbn [DASType_eqb]; lia).
    rewrite (cl_elems_fits c _ Fy). reflexivity. }
  rewrite Eb. unfold cl_das_uni. cbn [doc_call y_delay y_Y y_t y_r y_x y_y y_z y_dt y_cp o u_type u_len u_No u_num_r].
  change (buf_get (d0 :: ds) 0) with (@Ok N d0). cbn [bind]. replace (Z.of_nat (length Y) <? len * scans) with false by lia.
  replace (firstn (Z.to_nat (len * scans)) Y) with Y by (symmetry; apply firstn_all2; lia).
  set (ok := match t with das_saft => _ | _ => _ end).
  assert (Eok : ok = true) by (unfold ok; destruct t; cbn [DASType_eqb]; try reflexivity; destruct Hnr; (congruence || lia)).
  rewrite Eok. cbn [negb]. rewrite Hm. change (0 =? 0) with true. cbv iota.
  destruct (for_upd (nofZ (n:=N) 0) 0 No (fun no Im => do im <- uni_value t Y len gt gr gx gy gz dt d0 cp no; buf_upd Im no (fun _ => im))
    (fun no _ => v no) (alloc junk (Z.to_nat No))) as (Im & E & L & V).
  { rewrite alloc_length. lia. }
  { intros j h Hj Lh. rewrite (Hv j Hj). cbn [bind]. rewrite buf_upd_ok by (rewrite Lh, alloc_length; lia). now rewrite Nat2Z.id. }
  rewrite E. cbn [bind usees fst]. exists Im. split; [reflexivity|]. split; [rewrite L, alloc_length; lia|].
  intros no Hno. assert (no < length Im)%nat by (rewrite L, alloc_length; lia).
  rewrite (nth_error_nth' Im (nofZ (n:=N) 0)) by assumption. f_equal. rewrite V.
  replace ((0 <=? no)%nat && (no <? 0 + Z.to_nat No)%nat)%bool with true by lia. now rewrite Nat.sub_0_r.
Qed.
