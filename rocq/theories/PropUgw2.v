(** PropUgw2.v - property theorems: documented das_uni calls that go wrong
    (C70, C71). *)
From Coq Require Strings.String.
Import Coq.Strings.String.StringSyntax.
From Coq Require Import Floats Reals Lra Lia ZArith List Bool ZifyBool ZifyNat.
From Verif Require Import Base BaseLemmas ModelSir ModelArr ModelSmp ModelDas NumR SpecSmp SpecDft SpecDas
  ProofsLocal ProofsSmp ProofsLoop ProofsSmp2 ProofsR ProofsDas ProofsUni PropUni
  ModelGw SpecGw ProofsGw SpecGwR ModelDgw SpecDgw ModelUgw SpecUgw ProofsUgw PropUgw ExJob.
Import ListNotations.
Local Open Scope string_scope.
Local Open Scope Z_scope.
Ltac Zify.zify_post_hook ::= Z.div_mod_to_equations.

(** ** C70: the documented delay argument, image sizes and receive vector *)

(** One delay per image point: only the first is used, whatever the others. *)
Theorem C70_delays_refuted : forall (N : Num) fe nlhs (junk : list N) s c t len ny Y gt gr gx gy gz dt d0 ds ds' cp nt nr No args args',
  uni_args fe c t len ny Y gt gr gx gy gz dt (d0 :: ds) cp No args ->
  uni_args fe c t len ny Y gt gr gx gy gz dt (d0 :: ds') cp No args' -> nlhs <= 1 ->
  uni_sizes (idx_of fe) gt gr gx gy gz = Ok (nt, nr, No) ->
  uni_gateway fe nlhs junk s args = uni_gateway fe nlhs junk s args'.
Proof.
  intros N fe nlhs junk s c t len ny Y gt gr gx gy gz dt d0 ds ds' cp nt nr No args args' D D' Hn Es.
  unfold uni_gateway.
  rewrite (parse_uni_doc _ _ _ _ _ _ _ _ _ _ _ _ _ _ _ _ _ _ _ D Hn Es), (parse_uni_doc _ _ _ _ _ _ _ _ _ _ _ _ _ _ _ _ _ _ _ D' Hn Es).
  reflexivity.
Qed.
Print Assumptions C70_delays_refuted.

(** Documented calls whose number of image points is not a multiple of 64
    return whatever was in the device's memory. *)
Theorem C70_workgroup_refuted : forall (N : Num) fe nlhs (junk : list N) h s c t len ny (Y : list N) gt gr gx gy gz dt d0 ds cp nt nr No args,
  uni_session (N:=N) fe uni_start h = Ok s ->
  uni_args fe c t len ny Y gt gr gx gy gz dt (d0 :: ds) cp No args -> nlhs <= 1 ->
  uni_sizes (idx_of fe) gt gr gx gy gz = Ok (nt, nr, No) -> (t = das_saft \/ 0 < nr) ->
  let scans := match t with das_saft => nt | _ => nt * nr end in
  Z.of_nat (length Y) = len * scans -> device_fits c (len * scans) -> device_fits c No -> No mod 64 <> 0 ->
  usees (uni_gateway fe nlhs junk s args) = Ok (UReturned (alloc junk (Z.to_nat No))).
Proof.
  intros N fe nlhs junk h s c t len ny Y gt gr gx gy gz dt d0 ds cp nt nr No args Eh D Hn Es Hnr scans HY Fy Fi Hm.
  assert (PNo : 0 < No) by (unfold device_fits in Fi; destruct c; cbn in Fi; lia).
  rewrite (gateway_any fe nlhs junk s args) by (eapply session_inv; eauto using start_inv).
  unfold uni_gateway. rewrite (parse_uni_doc _ _ _ _ _ _ _ _ _ _ _ _ _ _ _ _ _ _ _ D Hn Es). cbn [bind].
  unfold run_uni. cbn [doc_call y_cls y_type y_len y_t y_r y_x y_y y_z y_No]. replace (No <? 0) with false by lia.
  replace (us_get c uni_start) with (@None uni_obj) by (destruct c; reflexivity). cbn [bind]. unfold uni_new. rewrite Es. cbn [bind].
  set (o := {| u_type := t; u_len := len; u_No := No; u_num_t := nt; u_num_r := if DASType_eqb t das_saft then 0 else nr |}).
  assert (Eb : uni_bufs c o = Some (len * scans, No)).
  { unfold uni_bufs. cbn [o u_type u_len u_num_t u_num_r u_No]. rewrite (cl_elems_fits c No Fi).
    replace (len * nt * match t with das_saft => 1 | _ => if DASType_eqb t das_saft then 0 else nr end) with (len * scans)
      by (unfold scans; destruct t; cbn [DASType_eqb]; lia).
    rewrite (cl_elems_fits c _ Fy). reflexivity. }
  rewrite Eb. unfold cl_das_uni. cbn [doc_call y_delay y_Y y_t y_r y_x y_y y_z y_dt y_cp o u_type u_len u_No u_num_r].
  change (buf_get (d0 :: ds) 0) with (@Ok N d0). cbn [bind]. replace (Z.of_nat (length Y) <? len * scans) with false by lia.
  set (ok := match t with das_saft => _ | _ => _ end).
  assert (Eok : ok = true) by (unfold ok; destruct t; cbn [DASType_eqb]; try reflexivity; destruct Hnr; (congruence || lia)).
  rewrite Eok. cbn [negb]. replace (No mod 64 =? 0) with false by lia. reflexivity.
Qed.
Print Assumptions C70_workgroup_refuted.

(** Data or image of 2 GB (up to 4 GB) bytes: no image, whatever the device's
    memory. *)
Theorem C70_2GB_refuted : forall (N : Num) fe nlhs (junk : list N) h s c t len ny (Y : list N) gt gr gx gy gz dt delays cp nt nr No args,
  uni_session (N:=N) fe uni_start h = Ok s ->
  uni_args fe c t len ny Y gt gr gx gy gz dt delays cp No args -> nlhs <= 1 ->
  uni_sizes (idx_of fe) gt gr gx gy gz = Ok (nt, nr, No) -> 0 <= No ->
  let scans := match t with das_saft => nt | _ => nt * nr end in
  2^31 <= len * scans * elem_size c <= 2^32 \/ 2^31 <= No * elem_size c <= 2^32 ->
  usees (uni_gateway fe nlhs junk s args) = Ok UNoImage.
Proof.
  intros N fe nlhs junk h s c t len ny Y gt gr gx gy gz dt delays cp nt nr No args Eh D Hn Es PNo scans HB.
  rewrite (gateway_any fe nlhs junk s args) by (eapply session_inv; eauto using start_inv).
  unfold uni_gateway. rewrite (parse_uni_doc _ _ _ _ _ _ _ _ _ _ _ _ _ _ _ _ _ _ _ D Hn Es). cbn [bind].
  unfold run_uni. cbn [doc_call y_cls y_type y_len y_t y_r y_x y_y y_z y_No]. replace (No <? 0) with false by lia.
  replace (us_get c uni_start) with (@None uni_obj) by (destruct c; reflexivity). cbn [bind]. unfold uni_new. rewrite Es. cbn [bind].
  set (o := {| u_type := t; u_len := len; u_No := No; u_num_t := nt; u_num_r := if DASType_eqb t das_saft then 0 else nr |}).
  assert (X : forall n, 2^31 <= n * elem_size c <= 2^32 -> cl_elems (elem_size c) n = None).
  { intros n H. unfold cl_elems. replace (0 <? _) with false; [reflexivity|]. symmetry. apply Z.ltb_ge.
    replace (n * elem_size c + 2 ^ 31) with (n * elem_size c - 2^31 + 1 * 2^32) by lia. rewrite Z.mod_add by lia.
    rewrite Z.mod_small by lia. lia. }
  assert (Eb : uni_bufs c o = None).
  { unfold uni_bufs. cbn [o u_type u_len u_num_t u_num_r u_No].
    replace (len * nt * match t with das_saft => 1 | _ => if DASType_eqb t das_saft then 0 else nr end) with (len * scans)
      by (unfold scans; destruct t; cbn [DASType_eqb]; lia).
    destruct HB as [HB|HB]; rewrite (X _ HB); [reflexivity|]. destruct (cl_elems _ _); reflexivity. }
  rewrite Eb. reflexivity.
Qed.
Print Assumptions C70_2GB_refuted.
(** For instance 3000 samples, 300 transmitters and 300 receivers. *)
Example C70_2GB_ex : 2^31 <= 3000 * (300 * 300) * elem_size CDouble <= 2^32.
Proof. cbn. lia. Qed.

Section Lists.
  Context {N : Num}.
  Variables (c : cls) (s : string) (len ny : Z) (Y : list N) (gt gx gy gz : N * N * N) (dt cp : N).
  (** A call with receive argument a2 and delay argument a5. *)
  Definition uni_list (a2 a5 : darg N) : list (darg N) :=
    [umat c Full len ny Y; umat c Full 1 3 (entries gt); a2;
     umat c Full 3 3 (let '(x0, dx, x1) := gx in let '(y0, dy, y1) := gy in let '(z0, dz, z1) := gz in
                      [x0; y0; z0; dx; dy; dz; x1; y1; z1]);
     umat c Full 1 1 [dt]; a5; umat c Full 1 1 [cp]; dtext s].
End Lists.

(** The documented SAFT call, gr = []: the number of receivers is computed as
    (0-0)/0 + 1 and converted to an integer, which is undefined.  Exact
    arithmetic; any grids with image points. *)
Theorem C70_empty_gr_refuted : forall fe nlhs junk h s c t m len ny Y gt gx gy gz dt delay cp,
  (fe = Octave \/ fe = Matlab) -> (c = CDouble \/ c = CSingle) -> In (m, t) das_doc -> nlhs <= 1 ->
  uni_session (N:=EN) fe uni_start h = Ok s ->
  grid_ok gx -> grid_ok gy -> grid_ok gz -> fits32 (grid_num gx) -> fits32 (grid_num gy) -> fits32 (grid_num gz) ->
  grid_ok gt -> fits32 (grid_num gt) ->
  usees (uni_gateway (N:=EN) fe nlhs junk s
    (uni_list c m len ny (exact Y) (emb3 gt) (emb3 gx) (emb3 gy) (emb3 gz) (Some dt) (Some cp) (umat c Full 0 0 []) (umat c Full 1 1 (exact [delay])))) =
  UB UB_cast.
Proof.
  intros fe nlhs junk h s c t m len ny Y gt gx gy gz dt delay cp Hfe Hc Hm Hn Eh Ox Oy Oz Fx Fy Fz Ot Ft.
  rewrite (gateway_any fe nlhs junk s) by (eapply session_inv; eauto using start_inv).
  assert (C : forall g, grid_ok g -> fits32 (grid_num g) -> uni_count (N:=EN) (idx_of fe) (fst (fst (emb3 g))) (snd (fst (emb3 g))) (snd (emb3 g)) = Ok (grid_num g)).
  { intros g Og Fg. pose proof (uni_count_R (idx_of fe) g Og (fits_any _ _ (grid_num_pos _ Og) Fg)) as E.
    destruct (emb3 g) as [[a b] d]. exact E. }
  unfold uni_gateway, uni_list.
  rewrite (parse_uni_gen fe nlhs c t m len ny (exact Y) (emb3 gt) (nofZ (n:=EN) 0, nofZ (n:=EN) 0, nofZ (n:=EN) 0) (emb3 gx) (emb3 gy) (emb3 gz) (Some dt : EN) (exact [delay]) (Some cp : EN) _ _ _
     Full 1 3 Full 0 0 [] Full Full Full 1 1 Full Hfe Hc Hm eq_refl (or_intror (conj eq_refl eq_refl)) (or_introl eq_refl) Hn (C gx Ox Fx) (C gy Oy Fy) (C gz Oz Fz)).
  cbn [bind]. unfold run_uni. cbn [doc_call y_cls y_type y_len y_t y_r y_x y_y y_z y_No].
  pose proof (grid_num_pos _ Ox). pose proof (grid_num_pos _ Oy). pose proof (grid_num_pos _ Oz).
  replace (_ <? 0) with false by nia.
  replace (us_get c uni_start) with (@None uni_obj) by (destruct c; reflexivity). cbn [bind]. unfold uni_new, uni_sizes.
  pose proof (C gt Ot Ft) as Et. destruct (emb3 gt) as [[a b] d]. cbn [fst snd] in Et. rewrite Et. cbn [bind].
  assert (E0 : uni_count (N:=EN) (idx_of fe) (nofZ (n:=EN) 0) (nofZ (n:=EN) 0) (nofZ (n:=EN) 0) = UB UB_cast).
  { unfold uni_count. cbn. unfold e_div. destruct (Req_EM_T 0 0) as [_|Hne]; [|exfalso; apply Hne; reflexivity]. reflexivity. }
  rewrite E0. reflexivity.
Qed.
Print Assumptions C70_empty_gr_refuted.

(** Octave, a scalar delay (which Octave does not hold as a matrix): the delay
    is read from freed memory. *)
Theorem C70_scalar_delay_refuted : forall (N : Num) nlhs (junk : list N) h s c t m len ny (Y : list N) gt gr gx gy gz dt delay cp nt nr No ny' ni,
  (c = CDouble \/ c = CSingle) -> In (m, t) das_doc -> nlhs <= 1 ->
  uni_session (N:=N) Octave uni_start h = Ok s ->
  uni_sizes SignedIdx gt gr gx gy gz = Ok (nt, nr, No) -> 0 <= No ->
  uni_bufs c {| u_type := t; u_len := len; u_No := No; u_num_t := nt; u_num_r := if DASType_eqb t das_saft then 0 else nr |} = Some (ny', ni) ->
  usees (uni_gateway Octave nlhs junk s (uni_list c m len ny Y gt gx gy gz dt cp (umat c Full 1 3 (entries gr)) (umat c Temp 1 1 [delay]))) =
  UB UB_oob_read.
Proof.
  intros N nlhs junk h s c t m len ny Y gt gr gx gy gz dt delay cp nt nr No ny' ni Hc Hm Hn Eh Es PNo Eb.
  rewrite (gateway_any Octave nlhs junk s) by (eapply session_inv; eauto using start_inv).
  pose proof Es as Es'. unfold uni_sizes in Es'. destruct gx as [[x0 dx] x1], gy as [[y0 dy] y1], gz as [[z0 dz] z1].
  apply bind_Ok_inv in Es' as (nt' & _ & Es'). apply bind_Ok_inv in Es' as (nr' & _ & Es').
  apply bind_Ok_inv in Es' as (Nx & Ex & Es'). apply bind_Ok_inv in Es' as (Ny & Ey & Es'). apply bind_Ok_inv in Es' as (Nz & Ez & Es').
  injection Es' as -> -> <-.
  unfold uni_gateway, uni_list.
  rewrite (parse_uni_gen Octave nlhs c t m len ny Y gt gr (x0, dx, x1) (y0, dy, y1) (z0, dz, z1) dt [delay] cp _ _ _
     Full 1 3 Full 1 3 (entries gr) Full Full Temp 1 1 Full (or_introl eq_refl) Hc Hm eq_refl (or_introl (conj eq_refl eq_refl)) (or_introl eq_refl) Hn Ex Ey Ez).
  cbn [bind]. unfold run_uni. cbn [doc_call y_cls y_type y_len y_t y_r y_x y_y y_z y_No]. replace (_ <? 0) with false by lia.
  replace (us_get c uni_start) with (@None uni_obj) by (destruct c; reflexivity). cbn [bind]. unfold uni_new. cbn [idx_of].
  rewrite Es. cbn [bind]. rewrite Eb. unfold cl_das_uni. cbn [doc_call y_delay].
  replace (ukept Octave c (umat c Temp 1 1 [delay])) with (@nil N) by (unfold ukept; destruct (cls_eqb _ _); reflexivity). reflexivity.
Qed.
Print Assumptions C70_scalar_delay_refuted.

(** ** C71: the shape of the image grid in MATLAB *)

(** Octave accepts nothing but 3 x 3 ... *)
Theorem C71_octave_partial : forall (N : Num) nlhs (args : list (darg N)) call,
  parse_uni Octave nlhs args = Ok (UPCall call) ->
  exists a, nth_error args 3 = Some a /\ get_m (g_val a) = 3 /\ get_n (g_val a) = 3.
Proof.
  intros N nlhs args call E. unfold parse_uni in E.
  assert (Q : forall b k, ureq (N:=N) b k = Ok (UPCall call) -> b = true /\ k = Ok (UPCall call)).
  { intros [] k H; [auto|discriminate]. }
  apply Q in E as (_ & E). apply Q in E as (_ & E). do 3 (apply bind_Ok_inv in E as (? & _ & E)).
  apply bind_Ok_inv in E as (a3 & E3 & E). do 4 (apply bind_Ok_inv in E as (? & _ & E)).
  cbv zeta in E. apply Q in E as (_ & E). apply Q in E as (_ & E). apply bind_Ok_inv in E as (gt & _ & E).
  apply Q in E as (_ & E). apply bind_Ok_inv in E as (gr & _ & E). apply Q in E as (H & _).
  exists a3. unfold darg_at in E3. destruct (nth_error args 3); [|discriminate]. injection E3 as ->. split; [reflexivity|]. lia.
Qed.
Print Assumptions C71_octave_partial.

(** ... MATLAB accepts any number of rows: with two it reads past the end of
    the matrix, with four it silently computes the image of a box assembled
    from the wrong entries (columns (a0..a3), (b0..b3), (c0..c3)). *)
Definition matlab_list {N : Num} (m3 : Z) (Ro : list N) (Y : list N) (len ny : Z) (gt gr : N * N * N) (dt delay cp : N) (m : string) : list (darg N) :=
  [umat CDouble Full len ny Y; umat CDouble Full 1 3 (entries gt); umat CDouble Full 1 3 (entries gr); umat CDouble Full m3 3 Ro;
   umat CDouble Full 1 1 [dt]; umat CDouble Full 1 1 [delay]; umat CDouble Full 1 1 [cp]; dtext m].
Theorem C71_two_rows_refuted : forall (N : Num) nlhs (junk : list N) s Ro Y len ny gt gr dt delay cp m,
  length Ro = 6%nat -> nlhs <= 1 ->
  uni_gateway Matlab nlhs junk s (matlab_list 2 Ro Y len ny gt gr dt delay cp m) = UB UB_oob_read.
Proof.
  intros N nlhs junk s Ro Y len ny [[t0 tp] t1] [[r0 rp] r1] dt delay cp m HL Hn.
  destruct Ro as [|e0 [|e1 [|e2 [|e3 [|e4 [|e5 [|]]]]]]]; try discriminate HL.
  unfold uni_gateway, parse_uni, matlab_list. change (Z.of_nat (length _) =? 8) with true. unfold ureq at 1 2. replace (nlhs <=? 1) with true by lia.
  reflexivity.
Qed.
Print Assumptions C71_two_rows_refuted.
Theorem C71_four_rows_refuted : forall (N : Num) nlhs a0 a1 a2 a3 b0 b1 b2 b3 c0 c1 c2 c3 (Y : list N) len ny gt gr dt delay cp m t nt nr No,
  In (m, t) das_doc -> nlhs <= 1 ->
  uni_sizes UnsignedIdx gt gr (a0, a3, b2) (a1, b0, b3) (a2, b1, c0) = Ok (nt, nr, No) ->
  exists call,
    parse_uni Matlab nlhs (matlab_list 4 [a0; a1; a2; a3; b0; b1; b2; b3; c0; c1; c2; c3] Y len ny gt gr dt delay cp m) = Ok (UPCall call) /\
    y_x call = (a0, a3, b2) /\ y_y call = (a1, b0, b3) /\ y_z call = (a2, b1, c0) /\ y_No call = No.
Proof.
  intros N nlhs a0 a1 a2 a3 b0 b1 b2 b3 c0 c1 c2 c3 Y len ny gt gr dt delay cp m t nt nr No Hm Hn Es.
  destruct gt as [[t0 tp] t1], gr as [[r0 rp] r1]. unfold uni_sizes in Es.
  apply bind_Ok_inv in Es as (nt' & _ & Es). apply bind_Ok_inv in Es as (nr' & _ & Es).
  apply bind_Ok_inv in Es as (Nx & Ex & Es). apply bind_Ok_inv in Es as (Ny & Ey & Es). apply bind_Ok_inv in Es as (Nz & Ez & Es).
  injection Es as -> -> <-.
  assert (Hg : goes_on Matlab (parse_das_arg Matlab (VStr (N:=N) m)) = true /\ p_val (parse_das_arg Matlab (VStr (N:=N) m)) = t).
  { cbn [das_doc In] in Hm. destruct Hm as [H|[H|[H|[H|[H|[]]]]]]; injection H as <- <-; repeat split. }
  destruct Hg as [Hg Hv].
  unfold parse_uni, matlab_list. change (Z.of_nat (length _) =? 8) with true. unfold ureq at 1 2. replace (nlhs <=? 1) with true by lia.
  match goal with |- exists call, ?x = _ /\ _ => assert (Ep : x =
    do Nx <- uni_count UnsignedIdx a0 a3 b2; do Ny <- uni_count UnsignedIdx a1 b0 b3; do Nz <- uni_count UnsignedIdx a2 b1 c0;
    if goes_on Matlab (parse_das_arg Matlab (VStr (N:=N) m)) then
      Ok (UPCall (doc_call CDouble (p_val (parse_das_arg Matlab (VStr (N:=N) m))) len Y (t0, tp, t1) (r0, rp, r1) (a0, a3, b2) (a1, b0, b3) (a2, b1, c0)
                    dt [delay] cp (Nx * Ny * Nz)))
    else Ok UPRejected) by reflexivity; rewrite Ep; clear Ep end.
  rewrite Ex, Ey, Ez. cbn [bind]. rewrite Hg. eexists. split; [reflexivity|]. repeat split; reflexivity.
Qed.
Print Assumptions C71_four_rows_refuted.

(** The hypotheses of C70 hold, e.g., for a 2-element array and 2 x 2 x 2
    image points (in double precision). *)
Example C70_ex : uni_sizes (N:=FI) SignedIdx (0, 3, 3)%float (0, 3, 3)%float (0, 1, 1)%float (0, 1, 1)%float (4, 1, 5)%float = Ok (2, 2, 8) /\
  device_fits CDouble (10 * (2 * 2)) /\ device_fits CDouble 8 /\ 8 mod 64 <> 0 /\
  uni_bufs CDouble {| u_type := das_tfm; u_len := 10; u_No := 8; u_num_t := 2; u_num_r := 2 |} = Some (40, 8).
Proof. split; [vm_compute; reflexivity|]. unfold device_fits. cbn [elem_size]. repeat split; try lia. Qed.
