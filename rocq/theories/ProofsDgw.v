(** ProofsDgw.v - parsing of das calls, independence of the history. *)
From Coq Require Strings.String.
Import Coq.Strings.String.StringSyntax.
From Coq Require Import Lia ZifyBool ZifyNat.
From Verif Require Import Base BaseLemmas ModelSir ModelArr ModelSmp ModelDas ModelGw SpecGw ModelDgw SpecDgw.
Local Open Scope string_scope.
Local Open Scope Z_scope.

Lemma with_object_new {N : Num} opencl old (J : das_job N) :
  with_object (das_object opencl old (d_type J) (d_len J) (d_No J) (d_num_t J) (d_num_r J) false) J = J.
Proof.
  unfold das_object.
  assert (H : forall o, das_setup_has_changed o (d_type J) (d_len J) (d_No J) (d_num_t J) (d_num_r J) false = false -> with_object o J = J).
  { intros o. unfold das_setup_has_changed. rewrite !Bool.orb_false_iff, !Bool.negb_false_iff, !Z.eqb_eq.
    intros (((((Ht & Hl) & Hn) & Hnt) & Hnr) & _).
    assert (o_type o = d_type J) by (revert Ht; destruct (d_type J), (o_type o); cbn; congruence).
    unfold with_object. rewrite <- Hl, <- Hn, <- Hnt, <- Hnr, H. destruct J; reflexivity. }
  assert (H' : with_object (das_new opencl (d_type J) (d_len J) (d_No J) (d_num_t J) (d_num_r J) false) J = J).
  { unfold das_new. destruct opencl; unfold with_object, das_new_cpu; cbn; destruct J; reflexivity. }
  destruct old as [o|]; [|exact H'].
  destruct (das_setup_has_changed _ _ _ _ _ _ _) eqn:E; [exact H'|]. now apply H.
Qed.

(** The object used has the sizes of the call (on the GPU, SAFT objects have
    no receivers), whatever the previous object was. *)
Lemma with_object_any {N : Num} opencl old1 old2 (J : das_job N) gpu :
  with_object (das_object opencl old1 (d_type J) (d_len J) (d_No J) (d_num_t J) (d_num_r J) gpu) J =
  with_object (das_object opencl old2 (d_type J) (d_len J) (d_No J) (d_num_t J) (d_num_r J) gpu) J \/
  (opencl = true /\ gpu = true /\ d_type J = das_saft).
Proof.
  unfold das_object.
  assert (H : forall o, das_setup_has_changed o (d_type J) (d_len J) (d_No J) (d_num_t J) (d_num_r J) gpu = false -> with_object o J = J).
  { intros o. unfold das_setup_has_changed. rewrite !Bool.orb_false_iff, !Bool.negb_false_iff, !Z.eqb_eq.
    intros (((((Ht & Hl) & Hn) & Hnt) & Hnr) & _).
    assert (o_type o = d_type J) by (revert Ht; destruct (d_type J), (o_type o); cbn; congruence).
    unfold with_object. rewrite <- Hl, <- Hn, <- Hnt, <- Hnr, H. destruct J; reflexivity. }
  assert (H' : with_object (das_new opencl (d_type J) (d_len J) (d_No J) (d_num_t J) (d_num_r J) gpu) J = J \/
     (opencl = true /\ gpu = true /\ d_type J = das_saft)).
  { unfold das_new. destruct opencl; [|left; unfold with_object, das_new_cpu; cbn; destruct J; reflexivity].
    destruct gpu; [|left; unfold with_object; cbn; destruct J; reflexivity].
    destruct (d_type J) eqn:Et; [right; auto| | |]; left; unfold with_object; cbn; rewrite <- Et; destruct J; reflexivity. }
  destruct H' as [H'|H']; [|now right]. left.
  assert (A : forall old, with_object (match old with Some o => if das_setup_has_changed o (d_type J) (d_len J) (d_No J) (d_num_t J) (d_num_r J) gpu
      then das_new opencl (d_type J) (d_len J) (d_No J) (d_num_t J) (d_num_r J) gpu else o
    | None => das_new opencl (d_type J) (d_len J) (d_No J) (d_num_t J) (d_num_r J) gpu end) J = J).
  { intros [o|]; [|exact H']. destruct (das_setup_has_changed _ _ _ _ _ _ _) eqn:E; [exact H'|]. now apply H. }
  now rewrite !A.
Qed.

Lemma parse_das_doc {N : Num} fe opencl nlhs (J : das_job N) ny args : das_args fe opencl J ny args -> 0 <= nlhs <= 2 ->
  exists c, parse_das fe nlhs args = Ok (PCall c) /\ c_job c = J /\ (opencl && c_gpu c)%bool = false.
Proof.
  intros (s & nr & st4 & st6 & sd & md & nd & opts & -> & Hs & Ho & Hnr & Hsaft & Hgr & Hmd & Hty & Hdl & Hsd) Hn.
  assert (Ht : forall e, das_of_string (get_string_arg e s) = Some (d_type J) /\ goes_on e (parse_das_arg e (VStr (N:=N) s)) = true /\ p_val (parse_das_arg e (VStr (N:=N) s)) = d_type J).
  { intros e. cbn [das_doc In] in Hs. destruct Hs as [Hs|[Hs|[Hs|[Hs|[Hs|[]]]]]]; injection Hs as <- <-; destruct e; repeat split. }
  destruct (Ht fe) as (_ & Hg & Hv).
  assert (Hl : forall l, In (l, d_lvl J) err_doc -> goes_on fe (parse_error_arg fe (VStr (N:=N) l)) = true /\ p_val (parse_error_arg fe (VStr (N:=N) l)) = d_lvl J).
  { intros l Hl. cbn [err_doc In] in Hl. destruct Hl as [Hl|[Hl|[Hl|[]]]]; injection Hl as <- <-; destruct fe; split; reflexivity. }
  assert (Hcd : check_delay (VNum sd md nd (d_delay J)) (d_No J) = true).
  { unfold check_delay. cbn [get_m get_n]. destruct Hdl as [E|E]; rewrite E; [reflexivity|]. rewrite Z.eqb_refl. now rewrite Bool.andb_false_r. }
  assert (Hdt : delay_type_of (VNum sd md nd (d_delay J)) = d_delay_type J).
  { unfold delay_type_of. cbn [get_m get_n]. now rewrite Hty. }
  assert (Hh : match fe with Octave => negb (d_num_r J =? 0) | _ => negb (nr =? 0) end = true -> nr = 3).
  { intros H. destruct Hnr as [->|[-> Hq]]; [reflexivity|]. specialize (Hsaft Hq). destruct fe; lia. }
  assert (Hb : match fe with Octave => negb (d_num_r J =? 0) | _ => negb (nr =? 0) end = false -> d_num_r J = 0).
  { intros H. destruct Hnr as [->|[-> Hq]]; [destruct fe; lia|]. exact (Hsaft Hq). }
  assert (Hk : forall e, e = fe -> kept e (dmat sd md nd (d_delay J)) = d_delay J).
  { intros e ->. destruct fe; cbn; [subst sd|..]; reflexivity. }
  assert (Hg3 : forall st, kept Octave (dmat (N:=N) st 0 0 []) = []) by (intros []; reflexivity).
  destruct fe.
  1,2: unfold parse_das, parse_das_om;
    assert (Hlen : (8 <= length ([dmat Full (d_len J) ny (d_Y J); dmat Full (d_num_t J) 3 (d_Gt J); dmat Full (d_num_r J) nr (d_Gr J);
               dmat Full (d_No J) 3 (d_Ro J); dmat st4 1 1 [d_dt J]; dmat sd md nd (d_delay J); dmat st6 1 1 [d_cp J];
               dtext s] ++ opts) <= 11)%nat /\ True) by (split; [rewrite app_length; destruct Ho as [(_ & -> & _)|[(? & _ & -> & _)|[(? & ? & _ & -> & _)|(? & ? & ? & -> & _)]]]; cbn; lia|exact I]);
    unfold in_bounds, dreq at 1 2;
    replace ((_ <? 8) || (11 <? _))%bool with false by lia; replace ((nlhs <? 0) || (2 <? nlhs))%bool with false by lia; cbn [negb];
    cbn [darg_at nth_error app bind];
    change (is_single (dmat (N:=N) Full (d_len J) ny (d_Y J))) with false; cbv iota;
    change (is_double (dmat (N:=N) Full (d_num_t J) 3 (d_Gt J))) with true; change (is_double (dmat (N:=N) Full (d_num_r J) nr (d_Gr J))) with true;
    change (is_double (dmat (N:=N) Full (d_No J) 3 (d_Ro J))) with true; change (is_double (dmat (N:=N) sd md nd (d_delay J))) with true;
    cbn [andb]; unfold dreq at 1; cbn [dmat g_val get_n get_m]; change (3 =? 3) with true; unfold dreq at 1;
    set (hr := negb (_ =? 0)) in *; clearbody hr;
    assert (Er : (negb hr || (nr =? 3))%bool = true) by (destruct hr; [rewrite (Hh eq_refl)|]; reflexivity); rewrite Er; unfold dreq at 1;
    unfold dreq at 1; change ((1 =? 1) && (1 =? 1))%bool with true; unfold dreq at 1.
  1: change (buf_get (read_now Octave (dmat st4 1 1 [d_dt J])) 0) with (@Ok N (d_dt J)).
  2: change (buf_get (read_now Matlab (dmat st4 1 1 [d_dt J])) 0) with (@Ok N (d_dt J)).
  1,2: cbn [bind]; rewrite Hcd; unfold dreq at 1; unfold dreq at 1.
  1: change (buf_get (read_now Octave (dmat st6 1 1 [d_cp J])) 0) with (@Ok N (d_cp J)).
  2: change (buf_get (read_now Matlab (dmat st6 1 1 [d_cp J])) 0) with (@Ok N (d_cp J)).
  1,2: cbn [bind]; unfold dthen at 1; change (g_val (dtext (N:=N) s)) with (VStr (N:=N) s); rewrite Hg, Hv, Hdt;
    rewrite (Hk _ eq_refl);
    assert (EJ : forall lvl, lvl = d_lvl J -> {|
            d_type := d_type J; d_len := d_len J; d_No := d_No J; d_num_t := d_num_t J;
            d_num_r := if hr then d_num_r J else 0; d_Y := d_Y J; d_Ro := d_Ro J; d_Gt := d_Gt J;
            d_Gr := if hr then d_Gr J else []; d_dt := d_dt J; d_delay_type := d_delay_type J; d_delay := d_delay J; d_cp := d_cp J; d_lvl := lvl |} = J)
     by (intros lvl ->; destruct hr; [destruct J; reflexivity|rewrite <- (Hb eq_refl) at 1; rewrite <- (Hgr (Hb eq_refl)); destruct J; reflexivity]).
  1,2: destruct Ho as [(_ & -> & El)|[(l & _ & -> & Hin)|[(l & dev & _ & -> & Hin & Hcpu)|(l & dev & v & -> & Hin & Hcpu)]]];
     [| destruct (Hl l Hin) as (Hg8 & Hv8) | destruct (Hl l Hin) as (Hg8 & Hv8) | destruct (Hl l Hin) as (Hg8 & Hv8)];
     cbn [length app]; cbv beta zeta;
     [change (9 <=? Z.of_nat 8) with false; change (Z.of_nat 8 =? 10) with false; change (Z.of_nat 8 =? 11) with false
     |change (9 <=? Z.of_nat 9) with true; change (Z.of_nat 9 =? 10) with false; change (Z.of_nat 9 =? 11) with false
     |change (9 <=? Z.of_nat 10) with true; change (Z.of_nat 10 =? 10) with true; change (Z.of_nat 10 =? 11) with false
     |change (9 <=? Z.of_nat 11) with true; change (Z.of_nat 11 =? 10) with false; change (Z.of_nat 11 =? 11) with true];
     cbn [darg_at nth_error bind dtext g_val]; unfold dthen; rewrite ?Hg8, ?Hv8; cbn [bind is_string]; unfold dreq; cbn [bind is_string dtext g_val str_of];
     (eexists; split; [reflexivity|]; cbn [c_job c_gpu]; split; [apply EJ; auto|]).
  all: try (now rewrite Bool.andb_false_r).
  1,2: destruct Hcpu as [->|[_ ->]]; [rewrite Bool.andb_false_r|]; reflexivity.
  all: destruct Ho as [([] & _)|[(l & [] & _)|[(l & dev & [] & _)|(l & dev & v & -> & Hin & Hcpu)]]]; destruct Hcpu as [->|[[] _]];
    destruct (Hl l Hin) as (Hg8 & Hv8);
    unfold parse_das, parse_das_pj; cbn [length app Nat.eqb darg_at nth_error bind];
    unfold dnum; cbn [darg_at nth_error bind dmat g_val shape_ok get_n get_m]; unfold dreq at 1; change (3 =? 3) with true; unfold dreq at 1;
    unfold dthen at 1; cbn [dtext g_val]; rewrite Hg, Hv.
  - assert (Hsh : match sd with OneD => UB UB_oob_read | _ => Ok tt end = Ok tt) by (destruct sd; [reflexivity..|contradiction]).
    assert (Hr : nr =? 3 = true \/ d_type J = das_saft) by (destruct Hnr as [->|[_ E]]; auto).
    unfold check_obs_points. cbn [get_n]. change (3 =? 3) with true. rewrite Hsh. cbn [bind].
    assert (EJ : forall num_r Gr, num_r = d_num_r J -> Gr = d_Gr J ->
      exists c, (dreq (N:=N) true (dreq (check_delay (VNum sd md nd (d_delay J)) (d_No J))
       (do dt <- buf_get (read_now Python {| g_cls := CDouble; g_val := VNum st4 1 1 [d_dt J] |}) 0;
        do cp <- buf_get (read_now Python {| g_cls := CDouble; g_val := VNum st6 1 1 [d_cp J] |}) 0;
        dthen Python (parse_error_arg Python (VStr (N:=N) l)) (fun lvl => 
          dreq (negb (negb (String.eqb (get_string_arg Python (str_of (N:=N) (VStr "cpu"))) "cpu") && String.eqb (get_string_arg Python (str_of (N:=N) (VStr "cpu"))) "gpu"))
      (Ok (PCall {| c_job := {| d_type := d_type J; d_len := d_len J; d_No := d_No J; d_num_t := d_num_t J; d_num_r := num_r;
                               d_Y := d_Y J; d_Ro := d_Ro J; d_Gt := d_Gt J; d_Gr := Gr;
                               d_dt := dt; d_delay_type := delay_type_of (VNum sd md nd (d_delay J)); d_delay := d_delay J; d_cp := cp; d_lvl := lvl |};
                   c_gpu := String.eqb (get_string_arg Python (str_of (N:=N) (VStr "cpu"))) "gpu" |})))))) = Ok (PCall c) /\ c_job c = J /\ (opencl && c_gpu c)%bool = false).
    { intros num_r Gr -> ->. unfold dreq at 1 2. rewrite Hcd. cbn [read_now get_data g_val bind]. change (buf_get [d_dt J] 0) with (@Ok N (d_dt J)). change (buf_get [d_cp J] 0) with (@Ok N (d_cp J)).
      cbn [bind]. unfold dthen. rewrite Hg8, Hv8, Hdt. cbn [str_of get_string_arg]. eexists. split; [reflexivity|]. cbn [c_job c_gpu]. split; [destruct J; reflexivity|apply Bool.andb_false_r]. }
    destruct (d_type J) eqn:Et; cbn [kept cls_of g_val get_data].
    1: { apply (EJ 0 []); [symmetry; apply (Hsaft eq_refl)|symmetry; apply (Hgr (Hsaft eq_refl))]. }
    all: destruct Hr as [Hr|Hr]; [|discriminate]; rewrite Hr; unfold dreq at 1; apply EJ; reflexivity.
  - assert (Hr : nr =? 3 = true \/ d_type J = das_saft) by (destruct Hnr as [->|[_ E]]; auto).
    unfold check_obs_points. cbn [get_n]. change (3 =? 3) with true. cbn [bind].
    assert (EJ : forall num_r Gr, num_r = d_num_r J -> Gr = d_Gr J ->
      exists c, (dreq (N:=N) true (dreq (check_delay (VNum sd md nd (d_delay J)) (d_No J))
       (do dt <- buf_get (read_now Julia {| g_cls := CDouble; g_val := VNum st4 1 1 [d_dt J] |}) 0;
        do cp <- buf_get (read_now Julia {| g_cls := CDouble; g_val := VNum st6 1 1 [d_cp J] |}) 0;
        dthen Julia (parse_error_arg Julia (VStr (N:=N) l)) (fun lvl => 
          dreq (negb (negb (String.eqb (get_string_arg Julia (str_of (N:=N) (VStr "cpu"))) "cpu") && String.eqb (get_string_arg Julia (str_of (N:=N) (VStr "cpu"))) "gpu"))
      (Ok (PCall {| c_job := {| d_type := d_type J; d_len := d_len J; d_No := d_No J; d_num_t := d_num_t J; d_num_r := num_r;
                               d_Y := d_Y J; d_Ro := d_Ro J; d_Gt := d_Gt J; d_Gr := Gr;
                               d_dt := dt; d_delay_type := delay_type_of (VNum sd md nd (d_delay J)); d_delay := d_delay J; d_cp := cp; d_lvl := lvl |};
                   c_gpu := String.eqb (get_string_arg Julia (str_of (N:=N) (VStr "cpu"))) "gpu" |})))))) = Ok (PCall c) /\ c_job c = J /\ (opencl && c_gpu c)%bool = false).
    { intros num_r Gr -> ->. unfold dreq at 1 2. rewrite Hcd. cbn [read_now get_data g_val bind]. change (buf_get [d_dt J] 0) with (@Ok N (d_dt J)). change (buf_get [d_cp J] 0) with (@Ok N (d_cp J)).
      cbn [bind]. unfold dthen. rewrite Hg8, Hv8, Hdt. cbn [str_of get_string_arg]. eexists. split; [reflexivity|]. cbn [c_job c_gpu]. split; [destruct J; reflexivity|apply Bool.andb_false_r]. }
    destruct (d_type J) eqn:Et; cbn [kept cls_of g_val get_data].
    1: { apply (EJ 0 []); [symmetry; apply (Hsaft eq_refl)|symmetry; apply (Hgr (Hsaft eq_refl))]. }
    all: destruct Hr as [Hr|Hr]; [|discriminate]; rewrite Hr; unfold dreq at 1; apply EJ; reflexivity.
Qed.
