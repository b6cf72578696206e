(** PropGwR.v - property theorem C44: a whole call through a front end, exact
    arithmetic, from the user's arguments to the entries of the matrix. *)
From Coq Require Strings.String Strings.Ascii.
Import Coq.Strings.String.StringSyntax.
From Coq Require Import Reals List ZArith Lra Lia.
From Verif Require Import Base BaseLemmas ModelSir ModelArr ModelSmp NumR SpecSmp ProofsSmp2 SpecSir SpecRayleigh SpecArr
  ModelGw SpecGw SpecGwR ProofsR ProofsRayleigh ProofsErr ProofsSirR ProofsArr PropSir PropArr ProofsGw5 PropGw ProofsGwR.
Import ListNotations.
Local Open Scope string_scope.
Open Scope R_scope.

Lemma old_zeros g n k : (k < n)%nat -> old g (repeat 0 n) k = 0.
Proof.
  intros H. assert (E : nth k (repeat 0 n) 0 = 0) by apply nth_repeat. unfold old. destruct g; auto.
Qed.

(** C44, single-element transducers, levels 'ignore' and 'warn': the entry in
    row k and column n of the matrix that the user gets back is sample k of the
    discretised Rayleigh integral at observation point n, for every front end,
    every number of workers, every schedule, whatever the matrix held. *)
Theorem C44_single : forall fuel c2r fe f nlhs hw env sch junk args g q ntz l ps dty dl,
  documented fe f args (emb_geom g) (emb_samp q ntz) (Some 0 : EN) l (Z.of_nat (length ps)) (exact (coords ps)) dty (exact dl) ->
  l = lvl_ignore \/ l = lvl_warn -> (0 <= nlhs <= 2)%Z -> (0 <= ntz)%Z -> keeps_length c2r -> (0 <= hw)%Z ->
  runs_to_end hw env (Z.of_nat (length ps)) sch ->
  (forall n, (n < length ps)%nat -> defined (idx_of fe) fuel q ntz g (start_delay dty dl n) (nth n ps origin)) ->
  exists H w e,
    gateway fuel c2r fe f nlhs hw env sch junk args = Ok (Some (Returned H ntz (Z.of_nat (length ps)) w e)) /\
    matrix_is H (Z.to_nat ntz) (length ps)
      (fun n k => rayleigh q 1 (start_delay dty dl n) (nth n ps origin) (sources q g) (Z.of_nat k)).
Proof.
  intros fuel c2r fe f nlhs hw env sch junk args g q ntz l ps dty dl D Hl Hlhs Hnt Hk Hhw Hsch Hdef.
  eapply exact_call; eauto.
  - intros p X. exfalso. destruct g; discriminate X.
  - intros n Hn o.
    destruct (C11_rayleigh (idx_of fe) fuel q ntz g l (start_delay dty dl n) o (repeat 0 (Z.to_nat ntz)) (Hdef n Hn)
                (repeat_length _ _) Hl) as (out & e & Es & Lo & Hv).
    exists out, e. split; [exact Es|]. split; [|split; [exact Lo|]].
    + rewrite sir_R in Es by (auto using lvl_no_bail, repeat_length; apply Hdef; exact Hn). injection Es as _ <-.
      unfold rec_status. destruct (forallb _ _); [discriminate|]. destruct Hl as [-> | ->]; discriminate.
    + intros k Hk'. rewrite (Hv k Hk'), old_zeros by exact Hk'. fold o. ring.
Qed.
Print Assumptions C44_single.

(** ... with level 'stop', if every source point arrives inside the record. *)
Theorem C44_single_stop : forall fuel c2r fe f nlhs hw env sch junk args g q ntz ps dty dl,
  documented fe f args (emb_geom g) (emb_samp q ntz) (Some 0 : EN) lvl_stop (Z.of_nat (length ps)) (exact (coords ps)) dty (exact dl) ->
  (0 <= nlhs <= 2)%Z -> (0 <= ntz)%Z -> keeps_length c2r -> (0 <= hw)%Z ->
  runs_to_end hw env (Z.of_nat (length ps)) sch ->
  (forall n, (n < length ps)%nat -> defined (idx_of fe) fuel q ntz g (start_delay dty dl n) (nth n ps origin) /\
     forall s, In s (sources q g) -> (0 <= arrives_at q (start_delay dty dl n) (nth n ps origin) s < ntz)%Z) ->
  exists H w e,
    gateway fuel c2r fe f nlhs hw env sch junk args = Ok (Some (Returned H ntz (Z.of_nat (length ps)) w e)) /\
    matrix_is H (Z.to_nat ntz) (length ps)
      (fun n k => rayleigh q 1 (start_delay dty dl n) (nth n ps origin) (sources q g) (Z.of_nat k)).
Proof.
  intros fuel c2r fe f nlhs hw env sch junk args g q ntz ps dty dl D Hlhs Hnt Hk Hhw Hsch Hdef.
  eapply exact_call; eauto.
  - intros p X. exfalso. destruct g; discriminate X.
  - intros n Hn o. destruct (Hdef n Hn) as [Hd Hin].
    destruct (C11_rayleigh_stop (idx_of fe) fuel q ntz g lvl_stop (start_delay dty dl n) o (repeat 0 (Z.to_nat ntz)) Hd
                (repeat_length _ _) (or_introl eq_refl) Hin) as (out & Es & Lo & Hv).
    exists out, err_none. split; [exact Es|]. split; [discriminate|]. split; [exact Lo|].
    intros k Hk'. rewrite (Hv k Hk'), old_zeros by exact Hk'. fold o. ring.
Qed.
Print Assumptions C44_single_stop.

(** C44, arrays of rectangular, circular and cylindrical elements: the
    superposition of the delayed and weighted element responses. *)
Theorem C44_array : forall fuel c2r fe f nlhs hw env sch junk args g A p T q ntz l ps dty dl,
  documented fe f args T (emb_samp q ntz) (Some 0 : EN) l (Z.of_nat (length ps)) (exact (coords ps)) dty (exact dl) ->
  array_of g p = Some T -> names p A ->
  l = lvl_ignore \/ l = lvl_warn -> (0 <= nlhs <= 2)%Z -> (0 <= ntz)%Z -> keeps_length c2r -> (0 <= hw)%Z ->
  runs_to_end hw env (Z.of_nat (length ps)) sch ->
  (forall n, (n < length ps)%nat -> arr_defined (idx_of fe) fuel q ntz g A (start_delay dty dl n) (nth n ps origin)) ->
  exists H w e,
    gateway fuel c2r fe f nlhs hw env sch junk args = Ok (Some (Returned H ntz (Z.of_nat (length ps)) w e)) /\
    matrix_is H (Z.to_nat ntz) (length ps)
      (fun n k => superposition q A g (start_delay dty dl n) (nth n ps origin) (Z.of_nat k)).
Proof.
  intros fuel c2r fe f nlhs hw env sch junk args g A p T q ntz l ps dty dl D HT HA Hl Hlhs Hnt Hk Hhw Hsch Hdef.
  assert (S : array_shape g) by (destruct g; try discriminate HT; exact I).
  eapply exact_call; eauto.
  - intros p' ->. exfalso. destruct g; discriminate HT.
  - intros n Hn o.
    pose proof (names_serial (idx_of fe) fuel g p A T q ntz l (start_delay dty dl n) o (repeat 0 (Z.to_nat ntz)) HA HT) as EN1.
    destruct (C17_superposition (idx_of fe) fuel q ntz g A l (start_delay dty dl n) o (repeat 0 (Z.to_nat ntz)) S (Hdef n Hn)
                (repeat_length _ _) Hl) as (out & e & Es & Lo & Hv).
    rewrite EN1 in Es. injection Es as Es.
    exists out, e. split; [exact Es|]. split; [|split; [exact Lo|]].
    + rewrite sir_arr_R in EN1 by (auto using shape_weighted, lvl_no_bail, repeat_length; apply Hdef; exact Hn).
      rewrite Es in EN1. injection EN1 as _ <-. unfold arr_status, rec_status.
      destruct (forallb _ _); [discriminate|]. destruct Hl as [-> | ->]; discriminate.
    + intros k Hk'. rewrite (Hv k Hk'), nth_repeat. fold o. ring.
Qed.
Print Assumptions C44_array.

(** ** Non-vacuity: a 2 mm x 1 mm rectangle seen from 5 mm, in every front end. *)
Lemma trunc_IZR z : Ztruncr (IZR z) = z.
Proof.
  unfold Ztruncr. assert (F : forall m, Zfloor (IZR m) = m) by (intros m; apply Zfloor_unique; lra).
  destruct (Rle_dec 0 (IZR z)); [apply F|]. rewrite <- opp_IZR, F. lia.
Qed.
Lemma row_vec fe (d : list (option R)) : @vec EN fe d (@VNum EN Full 1 (Z.of_nat (length d)) d).
Proof. exists Full, 1%Z, (Z.of_nat (length d)). split; [reflexivity|]. split; [left; reflexivity|]. left. auto. Qed.
Definition erow (d : list R) : value EN := @VNum EN Full 1 (Z.of_nat (length (exact d))) (exact d).
Definition ex_call : list (value EN) :=
  [@VNum EN Full 1 3 (exact (coords [exo])); erow [2; 1]; erow [1; 1; 1; 10]; erow [0]; erow [1; 1000; 0]; VStr "ignore"].
Example C44_nonvacuous : forall fe,
  documented fe FRect ex_call (emb_geom (GRect 2 1)) (emb_samp exq 10) (Some 0 : EN) lvl_ignore 1 (exact (coords [exo]))
    delay_single (exact [0]) /\
  runs_to_end 1 None 1 (round_robin 4 1) /\
  defined (idx_of fe) 10 exq 10 (GRect 2 1) 0 exo.
Proof.
  intros fe. split; [|split].
  - apply (@doc_single EN fe FRect (exact [2; 1]) (emb_geom (GRect 2 1)) (emb_samp exq 10) (Some 0) lvl_ignore 1
             (exact (coords [exo])) delay_single (exact [0]) _ _ _ _ _ [VStr "ignore"]).
    + reflexivity.
    + exists Full. split; [reflexivity|]. split; [left; reflexivity|]. split; [lia|reflexivity].
    + apply row_vec.
    + exists (Some 10). split; [apply row_vec|]. change (ntrunc (n:=EN) (Some 10)) with (Some (Ztruncr (IZR 10))).
      rewrite trunc_IZR. destruct fe; reflexivity.
    + left. exists (Some 0). split; [apply row_vec|auto].
    + apply row_vec.
    + left. exists "ignore". cbn. auto.
  - constructor.
    + intros H. cbn in H. repeat destruct H as [H|H]; try discriminate H; exact H.
    + change (num_threads 1 None 1) with 1%Z. intros i Hi. assert (i = 0)%Z by lia. subst i. cbn. lia.
  - apply (proj1 (ex_defined (idx_of fe))).
Qed.
Example C44_result : forall fe junk, exists H w e,
  gateway 10 (map fst) fe FRect 1 1 None (round_robin 4 1) junk ex_call = Ok (Some (Returned H 10 1 w e)) /\
  matrix_is H 10 1 (fun _ k => rayleigh exq 1 0 exo (sources exq (GRect 2 1)) (Z.of_nat k)).
Proof.
  intros fe junk. destruct (C44_nonvacuous fe) as (D & Rn & Df).
  destruct (C44_single 10 (map fst) fe FRect 1 1 None (round_robin 4 1) junk ex_call (GRect 2 1) exq 10 lvl_ignore [exo] delay_single [0])
    as (H & w & e & E & HM); auto; try lia.
  - intros xc. apply map_length.
  - intros n Hn. cbn in Hn. destruct n; [exact Df|lia].
  - exists H, w, e. split; [exact E|]. destruct HM as [HL HM]. split; [exact HL|]. intros n k Hn Hk.
    assert (n = 0)%nat by lia. subst n. exact (HM O k Hn Hk).
Qed.

(** ... and the two-element array of C17_ex, focused along x, Gaussian window,
    in Octave and MATLAB. *)
Definition ex_arr_call : list (value EN) :=
  [@VNum EN Full 1 3 (exact (coords [exo])); erow [2; 1];
   @VNum EN Full 2 3 (exact (coords (ar_pos (exA (FX 5) SNone (AGauss 1))))); erow [1; 1; 1; 10]; erow [0]; erow [1; 1000; 0];
   VStr "x"; erow [5]; VStr "off"; erow [0; 0]; VStr "gauss"; erow []; erow [1]; VStr "ignore"].
Example C44_array_nonvacuous : forall fe, fe = Octave \/ fe = Matlab ->
  exists p T,
  documented fe FArrRect ex_arr_call T (emb_samp exq 10) (Some 0 : EN) lvl_ignore 1 (exact (coords [exo]))
    delay_single (exact [0]) /\
  array_of (GRect 2 1) p = Some T /\ names p (exA (FX 5) SNone (AGauss 1)) /\
  arr_defined (idx_of fe) 10 exq 10 (GRect 2 1) (exA (FX 5) SNone (AGauss 1)) 0 exo.
Proof.
  intros fe Hfe.
  set (p := @Build_arr_par EN 2 (exact (coords (ar_pos (exA (FX 5) SNone (AGauss 1))))) foc_x [Some 5; Some 0] steer_none
              (Some 0) (Some 0) true apod_gauss [Some 0; Some 0] (Some 1)).
  exists p, (@TArrRect EN (Some 2) (Some 1) p). split; [|split; [reflexivity|split]].
  - apply (@doc_array EN fe FArrRect (exact [2; 1]) p (Some 1) _ (emb_samp exq 10) (Some 0) lvl_ignore 1
             (exact (coords [exo])) delay_single (exact [0]) _ _ _ _ _ _ _ _ _ _ _ _ _ [VStr "ignore"]).
    + reflexivity.
    + cbn. lia.
    + destruct Hfe as [-> | ->]; reflexivity.
    + exists Full. split; [reflexivity|]. split; [left; reflexivity|]. split; [lia|reflexivity].
    + apply row_vec.
    + exists Full. split; [reflexivity|]. split; [left; reflexivity|]. split; [cbn; lia|reflexivity].
    + exists (Some 10). split; [apply row_vec|]. change (ntrunc (n:=EN) (Some 10)) with (Some (Ztruncr (IZR 10))).
      rewrite trunc_IZR. destruct fe; reflexivity.
    + left. exists (Some 0). split; [apply row_vec|auto].
    + apply row_vec.
    + left. exists "x", (Some 5). split; [reflexivity|]. split; [cbn; auto|]. split; [discriminate|].
      split; [apply row_vec|reflexivity].
    + exists "off". split; [reflexivity|]. split; [cbn; auto|apply row_vec].
    + split; [apply row_vec|]. right. left. exists "gauss". split; [reflexivity|]. split; [left; reflexivity|].
      split; [reflexivity|]. split; [cbn; auto|]. split; [discriminate|reflexivity].
    + left. exists "ignore". cbn. auto.
  - repeat split.
  - apply C17_ex.
Qed.
