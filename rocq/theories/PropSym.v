(** PropSym.v - symmetries of array responses, end to end: mirror images (C119),
    exchange of the axes (C120), start delay (C121). *)
From Coq Require Import Reals List ZArith Lra Lia Permutation.
From Verif Require Import Base BaseLemmas ModelSir ModelArr ModelSmp NumR SpecSmp SpecSir SpecRayleigh SpecArr
  ModelGw SpecGw SpecGwR ProofsR ProofsRayleigh ProofsSirR PropSir PropArr PropGwR SpecPhys ProofsPhys PropPhys SpecPhysA PropPhys3 SpecSym.
Import ListNotations.
Open Scope R_scope.

Definition flip (ax : axis) : source -> source := match ax with Along_x => flip_x | Along_y => flip_y end.
Lemma dist_flip ax o s : dist (mirror ax o) s = dist o (flip ax s).
Proof. destruct ax; [apply dist_flip_x|apply dist_flip_y]. Qed.
Lemma ds_flip ax s : s_ds (flip ax s) = s_ds s.
Proof. destruct ax; reflexivity. Qed.
Lemma tau_flip ax s : s_tau (flip ax s) = s_tau s.
Proof. destruct ax; reflexivity. Qed.
Lemma sources_flip ax q g : par_ok q -> geom_ok q g -> whole ax q g -> Permutation (map (flip ax) (sources q g)) (sources q g).
Proof. destruct ax; cbn [whole flip]; intros; [now apply sources_flip_x|now apply sources_flip_y]. Qed.
Lemma rayleigh_mirror ax q w d o g k : par_ok q -> geom_ok q g -> whole ax q g ->
  rayleigh q w d (mirror ax o) (sources q g) k = rayleigh q w d o (sources q g) k.
Proof.
  intros Hp Hg Hw. rewrite (rayleigh_flip (flip ax) q w d o (mirror ax o)) by auto using dist_flip, ds_flip, tau_flip.
  apply rayleigh_perm. now apply sources_flip.
Qed.
Lemma defined_mirror ax K fuel q ntz g d o : whole ax q g -> defined K fuel q ntz g d o -> defined K fuel q ntz g d (mirror ax o).
Proof.
  intros Hw D. pose proof D as [].
  apply (mirror_sir (flip ax) K fuel q g d o (mirror ax o) lvl_ignore ntz (repeat 0 (Z.to_nat ntz))); auto using dist_flip, ds_flip, tau_flip, lvl_no_bail, repeat_length, sources_flip.
Qed.

(** Arrays. *)
Lemma nth_mirror ax ps n : (n < length ps)%nat -> nth n (map (mirror ax) ps) origin = mirror ax (nth n ps origin).
Proof. intros Hn. rewrite (nth_indep _ origin (mirror ax origin)) by (rewrite map_length; exact Hn). apply map_nth. Qed.
Lemma elem_mirror ax A n : (n < length (ar_pos A))%nat -> elem (mirror_array ax A) n = mirror ax (elem A n).
Proof.
  intros Hn. unfold elem. cbn [mirror_array ar_pos].
  rewrite (nth_indep _ _ (mirror ax {| p_x := 0; p_y := 0; p_z := 0 |})) by (rewrite map_length; exact Hn). apply map_nth.
Qed.
Lemma rel_mirror ax o e : rel (mirror ax o) (mirror ax e) = mirror ax (rel o e).
Proof. destruct ax; unfold rel, mirror, mirror_x, mirror_y; cbn; f_equal; ring. Qed.
Lemma maxabs_ext l l' : map Rabs l = map Rabs l' -> maxabs l = maxabs l'.
Proof. unfold maxabs. now intros ->. Qed.
Lemma extx_mirror ax A : extx (mirror_array ax A) = extx A.
Proof.
  unfold extx. apply maxabs_ext. cbn [mirror_array ar_pos]. rewrite !map_map. apply map_ext. intros o.
  destruct ax; cbn; [apply Rabs_Ropp|reflexivity].
Qed.
Lemma exty_mirror ax A : exty (mirror_array ax A) = exty A.
Proof.
  unfold exty. apply maxabs_ext. cbn [mirror_array ar_pos]. rewrite !map_map. apply map_ext. intros o.
  destruct ax; cbn; [reflexivity|apply Rabs_Ropp].
Qed.
Lemma extr_mirror ax A : extr (mirror_array ax A) = extr A.
Proof. unfold extr. now rewrite extx_mirror, exty_mirror. Qed.
Lemma sqx_mirror ax o : p_x (mirror ax o) ^ 2 = p_x o ^ 2.
Proof. destruct ax; cbn; ring. Qed.
Lemma sqy_mirror ax o : p_y (mirror ax o) ^ 2 = p_y o ^ 2.
Proof. destruct ax; cbn; ring. Qed.
Lemma weight_mirror ax A n : (n < length (ar_pos A))%nat -> weight (mirror_array ax A) n = weight A n.
Proof. intros Hn. unfold weight, rel_radius. rewrite elem_mirror, extr_mirror, sqx_mirror, sqy_mirror by exact Hn. reflexivity. Qed.
Lemma focus_mirror ax cp A n : (n < length (ar_pos A))%nat -> focus_delay cp (mirror_array ax A) n = focus_delay cp A n.
Proof.
  intros Hn. unfold focus_delay. rewrite elem_mirror by exact Hn. cbv zeta.
  rewrite extr_mirror, extx_mirror, exty_mirror, sqx_mirror, sqy_mirror. reflexivity.
Qed.
Lemma sin_rad_opp a : sin (rad (- a)) = - sin (rad a).
Proof. unfold rad. rewrite <- sin_neg. f_equal. ring. Qed.
Lemma steer_mirror ax cp A n : (n < length (ar_pos A))%nat -> cp <> 0 ->
  steer_delay cp (mirror_array ax A) n = steer_delay cp A n - tilt ax cp A.
Proof.
  intros Hn Hc. unfold steer_delay, tilt. rewrite elem_mirror, extx_mirror, exty_mirror by exact Hn. cbv zeta.
  cbn [mirror_array ar_steer]. destruct (ar_steer A), ax; cbn [mirror_steer mirror mirror_x mirror_y p_x p_y]; rewrite ?sin_rad_opp; field; exact Hc.
Qed.
Lemma delay_mirror ax q A d d' n : (n < length (ar_pos A))%nat -> p_cp q <> 0 -> d' = d - tilt ax (p_cp q) A ->
  elem_delay q (mirror_array ax A) d' n = elem_delay q A d n.
Proof. intros Hn Hc ->. unfold elem_delay. rewrite focus_mirror, steer_mirror by auto. ring. Qed.

Lemma superposition_mirror ax q A g d d' o k : par_ok q -> geom_ok q g -> whole ax q g -> d' = d - tilt ax (p_cp q) A ->
  superposition q (mirror_array ax A) g d' (mirror ax o) k = superposition q A g d o k.
Proof.
  intros Hp Hg Hw Hd. unfold superposition. cbn [mirror_array ar_pos]. rewrite map_length. apply Rsum_ext. intros i Hi. apply in_seq in Hi.
  change ({| ar_pos := map (mirror ax) (ar_pos A); ar_focus := _; ar_steer := _; ar_apo := _ |}) with (mirror_array ax A).
  destruct Hp as (P1 & P2 & P3 & P4).
  rewrite weight_mirror, (delay_mirror ax q A d d'), elem_mirror, rel_mirror by (auto; lia).
  apply rayleigh_mirror; auto. now repeat split.
Qed.
Lemma arr_defined_mirror ax K fuel q ntz g A d d' o : whole ax q g -> d' = d - tilt ax (p_cp q) A ->
  arr_defined K fuel q ntz g A d o -> arr_defined K fuel q ntz g (mirror_array ax A) d' (mirror ax o).
Proof.
  intros Hw Hd [[H1 H2 H3] He].
  assert (Hc : p_cp q <> 0) by (destruct (He O H1) as [(_ & _ & _ & H) _ _ _ _ _]; exact H).
  constructor.
  - constructor; cbn [mirror_array ar_pos ar_focus ar_apo]; rewrite ?map_length; auto.
    pose proof (extr_mirror ax A) as ER. revert ER H3. unfold mirror_array. destruct (ar_apo A); intros ER H3; auto; rewrite ER; exact H3.
  - intros n Hn. cbn [mirror_array ar_pos] in Hn. rewrite map_length in Hn.
    rewrite (delay_mirror ax q A d d'), elem_mirror, rel_mirror by auto. apply defined_mirror; auto.
Qed.

(** C119, single elements: the response at the mirrored points. *)
Theorem C119_mirror_single : forall ax fuel c2r fe f nlhs hw env sch junk args c2r' f' nlhs' hw' env' sch' junk' args' g q ntz ps dty dl,
  whole ax q g ->
  exact_call c2r fe f nlhs hw env sch args g q ntz ps dty dl -> all_defined fe fuel q ntz g ps dty dl ->
  exact_call c2r' fe f' nlhs' hw' env' sch' args' g q ntz (map (mirror ax) ps) dty dl ->
  exists V V', returns (gateway fuel c2r fe f nlhs hw env sch junk args) ntz (length ps) V /\
    returns (gateway fuel c2r' fe f' nlhs' hw' env' sch' junk' args') ntz (length ps) V' /\
    forall n k, (n < length ps)%nat -> (k < Z.to_nat ntz)%nat -> V' n k = V n k.
Proof.
  intros ax fuel c2r fe f nlhs hw env sch junk args c2r' f' nlhs' hw' env' sch' junk' args' g q ntz ps dty dl Hw HC HD HC'.
  do 2 eexists. split; [eapply call_returns; eassumption|]. split.
  - rewrite <- (map_length (mirror ax)). eapply call_returns; [eassumption|].
    intros n Hn. rewrite map_length in Hn. rewrite nth_mirror by exact Hn. apply defined_mirror; auto.
  - cbv beta. intros n k Hn Hk. rewrite nth_mirror by exact Hn. destruct (HD n Hn) as [Hp Hg _ _ _ _]. now apply rayleigh_mirror.
Qed.
Print Assumptions C119_mirror_single.

(** C119, arrays: the mirrored array has the mirrored field. Start delays: the
    same, less the tilt of a steered array. *)
Theorem C119_mirrored_array : forall ax fuel c2r fe f nlhs hw env sch junk args c2r' f' nlhs' hw' env' sch' junk' args' g A q ntz ps dty dl dty' dl',
  whole ax q g -> (forall n, (n < length ps)%nat -> start_delay dty' dl' n = start_delay dty dl n - tilt ax (p_cp q) A) ->
  exact_array_call c2r fe f nlhs hw env sch args g A q ntz ps dty dl -> all_arr_defined fe fuel q ntz g A ps dty dl ->
  exact_array_call c2r' fe f' nlhs' hw' env' sch' args' g (mirror_array ax A) q ntz (map (mirror ax) ps) dty' dl' ->
  exists V V', returns (gateway fuel c2r fe f nlhs hw env sch junk args) ntz (length ps) V /\
    returns (gateway fuel c2r' fe f' nlhs' hw' env' sch' junk' args') ntz (length ps) V' /\
    forall n k, (n < length ps)%nat -> (k < Z.to_nat ntz)%nat -> V' n k = V n k.
Proof.
  intros ax fuel c2r fe f nlhs hw env sch junk args c2r' f' nlhs' hw' env' sch' junk' args' g A q ntz ps dty dl dty' dl' Hw Hdl HC HD HC'.
  do 2 eexists. split; [apply array_call_returns; eassumption|]. split.
  - rewrite <- (map_length (mirror ax)). apply array_call_returns; [eassumption|].
    intros n Hn. rewrite map_length in Hn. rewrite nth_mirror by exact Hn. eapply arr_defined_mirror; eauto.
  - cbv beta. intros n k Hn Hk. rewrite nth_mirror by exact Hn. destruct (HD n Hn) as [[HO _ _] He].
    destruct (He O HO) as [Hp Hg _ _ _ _]. apply superposition_mirror; auto.
Qed.
Print Assumptions C119_mirrored_array.

(** C119, symmetric arrays: an array that is its own mirror image (up to the
    order of the elements; each element's own delay and weight those of its
    mirror image) has a symmetric field. *)
Lemma unsteered_tilt ax cp A : unsteered ax A -> tilt ax cp A = 0.
Proof. unfold unsteered, tilt. destruct ax, (ar_steer A); tauto. Qed.
Theorem C119_symmetric_array : forall ax idx fuel c2r fe f nlhs hw env sch junk args c2r' f' nlhs' hw' env' sch' junk' args' g A q ntz ps dty dl,
  whole ax q g -> unsteered ax A -> Permutation idx (seq 0 (length (ar_pos A))) -> mirror_array ax A = reorder idx A ->
  exact_array_call c2r fe f nlhs hw env sch args g A q ntz ps dty dl -> all_arr_defined fe fuel q ntz g A ps dty dl ->
  exact_array_call c2r' fe f' nlhs' hw' env' sch' args' g A q ntz (map (mirror ax) ps) dty dl ->
  exists V V', returns (gateway fuel c2r fe f nlhs hw env sch junk args) ntz (length ps) V /\
    returns (gateway fuel c2r' fe f' nlhs' hw' env' sch' junk' args') ntz (length ps) V' /\
    forall n k, (n < length ps)%nat -> (k < Z.to_nat ntz)%nat -> V' n k = V n k.
Proof.
  intros ax idx fuel c2r fe f nlhs hw env sch junk args c2r' f' nlhs' hw' env' sch' junk' args' g A q ntz ps dty dl Hw Hu HP HS HC HD HC'.
  assert (MM : forall o, mirror ax (mirror ax o) = o) by (intros [x y z]; destruct ax; unfold mirror, mirror_x, mirror_y; cbn; now rewrite Ropp_involutive).
  assert (Key : forall n k, (n < length ps)%nat -> superposition q A g (start_delay dty dl n) (mirror ax (nth n ps origin)) k =
                            superposition q A g (start_delay dty dl n) (nth n ps origin) k).
  { intros n k Hn. destruct (HD n Hn) as [[HO _ _] He]. destruct (He O HO) as [Hp Hg _ _ _ _].
    rewrite <- (superposition_re idx A HP). rewrite <- HS.
    apply superposition_mirror; auto. rewrite unsteered_tilt by exact Hu. ring. }
  do 2 eexists. split; [apply array_call_returns; eassumption|]. split.
  - rewrite <- (map_length (mirror ax)). apply array_call_returns; [eassumption|].
    intros n Hn. rewrite map_length in Hn. rewrite nth_mirror by exact Hn.
    assert (D : arr_defined (idx_of fe) fuel q ntz g (mirror_array ax A) (start_delay dty dl n) (mirror ax (nth n ps origin))).
    { eapply arr_defined_mirror; eauto. rewrite unsteered_tilt by exact Hu. ring. }
    (* the elements of A are those of its mirror image *)
    destruct (HD n Hn) as [Hok _]. destruct D as [_ De]. constructor; [exact Hok|].
    intros i Hi. assert (Hin : In i idx) by (apply (Permutation_in _ (Permutation_sym HP)); apply in_seq; lia).
    destruct (In_nth idx i O Hin) as (j & Hj & Ej).
    assert (Lm : (j < length (ar_pos (mirror_array ax A)))%nat).
    { cbn [mirror_array ar_pos]. rewrite map_length. rewrite (Permutation_length HP), seq_length in Hj. exact Hj. }
    specialize (De j Lm). rewrite HS in De.
    replace (elem_delay q A (start_delay dty dl n) i) with (elem_delay q (reorder idx A) (start_delay dty dl n) j).
    + replace (elem A i) with (elem (reorder idx A) j); [exact De|]. rewrite PropPhys3.elem_re by auto. now rewrite Ej.
    + rewrite PropPhys3.delay_re by auto. now rewrite Ej.
  - cbv beta. intros n k Hn Hk. rewrite nth_mirror by exact Hn. now apply Key.
Qed.
Print Assumptions C119_symmetric_array.

(** ** Exchange of the axes *)
Definition swap_source (s : source) : source := {| s_x := s_y s; s_y := s_x s; s_z := s_z s; s_ds := s_ds s; s_tau := s_tau s |}.
Lemma dist_swap o s : dist (swap o) (swap_source s) = dist o s.
Proof. unfold dist. cbn. f_equal. ring. Qed.
Lemma flat_map_nil {A B} (l : list A) : flat_map (fun _ => @nil B) l = [].
Proof. induction l; auto. Qed.
Lemma flat_map_cons {A B} (f : A -> B) (g : A -> list B) l :
  Permutation (flat_map (fun a => f a :: g a) l) (map f l ++ flat_map g l).
Proof.
  induction l as [|a l IH]; [reflexivity|]. cbn [flat_map map app]. constructor.
  rewrite IH. rewrite !app_assoc. apply Permutation_app_tail, Permutation_app_comm.
Qed.
Lemma product_swap {A B C} (F : A -> B -> C) X Y :
  Permutation (flat_map (fun y => map (fun x => F x y) X) Y) (flat_map (fun x => map (F x) Y) X).
Proof.
  induction X as [|x X IH]; cbn [map flat_map]; [now rewrite flat_map_nil|].
  rewrite flat_map_cons. now apply Permutation_app_head.
Qed.
Lemma focus_tau_swap cp f F X Y RR RR' x y : RR = RR' ->
  focus_tau cp (swap_method f) F Y X RR y x = focus_tau cp f F X Y RR' x y.
Proof.
  intros ->. unfold focus_tau. f_equal. destruct f; cbn [swap_method]; try reflexivity.
  - f_equal. f_equal. ring.
  - f_equal. ring.
Qed.
Lemma map_flat_map' {A B C} (f : B -> C) (g : A -> list B) l : map f (flat_map g l) = flat_map (fun a => map f (g a)) l.
Proof. induction l as [|a l IH]; auto. cbn [flat_map]. now rewrite map_app, IH. Qed.
Lemma sources_swap q g g' : swap_geom g = Some g' -> Permutation (map swap_source (sources q g)) (sources (swap_par q) g').
Proof.
  intros E. destruct g; try discriminate E; injection E as <-; cbn [sources swap_par p_dx p_dy p_cp]; unfold rect_xy; cbn [p_dx p_dy swap_par].
  all: rewrite !map_flat_map'.
  all: set (X := midpoints (- a / 2) (a / 2) (p_dx q)); set (Y := midpoints (- b / 2) (b / 2) (p_dy q)).
  - rewrite (flat_map_ext _ (fun y => map (fun x => flat (p_dy q * p_dx q) y x) X)).
    + rewrite (product_swap (fun x y => flat (p_dy q * p_dx q) y x)). apply flat_map_perm. intros x _. rewrite map_map. reflexivity.
    + intros y. rewrite !map_map. apply map_ext. intros x. unfold swap_source, flat. cbn. f_equal. ring.
  - rewrite (flat_map_ext _ (fun y => map (fun x => {| s_x := y; s_y := x; s_z := 0; s_ds := p_dy q * p_dx q;
        s_tau := focus_tau (p_cp q) (swap_method f) F b a (b^2 + a^2) y x |}) X)).
    + rewrite (product_swap (fun x y => {| s_x := y; s_y := x; s_z := 0; s_ds := p_dy q * p_dx q;
        s_tau := focus_tau (p_cp q) (swap_method f) F b a (b^2 + a^2) y x |})).
      apply flat_map_perm. intros x _. rewrite map_map. reflexivity.
    + intros y. rewrite !map_map. apply map_ext. intros x. unfold swap_source. cbn [s_x s_y s_z s_ds s_tau]. f_equal; [ring|].
      symmetry. apply focus_tau_swap. ring.
Qed.
Lemma rayleigh_swap q w d o g g' k : swap_geom g = Some g' ->
  rayleigh (swap_par q) w d (swap o) (sources (swap_par q) g') k = rayleigh q w d o (sources q g) k.
Proof.
  intros E. rewrite <- (rayleigh_perm _ _ _ _ _ _ _ (sources_swap q g g' E)). unfold rayleigh. rewrite map_map. f_equal. apply map_ext.
  intros s. unfold arrives_at, arrival, strength. rewrite dist_swap. reflexivity.
Qed.
Lemma defined_swap K fuel q ntz g g' d o : swap_geom g = Some g' ->
  defined K fuel q ntz g d o -> defined K fuel (swap_par q) ntz g' d (swap o).
Proof.
  intros E [D1 D2 D3 D4 D5 D6]. pose proof (sources_swap q g g' E) as HP.
  assert (Hin : forall s, In s (sources (swap_par q) g') -> exists t, s = swap_source t /\ In t (sources q g)).
  { intros s Hs. apply (Permutation_in _ (Permutation_sym HP)) in Hs. apply in_map_iff in Hs as (t & Et & Ht). eauto. }
  constructor.
  - destruct D1 as (? & ? & ? & ?). now repeat split.
  - destruct g; try discriminate E; injection E as <-; exact I.
  - intros s Hs. destruct (Hin s Hs) as (t & -> & Ht). rewrite dist_swap. auto.
  - intros s Hs. destruct (Hin s Hs) as (t & -> & Ht). specialize (D4 t Ht).
    replace (arrives_at (swap_par q) d (swap o) (swap_source t)) with (arrives_at q d o t); [exact D4|].
    unfold arrives_at, arrival. rewrite dist_swap. reflexivity.
  - destruct g; try discriminate E; injection E as <-; cbn [enough swap_par p_dx p_dy] in *; tauto.
  - exact D6.
Qed.
Lemma nth_swap ps n : (n < length ps)%nat -> nth n (map swap ps) origin = swap (nth n ps origin).
Proof. intros Hn. rewrite (nth_indep _ origin (swap origin)) by (rewrite map_length; exact Hn). apply map_nth. Qed.

(** C120, single elements. *)
Theorem C120_axes_single : forall fuel c2r fe f nlhs hw env sch junk args c2r' f' nlhs' hw' env' sch' junk' args' g g' q ntz ps dty dl,
  swap_geom g = Some g' ->
  exact_call c2r fe f nlhs hw env sch args g q ntz ps dty dl -> all_defined fe fuel q ntz g ps dty dl ->
  exact_call c2r' fe f' nlhs' hw' env' sch' args' g' (swap_par q) ntz (map swap ps) dty dl ->
  exists V V', returns (gateway fuel c2r fe f nlhs hw env sch junk args) ntz (length ps) V /\
    returns (gateway fuel c2r' fe f' nlhs' hw' env' sch' junk' args') ntz (length ps) V' /\
    forall n k, (n < length ps)%nat -> (k < Z.to_nat ntz)%nat -> V' n k = V n k.
Proof.
  intros fuel c2r fe f nlhs hw env sch junk args c2r' f' nlhs' hw' env' sch' junk' args' g g' q ntz ps dty dl E HC HD HC'.
  do 2 eexists. split; [eapply call_returns; eassumption|]. split.
  - rewrite <- (map_length swap). eapply call_returns; [eassumption|].
    intros n Hn. rewrite map_length in Hn. rewrite nth_swap by exact Hn. eapply defined_swap; eauto.
  - cbv beta. intros n k Hn Hk. rewrite nth_swap by exact Hn. now apply rayleigh_swap.
Qed.
Print Assumptions C120_axes_single.

Lemma elem_swap A n : (n < length (ar_pos A))%nat -> elem (swap_array A) n = swap (elem A n).
Proof.
  intros Hn. unfold elem. cbn [swap_array ar_pos].
  rewrite (nth_indep _ _ (swap {| p_x := 0; p_y := 0; p_z := 0 |})) by (rewrite map_length; exact Hn). apply map_nth.
Qed.
Lemma rel_swap o e : rel (swap o) (swap e) = swap (rel o e).
Proof. reflexivity. Qed.
Lemma extx_swap A : extx (swap_array A) = exty A.
Proof. unfold extx, exty. cbn [swap_array ar_pos]. now rewrite map_map. Qed.
Lemma exty_swap A : exty (swap_array A) = extx A.
Proof. unfold extx, exty. cbn [swap_array ar_pos]. now rewrite map_map. Qed.
Lemma extr_swap A : extr (swap_array A) = extr A.
Proof. unfold extr. rewrite extx_swap, exty_swap. f_equal. ring. Qed.
Lemma weight_swap A n : (n < length (ar_pos A))%nat -> weight (swap_array A) n = weight A n.
Proof.
  intros Hn. unfold weight, rel_radius. rewrite elem_swap, extr_swap by exact Hn. cbn [swap swap_array ar_apo p_x p_y].
  f_equal. f_equal. f_equal. ring.
Qed.
Lemma delay_swap q A d n : (n < length (ar_pos A))%nat -> elem_delay (swap_par q) (swap_array A) d n = elem_delay q A d n.
Proof.
  intros Hn. unfold elem_delay. change (p_cp (swap_par q)) with (p_cp q).
  assert (E1 : focus_delay (p_cp q) (swap_array A) n = focus_delay (p_cp q) A n).
  { unfold focus_delay. rewrite elem_swap by exact Hn. cbv zeta. rewrite extr_swap, extx_swap, exty_swap.
    cbn [swap_array ar_focus swap p_x p_y]. destruct (ar_focus A); try reflexivity.
    - f_equal. f_equal. f_equal. ring.
    - f_equal. f_equal. ring. }
  assert (E2 : steer_delay (p_cp q) (swap_array A) n = steer_delay (p_cp q) A n).
  { unfold steer_delay. rewrite elem_swap by exact Hn. cbv zeta. rewrite extx_swap, exty_swap.
    cbn [swap_array ar_steer swap p_x p_y]. destruct (ar_steer A); try reflexivity. ring. }
  now rewrite E1, E2.
Qed.
(** C120, arrays of rectangular elements. *)
Theorem C120_axes_array : forall fuel c2r fe f nlhs hw env sch junk args c2r' f' nlhs' hw' env' sch' junk' args' g g' A q ntz ps dty dl,
  swap_geom g = Some g' ->
  exact_array_call c2r fe f nlhs hw env sch args g A q ntz ps dty dl -> all_arr_defined fe fuel q ntz g A ps dty dl ->
  exact_array_call c2r' fe f' nlhs' hw' env' sch' args' g' (swap_array A) (swap_par q) ntz (map swap ps) dty dl ->
  exists V V', returns (gateway fuel c2r fe f nlhs hw env sch junk args) ntz (length ps) V /\
    returns (gateway fuel c2r' fe f' nlhs' hw' env' sch' junk' args') ntz (length ps) V' /\
    forall n k, (n < length ps)%nat -> (k < Z.to_nat ntz)%nat -> V' n k = V n k.
Proof.
  intros fuel c2r fe f nlhs hw env sch junk args c2r' f' nlhs' hw' env' sch' junk' args' g g' A q ntz ps dty dl E HC HD HC'.
  do 2 eexists. split; [apply array_call_returns; eassumption|]. split.
  - rewrite <- (map_length swap). apply array_call_returns; [eassumption|].
    intros n Hn. rewrite map_length in Hn. rewrite nth_swap by exact Hn. destruct (HD n Hn) as [[H1 H2 H3] He]. constructor.
    + constructor; cbn [swap_array ar_pos ar_focus ar_apo]; rewrite ?map_length; auto.
      * destruct (ar_focus A); auto.
      * pose proof (extr_swap A) as ER. revert ER H3. unfold swap_array. destruct (ar_apo A); intros ER H3; auto; rewrite ER; exact H3.
    + intros i Hi. cbn [swap_array ar_pos] in Hi. rewrite map_length in Hi.
      rewrite delay_swap, elem_swap, rel_swap by auto. eapply defined_swap; eauto.
  - cbv beta. intros n k Hn Hk. rewrite nth_swap by exact Hn. unfold superposition. cbn [swap_array ar_pos]. rewrite map_length.
    apply Rsum_ext. intros i Hi. apply in_seq in Hi.
    match goal with |- context [weight ?X i] => change X with (swap_array A) end.
    rewrite weight_swap, delay_swap, elem_swap, rel_swap by lia. now apply rayleigh_swap.
Qed.
Print Assumptions C120_axes_array.

(** ** Start delay *)
(** C121: j more sample periods of start delay move the response of a transducer
    or an array j samples towards the beginning (j even, or no wave arriving
    exactly half way between two samples). *)
Theorem C121_shift_single_partial : forall j fuel c2r fe f nlhs hw env sch junk args c2r' f' nlhs' hw' env' sch' junk' args' g q ntz ps dty dl dty' dl',
  (forall n, (n < length ps)%nat -> start_delay dty' dl' n = start_delay dty dl n + IZR j * p_dt q) ->
  exact_call c2r fe f nlhs hw env sch args g q ntz ps dty dl -> all_defined fe fuel q ntz g ps dty dl ->
  exact_call c2r' fe f' nlhs' hw' env' sch' args' g q ntz ps dty' dl' -> all_defined fe fuel q ntz g ps dty' dl' ->
  (Z.even j = true \/ forall n s z, (n < length ps)%nat -> In s (sources q g) -> arrival q (start_delay dty dl n) (nth n ps origin) s <> IZR z + 1 / 2) ->
  exists V V', returns (gateway fuel c2r fe f nlhs hw env sch junk args) ntz (length ps) V /\
    returns (gateway fuel c2r' fe f' nlhs' hw' env' sch' junk' args') ntz (length ps) V' /\
    forall n k k', (n < length ps)%nat -> (k < Z.to_nat ntz)%nat -> (k' < Z.to_nat ntz)%nat -> Z.of_nat k' = (Z.of_nat k + j)%Z -> V' n k = V n k'.
Proof.
  intros j fuel c2r fe f nlhs hw env sch junk args c2r' f' nlhs' hw' env' sch' junk' args' g q ntz ps dty dl dty' dl' Hdl HC HD HC' HD' Hj.
  do 2 eexists. split; [eapply call_returns; eassumption|]. split; [eapply call_returns; eassumption|]. cbv beta.
  intros n k k' Hn Hk Hk' E. rewrite Hdl by exact Hn. rewrite E. destruct (HD n Hn) as [(_ & _ & Hdt & _) _ _ _ _ _].
  apply rayleigh_shift; auto. destruct Hj as [Hj|Hj]; [now left|right]. intros s z Hs. auto.
Qed.
Print Assumptions C121_shift_single_partial.
Theorem C121_shift_array_partial : forall j fuel c2r fe f nlhs hw env sch junk args c2r' f' nlhs' hw' env' sch' junk' args' g A q ntz ps dty dl dty' dl',
  (forall n, (n < length ps)%nat -> start_delay dty' dl' n = start_delay dty dl n + IZR j * p_dt q) ->
  exact_array_call c2r fe f nlhs hw env sch args g A q ntz ps dty dl -> all_arr_defined fe fuel q ntz g A ps dty dl ->
  exact_array_call c2r' fe f' nlhs' hw' env' sch' args' g A q ntz ps dty' dl' -> all_arr_defined fe fuel q ntz g A ps dty' dl' ->
  (Z.even j = true \/ forall n i s z, (n < length ps)%nat -> (i < length (ar_pos A))%nat -> In s (sources q g) ->
     arrival q (elem_delay q A (start_delay dty dl n) i) (rel (nth n ps origin) (elem A i)) s <> IZR z + 1 / 2) ->
  exists V V', returns (gateway fuel c2r fe f nlhs hw env sch junk args) ntz (length ps) V /\
    returns (gateway fuel c2r' fe f' nlhs' hw' env' sch' junk' args') ntz (length ps) V' /\
    forall n k k', (n < length ps)%nat -> (k < Z.to_nat ntz)%nat -> (k' < Z.to_nat ntz)%nat -> Z.of_nat k' = (Z.of_nat k + j)%Z -> V' n k = V n k'.
Proof.
  intros j fuel c2r fe f nlhs hw env sch junk args c2r' f' nlhs' hw' env' sch' junk' args' g A q ntz ps dty dl dty' dl' Hdl HC HD HC' HD' Hj.
  do 2 eexists. split; [eapply array_call_returns; eassumption|]. split; [eapply array_call_returns; eassumption|]. cbv beta.
  intros n k k' Hn Hk Hk' E. rewrite Hdl by exact Hn. rewrite E. destruct (HD n Hn) as [_ He].
  unfold superposition. apply Rsum_ext. intros i Hi. apply in_seq in Hi. destruct (He i ltac:(lia)) as [(_ & _ & Hdt & _) _ _ _ _ _].
  replace (elem_delay q A (start_delay dty dl n + IZR j * p_dt q) i) with (elem_delay q A (start_delay dty dl n) i + IZR j * p_dt q)
    by (unfold elem_delay; ring).
  apply rayleigh_shift; auto. destruct Hj as [Hj|Hj]; [now left|right]. intros s z Hs. apply Hj; auto. lia.
Qed.
Print Assumptions C121_shift_array_partial.
