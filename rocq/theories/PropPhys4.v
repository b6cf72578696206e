(** PropPhys4.v - physical properties, end to end: sound speed (C103), focal
    points of arrays (C104); support (C85), time integral (C87), similarity (C88)
    and record length (C89) of array responses. *)
From Coq Require Strings.String Strings.Ascii.
Import Coq.Strings.String.StringSyntax.
From Coq Require Import Reals List ZArith Lra Lia Permutation.
From Verif Require Import Base BaseLemmas ModelSir ModelArr ModelSmp NumR SpecSmp SpecSir SpecRayleigh SpecArr
  ModelGw SpecGw SpecGwR ProofsR ProofsRayleigh ProofsSirR PropSir PropArr PropGwR SpecPhys ProofsPhys PropPhys SpecPhysA PropPhys3 PropPhys3ex
  ModelMf SpecMf PropMf SpecPhysB.
Import ListNotations.
Open Scope R_scope.

(** ** C103 *)
Definition retimed (s : R) (c : source) : source :=
  {| s_x := s_x c; s_y := s_y c; s_z := s_z c; s_ds := s_ds c; s_tau := s_tau c / s |}.
Lemma tau_faster s cp f F X Y RR x y : 0 < s -> cp <> 0 -> focus_tau (s * cp) f F X Y RR x y = focus_tau cp f F X Y RR x y / s.
Proof. intros Hs Hc. unfold focus_tau. field. split; lra. Qed.
Lemma sources_faster s q g : 0 < s -> p_cp q <> 0 -> sources (faster s q) g = map (retimed s) (sources q g).
Proof.
  intros Hs Hc.
  assert (Z0 : forall x y z d, {| s_x := x; s_y := y; s_z := z; s_ds := d; s_tau := 0 |} = retimed s {| s_x := x; s_y := y; s_z := z; s_ds := d; s_tau := 0 |}).
  { intros. unfold retimed. cbn [s_x s_y s_z s_ds s_tau]. apply source_eq; auto. unfold Rdiv. ring. }
  destruct g; cbn [sources faster p_dx p_dy p_cp].
  all: unfold rect_xy, disc_xy; cbn [faster p_dx p_dy p_cp].
  all: try (rewrite map_map; apply map_ext; first [intros [x y]|intros x]; first [apply Z0|unfold retimed; cbn [s_x s_y s_z s_ds s_tau]; apply source_eq; auto; apply tau_faster; assumption]).
  rewrite flat_map_map. apply flat_map_ext_in. intros phi _. rewrite map_map. apply map_ext. intros x. apply Z0.
Qed.

Lemma arrives_faster s q delay o c : 0 < s -> p_dt q <> 0 -> p_cp q <> 0 -> arrives_at (faster s q) (delay / s) o (retimed s c) = arrives_at q delay o c.
Proof.
  intros Hs Hdt Hc. unfold arrives_at. f_equal. unfold arrival, retimed. cbn [faster p_cp p_dt s_tau].
  change (SpecRayleigh.dist o _) with (SpecRayleigh.dist o c). generalize (SpecRayleigh.dist o c). intros r. field. repeat split; lra.
Qed.
Lemma rayleigh_faster s q w delay o g k : 0 < s -> par_ok q -> off_source q g o ->
  rayleigh (faster s q) w (delay / s) o (sources (faster s q) g) k = s * rayleigh q w delay o (sources q g) k.
Proof.
  intros Hs (_ & _ & Hdt & Hc) Ho. rewrite sources_faster by auto. unfold rayleigh. rewrite map_map, <- Rsum_scal.
  apply Rsum_ext. intros c Hin. rewrite arrives_faster by auto. destruct (Z.eqb _ _); [|ring].
  unfold strength, retimed. cbn [faster p_v p_dt s_ds]. change (SpecRayleigh.dist o {| s_x := _ |}) with (SpecRayleigh.dist o c).
  specialize (Ho c Hin). pose proof PI_RGT_0. field. repeat split; lra.
Qed.
Lemma defined_faster s K fuel q ntz g delay o : 0 < s ->
  defined K fuel q ntz g delay o -> defined K fuel (faster s q) ntz g (delay / s) o.
Proof.
  intros Hs [(Hx & Hy & Hdt & Hcp) Hg Hoff Hi He Hn]. constructor; auto.
  - unfold par_ok, faster. cbn [p_dx p_dy p_dt p_cp]. repeat split; auto.
    + unfold Rdiv. apply Rmult_integral_contrapositive_currified; [exact Hdt|]. apply Rinv_neq_0_compat. lra.
    + apply Rmult_integral_contrapositive_currified; lra.
  - intros c Hc. rewrite sources_faster in Hc by auto. apply in_map_iff in Hc as (c' & <- & Hc'). exact (Hoff c' Hc').
  - intros c Hc. rewrite sources_faster in Hc by auto. apply in_map_iff in Hc as (c' & <- & Hc').
    rewrite arrives_faster by auto. exact (Hi c' Hc').
Qed.
Lemma start_map (h : R -> R) dty dl n : h 0 = 0 -> start_delay dty (map h dl) n = h (start_delay dty dl n).
Proof.
  intros H0. assert (E : forall m, nth m (map h dl) 0 = h (nth m dl 0)).
  { intros m. rewrite <- H0 at 1. apply map_nth. }
  unfold start_delay. destruct dty; apply E.
Qed.

(** C103: in a medium s times as fast, sampled s times as often, with start
    delays s times as short, every sample is s times as large. *)
Theorem C103_sound_speed : forall s fuel c2r fe f nlhs hw env sch junk args c2r' f' nlhs' hw' env' sch' junk' args' g q ntz ps dty dl,
  0 < s ->
  exact_call c2r fe f nlhs hw env sch args g q ntz ps dty dl -> all_defined fe fuel q ntz g ps dty dl ->
  exact_call c2r' fe f' nlhs' hw' env' sch' args' g (faster s q) ntz ps dty (map (fun t => t / s) dl) ->
  exists V V', returns (gateway fuel c2r fe f nlhs hw env sch junk args) ntz (length ps) V /\
    returns (gateway fuel c2r' fe f' nlhs' hw' env' sch' junk' args') ntz (length ps) V' /\
    forall n k, (n < length ps)%nat -> (k < Z.to_nat ntz)%nat -> V' n k = s * V n k.
Proof.
  intros s fuel c2r fe f nlhs hw env sch junk args c2r' f' nlhs' hw' env' sch' junk' args' g q ntz ps dty dl Hs HC HD HC'.
  assert (S0 : 0 / s = 0) by (unfold Rdiv; ring).
  do 2 eexists. split; [apply call_returns; eassumption|]. split.
  - apply call_returns; [eassumption|]. intros n Hn. rewrite (start_map (fun t => t / s)) by exact S0. apply defined_faster; auto.
  - cbv beta. intros n k Hn Hk. rewrite (start_map (fun t => t / s)) by exact S0. destruct (HD n Hn). apply rayleigh_faster; auto.
Qed.
Print Assumptions C103_sound_speed.

Lemma nth_map0 (h : R -> R) l n : h 0 = 0 -> nth n (map h l) 0 = h (nth n l 0).
Proof. intros H0. rewrite <- H0 at 1. apply map_nth. Qed.
Lemma elem_delay_faster s q A d n : 0 < s -> p_cp q <> 0 -> elem_delay (faster s q) (faster_array s A) (d / s) n = elem_delay q A d n / s.
Proof.
  intros Hs Hc. unfold elem_delay.
  assert (E1 : focus_delay (p_cp (faster s q)) (faster_array s A) n = focus_delay (p_cp q) A n / s).
  { unfold focus_delay. cbn [faster_array ar_focus faster p_cp]. 
    change (extx (faster_array s A)) with (extx A). change (exty (faster_array s A)) with (exty A). change (extr (faster_array s A)) with (extr A).
    change (elem (faster_array s A) n) with (elem A n).
    destruct (ar_focus A); try (field; lra).
    rewrite (nth_map0 (fun t => t / s)); [reflexivity|]. unfold Rdiv. ring. }
  assert (E2 : steer_delay (p_cp (faster s q)) (faster_array s A) n = steer_delay (p_cp q) A n / s).
  { unfold steer_delay. cbn [faster_array ar_steer faster p_cp]. 
    change (extx (faster_array s A)) with (extx A). change (exty (faster_array s A)) with (exty A).
    change (elem (faster_array s A) n) with (elem A n). destruct (ar_steer A); field; lra. }
  rewrite E1, E2. unfold Rdiv. ring.
Qed.
Theorem C103_sound_speed_array : forall s fuel c2r fe f nlhs hw env sch junk args c2r' f' nlhs' hw' env' sch' junk' args' g A q ntz ps dty dl,
  0 < s ->
  exact_array_call c2r fe f nlhs hw env sch args g A q ntz ps dty dl -> all_arr_defined fe fuel q ntz g A ps dty dl ->
  exact_array_call c2r' fe f' nlhs' hw' env' sch' args' g (faster_array s A) (faster s q) ntz ps dty (map (fun t => t / s) dl) ->
  exists V V', returns (gateway fuel c2r fe f nlhs hw env sch junk args) ntz (length ps) V /\
    returns (gateway fuel c2r' fe f' nlhs' hw' env' sch' junk' args') ntz (length ps) V' /\
    forall n k, (n < length ps)%nat -> (k < Z.to_nat ntz)%nat -> V' n k = s * V n k.
Proof.
  intros s fuel c2r fe f nlhs hw env sch junk args c2r' f' nlhs' hw' env' sch' junk' args' g A q ntz ps dty dl Hs HC HD HC'.
  assert (S0 : 0 / s = 0) by (unfold Rdiv; ring).
  do 2 eexists. split; [apply array_call_returns; eassumption|]. split.
  - apply array_call_returns; [eassumption|]. intros n Hn. rewrite (start_map (fun t => t / s)) by exact S0.
    destruct (HD n Hn) as [[H1 H2 H3] He]. constructor.
    + constructor; cbn [faster_array ar_pos ar_focus ar_apo]; auto.
      destruct (ar_focus A); auto. now rewrite map_length.
    + cbn [faster_array ar_pos]. intros m Hm. fold (faster_array s A). change (elem _ m) with (elem A m).
      destruct (He m Hm) as [(_ & _ & _ & Hc) _ _ _ _ _]. rewrite elem_delay_faster by auto. apply defined_faster; auto.
  - cbv beta. intros n k Hn Hk. rewrite (start_map (fun t => t / s)) by exact S0. destruct (HD n Hn) as [_ He].
    unfold superposition. rewrite <- Rsum_scal. cbn [faster_array ar_pos]. fold (faster_array s A). apply Rsum_ext. intros i Hi. apply in_seq in Hi.
    change (elem (faster_array s A) i) with (elem A i). change (weight (faster_array s A) i) with (weight A i).
    destruct (He i ltac:(lia)) as [Hq Hg Ho _ _ _]. rewrite elem_delay_faster by (auto; apply Hq). apply rayleigh_faster; auto.
Qed.
Print Assumptions C103_sound_speed_array.

(** ** C85, arrays *)
Lemma array_arrival q g A d o i s : par_ok q -> geom_ok q g -> In s (sources q g) ->
  arrival q (elem_delay q A d i) (rel o (elem A i)) s = (array_time (p_cp q) g A o i (spos s) - d) / p_dt q.
Proof.
  intros Hq Hg Hs. rewrite (arrival_time q g) by auto. unfold array_time, elem_delay. f_equal. ring.
Qed.
Theorem C85_support_array : forall fuel c2r fe f nlhs hw env sch junk args g A q ntz ps dty dl,
  exact_array_call c2r fe f nlhs hw env sch args g A q ntz ps dty dl -> all_arr_defined fe fuel q ntz g A ps dty dl -> 0 < p_dt q ->
  exists V, returns (gateway fuel c2r fe f nlhs hw env sch junk args) ntz (length ps) V /\
  forall n lo hi, (n < length ps)%nat -> array_times_within (p_cp q) g A (nth n ps origin) lo hi ->
  forall k, (k < Z.to_nat ntz)%nat ->
    start_delay dty dl n + (INR k + 1 / 2) * p_dt q < lo \/ hi < start_delay dty dl n + (INR k - 1 / 2) * p_dt q ->
    V n k = 0.
Proof.
  intros fuel c2r fe f nlhs hw env sch junk args g A q ntz ps dty dl HC HD Hdt.
  eexists. split; [apply array_call_returns; eassumption|]. cbv beta.
  intros n lo hi Hn Ht k Hk Hk'. destruct (HD n Hn) as [_ He]. apply Rsum_0. intros i Hi. apply in_seq in Hi.
  destruct (He i ltac:(lia)) as [Hq Hg _ _ _ _].
  apply rayleigh_0. intros s Hs E.
  destruct (source_on_surface q g s Hq Hg Hs) as [Hon _]. specialize (Ht i _ ltac:(lia) Hon).
  unfold arrives_at in E. rewrite (array_arrival q g) in E by auto.
  set (t := array_time _ _ _ _ _ _) in *. clearbody t. set (d := start_delay dty dl n) in *. clearbody d.
  pose proof (Zrint_near ((t - d) / p_dt q)) as Hr. rewrite E, <- INR_IZR_INZ in Hr.
  assert (Hr' : INR k - 1 / 2 <= (t - d) / p_dt q <= INR k + 1 / 2)
    by (revert Hr; unfold Rabs; destruct (Rcase_abs _); lra).
  assert (T : t - d = (t - d) / p_dt q * p_dt q) by (field; lra).
  destruct Hr' as [R1 R2]. apply (Rmult_le_compat_r (p_dt q)) in R1; [|lra]. apply (Rmult_le_compat_r (p_dt q)) in R2; [|lra].
  lra.
Qed.
Print Assumptions C85_support_array.

(** ** C104 *)
Lemma cauchy a b c h k l : (a * h + b * k + c * l)^2 <= (a^2 + b^2 + c^2) * (h^2 + k^2 + l^2).
Proof.
  assert (0 <= (a * k - b * h)^2) by apply pow2_ge_0. assert (0 <= (a * l - c * h)^2) by apply pow2_ge_0.
  assert (0 <= (b * l - c * k)^2) by apply pow2_ge_0. nra.
Qed.
Lemma norm_move a b c h k l r : 0 <= r -> h^2 + k^2 + l^2 <= r^2 ->
  sqrt ((a + h)^2 + (b + k)^2 + (c + l)^2) <= sqrt (a^2 + b^2 + c^2) + r.
Proof.
  intros Hr H. set (m := sqrt (a^2 + b^2 + c^2)). assert (Hm : 0 <= m) by apply sqrt_pos.
  assert (Em : m * m = a^2 + b^2 + c^2) by (apply sqrt_sqrt; nra).
  rewrite <- (sqrt_square (m + r)) by lra. apply sqrt_le_1_alt.
  assert (D : a * h + b * k + c * l <= m * r).
  { apply Rle_trans with (sqrt ((a * h + b * k + c * l)^2)).
    - rewrite <- Rsqr_pow2, sqrt_Rsqr_abs. apply Rle_abs.
    - rewrite <- (sqrt_square (m * r)) by (apply Rmult_le_pos; assumption). apply sqrt_le_1_alt.
      apply Rle_trans with (1 := cauchy a b c h k l). rewrite <- Em. 
      replace (m * r * (m * r)) with (m * m * r^2) by ring. apply Rmult_le_compat_l; [apply Rmult_le_pos; assumption|exact H]. }
  clearbody m. nra.
Qed.
Lemma distance_rel P e p r : 0 <= r -> p_x p ^2 + p_y p ^2 + p_z p ^2 <= r^2 ->
  distance P e - r <= distance (rel P e) p <= distance P e + r.
Proof.
  intros Hr H. unfold distance, rel. cbn [p_x p_y p_z].
  set (a := p_x P - p_x e). set (b := p_y P - p_y e). set (c := p_z P - p_z e).
  pose proof (norm_move a b c (- p_x p) (- p_y p) (- p_z p) r Hr ltac:(nra)) as U.
  pose proof (norm_move (a - p_x p) (b - p_y p) (c - p_z p) (p_x p) (p_y p) (p_z p) r Hr H) as L.
  replace (a - p_x p + p_x p) with a in L by ring. replace (b - p_y p + p_y p) with b in L by ring. replace (c - p_z p + p_z p) with c in L by ring.
  unfold Rminus in *. split; lra.
Qed.
(** C104: at a point at which the waves of the element centres meet, the
    response is confined to the travel time across an element. *)
Theorem C104_focal_point : forall fuel c2r fe f nlhs hw env sch junk args g A q ntz ps dty dl,
  exact_array_call c2r fe f nlhs hw env sch args g A q ntz ps dty dl -> all_arr_defined fe fuel q ntz g A ps dty dl ->
  0 < p_dt q -> 0 < p_cp q ->
  exists V, returns (gateway fuel c2r fe f nlhs hw env sch junk args) ntz (length ps) V /\
  forall n rho T k, (n < length ps)%nat -> (k < Z.to_nat ntz)%nat ->
    element_radius g rho -> focal_point (p_cp q) A (nth n ps origin) T ->
    1000 * rho / p_cp q + p_dt q / 2 < Rabs (start_delay dty dl n + INR k * p_dt q - T) ->
    V n k = 0.
Proof.
  intros fuel c2r fe f nlhs hw env sch junk args g A q ntz ps dty dl HC HD Hdt Hcp.
  destruct (C85_support_array fuel c2r fe f nlhs hw env sch junk args g A q ntz ps dty dl HC HD Hdt) as (V & HV & H0).
  exists V. split; [exact HV|]. intros n rho T k Hn Hk [Hr HR] HF Hout.
  apply (H0 n (T - 1000 * rho / p_cp q) (T + 1000 * rho / p_cp q) Hn) with (2 := Hk).
  - intros i p Hi Hp. specialize (HF i Hi). unfold array_time, travel_time.
    assert (L0 : lens (p_cp q) g p = 0).
    { destruct HC as [(l & pp & TT & _ & HT & _) _ _ _ _ _]. destruct g; try discriminate HT; reflexivity. }
    rewrite L0. pose proof (distance_rel (nth n ps origin) (elem A i) p rho Hr (HR p Hp)) as [D1 D2].
    assert (P : 0 < 1000 / p_cp q) by (apply Rdiv_lt_0_compat; lra).
    set (d1 := distance (rel (nth n ps origin) (elem A i)) p) in *. set (d0 := distance (nth n ps origin) (elem A i)) in *. clearbody d1 d0.
    replace (1000 * d1 / p_cp q) with (1000 / p_cp q * d1) by (unfold Rdiv; ring).
    replace (1000 * d0 / p_cp q) with (1000 / p_cp q * d0) in HF by (unfold Rdiv; ring).
    replace (1000 * rho / p_cp q) with (1000 / p_cp q * rho) by (unfold Rdiv; ring).
    set (m := 1000 / p_cp q) in *. clearbody m. nra.
  - unfold Rabs in Hout. destruct (Rcase_abs _); lra.
Qed.
Print Assumptions C104_focal_point.

(** The point on the axis at the focal distance, method 'xy'. *)
Theorem C104_xy : forall cp A F, cp <> 0 -> ar_focus A = FXY F -> ar_steer A = SNone ->
  (forall i, (i < length (ar_pos A))%nat -> p_z (elem A i) = 0) ->
  focal_point cp A {| p_x := 0; p_y := 0; p_z := F |} (1000 / cp * sqrt (extr A ^2 + F^2)).
Proof.
  intros cp A F Hc HF HS Hz i Hi. unfold focus_delay, steer_delay. rewrite HF, HS. unfold distance. cbn [p_x p_y p_z]. rewrite Hz by exact Hi.
  replace ((0 - p_x (elem A i))^2 + (0 - p_y (elem A i))^2 + (F - 0)^2) with (p_x (elem A i) ^2 + p_y (elem A i) ^2 + F^2) by ring.
  field. exact Hc.
Qed.
Print Assumptions C104_xy.

(** The delays of arr_focus_delays given to an array with elements on the x
    axis. *)
Theorem C104_arr_focus_delays : forall gx cp foc ang A tau, 0 < cp -> 0 <= foc -> cos (ang * (PI / 180)) <> 0 -> gx <> [] ->
  ar_pos A = map (fun x => {| p_x := x; p_y := 0; p_z := 0 |}) gx -> ar_steer A = SNone ->
  arr_focus_delays (N:=EN) (map (@Some R) gx) (Some cp) (Some foc) (Some ang) = map (@Some R) tau -> ar_focus A = FUd tau ->
  exists T, focal_point cp A {| p_x := foc * tan (ang * (PI / 180)); p_y := 0; p_z := foc |} T.
Proof.
  intros gx cp foc ang A tau Hc Hf Ha Hne HP HS HF Ht.
  destruct (C95_focus gx cp foc ang Hc Hf Ha Hne) as (d & t & E & L & Hd & _). exists t. intros i Hi.
  rewrite E in HF. assert (Hdt : d = tau).
  { clear - HF. revert tau HF. induction d as [|x d IH]; intros [|y tau] H; try discriminate; auto. injection H as -> H. f_equal. now apply IH. }
  subst tau. assert (Hi' : (i < length gx)%nat) by (rewrite HP, map_length in Hi; exact Hi).
  destruct (Hd i Hi') as [Hd1 _]. unfold focus_delay, steer_delay. rewrite Ht, HS. rewrite <- Hd1.
  assert (EE : elem A i = {| p_x := nth i gx 0; p_y := 0; p_z := 0 |}).
  { unfold elem. rewrite HP. apply (map_nth (fun x => {| p_x := x; p_y := 0; p_z := 0 |})). }
  rewrite EE. unfold distance, to_focus. cbn [p_x p_y p_z].
  replace ((foc * tan (ang * (PI / 180)) - nth i gx 0)^2 + (0 - 0)^2 + (foc - 0)^2) with ((nth i gx 0 - foc * tan (ang * (PI / 180)))^2 + foc^2) by ring.
  ring.
Qed.
Print Assumptions C104_arr_focus_delays.

(** ** C87, C89, C88 for arrays *)
Lemma array_inside_arrives q ntz g A d o i : par_ok q -> geom_ok q g -> 0 < p_dt q -> (i < length (ar_pos A))%nat -> array_inside q ntz g A d o ->
  forall s, In s (sources q g) -> (0 <= arrives_at q (elem_delay q A d i) (rel o (elem A i)) s < ntz)%Z.
Proof.
  intros Hq Hg Hdt Hi (lo & hi & Ht & Hlo & Hhi) s Hs. destruct (source_on_surface q g s Hq Hg Hs) as [Hon _].
  specialize (Ht i _ Hi Hon). unfold arrives_at. rewrite (array_arrival q g) by auto.
  set (t := array_time _ _ _ _ _ _) in *. clearbody t.
  assert (B : - (1 / 2) < (t - d) / p_dt q < IZR ntz - 1 / 2).
  { split; apply Rmult_lt_reg_r with (p_dt q); auto; unfold Rdiv; rewrite ?Rmult_assoc, ?Rinv_l, ?Rmult_1_r by lra; lra. }
  set (x := (t - d) / p_dt q) in *. clearbody x. pose proof (Zrint_near x) as Hr. set (z := Zrint x) in *. clearbody z.
  assert (Hr' : x - 1 / 2 <= IZR z <= x + 1 / 2) by (revert Hr; unfold Rabs; destruct (Rcase_abs _); lra).
  split.
  - assert (-1 < z)%Z; [|lia]. apply lt_IZR. lra.
  - apply lt_IZR. lra.
Qed.
Theorem C87_time_integral_array : forall fuel c2r fe f nlhs hw env sch junk args fuel' c2r' fe' f' nlhs' hw' env' sch' junk' args'
    g A q dt' ntz ntz' ps dty dl dty' dl',
  let q' := {| p_dx := p_dx q; p_dy := p_dy q; p_dt := dt'; p_v := p_v q; p_cp := p_cp q |} in
  exact_array_call c2r fe f nlhs hw env sch args g A q ntz ps dty dl -> all_arr_defined fe fuel q ntz g A ps dty dl -> 0 < p_dt q ->
  exact_array_call c2r' fe' f' nlhs' hw' env' sch' args' g A q' ntz' ps dty' dl' -> all_arr_defined fe' fuel' q' ntz' g A ps dty' dl' -> 0 < dt' ->
  (forall n, (n < length ps)%nat -> array_inside q ntz g A (start_delay dty dl n) (nth n ps origin)) ->
  (forall n, (n < length ps)%nat -> array_inside q' ntz' g A (start_delay dty' dl' n) (nth n ps origin)) ->
  exists V V', returns (gateway fuel c2r fe f nlhs hw env sch junk args) ntz (length ps) V /\
    returns (gateway fuel' c2r' fe' f' nlhs' hw' env' sch' junk' args') ntz' (length ps) V' /\
    forall n, (n < length ps)%nat -> over_time q ntz (V n) = over_time q' ntz' (V' n).
Proof.
  intros fuel c2r fe f nlhs hw env sch junk args fuel' c2r' fe' f' nlhs' hw' env' sch' junk' args' g A q dt' ntz ntz' ps dty dl dty' dl' q'
    HC HD Hdt HC' HD' Hdt' Hin Hin'.
  do 2 eexists. split; [apply array_call_returns; eassumption|]. split; [apply array_call_returns; eassumption|]. cbv beta.
  intros n Hn. destruct (HD n Hn) as [_ He]. destruct (HD' n Hn) as [_ He'].
  unfold over_time, superposition. rewrite (Rsum_swap (fun k i => rayleigh q (weight A i) (elem_delay q A (start_delay dty dl n) i) (rel (nth n ps origin) (elem A i)) (sources q g) (Z.of_nat k))).
  rewrite (Rsum_swap (fun k i => rayleigh q' (weight A i) (elem_delay q' A (start_delay dty' dl' n) i) (rel (nth n ps origin) (elem A i)) (sources q' g) (Z.of_nat k))).
  rewrite <- !Rsum_scal. apply Rsum_ext. intros i Hi. apply in_seq in Hi.
  destruct (He i ltac:(lia)) as [Hq Hg Ho _ _ _]. destruct (He' i ltac:(lia)) as [Hq' _ _ _ _ _].
  rewrite (rayleigh_total q) by (apply array_inside_arrives; auto; lia).
  rewrite (rayleigh_total q') by (apply array_inside_arrives; auto; lia).
  change (sources q' g) with (sources q g).
  rewrite <- !Rsum_scal. apply Rsum_ext. intros s Hs. unfold strength. cbn [q' p_v p_dt]. specialize (Ho s Hs).
  pose proof PI_RGT_0. field. repeat split; lra.
Qed.
Print Assumptions C87_time_integral_array.

Theorem C89_record_length_array : forall fuel c2r fe f nlhs hw env sch junk args fuel' c2r' fe' f' nlhs' hw' env' sch' junk' args'
    g A q ntz ntz' ps dty dl dty' dl',
  exact_array_call c2r fe f nlhs hw env sch args g A q ntz ps dty dl -> all_arr_defined fe fuel q ntz g A ps dty dl ->
  exact_array_call c2r' fe' f' nlhs' hw' env' sch' args' g A q ntz' ps dty' dl' -> all_arr_defined fe' fuel' q ntz' g A ps dty' dl' ->
  (forall n, (n < length ps)%nat -> start_delay dty' dl' n = start_delay dty dl n) ->
  exists V V', returns (gateway fuel c2r fe f nlhs hw env sch junk args) ntz (length ps) V /\
    returns (gateway fuel' c2r' fe' f' nlhs' hw' env' sch' junk' args') ntz' (length ps) V' /\
    forall n k, (n < length ps)%nat -> (k < Z.to_nat ntz)%nat -> (k < Z.to_nat ntz')%nat -> V' n k = V n k.
Proof.
  intros fuel c2r fe f nlhs hw env sch junk args fuel' c2r' fe' f' nlhs' hw' env' sch' junk' args' g A q ntz ntz' ps dty dl dty' dl'
    HC HD HC' HD' Hdl.
  do 2 eexists. split; [apply array_call_returns; eassumption|]. split; [apply array_call_returns; eassumption|]. cbv beta.
  intros n k Hn _ _. rewrite Hdl by exact Hn. reflexivity.
Qed.
Print Assumptions C89_record_length_array.

Lemma maxabs_scale s l : 0 < s -> maxabs (map (Rmult s) l) = s * maxabs l.
Proof.
  intros Hs. unfold maxabs. induction l as [|x l IH]; cbn [map fold_right]; [ring|]. rewrite IH, Rabs_mult, (Rabs_pos_eq s) by lra.
  unfold Rmax. destruct (Rle_dec (s * Rabs x) _), (Rle_dec (Rabs x) _); auto; nra.
Qed.
Section Scale.
  Context (s : R) (Hs : 0 < s).
  Lemma elem_scale A i : elem (scale_array s A) i = scale_pos s (elem A i).
  Proof.
    unfold elem. cbn [scale_array ar_pos]. rewrite <- (map_nth (scale_pos s)). unfold scale_pos at 3. cbn [p_x p_y p_z]. now rewrite !Rmult_0_r.
  Qed.
  Lemma extx_scale A : extx (scale_array s A) = s * extx A.
  Proof. unfold extx. cbn [scale_array ar_pos]. rewrite map_map. rewrite <- maxabs_scale by exact Hs. now rewrite map_map. Qed.
  Lemma exty_scale A : exty (scale_array s A) = s * exty A.
  Proof. unfold exty. cbn [scale_array ar_pos]. rewrite map_map. rewrite <- maxabs_scale by exact Hs. now rewrite map_map. Qed.
  Lemma extr_scale A : extr (scale_array s A) = s * extr A.
  Proof. unfold extr. rewrite extx_scale, exty_scale, <- sqrt_scale by exact Hs. f_equal. ring. Qed.
  Lemma sq2_scale a b : sqrt ((s * a)^2 + (s * b)^2) = s * sqrt (a^2 + b^2).
  Proof. rewrite <- sqrt_scale by exact Hs. f_equal. ring. Qed.
  Lemma elem_delay_scale q A d i : elem_delay (scale_par s q) (scale_array s A) (s * d) i = s * elem_delay q A d i.
  Proof.
    unfold elem_delay.
    assert (E1 : focus_delay (p_cp q) (scale_array s A) i = s * focus_delay (p_cp q) A i).
    { unfold focus_delay. rewrite elem_scale, extx_scale, exty_scale, extr_scale. cbn [scale_array ar_focus scale_pos p_x p_y].
      destruct (ar_focus A); rewrite ?sq2_scale; try ring.
      - replace ((s * p_x (elem A i))^2 + (s * p_y (elem A i))^2 + (s * F)^2) with (s * s * (p_x (elem A i) ^2 + p_y (elem A i) ^2 + F^2)) by ring.
        rewrite sqrt_scale by exact Hs. ring.
      - apply nth_map0. ring. }
    assert (E2 : steer_delay (p_cp q) (scale_array s A) i = s * steer_delay (p_cp q) A i).
    { unfold steer_delay. rewrite elem_scale, extx_scale, exty_scale. cbn [scale_array ar_steer scale_pos p_x p_y]. destruct (ar_steer A); ring. }
    cbn [scale_par p_cp]. rewrite E1, E2. ring.
  Qed.
  Lemma weight_scale A i : weight (scale_array s A) i = weight A i.
  Proof.
    unfold weight. cbn [scale_array ar_apo]. f_equal. unfold rel_radius. rewrite elem_scale, extr_scale. cbn [scale_pos p_x p_y]. rewrite sq2_scale.
    destruct (Req_dec (extr A) 0) as [E|E]; [|field; lra]. rewrite E, Rmult_0_r. unfold Rdiv. rewrite Rinv_0. ring.
  Qed.
  Lemma rel_scale o e : rel (scale_pos s o) (scale_pos s e) = scale_pos s (rel o e).
  Proof. unfold rel, scale_pos. cbn [p_x p_y p_z]. f_equal; ring. Qed.
End Scale.
Theorem C88_similarity_array : forall s fuel c2r fe f nlhs hw env sch junk args c2r' f' nlhs' hw' env' sch' junk' args' g A q ntz ps dty dl,
  0 < s ->
  exact_array_call c2r fe f nlhs hw env sch args g A q ntz ps dty dl -> all_arr_defined fe fuel q ntz g A ps dty dl ->
  exact_array_call c2r' fe f' nlhs' hw' env' sch' args' (scale_geom s g) (scale_array s A) (scale_par s q) ntz (map (scale_pos s) ps) dty (map (Rmult s) dl) ->
  exists V V', returns (gateway fuel c2r fe f nlhs hw env sch junk args) ntz (length ps) V /\
    returns (gateway fuel c2r' fe f' nlhs' hw' env' sch' junk' args') ntz (length ps) V' /\
    forall n k, (n < length ps)%nat -> (k < Z.to_nat ntz)%nat -> V' n k = V n k.
Proof.
  intros s fuel c2r fe f nlhs hw env sch junk args c2r' f' nlhs' hw' env' sch' junk' args' g A q ntz ps dty dl Hs HC HD HC'.
  assert (SP : forall n, (n < length ps)%nat -> nth n (map (scale_pos s) ps) origin = scale_pos s (nth n ps origin)).
  { intros n Hn. rewrite (nth_indep _ origin (scale_pos s origin)) by (rewrite map_length; exact Hn). apply map_nth. }
  assert (S0 : s * 0 = 0) by ring.
  do 2 eexists. split; [apply array_call_returns; eassumption|]. split.
  - rewrite <- (map_length (scale_pos s)). apply array_call_returns; [eassumption|]. intros n Hn. rewrite map_length in Hn.
    rewrite SP, (start_map (Rmult s)) by (exact Hn || exact S0). destruct (HD n Hn) as [[H1 H2 H3] He]. constructor.
    + constructor; cbn [scale_array ar_pos ar_focus ar_apo]; rewrite ?map_length; auto.
      * destruct (ar_focus A); auto. now rewrite map_length.
      * fold (scale_array s A). destruct (ar_apo A); auto; rewrite extr_scale by exact Hs; apply Rmult_integral_contrapositive_currified; auto; lra.
    + cbn [scale_array ar_pos]. rewrite map_length. intros m Hm. fold (scale_array s A).
      rewrite elem_delay_scale, elem_scale, rel_scale by exact Hs. apply defined_scaled; auto.
  - cbv beta. intros n k Hn Hk. rewrite SP, (start_map (Rmult s)) by (exact Hn || exact S0). destruct (HD n Hn) as [_ He].
    unfold superposition. cbn [scale_array ar_pos]. rewrite map_length. fold (scale_array s A). apply Rsum_ext. intros i Hi. apply in_seq in Hi.
    rewrite weight_scale, elem_delay_scale, elem_scale, rel_scale by exact Hs.
    destruct (He i ltac:(lia)) as [Hq Hg Ho _ _ _]. apply rayleigh_scaled; auto.
Qed.
Print Assumptions C88_similarity_array.
