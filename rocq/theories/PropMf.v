(** PropMf.v - property theorems C95-C97 about the scripts of m_files. *)
From Coq Require Strings.String Strings.Ascii.
Import Coq.Strings.String.StringSyntax.
From Coq Require Import Reals List ZArith Lra Lia.
From Verif Require Import Base NumR ProofsR ModelMf SpecMf.
Import ListNotations.
Open Scope R_scope.

(** ** arr_focus_delays in exact arithmetic *)
Definition deg (ang : R) : R := ang * (PI / 180).
Lemma foc_norm_E foc ang x : cos (deg ang) <> 0 ->
  foc_norm (N:=EN) (Some foc) (Some ang) (Some x) = Some (to_focus foc ang x).
Proof.
  intros Hc. unfold foc_norm, foc_xp, m_tan. ered.
  change (npi (n:=EN)) with (Some PI).
  assert (E : e_div (Some (ang * PI)) (Some (IZR 180)) = Some (deg ang)) by (rewrite e_div_ok by lra; f_equal; unfold deg; field).
  cbn [nmul nofZ EN e2] in *. rewrite E. cbn [nsin ncos EN e1]. ered. rewrite e_div_ok by exact Hc. ered.
  rewrite e_sqrt_ok by (match goal with |- 0 <= ?a * ?a + ?b * ?b => pose proof (Rle_0_sqr a); pose proof (Rle_0_sqr b); unfold Rsqr in *; lra end).
  f_equal. unfold to_focus, tan. fold (deg ang). f_equal. ring.
Qed.

Fixpoint rmaxl (l : list R) (r : R) : R := match l with [] => r | x :: t => rmaxl t (if Rltb r x then x else r) end.
Lemma rmaxl_ge l : forall r, r <= rmaxl l r /\ (forall x, In x l -> x <= rmaxl l r) /\ (rmaxl l r = r \/ In (rmaxl l r) l).
Proof.
  induction l as [|y l IH]; intros r; cbn [rmaxl].
  - split; [lra|]. split; [intros x []|]. left; reflexivity.
  - unfold Rltb. destruct (Rlt_dec r y) as [H|H]; destruct (IH (if Rlt_dec r y then y else r)) as (H1 & H2 & H3).
    + destruct (IH y) as (A1 & A2 & A3). split; [lra|]. split; [intros x [ <- | Hx]; auto|]. destruct A3 as [E|A3]; [right; left; auto|right; right; auto].
    + destruct (IH r) as (A1 & A2 & A3). split; [lra|]. split; [intros x [ <- | Hx]; auto; lra|]. destruct A3 as [E|A3]; [left; auto|right; right; auto].
Qed.
Lemma fold_max_E l : forall r, fold_left (fun m y => if nlt (n:=EN) m y then y else m) (map (@Some R) l) (Some r) = Some (rmaxl l r).
Proof.
  induction l as [|y l IH]; intros r; cbn [map fold_left rmaxl]; [reflexivity|].
  cbn [nlt EN ecmp]. destruct (Rltb r y); apply IH.
Qed.
Lemma foc_rmax_E foc ang gx : cos (deg ang) <> 0 ->
  foc_rmax (N:=EN) (Some foc) (Some ang) (map (@Some R) gx) = Some (rmaxl (map (to_focus foc ang) gx) 0).
Proof.
  intros Hc. unfold foc_rmax. change (nofZ (n:=EN) 0) with (Some 0). rewrite <- fold_max_E. generalize (Some 0 : option R).
  induction gx as [|g gx IH]; intros r; cbn [map fold_left]; [reflexivity|].
  rewrite foc_norm_E by exact Hc. apply IH.
Qed.

Lemma delays_E gx cp foc ang : cos (deg ang) <> 0 -> cp <> 0 ->
  arr_focus_delays (N:=EN) (map (@Some R) gx) (Some cp) (Some foc) (Some ang) =
  map (@Some R)
    (let rm := rmaxl (map (to_focus foc ang) gx) 0 in
     let d := map (fun g => 1000 / cp * (rm - to_focus foc ang g)) gx in
     if Rltb foc 0 then map (fun x => Rabs (x - match d with [] => 0 | y :: r => rmaxl r y end)) d else d).
Proof.
  intros Hc Hcp. unfold arr_focus_delays. rewrite foc_rmax_E by exact Hc. cbv zeta.
  set (rm := rmaxl _ _). clearbody rm.
  assert (E : map (fun g => ndiv (n:=EN) (nmul (n:=EN) (nsub (n:=EN) (Some rm) (foc_norm (N:=EN) (Some foc) (Some ang) g)) (nofZ 1000)) (Some cp)) (map (@Some R) gx)
          = map (@Some R) (map (fun g => 1000 / cp * (rm - to_focus foc ang g)) gx)).
  { rewrite !map_map. apply map_ext. intros g. rewrite foc_norm_E by exact Hc. ered. rewrite e_div_ok by exact Hcp. f_equal. field. exact Hcp. }
  etransitivity; [apply (f_equal (fun d => if nlt (n:=EN) (Some foc) (nofZ 0) then map (fun x => nabs (n:=EN) (nsub x (m_max (N:=EN) d))) d else d)); exact E|].
  set (d := map _ gx). clearbody d. cbn [nlt nofZ EN ecmp]. destruct (Rltb foc 0); [|reflexivity].
  rewrite !map_map. apply map_ext. intros x.
  destruct d as [|y r]; [reflexivity|].
  cbn [map m_max]. etransitivity; [apply (f_equal (fun m => nabs (n:=EN) (nsub (n:=EN) (Some x) m))); apply fold_max_E|]. reflexivity.
Qed.

(** C95: with focal depth foc >= 0 the delays make the waves of all elements
    arrive at the same time at the focus, which lies at depth foc in direction
    ang; no delay is negative and one is 0. *)
Theorem C95_focus : forall gx cp foc ang, 0 < cp -> 0 <= foc -> cos (ang * (PI / 180)) <> 0 -> gx <> [] ->
  exists d t, arr_focus_delays (N:=EN) (map (@Some R) gx) (Some cp) (Some foc) (Some ang) = map (@Some R) d /\
    length d = length gx /\
    (forall n, (n < length gx)%nat -> nth n d 0 + 1000 * to_focus foc ang (nth n gx 0) / cp = t /\ 0 <= nth n d 0) /\
    exists n, (n < length gx)%nat /\ nth n d 0 = 0.
Proof.
  intros gx cp foc ang Hcp Hf Hc Hne.
  destruct (rmaxl_ge (map (to_focus foc ang) gx) 0) as (M0 & M1 & M2).
  set (rm := rmaxl (map (to_focus foc ang) gx) 0) in *.
  exists (map (fun g => 1000 / cp * (rm - to_focus foc ang g)) gx), (1000 / cp * rm).
  assert (Hp : 0 < 1000 / cp) by (apply Rdiv_lt_0_compat; lra).
  assert (NE : forall n, (n < length gx)%nat -> nth n (map (fun g => 1000 / cp * (rm - to_focus foc ang g)) gx) 0 = 1000 / cp * (rm - to_focus foc ang (nth n gx 0))).
  { intros n Hn. rewrite (nth_indep _ 0 ((fun g => 1000 / cp * (rm - to_focus foc ang g)) 0)) by (rewrite map_length; exact Hn).
    apply (map_nth (fun g => 1000 / cp * (rm - to_focus foc ang g))). }
  split; [|split; [apply map_length|split]].
  - rewrite delays_E by (auto; lra). unfold Rltb. destruct (Rlt_dec foc 0); [lra|]. reflexivity.
  - intros n Hn. rewrite NE by exact Hn. split; [field; lra|]. apply Rmult_le_pos; [lra|].
    assert (to_focus foc ang (nth n gx 0) <= rm); [|lra]. apply M1. apply in_map. apply nth_In. exact Hn.
  - assert (IN : In rm (map (to_focus foc ang) gx)).
    { destruct M2 as [E|]; auto. destruct gx as [|g gx']; [contradiction|]. left.
      assert (to_focus foc ang g <= rm) by (apply M1; left; reflexivity).
      pose proof (sqrt_pos ((g - foc * tan (ang * (PI / 180)))^2 + foc^2)). unfold to_focus in *. lra. }
    apply in_map_iff in IN as (g & Eg & Hg). apply (In_nth _ _ 0) in Hg as (n & Hn & En).
    exists n. split; [exact Hn|]. rewrite NE, En, Eg by exact Hn. ring.
Qed.
Print Assumptions C95_focus.

(** ... and with foc < 0 they make the array radiate as if the sound came from
    the point at distance |foc| behind it: the delay grows with the distance
    to that point as the travel time does; no delay is negative, one is 0. *)
Theorem C95_virtual_source : forall gx cp foc ang, 0 < cp -> foc < 0 -> cos (ang * (PI / 180)) <> 0 -> gx <> [] ->
  exists d t, arr_focus_delays (N:=EN) (map (@Some R) gx) (Some cp) (Some foc) (Some ang) = map (@Some R) d /\
    length d = length gx /\
    (forall n, (n < length gx)%nat -> nth n d 0 = 1000 * to_focus foc ang (nth n gx 0) / cp - t /\ 0 <= nth n d 0) /\
    exists n, (n < length gx)%nat /\ nth n d 0 = 0.
Proof.
  intros gx cp foc ang Hcp Hf Hc Hne.
  set (rm := rmaxl (map (to_focus foc ang) gx) 0).
  set (D := fun g => 1000 / cp * (rm - to_focus foc ang g)).
  set (d := map D gx).
  assert (Hp : 0 < 1000 / cp) by (apply Rdiv_lt_0_compat; lra).
  assert (HM : exists mx, match d with [] => 0 | y :: r => rmaxl r y end = mx /\ (forall g, In g gx -> D g <= mx) /\ exists g, In g gx /\ D g = mx).
  { subst d. destruct gx as [|g gx']; [contradiction|]. cbn [map]. destruct (rmaxl_ge (map D gx') (D g)) as (A1 & A2 & A3).
    eexists. split; [reflexivity|]. split.
    - intros x [ <- | Hx]; [exact A1|]. apply A2. now apply in_map.
    - destruct A3 as [E|E]; [exists g; split; [left; auto|]; lra|].
      apply in_map_iff in E as (x & Ex & Hx). exists x. split; [right; auto|exact Ex]. }
  destruct HM as (mx & Emx & M1 & g0 & Hg0 & Eg0).
  exists (map (fun g => Rabs (D g - mx)) gx), (1000 / cp * rm - mx).
  assert (NE : forall n, (n < length gx)%nat -> nth n (map (fun g => Rabs (D g - mx)) gx) 0 = mx - D (nth n gx 0)).
  { intros n Hn. rewrite (nth_indep _ 0 ((fun g => Rabs (D g - mx)) 0)) by (rewrite map_length; exact Hn).
    rewrite (map_nth (fun g => Rabs (D g - mx))). specialize (M1 _ (nth_In gx 0 Hn)). rewrite Rabs_left1; lra. }
  split; [|split; [apply map_length|split]].
  - rewrite delays_E by (auto; lra). cbv zeta. fold rm. unfold Rltb. destruct (Rlt_dec foc 0); [|lra].
    transitivity (map (@Some R) (map (fun x => Rabs (x - mx)) d)); [rewrite <- Emx; reflexivity|]. unfold d. now rewrite (map_map D).
  - intros n Hn. rewrite NE by exact Hn. specialize (M1 _ (nth_In gx 0 Hn)). split; [unfold D; field; lra|lra].
  - apply (In_nth _ _ 0) in Hg0 as (n & Hn & En). exists n. split; [exact Hn|]. rewrite NE, En by exact Hn. lra.
Qed.
Print Assumptions C95_virtual_source.

Example C95_ex : 0 < 1500 /\ 0 <= 20 /\ cos (0 * (PI / 180)) <> 0 /\ [-1; 0; 1] <> [].
Proof. replace (0 * (PI / 180)) with 0 by ring. rewrite cos_0. repeat split; try lra. discriminate. Qed.

(** ** h2o_soundspeed in exact arithmetic *)
Definition code_speed (T P S : R) : R :=
  1402.392
  + (0.501109398873e1 * T - 0.550946843172e-1 * T^2 + 0.221535969240e-3 * T^3)
  + (0.132952290781e1 * S + 0.128955756844e-3 * S^3)
  + (0.156059257041 * P + 0.244998688441e-4 * P^2 - 0.883392332513e-8 * P^3)
  + (- (0.127562783426e-1) * T * S + 0.635191613389e-2 * T * P + 0.265484716608e-7 * T^2 * P^2
     - 0.159349479045e-5 * T * P^3 + 0.522116437235e-9 * T * P^3 - 0.438031096213e-6 * T^3 * P
     - 0.161674495909 - 8 * S^2 * P^2 + 0.968403156410e-4 * T^2 * S + 0.485639620015e-5 * T * S^2 * P
     - 0.340597039004e-3 * T * S * P).
Lemma dec_E m k : (0 <= k)%Z -> dec (N:=EN) m k = Some (IZR m / IZR (10 ^ k)).
Proof.
  intros Hk. unfold dec. cbn [nofZ EN ndiv]. apply e_div_ok.
  apply (IZR_neq _ 0). apply Z.pow_nonzero; lia.
Qed.
Lemma speed_E T P S : soundspeed (N:=EN) (Some T) (Some P) (Some S) = Some (code_speed T P S).
Proof.
  unfold soundspeed, sq, cu. rewrite !dec_E by lia. cbn [nmul nadd nsub nopp nofZ EN e2 e1].
  f_equal. unfold code_speed.
  replace (IZR 501109398873 / IZR (10 ^ 11)) with 0.501109398873e1 by (change (10 ^ 11)%Z with 100000000000%Z; lra).
  set (c0 := 0.501109398873e1). clearbody c0.
  replace (IZR 550946843172 / IZR (10 ^ 13)) with 0.550946843172e-1 by (change (10 ^ 13)%Z with 10000000000000%Z; lra).
  set (c1 := 0.550946843172e-1). clearbody c1.
  replace (IZR 221535969240 / IZR (10 ^ 15)) with 0.221535969240e-3 by (change (10 ^ 15)%Z with 1000000000000000%Z; lra).
  set (c2 := 0.221535969240e-3). clearbody c2.
  replace (IZR 132952290781 / IZR (10 ^ 11)) with 0.132952290781e1 by (change (10 ^ 11)%Z with 100000000000%Z; lra).
  set (c3 := 0.132952290781e1). clearbody c3.
  replace (IZR 128955756844 / IZR (10 ^ 15)) with 0.128955756844e-3 by (change (10 ^ 15)%Z with 1000000000000000%Z; lra).
  set (c4 := 0.128955756844e-3). clearbody c4.
  replace (IZR 156059257041 / IZR (10 ^ 12)) with 0.156059257041 by (change (10 ^ 12)%Z with 1000000000000%Z; lra).
  set (c5 := 0.156059257041). clearbody c5.
  replace (IZR 244998688441 / IZR (10 ^ 16)) with 0.244998688441e-4 by (change (10 ^ 16)%Z with 10000000000000000%Z; lra).
  set (c6 := 0.244998688441e-4). clearbody c6.
  replace (IZR 883392332513 / IZR (10 ^ 20)) with 0.883392332513e-8 by (change (10 ^ 20)%Z with 100000000000000000000%Z; lra).
  set (c7 := 0.883392332513e-8). clearbody c7.
  replace (IZR 127562783426 / IZR (10 ^ 13)) with 0.127562783426e-1 by (change (10 ^ 13)%Z with 10000000000000%Z; lra).
  set (c8 := 0.127562783426e-1). clearbody c8.
  replace (IZR 635191613389 / IZR (10 ^ 14)) with 0.635191613389e-2 by (change (10 ^ 14)%Z with 100000000000000%Z; lra).
  set (c9 := 0.635191613389e-2). clearbody c9.
  replace (IZR 265484716608 / IZR (10 ^ 19)) with 0.265484716608e-7 by (change (10 ^ 19)%Z with 10000000000000000000%Z; lra).
  set (c10 := 0.265484716608e-7). clearbody c10.
  replace (IZR 159349479045 / IZR (10 ^ 17)) with 0.159349479045e-5 by (change (10 ^ 17)%Z with 100000000000000000%Z; lra).
  set (c11 := 0.159349479045e-5). clearbody c11.
  replace (IZR 522116437235 / IZR (10 ^ 21)) with 0.522116437235e-9 by (change (10 ^ 21)%Z with 1000000000000000000000%Z; lra).
  set (c12 := 0.522116437235e-9). clearbody c12.
  replace (IZR 438031096213 / IZR (10 ^ 18)) with 0.438031096213e-6 by (change (10 ^ 18)%Z with 1000000000000000000%Z; lra).
  set (c13 := 0.438031096213e-6). clearbody c13.
  replace (IZR 161674495909 / IZR (10 ^ 12)) with 0.161674495909 by (change (10 ^ 12)%Z with 1000000000000%Z; lra).
  set (c14 := 0.161674495909). clearbody c14.
  replace (IZR 968403156410 / IZR (10 ^ 16)) with 0.968403156410e-4 by (change (10 ^ 16)%Z with 10000000000000000%Z; lra).
  set (c15 := 0.968403156410e-4). clearbody c15.
  replace (IZR 485639620015 / IZR (10 ^ 17)) with 0.485639620015e-5 by (change (10 ^ 17)%Z with 100000000000000000%Z; lra).
  set (c16 := 0.485639620015e-5). clearbody c16.
  replace (IZR 340597039004 / IZR (10 ^ 15)) with 0.340597039004e-3 by (change (10 ^ 15)%Z with 1000000000000000%Z; lra).
  set (c17 := 0.340597039004e-3). clearbody c17.
  replace (IZR 1402392 / IZR (10 ^ 3)) with 1402.392 by (change (10 ^ 3)%Z with 1000%Z; lra).
  set (c18 := 1402.392). clearbody c18.
  ring.
Qed.

(** C96: the returned sound speed differs from Del Grosso's formula by three
    misprinted terms: [S^3] for [S^2], [T P^3] for [T P^2], and
    [- 0.161674495909 - 8 S^2 P^2] for [- 0.161674495909e-8 S^2 P^2]. *)
Theorem C96_formula_partial : forall T P S,
  soundspeed (N:=EN) (Some T) (Some P) (Some S) =
    Some (del_grosso T P S - 0.161674495909 - (8 - 0.161674495909e-8) * S^2 * P^2
          + 0.128955756844e-3 * (S^3 - S^2) + 0.159349479045e-5 * T * (P^2 - P^3)).
Proof.
  intros T P S. rewrite speed_E. f_equal. unfold code_speed, del_grosso.
  set (c0 := 0.501109398873e1). clearbody c0.
  set (c1 := 0.550946843172e-1). clearbody c1.
  set (c2 := 0.221535969240e-3). clearbody c2.
  set (c3 := 0.132952290781e1). clearbody c3.
  set (c4 := 0.128955756844e-3). clearbody c4.
  set (c5 := 0.156059257041). clearbody c5.
  set (c6 := 0.244998688441e-4). clearbody c6.
  set (c7 := 0.883392332513e-8). clearbody c7.
  set (c8 := 0.127562783426e-1). clearbody c8.
  set (c9 := 0.635191613389e-2). clearbody c9.
  set (c10 := 0.265484716608e-7). clearbody c10.
  set (c11 := 0.159349479045e-5). clearbody c11.
  set (c12 := 0.522116437235e-9). clearbody c12.
  set (c13 := 0.438031096213e-6). clearbody c13.
  set (c14 := 0.161674495909). clearbody c14.
  set (c15 := 0.968403156410e-4). clearbody c15.
  set (c16 := 0.485639620015e-5). clearbody c16.
  set (c17 := 0.340597039004e-3). clearbody c17.
  set (c18 := 1402.392). clearbody c18.
  set (d := 0.161674495909e-8). clearbody d. ring.
Qed.
Print Assumptions C96_formula_partial.

Local Open Scope string_scope.
Definition the_pa : String.string := "Pa".
Definition the_at : String.string := "at".
Local Close Scope string_scope.
(** The unit named by a string, letter case ignored. *)
Definition unit_size (u : String.string) : option R :=
  option_map snd (find (fun p => String.eqb (lower (fst p)) (lower u)) units).

(** C97: the pressure is converted from the named unit (of z Pa) to technical
    atmospheres (of 98066.5 Pa), to one part in 10^4; letter case does not
    matter, as in [unit_size]. *)
Theorem C97_units : forall P u z, unit_size u = Some z ->
  exists f, pressure (N:=EN) (Some P) u = (Some (P * f), false) /\ Rabs (f * 98066.5 - z) <= 0.0001 * z.
Proof.
  intros P u z H. unfold unit_size, units in H. cbn -[String.eqb Rdiv lower] in H.
  unfold pressure. rewrite !dec_E by lia.
  set (l := lower u) in *. clearbody l.
  repeat match type of H with context [lower ?x] => let y := eval vm_compute in (lower x) in change (lower x) with y in H end.
  repeat match type of H with context [String.eqb ?a l] => rewrite (String.eqb_sym a l) in H end.
  repeat match type of H with
  | context [if ?b then _ else _] => destruct b; [cbn -[Rdiv] in H; injection H as <-|]
  end; [..|discriminate].
  all: eexists; split; [apply f_equal2; [cbn [nmul EN e2 e1]; f_equal; (reflexivity || (symmetry; apply Rmult_1_r))|reflexivity]|].
  all: repeat match goal with |- context [IZR (10 ^ ?k)] => let y := eval vm_compute in (10 ^ k)%Z in change (10 ^ k)%Z with y end.
  all: apply Rabs_le; lra.
Qed.
Print Assumptions C97_units.

(** ... an unknown unit is reported and taken as Pa; missing arguments mean
    fresh water, Pa and 101325 Pa; without arguments nothing is returned. *)
Theorem C97_unknown : forall T P u S, unit_size u = None ->
  exists c, h2o_soundspeed (N:=EN) (H4 T P u S) = (Some c, true) /\
            h2o_soundspeed (N:=EN) (H4 T P the_pa S) = (Some c, false).
Proof.
  intros T P u S H. unfold unit_size, units in H. cbn -[String.eqb Rdiv lower] in H.
  unfold h2o_soundspeed, pressure. set (l := lower u) in *. clearbody l.
  repeat match type of H with context [lower ?x] => let y := eval vm_compute in (lower x) in change (lower x) with y in H end.
  repeat match type of H with context [String.eqb ?a l] => rewrite (String.eqb_sym a l) in H end.
  repeat match type of H with
  | context [if ?b then _ else _] => destruct b; [discriminate|]
  end.
  eexists. split; reflexivity.
Qed.
Theorem C97_defaults : forall T P u,
  h2o_soundspeed (N:=EN) (H3 T P u) = h2o_soundspeed (N:=EN) (H4 T P u (Some 0)) /\
  h2o_soundspeed (N:=EN) (H2 T P) = h2o_soundspeed (N:=EN) (H4 T P the_pa (Some 0)) /\
  h2o_soundspeed (N:=EN) (H1 T) = h2o_soundspeed (N:=EN) (H4 (N:=EN) T (Some 101325) the_pa (Some 0)) /\
  h2o_soundspeed (N:=EN) H0 = (None, false).
Proof. intros. repeat split; reflexivity. Qed.
Print Assumptions C97_unknown.
Print Assumptions C97_defaults.
Local Open Scope string_scope.
Example C97_ex : unit_size "BAR" = Some 100000 /\ unit_size "mmhg" = Some 133.322 /\ unit_size "torr" = None.
Proof. repeat split; reflexivity. Qed.
Local Close Scope string_scope.

(** C96 refuted: for sea water of 35 ppt at 20 degrees and a pressure of one
    technical atmosphere the returned speed is negative, and for fresh water at
    any temperature with no other argument it is more than 0.16 m/s too low. *)
Theorem C96_refuted_sea : exists c, h2o_soundspeed (N:=EN) (H4 (N:=EN) (Some 20) (Some 1) the_at (Some 35)) = (Some (Some c), false) /\ c < 0
  /\ 1500 < del_grosso 20 1 35.
Proof.
  exists (code_speed 20 1 35). split; [|unfold code_speed, del_grosso; split; lra].
  unfold h2o_soundspeed. change (pressure (N:=EN) (Some 1) the_at) with (Some 1, false). cbv iota beta. change (nofZ (n:=EN) 0) with (Some 0). now rewrite <- speed_E.
Qed.
Theorem C96_refuted_fresh : forall T, 0 <= T <= 100 ->
  exists c p, h2o_soundspeed (N:=EN) (H1 (N:=EN) (Some T)) = (Some (Some c), false) /\
    Rabs (p * 98066.5 - 101325) <= 0.0001 * 101325 /\ c < del_grosso T p 0 - 0.16.
Proof.
  intros T HT. exists (code_speed T 1.033211025 0), 1.033211025. split; [|split].
  - unfold h2o_soundspeed, pressure. cbn -[dec soundspeed IZR]. rewrite dec_E by lia. cbn [nmul EN e2].
    change (10 ^ 9)%Z with 1000000000%Z. replace (101325 * (10197 / 1000000000)) with 1.033211025 by lra. change (nofZ (n:=EN) 0) with (Some 0). now rewrite <- speed_E.
  - apply Rabs_le; lra.
  - pose proof (speed_E T 1.033211025 0) as E. rewrite C96_formula_partial in E. injection E as <-. nra.
Qed.
Print Assumptions C96_refuted_sea.
Print Assumptions C96_refuted_fresh.
