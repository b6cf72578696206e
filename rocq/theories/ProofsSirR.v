(** ProofsSirR.v - closed form of the lossless single-element responses in
    exact arithmetic. *)
From Coq Require Import Reals Lra Lia ZArith List Bool.
From Coq Require Import ZifyBool ZifyNat.
From Verif Require Import Base BaseLemmas ModelSir ModelArr NumR SpecSir SpecRayleigh ProofsEnum ProofsR ProofsRayleigh.
Import ListNotations.
Open Scope R_scope.

(** nth of upd *)
Lemma nth_upd (h : list R) k j f d : (k < length h)%nat ->
  nth j (upd h k f) d = if Nat.eqb k j then f (nth k h d) else nth j h d.
Proof.
  revert k j; induction h as [|x t IH]; intros [|k] [|j] H; cbn in *; try lia; auto.
  apply IH. lia.
Qed.

Lemma map_upd {A B} (g : A -> B) (h : list A) k f f' : (forall a, g (f a) = f' (g a)) ->
  map g (upd h k f) = upd (map g h) k f'.
Proof.
  intros E. revert k; induction h as [|x t IH]; intros [|k]; cbn; auto; [now rewrite E|now rewrite IH].
Qed.

(** A list of n values given by a function of the index. *)
Definition tab {A} (n : nat) (f : nat -> A) : list A := map f (seq 0 n).

Lemma length_tab {A} n (f : nat -> A) : length (tab n f) = n.
Proof. unfold tab. now rewrite map_length, seq_length. Qed.
Lemma nth_tab n (f : nat -> R) k d : (k < n)%nat -> nth k (tab n f) d = f k.
Proof.
  intros H. unfold tab. rewrite (nth_indep _ d (f O)) by (rewrite map_length, seq_length; lia).
  rewrite map_nth, seq_nth by lia. reflexivity.
Qed.
Lemma nth_error_tab {A} n (f : nat -> A) k : nth_error (tab n f) k = if (k <? n)%nat then Some (f k) else None.
Proof.
  unfold tab. destruct (k <? n)%nat eqn:E.
  - rewrite nth_error_map. rewrite (nth_error_nth' _ O) by (rewrite seq_length; lia).
    cbn. rewrite seq_nth by lia. reflexivity.
  - apply nth_error_None. rewrite map_length, seq_length. lia.
Qed.
Lemma tab_ext {A} n (f g : nat -> A) : (forall k, (k < n)%nat -> f k = g k) -> tab n f = tab n g.
Proof. intros H. apply map_ext_in. intros k Hk. apply in_seq in Hk. apply H. lia. Qed.
Lemma tab_nth (h : list R) : tab (length h) (fun k => nth k h 0) = h.
Proof.
  apply nth_error_ext. intros i. rewrite nth_error_tab.
  destruct (i <? length h)%nat eqn:E.
  - rewrite (nth_error_nth' _ 0) by lia. reflexivity.
  - symmetry. apply nth_error_None. lia.
Qed.
Lemma map_tab {A B} (g : A -> B) n f : map g (tab n f) = tab n (fun k => g (f k)).
Proof. unfold tab. now rewrite map_map. Qed.

(** All source points inside the record? *)
Definition in_rec (q : rpar) (ntz : Z) (delay : R) (o : pos) (s : source) : bool :=
  ((0 <=? arrives_at q delay o s) && (arrives_at q delay o s <? ntz))%Z.

Lemma in_window_E q ntz w delay o s :
  in_window (N:=EN) ntz (contrib_of q w delay o s) = in_rec q ntz delay o s.
Proof. reflexivity. Qed.

Lemma rayleigh_cons q w delay o s src k :
  rayleigh q w delay o (s :: src) k =
  (if Z.eqb (arrives_at q delay o s) k then strength q w o s else 0) + rayleigh q w delay o src k.
Proof. reflexivity. Qed.

Lemma accumulate_R q w delay o ntz src : (0 <= ntz)%Z -> forall h : list R, length h = Z.to_nat ntz ->
  accumulate (N:=EN) ntz (map (contrib_of q w delay o) src) (map Some h) =
  map Some (tab (Z.to_nat ntz) (fun k => nth k h 0 + rayleigh q w delay o src (Z.of_nat k))).
Proof.
  intros Hnt. induction src as [|s src IH]; intros h Hh.
  - cbn [map accumulate fold_left]. unfold accumulate. cbn [fold_left]. f_equal.
    rewrite <- (tab_nth h) at 1. rewrite Hh. apply tab_ext. intros k Hk. unfold rayleigh. cbn. ring.
  - cbn [map]. rewrite accumulate_cons. rewrite in_window_E.
    change (sample_of (contrib_of q w delay o s)) with (Some (arrives_at q delay o s)).
    cbv iota. unfold in_rec.
    destruct ((0 <=? arrives_at q delay o s) && (arrives_at q delay o s <? ntz))%Z eqn:E.
    + rewrite <- (map_upd Some h _ (fun x => x + strength q w o s)) by (intros a; reflexivity).
      rewrite IH by (rewrite length_upd; exact Hh). f_equal. apply tab_ext. intros k Hk.
      rewrite nth_upd by lia. rewrite rayleigh_cons.
      destruct (Nat.eqb (Z.to_nat (arrives_at q delay o s)) k) eqn:F.
      * replace (Z.to_nat (arrives_at q delay o s)) with k by lia.
        replace (Z.eqb (arrives_at q delay o s) (Z.of_nat k)) with true by lia. ring.
      * replace (Z.eqb (arrives_at q delay o s) (Z.of_nat k)) with false by lia. ring.
    + rewrite IH by exact Hh. f_equal. apply tab_ext. intros k Hk. rewrite rayleigh_cons.
      replace (Z.eqb (arrives_at q delay o s) (Z.of_nat k)) with false by lia. ring.
Qed.

(** Transducers that zero their output first. *)
Definition clears (g : geom) : bool :=
  match g with GRect _ _ | GCirc _ | GCylind _ _ _ => false | _ => true end.

Definition rec_status (lvl : ErrorLevel) (ok : bool) : SIRError :=
  if ok then err_none else dream_out_of_bounds_err lvl.

Lemma representable_E K q w delay o g : idx_ok K q delay g o ->
  representable (N:=EN) K (map (contrib_of q w delay o) (sources q g)).
Proof.
  intros H. apply Forall_map. apply Forall_forall. intros s Hs. exists (arrives_at q delay o s).
  split; [reflexivity|]. exact (H s Hs).
Qed.

Lemma all_in_E q ntz w delay o src :
  all_in (N:=EN) ntz (map (contrib_of q w delay o) src) = forallb (in_rec q ntz delay o) src.
Proof. unfold all_in. induction src as [|s src IH]; cbn [map forallb]; auto. now rewrite IH, in_window_E. Qed.

Lemma before_first_E q ntz w delay o src :
  before_first_out (N:=EN) ntz (map (contrib_of q w delay o) src) =
  map (contrib_of q w delay o) ((fix bf l := match l with [] => [] | s :: r => if in_rec q ntz delay o s then s :: bf r else [] end) src).
Proof.
  induction src as [|s src IH]; cbn [map before_first_out]; auto. rewrite in_window_E.
  destruct (in_rec q ntz delay o s); cbn [map]; [now rewrite IH|reflexivity].
Qed.

Lemma map_repeat {A B} (f : A -> B) a n : map f (repeat a n) = repeat (f a) n.
Proof. induction n; cbn; auto. now rewrite IHn. Qed.

(** The element function of the code, any weight, 'ignore' or 'warn'. *)
Theorem run_scanner_R K fuel q g w delay o at_ lvl ntz h :
  par_ok q -> geom_ok q g -> off_source q g o -> idx_ok K q delay g o -> enough fuel q g ->
  (weighted g = false -> w = 1) -> (0 <= ntz)%Z -> length h = Z.to_nat ntz -> no_bail lvl ->
  run_scanner K fuel (scanner_of at_ (emb_samp q ntz) g w delay o) None lvl ntz 0 (map Some h) =
  Ok (map Some (tab (Z.to_nat ntz) (fun k => (if clears g then 0 else nth k h 0) + rayleigh q w delay o (sources q g) (Z.of_nat k))),
      rec_status lvl (forallb (in_rec q ntz delay o) (sources q g))).
Proof.
  intros Hq Hg Hoff Hi Hf Hw Hnt Hh Hl.
  pose proof (points_E q ntz fuel delay o at_ g w Hq Hg Hoff Hf Hw) as HP.
  rewrite (run_scanner_nobail (N:=EN) K fuel _ None lvl ntz _ (map Some h) HP);
    [|now rewrite map_length|now apply representable_E|exact Hl].
  rewrite emit_all_lossless by (apply length_start_buf; now rewrite map_length).
  cbn [bind]. rewrite all_in_E. f_equal. f_equal.
  unfold start_buf.
  replace (sc_clear (scanner_of at_ (emb_samp q ntz) g w delay o)) with (clears g) by (destruct g; reflexivity).
  destruct (clears g).
  - unfold zeros. change (nofZ (n:=EN) 0) with (Some 0). rewrite <- (map_repeat Some 0).
    rewrite accumulate_R by (auto; now rewrite repeat_length).
    f_equal. apply tab_ext. intros k Hk. f_equal. apply nth_repeat.
  - now apply accumulate_R.
Qed.

(** 'stop': if everything is inside the record the same result. *)
Theorem run_scanner_stop_R K fuel q g w delay o at_ lvl ntz h :
  par_ok q -> geom_ok q g -> off_source q g o -> idx_ok K q delay g o -> enough fuel q g ->
  (weighted g = false -> w = 1) -> (0 <= ntz)%Z -> length h = Z.to_nat ntz -> bails lvl ->
  forallb (in_rec q ntz delay o) (sources q g) = true ->
  run_scanner K fuel (scanner_of at_ (emb_samp q ntz) g w delay o) None lvl ntz 0 (map Some h) =
  Ok (map Some (tab (Z.to_nat ntz) (fun k => (if clears g then 0 else nth k h 0) + rayleigh q w delay o (sources q g) (Z.of_nat k))),
      err_none).
Proof.
  intros Hq Hg Hoff Hi Hf Hw Hnt Hh Hl Hall.
  pose proof (points_E q ntz fuel delay o at_ g w Hq Hg Hoff Hf Hw) as HP.
  rewrite (run_scanner_bail (N:=EN) K fuel _ None lvl ntz _ (map Some h) HP);
    [|now rewrite map_length|now apply representable_E|exact Hl].
  rewrite before_first_out_all by (rewrite all_in_E; exact Hall).
  rewrite emit_all_lossless by (apply length_start_buf; now rewrite map_length).
  cbn [bind]. rewrite all_in_E, Hall. f_equal. f_equal.
  unfold start_buf.
  replace (sc_clear (scanner_of at_ (emb_samp q ntz) g w delay o)) with (clears g) by (destruct g; reflexivity).
  destruct (clears g).
  - unfold zeros. change (nofZ (n:=EN) 0) with (Some 0). rewrite <- (map_repeat Some 0).
    rewrite accumulate_R by (auto; now rewrite repeat_length).
    f_equal. apply tab_ext. intros k Hk. f_equal. apply nth_repeat.
  - now apply accumulate_R.
Qed.

Lemma sir_scanner K fuel g q ntz lvl o delay h :
  sir K fuel q ntz g lvl delay o h =
  run_scanner K fuel (scanner_of false (emb_samp q ntz) g 1 delay o) None lvl ntz 0 (map Some h).
Proof. destruct g; reflexivity. Qed.

Lemma old_clears g h k : (if clears g then 0 else nth k h 0) = old g h k.
Proof. destruct g; reflexivity. Qed.

Theorem sir_R K fuel q g delay o lvl ntz h :
  defined K fuel q ntz g delay o -> length h = Z.to_nat ntz -> no_bail lvl ->
  sir K fuel q ntz g lvl delay o h =
  Ok (map Some (tab (Z.to_nat ntz) (fun k => old g h k + rayleigh q 1 delay o (sources q g) (Z.of_nat k))),
      rec_status lvl (forallb (in_rec q ntz delay o) (sources q g))).
Proof.
  intros [] Hh Hl. rewrite sir_scanner. rewrite run_scanner_R by auto. do 3 f_equal.
  apply tab_ext. intros k _. now rewrite old_clears.
Qed.

(** ** Mirror symmetry *)
From Coq Require Import Permutation.

Lemma Rsum_perm l l' : Permutation l l' -> Rsum l = Rsum l'.
Proof. induction 1; unfold Rsum in *; cbn; lra. Qed.

Definition flip_x (s : source) : source := {| s_x := - s_x s; s_y := s_y s; s_z := s_z s; s_ds := s_ds s; s_tau := s_tau s |}.
Definition flip_y (s : source) : source := {| s_x := s_x s; s_y := - s_y s; s_z := s_z s; s_ds := s_ds s; s_tau := s_tau s |}.

Lemma dist_flip_x o s : dist (mirror_x o) s = dist o (flip_x s).
Proof. unfold dist. cbn. f_equal. ring. Qed.
Lemma dist_flip_y o s : dist (mirror_y o) s = dist o (flip_y s).
Proof. unfold dist. cbn. f_equal. ring. Qed.

Lemma map_rev_seq {A} (f : nat -> A) m : map (fun i => f (m - 1 - i)%nat) (seq 0 m) = rev (map f (seq 0 m)).
Proof.
  induction m as [|m IH]; auto.
  assert (E : rev (map f (seq 0 (S m))) = f m :: rev (map f (seq 0 m))) by (rewrite seq_S, map_app, rev_app_distr; reflexivity).
  rewrite E, <- IH. cbn [seq map]. f_equal; [f_equal; lia|].
  rewrite <- seq_shift, map_map. apply map_ext. intros i. f_equal. lia.
Qed.

Lemma count_whole lo d m : 0 < d -> count (lo + d / 2) (lo + INR m * d) d = m.
Proof.
  intros Hd. unfold count. replace ((lo + INR m * d - (lo + d / 2)) / d) with (INR m - 1 / 2) by (field; lra).
  rewrite (Zfloor_unique _ (Z.of_nat m - 1)); [lia|]. rewrite minus_IZR, <- INR_IZR_INZ. lra.
Qed.

Lemma midpoints_sym w d m : 0 < d -> 2 * w = INR m * d ->
  map Ropp (midpoints (- w) w d) = rev (midpoints (- w) w d).
Proof.
  intros Hd Hw. unfold midpoints. replace (count (- w + d / 2) w d) with m.
  - rewrite map_map, <- map_rev_seq. apply map_ext_in. intros i Hi. apply in_seq in Hi. unfold mid.
    rewrite minus_INR, minus_INR by lia. cbn [INR]. lra.
  - symmetry. rewrite <- (count_whole (- w) d m Hd). f_equal. lra.
Qed.

Lemma midpoints_perm w d m : 0 < d -> 2 * w = INR m * d ->
  Permutation (map Ropp (midpoints (- w) w d)) (midpoints (- w) w d).
Proof. intros. erewrite midpoints_sym by eauto. symmetry. apply Permutation_rev. Qed.

Lemma flat_map_perm {A B} (f g : A -> list B) l : (forall a, In a l -> Permutation (f a) (g a)) ->
  Permutation (flat_map f l) (flat_map g l).
Proof.
  induction l as [|a l IH]; intros H; cbn; auto. apply Permutation_app; [apply H; left; auto|apply IH; intros; apply H; right; auto].
Qed.
Lemma flat_map_perm_l {A B} (f : A -> list B) l l' : Permutation l l' -> Permutation (flat_map f l) (flat_map f l').
Proof.
  induction 1; cbn; auto.
  - now apply Permutation_app_head.
  - rewrite !app_assoc. apply Permutation_app_tail, Permutation_app_comm.
  - etransitivity; eauto.
Qed.

Lemma flat_map_map_l {A B C} (f : B -> list C) (g : A -> B) l : flat_map f (map g l) = flat_map (fun a => f (g a)) l.
Proof. induction l as [|a l IH]; cbn; auto. now rewrite IH. Qed.

Lemma pow2_opp x : (- x)^2 = x^2.
Proof. ring. Qed.
Lemma focus_flip_x c f F X Y RR x y : focus_tau c f F X Y RR (- x) y = focus_tau c f F X Y RR x y.
Proof. unfold focus_tau. destruct f; rewrite ?pow2_opp; reflexivity. Qed.
Lemma focus_flip_y c f F X Y RR x y : focus_tau c f F X Y RR x (- y) = focus_tau c f F X Y RR x y.
Proof. unfold focus_tau. destruct f; rewrite ?pow2_opp; reflexivity. Qed.

(** Reflecting the x coordinate of every point of a grid with symmetric rows. *)
Lemma perm_rows_x (F : R -> R -> source) X Y :
  Permutation (map Ropp X) X -> (forall x y, flip_x (F x y) = F (- x) y) ->
  Permutation (map flip_x (flat_map (fun y => map (fun x => F x y) X) Y)) (flat_map (fun y => map (fun x => F x y) X) Y).
Proof.
  intros HX HF. rewrite flat_map_map. apply flat_map_perm. intros y _. rewrite map_map.
  erewrite map_ext by (intros x; apply HF).
  rewrite <- (map_map Ropp (fun x => F x y)). now apply Permutation_map.
Qed.
(** Reflecting y; the rows may depend on y but not on its sign. *)
Lemma perm_rows_y (F : R -> R -> source) (X : R -> list R) Y :
  Permutation (map Ropp Y) Y -> (forall x y, flip_y (F x y) = F x (- y)) -> (forall y, X (- y) = X y) ->
  Permutation (map flip_y (flat_map (fun y => map (fun x => F x y) (X y)) Y)) (flat_map (fun y => map (fun x => F x y) (X y)) Y).
Proof.
  intros HY HF HX. rewrite flat_map_map.
  rewrite (flat_map_ext_in _ (fun y => map (fun x => F x (- y)) (X (- y)))).
  - rewrite <- (flat_map_map_l (fun y => map (fun x => F x y) (X y)) Ropp). now apply flat_map_perm_l.
  - intros y _. rewrite map_map, HX. apply map_ext. intros x. apply HF.
Qed.

Lemma map_rect_xy {A} (f : R * R -> A) (X : R -> list R) Y :
  map f (flat_map (fun y => map (fun x => (x, y)) (X y)) Y) = flat_map (fun y => map (fun x => f (x, y)) (X y)) Y.
Proof. rewrite flat_map_map. apply flat_map_ext_in. intros y _. now rewrite map_map. Qed.

Lemma sources_flip_x q g : par_ok q -> whole_x q g -> Permutation (map flip_x (sources q g)) (sources q g).
Proof.
  intros (Hx & _) Hw.
  assert (HX : forall a, (exists m : nat, a = INR m * p_dx q) ->
     Permutation (map Ropp (midpoints (- a / 2) (a / 2) (p_dx q))) (midpoints (- a / 2) (a / 2) (p_dx q))).
  { intros a (m & Ha). replace (- a / 2) with (- (a / 2)) by lra. apply (midpoints_perm _ _ m); auto. lra. }
  destruct g; cbn [whole_x] in Hw; try contradiction; cbn [sources].
  - unfold rect_xy. rewrite (map_rect_xy _ (fun _ => midpoints (- a / 2) (a / 2) (p_dx q))).
    apply (perm_rows_x (fun x y => flat (p_dx q * p_dy q) x y)); [now apply HX|reflexivity].
  - unfold rect_xy. rewrite (map_rect_xy _ (fun _ => midpoints (- a / 2) (a / 2) (p_dx q))).
    apply (perm_rows_x (fun x y => {| s_x := x; s_y := y; s_z := 0; s_ds := p_dx q * p_dy q;
                           s_tau := focus_tau (p_cp q) f F a b (a^2 + b^2) x y |})); [now apply HX|].
    intros x y. unfold flip_x. cbn [s_x s_y s_z s_ds s_tau]. now rewrite focus_flip_x.
  - rewrite map_map. rewrite <- (map_map Ropp (fun x => flat (p_dx q * p_dy q) x 0)). apply Permutation_map. now apply HX.
  - apply (perm_rows_x (fun x phi => {| s_x := x; s_y := Rabs Rcurv * sin phi;
              s_z := (if Rleb 0 Rcurv then Rabs Rcurv * (1 - cos phi) else - (Rabs Rcurv * (1 - cos phi)));
              s_ds := Rabs Rcurv * p_dx q * asin (p_dy q / Rabs Rcurv); s_tau := 0 |})); [now apply HX|reflexivity].
Qed.

Lemma sources_flip_y q g : par_ok q -> geom_ok q g -> whole_y q g -> Permutation (map flip_y (sources q g)) (sources q g).
Proof.
  intros (Hx & Hy & _) Hg Hw.
  assert (HX : forall a, (exists m : nat, a = INR m * p_dy q) ->
     Permutation (map Ropp (midpoints (- a / 2) (a / 2) (p_dy q))) (midpoints (- a / 2) (a / 2) (p_dy q))).
  { intros a (m & Ha). replace (- a / 2) with (- (a / 2)) by lra. apply (midpoints_perm _ _ m); auto. lra. }
  assert (HD : forall r, (exists m : nat, 2 * r = INR m * p_dy q) ->
     Permutation (map Ropp (midpoints (- r) r (p_dy q))) (midpoints (- r) r (p_dy q))).
  { intros r (m & Ha). apply (midpoints_perm _ _ m); auto. }
  assert (HR : forall r y, midpoints (- sqrt (r^2 - (- y)^2)) (sqrt (r^2 - (- y)^2)) (p_dx q) =
                           midpoints (- sqrt (r^2 - y^2)) (sqrt (r^2 - y^2)) (p_dx q)) by (intros; now rewrite pow2_opp).
  destruct g; cbn [whole_y] in Hw; cbn [sources].
  - unfold rect_xy. rewrite (map_rect_xy _ (fun _ => midpoints (- a / 2) (a / 2) (p_dx q))).
    apply (perm_rows_y (fun x y => flat (p_dx q * p_dy q) x y) (fun _ => midpoints (- a / 2) (a / 2) (p_dx q))); [now apply HX|reflexivity|reflexivity].
  - unfold rect_xy. rewrite (map_rect_xy _ (fun _ => midpoints (- a / 2) (a / 2) (p_dx q))).
    apply (perm_rows_y (fun x y => {| s_x := x; s_y := y; s_z := 0; s_ds := p_dx q * p_dy q;
                           s_tau := focus_tau (p_cp q) f F a b (a^2 + b^2) x y |}) (fun _ => midpoints (- a / 2) (a / 2) (p_dx q))); [now apply HX| |reflexivity].
    intros x y. unfold flip_y. cbn [s_x s_y s_z s_ds s_tau]. now rewrite focus_flip_y.
  - unfold disc_xy. rewrite map_rect_xy.
    apply (perm_rows_y (fun x y => flat (p_dx q * p_dy q) x y)
             (fun y => midpoints (- sqrt (rad^2 - y^2)) (sqrt (rad^2 - y^2)) (p_dx q))); [now apply HD|reflexivity|apply HR].
  - unfold disc_xy. rewrite map_rect_xy.
    apply (perm_rows_y (fun x y => {| s_x := x; s_y := y; s_z := 0; s_ds := p_dx q * p_dy q;
                           s_tau := focus_tau (p_cp q) f F rad rad (rad^2) x y |})
             (fun y => midpoints (- sqrt (rad^2 - y^2)) (sqrt (rad^2 - y^2)) (p_dx q))); [now apply HD| |apply HR].
    intros x y. unfold flip_y. cbn [s_x s_y s_z s_ds s_tau]. now rewrite focus_flip_y.
  - rewrite map_map. unfold flip_y, flat. cbn [s_x s_y s_z s_ds s_tau].
    rewrite (map_ext _ (fun x => {| s_x := x; s_y := 0; s_z := 0; s_ds := p_dx q * p_dy q; s_tau := 0 |})); auto.
    intros x. now rewrite Ropp_0.
  - unfold disc_xy. rewrite map_rect_xy.
    apply (perm_rows_y (fun x y => {| s_x := x; s_y := y;
              s_z := (if Rleb 0 Rcurv then Rabs Rcurv - sqrt (Rcurv^2 - x^2 - y^2) else - (Rabs Rcurv - sqrt (Rcurv^2 - x^2 - y^2)));
              s_ds := p_dx q * p_dy q; s_tau := 0 |})
             (fun y => midpoints (- sqrt (rad^2 - y^2)) (sqrt (rad^2 - y^2)) (p_dx q))); [now apply HD| |apply HR].
    intros x y. unfold flip_y. cbn [s_x s_y s_z s_ds s_tau]. now rewrite pow2_opp.
  - destruct Hg as [Hb Hd].
    assert (HA : 0 < Rabs Rcurv) by (pose proof (Rabs_pos (b / 2)); lra).
    assert (Hdp : 0 < asin (p_dy q / Rabs Rcurv)).
    { apply asin_pos. split; [apply Rdiv_lt_0_compat; lra|].
      apply (Rmult_le_reg_r (Rabs Rcurv)); auto; unfold Rdiv; rewrite Rmult_assoc, Rinv_l by lra; lra. }
    destruct Hw as (m & Hm).
    apply (perm_rows_y (fun x phi => {| s_x := x; s_y := Rabs Rcurv * sin phi;
              s_z := (if Rleb 0 Rcurv then Rabs Rcurv * (1 - cos phi) else - (Rabs Rcurv * (1 - cos phi)));
              s_ds := Rabs Rcurv * p_dx q * asin (p_dy q / Rabs Rcurv); s_tau := 0 |})
              (fun _ => midpoints (- a / 2) (a / 2) (p_dx q))); [|  |reflexivity].
    + apply (midpoints_perm _ _ m); auto.
    + intros x phi. unfold flip_y. cbn [s_x s_y s_z s_ds s_tau]. rewrite cos_neg, sin_neg.
      f_equal. ring.
Qed.

Lemma rayleigh_flip (fl : source -> source) q w delay o o' src k :
  (forall s, dist o' s = dist o (fl s)) -> (forall s, s_ds (fl s) = s_ds s) -> (forall s, s_tau (fl s) = s_tau s) ->
  rayleigh q w delay o' src k = rayleigh q w delay o (map fl src) k.
Proof.
  intros Hd H1 H2. unfold rayleigh. rewrite map_map. f_equal. apply map_ext. intros s.
  unfold arrives_at, arrival, strength. now rewrite Hd, H1, H2.
Qed.
Lemma in_rec_flip (fl : source -> source) q ntz delay o o' s :
  (forall s, dist o' s = dist o (fl s)) -> (forall s, s_tau (fl s) = s_tau s) ->
  in_rec q ntz delay o' s = in_rec q ntz delay o (fl s).
Proof. intros Hd H2. unfold in_rec, arrives_at, arrival. now rewrite Hd, H2. Qed.

Lemma forallb_perm {A} (f : A -> bool) l l' : Permutation l l' -> forallb f l = forallb f l'.
Proof.
  induction 1; cbn; auto; try congruence.
  destruct (f x), (f y); reflexivity.
Qed.
Lemma forallb_map' {A B} (f : B -> bool) (g : A -> B) l : forallb f (map g l) = forallb (fun a => f (g a)) l.
Proof. induction l as [|a l IH]; cbn; auto. now rewrite IH. Qed.
Lemma forallb_ext' {A} (f g : A -> bool) l : (forall a, f a = g a) -> forallb f l = forallb g l.
Proof. intros H. induction l as [|a l IH]; cbn; auto. now rewrite IH, H. Qed.
Lemma rayleigh_perm q w delay o src src' k : Permutation src src' -> rayleigh q w delay o src k = rayleigh q w delay o src' k.
Proof. intros H. unfold rayleigh. apply Rsum_perm. now apply Permutation_map. Qed.

Lemma mirror_sir (fl : source -> source) K fuel q g delay o o' lvl ntz h :
  defined K fuel q ntz g delay o -> length h = Z.to_nat ntz -> no_bail lvl ->
  (forall s, dist o' s = dist o (fl s)) -> (forall s, s_ds (fl s) = s_ds s) -> (forall s, s_tau (fl s) = s_tau s) ->
  Permutation (map fl (sources q g)) (sources q g) ->
  defined K fuel q ntz g delay o' /\ sir K fuel q ntz g lvl delay o' h = sir K fuel q ntz g lvl delay o h.
Proof.
  intros Hdef Hh Hl Hd H1 H2 HP.
  assert (Hin : forall s, In s (sources q g) -> In (fl s) (sources q g)).
  { intros s Hs. apply (Permutation_in _ HP). now apply in_map. }
  assert (Hdef' : defined K fuel q ntz g delay o').
  { destruct Hdef as [D1 D2 D3 D4 D5 D6]. split; auto.
    - intros s Hs. rewrite Hd. auto.
    - intros s Hs. specialize (D4 (fl s) (Hin s Hs)).
      replace (arrives_at q delay o' s) with (arrives_at q delay o (fl s)); [exact D4|].
      unfold arrives_at, arrival. now rewrite Hd, H2. }
  split; auto. rewrite !sir_R by auto. f_equal. f_equal.
  - f_equal. apply tab_ext. intros k Hk. rewrite (rayleigh_flip fl q 1 delay o o') by auto.
    f_equal. now apply rayleigh_perm.
  - f_equal. transitivity (forallb (in_rec q ntz delay o) (map fl (sources q g))).
    + rewrite forallb_map'. apply forallb_ext'. intros s. now apply in_rec_flip.
    + now apply forallb_perm.
Qed.

(** ** Linearity *)
Lemma sources_scale c q g : sources (scale_v c q) g = sources q g.
Proof. destruct g; reflexivity. Qed.
Lemma rayleigh_scale c q w delay o src k : rayleigh (scale_v c q) w delay o src k = c * rayleigh q w delay o src k.
Proof.
  induction src as [|s src IH].
  - unfold rayleigh; cbn; ring.
  - rewrite !rayleigh_cons, IH. change (arrives_at (scale_v c q) delay o s) with (arrives_at q delay o s).
    destruct (Z.eqb _ _); [|ring]. unfold strength. cbn [scale_v p_v p_dt]. unfold Rdiv. ring.
Qed.
Lemma defined_scale c K fuel q ntz g delay o :
  defined K fuel q ntz g delay o -> defined K fuel (scale_v c q) ntz g delay o.
Proof.
  intros [D1 D2 D3 D4 D5 D6]. constructor.
  - exact D1.
  - destruct g; exact D2.
  - intros s. rewrite sources_scale. apply D3.
  - intros s. rewrite sources_scale. apply D4.
  - destruct g; exact D5.
  - exact D6.
Qed.

(** ** Delay shift *)
Lemma arrival_shift q delay o s j : p_dt q <> 0 -> arrival q (delay + IZR j * p_dt q) o s = arrival q delay o s + IZR (- j).
Proof.
  intros H. unfold arrival. rewrite opp_IZR. unfold Rdiv.
  replace (IZR j) with (IZR j * p_dt q * / p_dt q) at 2 by (field; auto). ring.
Qed.

(** No source point arrives exactly half way between two samples. *)
Definition no_tie (q : rpar) (delay : R) (o : pos) (g : geom) : Prop :=
  forall s z, In s (sources q g) -> arrival q delay o s <> IZR z + 1 / 2.

Lemma arrives_shift q delay o g j s : p_dt q <> 0 -> (Z.even j = true \/ no_tie q delay o g) -> In s (sources q g) ->
  arrives_at q (delay + IZR j * p_dt q) o s = (arrives_at q delay o s - j)%Z.
Proof.
  intros Hdt Hj Hs. unfold arrives_at. rewrite arrival_shift by auto. rewrite Zrint_plus; [lia|].
  destruct Hj as [Hj|Hj]; [left; now rewrite Z.even_opp|right].
  unfold is_tie. intros E. apply (Hj s (Zfloor (arrival q delay o s)) Hs). lra.
Qed.

Lemma rayleigh_shift q w delay o g j k : p_dt q <> 0 -> (Z.even j = true \/ no_tie q delay o g) ->
  rayleigh q w (delay + IZR j * p_dt q) o (sources q g) k = rayleigh q w delay o (sources q g) (k + j).
Proof.
  intros Hdt Hj. unfold rayleigh. f_equal. apply map_ext_in. intros s Hs.
  rewrite (arrives_shift q delay o g j s Hdt Hj Hs).
  replace (Z.eqb (arrives_at q delay o s - j) k) with (Z.eqb (arrives_at q delay o s) (k + j)) by lia. reflexivity.
Qed.
