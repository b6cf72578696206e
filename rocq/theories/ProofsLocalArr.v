(** ProofsLocalArr.v - memory safety and locality of the array transducers and
    of [serial] for every transducer. *)
From Verif Require Import Base BaseLemmas ModelSir ModelArr ModelSmp ProofsLocal.
From Coq Require Import ZifyBool ZifyNat.
Ltac Zify.zify_post_hook ::= Z.div_mod_to_equations.

Section LocalArr.
  Context {N : Num} (K : idx_kind).
  Local Notation buf := (list N).
  Local Notation st := (buf * SIRError)%type.

  Record wf_arr (p : arr_par N) : Prop := {
    wa_num : 1 <= num_elements p;
    wa_G : Z.of_nat (length (G p)) = 3 * num_elements p;
    wa_focal : (if FocusMet_is_ud (foc_met p) then num_elements p else 1)
               <= Z.of_nat (length (focal p));
    wa_apod : do_apod p = true -> apod_met p = apod_ud ->
              num_elements p <= Z.of_nat (length (apod p))
  }.

  Definition annu_num (p : annu_par N) : Z := (Z.of_nat (length (Gr p)) + 1) / 2.

  Record wf_annu (q : samp N) (p : annu_par N) : Prop := {
    wn_num : (1 <= length (Gr p))%nat;
    wn_focal : (if FocusMet_is_ud (an_foc_met p) then annu_num p else 1)
               <= Z.of_nat (length (an_focal p));
    wn_apod : an_do_apod p = true -> an_apod_met p = apod_ud ->
              annu_num p <= Z.of_nat (length (an_apod p));
    (* no focusing delay is below minus one sample (after rounding) *)
    wn_delay : K = UnsignedIdx \/
      forall n fo rr ring rmax z,
        annular_disc_radii (Gr p) = Ok ring ->
        buf_get ring n = Ok rr -> buf_get ring (annu_num p - 1) = Ok rmax ->
        buf_get (an_focal p) (if FocusMet_is_ud (an_foc_met p) then n else 0) = Ok fo ->
        nrint (ndiv (focusing_annular (an_foc_met p) fo rr rmax (cp q)) (dt q)) = Some z ->
        -1 <= z
  }.

  Definition wf_transducer (q : samp N) (T : transducer N) : Prop :=
    match T with
    | TArrRect _ _ p | TArrCirc _ p | TArrCylind _ _ _ p => wf_arr p
    | TArrAnnu p => wf_annu q p
    | _ => True
    end.

  (** ** Arrays *)
  Lemma gx_good p n : wf_arr p -> 0 <= n < num_elements p -> good (fun _ => True) (gx p n).
  Proof. intros W Hn. pose proof (wa_G p W). apply buf_get_good; auto. lia. Qed.
  Lemma gy_good p n : wf_arr p -> 0 <= n < num_elements p -> good (fun _ => True) (gy p n).
  Proof. intros W Hn. pose proof (wa_G p W). apply buf_get_good; auto. lia. Qed.
  Lemma gz_good p n : wf_arr p -> 0 <= n < num_elements p -> good (fun _ => True) (gz p n).
  Proof. intros W Hn. pose proof (wa_G p W). apply buf_get_good; auto. lia. Qed.

  Lemma max_abs_good (g : Z -> res N) num : 1 <= num ->
    (forall n, 0 <= n < num -> good (fun _ => True) (g n)) ->
    good (fun _ => True) (max_abs g num).
  Proof.
    intros Hn Hg. unfold max_abs. eapply good_bind; [apply Hg; lia|]. intros g0 _.
    apply (for_from_good (fun _ _ => True)); auto.
    intros j s Hj _. eapply good_bind; [apply Hg; lia|]. intros; exact I.
  Qed.

  Lemma max_dim_good p : wf_arr p -> good (fun _ => True) (max_dim_arr p).
  Proof.
    intros W. unfold max_dim_arr. pose proof (wa_num p W).
    eapply good_bind; [apply max_abs_good; auto; intros; now apply gx_good|]. intros xm _.
    eapply good_bind; [apply max_abs_good; auto; intros; now apply gy_good|]. intros; exact I.
  Qed.

  Lemma elem_delays_good p c xm ym rm n : wf_arr p -> 0 <= n < num_elements p ->
    good (fun _ => True) (elem_delays p c xm ym rm n).
  Proof.
    intros W Hn. unfold elem_delays. pose proof (wa_focal p W) as Hf.
    eapply good_bind; [now apply gx_good|]. intros x _.
    eapply good_bind; [now apply gy_good|]. intros y _.
    eapply (good_bind (fun _ => True)).
    { destruct (FocusMet_is_ud (foc_met p)).
      - apply buf_get_good; auto. lia.
      - eapply good_bind; [apply (buf_get_good _ _ (fun _ => True)); auto; lia|]. intros; exact I. }
    intros fd _. eapply (good_bind (fun _ => True)).
    { destruct (do_apod p) eqn:Ea; [|exact I].
      unfold apodization. destruct (apod_met p) eqn:Em; try exact I.
      pose proof (wa_apod p W Ea Em). apply buf_get_good; auto. lia. }
    intros; exact I.
  Qed.

  Lemma local_st_bind_const {X} (n : nat) (m : res X) (f : X -> Z -> buf -> res st) :
    good (fun _ => True) m ->
    (forall x, m = Ok x -> local_st n (f x)) ->
    local_st n (fun base h => bind m (fun x => f x base h)).
  Proof.
    intros Hm Hf. destruct m as [x|[]|]; cbn in *; try contradiction.
    - apply Hf; reflexivity.
    - intros col Hc; split; cbn; auto.
    - intros col Hc; split; cbn; auto.
  Qed.

  Lemma local_then (n : nat) (f : Z -> buf -> res buf) (g : Z -> buf -> res st) :
    local n f -> local_st n g -> local_st n (fun base h => bind (f base h) (g base)).
  Proof.
    intros Hf Hg col Hc. destruct (Hf col Hc) as [Gf Lf]. split.
    - eapply good_bind; [exact Gf|]. intros h Hh. apply (Hg h Hh).
    - intros pre post. rewrite Lf, bind_rmap, rmap_bind. apply bind_ext. intros h Eh.
      apply (Hg h). exact (good_Ok _ _ _ Gf Eh).
  Qed.

  Lemma local_st_then (n : nat) (f : Z -> buf -> res st) (g : SIRError -> Z -> buf -> res st) :
    local_st n f -> (forall e, local_st n (g e)) ->
    local_st n (fun base h => bind (f base h) (fun s => g (snd s) base (fst s))).
  Proof.
    intros Hf Hg col Hc. destruct (Hf col Hc) as [Gf Lf]. split.
    - eapply good_bind; [exact Gf|]. intros [h e] Hh. apply (Hg e h Hh).
    - intros pre post. rewrite Lf, bind_rmap, rmap_bind. apply bind_ext. intros [h e] Eh.
      cbn [emb_st fst snd]. apply (Hg e h). exact (good_Ok _ _ _ Gf Eh).
  Qed.

  Lemma local_st_ext n (f g : Z -> buf -> res st) :
    (forall b h, f b h = g b h) -> local_st n g -> local_st n f.
  Proof.
    intros E H col Hc. rewrite E. destruct (H col Hc) as [G1 L1]. split; auto.
    intros. rewrite E. apply L1.
  Qed.

  Lemma local_st_ret n e : local_st (N:=N) n (fun _ h => Ok (h, e)).
  Proof. intros col Hc. split; cbn; auto. Qed.

  Lemma arr_elems_local ntn p c xm ym rm xo yo zo delay
    (elem : Z -> N -> N -> N -> N -> N -> buf -> res st) : wf_arr p ->
    (forall x y z d w, local_st ntn (fun base => elem base x y z d w)) ->
    forall left n err, 0 <= n -> n + Z.of_nat left = num_elements p ->
    local_st ntn (fun base h => arr_elems p c xm ym rm xo yo zo delay (elem base) n left (h, err)).
  Proof.
    intros W He left. induction left as [|left IH]; intros n err Hn Hl.
    - apply local_st_ret.
    - cbn [arr_elems].
      apply local_st_bind_const; [apply elem_delays_good; auto; lia|].
      intros [[fd sd] w] _.
      apply local_st_bind_const; [apply gx_good; auto; lia|]. intros x _.
      apply local_st_bind_const; [apply gy_good; auto; lia|]. intros y _.
      apply local_st_bind_const; [apply gz_good; auto; lia|]. intros z _.
      eapply local_st_ext; [|apply (local_st_then ntn _
         (fun e base h => if SIRError_eqb e err_oob then Ok (h, e)
            else arr_elems p c xm ym rm xo yo zo delay (elem base) (n + 1) left (h, e))
         (He (nsub xo x) (nsub yo y) (nsub zo z) (nsub (nsub delay fd) sd) w))].
      + intros b h. apply bind_ext. intros [h' e'] _. reflexivity.
      + intros e. destruct (SIRError_eqb e err_oob); [apply local_st_ret|]. apply IH; lia.
  Qed.

  Lemma arr_serial_local clear ntz p c xo yo zo delay
    (elem : Z -> N -> N -> N -> N -> N -> buf -> res st) : wf_arr p ->
    (forall x y z d w, local_st (Z.to_nat ntz) (fun base => elem base x y z d w)) ->
    local_st (Z.to_nat ntz) (fun base => arr_serial clear ntz base p c xo yo zo delay (elem base)).
  Proof.
    intros W He. unfold arr_serial.
    apply (local_then _ (fun base h => if clear then clear_h base ntz h else Ok h)
       (fun base h => do m <- max_dim_arr p; let '(x_max, y_max, r_max) := m in
          arr_elems p c x_max y_max r_max xo yo zo delay (elem base) 0
            (Z.to_nat (num_elements p)) (h, err_none))).
    - destruct clear; [apply clear_local|]. intros c1 H1; split; [exact H1|reflexivity].
    - apply local_st_bind_const; [now apply max_dim_good|].
      intros [[xm ym] rm] _. pose proof (wa_num p W). apply arr_elems_local; auto; lia.
  Qed.

  (** ** Annular array *)
  Lemma annular_disc_radii_good gr : (1 <= length gr)%nat ->
    good (fun r : buf => Z.of_nat (length r) = (Z.of_nat (length gr) + 1) / 2) (annular_disc_radii gr).
  Proof.
    intros Hg. unfold annular_disc_radii.
    set (ne := (Z.of_nat (length gr) + 1) / 2).
    apply (good_imp (fun r : buf => length r = Z.to_nat ne)).
    { intros r Hr. subst ne. lia. }
    eapply good_bind.
    - apply (buf_upd_good (repeat (nofZ 0) (Z.to_nat ne)) 0 _ (Z.to_nat ne)).
      + rewrite repeat_length. subst ne. lia.
      + apply repeat_length.
    - intros r Hr. apply (for_loop_good' (fun r : buf => length r = Z.to_nat ne)); auto.
      intros j s Hj Hs. cbv beta in *.
      eapply good_bind; [apply (buf_get_good _ _ (fun _ => True)); auto; lia|]. intros g1 _.
      eapply good_bind; [apply (buf_get_good _ _ (fun _ => True)); auto; lia|]. intros g0 _.
      apply buf_upd_good; auto. subst ne. lia.
  Qed.

  Lemma resp_annular_good (hd hr : buf) ntz n num_radii ne :
    0 <= n < ne -> ne = (num_radii + 1) / 2 -> 0 <= num_radii ->
    Z.of_nat (length hd) = Z.max 0 (ntz * num_radii) -> length hr = Z.to_nat (ntz * ne) ->
    good (fun h : buf => length h = Z.to_nat (ntz * ne)) (resp_annular hd hr ntz n).
  Proof.
    intros Hn Hne Hnr Hhd Hhr. unfold resp_annular.
    assert (B : forall j k m, 0 <= j < ntz -> 0 <= k -> k + 1 <= m -> 0 <= j + k * ntz < ntz * m) by nia.
    destruct (2 * n =? 0) eqn:E0.
    - apply (for_loop_good' (fun h : buf => length h = Z.to_nat (ntz * ne))); auto.
      intros j s Hj Hs. cbv beta in *.
      pose proof (B j 0 num_radii Hj ltac:(lia) ltac:(lia)).
      pose proof (B j n ne Hj ltac:(lia) ltac:(lia)).
      eapply good_bind; [apply (buf_get_good _ _ (fun _ => True)); auto; lia|]. intros x _.
      apply buf_upd_good; auto. lia.
    - apply (for_loop_good' (fun h : buf => length h = Z.to_nat (ntz * ne))); auto.
      intros j s Hj Hs. cbv beta in *.
      pose proof (B j (2 * n) num_radii Hj ltac:(lia) ltac:(lia)).
      pose proof (B j (2 * n - 1) num_radii Hj ltac:(lia) ltac:(lia)).
      pose proof (B j n ne Hj ltac:(lia) ltac:(lia)).
      eapply good_bind; [apply (buf_get_good _ _ (fun _ => True)); auto; lia|]. intros x _.
      eapply good_bind; [apply (buf_get_good _ _ (fun _ => True)); auto; lia|]. intros y _.
      apply buf_upd_good; auto. lia.
  Qed.

  Lemma superpos_annular_local (hr : buf) ntz w fd n ne (dt0 : N) :
    0 <= n < ne -> length hr = Z.to_nat (ntz * ne) ->
    (K = UnsignedIdx \/ forall z, nrint (ndiv fd dt0) = Some z -> -1 <= z) ->
    local (Z.to_nat ntz) (fun base => superpos_annular K hr base ntz w fd n dt0).
  Proof.
    intros Hn Hhr Hd. unfold superpos_annular.
    assert (Gi : good (fun d => -1 <= d) (to_idx K (nrint (ndiv fd dt0)))).
    { destruct Hd as [->|Hd].
      - unfold to_idx. destruct (nrint _) as [z|]; [|exact I].
        destruct ((0 <=? z) && (z <? 2^64)) eqn:E; cbn; auto. lia.
      - apply to_idx_good. exact Hd. }
    apply local_bind_const; [eapply good_imp; [|exact Gi]; auto|].
    intros d Ed. rewrite Ed in Gi. cbn [good] in Gi.
    assert (Gb : good (fun b : buf => length b = Z.to_nat (2 * ntz))
      (for_loop ntz (fun i b =>
        if d + 1 <? ntz then
          do x <- buf_get hr (i + n * ntz); buf_upd b (i + (d + 1)) (fun _ => x)
        else Ok b) (repeat (nofZ 0) (Z.to_nat (2 * ntz))))).
    { apply (for_loop_good' (fun b : buf => length b = Z.to_nat (2 * ntz))); [|apply repeat_length].
      intros j s Hj Hs. cbv beta in *. destruct (d + 1 <? ntz) eqn:E; [|exact Hs].
      assert (0 <= j + n * ntz < ntz * ne) by nia.
      eapply good_bind; [apply (buf_get_good _ _ (fun _ => True)); auto; lia|]. intros x _.
      apply buf_upd_good; auto. lia. }
    apply local_bind_const; [eapply good_imp; [|exact Gb]; auto|].
    intros b Eb. rewrite Eb in Gb. cbn [good] in Gb.
    apply (local_for (Z.to_nat ntz) ntz (fun base i h => do x <- buf_get b i;
       buf_upd h (base + i) (fun y => nadd y (nmul w x)))).
    intros j Hj. apply local_bind_const; [apply buf_get_good; auto; lia|].
    intros x _. apply local_upd. lia.
  Qed.

  Lemma annu_discs_good (gr : buf) ntz (disc : N -> Z -> buf -> res st) :
    (forall g n h, 0 <= n < Z.of_nat (length gr) -> length h = Z.to_nat (ntz * Z.of_nat (length gr)) ->
       good (fun s : st => length (fst s) = length h) (disc g n h)) ->
    forall left n s, 0 <= n -> n + Z.of_nat left = Z.of_nat (length gr) ->
    length (fst s) = Z.to_nat (ntz * Z.of_nat (length gr)) ->
    good (call_ (fun s : st => length (fst s) = Z.to_nat (ntz * Z.of_nat (length gr))) (fun _ => True))
         (annu_discs gr ntz disc n left s).
  Proof.
    intros Hd left; induction left as [|left IH]; intros n s Hn Hl Hs; cbn [annu_discs].
    - exact Hs.
    - eapply good_bind; [apply (buf_get_good _ _ (fun _ => True)); auto; lia|]. intros g _.
      destruct ((n =? 0) && nle g neps).
      + eapply good_bind.
        * apply (for_loop_good' (fun h : buf => length h = Z.to_nat (ntz * Z.of_nat (length gr)))); [|exact Hs].
          intros j h Hj Hh. cbv beta in *. apply buf_upd_good; auto. nia.
        * intros h Hh. apply IH; auto; lia.
      + eapply good_bind; [apply Hd; auto; lia|].
        intros s' Hs'. destruct (SIRError_eqb (snd s') err_oob); [exact I|].
        apply IH; try lia. rewrite Hs'. exact Hs.
  Qed.

  (** The disc responses are local, hence safe inside the scratch matrix. *)
  Lemma slice_split {A} (h : list A) (b n : nat) : (b + n <= length h)%nat ->
    exists pre col post, h = pre ++ col ++ post /\ length pre = b /\ length col = n.
  Proof.
    intros H. exists (firstn b h), (firstn n (skipn b h)), (skipn n (skipn b h)).
    rewrite !firstn_skipn. split; auto. rewrite !firstn_length, skipn_length. lia.
  Qed.

  Lemma local_st_good_at n f (h : buf) base : local_st (N:=N) n f ->
    0 <= base -> base + Z.of_nat n <= Z.of_nat (length h) ->
    good (fun s : st => length (fst s) = length h) (f base h).
  Proof.
    intros L Hb Hl.
    destruct (slice_split h (Z.to_nat base) n ltac:(lia)) as (pre & col & post & -> & Hp & Hc).
    replace base with (Z.of_nat (length pre)) by lia.
    destruct (L col Hc) as [Gf Lf]. fold (emb pre post col). rewrite Lf.
    destruct (f 0 col) as [[c e]|u|]; cbn in *; auto.
    unfold emb. rewrite !app_length. lia.
  Qed.

  Lemma annu_serial_local ntz (q : samp N) p (disc : N -> Z -> buf -> res st) :
    nt q = ntz -> wf_annu q p ->
    (forall R, local_st (Z.to_nat ntz) (disc R)) -> 0 <= ntz ->
    local_st (Z.to_nat ntz) (fun base =>
      annu_serial K ntz base p (dt q) (cp q) (fun R n hd => disc R (n * ntz) hd)).
  Proof.
    intros Hq W Hdisc Hnt. unfold annu_serial. fold (annu_num p).
    set (nr := Z.of_nat (length (Gr p))).
    set (D := annu_discs (Gr p) ntz (fun R n hd => disc R (n * ntz) hd) 0 (length (Gr p))
               (repeat (nofZ 0) (Z.to_nat (ntz * nr)), err_none)).
    pose proof (wn_num q p W) as Hnum.
    assert (Hne : annu_num p = (nr + 1) / 2) by reflexivity.
    assert (Hnr : 1 <= nr) by (subst nr; lia).
    assert (GD : good (call_ (fun s : st => length (fst s) = Z.to_nat (ntz * nr)) (fun _ => True)) D).
    { subst D nr. apply annu_discs_good; try lia.
      - intros g n h Hn Hh. apply (local_st_good_at (Z.to_nat ntz) (disc g) h); [apply Hdisc| |]; nia.
      - apply repeat_length. }
    apply (local_then (Z.to_nat ntz) (fun base => clear_h base ntz)
      (fun base h => do r <- D;
        match r with
        | Go (h_disc, err) =>
            do ring <- annular_disc_radii (Gr p);
            do ring_r_max <- buf_get ring (annu_num p - 1);
            do s <- for_loop (annu_num p) (fun n '(h, h_ring) =>
              do fo <- (if FocusMet_is_ud (an_foc_met p) then buf_get (an_focal p) n
                        else buf_get (an_focal p) 0);
              do rr <- buf_get ring n;
              let foc_delay := focusing_annular (an_foc_met p) fo rr ring_r_max (cp q) in
              do weight <- (if an_do_apod p
                            then apodization_annular (an_apod_met p) n (an_apod p) rr ring_r_max (an_apod_par p)
                            else Ok (nofZ 1));
              do h_ring <- resp_annular h_disc h_ring ntz n;
              do h <- superpos_annular K h_ring base ntz weight foc_delay n (dt q) h;
              Ok (h, h_ring)) (h, repeat (nofZ 0) (Z.to_nat (ntz * annu_num p)));
            Ok (fst s, err)
        | Ret (_, err) => Ok (h, err)
        end)); [apply clear_local|].
    apply local_st_bind_const; [eapply good_imp; [|exact GD]; auto|].
    intros r Er. rewrite Er in GD. clearbody D. cbn [good] in GD. destruct r as [[hd err]|[hd err]].
    2:{ apply local_st_ret. }
    cbn [call_ fst] in GD.
    pose proof (annular_disc_radii_good (Gr p) Hnum) as Gring.
    apply local_st_bind_const; [eapply good_imp; [|exact Gring]; auto|].
    intros ring Ering. rewrite Ering in Gring. cbn [good] in Gring. fold nr in Gring. rewrite <- Hne in Gring.
    apply local_st_bind_const; [apply buf_get_good; auto; lia|].
    intros rmax Ermax.
    (* the ring loop carries (h, h_ring); only h is embedded *)
    intros col Hc.
    pose (bd := fun base n '(h, h_ring) =>
              do fo <- (if FocusMet_is_ud (an_foc_met p) then buf_get (an_focal p) n
                        else buf_get (an_focal p) 0);
              do rr <- buf_get ring n;
              let foc_delay := focusing_annular (an_foc_met p) fo rr rmax (cp q) in
              do weight <- (if an_do_apod p
                            then apodization_annular (an_apod_met p) n (an_apod p) rr rmax (an_apod_par p)
                            else Ok (nofZ 1));
              do h_ring <- resp_annular hd h_ring ntz n;
              do h <- superpos_annular K h_ring base ntz weight foc_delay n (dt q) h;
              Ok (h, h_ring)).
    fold (bd 0).
    pose (I2 := fun s : buf * buf => length (fst s) = Z.to_nat ntz /\ length (snd s) = Z.to_nat (ntz * annu_num p)).
    assert (Hb : forall j s, 0 <= j < annu_num p -> I2 s ->
       good I2 (bd 0 j s) /\ forall pre post, bd (Z.of_nat (length pre)) j (emb pre post (fst s), snd s)
         = rmap (fun s => (emb pre post (fst s), snd s)) (bd 0 j s)).
    { intros j [h hr] Hj [Hh Hhr]. unfold bd. cbn [fst snd] in *.
      assert (Gfo : good (fun fo => buf_get (an_focal p) (if FocusMet_is_ud (an_foc_met p) then j else 0) = Ok fo)
               (if FocusMet_is_ud (an_foc_met p) then buf_get (an_focal p) j else buf_get (an_focal p) 0)).
      { pose proof (wn_focal q p W) as Hf. destruct (FocusMet_is_ud (an_foc_met p)).
        - destruct (buf_get_ok (an_focal p) j ltac:(lia)) as (x & _ & ->). reflexivity.
        - destruct (buf_get_ok (an_focal p) 0 ltac:(lia)) as (x & _ & ->). reflexivity. }
      destruct (if FocusMet_is_ud (an_foc_met p) then buf_get (an_focal p) j else buf_get (an_focal p) 0)
        as [fo|[]|]; cbn in Gfo; try contradiction; [|split; [exact I|reflexivity]..].
      cbn [bind].
      destruct (buf_get_ok ring j ltac:(lia)) as (rr & _ & Err). rewrite Err. cbn [bind].
      assert (Gw : good (fun _ => True) (if an_do_apod p
                    then apodization_annular (an_apod_met p) j (an_apod p) rr rmax (an_apod_par p)
                    else Ok (nofZ 1))).
      { destruct (an_do_apod p) eqn:Ea; [|exact I]. unfold apodization_annular.
        destruct (an_apod_met p) eqn:Em; try exact I.
        pose proof (wn_apod q p W Ea Em). apply buf_get_good; auto. lia. }
      destruct (if an_do_apod p
                    then apodization_annular (an_apod_met p) j (an_apod p) rr rmax (an_apod_par p)
                    else Ok (nofZ 1)) as [w|[]|]; cbn in Gw; try contradiction; [|split; [exact I|reflexivity]..].
      cbn [bind].
      assert (Gr' : good (fun h : buf => length h = Z.to_nat (ntz * annu_num p)) (resp_annular hd hr ntz j)).
      { apply (resp_annular_good hd hr ntz j nr (annu_num p)); auto; lia. }
      destruct (resp_annular hd hr ntz j) as [hr'|[]|]; cbn in Gr'; try contradiction; [|split; [exact I|reflexivity]..].
      cbn [bind].
      destruct (superpos_annular_local hr' ntz w (focusing_annular (an_foc_met p) fo rr rmax (cp q)) j
                  (annu_num p) (dt q) Hj Gr') with (col := h) as [Gs Ls]; auto.
      { destruct (wn_delay q p W) as [Hu|Hd]; [left; exact Hu|right].
        intros z. apply (Hd j fo rr ring rmax z); auto. }
      split.
      - eapply good_bind; [exact Gs|]. intros h' Hh'. split; auto.
      - intros pre post. rewrite Ls, bind_rmap, rmap_bind. reflexivity. }
    assert (GI : good I2 (for_loop (annu_num p) (bd 0) (col, repeat (nofZ 0) (Z.to_nat (ntz * annu_num p))))).
    { apply (for_loop_good' I2).
      - intros j s Hj Hs. apply Hb; auto.
      - split; [exact Hc|apply repeat_length]. }
    split.
    - eapply good_bind; [exact GI|]. intros s [Hs _]. exact Hs.
    - intros pre post. fold (bd (Z.of_nat (length pre))).
      pose (e2 := fun s : buf * buf => (emb pre post (fst s), snd s)).
      change (emb pre post col, repeat (nofZ 0) (Z.to_nat (ntz * annu_num p))) with
        (e2 (col, repeat (nofZ 0) (Z.to_nat (ntz * annu_num p)))).
      rewrite (for_loop_sim e2 I2 (bd 0)).
      + rewrite bind_rmap, rmap_bind. reflexivity.
      + intros j s Hj Hs. apply Hb; auto.
      + intros j s s' Hj Hs E. exact (good_Ok _ _ _ (proj1 (Hb j s Hj Hs)) E).
      + split; [exact Hc|apply repeat_length].
  Qed.

  (** ** All transducers *)
  Theorem serial_local fuel (T : transducer N) q att lvl xo yo zo delay :
    0 <= nt q -> att_wf (nt q) att -> wf_transducer q T ->
    local_st (Z.to_nat (nt q)) (fun base => serial K fuel T q att lvl xo yo zo delay base).
  Proof.
    intros Hnt Ha W. destruct T; cbn [serial wf_transducer] in *;
      try (apply run_scanner_local; exact Ha).
    - apply (arr_serial_local _ _ _ _ _ _ _ _
        (fun base x y z d w => run_scanner K fuel (rect_scanner q a b d w x y z) att lvl (nt q) base)); auto.
      intros. apply run_scanner_local; exact Ha.
    - apply (arr_serial_local _ _ _ _ _ _ _ _
        (fun base x y z d w => run_scanner K fuel (circ_scanner q R d w x y z) att lvl (nt q) base)); auto.
      intros. apply run_scanner_local; exact Ha.
    - apply (arr_serial_local _ _ _ _ _ _ _ _
        (fun base x y z d w => run_scanner K fuel (cylind_scanner q a b Rcurv d w x y z) att lvl (nt q) base)); auto.
      intros. apply run_scanner_local; exact Ha.
    - apply (annu_serial_local (nt q) q p
        (fun R base => run_scanner K fuel (circ_scanner q R delay (nofZ 1) xo yo zo) att lvl (nt q) base)); auto.
      intros. apply run_scanner_local; exact Ha.
  Qed.

  (** Memory-level reading of locality. *)
  Definition same_outside (base n : Z) (h h' : buf) : Prop :=
    length h' = length h /\
    forall k, (Z.of_nat k < base \/ base + n <= Z.of_nat k) -> nth_error h' k = nth_error h k.

  Lemma local_st_frame n f (h : buf) base : local_st (N:=N) n f ->
    0 <= base -> base + Z.of_nat n <= Z.of_nat (length h) ->
    good (fun s : st => same_outside base (Z.of_nat n) h (fst s)) (f base h).
  Proof.
    intros L Hb Hl.
    destruct (slice_split h (Z.to_nat base) n ltac:(lia)) as (pre & col & post & -> & Hp & Hc).
    replace base with (Z.of_nat (length pre)) by lia.
    destruct (L col Hc) as [Gf Lf]. fold (emb pre post col). rewrite Lf.
    destruct (f 0 col) as [[c e]|u|]; cbn in *; auto.
    unfold emb, same_outside. split.
    - rewrite !app_length. lia.
    - intros k [Hk|Hk].
      + rewrite !nth_error_app1 by lia. reflexivity.
      + rewrite !nth_error_app2 by lia. rewrite Gf, Hc. reflexivity.
  Qed.
End LocalArr.
