(** ProofsDasR.v - delay-and-sum in exact arithmetic. *)
From Coq Require Import Reals Lra Lia List ZArith Bool.
From Verif Require Import Base BaseLemmas ModelSir ModelArr ModelSmp ModelDas NumR SpecDft SpecDas
  ProofsLoop ProofsR ProofsRayleigh ProofsDft ProofsDas.
From Coq Require Import ZifyBool ZifyNat.
Import ListNotations.
Open Scope R_scope.

Section DasR.
  Variables (K : idx_kind) (Y : list R) (len : Z).
  Hypothesis Hlen : (0 <= len)%Z.
  Local Notation EY := (map Some Y : list EN).

  Definition enc (ps : list (nat * R)) : list (Z * EN) :=
    map (fun p => ((Z.of_nat (fst p) * len)%Z, Some (snd p))) ps.
  Definition psum (ps : list (nat * R)) : R :=
    fold_right Rplus 0 (map (fun p => ascan Y len (fst p) (Ztruncr (snd p))) ps).
  Definition pin (p : nat * R) : bool := inside len (Ztruncr (snd p)).
  Definition pok (p : nat * R) : Prop :=
    fits K (Ztruncr (snd p)) /\ (Z.of_nat (fst p) * len + len <= Z.of_nat (length Y))%Z.
  Fixpoint upto_out (ps : list (nat * R)) : list (nat * R) :=
    match ps with [] => [] | p :: r => if pin p then p :: upto_out r else [] end.

  Lemma to_idx_fits z : fits K z -> to_idx K (Some z) = Ok z.
  Proof. unfold fits, to_idx. destruct K; intros H; replace (_ && _) with true by lia; reflexivity. Qed.

  Lemma getEY z : (0 <= z < Z.of_nat (length Y))%Z -> buf_get EY z = Ok (Some (nth (Z.to_nat z) Y 0) : EN).
  Proof.
    intros Hz. etransitivity; [apply (get_nth EY z (Some 0)); rewrite map_length; exact Hz|].
    f_equal. exact (map_nth Some Y 0 (Z.to_nat z)).
  Qed.

  Lemma das_put_R lvl c x im e : pok (c, x) ->
    das_put (N:=EN) K EY len (Z.of_nat c * len) lvl (Some x : EN) (Some im : EN, e) =
    if pin (c, x) then Ok (Go (Some (im + ascan Y len c (Ztruncr x)) : EN, e))
    else if SIRError_eqb (dream_out_of_bounds_err lvl) err_oob
         then Ok (Ret (Some im : EN, dream_out_of_bounds_err lvl))
         else Ok (Go (Some im : EN, dream_out_of_bounds_err lvl)).
  Proof.
    intros [H1 H2]. unfold das_put. cbn [fst snd] in *. unfold pin, ascan, inside. cbn [snd].
    change (ntrunc (n:=EN) (Some x)) with (Some (Ztruncr x)). rewrite (to_idx_fits _ H1). cbn [bind].
    set (k := Ztruncr x) in *.
    destruct ((k <? len)%Z && (0 <=? k)%Z) eqn:E.
    - replace ((0 <=? k)%Z && (k <? len)%Z) with true by lia.
      rewrite getEY by lia. cbn [bind].
      replace (Z.to_nat (Z.of_nat c * len + k)) with (c * Z.to_nat len + Z.to_nat k)%nat by lia. reflexivity.
    - replace ((0 <=? k)%Z && (k <? len)%Z) with false by lia. reflexivity.
  Qed.

  Lemma das_fold_nobail lvl : dream_out_of_bounds_err lvl <> err_oob -> forall ps im e, Forall pok ps ->
    das_fold (N:=EN) K EY len lvl (enc ps) (Some im : EN, e) =
    Ok (Go (Some (im + psum ps) : EN, if forallb pin ps then e else dream_out_of_bounds_err lvl)).
  Proof.
    intros Hl. induction ps as [|[c x] ps IH]; intros im e Hp; cbn [enc map das_fold forallb].
    - unfold psum. cbn. rewrite Rplus_0_r. reflexivity.
    - inversion Hp; subst. cbn [fst snd]. rewrite das_put_R by assumption.
      fold (enc ps). replace (SIRError_eqb (dream_out_of_bounds_err lvl) err_oob) with false
        by (destruct (dream_out_of_bounds_err lvl); auto; congruence).
      destruct (pin (c, x)) eqn:E; cbn [bind andb].
      + rewrite IH by assumption. unfold psum. cbn [map fold_right fst snd]. now rewrite Rplus_assoc.
      + rewrite IH by assumption. unfold psum. cbn [map fold_right fst snd].
        unfold ascan at 2. unfold pin in E. cbn [snd] in E. rewrite E. rewrite Rplus_0_l.
        destruct (forallb pin ps); reflexivity.
  Qed.

  Lemma das_fold_bail lvl : dream_out_of_bounds_err lvl = err_oob -> forall ps im e, Forall pok ps ->
    das_fold (N:=EN) K EY len lvl (enc ps) (Some im : EN, e) =
    if forallb pin ps then Ok (Go (Some (im + psum ps) : EN, e))
    else Ok (Ret (Some (im + psum (upto_out ps)) : EN, err_oob)).
  Proof.
    intros Hl. induction ps as [|[c x] ps IH]; intros im e Hp; cbn [enc map das_fold forallb upto_out].
    - unfold psum. cbn. rewrite Rplus_0_r. reflexivity.
    - inversion Hp; subst. cbn [fst snd]. rewrite das_put_R by assumption.
      fold (enc ps). rewrite Hl. cbn [SIRError_eqb].
      destruct (pin (c, x)) eqn:E; cbn [bind andb].
      + rewrite IH by assumption. unfold psum. cbn [map fold_right fst snd].
        destruct (forallb pin ps); now rewrite Rplus_assoc.
      + unfold psum. cbn. rewrite Rplus_0_r. reflexivity.
  Qed.

  Lemma psum_app a b : psum (a ++ b) = psum a + psum b.
  Proof. unfold psum. induction a as [|p a IH]; cbn [app map fold_right]; [lra|]. rewrite IH. lra. Qed.
  Lemma psum_flat f n : psum (flat_map f (seq 0 n)) = rsum n (fun i => psum (f i)).
  Proof.
    induction n as [|n IH]; [reflexivity|]. rewrite seq_S, flat_map_app, psum_app, IH. cbn [rsum flat_map Nat.add].
    rewrite app_nil_r. reflexivity.
  Qed.
  Lemma psum_1 c x : psum [(c, x)] = ascan Y len c (Ztruncr x).
  Proof. unfold psum. cbn. lra. Qed.

  Definition rpairs (n1 n2 : nat) (g : nat -> nat -> R) : list (nat * R) :=
    flat_map (fun i => flat_map (fun j => [((i * n2 + j)%nat, g i j)]) (seq 0 n2)) (seq 0 n1).
  Lemma psum_rpairs n1 n2 g :
    psum (rpairs n1 n2 g) = rsum n1 (fun i => rsum n2 (fun j => ascan Y len (i * n2 + j) (Ztruncr (g i j)))).
  Proof.
    unfold rpairs. rewrite psum_flat. apply rsum_ext. intros i _. rewrite psum_flat. apply rsum_ext. intros j _. apply psum_1.
  Qed.
  Lemma enc_flat (f : nat -> list (nat * R)) s : enc (flat_map f s) = flat_map (fun i => enc (f i)) s.
  Proof. unfold enc. induction s as [|i s IH]; [reflexivity|]. cbn [flat_map]. rewrite map_app, IH. reflexivity. Qed.

  Lemma pairs_enc n1 n2 (f : nat -> nat -> EN) g : (0 <= n2)%Z ->
    (forall i j, (i < Z.to_nat n1)%nat -> (j < Z.to_nat n2)%nat -> f i j = Some (g i j)) ->
    pairs (N:=EN) len n1 n2 f = enc (rpairs (Z.to_nat n1) (Z.to_nat n2) g).
  Proof.
    intros Hn Hf. unfold pairs, rpairs. rewrite enc_flat. apply flat_map_ext_in. intros i Hi. apply in_seq in Hi.
    rewrite enc_flat. apply flat_map_ext_in. intros j Hj. apply in_seq in Hj. cbn [enc map fst snd].
    rewrite Hf by lia. do 2 f_equal. lia.
  Qed.

  Lemma in_rpairs n1 n2 g c x : In (c, x) (rpairs n1 n2 g) ->
    exists i j, (i < n1)%nat /\ (j < n2)%nat /\ c = (i * n2 + j)%nat /\ x = g i j.
  Proof.
    unfold rpairs. intros H. apply in_flat_map in H as (i & Hi & H). apply in_flat_map in H as (j & Hj & H).
    apply in_seq in Hi, Hj. destruct H as [H|[]]. injection H as <- <-. exists i, j. repeat split; lia.
  Qed.
  Lemma rpairs_in n1 n2 g i j : (i < n1)%nat -> (j < n2)%nat -> In ((i * n2 + j)%nat, g i j) (rpairs n1 n2 g).
  Proof.
    intros Hi Hj. unfold rpairs. apply in_flat_map. exists i. split; [apply in_seq; lia|].
    apply in_flat_map. exists j. split; [apply in_seq; lia|]. left; reflexivity.
  Qed.

  Lemma pok_rpairs n1 n2 g : (Z.of_nat n1 * Z.of_nat n2 * len <= Z.of_nat (length Y))%Z ->
    (forall i j, (i < n1)%nat -> (j < n2)%nat -> fits K (Ztruncr (g i j))) -> Forall pok (rpairs n1 n2 g).
  Proof.
    intros HY Hf. apply Forall_forall. intros [c x] Hin. apply in_rpairs in Hin as (i & j & Hi & Hj & -> & ->).
    split; cbn [fst snd]; [auto|].
    assert (Z.of_nat (i * n2 + j) + 1 <= Z.of_nat n1 * Z.of_nat n2)%Z by nia. nia.
  Qed.

  Lemma forallb_rpairs n1 n2 g : forallb pin (rpairs n1 n2 g) = true <->
    forall i j, (i < n1)%nat -> (j < n2)%nat -> inside len (Ztruncr (g i j)) = true.
  Proof.
    rewrite forallb_forall. split.
    - intros H i j Hi Hj. exact (H _ (rpairs_in n1 n2 g i j Hi Hj)).
    - intros H [c x] Hin. apply in_rpairs in Hin as (i & j & Hi & Hj & _ & ->). now apply H.
  Qed.
End DasR.

(** ** Travel times *)
Lemma val_get (G : list R) z : (0 <= z < Z.of_nat (length G))%Z ->
  val (N:=EN) (buf_get (map Some G : list EN) z) (nofZ 0) = Some (nth (Z.to_nat z) G 0).
Proof. intros Hz. rewrite (getEY G z Hz). reflexivity. Qed.

Lemma travel_E cp gx gy gz : cp <> 0 ->
  travel (N:=EN) (Some cp) (Some gx) (Some gy) (Some gz) = Some (sqrt (gx * gx + gy * gy + gz * gz) / cp).
Proof.
  intros Hc. unfold travel, one_over. ered. rewrite e_sqrt_ok by (apply sq3_nonneg). rewrite e_div_ok by exact Hc.
  unfold e2. f_equal. field. exact Hc.
Qed.

Lemma edist_sq x y z x' y' z' : edist (x, y, z) (x', y', z') =
  sqrt ((x - x') * (x - x') + (y - y') * (y - y') + (z - z') * (z - z')).
Proof. unfold edist. f_equal. ring. Qed.

Lemma etime_E (G : list R) num n xo yo zo cp : (0 <= n < num)%Z -> Z.of_nat (length G) = (3 * num)%Z -> cp <> 0 ->
  etime (N:=EN) (map Some G) num n (Some xo) (Some yo) (Some zo) (Some cp) =
  Some (edist (row3 G (Z.to_nat num) (Z.to_nat n)) (xo, yo, zo) / cp).
Proof.
  intros Hn HG Hc. unfold etime, erel. rewrite !val_get by lia. ered.
  etransitivity; [apply (travel_E cp); exact Hc|]. unfold row3. rewrite edist_sq.
  replace (Z.to_nat (n + 1 * num)) with (Z.to_nat n + Z.to_nat num)%nat by lia.
  replace (Z.to_nat (n + 2 * num)) with (Z.to_nat n + 2 * Z.to_nat num)%nat by lia. reflexivity.
Qed.

Lemma Fs_E dt : dt <> 0 -> Fs_khz (N:=EN) (Some dt) = Some (1 / dt * 1000).
Proof. intros H. unfold Fs_khz. ered. rewrite e_div_ok by exact H. reflexivity. Qed.
Lemma dms_E d : delay_ms (N:=EN) (Some d) = Some (d / 1000).
Proof. unfold delay_ms. ered. rewrite e_div_ok by lra. reflexivity. Qed.

Lemma arg_pair dt cp delay a b : dt <> 0 -> cp <> 0 ->
  nmul (n:=EN) (nadd (n:=EN) (nadd (n:=EN) (Some (a / cp) : EN) (delay_ms (N:=EN) (Some delay))) (Some (b / cp) : EN)) (Fs_khz (N:=EN) (Some dt))
  = Some (1000 * (a / cp + b / cp + delay / 1000) / dt).
Proof. intros H1 H2. rewrite dms_E, Fs_E by auto. ered. unfold e2. f_equal. field. auto. Qed.

Lemma arg_saft dt cp delay a : dt <> 0 -> cp <> 0 ->
  nmul (n:=EN) (nmul (n:=EN) (nofZ 2 : EN) (nadd (n:=EN) (Some (a / cp) : EN) (delay_ms (N:=EN) (Some delay)))) (Fs_khz (N:=EN) (Some dt))
  = Some (1000 * (a / cp + a / cp + (2 * delay) / 1000) / dt).
Proof. intros H1 H2. rewrite dms_E, Fs_E by auto. ered. unfold e2. f_equal. field. auto. Qed.

(** ** Results in one shape *)
Definition das_result (K : idx_kind) (Y : list R) (len : Z) (lvl : ErrorLevel) (ps : list (nat * R)) : EN * SIRError :=
  if forallb (pin len) ps then (Some (psum Y len ps), err_none)
  else if SIRError_eqb (dream_out_of_bounds_err lvl) err_oob then (Some (psum Y len (upto_out len ps)), err_oob)
  else (Some (psum Y len ps), dream_out_of_bounds_err lvl).

Lemma das_fold_finish K Y len lvl ps : (0 <= len)%Z -> Forall (pok K Y len) ps ->
  (do c <- das_fold (N:=EN) K (map Some Y) len lvl (enc len ps) (Some 0 : EN, err_none); Ok (finish c))
  = Ok (das_result K Y len lvl ps).
Proof.
  intros Hl Hp. unfold das_result. destruct (SIRError_eqb (dream_out_of_bounds_err lvl) err_oob) eqn:E.
  - assert (El : dream_out_of_bounds_err lvl = err_oob) by (destruct (dream_out_of_bounds_err lvl); cbn in E; congruence).
    rewrite (das_fold_bail K Y len Hl lvl El ps 0 err_none Hp). rewrite !Rplus_0_l. destruct (forallb _ ps); reflexivity.
  - assert (El : dream_out_of_bounds_err lvl <> err_oob) by (destruct (dream_out_of_bounds_err lvl); cbn in E; congruence).
    rewrite (das_fold_nobail K Y len Hl lvl El ps 0 err_none Hp). rewrite !Rplus_0_l. destruct (forallb _ ps); reflexivity.
Qed.

Definition g_pair (dt cp delay : R) (dtx drx : nat -> R) (i j : nat) : R :=
  1000 * (dtx i / cp + drx j / cp + delay / 1000) / dt.
Definition g_saft (dt cp delay : R) (d : nat -> R) (i : nat) : R :=
  1000 * (d i / cp + d i / cp + (2 * delay) / 1000) / dt.

Section Methods.
  Variables (K : idx_kind) (Y : list R) (len : Z) (xo yo zo dt delay cp : R) (lvl : ErrorLevel).
  Hypothesis Hlen : (0 <= len)%Z.
  Hypothesis Hdt : dt <> 0.
  Hypothesis Hcp : cp <> 0.
  Local Notation o := (xo, yo, zo).
  Local Notation E := (fun x : R => (Some x : EN)).
  Local Notation EL := (fun l : list R => (map Some l : list EN)).

  Lemma tfm_R (Gt Gr : list R) num_t num_r :
    Z.of_nat (length Gt) = (3 * num_t)%Z -> Z.of_nat (length Gr) = (3 * num_r)%Z ->
    (num_t * num_r * len <= Z.of_nat (length Y))%Z ->
    let dtx := fun i => edist (row3 Gt (Z.to_nat num_t) i) o in
    let drx := fun j => edist (row3 Gr (Z.to_nat num_r) j) o in
    (forall i j, (i < Z.to_nat num_t)%nat -> (j < Z.to_nat num_r)%nat -> fits K (pair_sample dt cp delay (dtx i) (drx j))) ->
    das_tfm_serial (N:=EN) K (EL Y) len (EL Gt) num_t (EL Gr) num_r (E xo) (E yo) (E zo) (E dt) (E delay) (E cp) lvl =
    Ok (das_result K Y len lvl (rpairs (Z.to_nat num_t) (Z.to_nat num_r) (g_pair dt cp delay dtx drx))).
  Proof.
    intros HGt HGr HY dtx drx Hf.
    rewrite tfm_fold by (rewrite map_length; assumption).
    unfold tfm_args. rewrite (pairs_enc len Hlen num_t num_r _ (g_pair dt cp delay dtx drx)); [|lia|].
    - apply das_fold_finish; [exact Hlen|]. apply pok_rpairs; [exact Hlen| |exact Hf].
      rewrite !Z2Nat.id by lia. exact HY.
    - intros i j Hi Hj. rewrite !etime_E by (auto; lia). rewrite !Nat2Z.id. apply arg_pair; auto.
  Qed.

  Lemma saft_R (G : list R) num : Z.of_nat (length G) = (3 * num)%Z -> (num * len <= Z.of_nat (length Y))%Z ->
    let d := fun i => edist (row3 G (Z.to_nat num) i) o in
    (forall i, (i < Z.to_nat num)%nat -> fits K (pair_sample dt cp (2 * delay) (d i) (d i))) ->
    das_saft_serial (N:=EN) K (EL Y) len (EL G) num (E xo) (E yo) (E zo) (E dt) (E delay) (E cp) lvl =
    Ok (das_result K Y len lvl (map (fun i => (i, g_saft dt cp delay d i)) (seq 0 (Z.to_nat num)))).
  Proof.
    intros HG HY d Hf.
    rewrite saft_fold by (rewrite map_length; assumption).
    assert (Ea : saft_args (N:=EN) len (EL G) num (E xo) (E yo) (E zo) (E dt) (E delay) (E cp) =
                 enc len (map (fun i => (i, g_saft dt cp delay d i)) (seq 0 (Z.to_nat num)))).
    { unfold saft_args, enc. rewrite map_map. cbn [fst snd].
      assert (Hg : forall s, (forall i, In i s -> (i < Z.to_nat num)%nat) ->
        flat_map (fun j => [(Z.of_nat j * len, nmul (n:=EN) (nmul (n:=EN) (nofZ (n:=EN) 2) (nadd (n:=EN) (etime (N:=EN) (EL G) num (Z.of_nat j) (E xo) (E yo) (E zo) (E cp)) (delay_ms (N:=EN) (E delay)))) (Fs_khz (N:=EN) (E dt)))]%Z) s
        = map (fun x => ((Z.of_nat x * len)%Z, Some (g_saft dt cp delay d x) : EN)) s).
      { induction s as [|i s IH]; intros Hs; [reflexivity|]. cbn [flat_map map app].
        rewrite IH by (intros; apply Hs; right; assumption).
        rewrite etime_E by (try (pose proof (Hs i (or_introl eq_refl))); auto; lia). rewrite Nat2Z.id.
        rewrite (arg_saft dt cp delay) by auto. reflexivity. }
      apply Hg. intros i Hi. apply in_seq in Hi. lia. }
    rewrite Ea. apply das_fold_finish; [exact Hlen|].
    apply Forall_forall. intros [c x] Hin. apply in_map_iff in Hin as (i & Hi & Hs). injection Hi as <- <-.
    apply in_seq in Hs. split; cbn [fst snd]; [apply Hf; lia|]. nia.
  Qed.

  Lemma psum_saft d n : psum Y len (map (fun i => (i, g_saft dt cp delay d i)) (seq 0 n)) =
    saft_sum Y len n d dt cp (2 * delay).
  Proof.
    unfold saft_sum. induction n as [|n IH]; [reflexivity|]. rewrite seq_S, map_app, psum_app by exact Hlen.
    rewrite IH. cbn [map Nat.add rsum]. rewrite psum_1. reflexivity.
  Qed.
End Methods.
