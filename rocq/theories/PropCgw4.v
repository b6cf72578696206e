(** PropCgw4.v - property theorems: FFTW wisdom strings given to fftconv_p and
    fftconv_ola (C76). *)
From Coq Require Strings.String Strings.Ascii.
Import Coq.Strings.String.StringSyntax.
From Verif Require Import Base BaseLemmas ModelSir ModelArr ModelSmp ModelConv NumF ExJob ModelGw ModelCgw SpecCgw PropCgw2.
From Coq Require Import ZifyBool.
Local Open Scope string_scope.
Open Scope Z_scope.

(** The arguments of a call: A, B, for fftconv_ola the block length, the rest. *)
Definition cargs {N : Num} (f : cfun) (va vb vn : value N) (rest : list (value N)) : list (value N) :=
  match f with KOla => va :: vb :: vn :: rest | _ => va :: vb :: rest end.

(** MATLAB strings end at their first NUL character. *)
Definition plain_string (fe : front) (s : string) : Prop := fe = Octave \/ (fe = Matlab /\ c_str s = s).

Lemma gateway_ext (N : Num) (mc : machine N) fe f nlhs va vb vn r1 r2 :
  fe = Octave \/ fe = Matlab -> f = KFft \/ f = KOla ->
  parse_fft (mc_import mc) fe nlhs r1 = parse_fft (mc_import mc) fe nlhs r2 ->
  nth_error r1 0 = nth_error r2 0 \/
  (exists m, parse_fft (mc_import mc) fe nlhs r1 = Some m /\ c_inplace m = false) ->
  conv_gateway mc fe f nlhs (cargs f va vb vn r1) = conv_gateway mc fe f nlhs (cargs f va vb vn r2).
Proof.
  intros Hfe Hf E Hy. unfold conv_gateway.
  assert (P : forall r, parse_cargs (mc_import mc) fe f nlhs (cargs f va vb vn r) = parse_fft (mc_import mc) fe nlhs r).
  { intros r. destruct Hfe as [->| ->], Hf as [->| ->]; reflexivity. }
  rewrite !P, <- E.
  destruct (negb (has_fun fe f)); [reflexivity|]. destruct (parse_fft (mc_import mc) fe nlhs r1) as [m|]; [|reflexivity].
  assert (A0 : forall r, arg (cargs f va vb vn r) 0 = Ok va) by (intros; destruct f; reflexivity).
  assert (A1 : forall r, arg (cargs f va vb vn r) 1 = Ok vb) by (intros; destruct f; reflexivity).
  assert (B : forall am r, block_arg fe f am (cargs f va vb vn r) = block_arg fe f am (cargs f va vb vn [])).
  { intros. destruct f; reflexivity. }
  assert (O : forall rows cols r r', nth_error r 0 = nth_error r' 0 \/ c_inplace m = false ->
    out_array fe f m rows cols (mc_junk mc) (cargs f va vb vn r) = out_array fe f m rows cols (mc_junk mc) (cargs f va vb vn r')).
  { intros rows cols r r' Hr. unfold out_array. destruct (c_inplace m) eqn:Em; [|reflexivity].
    assert (Ea : arg (cargs f va vb vn r) (y_pos f) = arg (cargs f va vb vn r') (y_pos f)).
    { destruct Hr as [Hr|]; [|discriminate]. destruct r as [|y r], r' as [|y' r']; cbn [nth_error] in Hr; try discriminate; [reflexivity|].
      injection Hr as ->. destruct Hf as [->| ->]; reflexivity. }
    rewrite Ea. reflexivity. }
  assert (Hr : nth_error r1 0 = nth_error r2 0 \/ c_inplace m = false).
  { destruct Hy as [Hy|(m' & Hm' & Hm)]; [auto|]. right. congruence. }
  rewrite !A0, !A1. cbn [bind]. rewrite (B _ r1), (B _ r2).
  destruct (gw_data fe va); [|reflexivity..]. cbn [bind]. destruct (gw_data fe vb); [|reflexivity..]. cbn [bind].
  destruct (check_B _ _ _) as [[bm bn]|]; [|reflexivity].
  destruct (block_arg fe f (get_m va) _) as [[bl|]| |]; cbn [bind]; try reflexivity.
  rewrite (O (get_m va + bm - 1) (cols_of va) r1 r2 Hr). reflexivity.
Qed.

(** A wisdom string after the operands: when FFTW accepts it the call is the
    call without it, otherwise it is refused.  With an output argument: the
    same as mode '='. *)
Theorem C76_wisdom : forall (N : Num) (mc : machine N) fe f nlhs va vb vn s,
  plain_string fe s -> f = KFft \/ f = KOla -> s <> "fftw_wisdom" -> c_str s = s ->
  conv_gateway mc fe f nlhs (cargs f va vb vn [VStr s]) =
    (if mc_import mc s then conv_gateway mc fe f nlhs (cargs f va vb vn []) else Ok (Some CRejected)) /\
  forall vy, (forall m, ~ documented_mode s m) ->
  conv_gateway mc fe f nlhs (cargs f va vb vn [vy; VStr s]) =
    (if mc_import mc s then conv_gateway mc fe f nlhs (cargs f va vb vn [vy; VStr "="]) else Ok (Some CRejected)).
Proof.
  intros N mc fe f nlhs va vb vn s Hp Hf Hs Hc.
  assert (Hfe : fe = Octave \/ fe = Matlab) by (destruct Hp as [->|[-> _]]; auto).
  assert (Hh : has_fun fe f = true) by (destruct Hfe as [->| ->], Hf as [->| ->]; reflexivity).
  assert (Ew : is_wisdom s = true).
  { unfold is_wisdom. rewrite Hc. destruct (String.eqb_spec s "fftw_wisdom"); [contradiction|reflexivity]. }
  assert (Es : conv_str fe s = s) by (destruct Hfe as [->| ->]; [reflexivity|exact Hc]).
  assert (R : forall r, parse_fft (mc_import mc) fe nlhs r = None ->
     conv_gateway mc fe f nlhs (cargs f va vb vn r) = Ok (Some CRejected)).
  { intros r E. unfold conv_gateway. rewrite Hh. cbn [negb].
    assert (P : parse_cargs (mc_import mc) fe f nlhs (cargs f va vb vn r) = parse_fft (mc_import mc) fe nlhs r)
      by (destruct Hfe as [->| ->], Hf as [->| ->]; reflexivity).
    now rewrite P, E. }
  split.
  - assert (E : parse_fft (N:=N) (mc_import mc) fe nlhs [VStr s] =
                if mc_import mc s then parse_fft (N:=N) (mc_import mc) fe nlhs [] else None).
    { unfold parse_fft. cbn [is_string str_of]. rewrite Es. unfold load. rewrite Ew.
      destruct (2 <? nlhs), (mc_import mc s); reflexivity. }
    destruct (mc_import mc s) eqn:Ei; [|exact (R _ E)].
    destruct (2 <? nlhs) eqn:El.
    + rewrite !R by (unfold parse_fft; rewrite El; reflexivity). reflexivity.
    + apply (gateway_ext N mc fe f nlhs va vb vn _ _ Hfe Hf E). right. exists normal. split; [|reflexivity].
      rewrite E. unfold parse_fft. rewrite El. reflexivity.
  - intros vy Hm.
    assert (E : parse_fft (N:=N) (mc_import mc) fe nlhs [vy; VStr s] =
                if mc_import mc s then parse_fft (N:=N) (mc_import mc) fe nlhs [vy; VStr "="] else None).
    { unfold parse_fft. cbn [is_string str_of]. rewrite Es, (mode_none s Hm). unfold load. rewrite Ew.
      destruct Hfe as [->| ->]; destruct (2 <? nlhs), (mc_import mc s); reflexivity. }
    destruct (mc_import mc s) eqn:Ei; [|exact (R _ E)].
    apply (gateway_ext N mc fe f nlhs va vb vn _ _ Hfe Hf E). left. reflexivity.
Qed.
Print Assumptions C76_wisdom.

(** The test itself accepts every string but one, "fftw_wisdom": what is not
    wisdom is refused only because FFTW does not import it. *)
Theorem C76_name_refused : forall (N : Num) (mc : machine N) fe f nlhs va vb vn,
  fe = Octave \/ fe = Matlab -> f = KFft \/ f = KOla ->
  conv_gateway mc fe f nlhs (cargs f va vb vn [VStr "fftw_wisdom"]) = Ok (Some CRejected).
Proof.
  intros N mc fe f nlhs va vb vn Hfe Hf.
  assert (E : parse_cargs (N:=N) (mc_import mc) fe f nlhs (cargs f va vb vn [VStr "fftw_wisdom"]) = None).
  { destruct Hfe as [->| ->], Hf as [->| ->]; cbn [cargs parse_cargs]; unfold parse_fft; destruct (2 <? nlhs); reflexivity. }
  unfold conv_gateway. rewrite E. destruct Hfe as [->| ->], Hf as [->| ->]; reflexivity.
Qed.
Print Assumptions C76_name_refused.

(** A wisdom string as FFTW writes it meets the hypotheses. *)
Example C76_ex : let s := "(fftw-3.3.10 fftw_wisdom #x1 #x2 )" in
  (forall fe, fe = Octave \/ fe = Matlab -> plain_string fe s) /\ s <> "fftw_wisdom" /\ c_str s = s /\
  (forall m, ~ documented_mode s m).
Proof.
  intros s. assert (E : c_str s = s) by reflexivity. split; [|split; [discriminate|split; [exact E|]]].
  - intros fe [->| ->]; [left|right]; auto.
  - intros m [[H _]|[[H _]|[H _]]]; discriminate.
Qed.
