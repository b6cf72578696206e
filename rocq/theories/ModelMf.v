(** ModelMf.v - the MATLAB/Octave scripts m_files/arr_focus_delays.m and
    m_files/h2o_soundspeed.m (m_files/plot_array.m only draws). *)
From Coq Require Strings.String Strings.Ascii.
Import Coq.Strings.String.StringSyntax.
From Verif Require Import Base.
Local Open Scope Z_scope.

Section Mf.
  Context {N : Num}.
  Local Open Scope num_scope.
  Local Notation buf := (list N).

  (** m_files/arr_focus_delays.m 17-18, 22, 30: the distance from element gx to
      the focus [xp zp], norm([xp zp]' - [gx 0]').
      Simplifications: norm as sqrt of the sum of squares (Octave scales
      against overflow), tan as sin/cos. *)
  Definition m_tan (x : N) : N := nsin x / ncos x.
  Definition foc_xp (foc ang : N) : N := foc * m_tan (ang * npi / #180).
  Definition foc_norm (foc ang gx : N) : N :=
    nsqrt ((foc_xp foc ang - gx) * (foc_xp foc ang - gx) + (foc - #0) * (foc - #0)).
  (** m_files/arr_focus_delays.m 20-26: r_max = 0; for l ... if tmp_max > r_max. *)
  Definition foc_rmax (foc ang : N) (gx : buf) : N :=
    fold_left (fun r g => if r <? foc_norm foc ang g then foc_norm foc ang g else r) gx #0.
  (** max(d_vec), m_files/arr_focus_delays.m 35 (d_vec not empty). *)
  Definition m_max (d : buf) : N :=
    match d with
    | [] => #0
    | x :: r => fold_left (fun m y => if m <? y then y else m) r x
    end.
  (** m_files/arr_focus_delays.m 15-39. *)
  Definition arr_focus_delays (gx : buf) (cp foc ang : N) : buf :=
    let r_max := foc_rmax foc ang gx in
    let d := map (fun g => (r_max - foc_norm foc ang g) * #1000 / cp) gx in
    if foc <? #0 then let mx := m_max d in map (fun x => nabs (x - mx)) d else d.

  (** ** h2o_soundspeed *)
  (** MATLAB's lower(): ASCII capitals to small letters. *)
  Definition lower_char (c : Ascii.ascii) : Ascii.ascii :=
    let n := Ascii.nat_of_ascii c in
    if (Nat.leb 65 n && Nat.leb n 90)%bool then Ascii.ascii_of_nat (n + 32) else c.
  Fixpoint lower (s : String.string) : String.string :=
    match s with String.EmptyString => String.EmptyString | String.String c t => String.String (lower_char c) (lower t) end.

  (** A decimal literal m * 10^(-k). *)
  Definition dec (m : Z) (k : Z) : N := #m / #(10 ^ k)%Z.

  (** m_files/h2o_soundspeed.m 37-60: (pressure in technical atmospheres,
      message about an unknown unit printed). *)
  Local Open Scope string_scope.
  Definition pressure (Pin : N) (unit : String.string) : N * bool :=
    let u := lower unit in
    if String.eqb u "pa" then (Pin * dec 10197 9, false)
    else if String.eqb u "bar" then (Pin * dec 10197 4, false)
    else if String.eqb u "at" then (Pin, false)
    else if String.eqb u "atm" then (Pin * dec 10332 4, false)
    else if String.eqb u "mmhg" then (Pin * dec 13595 7, false)
    else if String.eqb u "psi" then (Pin * dec 70307 6, false)
    else (Pin * dec 10197 9, true).
  Local Close Scope string_scope.

  Definition sq (x : N) : N := x * x.
  Definition cu (x : N) : N := x * x * x.
  (** m_files/h2o_soundspeed.m 67-91. Line 86 reads
      [- 0.161674495909-8 .* S.^2 .* P.^2]: the number 0.161674495909 minus
      8 S^2 P^2. *)
  Definition soundspeed (T P S : N) : N :=
    let dT := dec 501109398873 11 * T - dec 550946843172 13 * sq T + dec 221535969240 15 * cu T in
    let dS := dec 132952290781 11 * S + dec 128955756844 15 * cu S in
    let dP := dec 156059257041 12 * P + dec 244998688441 16 * sq P - dec 883392332513 20 * cu P in
    let dSTP := (- dec 127562783426 13) * T * S
      + dec 635191613389 14 * T * P
      + dec 265484716608 19 * sq T * sq P
      - dec 159349479045 17 * T * cu P
      + dec 522116437235 21 * T * cu P
      - dec 438031096213 18 * cu T * P
      - dec 161674495909 12
      - #8 * sq S * sq P
      + dec 968403156410 16 * sq T * S
      + dec 485639620015 17 * T * sq S * P
      - dec 340597039004 15 * T * S * P in
    dec 1402392 3 + dT + dS + dP + dSTP.

  (** The argument list: missing arguments are the last ones. *)
  Inductive h2o_args :=
  | H0 | H1 (T : N) | H2 (T P : N) | H3 (T P : N) (unit : String.string) | H4 (T P : N) (unit : String.string) (Sal : N).
  (** m_files/h2o_soundspeed.m 23-92: the result (None: the function returns
      without setting it) and whether the unit was reported unknown. *)
  Local Open Scope string_scope.
  Definition h2o_soundspeed (a : h2o_args) : option N * bool :=
    let run T Pin unit S := let '(P, msg) := pressure Pin unit in (Some (soundspeed T P S), msg) in
    match a with
    | H0 => (None, false)
    | H1 T => run T #101325 "Pa" #0
    | H2 T P => run T P "Pa" #0
    | H3 T P u => run T P u #0
    | H4 T P u Sal => run T P u Sal
    end.
End Mf.
Arguments h2o_args : clear implicits.
