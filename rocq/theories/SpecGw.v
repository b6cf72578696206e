(** SpecGw.v - the documented interface of the SIR functions: option strings
    and argument positions (help texts of oct/oct_dream_arr_rect.cc 40-190,
    oct/oct_dream_arr_annu.cc 40-150, oct/oct_dreamrect_f.cc 40-130), and what
    an ordinary argument list looks like. *)
From Coq Require Strings.String Strings.Ascii.
Import Coq.Strings.String.StringSyntax.
From Verif Require Import Base ModelSir ModelArr ModelSmp ModelGw SpecAnnu.
Local Open Scope string_scope.
Local Open Scope Z_scope.

(** ** Documented option strings *)
Definition err_doc : list (string * ErrorLevel) :=
  [("ignore", lvl_ignore); ("warn", lvl_warn); ("stop", lvl_stop)].
Definition foc_doc : list (string * FocusMet) :=
  [("off", foc_none); ("x", foc_x); ("y", foc_y); ("xy", foc_xy); ("on", foc_xy);
   ("x+y", foc_x_y); ("ud", foc_ud)].
Definition steer_doc : list (string * SteerMet) :=
  [("off", steer_none); ("x", steer_x); ("y", steer_y); ("xy", steer_xy)].
Definition apod_doc : list (string * ApodMet) :=
  [("triangle", apod_triangle); ("gauss", apod_gauss); ("raised", apod_raised);
   ("hann", apod_hann); ("hamming", apod_hamming); ("simply", apod_simply);
   ("clamped", apod_clamped); ("ud", apod_ud)].

(** The string contains no NUL character. *)
Fixpoint no_nul (s : string) : Prop :=
  match s with
  | String.EmptyString => True
  | String.String c s' => c <> Ascii.zero /\ no_nul s'
  end.

(** What the user's string means to the front end: MATLAB strings must not
    contain NUL characters. *)
Definition printable (fe : front) (s : string) : Prop := fe = Matlab -> no_nul s.

(** ** Argument positions *)
Inductive kind := Number | Text.
Definition signature (f : func) : list kind :=
  match f with
  | FRect | FCirc => [Number; Number; Number; Number; Number; Text; Text]
  | FLine | FSphere | FCylind => [Number; Number; Number; Number; Number; Text]
  | FRectF | FCircF => [Number; Number; Number; Number; Number; Text; Number; Text]
  | FArrRect | FArrCirc | FArrCylind =>
    [Number; Number; Number; Number; Number; Number; Text; Number; Text; Number; Text; Number; Number; Text]
  | FArrAnnu => [Number; Number; Number; Number; Number; Text; Number; Text; Number; Number; Text]
  end.
Definition delay_pos (f : func) : nat :=
  match f with FArrRect | FArrCirc | FArrCylind => 4 | _ => 3 end.
Definition array_pos (f : func) : option nat :=
  match f with FArrRect | FArrCirc | FArrCylind => Some 2%nat | FArrAnnu => Some 1%nat | _ => None end.

Section Spec.
  Context {N : Num}.

  (** An m x n matrix has m*n entries. *)
  Definition shaped (v : value N) : Prop :=
    match v with
    | VNum _ m n d => 0 <= m /\ 0 <= n /\ Z.of_nat (length d) = m * n
    | VStr _ => True
    end.

  (** How the interpreters hold ordinary double arguments: Octave keeps a 1 x 1
      matrix as a scalar, everything else is a full matrix. *)
  Definition ordinary (fe : front) (v : value N) : Prop :=
    match v with
    | VNum st m n _ => st = Full \/ (fe = Octave /\ m = 1 /\ n = 1 /\ st = Temp)
    | VStr _ => True
    end.

  Definition is_number (v : value N) : Prop := match v with VNum _ _ _ _ => True | VStr _ => False end.
  Definition is_text (v : value N) : Prop := match v with VNum _ _ _ _ => False | VStr _ => True end.

  (** Every number argument is a number. *)
  Definition well_typed (f : func) (args : list (value N)) : Prop :=
    forall i v, nth_error args i = Some v -> nth_error (signature f) i = Some Number -> is_number v.

  Definition nonempty (v : value N) : Prop := match v with VNum _ m n _ => 1 <= m * n | VStr _ => True end.

  (** A scalar given as the vector of a user defined method. *)
  Definition scalar_ud (args : list (value N)) : Prop :=
    exists i v, nth_error args i = Some (VStr "ud") /\ nth_error args (S i) = Some v /\
                get_m v * get_n v = 1.

  Definition tidy (fe : front) (f : func) (args : list (value N)) : Prop :=
    (forall v, In v args -> shaped v /\ ordinary fe v) /\ well_typed f args.

  Definition delay_nonempty (f : func) (args : list (value N)) : Prop :=
    forall v, nth_error args (delay_pos f) = Some v -> nonempty v.
  Definition array_nonempty (f : func) (args : list (value N)) : Prop :=
    forall p v, array_pos f = Some p -> nth_error args p = Some v -> nonempty v.

  (** The library's inverse FFT keeps the length. *)
  Definition keeps_length (c2r : list (N * N) -> list N) : Prop :=
    forall xc, length (c2r xc) = length xc.

  (** ** What an accepted call looks like *)
  Definition entries (v : value N) : Z := get_m v * get_n v.

  Definition focus_pos (f : func) : option nat :=
    match f with
    | FRectF | FCircF | FArrAnnu => Some 5%nat
    | FArrRect | FArrCirc | FArrCylind => Some 6%nat
    | _ => None
    end.
  Definition steer_pos (f : func) : option nat :=
    match f with FArrRect | FArrCirc | FArrCylind => Some 8%nat | _ => None end.
  Definition apod_pos (f : func) : option nat :=
    match f with FArrRect | FArrCirc | FArrCylind => Some 10%nat | FArrAnnu => Some 7%nat | _ => None end.

  (** The methods the computation uses. *)
  Definition used_focus (T : transducer N) : option FocusMet :=
    match T with
    | TRectF _ _ m _ => Some m
    | TCircF _ m _ => Some m
    | TArrRect _ _ p | TArrCirc _ p | TArrCylind _ _ _ p => Some (foc_met p)
    | TArrAnnu p => Some (an_foc_met p)
    | _ => None
    end.
  Definition used_steer (T : transducer N) : option SteerMet :=
    match T with
    | TArrRect _ _ p | TArrCirc _ p | TArrCylind _ _ _ p => Some (steer_met p)
    | _ => None
    end.
  (** None: no apodization. *)
  Definition used_apod (T : transducer N) : option ApodMet :=
    match T with
    | TArrRect _ _ p | TArrCirc _ p | TArrCylind _ _ _ p => if do_apod p then Some (apod_met p) else None
    | TArrAnnu p => if an_do_apod p then Some (an_apod_met p) else None
    | _ => None
    end.
  (** Number of array elements, as the call sees it (1 for a single
      transducer). *)
  Definition elements (fe : front) (f : func) (args : list (value N)) : Z :=
    match f with
    | FArrRect | FArrCirc | FArrCylind =>
      match nth_error args 2 with Some v => get_m v | None => 0 end
    | FArrAnnu =>
      match nth_error args 1 with
      | Some v => match fe with
                  | Octave | Matlab => (entries v + 1) / 2
                  | Python => get_m v
                  | Julia => entries v
                  end
      | None => 0
      end
    | _ => 1
    end.

  (** The option strings of the call are documented ones and the computation
      uses exactly the methods they name. *)
  Record options_ok (fe : front) (f : func) (args : list (value N)) (J : job N) : Prop := {
    oo_focus : forall p, focus_pos f = Some p -> exists s m,
      nth_error args p = Some (VStr s) /\ In (s, m) foc_doc /\ used_focus (j_T J) = Some m;
    oo_steer : forall p, steer_pos f = Some p -> exists s m,
      nth_error args p = Some (VStr s) /\ In (s, m) steer_doc /\ used_steer (j_T J) = Some m;
    oo_apod : forall p, apod_pos f = Some p -> exists s,
      nth_error args p = Some (VStr s) /\
      ((s = "off" /\ used_apod (j_T J) = None) \/
       (exists m, In (s, m) apod_doc /\ used_apod (j_T J) = Some m))
  }.
  Definition level_ok (f : func) (args : list (value N)) (J : job N) : Prop :=
    match nth_error args (err_pos f) with
    | Some v => exists s, v = VStr s /\ In (s, j_lvl J) err_doc
    | None => j_lvl J = lvl_stop
    end.

  (** The matrices and vectors of the call have the documented shapes. *)
  Record shapes_ok (fe : front) (f : func) (args : list (value N)) (J : job N) : Prop := {
    so_count : fst (arity fe f) <= Z.of_nat (length args) <= snd (arity fe f);
    so_Ro : exists v, nth_error args 0 = Some v /\ get_n v = 3 /\ j_No J = get_m v;
    so_geom : f <> FArrAnnu -> exists v, nth_error args 1 = Some v /\ entries v = geom_pars f;
    so_array : forall p, array_pos f = Some p -> f <> FArrAnnu -> exists v,
      nth_error args p = Some v /\ get_n v = 3;
    so_samp : exists v, nth_error args (delay_pos f - 1) = Some v /\ entries v = 4;
    so_delay : exists v, nth_error args (delay_pos f) = Some v /\
      (entries v <= 0 \/ entries v = 1 \/ entries v = j_No J);
    so_mat : exists v, nth_error args (delay_pos f + 1) = Some v /\ entries v = 3;
    so_focus : forall p, focus_pos f = Some p -> exists s v, nth_error args p = Some (VStr s) /\
      nth_error args (p + 1) = Some v /\ entries v = (if String.eqb s "ud" then elements fe f args else 1);
    so_steer : forall p, steer_pos f = Some p -> exists v, nth_error args (p + 1) = Some v /\ entries v = 2
  }.
  Definition weights_ok (fe : front) (f : func) (args : list (value N)) : Prop :=
    forall p, apod_pos f = Some p -> exists s v, nth_error args p = Some (VStr s) /\
      nth_error args (p + 1) = Some v /\ (s = "ud" -> entries v = elements fe f args).

  (** ** Well-formed calls and the computation they ask for *)

  (** A row or column vector holding [d]. *)
  Definition vec (fe : front) (d : list N) (v : value N) : Prop :=
    exists st m n, v = VNum st m n d /\ ordinary fe v /\
      ((m = 1 /\ n = Z.of_nat (length d)) \/ (m = Z.of_nat (length d) /\ n = 1)).
  (** A rows x 3 matrix holding [d]. *)
  Definition mat3 (fe : front) (rows : Z) (d : list N) (v : value N) : Prop :=
    exists st, v = VNum st rows 3 d /\ ordinary fe v /\ 0 <= rows /\ Z.of_nat (length d) = rows * 3.

  (** One start delay for all observation points, or one for each. *)
  Definition delay_given (fe : front) (No : Z) (v : value N) (dty : DelayType) (del : list N) : Prop :=
    (exists d, vec fe [d] v /\ dty = delay_single /\ del = [d]) \/
    (vec fe del v /\ Z.of_nat (length del) = No /\ No <> 1 /\ dty = delay_multiple).

  Definition single_transducer (f : func) (g : list N) : option (transducer N) :=
    match f, g with
    | FRect, [a; b] => Some (TRect a b)
    | FCirc, [r] => Some (TCirc r)
    | FLine, [a] => Some (TLine a)
    | FSphere, [r; rc] => Some (TSphere r rc)
    | FCylind, [a; b; rc] => Some (TCylind a b rc)
    | _, _ => None
    end.
  Definition focused_transducer (f : func) (g : list N) (m : FocusMet) (x : N) : option (transducer N) :=
    match f, g with
    | FRectF, [a; b] => Some (TRectF a b m x)
    | FCircF, [r] => Some (TCircF r m x)
    | _, _ => None
    end.
  Definition array_transducer (f : func) (g : list N) (p : arr_par N) : option (transducer N) :=
    match f, g with
    | FArrRect, [a; b] => Some (TArrRect a b p)
    | FArrCirc, [r] => Some (TArrCirc r p)
    | FArrCylind, [a; b; rc] => Some (TArrCylind a b rc p)
    | _, _ => None
    end.

  (** A scalar 'ud' vector cannot be given to Octave (see C34). *)
  Definition ud_vector (fe : front) (num : Z) (d : list N) (v : value N) : Prop :=
    vec fe d v /\ Z.of_nat (length d) = num /\ ~ (fe = Octave /\ num = 1).

  Definition focus_given (fe : front) (num : Z) (vs v : value N) (m : FocusMet) (fbuf : list N) : Prop :=
    (exists s x, vs = VStr s /\ In (s, m) foc_doc /\ s <> "ud" /\ vec fe [x] v /\
       fbuf = x :: repeat (nofZ 0) (Z.to_nat (num - 1))) \/
    (vs = VStr "ud" /\ m = foc_ud /\ ud_vector fe num fbuf v).
  Definition steer_given (fe : front) (vs v : value N) (m : SteerMet) (th ph : N) : Prop :=
    exists s, vs = VStr s /\ In (s, m) steer_doc /\ vec fe [th; ph] v.
  (** [w]: the window parameter. *)
  Definition apod_given (fe : front) (num : Z) (vs v vp : value N) (on : bool) (m : ApodMet)
    (abuf : list N) (w : N) : Prop :=
    vec fe [w] vp /\
    ((vs = VStr "off" /\ ordinary fe v /\ on = false /\ m = apod_gauss /\ abuf = repeat (nofZ 0) (Z.to_nat num)) \/
     (exists s, vs = VStr s /\ ordinary fe v /\ on = true /\ In (s, m) apod_doc /\ s <> "ud" /\
        abuf = repeat (nofZ 0) (Z.to_nat num)) \/
     (vs = VStr "ud" /\ on = true /\ m = apod_ud /\ ud_vector fe num abuf v)).
  (** The window parameter that reaches the computation. *)
  Definition window_par (fe : front) (w : N) : N :=
    match fe with Octave | Matlab => w | Python | Julia => nofZ 0 end.

  (** The optional error level argument; Python and Julia require it. *)
  Definition level_given (fe : front) (tail : list (value N)) (l : ErrorLevel) : Prop :=
    (exists s, tail = [VStr s] /\ In (s, l) err_doc) \/
    ((fe = Octave \/ fe = Matlab) /\ tail = [] /\ l = lvl_stop).

  Definition asks (fuel : nat) (c2r : list (N * N) -> list N) (T : transducer N) (dx dy dt : N) (n : Z)
    (v c alpha : N) (l : ErrorLevel) (No : Z) (ro : list N) (dty : DelayType) (del : list N) : job N :=
    {| j_fuel := fuel; j_T := T;
       j_q := {| dx := dx; dy := dy; dt := dt; nt := n; vel := v; cp := c |};
       j_att := if nlt neps alpha
                then Some {| att_len := n; att_dt := dt; att_alpha := alpha; att_c2r := c2r |} else None;
       j_lvl := l; j_No := No; j_Ro := ro; j_delay_type := dty; j_delay := del |}.

  (** [documented fe f args T q alpha l No ro dty del]: [args] is an argument
      list as the help text of [f] describes it, for the transducer T, sampling
      and material parameters q and alpha, error level l, observation points
      ro (No x 3) and start delays del. *)
  Definition samp_given (fe : front) (q : samp N) (vs : value N) : Prop :=
    exists ntf, vec fe [dx q; dy q; dt q; ntf] vs /\ to_idx (idx_of fe) (ntrunc ntf) = Ok (nt q).

  Inductive documented (fe : front) : func -> list (value N) -> transducer N -> samp N -> N -> ErrorLevel ->
    Z -> list N -> DelayType -> list N -> Prop :=
  | doc_single f g T q alpha l No ro dty del vo vg vs vd vm tail :
      single_transducer f g = Some T ->
      mat3 fe No ro vo -> vec fe g vg -> samp_given fe q vs -> delay_given fe No vd dty del ->
      vec fe [vel q; cp q; alpha] vm -> level_given fe tail l ->
      documented fe f ([vo; vg; vs; vd; vm] ++ tail)%list T q alpha l No ro dty del
  | doc_focused f g m x T q alpha l No ro dty del vo vg vs vd vm v5 v6 tail :
      focused_transducer f g m x = Some T ->
      mat3 fe No ro vo -> vec fe g vg -> samp_given fe q vs -> delay_given fe No vd dty del ->
      vec fe [vel q; cp q; alpha] vm -> focus_given fe 1 v5 v6 m [x] -> level_given fe tail l ->
      documented fe f ([vo; vg; vs; vd; vm; v5; v6] ++ tail)%list T q alpha l No ro dty del
  | doc_array f g p w T q alpha l No ro dty del vo vg va vs vd vm v6 v7 v8 v9 v10 v11 v12 tail :
      array_transducer f g p = Some T -> 1 <= num_elements p -> apod_par p = window_par fe w ->
      mat3 fe No ro vo -> vec fe g vg -> mat3 fe (num_elements p) (G p) va -> samp_given fe q vs ->
      delay_given fe No vd dty del -> vec fe [vel q; cp q; alpha] vm ->
      focus_given fe (num_elements p) v6 v7 (foc_met p) (focal p) ->
      steer_given fe v8 v9 (steer_met p) (theta p) (phi p) ->
      apod_given fe (num_elements p) v10 v11 v12 (do_apod p) (apod_met p) (apod p) w -> level_given fe tail l ->
      documented fe f ([vo; vg; va; vs; vd; vm; v6; v7; v8; v9; v10; v11; v12] ++ tail)%list
        T q alpha l No ro dty del
  | doc_annu p w num q alpha l No ro dty del vo vr vs vd vm v5 v6 v7 v8 v9 tail :
      num = match fe with Octave | Matlab => (Z.of_nat (length (Gr p)) + 1) / 2 | _ => Z.of_nat (length (Gr p)) end ->
      (1 <= length (Gr p))%nat -> (fe = Julia -> Nat.odd (length (Gr p)) = true) -> (fe = Python -> get_n vr = 1) ->
      an_apod_par p = window_par fe w ->
      mat3 fe No ro vo -> vec fe (Gr p) vr -> samp_given fe q vs ->
      delay_given fe No vd dty del -> vec fe [vel q; cp q; alpha] vm ->
      focus_given fe num v5 v6 (an_foc_met p) (an_focal p) ->
      apod_given fe num v7 v8 v9 (an_do_apod p) (an_apod_met p) (an_apod p) w -> level_given fe tail l ->
      documented fe FArrAnnu ([vo; vr; vs; vd; vm; v5; v6; v7; v8; v9] ++ tail)%list
        (TArrAnnu p) q alpha l No ro dty del.

  (** An annular array whose rings fire at most one sample early (MATLAB and
      Julia index with unsigned integers and need no such condition). *)
  Definition rings_in_time (fe : front) (T : transducer N) (q : samp N) : Prop :=
    forall p, T = TArrAnnu p -> idx_of fe = UnsignedIdx \/
      forall n z, (n < rings (Gr p))%nat -> nrint (ndiv (ring_delay q p n) (dt q)) = Some z -> -1 <= z.

  (** The computation that call asks for. *)
  Definition requested (fuel : nat) (c2r : list (N * N) -> list N) (T : transducer N) (q : samp N)
    (alpha : N) (l : ErrorLevel) (No : Z) (ro : list N) (dty : DelayType) (del : list N) : job N :=
    asks fuel c2r T (dx q) (dy q) (dt q) (nt q) (vel q) (cp q) alpha l No ro dty del.

  (** Coordinates and start delay of observation point n. *)
  Definition point_is (J : job N) (n : Z) (xo yo zo d : N) : Prop :=
    nth_error (j_Ro J) (Z.to_nat n) = Some xo /\
    nth_error (j_Ro J) (Z.to_nat (n + j_No J)) = Some yo /\
    nth_error (j_Ro J) (Z.to_nat (n + 2 * j_No J)) = Some zo /\
    nth_error (j_delay J) (match j_delay_type J with delay_single => O | delay_multiple => Z.to_nat n end) = Some d.
End Spec.
