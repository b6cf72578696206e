(** ModelGw.v - argument parsing and the gateway functions of the four front
    ends (Octave, MATLAB, Python, Julia) for all eleven SIR functions:
    include/arg_parser.h, include/arg_parser_python.h,
    include/arg_parser_julia.h, oct/oct_dream*.cc, mex/mex_dream*.cc,
    python/src/py_dream*.cc, julia/src/jl_dream*.cc. *)
From Coq Require Strings.String Strings.Ascii.
Import Coq.Strings.String.StringSyntax.
From Verif Require Import Base ModelSir ModelArr ModelSmp.
Notation string := String.string.
Local Open Scope string_scope.
Local Open Scope Z_scope.

Inductive front := Octave | Matlab | Python | Julia.

(** include/dream.h: dream_idx_type is octave_idx_type (signed), mwSize
    (unsigned), ssize_t (signed), size_t (unsigned). *)
Definition idx_of (fe : front) : idx_kind :=
  match fe with Octave | Python => SignedIdx | Matlab | Julia => UnsignedIdx end.

(** ** Option strings *)

(** The std::string the parser compares.  Octave, Python and Julia pass the
    string itself.  MATLAB: include/arg_parser.h 639-652 copies it into
    char[100] when 2*len+1 < 100 and then reads it as a C string (up to the
    first NUL); longer strings become "".  Simplification: strings are row
    vectors of 8 bit characters. *)
Fixpoint c_str (s : string) : string :=
  match s with
  | String.EmptyString => ""
  | String.String c s' => if Ascii.eqb c Ascii.zero then "" else String.String c (c_str s')
  end.
Definition get_string_arg (fe : front) (s : string) : string :=
  match fe with
  | Matlab => if 2 * Z.of_nat (String.length s) + 1 <? 100 then c_str s else ""
  | _ => s
  end.

(** include/arg_parser.h 262-288; arg_parser_python.h, arg_parser_julia.h
    parse_error_arg.  The chain of if statements is written as one match:
    the comparisons are mutually exclusive. *)
Definition err_of_string (s : string) : option ErrorLevel :=
  if String.eqb s "ignore" then Some lvl_ignore
  else if String.eqb s "warn" then Some lvl_warn
  else if String.eqb s "stop" then Some lvl_stop
  else None.

(** include/arg_parser.h 316-346. *)
Definition foc_of_string (s : string) : option FocusMet :=
  if String.eqb s "off" then Some foc_none
  else if String.eqb s "x" then Some foc_x
  else if String.eqb s "y" then Some foc_y
  else if String.eqb s "xy" || String.eqb s "on" then Some foc_xy
  else if String.eqb s "x+y" then Some foc_x_y
  else if String.eqb s "ud" then Some foc_ud
  else None.

(** include/arg_parser.h 406-426. *)
Definition steer_of_string (s : string) : option SteerMet :=
  if String.eqb s "off" then Some steer_none
  else if String.eqb s "x" then Some steer_x
  else if String.eqb s "y" then Some steer_y
  else if String.eqb s "xy" then Some steer_xy
  else None.

(** include/arg_parser.h 462-515: (do_apod, apod_met); "off" leaves apod_met
    at its initial value ApodMet::gauss (every gateway). *)
Definition apod_of_string (s : string) : option (bool * ApodMet) :=
  if String.eqb s "off" then Some (false, apod_gauss)
  else if String.eqb s "triangle" then Some (true, apod_triangle)
  else if String.eqb s "gauss" then Some (true, apod_gauss)
  else if String.eqb s "raised" then Some (true, apod_raised)
  else if String.eqb s "hann" then Some (true, apod_hann)
  else if String.eqb s "hamming" then Some (true, apod_hamming)
  else if String.eqb s "simply" then Some (true, apod_simply)
  else if String.eqb s "clamped" then Some (true, apod_clamped)
  else if String.eqb s "ud" then Some (true, apod_ud)
  else None.

Section Gw.
  Context {N : Num}.
  Local Notation buf := (list N).

  (** An argument as the user passed it: an m x n matrix (column major) or a
      string.  [storage] says how the interpreter holds a numeric argument:
      [Full]: as a full two dimensional matrix of doubles; [Temp] (matters in
      Octave only): in another form - a scalar, a range such as 0:3, a single
      or integer matrix - so that matrix_value() builds a temporary matrix;
      [OneD] (matters in Python only): as a one dimensional numpy array, whose
      shape vector has one entry. *)
  Inductive storage := Full | Temp | OneD.
  Inductive value := VNum (st : storage) (m n : Z) (d : buf) | VStr (s : string).

  (** get_m, get_n, is_string: include/arg_parser.h 593-603, 614-616, 627-633,
      644-646; arg_parser_python.h 592-606; arg_parser_julia.h 589-606.
      Octave's matrix_value() of a string is the 1 x len matrix of its
      character codes; Python and Julia are statically typed. *)
  Fixpoint codes (s : string) : buf :=
    match s with
    | String.EmptyString => []
    | String.String c s' => nofZ (Z.of_nat (Ascii.nat_of_ascii c)) :: codes s'
    end.
  Definition get_m (v : value) : Z :=
    match v with VNum _ m _ _ => m | VStr s => if Nat.eqb (String.length s) 0 then 0 else 1 end.
  Definition get_n (v : value) : Z :=
    match v with VNum _ _ n _ => n | VStr s => Z.of_nat (String.length s) end.
  Definition get_data (v : value) : buf := match v with VNum _ _ _ d => d | VStr s => codes s end.
  Definition is_string (v : value) : bool := match v with VStr _ => true | _ => false end.
  Definition str_of (v : value) : string := match v with VStr s => s | _ => "" end.

  (** The parser's get_data, include/arg_parser.h 605-608 (Octave) and 635-637
      (MATLAB), followed by a read through the pointer.  In Octave the pointer
      is into a local Matrix that is destroyed on return: if the argument does
      not hold a full matrix itself this is a read of freed memory, here an
      out of bounds read.  In MATLAB the data of a char array are 2 byte
      characters, read as doubles: an out of bounds read. *)
  Definition parser_data (fe : front) (v : value) : res buf :=
    match v, fe with
    | VNum Temp _ _ _, Octave => UB UB_oob_read
    | VNum _ _ _ d, _ => Ok d
    | VStr _, _ => UB UB_oob_read
    end.

  (** The gateways' own access to Ro, delay, G (oct/oct_dreamrect.cc 142-144:
      a Matrix that lives as long as the call; mex/mex_dreamrect.cc 54:
      mxGetPr). *)
  Definition gw_data (fe : front) (v : value) : res buf :=
    match v, fe with
    | VStr s, Octave => Ok (codes s)
    | VStr _, _ => UB UB_oob_read
    | VNum _ _ _ d, _ => Ok d
    end.

  (** Python: every use of get_n, or of shape[1] in the gateways, on a one
      dimensional array reads past the shape vector (arg_parser_python.h
      600-604). *)
  Definition shape_ok (fe : front) (v : value) : res unit :=
    match fe, v with
    | Python, VNum OneD _ _ _ => UB UB_oob_read
    | _, _ => Ok tt
    end.

  (** A parse/check function returns retval ([p_ok]); [p_msg] says whether it
      called dream_err_msg, [p_val] are its output parameters. *)
  Record parsed (A : Type) := { p_ok : bool; p_msg : bool; p_val : A }.
  Definition accept {A} (a : A) : parsed A := {| p_ok := true; p_msg := false; p_val := a |}.
  Definition reject {A} (a : A) : parsed A := {| p_ok := false; p_msg := true; p_val := a |}.
  Definition reject_silent {A} (a : A) : parsed A := {| p_ok := false; p_msg := false; p_val := a |}.
  Arguments p_ok {A}. Arguments p_msg {A}. Arguments p_val {A}.

  (** Octave, Python and Julia gateways stop when a parser returns false; the
      MATLAB gateways ignore the return value and stop because dream_err_msg
      (mexErrMsgTxt) does not return, src/dream_error.cc 78-88. *)
  Definition goes_on {A} (fe : front) (p : parsed A) : bool :=
    match fe with Matlab => negb (p_msg p) | _ => p_ok p end.

  (** include/arg_parser.h 53-82: check_arg_in, check_arg_out. *)
  Definition in_bounds (n lo hi : Z) : bool := negb ((n <? lo) || (hi <? n)).

  (** include/arg_parser.h 84-107: check_obs_points, check_array. *)
  Definition check_obs_points (v : value) : bool := get_n v =? 3.
  Definition check_array (v : value) : bool := get_n v =? 3.

  (** include/arg_parser.h 109-119 and arg_parser_python.h 115-131:
      (m != 1) && (n != 1) && (n*n % 2 == 0) is rejected;
      arg_parser_julia.h 114-128: len % 2 == 0 is rejected. *)
  Definition check_array_annu (fe : front) (v : value) : bool :=
    match fe with
    | Julia => negb ((get_m v * get_n v) mod 2 =? 0)
    | _ => negb (negb (get_m v =? 1) && negb (get_n v =? 1) && ((get_n v * get_n v) mod 2 =? 0))
    end.

  (** The vector length checks: include/arg_parser.h 142, 192, 222;
      arg_parser_julia.h: get_len != num. *)
  Definition check_vec (fe : front) (num : Z) (v : value) : bool :=
    match fe with
    | Julia => get_m v * get_n v =? num
    | _ => ((get_m v =? num) && (get_n v =? 1)) || ((get_m v =? 1) && (get_n v =? num))
    end.

  (** include/arg_parser.h 137-172: num_pars = 1, 2 or 3. *)
  Definition parse_geometry (fe : front) (num : Z) (v : value) : res (parsed (N * N * N)) :=
    let z : N := nofZ 0 in
    if negb (check_vec fe num v) then Ok (reject (z, z, z))
    else if num =? 1 then do a <- buf_get (get_data v) 0; Ok (accept (a, z, z))   (* get_scalar *)
    else
      do d <- parser_data fe v;
      do a <- buf_get d 0; do b <- buf_get d 1;
      if 2 <? num then do c <- buf_get d 2; Ok (accept (a, b, c))
      else Ok (accept (a, b, z)).

  (** include/arg_parser.h 187-207: dx, dy, dt and nt = (dream_idx_type) data[3]. *)
  Definition parse_sampling (fe : front) (v : value) : res (parsed (N * N * N * Z)) :=
    let z : N := nofZ 0 in
    if negb (check_vec fe 4 v) then Ok (reject (z, z, z, 0))
    else
      do d <- parser_data fe v;
      do dx <- buf_get d 0; do dy <- buf_get d 1; do dt <- buf_get d 2; do ntf <- buf_get d 3;
      do nt <- to_idx (idx_of fe) (ntrunc ntf);
      Ok (accept (dx, dy, dt, nt)).

  (** include/arg_parser.h 222-242. *)
  Definition parse_material (fe : front) (v : value) : res (parsed (N * N * N)) :=
    if negb (check_vec fe 3 v) then Ok (reject (nofZ 1, nofZ 1000, nofZ 0))
    else
      do d <- parser_data fe v;
      do vv <- buf_get d 0; do c <- buf_get d 1; do al <- buf_get d 2;
      Ok (accept (vv, c, al)).

  (** include/arg_parser.h 244-260: check_delay. *)
  Definition check_delay (v : value) (No : Z) : bool :=
    let len := get_m v * get_n v in
    negb ((1 <? len) && negb (len =? No)).

  (** In the gateways, e.g. oct/oct_dreamrect.cc 166-172. *)
  Definition delay_type_of (v : value) : DelayType :=
    if get_m v * get_n v =? 1 then delay_single else delay_multiple.

  Definition parse_error_arg (fe : front) (v : value) : parsed ErrorLevel :=
    if negb (is_string v) then reject lvl_stop
    else match err_of_string (get_string_arg fe (str_of v)) with
         | Some l => accept l
         | None => reject lvl_stop
         end.

  (** memcpy(dst, src, num): both must have num elements. *)
  Definition memcpy (dst src : buf) (num : Z) : res buf :=
    if Z.of_nat (length src) <? num then UB UB_oob_read
    else if Z.of_nat (length dst) <? num then UB UB_oob_write
    else Ok (firstn (Z.to_nat num) src ++ skipn (Z.to_nat num) dst)%list.

  (** include/arg_parser.h 299-390: parse_focus_args.  [focal0] is the
      caller's buffer, [num] = num_elements. *)
  Definition parse_focus_args (fe : front) (vs v : value) (num : Z) (focal0 : buf)
    : res (parsed (FocusMet * buf)) :=
    if negb (is_string vs) then Ok (reject (foc_none, focal0))
    else
      let s := get_string_arg fe (str_of vs) in
      let len := get_m v * get_n v in
      if String.eqb s "ud" then
        if negb (len =? num) then Ok (reject (foc_ud, focal0))
        else do d <- parser_data fe v; do f <- memcpy focal0 d num; Ok (accept (foc_ud, f))
      else
        if negb (len =? 1) then Ok (reject (foc_none, focal0))
        else
          do x <- buf_get (get_data v) 0;
          do f <- buf_upd focal0 0 (fun _ => x);
          match foc_of_string s with
          | Some m => Ok (accept (m, f))
          | None => Ok (reject (foc_none, f))
          end.

  (** include/arg_parser.h 393-446: parse_steer_args. *)
  Definition parse_steer_args (fe : front) (vs v : value) : res (parsed (SteerMet * N * N)) :=
    let z : N := nofZ 0 in
    if negb (is_string vs) then Ok (reject (steer_none, z, z))
    else match steer_of_string (get_string_arg fe (str_of vs)) with
         | None => Ok (reject (steer_none, z, z))
         | Some m =>
           if negb (check_vec fe 2 v) then Ok (reject (m, z, z))
           else do d <- parser_data fe v; do th <- buf_get d 0; do ph <- buf_get d 1;
             Ok (accept (m, th, ph))
         end.

  (** include/arg_parser.h 449-546: parse_apod_args.  A wrong number of user
      defined weights returns false without a message; Python and Julia do
      not look at the window parameter (arg_parser_python.h 525-543,
      arg_parser_julia.h 528-546), it stays 0.0. *)
  Definition parse_apod_args (fe : front) (vs v vp : value) (num : Z) (apod0 : buf)
    : res (parsed (bool * buf * ApodMet * N)) :=
    let z : N := nofZ 0 in
    if negb (is_string vs) then Ok (reject (false, apod0, apod_gauss, z))
    else
      let s := get_string_arg fe (str_of vs) in
      match apod_of_string s with
      | None => Ok (reject (false, apod0, apod_gauss, z))
      | Some (on, met) =>
        let ud := String.eqb s "ud" in
        let bad := ud && negb (get_m v * get_n v =? num) in
        do _ <- (if ud then shape_ok fe v else Ok tt);
        do ap <- (if ud && negb bad then do d <- parser_data fe v; memcpy apod0 d num else Ok apod0);
        match fe with
        | Octave | Matlab =>
          if negb ((get_m vp =? 1) && (get_n vp =? 1)) then Ok (reject (on, ap, met, z))
          else if bad then Ok (reject_silent (on, ap, met, z))
          else do w <- buf_get (get_data vp) 0; Ok (accept (on, ap, met, w))
        | Python | Julia =>
          if bad then Ok (reject_silent (on, ap, met, z)) else Ok (accept (on, ap, met, z))
        end
      end.

  (** ** The gateways *)
  Inductive func := FRect | FRectF | FCirc | FCircF | FLine | FSphere | FCylind
                  | FArrRect | FArrCirc | FArrCylind | FArrAnnu.

  (** check_arg_in in oct_dream*.cc and mex_dream*.cc; the signature of the
      function in py_dream*.cc and jl_dream*.cc. *)
  Definition arity (fe : front) (f : func) : Z * Z :=
    match fe, f with
    | (Octave | Matlab), (FRect | FCirc) => (5, 7)
    | (Octave | Matlab), (FRectF | FCircF) => (7, 8)
    | (Octave | Matlab), (FLine | FSphere | FCylind) => (5, 6)
    | (Octave | Matlab), (FArrRect | FArrCirc | FArrCylind) => (13, 14)
    | (Octave | Matlab), FArrAnnu => (10, 11)
    | _, (FRect | FCirc | FLine | FSphere | FCylind) => (6, 6)
    | _, (FRectF | FCircF) => (8, 8)
    | _, (FArrRect | FArrCirc | FArrCylind) => (14, 14)
    | _, FArrAnnu => (11, 11)
    end.

  Definition geom_pars (f : func) : Z :=
    match f with
    | FRect | FRectF | FSphere | FArrRect => 2
    | FCirc | FCircF | FLine | FArrCirc => 1
    | FCylind | FArrCylind => 3
    | FArrAnnu => 0
    end.

  (** Position of the err_level argument and whether it is read: nrhs >= 6
      (Octave dreamrect, dreamcirc), nrhs == 6 (MATLAB dreamrect, dreamcirc:
      not read when a 7th argument is given), nrhs == maximum (the others),
      always (Python, Julia). *)
  Definition err_pos (f : func) : nat :=
    match f with
    | FRect | FCirc | FLine | FSphere | FCylind => 5
    | FRectF | FCircF => 7
    | FArrRect | FArrCirc | FArrCylind => 13
    | FArrAnnu => 10
    end.
  Definition reads_err (fe : front) (f : func) (nrhs : Z) : bool :=
    match fe, f with
    | Octave, (FRect | FCirc) => 6 <=? nrhs
    | Matlab, (FRect | FCirc) => nrhs =? 6
    | (Octave | Matlab), _ => nrhs =? snd (arity fe f)
    | _, _ => true
    end.

  Definition arg (args : list value) (i : nat) : res value :=
    match nth_error args i with Some v => Ok v | None => UB UB_oob_read end.
  (** A numeric argument whose dimensions are read next. *)
  Definition num_arg (fe : front) (args : list value) (i : nat) : res value :=
    do v <- arg args i; do _ <- shape_ok fe v; Ok v.

  (** Continuation after a check or parse: None = the call was rejected. *)
  Definition andthen {A B} (fe : front) (p : parsed A) (k : A -> res (option B)) : res (option B) :=
    if goes_on fe p then k (p_val p) else Ok None.
  Definition require {B} (b : bool) (k : res (option B)) : res (option B) :=
    if b then k else Ok None.

  (** Attenuation att(nt, dt, alpha); used iff alpha > epsilon,
      src/dreamrect.cc 206-211.  [c2r] is the inverse FFT of the library. *)
  Definition make_att (c2r : list (N * N) -> buf) (nt : Z) (dt alpha : N) : option (att_plan N) :=
    if nlt neps alpha
    then Some {| att_len := nt; att_dt := dt; att_alpha := alpha; att_c2r := c2r |} else None.

  (** The parameters common to all functions, after the geometry and array
      arguments: sampling (p), delay (p+1), material (p+2). *)
  Definition parse_common {B} (fe : front) (args : list value) (p : nat) (No : Z)
    (k : samp N * N * DelayType * buf -> res (option B)) : res (option B) :=
    do vs <- num_arg fe args p; do sp <- parse_sampling fe vs;
    andthen fe sp (fun '(dx, dy, dt, nt) =>
      do vd <- num_arg fe args (p + 1);
      require (check_delay vd No)
        (do del <- gw_data fe vd;
         do vm <- num_arg fe args (p + 2); do mp <- parse_material fe vm;
         andthen fe mp (fun '(v, c, alpha) =>
           k ({| dx := dx; dy := dy; dt := dt; nt := nt; vel := v; cp := c |}, alpha,
              delay_type_of vd, del)))).

  (** The err_level argument; the default is stop. *)
  Definition parse_level {B} (fe : front) (f : func) (args : list value)
    (k : ErrorLevel -> res (option B)) : res (option B) :=
    if reads_err fe f (Z.of_nat (length args)) then
      do v <- arg args (err_pos f); andthen fe (parse_error_arg fe v) k
    else k lvl_stop.

  (** Octave: a 7th argument must be a string (oct/oct_dreamrect.cc 203-213);
      it selects the GPU in builds with USE_OPENCL, which are not modelled
      here (see ModelGpu.v). *)
  Definition device_ok (fe : front) (args : list value) : bool :=
    match fe with
    | Octave => match nth_error args 6 with Some v => is_string v | None => true end
    | _ => true
    end.

  (** oct/oct_dreamrect.cc 124-214 and its siblings; the order of the checks
      is the order of the code.  Returns the job passed to the driver. *)
  Definition parse_call (fuel : nat) (c2r : list (N * N) -> buf) (fe : front) (f : func)
    (nlhs : Z) (args : list value) : res (option (job N)) :=
    let nrhs := Z.of_nat (length args) in
    let job T q alpha lvl No ro dty del :=
      Ok (Some {| j_fuel := fuel; j_T := T; j_q := q; j_att := make_att c2r (nt q) (dt q) alpha;
                  j_lvl := lvl; j_No := No; j_Ro := ro; j_delay_type := dty; j_delay := del |}) in
    require (in_bounds nrhs (fst (arity fe f)) (snd (arity fe f)))
    (require (in_bounds nlhs 0 2)
    (do vo <- num_arg fe args 0;
     require (check_obs_points vo)
     (let No := get_m vo in
      do ro <- gw_data fe vo;
      match f with
      | FRect | FCirc | FLine | FSphere | FCylind | FRectF | FCircF =>
        do vg <- num_arg fe args 1; do g <- parse_geometry fe (geom_pars f) vg;
        andthen fe g (fun '(g1, g2, g3) =>
          parse_common fe args 2 No (fun '(q, alpha, dty, del) =>
            match f with
            | FRectF | FCircF =>
              do v5 <- arg args 5; do v6 <- num_arg fe args 6;
              do fo <- parse_focus_args fe v5 v6 1 [nofZ 0];
              andthen fe fo (fun '(met, fbuf) =>
                parse_level fe f args (fun lvl =>
                  do focal <- buf_get fbuf 0;
                  let T := match f with FRectF => TRectF g1 g2 met focal | _ => TCircF g1 met focal end in
                  job T q alpha lvl No ro dty del))
            | _ =>
              parse_level fe f args (fun lvl =>
                require (device_ok fe args)
                (let T := match f with
                          | FRect => TRect g1 g2 | FCirc => TCirc g1 | FLine => TLine g1
                          | FSphere => TSphere g1 g2 | _ => TCylind g1 g2 g3
                          end in
                 job T q alpha lvl No ro dty del))
            end))
      | FArrRect | FArrCirc | FArrCylind =>
        do vg <- num_arg fe args 1; do g <- parse_geometry fe (geom_pars f) vg;
        andthen fe g (fun '(g1, g2, g3) =>
          do va <- num_arg fe args 2;
          require (check_array va)
          (let num := get_m va in
           do g <- gw_data fe va;
           parse_common fe args 3 No (fun '(q, alpha, dty, del) =>
             do v6 <- arg args 6; do v7 <- num_arg fe args 7;
             do fo <- parse_focus_args fe v6 v7 num (repeat (nofZ 0) (Z.to_nat num));
             andthen fe fo (fun '(fmet, fbuf) =>
               do v8 <- arg args 8; do v9 <- num_arg fe args 9;
               do st <- parse_steer_args fe v8 v9;
               andthen fe st (fun '(smet, th, ph) =>
                 do v10 <- arg args 10; do v11 <- arg args 11; do v12 <- arg args 12;
                 do ap <- parse_apod_args fe v10 v11 v12 num (repeat (nofZ 0) (Z.to_nat num));
                 andthen fe ap (fun '(on, abuf, amet, apar) =>
                   parse_level fe f args (fun lvl =>
                     let p := {| num_elements := num; G := g; foc_met := fmet; focal := fbuf;
                                 steer_met := smet; theta := th; phi := ph;
                                 do_apod := on; apod_met := amet; apod := abuf; apod_par := apar |} in
                     let T := match f with
                              | FArrRect => TArrRect g1 g2 p | FArrCirc => TArrCirc g1 p
                              | _ => TArrCylind g1 g2 g3 p
                              end in
                     job T q alpha lvl No ro dty del)))))))
      | FArrAnnu =>
        do vr <- num_arg fe args 1;
        require (check_array_annu fe vr)
        (require (match fe with Octave => negb ((1 <? get_m vr) && (1 <? get_n vr)) | _ => true end)
         ((* num_radii: m*n (Octave, MATLAB), shape[0] (python/src/py_dream_arr_annu.cc 81-85),
             length (julia/src/jl_dream_arr_annu.cc 66-69); num_elements: (num_radii+1)/2 for
             Octave and MATLAB, num_radii for Python and Julia. *)
          let num_radii := match fe with Python => get_m vr | _ => get_m vr * get_n vr end in
          let num := match fe with Octave | Matlab => (num_radii + 1) / 2 | _ => num_radii end in
          (* the driver reads gr[0 .. num_radii) *)
          do gr <- gw_data fe vr;
          if Z.of_nat (length gr) <? num_radii then UB UB_oob_read else
          parse_common fe args 2 No (fun '(q, alpha, dty, del) =>
            do v5 <- arg args 5; do v6 <- num_arg fe args 6;
            do fo <- parse_focus_args fe v5 v6 num (repeat (nofZ 0) (Z.to_nat num));
            andthen fe fo (fun '(fmet, fbuf) =>
              do v7 <- arg args 7; do v8 <- arg args 8; do v9 <- arg args 9;
              do ap <- parse_apod_args fe v7 v8 v9 num (repeat (nofZ 0) (Z.to_nat num));
              andthen fe ap (fun '(on, abuf, amet, apar) =>
                parse_level fe f args (fun lvl =>
                  job (TArrAnnu {| Gr := firstn (Z.to_nat num_radii) gr;
                                   an_foc_met := fmet; an_focal := fbuf; an_do_apod := on;
                                   an_apod_met := amet; an_apod := abuf; an_apod_par := apar |})
                      q alpha lvl No ro dty del))))))
      end))).

  (** What the user sees. *)
  Inductive outcome :=
  | Rejected                                 (* an argument check failed *)
  | NoMemory                                 (* the output matrix could not be allocated (nt < 0) *)
  | ErrOutOfBounds                           (* error "SIR out-of-bounds!" *)
  | ErrCtrlC                                 (* error "CTRL-C pressed!" *)
  | Returned (H : buf) (rows cols : Z) (warned : bool) (err : option SIRError).

  (** A freshly allocated nt x No matrix holds arbitrary numbers ([junk]). *)
  Definition alloc (junk : buf) (n : nat) : buf := firstn n (junk ++ repeat (nofZ 0) n)%list.

  (** include/dream.h 163-176: SIRData(h, len, No).clear() *)
  Definition sir_clear (len No : Z) (h : buf) : res buf := clear_h 0 (len * No)%Z h.

  (** oct/oct_dreamrect.cc 216-286 and its siblings.  [None]: the workers have
      not finished at the end of the schedule.  The second output argument is
      returned for nlhs == 2 (Octave, MATLAB); Python and Julia have none. *)
  Definition run_gateway (fe : front) (nlhs hw : Z) (env : option Z) (sch : list event) (junk : buf)
    (J : job N) : res (option outcome) :=
    if nt (j_q J) <? 0 then Ok (Some NoMemory)
    else
      do H0 <- sir_clear (nt (j_q J)) (j_No J) (alloc junk (Z.to_nat (nt (j_q J) * j_No J)));
      do r <- call (idx_of fe) J (num_threads hw env (j_No J)) sch H0;
      match r with
      | None => Ok None
      | Some (H, err, running) =>
        Ok (Some (if negb running then
                    if SIRError_eqb err err_oob then ErrOutOfBounds else ErrCtrlC
                  else Returned H (nt (j_q J)) (j_No J) (SIRError_eqb err err_warn_oob)
                         (match fe with
                          | Octave | Matlab => if nlhs =? 2 then Some err else None
                          | _ => None
                          end)))
      end.

  Definition gateway (fuel : nat) (c2r : list (N * N) -> buf) (fe : front) (f : func)
    (nlhs hw : Z) (env : option Z) (sch : list event) (junk : buf) (args : list value)
    : res (option outcome) :=
    do p <- parse_call fuel c2r fe f nlhs args;
    match p with
    | None => Ok (Some Rejected)
    | Some J => run_gateway fe nlhs hw env sch junk J
    end.
End Gw.
Arguments value : clear implicits.
Arguments outcome : clear implicits.
Arguments p_ok {A}.
Arguments p_msg {A}.
Arguments p_val {A}.
