(** ModelDgw.v - the gateways of das in the four front ends:
    extra_src/oct_das.cc, extra_src/mex_das.cc, python/include/py_das.hpp,
    julia/include/jl_das.hpp, include/arg_parser*.h (parse_das_arg). *)
From Coq Require Strings.String.
Import Coq.Strings.String.StringSyntax.
From Verif Require Import Base ModelSir ModelArr ModelSmp ModelDas ModelGw.
Local Open Scope string_scope.
Local Open Scope Z_scope.

(** include/arg_parser.h 552-592, arg_parser_python.h 548-581,
    arg_parser_julia.h 550-583: the method string. *)
Definition das_of_string (s : string) : option DASType :=
  if String.eqb s "saft" then Some das_saft
  else if String.eqb s "tfm" then Some das_tfm
  else if String.eqb s "rca" || String.eqb s "rca_coltx" then Some das_rca_coltx
  else if String.eqb s "rca_rowtx" then Some das_rca_rowtx
  else None.

Section Dgw.
  Context {N : Num}.
  Local Notation buf := (list N).

  (** An argument with its numeric class (double, single, anything else).
      Python and Julia are statically typed: the class plays no role there. *)
  Inductive cls := CDouble | CSingle | COther.
  Record darg := { g_cls : cls; g_val : value N }.
  Definition cls_of (a : darg) : cls := match g_val a with VStr _ => COther | _ => g_cls a end.
  Definition is_single (a : darg) : bool := match cls_of a with CSingle => true | _ => false end.
  Definition is_double (a : darg) : bool := match cls_of a with CDouble => true | _ => false end.

  (** The memory behind a pointer that the gateway keeps.  Octave
      (oct_das.cc 207-213, 229-235, 250-256, 276-282, 318-324): the pointer is
      into a Matrix local to the inner block.  It stays valid only if the
      argument itself holds the same full double matrix; otherwise (a scalar,
      a range, another class) the memory is freed at the end of the block -
      here an empty buffer, any access to which is out of bounds.  MATLAB
      (mex_das.cc 90-97 etc.): mxGetPr of something that is not a double
      matrix points to no doubles. *)
  Definition kept (fe : front) (a : darg) : buf :=
    match fe, cls_of a, g_val a with
    | Octave, CDouble, VNum Temp _ _ _ => []
    | (Octave | Matlab), CDouble, VNum _ _ _ d => d
    | (Octave | Matlab), _, _ => []
    | _, _, v => get_data v
    end.
  (** The value of an argument that is read inside the block (dt and cp,
      oct_das.cc 293-303 and 338-348). *)
  Definition read_now (fe : front) (a : darg) : buf :=
    match fe, cls_of a with
    | Matlab, CDouble => get_data (g_val a)
    | Matlab, _ => []
    | _, _ => get_data (g_val a)
    end.

  (** parse_das_arg; [das_saft] is the value left in the output parameter. *)
  Definition parse_das_arg (fe : front) (v : value N) : parsed DASType :=
    if negb (is_string v) then reject das_saft
    else match das_of_string (get_string_arg fe (str_of v)) with
         | Some t => accept t
         | None => match fe with Python | Julia => reject_silent das_saft | _ => reject das_saft end
         end.

  (** The arguments after parsing. *)
  Record dcall := { c_job : das_job N; c_gpu : bool }.
  Inductive dparse := PRejected | PSingle | PCall (c : dcall).
  Definition dreq (b : bool) (k : res dparse) : res dparse := if b then k else Ok PRejected.
  Definition dthen {A} (fe : front) (p : parsed A) (k : A -> res dparse) : res dparse :=
    if goes_on fe p then k (p_val p) else Ok PRejected.
  Definition darg_at (args : list darg) (i : nat) : res darg :=
    match nth_error args i with Some v => Ok v | None => UB UB_oob_read end.
  (** A Python argument whose number of columns is read next. *)
  Definition dnum (fe : front) (args : list darg) (i : nat) : res darg :=
    do a <- darg_at args i; do _ <- shape_ok fe (g_val a); Ok a.

  (** oct_das.cc 156-407 and mex_das.cc 43-250.  The two differ in the test
      for an empty receive array (rows in Octave, columns in MATLAB). *)
  Definition parse_das_om (fe : front) (nlhs : Z) (args : list darg) : res dparse :=
    let nrhs := Z.of_nat (length args) in
    dreq (in_bounds nrhs 8 11) (dreq (in_bounds nlhs 0 2) (
    do a0 <- darg_at args 0; do a1 <- darg_at args 1; do a2 <- darg_at args 2; do a3 <- darg_at args 3;
    do a4 <- darg_at args 4; do a5 <- darg_at args 5; do a6 <- darg_at args 6; do a7 <- darg_at args 7;
    if is_single a0 then
      dreq (is_single a1 && is_single a2 && is_single a3 && is_single a5) (Ok PSingle)
    else
    dreq (is_double a1 && is_double a2 && is_double a3 && is_double a5) (
    dreq (get_n (g_val a1) =? 3) (
    let has_r := match fe with Octave => negb (get_m (g_val a2) =? 0) | _ => negb (get_n (g_val a2) =? 0) end in
    dreq (negb has_r || (get_n (g_val a2) =? 3)) (
    let num_r := if has_r then get_m (g_val a2) else 0 in
    let Gr := if has_r then kept fe a2 else [] in
    dreq (get_n (g_val a3) =? 3) (
    let No := get_m (g_val a3) in
    dreq ((get_m (g_val a4) =? 1) && (get_n (g_val a4) =? 1)) (
    do dt <- buf_get (read_now fe a4) 0;
    dreq (check_delay (g_val a5) No) (
    dreq ((get_m (g_val a6) =? 1) && (get_n (g_val a6) =? 1)) (
    do cp <- buf_get (read_now fe a6) 0;
    dthen fe (parse_das_arg fe (g_val a7)) (fun t =>
    let last lvl :=
      (* device: read if there are exactly 10 arguments; 11: only the verbose string *)
      do dev <- (if nrhs =? 10 then do a <- darg_at args 9; Ok (Some (g_val a)) else Ok None);
      dreq (match dev with Some v => is_string v | None => true end) (
      do verb <- (if nrhs =? 11 then do a <- darg_at args 10; Ok (Some (g_val a)) else Ok None);
      dreq (match verb with Some v => is_string v | None => true end) (
      let device := match dev with Some v => get_string_arg fe (str_of v) | None => "" end in
      Ok (PCall {| c_job := {| d_type := t; d_len := get_m (g_val a0); d_No := No; d_num_t := get_m (g_val a1); d_num_r := num_r;
                               d_Y := kept fe a0; d_Ro := kept fe a3; d_Gt := kept fe a1; d_Gr := Gr;
                               d_dt := dt; d_delay_type := delay_type_of (g_val a5); d_delay := kept fe a5; d_cp := cp; d_lvl := lvl |};
                   c_gpu := String.eqb device "gpu" |}))) in
    if 9 <=? nrhs then do a8 <- darg_at args 8; dthen fe (parse_error_arg fe (g_val a8)) last
    else last lvl_stop)))))))))).

  (** python/include/py_das.hpp 35-146, julia/include/jl_das.hpp 31-143: all
      eleven arguments are mandatory; the receive array of SAFT is not looked
      at; the string "gpu" - and no other - is refused as device. *)
  Definition parse_das_pj (fe : front) (args : list darg) : res dparse :=
    dreq (Nat.eqb (length args) 11) (
    do a0 <- darg_at args 0;
    do a1 <- dnum fe args 1;
    dreq (get_n (g_val a1) =? 3) (
    do a7 <- darg_at args 7;
    dthen fe (parse_das_arg fe (g_val a7)) (fun t =>
    let rest num_r Gr :=
      do a3 <- dnum fe args 3;
      dreq (check_obs_points (g_val a3)) (
      let No := get_m (g_val a3) in
      do a5 <- dnum fe args 5;
      dreq (check_delay (g_val a5) No) (
      do a4 <- darg_at args 4; do dt <- buf_get (read_now fe a4) 0;
      do a6 <- darg_at args 6; do cp <- buf_get (read_now fe a6) 0;
      do a8 <- darg_at args 8;
      dthen fe (parse_error_arg fe (g_val a8)) (fun lvl =>
      do a9 <- darg_at args 9;
      let device := get_string_arg fe (str_of (g_val a9)) in
      dreq (negb (negb (String.eqb device "cpu") && String.eqb device "gpu")) (
      Ok (PCall {| c_job := {| d_type := t; d_len := get_m (g_val a0); d_No := No; d_num_t := get_m (g_val a1); d_num_r := num_r;
                               d_Y := kept fe a0; d_Ro := kept fe a3; d_Gt := kept fe a1; d_Gr := Gr;
                               d_dt := dt; d_delay_type := delay_type_of (g_val a5); d_delay := kept fe a5; d_cp := cp; d_lvl := lvl |};
                   c_gpu := String.eqb device "gpu" |}))))) in
    match t with
    | das_saft => rest 0 []
    | _ => do a2 <- dnum fe args 2; dreq (get_n (g_val a2) =? 3) (rest (get_m (g_val a2)) (kept fe a2))
    end))).
  Definition parse_das (fe : front) (nlhs : Z) (args : list darg) : res dparse :=
    match fe with Octave | Matlab => parse_das_om fe nlhs args | _ => parse_das_pj fe args end.

  (** What the user sees.  [DSingle]: a single precision call, see C37. *)
  Inductive doutcome :=
  | DRejected | DSingle | DErrOutOfBounds | DErrCtrlC
  | DReturned (Im : buf) (warned : bool) (err : option SIRError).

  (** A new object.  Without OpenCL: das.cc 35-52.  With OpenCL:
      opencl/cl_das.cc 30-53; for the GPU the constructor also sets the number
      of receivers of SAFT to 0, include/das.h 105-108. *)
  Definition das_new (opencl : bool) (t : DASType) (len No nt nr : Z) (gpu : bool) : das_obj :=
    if opencl
    then {| o_type := t; o_len := len; o_No := No; o_num_t := nt;
            o_num_r := if gpu && DASType_eqb t das_saft then 0 else nr; o_gpu := gpu |}
    else das_new_cpu t len No nt nr gpu.
  (** oct_das.cc 487-503 etc. *)
  Definition das_object (opencl : bool) (old : option das_obj) (t : DASType) (len No nt nr : Z) (gpu : bool) : das_obj :=
    match old with
    | Some o => if das_setup_has_changed o t len No nt nr gpu then das_new opencl t len No nt nr gpu else o
    | None => das_new opencl t len No nt nr gpu
    end.
  (** The sizes and the method used by DAS::das and DAS::cl_das are those of
      the object. *)
  Definition with_object (o : das_obj) (J : das_job N) : das_job N :=
    {| d_type := o_type o; d_len := o_len o; d_No := o_No o; d_num_t := o_num_t o; d_num_r := o_num_r o;
       d_Y := d_Y J; d_Ro := d_Ro J; d_Gt := d_Gt J; d_Gr := d_Gr J; d_dt := d_dt J;
       d_delay_type := d_delay_type J; d_delay := d_delay J; d_cp := d_cp J; d_lvl := d_lvl J |}.

  (** oct_das.cc 409-583 (double precision), mex_das.cc 252-432,
      py_das.hpp 148-227, jl_das.hpp 145-232.  Returns the outcome and the
      object kept for the next call.  [None]: the workers have not finished at
      the end of the schedule.  Assumption: on the GPU an OpenCL device is
      present. *)
  Definition run_das (fe : front) (opencl : bool) (nlhs hw : Z) (env : option Z) (sch : list event) (junk : buf)
    (old : option das_obj) (c : dcall) : res (option (doutcome * option das_obj)) :=
    let J := c_job c in
    let gpu := opencl && c_gpu c in
    let o := das_object opencl old (d_type J) (d_len J) (d_No J) (d_num_t J) (d_num_r J) gpu in
    let J := with_object o J in
    let err_out err := match fe with Octave | Matlab => if nlhs =? 2 then Some err else None | _ => None end in
    let Im0 := alloc junk (Z.to_nat (d_No J)) in
    if gpu then
      do _ <- buf_get (d_delay J) 0;
      do Im <- cl_das J Im0;
      Ok (Some (DReturned Im false (err_out err_none), Some o))
    else
      do r <- das_call (idx_of fe) J (num_threads hw env (d_No J)) sch Im0;
      match r with
      | None => Ok None
      | Some (Im, err, running) =>
        Ok (Some ((if negb running then if SIRError_eqb err err_oob then DErrOutOfBounds else DErrCtrlC
                   else DReturned Im (SIRError_eqb err err_warn_oob) (err_out err)), Some o))
      end.

  Definition das_gateway (fe : front) (opencl : bool) (nlhs hw : Z) (env : option Z) (sch : list event) (junk : buf)
    (old : option das_obj) (args : list darg) : res (option (doutcome * option das_obj)) :=
    do p <- parse_das fe nlhs args;
    match p with
    | PRejected => Ok (Some (DRejected, old))
    | PSingle => Ok (Some (DSingle, None))
    | PCall c => run_das fe opencl nlhs hw env sch junk old c
    end.
End Dgw.
Arguments darg : clear implicits.
Arguments doutcome : clear implicits.
