(** ModelAgw.v - the Octave and MATLAB gateways of the analytic functions:
    extra_src/oct_circ_sir.cc, oct_scirc_sir.cc, oct_rect_sir.cc,
    mex_circ_sir.cc, mex_scirc_sir.cc, mex_rect_sir.cc.  Python and Julia have
    none. *)
From Coq Require Strings.String.
Import Coq.Strings.String.StringSyntax.
From Verif Require Import Base ModelSir ModelArr ModelSmp ModelAna ModelGw.
Local Open Scope string_scope.
Local Open Scope Z_scope.

Inductive afunc := KCirc | KSCirc | KRect.

Section Agw.
  Context {N : Num}.
  Local Notation buf := (list N).

  (** check_arg_in: oct_circ_sir.cc 237, oct_scirc_sir.cc 242, oct_rect_sir.cc
      107; mex_circ_sir.cc 178, mex_scirc_sir.cc 179, mex_rect_sir.cc 42. *)
  Definition ana_arity (f : afunc) : Z * Z :=
    match f with KCirc => (5, 5) | KSCirc => (6, 6) | KRect => (5, 6) end.

  (** Reading entry i of an argument the gateway keeps for the whole call
      (const Matrix tmp = args(..).matrix_value(), or mxGetPr). *)
  Definition entry (fe : front) (v : value N) (i : Z) : res N :=
    do d <- gw_data fe v; buf_get d i.

  (** Geometry: check_geometry and geom_par[0] (oct_circ_sir.cc 257-267,
      mex_circ_sir.cc 193-195); rect_sir: parse_geometry (oct_rect_sir.cc
      131-134, mex_rect_sir.cc 57-58). *)
  Definition ana_geom (fe : front) (f : afunc) (v : value N) : res (parsed (N * N)) :=
    let z : N := nofZ 0 in
    match f with
    | KRect => do p <- parse_geometry fe 2 v;
               Ok {| p_ok := p_ok p; p_msg := p_msg p; p_val := (fst (fst (p_val p)), snd (fst (p_val p))) |}
    | _ => if check_vec fe 1 v then do r <- entry fe v 0; Ok (accept (r, z)) else Ok (reject (z, z))
    end.

  (** Number of integration points, scirc_sir's argument 6: oct_scirc_sir.cc
      312-328 (m*n != 1), mex_scirc_sir.cc 224-235 (m and n must be 1;
      mxGetScalar).  None: rejected.  The other functions have none. *)
  Definition ana_int_len (fe : front) (f : afunc) (args : list (value N)) : res (option Z) :=
    match f with
    | KSCirc =>
      do v <- arg args 5;
      if (match fe with
          | Octave => get_m v * get_n v =? 1
          | _ => (get_m v =? 1) && (get_n v =? 1)
          end)
      then do x <- buf_get (get_data v) 0;
           do n <- to_idx (idx_of fe) (ntrunc x);
           if n <? 1 then Ok None else Ok (Some n)
      else Ok None
    | _ => Ok (Some 1)
    end.

  (** rect_sir's device argument: oct_rect_sir.cc 200-212 (must be a string);
      mex_rect_sir.cc 42: accepted and not looked at.  None: rejected. *)
  Definition ana_device (fe : front) (f : afunc) (args : list (value N)) : option string :=
    match fe, f, nth_error args 5 with
    | Octave, KRect, Some (VStr s) => Some s
    | Octave, KRect, Some _ => None
    | _, _, _ => Some ""
    end.

  (** The checks in the order of the code: number of arguments, Ro (1), geometry
      (2), s_par = [dt nt] (3), delay (4), m_par = [v cp] (5), n_int (6):
      oct_circ_sir.cc 231-304, oct_scirc_sir.cc 236-328, oct_rect_sir.cc
      103-212, mex_circ_sir.cc 175-220, mex_scirc_sir.cc 176-235,
      mex_rect_sir.cc 40-98.  (The order of the help texts is Ro, geom_par,
      delay, s_par, m_par for circ_sir and scirc_sir: oct_circ_sir.cc 167,
      oct_scirc_sir.cc 165.) *)
  Definition parse_ana (fe : front) (f : afunc) (nlhs : Z) (args : list (value N))
    : res (option (ajob N * string)) :=
    require (in_bounds (Z.of_nat (length args)) (fst (ana_arity f)) (snd (ana_arity f)))
    (require (in_bounds nlhs 0 1)
    (do vo <- arg args 0;
     require (check_obs_points vo)
     (let No := get_m vo in
      do ro <- gw_data fe vo;
      do vg <- arg args 1; do g <- ana_geom fe f vg;
      andthen fe g (fun '(g1, g2) =>
      (do vs <- arg args 2;
       require (check_vec fe 2 vs)
       (do dt <- entry fe vs 0; do ntf <- entry fe vs 1; do nt <- to_idx (idx_of fe) (ntrunc ntf);
        do vd <- arg args 3;
        require (check_delay vd No)
        (do del <- gw_data fe vd;
         do vm <- arg args 4;
         require (check_vec fe 2 vm)
         (do v <- entry fe vm 0; do c <- entry fe vm 1;
          do il <- ana_int_len fe f args;
          match il, ana_device fe f args with
          | Some n, Some dev =>
            let T := match f with KCirc => ACirc g1 | KSCirc => ASCirc g1 n | KRect => ARect g1 g2 end in
            Ok (Some ({| a_T := T; a_dt := dt; a_nt := nt; a_v := v; a_cp := c; a_No := No; a_Ro := ro;
                         a_delay_type := delay_type_of vd; a_delay := del |}, dev))
          | _, _ => Ok None
          end)))))))).

  (** The signals a call reacts to: circ_sir and scirc_sir install their handler
      for SIGINT (oct_circ_sir.cc 344-354, oct_scirc_sir.cc 359-369,
      mex_circ_sir.cc 262-272); rect_sir only for SIGABRT (oct_rect_sir.cc 227,
      mex_rect_sir.cc 113), so that CTRL-C does not reach it. *)
  Definition ana_sees (f : afunc) (sch : list event) : list event :=
    match f with
    | KRect => filter (fun e => match e with CtrlC => false | _ => true end) sch
    | _ => sch
    end.

  (** What the user sees. *)
  Inductive ana_outcome :=
  | ARejected
  | ANoMemory                                    (* the output matrix could not be allocated *)
  | ACtrlC                                       (* error "CTRL-C pressed!" *)
  | AReturned (H : buf) (rows cols : Z) (printed : bool).   (* printed: the message went to the terminal *)

  (** The rest of the gateways: oct_circ_sir.cc 330-430, mex_circ_sir.cc
      246-345, oct_rect_sir.cc 214-279, mex_rect_sir.cc 100-135.  dream_err_msg
      throws in MATLAB and only prints in Octave, where the matrix is returned
      after it (oct_circ_sir.cc 423-427, oct_scirc_sir.cc 440-444,
      oct_rect_sir.cc 249-267).  [cl]: built with USE_OPENCL; [items], [dev]:
      order of the work items and contents of the device buffer (see
      ModelGpu.v); the GPU exists in Octave only. *)
  Definition run_ana (fe : front) (f : afunc) (cl : bool) (hw : Z) (env : option Z) (sch : list event)
    (junk : buf) (items : list Z) (dev : buf) (J : ajob N) (device : string) : res (option ana_outcome) :=
    if a_nt J <? 0 then Ok (Some ANoMemory)
    else
      do H0 <- sir_clear (a_nt J) (a_No J) (alloc junk (Z.to_nat (a_nt J * a_No J)));
      if cl && String.eqb device "gpu" then
        do _ <- buf_get (a_delay J) 0;
        do H <- rs_gpu J items (alloc dev (Z.to_nat (a_nt J * a_No J)));
        Ok (Some (AReturned H (a_nt J) (a_No J) false))
      else
        do r <- ana_call J (ana_threads (a_T J) hw env (a_No J)) (ana_sees f sch) H0;
        match r with
        | None => Ok None
        | Some (H, running) =>
          Ok (Some (if running then AReturned H (a_nt J) (a_No J) false
                    else match fe with
                         | Matlab => ACtrlC
                         | _ => AReturned H (a_nt J) (a_No J) true
                         end))
        end.

  Definition ana_gateway (fe : front) (f : afunc) (cl : bool) (nlhs hw : Z) (env : option Z) (sch : list event)
    (junk : buf) (items : list Z) (dev : buf) (args : list (value N)) : res (option ana_outcome) :=
    do p <- parse_ana fe f nlhs args;
    match p with
    | None => Ok (Some ARejected)
    | Some (J, device) => run_ana fe f cl hw env sch junk items dev J device
    end.
End Agw.
Arguments ana_outcome : clear implicits.
