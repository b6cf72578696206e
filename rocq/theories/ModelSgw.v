(** ModelSgw.v - the gateway functions of sum_fftconv (Octave, MATLAB):
    extra_src/oct_sum_fftconv.cc, extra_src/mex_sum_fftconv.cc. *)
From Coq Require Strings.String Strings.Ascii.
Import Coq.Strings.String.StringSyntax.
From Verif Require Import Base ModelSir ModelArr ModelSmp ModelConv ModelGw ModelCgw.
Local Open Scope string_scope.
Local Open Scope Z_scope.

Section Sgw.
  Context {N : Num}.
  Local Open Scope num_scope.
  Local Notation buf := (list N).
  Local Notation val := (value N).

  (** The first argument: a three dimensional array (column major), or
      anything else.  Octave and MATLAB drop a third dimension of size 1. *)
  Inductive harg := H3 (hm hn hl : Z) (data : buf) | HOther (v : val).

  (** oct_sum_fftconv.cc 318-322: H[k] = &data[H_M*H_N*k], k < H_L. *)
  Definition pages (hm hn hl : Z) (data : buf) : list buf :=
    map (fun k => skipn (Z.to_nat (hm * hn * Z.of_nat k)) data) (seq 0 (Z.to_nat hl)).

  (** oct_sum_fftconv.cc 354-406 (switch on nrhs), 433-446, and
      mex_sum_fftconv.cc 241-299: what the arguments after U ask for.  In-place
      calls add in Octave (l.467, ConvMode::sum) and store in MATLAB. *)
  Definition parse_sum (import : string -> bool) (fe : front) (nlhs : Z) (rest : list val) : option cmode :=
    let ip := {| c_mode := match fe with Octave => cm_sum | _ => cm_equ end; c_inplace := true |} in
    match rest with
    | [] => Some normal
    | [y] =>
      if is_string y then load import (conv_str fe (str_of y)) normal
      else if (0 <? nlhs)%Z then None
      else Some ip
    | [_; w] => if is_string w then load import (conv_str fe (str_of w)) ip else None
    | _ => None
    end.

  (** oct_sum_fftconv.cc 448-484, mex_sum_fftconv.cc 350-382: the result array.
      In Octave a new matrix is handed to the list of results before the
      computation: a 1 x 1 matrix is stored as a number and freed; an output
      argument that is not held as a full double matrix is converted into a
      temporary that is destroyed before the threads start. *)
  Definition sum_out (fe : front) (m : cmode) (rows cols : Z) (junk : buf) (rest : list val) : res (option buf) :=
    if c_inplace m then
      do y <- arg rest 0;
      if negb (get_m y =? rows)%Z || negb (get_n y =? cols)%Z then Ok None
      else match fe, y with
           | Octave, (VNum Temp _ _ _ | VStr _) => if (rows * cols =? 0)%Z then Ok (Some []) else UB UB_oob_write
           | _, VNum _ _ _ d => Ok (Some d)
           | _, VStr _ => UB UB_oob_write
           end
    else
      do Y <- sir_clear rows cols (match fe with Octave => alloc junk (Z.to_nat (rows * cols))
                                               | _ => repeat #0 (Z.to_nat (rows * cols)) end);
      match fe with
      | Octave => if (rows * cols =? 1)%Z then UB UB_oob_write else Ok (Some Y)
      | _ => Ok (Some Y)
      end.

  (** oct_sum_fftconv.cc 563-583, mex_sum_fftconv.cc 449-452: dream_err_msg
      only prints in Octave, and the result is already in the list that is
      returned; in MATLAB it raises an error. *)
  Definition sum_finish (fe : front) (m : cmode) (rows cols : Z) (Y : buf) (running : bool) : coutcome N :=
    if running then if c_inplace m then CInPlace Y else CReturned rows cols Y
    else match fe with
         | Octave => CPrinted (if c_inplace m then None else Some (rows, cols)) Y
         | _ => CtrlCStop Y
         end.

  (** oct_sum_fftconv.cc 262-585, mex_sum_fftconv.cc 159-480.
      Simplifications: the order of the checks (which decides only the
      message); the returned wisdom string is not modelled; the output
      argument is not also an input. *)
  Definition sum_gateway (mc : machine N) (fe : front) (nlhs : Z) (h : harg) (args : list val) : res (option (coutcome N)) :=
    match fe with Octave | Matlab =>
      if (2 <? nlhs)%Z then Ok (Some CRejected) else
      match h, args with
      | H3 hm hn hl data, vu :: rest =>
        match parse_sum (mc_import mc) fe nlhs rest with
        | None => Ok (Some CRejected)
        | Some m =>
          do U <- gw_data fe vu;
          match check_U hl (get_m vu) (get_n vu) with
          | None => Ok (Some CRejected)
          | Some (U_M, _) =>
            let rows := (hm + U_M - 1)%Z in
            if (rows <? 0)%Z then Ok (Some CNoMemory) else
            do y <- sum_out fe m rows hn (mc_junk mc) rest;
            match y with
            | None => Ok (Some CRejected)
            | Some Y =>
              do r <- cols_call (sum_fftconv_point (mc_plan mc rows) (pages hm hn hl data) hl hm U U_M (c_mode m) (mc_scr mc))
                        hn (num_threads (mc_hw mc) (mc_env mc) hn) (mc_sch mc) Y;
              match r with
              | None => Ok None
              | Some (Y', running) => Ok (Some (sum_finish fe m rows hn Y' running))
              end
            end
          end
        end
      | _, _ => Ok (Some CRejected)
      end
    | _ => Ok (Some CRejected)
    end.
End Sgw.
Arguments harg : clear implicits.
