(** SpecDgw.v - the documented interface of das (help texts of
    extra_src/oct_das.cc 50-153, python/src/py_das.cc 43-60). *)
From Coq Require Strings.String.
Import Coq.Strings.String.StringSyntax.
From Verif Require Import Base ModelSir ModelArr ModelSmp ModelDas ModelGw SpecGw ModelDgw.
Local Open Scope string_scope.
Local Open Scope Z_scope.

Definition das_doc : list (string * DASType) :=
  [("saft", das_saft); ("tfm", das_tfm); ("rca", das_rca_coltx); ("rca_coltx", das_rca_coltx); ("rca_rowtx", das_rca_rowtx)].

Section Spec.
  Context {N : Num}.

  (** A double matrix, a string. *)
  Definition dmat (st : storage) (m n : Z) (d : list N) : darg N := {| g_cls := CDouble; g_val := VNum st m n d |}.
  Definition dtext (s : string) : darg N := {| g_cls := COther; g_val := VStr s |}.

  (** The arguments after the method: level, device, verbose.  Octave and
      MATLAB: all optional, the default level is stop; Python and Julia: all
      mandatory.  The call asks for the CPU (or the build has no OpenCL and
      falls back to the CPU in Octave and MATLAB). *)
  Definition das_options (fe : front) (opencl : bool) (lvl : ErrorLevel) (opts : list (darg N)) : Prop :=
    let optional := match fe with Octave | Matlab => True | _ => False end in
    let cpu dev := dev = "cpu" \/ (optional /\ opencl = false) in
    (optional /\ opts = [] /\ lvl = lvl_stop) \/
    (exists l, optional /\ opts = [dtext l] /\ In (l, lvl) err_doc) \/
    (exists l dev, optional /\ opts = [dtext l; dtext dev] /\ In (l, lvl) err_doc /\ cpu dev) \/
    (exists l dev v, opts = [dtext l; dtext dev; dtext v] /\ In (l, lvl) err_doc /\ cpu dev).

  (** das(Y,Gt,Gr,Ro,dt,delay,cp,method,...) for the job J: Y has ny columns;
      SAFT has no receive array; one delay or one per image point; scalars
      held in any way.  The delay is held as a matrix in its own right
      ([sd]; in Octave a full matrix). *)
  Definition das_args (fe : front) (opencl : bool) (J : das_job N) (ny : Z) (args : list (darg N)) : Prop :=
    exists s nr st4 st6 sd md nd opts,
      args = ([dmat Full (d_len J) ny (d_Y J); dmat Full (d_num_t J) 3 (d_Gt J); dmat Full (d_num_r J) nr (d_Gr J);
               dmat Full (d_No J) 3 (d_Ro J); dmat st4 1 1 [d_dt J]; dmat sd md nd (d_delay J); dmat st6 1 1 [d_cp J];
               dtext s] ++ opts)%list /\
      In (s, d_type J) das_doc /\ das_options fe opencl (d_lvl J) opts /\
      (nr = 3 \/ nr = 0 /\ d_type J = das_saft) /\ (d_type J = das_saft -> d_num_r J = 0) /\
      (d_num_r J = 0 -> d_Gr J = []) /\
      md * nd = Z.of_nat (length (d_delay J)) /\
      d_delay_type J = (if md * nd =? 1 then delay_single else delay_multiple) /\
      (md * nd = 1 \/ md * nd = d_No J) /\
      match fe with Octave => sd = Full | Python => sd <> OneD | _ => True end.

  (** What the user gets when the computation ends with image Im, status err
      and the running flag. *)
  Definition user_sees (fe : front) (nlhs : Z) (Im : list N) (err : SIRError) (running : bool) : doutcome N :=
    if running then DReturned Im (SIRError_eqb err err_warn_oob)
                      (match fe with Octave | Matlab => if nlhs =? 2 then Some err else None | _ => None end)
    else if SIRError_eqb err err_oob then DErrOutOfBounds else DErrCtrlC.
End Spec.
