(** ModelGpu.v - the OpenCL versions of dreamrect and dreamcirc:
    opencl/dreamrect.cl, opencl/dreamcirc.cl and their host functions
    opencl/cl_dreamrect.cc, opencl/cl_dreamcirc.cc. *)
From Verif Require Import Base ModelSir ModelArr ModelSmp ModelDas.

Section Gpu.
  Context {N : Num}.
  Local Open Scope num_scope.
  Local Notation buf := (list N).
  Local Notation st := (buf * SIRError)%type.

  (** End of the loop body, opencl/dreamrect.cl 48-54 and opencl/dreamcirc.cl
      50-56: a 32 bit sample index; samples outside the record are skipped
      without an error.  (The error component of the state is not used by the
      kernels; it is there to share the loop functions.) *)
  Definition cl_sir_put (nt base : Z) (c : contrib N) (s : st) : res (ctl st st) :=
    let '(h, err) := s in
    do it <- to_int (nrint (c_arg c));
    if (it <? nt)%Z && (0 <=? it)%Z then
      do h' <- emit_plain base it (c_r c) (c_ai c) h; Ok (Go (h', err))
    else Ok (Go (h, err)).

  (** opencl/dreamrect.cl 24-60: the amplitude has no weight factor. *)
  Definition rect_cl (q : samp N) (a b : N) (delay xo yo zo : N) : scanner N :=
    let xsmin := (- a) / #2 in let xsmax := a / #2 in
    let ysmin := (- b) / #2 in let ysmax := b / #2 in
    let ds := dx q * dy q in
    let rz := zo in
    {| sc_clear := true; sc_by_level := false;
       sc_outer := Some {| row_x0 := ysmin + dy q / #2; row_xmax := ysmax; row_dx := dy q |};
       sc_row := fun ys => {| row_x0 := xsmin + dx q / #2; row_xmax := xsmax; row_dx := dx q |};
       sc_pt := fun ys xs =>
         let ry := yo - ys in
         let rx := xo - xs in
         let r := nsqrt (rx*rx + ry*ry + rz*rz) in
         {| c_r := r; c_ai := vel q * ds / (#2 * npi * r) / dt q * #1000;
            c_arg := (r * #1000 / cp q - delay) / dt q |} |}.

  (** opencl/dreamcirc.cl 23-62. *)
  Definition circ_cl (q : samp N) (R : N) (delay xo yo zo : N) : scanner N :=
    let ds := dx q * dy q in
    let ysmin := - R in let ysmax := R in
    {| sc_clear := true; sc_by_level := false;
       sc_outer := Some {| row_x0 := ysmin + dy q / #2; row_xmax := ysmax; row_dx := dy q |};
       sc_row := fun ys =>
         let rxs := nsqrt (R*R - ys*ys) in
         {| row_x0 := (- rxs) + dx q / #2; row_xmax := rxs; row_dx := dx q |};
       sc_pt := fun ys xs =>
         let ry := yo - ys in
         let rx := xo - xs in
         let r := nsqrt (rx*rx + ry*ry + zo*zo) in
         {| c_r := r; c_ai := vel q * ds / (#2 * npi * r) / dt q * #1000;
            c_arg := (r * #1000 / cp q - delay) / dt q |} |}.

  (** The transducers that have a kernel. *)
  Definition cl_scanner (T : transducer N) (q : samp N) (delay xo yo zo : N) : option (scanner N) :=
    match T with
    | TRect a b => Some (rect_cl q a b delay xo yo zo)
    | TCirc R => Some (circ_cl q R delay xo yo zo)
    | _ => None
    end.

  (** One work item: opencl/dreamrect.cl 14-61, opencl/dreamcirc.cl 13-62.  The
      single delay is the one the gateway passes, delay[0]
      (oct/oct_dreamrect.cc 239, oct/oct_dreamcirc.cc 237). *)
  Definition cl_item (J : job N) (no : Z) (H : buf) : res buf :=
    do delay <- buf_get (j_delay J) 0;
    do xo <- buf_get (j_Ro J) no;
    do yo <- buf_get (j_Ro J) (no + j_No J * 1)%Z;
    do zo <- buf_get (j_Ro J) (no + j_No J * 2)%Z;
    match cl_scanner (j_T J) (j_q J) delay xo yo zo with
    | None => Ok H
    | Some Sc =>
      let base := (0 + nt (j_q J) * no)%Z in
      do h <- clear_h base (nt (j_q J)) H;
      do r <- run_loops (j_fuel J) Sc (cl_sir_put (nt (j_q J)) base) (h, err_none);
      Ok (fst (finish r))
    end.

  (** The work items in the order [items] in which the device runs them (one
      work item is one step: it uses its own column only). *)
  Fixpoint cl_items (J : job N) (items : list Z) (H : buf) : res buf :=
    match items with
    | [] => Ok H
    | no :: items' => do H' <- cl_item J no H; cl_items J items' H'
    end.

  (** opencl/cl_dreamrect.cc 201-216, opencl/cl_dreamcirc.cc 204-213: No work
      items in groups of 64; if 64 does not divide No the launch fails
      (CL_INVALID_WORK_GROUP_SIZE), a message is printed, and the device
      buffer is read back all the same.  [junk] is what that freshly created
      buffer holds.  The other failures of the OpenCL run time are not
      modelled; nor is it that the buffer is declared write-only although the
      kernel reads it back (h[it] += ai). *)
  Definition cl_sir (J : job N) (items : list Z) (junk : buf) : res buf :=
    if (j_No J mod 64 =? 0)%Z then cl_items J items junk else Ok junk.

  (** The call of the Octave gateway with device 'gpu' in an OpenCL build,
      oct/oct_dreamrect.cc 234-241 and 262-282, oct/oct_dreamcirc.cc 231-239
      and 262-284: the matrix and the status output, which stays
      SIRError::none; alpha, the error level, the other delays and the return
      value of the host function are not used. *)
  Definition oct_gpu (J : job N) (items : list Z) (junk : buf) : res (buf * SIRError) :=
    do H <- cl_sir J items junk; Ok (H, err_none).
End Gpu.
