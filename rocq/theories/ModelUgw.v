(** ModelUgw.v - the gateways of das_uni (Octave and MATLAB only):
    extra_src/oct_das_uni.cc, extra_src/mex_das_uni.cc, include/das_uni.h,
    opencl/cl_das_uni.cc. *)
From Coq Require Strings.String.
Import Coq.Strings.String.StringSyntax.
From Verif Require Import Base ModelSir ModelArr ModelSmp ModelDas ModelGw ModelDgw.
Local Open Scope Z_scope.

(** cl_int m_buflen = n*sizeof(T), include/das_uni.h 288-310 and 373-374: the
    byte count is kept in 32 signed bits (the conversion wraps), and a buffer
    whose size is not positive is refused by OpenCL.  The result is the number
    of elements of the buffer.  Assumption: the device has enough memory. *)
Definition cl_elems (sz n : Z) : option Z :=
  let b := (n * sz + 2^31) mod 2^32 - 2^31 in
  if 0 <? b then Some (b / sz) else None.

Section Ugw.
  Context {N : Num}.
  Local Notation buf := (list N).
  Local Notation triple := (N * N * N)%type.

  Definition cls_eqb (a b : cls) : bool :=
    match a, b with CDouble, CDouble => true | CSingle, CSingle => true | COther, COther => true | _, _ => false end.

  (** The memory behind the pointers Y and delay, oct_das_uni.cc 181-188 and
      312-319 (into matrices local to the inner block, see [kept] in
      ModelDgw), mex_das_uni.cc 90-98 and 207-214.  [c]: the class of the call. *)
  Definition ukept (fe : front) (c : cls) (a : darg N) : buf :=
    if cls_eqb (cls_of a) c then
      match fe, g_val a with
      | Octave, VNum Temp _ _ _ => []
      | _, v => get_data v
      end
    else [].
  (** Arguments read inside their block; their class has been checked. *)
  Definition unow (c : cls) (a : darg N) : buf := if cls_eqb (cls_of a) c then get_data (g_val a) else [].

  Definition get3 (d : buf) (i j k : Z) : res triple :=
    do x <- buf_get d i; do y <- buf_get d j; do z <- buf_get d k; Ok (x, y, z).

  (** The arguments after parsing. *)
  Record ucall := { y_cls : cls; y_No : Z; y_type : DASType; y_len : Z; y_Y : buf;
                    y_t : triple; y_r : triple; y_x : triple; y_y : triple; y_z : triple;
                    y_dt : N; y_delay : buf; y_cp : N }.
  Inductive uparse := UPRejected | UPCall (c : ucall).
  Definition ureq (b : bool) (k : res uparse) : res uparse := if b then k else Ok UPRejected.

  (** oct_das_uni.cc 130-359, mex_das_uni.cc 45-241.  The two differ in the
      test for an empty receive grid (entries in Octave, columns in MATLAB)
      and in the test of the image grid (3 x 3 in Octave; MATLAB tests the
      number of columns twice).
      Simplification: in single precision "+1.0" is added in double precision
      by the C++ code; here all arithmetic is that of [N]. *)
  Definition parse_uni (fe : front) (nlhs : Z) (args : list (darg N)) : res uparse :=
    ureq (Z.of_nat (length args) =? 8) (ureq (nlhs <=? 1) (
    do a0 <- darg_at args 0; do a1 <- darg_at args 1; do a2 <- darg_at args 2; do a3 <- darg_at args 3;
    do a4 <- darg_at args 4; do a5 <- darg_at args 5; do a6 <- darg_at args 6; do a7 <- darg_at args 7;
    let c := if is_single a0 then CSingle else CDouble in
    let okc a := cls_eqb (cls_of a) c in
    ureq (okc a1 && okc a2 && okc a3 && okc a4 && okc a5 && okc a6) (
    ureq (get_m (g_val a1) * get_n (g_val a1) =? 3) (
    do gt <- get3 (unow c a1) 0 1 2;
    let has_r := match fe with Octave => negb (get_m (g_val a2) * get_n (g_val a2) =? 0) | _ => negb (get_n (g_val a2) =? 0) end in
    ureq (negb has_r || (get_m (g_val a2) * get_n (g_val a2) =? 3)) (
    do gr <- (if has_r then get3 (unow c a2) 0 1 2 else Ok (nofZ 0, nofZ 0, nofZ 0));
    ureq ((match fe with Octave => get_m (g_val a3) =? 3 | _ => true end) && (get_n (g_val a3) =? 3)) (
    do rx <- get3 (unow c a3) 0 3 6; do ry <- get3 (unow c a3) 1 4 7; do rz <- get3 (unow c a3) 2 5 8;
    do Nx <- uni_count (idx_of fe) (fst (fst rx)) (snd (fst rx)) (snd rx);
    do Ny <- uni_count (idx_of fe) (fst (fst ry)) (snd (fst ry)) (snd ry);
    do Nz <- uni_count (idx_of fe) (fst (fst rz)) (snd (fst rz)) (snd rz);
    ureq ((get_m (g_val a4) =? 1) && (get_n (g_val a4) =? 1)) (
    do dt <- buf_get (unow c a4) 0;
    ureq (check_delay (g_val a5) (Nx * Ny * Nz)) (
    ureq ((get_m (g_val a6) =? 1) && (get_n (g_val a6) =? 1)) (
    do cp <- buf_get (unow c a6) 0;
    if goes_on fe (parse_das_arg fe (g_val a7)) then
      Ok (UPCall {| y_cls := c; y_No := Nx * Ny * Nz; y_type := p_val (parse_das_arg fe (g_val a7)); y_len := get_m (g_val a0); y_Y := ukept fe c a0;
                    y_t := gt; y_r := gr; y_x := rx; y_y := ry; y_z := rz;
                    y_dt := dt; y_delay := ukept fe c a5; y_cp := cp |})
    else Ok UPRejected))))))))).

  Definition elem_size (c : cls) : Z := match c with CSingle => 4 | _ => 8 end.
  (** The two device buffers of an object (elements), include/das_uni.h
      283-310; [None]: the constructor throws. *)
  Definition uni_bufs (c : cls) (o : uni_obj) : option (Z * Z) :=
    let nr := match u_type o with das_saft => 1 | _ => u_num_r o end in
    match cl_elems (elem_size c) (u_len o * u_num_t o * nr), cl_elems (elem_size c) (u_No o) with
    | Some ny, Some ni => Some (ny, ni)
    | _, _ => None
    end.

  Inductive uoutcome := URejected | UNoImage | UReturned (Im : buf).

  (** DAS_UNI::cl_das_uni, opencl/cl_das_uni.cc 68-171.  The data is copied to
      the device; the kernel has 3 more arguments if there are receivers, and
      is launched with work groups of 64; a launch that fails is only printed
      and the device buffer (contents: [junk]) is read back. *)
  Definition cl_das_uni (junk : buf) (o : uni_obj) (c : ucall) (ny ni : Z) : res uoutcome :=
    do delay <- buf_get (y_delay c) 0;
    if Z.of_nat (length (y_Y c)) <? ny then UB UB_oob_read
    else
      let Y := firstn (Z.to_nat ny) (y_Y c) in
      let args_ok := match u_type o with das_saft => negb (0 <? u_num_r o) | _ => 0 <? u_num_r o end in
      if negb args_ok then Ok UNoImage (* setArg throws: a buffer for a number *)
      else if u_No o mod 64 =? 0 then
        do Im <- for_loop (u_No o) (fun no Im =>
                   do im <- uni_value (u_type o) Y (u_len o) (y_t c) (y_r c) (y_x c) (y_y c) (y_z c) (y_dt c) delay (y_cp c) no;
                   buf_upd Im no (fun _ => im)) (alloc junk (Z.to_nat ni));
        Ok (UReturned Im)
      else Ok (UReturned (alloc junk (Z.to_nat (u_No o)))).

  (** The objects kept between calls, oct_das_uni.cc 34-35. *)
  Record uni_st := { us_f : option uni_obj; us_d : option uni_obj }.
  Definition us_get (c : cls) (s : uni_st) : option uni_obj := match c with CSingle => us_f s | _ => us_d s end.
  (** A new object of one precision releases the other. *)
  Definition us_put (c : cls) (o : uni_obj) (s : uni_st) : uni_st :=
    match c with CSingle => {| us_f := Some o; us_d := None |} | _ => {| us_f := None; us_d := Some o |} end.
  (** The constructor threw: the old object of this precision stays. *)
  Definition us_fail (c : cls) (s : uni_st) : uni_st :=
    match c with CSingle => {| us_f := us_f s; us_d := None |} | _ => {| us_f := None; us_d := us_d s |} end.

  (** oct_das_uni.cc 361-497, mex_das_uni.cc 243-372.  Octave cannot create a
      matrix with a negative number of rows. *)
  Definition run_uni (fe : front) (junk : buf) (s : uni_st) (c : ucall) : res (uoutcome * uni_st) :=
    let K := idx_of fe in
    if y_No c <? 0 then Ok (UNoImage, s)
    else
    do reuse <- (match us_get (y_cls c) s with
                 | Some o => do ch <- uni_setup_has_changed K o (y_type c) (y_len c) (y_t c) (y_r c) (y_x c) (y_y c) (y_z c);
                             Ok (if ch then None else Some o)
                 | None => Ok None
                 end);
    do o <- (match reuse with Some o => Ok o | None => uni_new K (y_type c) (y_len c) (y_t c) (y_r c) (y_x c) (y_y c) (y_z c) end);
    match uni_bufs (y_cls c) o with
    | None => Ok (UNoImage, us_fail (y_cls c) s)
    | Some (ny, ni) =>
      do r <- cl_das_uni junk o c ny ni;
      Ok (r, match reuse with Some _ => s | None => us_put (y_cls c) o s end)
    end.

  Definition uni_gateway (fe : front) (nlhs : Z) (junk : buf) (s : uni_st) (args : list (darg N)) : res (uoutcome * uni_st) :=
    do p <- parse_uni fe nlhs args;
    match p with
    | UPRejected => Ok (URejected, s)
    | UPCall c => run_uni fe junk s c
    end.
  Definition uni_start : uni_st := {| us_f := None; us_d := None |}.
End Ugw.
Arguments ucall : clear implicits.
Arguments uoutcome : clear implicits.
