(** ModelCgw.v - the gateway functions of conv_p, fftconv_p and fftconv_ola
    (Octave, MATLAB; Julia: conv_p and fftconv_p; Python: fftconv_p), and
    copy_p (Octave, MATLAB) and add_p (Octave):
    extra_src/oct_*.cc, extra_src/mex_*.cc, julia/src/jl_conv_p.cc,
    julia/src/jl_fftconv_p.cc, python/include/py_fftconv_p.hpp. *)
From Coq Require Strings.String Strings.Ascii.
Import Coq.Strings.String.StringSyntax.
From Verif Require Import Base ModelSir ModelArr ModelSmp ModelConv ModelGw.
Local Open Scope string_scope.
Local Open Scope Z_scope.

(** ** Option strings *)

(** The string the gateway compares: Octave the string itself, MATLAB what
    mxArrayToString returns, read as a C string
    (extra_src/mex_fftconv_p.cc 290-293). *)
Definition conv_str (fe : front) (s : string) : string :=
  match fe with Matlab => c_str s | _ => s end.

(** extra_src/oct_conv_p.cc 198-228, oct_fftconv_p.cc 358-380. *)
Definition mode_of_string (s : string) : option ConvMode :=
  if String.eqb s "=" then Some cm_equ
  else if String.eqb s "+=" then Some cm_sum
  else if String.eqb s "-=" then Some cm_neg
  else None.

(** include/fft.h 176-177: is_wisdom returns strcmp("fftw_wisdom", str), which
    is non-zero (true) for every string but "fftw_wisdom". *)
Definition is_wisdom (s : string) : bool := negb (String.eqb (c_str s) "fftw_wisdom").

Inductive cfun := KConv | KFft | KOla.

(** Which front ends have the function. *)
Definition has_fun (fe : front) (f : cfun) : bool :=
  match fe, f with
  | (Octave | Matlab), _ => true
  | Julia, (KConv | KFft) => true
  | Python, KFft => true
  | _, _ => false
  end.

Section Cgw.
  Context {N : Num}.
  Local Open Scope num_scope.
  Local Notation buf := (list N).
  Local Notation st := (buf * SIRError)%type.
  Local Notation val := (value N).

  (** How the call works: the mode, and whether the result goes to an argument
      (in-place) or to a new matrix. *)
  Record cmode := { c_mode : ConvMode; c_inplace : bool }.
  Definition normal : cmode := {| c_mode := cm_equ; c_inplace := false |}.

  (** import_wisdom: [import s] says whether FFTW accepts s. *)
  Definition load (import : string -> bool) (s : string) (m : cmode) : option cmode :=
    if is_wisdom s then if import s then Some m else None else None.

  (** conv_p: extra_src/oct_conv_p.cc 168-237, mex_conv_p.cc 143-199 (MATLAB
      also refuses a string as third of three arguments).  A fourth argument
      that is not a string is accepted. *)
  Definition parse_conv (fe : front) (nlhs : Z) (args : list val) : option cmode :=
    match args with
    | [_; _] => if (nlhs <=? 1)%Z then Some normal else None
    | [_; _; y] =>
      if (0 <? nlhs)%Z then None
      else if (match fe with Matlab => is_string y | _ => false end) then None
      else Some {| c_mode := cm_equ; c_inplace := true |}
    | [_; _; _; m] =>
      if is_string m then
        match mode_of_string (conv_str fe (str_of m)) with
        | Some c => Some {| c_mode := c; c_inplace := true |}
        | None => None
        end
      else Some {| c_mode := cm_equ; c_inplace := true |}
    | _ => None
    end.

  (** fftconv_p and fftconv_ola: the arguments after B (and the block length):
      extra_src/oct_fftconv_p.cc 320-416 and 459-464, oct_fftconv_ola.cc
      435-529, and the MATLAB files.  With three further arguments the second
      one (the mode) is not looked at. *)
  Definition parse_fft (import : string -> bool) (fe : front) (nlhs : Z) (rest : list val) : option cmode :=
    if (2 <? nlhs)%Z then None else
    match rest with
    | [] => Some normal
    | [y] =>
      if is_string y then load import (conv_str fe (str_of y)) normal
      else if (0 <? nlhs)%Z then None
      else Some {| c_mode := cm_equ; c_inplace := true |}
    | [_; m] =>
      if is_string m then
        match mode_of_string (conv_str fe (str_of m)) with
        | Some c => Some {| c_mode := c; c_inplace := true |}
        | None => load import (conv_str fe (str_of m)) {| c_mode := cm_equ; c_inplace := true |}
        end
      else None
    | [_; _; w] =>
      if is_string w then load import (conv_str fe (str_of w)) {| c_mode := cm_equ; c_inplace := true |}
      else None
    | _ => None
    end.

  (** Position of the in-place output argument. *)
  Definition y_pos (f : cfun) : nat := match f with KOla => 3 | _ => 2 end.

  (** Julia and Python: two arguments, always a new matrix. *)
  Definition parse_cargs (import : string -> bool) (fe : front) (f : cfun) (nlhs : Z) (args : list val) : option cmode :=
    match fe, f with
    | (Octave | Matlab), KConv => parse_conv fe nlhs args
    | (Octave | Matlab), KFft => match args with _ :: _ :: rest => parse_fft import fe nlhs rest | _ => None end
    | (Octave | Matlab), KOla => match args with _ :: _ :: _ :: rest => parse_fft import fe nlhs rest | _ => None end
    | _, _ => match args with [_; _] => Some normal | _ => None end
    end.

  (** Number of columns: python/include/py_fftconv_p.hpp 44-60 takes a one
      dimensional array as one column. *)
  Definition cols_of (v : val) : Z := match v with VNum OneD _ _ _ => 1 | _ => get_n v end.

  (** What the user sees.  [CtrlCStop Y]: error "CTRL-C pressed!"; Y is what
      the in-place argument (or the discarded result) then holds. *)
  Inductive coutcome :=
  | CRejected
  | CNoMemory                                      (* no rows: A_M + B_M - 1 < 0 *)
  | CtrlCStop (Y : buf)
  | CPrinted (new : option (Z * Z)) (Y : buf)      (* "CTRL-C pressed!" is printed, no error is raised: Y is
                                                      returned as a new matrix of that size, or (None) is what
                                                      the in-place argument now holds *)
  | CReturned (rows cols : Z) (Y : buf)            (* a new matrix *)
  | CInPlace (Y : buf).                            (* the in-place argument afterwards *)

  (** The result array: new (Octave: contents arbitrary [junk], cleared by
      fftconv_p and fftconv_ola, oct_fftconv_p.cc 466-472; MATLAB: zeros;
      Julia, Python: arbitrary), or the data of the argument.  In Octave an
      argument that is not held as a full double matrix is converted into a
      temporary that is destroyed before the threads start
      (oct_conv_p.cc 322-325), so the threads write to freed memory.  The same
      happens to a new 1 x 1 matrix: it is handed to the list of results before
      the computation (oct_conv_p.cc 302-305, oct_fftconv_p.cc 475-481,
      oct_fftconv_ola.cc 597-603), which stores a copy of the number, and is
      destroyed at the end of its block. *)
  Definition out_array (fe : front) (f : cfun) (m : cmode) (rows cols : Z) (junk : buf) (args : list val)
    : res (option buf) :=
    if c_inplace m then
      do y <- arg args (y_pos f);
      if negb (get_m y =? rows)%Z || negb (get_n y =? cols)%Z then Ok None
      else match fe, y with
           | Octave, (VNum Temp _ _ _ | VStr _) => if (rows * cols =? 0)%Z then Ok (Some []) else UB UB_oob_write
           | _, VNum _ _ _ d => Ok (Some d)
           | _, VStr _ => UB UB_oob_write
           end
    else
      let Y := alloc junk (Z.to_nat (rows * cols)) in
      match fe, f with
      | Octave, KConv => if (rows * cols =? 1)%Z then UB UB_oob_write else Ok (Some Y)
      | Octave, _ => do Y <- sir_clear rows cols Y; if (rows * cols =? 1)%Z then UB UB_oob_write else Ok (Some Y)
      | Matlab, _ => Ok (Some (repeat #0 (Z.to_nat (rows * cols))))
      | _, _ => Ok (Some Y)
      end.

  (** ** In-place calls whose output argument is also an input: [ax] (A and Y
      are the same array), [ay] (B and Y).  conv reads x and y while it writes
      z (extra_src/conv.cc 33-78, see [ModelConv.conv]). *)
  Definition conv_mem (ax ay : bool) (x : buf) (xo nx : Z) (y : buf) (yo ny : Z) (mode : ConvMode) (zo : Z) (z : buf) : res buf :=
    do z <- (match mode with
             | cm_equ => for_loop (nx + ny - 1) (fun i z => buf_upd z (zo + i)%Z (fun _ => #0)) z
             | _ => Ok z
             end);
    for_loop nx (fun i z =>
      for_loop ny (fun j z =>
        do xi <- buf_get (if ax then z else x) (xo + i)%Z;
        do yj <- buf_get (if ay then z else y) (yo + j)%Z;
        buf_upd z (zo + (i + j))%Z (fun v => match mode with cm_neg => v - xi * yj | _ => v + xi * yj end)) z) z.
  Definition conv_mem_point (ax ay : bool) (M : mats N) (mode : ConvMode) (n : Z) (Y : buf) : res st :=
    let AM := m_AM M in let BM := m_BM M in
    do Y <- (if (1 <? m_BN M)%Z
             then conv_mem ax ay (m_A M) (n * AM) AM (m_B M) (n * BM) BM mode (n * (AM + BM - 1)) Y
             else conv_mem ax ay (m_A M) (n * AM) AM (m_B M) 0 BM mode (n * (AM + BM - 1)) Y);
    Ok (Y, err_none).
  (** fftconv reads its inputs completely before it writes z
      (extra_src/fftconv.cc 32-112). *)
  Definition fftconv_mem_point (ax ay : bool) (p : fft_plan N) (M : mats N) (mode : ConvMode) (scr : Z -> scratch N)
    (n : Z) (Y : buf) : res st :=
    fftconv_point p {| m_A := if ax then Y else m_A M; m_AM := m_AM M; m_AN := m_AN M;
                       m_B := if ay then Y else m_B M; m_BM := m_BM M; m_BN := m_BN M |} mode scr n Y.

  (** ** The gateways *)

  (** What the machine supplies: the hardware thread count, DREAM_NUM_THREADS,
      the schedule, the contents of fresh memory (result matrix, scratch and
      block arrays), FFTW (plans, wisdom import), and whether an input is the
      same array as the in-place output. *)
  Record machine := {
    mc_hw : Z; mc_env : option Z; mc_sch : list event; mc_junk : buf;
    mc_plan : Z -> fft_plan N; mc_import : string -> bool;
    mc_scr : Z -> scratch N; mc_loc : Z -> scratch N * buf * buf;
    mc_fuel : nat; mc_ax : bool; mc_ay : bool
  }.

  (** First column of the worker that computes column n. *)
  Definition own_start (No nthreads n : Z) : Z := part_start (((n + 1) * nthreads - 1) / No) No nthreads.

  (** The end of the call: Octave and MATLAB test the flag
      (oct_conv_p.cc 402-405, oct_fftconv_p.cc 588-591), Julia and Python do not
      (jl_conv_p.cc 260-283, py_fftconv_p.hpp 84-90).  conv_p calls
      dream_err_msg, which in Octave only prints (src/dream_error.cc 76-87), and
      returns the list of results, which already holds the matrix; the others
      call error. *)
  Definition finish_call (fe : front) (f : cfun) (m : cmode) (rows cols : Z) (Y : buf) (running : bool) : coutcome :=
    match fe with
    | Octave | Matlab =>
      if running then if c_inplace m then CInPlace Y else CReturned rows cols Y
      else match fe, f with
           | Octave, KConv => CPrinted (if c_inplace m then None else Some (rows, cols)) Y
           | _, _ => CtrlCStop Y
           end
    | _ => CReturned rows cols Y
    end.

  (** extra_src/oct_fftconv_ola.cc 407-420: the block length. *)
  Definition block_arg (fe : front) (f : cfun) (A_M : Z) (args : list val) : res (option Z) :=
    match f with
    | KOla =>
      do v <- arg args 2;
      if negb (get_m v * get_n v =? 1)%Z then Ok None
      else
        do d <- gw_data fe v;
        do x <- buf_get d 0;
        do b <- to_idx (idx_of fe) (ntrunc x);
        if check_block b A_M then Ok (Some b) else Ok None
    | _ => Ok (Some 0)
    end.

  (** The bodies of the gateways: oct_conv_p.cc 147-417, oct_fftconv_p.cc
      226-592, oct_fftconv_ola.cc 336-700, and their MATLAB, Julia and Python
      counterparts.  Simplification: the order of the checks (which decides
      only which message an argument list with several faults gets) is that
      of fftconv_p.  The wisdom string that can be returned as second output
      is not modelled. *)
  Definition conv_gateway (mc : machine) (fe : front) (f : cfun) (nlhs : Z) (args : list val) : res (option coutcome) :=
    if negb (has_fun fe f) then Ok (Some CRejected) else
    match parse_cargs (mc_import mc) fe f nlhs args with
    | None => Ok (Some CRejected)
    | Some m =>
      do va <- arg args 0; do vb <- arg args 1;
      do A <- gw_data fe va; do B <- gw_data fe vb;
      let A_M := get_m va in let A_N := cols_of va in
      match check_B A_N (get_m vb) (cols_of vb) with
      | None => Ok (Some CRejected)
      | Some (B_M, B_N) =>
        do bl <- block_arg fe f A_M args;
        match bl with
        | None => Ok (Some CRejected)
        | Some bl =>
          let rows := (A_M + B_M - 1)%Z in
          if (rows <? 0)%Z then Ok (Some CNoMemory) else
          do y <- out_array fe f m rows A_N (mc_junk mc) args;
          match y with
          | None => Ok (Some CRejected)
          | Some Y =>
            let M := {| m_A := A; m_AM := A_M; m_AN := A_N; m_B := B; m_BM := B_M; m_BN := B_N |} in
            let nthreads := num_threads (mc_hw mc) (mc_env mc) A_N in
            let ax := c_inplace m && mc_ax mc in let ay := c_inplace m && mc_ay mc in
            do r <- cols_call
                 (match f with
                  | KConv => conv_mem_point ax ay M (c_mode m)
                  | KFft => fftconv_mem_point ax ay (mc_plan mc rows) M (c_mode m) (mc_scr mc)
                  | KOla => ola_point (mc_fuel mc) (mc_plan mc (bl + B_M - 1)%Z) M bl (c_mode m)
                              (own_start A_N nthreads) (mc_loc mc)
                  end) A_N nthreads (mc_sch mc) Y;
            match r with
            | None => Ok None
            | Some (Y', running) => Ok (Some (finish_call fe f m rows A_N Y' running))
            end
          end
        end
      end
    end.

  (** ** copy_p and add_p *)
  Inductive pfun := PCopy | PAdd.

  (** extra_src/oct_copy_p.cc 86-105, oct_add_p.cc 85-108: one iteration.
      memcpy(&A[r+(k+n)*A_M], &B[n*B_M], len*8); a negative len becomes a huge
      size_t.  Simplification: A and B are different arrays. *)
  Definition copy_point (f : pfun) (A_M B_M r k len : Z) (B : buf) (n : Z) (A : buf) : res st :=
    match f with
    | PCopy =>
      if (len <? 0)%Z then UB UB_oob_read else
      do A <- for_loop len (fun l A => do b <- buf_get B (0 + n * B_M + l)%Z;
                                       buf_upd A (r + (k + n) * A_M + l)%Z (fun _ => b)) A;
      Ok (A, err_none)
    | PAdd =>
      do A <- for_loop len (fun l A => do b <- buf_get B (l + n * B_M)%Z;
                                       buf_upd A (r + (k + n) * A_M + l)%Z (fun v => v + b)) A;
      Ok (A, err_none)
    end.

  (** The value of the user's variable afterwards: in Octave an argument that
      is not held as a full double matrix was converted into a temporary
      (oct_copy_p.cc 190-193: a Matrix that lives during the call), the
      variable itself keeps its old value. *)
  Definition seen (fe : front) (v : val) (old new : buf) : buf :=
    match fe, v with Octave, (VNum Temp _ _ _ | VStr _) => old | _, _ => new end.

  Definition has_pfun (fe : front) (f : pfun) : bool :=
    match fe, f with Octave, _ | Matlab, PCopy => true | _, _ => false end.

  (** extra_src/oct_copy_p.cc 169-368, mex_copy_p.cc 131-322: the gateway.
      The bound checks read: r[1] < 1, r[0] > A_M, r[1] > A_M; the number of
      columns distributed over the workers is A_N. *)
  Definition copy_gateway (fe : front) (f : pfun) (hw : Z) (env : option Z) (sch : list event) (nlhs : Z) (args : list val)
    : res (option coutcome) :=
    if negb (has_pfun fe f) then Ok (Some CRejected) else
    match args with
    | [va; vr; vk; vb] =>
      if (0 <? nlhs)%Z then Ok (Some CRejected) else
      let cast x := to_idx (idx_of fe) (ntrunc x) in
      do A <- gw_data fe va; do r <- gw_data fe vr; do k <- gw_data fe vk; do B <- gw_data fe vb;
      let A_M := get_m va in let A_N := get_n va in
      let B_M := get_m vb in let B_N := get_n vb in
      if negb (get_m vr * get_n vr =? 2)%Z then Ok (Some CRejected) else
      do r0 <- buf_get r 0; do r1 <- buf_get r 1;
      do ir1 <- cast r1;
      if (ir1 <? 1)%Z then Ok (Some CRejected) else
      do ir0 <- cast r0;
      if (A_M <? ir0)%Z || (A_M <? ir1)%Z then Ok (Some CRejected) else
      if negb (get_m vk * get_n vk =? 2)%Z then Ok (Some CRejected) else
      do k0 <- buf_get k 0; do k1 <- buf_get k 1;
      do ik1 <- cast k1;
      if (ik1 <? 1)%Z then Ok (Some CRejected) else
      do ik0 <- cast k0;
      if (A_N <? ik0)%Z || (A_N <? ik1)%Z then Ok (Some CRejected) else
      do dr <- cast (r1 - r0);
      if (B_M <? dr + 1)%Z then Ok (Some CRejected) else
      do dk <- cast (k1 - k0);
      if negb (B_N =? dk + 1)%Z then Ok (Some CRejected) else
      do rs <- cast (r0 - #1); do ks <- cast (k0 - #1); do len <- cast (r1 - r0 + #1);
      do x <- cols_call (copy_point f A_M B_M rs ks len B) A_N (num_threads hw env A_N) sch A;
      match x with
      | None => Ok None
      | Some (A', running) =>
        let A' := seen fe va A A' in
        Ok (Some (if running then CInPlace A' else CtrlCStop A'))
      end
    | _ => Ok (Some CRejected)
    end.
End Cgw.
Arguments coutcome : clear implicits.
Arguments machine : clear implicits.
