(** ModelConv.v - convolution: conv, fftconv, add_fftconv, the thread
    functions and argument checks of conv_p, fftconv_p, fftconv_ola and
    sum_fftconv. *)
From Verif Require Import Base ModelSir ModelSmp.

(** include/dream.h 91-95 *)
Inductive ConvMode := cm_equ | cm_sum | cm_neg.

Section Conv.
  Context {N : Num}.
  Local Open Scope num_scope.
  Local Notation buf := (list N).
  Local Notation cplx := (N * N)%type.

  (** extra_src/conv.cc 33-78.  A pointer argument is a buffer and an offset. *)
  Definition conv (x : buf) (xo nx : Z) (y : buf) (yo ny : Z) (mode : ConvMode) (zo : Z) (z : buf) : res buf :=
    do z <- (match mode with
             | cm_equ => for_loop (nx + ny - 1) (fun i z => buf_upd z (zo + i)%Z (fun _ => #0)) z
             | _ => Ok z
             end);
    for_loop nx (fun i z =>
      for_loop ny (fun j z =>
        do xi <- buf_get x (xo + i)%Z;
        do yj <- buf_get y (yo + j)%Z;
        buf_upd z (zo + (i + j))%Z (fun v => match mode with cm_neg => v - xi * yj | _ => v + xi * yj end)) z) z.

  (** ** FFT, include/fft.h 95-180.

      FFTW is an external library.  [fp_r2c] maps len reals to the len/2+1
      bins fftw_execute_dft_r2c writes, [fp_c2r] maps these bins to the len
      reals of the (unnormalised) inverse; [fp_trash] is what c2r leaves in
      its input array (FFTW does not preserve it). *)
  Record fft_plan := {
    fp_len : Z;
    fp_r2c : buf -> list cplx;
    fp_c2r : list cplx -> buf;
    fp_trash : list cplx -> list cplx
  }.
  Definition half (p : fft_plan) : nat := Z.to_nat (fp_len p / 2 + 1).

  (** fft.h 158-160: reads fp_len reals, writes len/2+1 bins, leaves the rest
      of the output array alone. *)
  Definition fft (p : fft_plan) (x : buf) (yc : list cplx) : res (list cplx) :=
    if (Nat.leb (Z.to_nat (fp_len p)) (length x)) then
      if Nat.leb (half p) (length yc)
      then Ok (fp_r2c p (firstn (Z.to_nat (fp_len p)) x) ++ skipn (half p) yc)
      else UB UB_oob_write
    else UB UB_oob_read.

  (** fft.h 162-169: c2r, then division by the length. *)
  Definition ifft (p : fft_plan) (xc : list cplx) (y : buf) : res (list cplx * buf) :=
    if Nat.leb (half p) (length xc) then
      if Nat.leb (Z.to_nat (fp_len p)) (length y) then
        do y <- for_loop (fp_len p) (fun k y => buf_upd y k (fun v => v / #(fp_len p)))
             (fp_c2r p (firstn (half p) xc) ++ skipn (Z.to_nat (fp_len p)) y);
        Ok (fp_trash p xc, y)
      else UB UB_oob_write
    else UB UB_oob_read.

  (** std::complex<double> product (the NaN recovery of Annex G is not
      modelled). *)
  Definition cmul (u v : cplx) : cplx :=
    (fst u * fst v - snd u * snd v, fst u * snd v + snd u * fst v).
  Definition cadd (u v : cplx) : cplx := (fst u + fst v, snd u + snd v).
  Definition cdiv (u : cplx) (d : N) : cplx := (fst u / d, snd u / d).

  (** The scratch arrays a, b, c, af, bf, cf a worker allocates once. *)
  Record scratch := { s_a : buf; s_b : buf; s_c : buf;
                      s_af : list cplx; s_bf : list cplx; s_cf : list cplx }.

  (** for (n = 0; n < m; n++) d[n] = s[so + n]; *)
  Definition copy_in (s : buf) (so m : Z) (d : buf) : res buf :=
    for_loop m (fun n d => do v <- buf_get s (so + n)%Z; buf_upd d n (fun _ => v)) d.
  (** for (n = m; n < len; n++) d[n] = 0.0; *)
  Definition zero_pad (m len : Z) (d : buf) : res buf :=
    for_loop (len - m) (fun n d => buf_upd d (m + n)%Z (fun _ => #0)) d.

  (** extra_src/fftconv.cc 84-112: add, subtract or copy c into z. *)
  Definition store (mode : ConvMode) (len : Z) (c : buf) (zo : Z) (z : buf) : res buf :=
    for_loop len (fun n z =>
      do cn <- buf_get c n;
      buf_upd z (zo + n)%Z (fun v => match mode with cm_sum => v + cn | cm_neg => v - cn | cm_equ => cn end)) z.

  (** extra_src/fftconv.cc 32-112 *)
  Definition fftconv (p : fft_plan) (x : buf) (xo nx : Z) (y : buf) (yo ny : Z) (mode : ConvMode)
    (zo : Z) (s : scratch) (z : buf) : res (scratch * buf) :=
    let fft_len := (nx + ny - 1)%Z in
    do a <- copy_in x xo nx (s_a s);
    do a <- zero_pad nx fft_len a;
    do b <- copy_in y yo ny (s_b s);
    do b <- zero_pad ny fft_len b;
    do af <- fft p a (s_af s);
    do bf <- fft p b (s_bf s);
    do cf <- for_loop fft_len (fun n cf =>
               do u <- buf_get af n; do v <- buf_get bf n; buf_upd cf n (fun _ => cmul u v)) (s_cf s);
    do r <- ifft p cf (s_c s);
    let '(cf, c) := r in
    do z <- store mode fft_len c zo z;
    Ok ({| s_a := a; s_b := b; s_c := c; s_af := af; s_bf := bf; s_cf := cf |}, z).

  (** extra_src/fftconv.cc 127-209 (add_fftconv).  H is the array of the L
      response matrices; z = &Z[zo].  The switch has no case for '-=' and
      treats it as '='. *)
  Definition add_fftconv (p : fft_plan) (H : list buf) (L h_len n : Z) (U : buf) (u_len : Z) (mode : ConvMode)
    (zo : Z) (s : scratch) (z : buf) : res (scratch * buf) :=
    let fft_len := (h_len + u_len - 1)%Z in
    do cf <- for_loop fft_len (fun i cf => buf_upd cf i (fun _ => (#0, #0))) (s_cf s);
    do s <- for_loop L (fun l s =>
      do Hl <- buf_get H l;
      do a <- copy_in Hl (n * h_len) h_len (s_a s);
      do a <- zero_pad h_len fft_len a;
      do b <- copy_in U (l * u_len) u_len (s_b s);
      do b <- zero_pad u_len fft_len b;
      do af <- fft p a (s_af s);
      do bf <- fft p b (s_bf s);
      do cf <- for_loop fft_len (fun i cf =>
                 do u <- buf_get af i; do v <- buf_get bf i;
                 buf_upd cf i (fun w => cadd w (cdiv (cmul u v) #fft_len))) (s_cf s);
      Ok {| s_a := a; s_b := b; s_c := s_c s; s_af := af; s_bf := bf; s_cf := cf |})
      {| s_a := s_a s; s_b := s_b s; s_c := s_c s; s_af := s_af s; s_bf := s_bf s; s_cf := cf |};
    do r <- ifft p (s_cf s) (s_c s);
    let '(cf, c) := r in
    do z <- store (match mode with cm_sum => cm_sum | _ => cm_equ end) fft_len c zo z;
    Ok ({| s_a := s_a s; s_b := s_b s; s_c := c; s_af := s_af s; s_bf := s_bf s; s_cf := cf |}, z).

  (** ** The thread functions: the work done for column n.

      Matrices are column major flat arrays.  The result is a column of Y; the
      status is always none (these functions have no error codes).  The
      running pointers Ap, Bp, Yp of fftconv_p start at column col_start and
      advance one column per iteration: &A[n*A_M] etc. in iteration n. *)
  Record mats := { m_A : buf; m_AM : Z; m_AN : Z; m_B : buf; m_BM : Z; m_BN : Z }.

  (** extra_src/oct_conv_p.cc 78-100 (smp_dream_conv) *)
  Definition conv_point (M : mats) (mode : ConvMode) (n : Z) (Y : buf) : res (buf * SIRError) :=
    let AM := m_AM M in let BM := m_BM M in
    do Y <- (if (1 <? m_BN M)%Z
             then conv (m_A M) (n * AM) AM (m_B M) (n * BM) BM mode (n * (AM + BM - 1)) Y
             else conv (m_A M) (n * AM) AM (m_B M) 0 BM mode (n * (AM + BM - 1)) Y);
    Ok (Y, err_none).

  (** extra_src/fftconv_p.cc 77-146 (FFTConvP::smp_dream_fftconv).  [scr n]:
      the contents of the worker's scratch arrays when it gets to column n. *)
  Definition fftconv_point (p : fft_plan) (M : mats) (mode : ConvMode) (scr : Z -> scratch) (n : Z) (Y : buf)
    : res (buf * SIRError) :=
    let AM := m_AM M in let BM := m_BM M in
    do r <- (if (1 <? m_BN M)%Z
             then fftconv p (m_A M) (n * AM) AM (m_B M) (n * BM) BM mode (n * (AM + BM - 1)) (scr n) Y
             else fftconv p (m_A M) (n * AM) AM (m_B M) 0 BM mode (n * (AM + BM - 1)) (scr n) Y);
    Ok (snd r, err_none).

  (** extra_src/oct_sum_fftconv.cc 82-127 (smp_dream_sum_fftconv) *)
  Definition sum_fftconv_point (p : fft_plan) (H : list buf) (L H_M : Z) (U : buf) (U_M : Z) (mode : ConvMode)
    (scr : Z -> scratch) (n : Z) (Y : buf) : res (buf * SIRError) :=
    do r <- add_fftconv p H L H_M n U U_M mode (n * (H_M + U_M - 1)) (scr n) Y;
    Ok (snd r, err_none).

  (** *** Overlap-add, extra_src/oct_fftconv_ola.cc 83-259.

      [ola_block]: one pass of the while loop (l.128-178 / 201-241).  State:
      k, the offset Ap points at, scratch, the block result y, the output.
      bo: offset of the B column. *)
  Record ola_st := { o_k : Z; o_ap : Z; o_s : scratch; o_y : buf; o_ab : buf; o_Y : buf }.
  Definition ola_block (p : fft_plan) (M : mats) (block_len bo : Z) (mode : ConvMode) (n : Z) (s : ola_st) : res ola_st :=
    let AM := m_AM M in let BM := m_BM M in
    let fft_len := (block_len + BM - 1)%Z in
    let k := o_k s in
    do r <- (if (k + block_len <? AM)%Z then
               do r <- fftconv p (m_A M) (o_ap s) block_len (m_B M) bo BM mode 0 (o_s s) (o_y s);
               Ok (r, o_ab s, block_len)
             else
               let len := (AM - k)%Z in
               do ab <- copy_in (m_A M) (k + n * AM) len (o_ab s);
               do ab <- zero_pad (AM - k) (AM - k + (block_len - len)) ab;
               do r <- fftconv p ab 0 block_len (m_B M) bo BM mode 0 (o_s s) (o_y s);
               Ok (r, ab, len));
    let '(r, ab, len) := r in
    let '(scr, y) := r in
    let count := if (k + fft_len <? AM + BM - 1)%Z then fft_len else (AM + BM - 1 - k)%Z in
    do Y <- for_loop count (fun l Y =>
              do yl <- buf_get y l;
              buf_upd Y (k + l + n * (AM + BM - 1))%Z (fun v => v + yl)) (o_Y s);
    Ok {| o_k := (k + block_len)%Z; o_ap := (o_ap s + len)%Z; o_s := scr; o_y := y; o_ab := ab; o_Y := Y |}.

  (** One column; B_N > 1: l.118-186, else l.196-254.  [ap0] is where Ap
      points when the column starts; the value afterwards is also returned
      (in the vector branch it is advanced once more, l.253). *)
  Definition ola_column (fuel : nat) (p : fft_plan) (M : mats) (block_len : Z) (mode : ConvMode) (n ap0 : Z)
    (s : scratch) (y ab : buf) (Y : buf) : res (Z * scratch * buf * buf * buf) :=
    let bo := if (1 <? m_BN M)%Z then (n * m_BM M)%Z else 0%Z in
    do r <- while fuel (fun s => (o_k s <? m_AM M)%Z)
              (fun s => do s' <- ola_block p M block_len bo mode n s; Ok (Go s'))
              {| o_k := 0; o_ap := ap0; o_s := s; o_y := y; o_ab := ab; o_Y := Y |};
    match r with
    | Go s => Ok ((if (1 <? m_BN M)%Z then o_ap s else (o_ap s + m_AM M)%Z), o_s s, o_y s, o_ab s, o_Y s)
    | Ret s => Ok (o_ap s, o_s s, o_y s, o_ab s, o_Y s)
    end.

  (** A worker that is not interrupted: columns col_start .. col_stop-1. *)
  Definition ola_worker (fuel : nat) (p : fft_plan) (M : mats) (block_len : Z) (mode : ConvMode)
    (col_start col_stop : Z) (s : scratch) (y ab : buf) (Y : buf) : res (Z * scratch * buf * buf * buf) :=
    for_loop (col_stop - col_start) (fun i st =>
      let '(ap, s, y, ab, Y) := st in
      ola_column fuel p M block_len mode (col_start + i) ap s y ab Y)
      ((col_start * m_AM M)%Z, s, y, ab, Y).

  (** Where Ap points when a worker that started at column cs gets to column
      n: the per-column advance found in [ola_column] (A_M, or 2 A_M for a
      vector B), added up; [ola_worker] is the sequential program. *)
  Definition ola_ap (M : mats) (cs n : Z) : Z :=
    if (1 <? m_BN M)%Z then (n * m_AM M)%Z else ((cs + 2 * (n - cs)) * m_AM M)%Z.
  (** The work for column n.  [loc n]: the worker's scratch arrays, y and
      a_block when it gets there; [cs n]: the first column of the worker. *)
  Definition ola_point (fuel : nat) (p : fft_plan) (M : mats) (block_len : Z) (mode : ConvMode)
    (cs : Z -> Z) (loc : Z -> scratch * buf * buf) (n : Z) (Y : buf) : res (buf * SIRError) :=
    let '(s, y, ab) := loc n in
    do r <- ola_column fuel p M block_len mode n (ola_ap M (cs n) n) s y ab Y;
    Ok (snd r, err_none).

  (** ** The drivers: split the No columns over nthreads workers, run them,
      join (extra_src/oct_conv_p.cc 331-380, fftconv_p.cc 331-388,
      oct_sum_fftconv.cc 490-545).  The work split and the structure of the
      thread functions (work, test of the running flag, next column) are those
      of ModelSmp.v; there is no status.  [Some (Y, running)] if all workers
      have finished at the end of the schedule. *)
  Definition cols_call (pt : Z -> buf -> res (buf * SIRError)) (No nthreads : Z) (sch : list event) (Y : buf)
    : res (option (buf * bool)) :=
    do s <- gsteps pt (init No nthreads Y) sch;
    if all_done s then Ok (Some (g_H s, g_running s)) else Ok None.

  (** ** Argument checks of the gateways *)

  (** extra_src/oct_conv_p.cc 245-254, oct_fftconv_p.cc 298-306,
      oct_fftconv_ola.cc 396-405.  None: rejected; otherwise (B_M, B_N) as
      passed on. *)
  Definition check_B (A_N B_M B_N : Z) : option (Z * Z) :=
    if (negb (B_M =? 1) && negb (B_N =? 1) && negb (B_N =? A_N))%Z%bool then None
    else if ((B_M =? 1) || (B_N =? 1))%Z%bool then Some (B_M * B_N, 1)%Z
    else Some (B_M, B_N).
  (** extra_src/fftconv_p.cc 179-187 (FFTConvP::run: the check is commented
      out). *)
  Definition run_B (B_M B_N : Z) : Z * Z :=
    if ((B_M =? 1) || (B_N =? 1))%Z%bool then (B_M * B_N, 1)%Z else (B_M, B_N).
  (** extra_src/oct_fftconv_ola.cc 417-420 *)
  Definition check_block (block_len A_M : Z) : bool := negb ((block_len <? 0) || (A_M <? block_len))%Z%bool.
  (** extra_src/oct_sum_fftconv.cc 331-339: H_L must equal U_N; then (U_M,
      U_N) as passed on. *)
  Definition check_U (H_L U_M U_N : Z) : option (Z * Z) :=
    if negb (H_L =? U_N)%Z then None
    else if ((U_M =? 1) || (U_N =? 1))%Z%bool then Some (U_M * U_N, 1)%Z
    else Some (U_M, U_N).
End Conv.
Arguments fft_plan : clear implicits.
Arguments scratch : clear implicits.
Arguments mats : clear implicits.
