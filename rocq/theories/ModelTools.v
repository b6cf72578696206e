(** ModelTools.v - the gateways of dream_apodwin and dream_att (Octave and
    MATLAB only): oct/oct_dream_apodwin.cc, mex/mex_dream_apodwin.cc,
    oct/oct_dream_att.cc, mex/mex_dream_att.cc. *)
From Coq Require Strings.String.
From Verif Require Import Base ModelSir ModelArr ModelSmp ModelGw.
Local Open Scope Z_scope.

Section Tools.
  Context {N : Num}.
  Local Open Scope num_scope.
  Local Notation buf := (list N).
  Local Notation val := (value N).

  (** What the user sees. *)
  Inductive toutcome := TRejected | TNoMemory | TReturned (rows cols : Z) (H : buf).

  (** The new output matrix: Octave's Matrix(m,n) holds arbitrary numbers,
      mxCreateDoubleMatrix zeros. *)
  Definition new_matrix (fe : front) (junk : buf) (n : nat) : buf :=
    match fe with Matlab => repeat #0 n | _ => alloc junk n end.

  (** oct/oct_dream_apodwin.cc 126-135: for (n...) { xs = 2*ramax*(0.5 - n/num);
      apodization(...); h[n] = weight; } with ramax = 1, ys = 0. *)
  Definition apodwin_loop (met : ApodMet) (num : Z) (apod : buf) (par : N) (h : buf) : res buf :=
    for_loop num (fun n h =>
      let xs := #2 * #1 * (#1 / #2 - #n / #num) in
      do w <- apodization met n apod xs #0 #1 par;
      buf_upd h n (fun _ => w)) h.

  (** oct/oct_dream_apodwin.cc 88-139, mex/mex_dream_apodwin.cc 36-70.  The
      number of elements is the first element of the second argument;
      make_unique<double[]>(num) with num < 0 throws (out of memory). *)
  Definition apodwin_gateway (fe : front) (nlhs : Z) (junk : buf) (args : list val) : res toutcome :=
    if negb (match fe with Octave | Matlab => true | _ => false end) then Ok TRejected else
    match args with
    | [vs; v; vp] =>
      if negb (in_bounds nlhs 0 1) then Ok TRejected else
      do x <- buf_get (get_data v) 0;
      do num <- to_idx (idx_of fe) (ntrunc x);
      if (num <? 0)%Z then Ok TNoMemory else
      do p <- parse_apod_args fe vs v vp num (repeat #0 (Z.to_nat num));
      if negb (goes_on fe p) then Ok TRejected else
      let '(on, ap, met, par) := p_val p in
      let h := new_matrix fe junk (Z.to_nat num) in
      do h <- (if on then apodwin_loop met num ap par h else Ok h);
      Ok (TReturned num 1 h)
    | _ => Ok TRejected
    end.

  (** The casts of dream_att: Octave (int), MATLAB (dream_idx_type = size_t). *)
  Definition att_cast (fe : front) (z : option Z) : res Z :=
    match fe, z with
    | Octave, Some z => if ((-2^31 <=? z) && (z <? 2^31))%Z then Ok z else UB UB_cast
    | Octave, None => UB UB_cast
    | _, _ => to_idx UnsignedIdx z
    end.

  (** oct/oct_dream_att.cc 181-199: one observation point.
      Simplification: the int product n*nt does not overflow. *)
  Definition att_point (fe : front) (P : att_plan N) (No : Z) (Ro delay : buf) (dty : DelayType) (dt cp : N)
    (n : Z) (h : buf) : res buf :=
    do xo <- buf_get Ro n; do yo <- buf_get Ro (n + 1 * No)%Z; do zo <- buf_get Ro (n + 2 * No)%Z;
    let r := nsqrt (xo*xo + yo*yo + zo*zo) in
    do d <- buf_get delay (match dty with delay_single => 0 | _ => n end);
    do it <- att_cast fe (ntrunc ((r * #1000 / cp - d) / dt + #1));
    emit_att P (n * att_len P)%Z it r #1 h.

  (** oct/oct_dream_att.cc 88-205, mex/mex_dream_att.cc 37-128.  [c2r]: the
      inverse FFT of the library (with 1/nt). *)
  Definition att_gateway (c2r : list (N * N) -> buf) (fe : front) (nlhs : Z) (junk : buf) (args : list val) : res toutcome :=
    if negb (match fe with Octave | Matlab => true | _ => false end) then Ok TRejected else
    match args with
    | [vo; vs; vd; vm] =>
      if negb (in_bounds nlhs 0 1) then Ok TRejected else
      if negb (check_obs_points vo) then Ok TRejected else
      let No := get_m vo in
      do Ro <- gw_data fe vo;
      if negb (check_vec fe 2 vs) then Ok TRejected else
      do s <- gw_data fe vs;
      do dt <- buf_get s 0; do x <- buf_get s 1;
      do nt <- att_cast fe (ntrunc x);
      if negb (check_delay vd No) then Ok TRejected else
      do delay <- gw_data fe vd;
      if negb (check_vec fe 2 vm) then Ok TRejected else
      do m <- gw_data fe vm;
      do cp <- buf_get m 0; do alpha <- buf_get m 1;
      if (nt <? 0)%Z then Ok TNoMemory else
      do h <- sir_clear nt No (new_matrix fe junk (Z.to_nat (nt * No)));
      let P := {| att_len := nt; att_dt := dt; att_alpha := alpha; att_c2r := c2r |} in
      do h <- for_loop No (att_point fe P No Ro delay (delay_type_of vd) dt cp) h;
      Ok (TReturned nt No h)
    | _ => Ok TRejected
    end.
End Tools.
Arguments toutcome : clear implicits.
