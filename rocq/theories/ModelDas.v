(** ModelDas.v - delay-and-sum beamforming: extra_src/das.cc, include/das.h,
    include/das_uni.h, opencl/das_uni_double.cl. *)
From Verif Require Import Base ModelSir ModelSmp.

(** for (i = 0; i < n; i++) { body } where the body may [return]. *)
Fixpoint for_ctl_from {S A} (i : Z) (n : nat) (body : Z -> S -> res (ctl S A)) (s : S)
  : res (ctl S A) :=
  match n with
  | O => Ok (Go s)
  | Datatypes.S n' =>
    do c <- body i s;
    match c with Go s' => for_ctl_from (i + 1) n' body s' | Ret a => Ok (Ret a) end
  end.
Definition for_ctl {S A} (n : Z) (body : Z -> S -> res (ctl S A)) (s : S) : res (ctl S A) :=
  for_ctl_from 0 (Z.to_nat n) body s.
(** The value of the function whose last statement is the loop. *)
Definition finish {S} (c : ctl S S) : S := match c with Go s => s | Ret s => s end.

(** include/dream.h: enum class DASType. *)
Inductive DASType := das_saft | das_tfm | das_rca_coltx | das_rca_rowtx.

Section Das.
  Context {N : Num} (K : idx_kind).
  Local Notation buf := (list N).
  Local Open Scope num_scope.
  Local Notation ist := (N * SIRError)%type.      (* im, err *)

  (** A-scan sample for the travel time index [arg] of the A-scan that starts
      at Y[off]: extra_src/das.cc 337-353 (also 401-419, 508-526, 601-619). *)
  Definition das_put (Y : buf) (len off : Z) (lvl : ErrorLevel) (arg : N) (s : ist)
    : res (ctl ist ist) :=
    let '(im, err) := s in
    do k <- to_idx K (ntrunc arg);
    if (k <? len)%Z && (0 <=? k)%Z then
      do y <- buf_get Y (off + k)%Z;
      Ok (Go (im + y, err))
    else
      let err' := dream_out_of_bounds_err lvl in
      if SIRError_eqb err' err_oob then Ok (Ret (im, err')) else Ok (Go (im, err')).

  (** The three precomputed factors, extra_src/das.cc 316-318. *)
  Definition Fs_khz (dt : N) : N := (#1 / dt) * #1000.
  Definition one_over (cp : N) : N := #1 / cp.
  Definition delay_ms (delay : N) : N := delay / #1000.

  (** std::sqrt(gx*gx + gy*gy + gz*gz) * one_over_cp. *)
  Definition travel (cp gx gy gz : N) : N := nsqrt (gx * gx + gy * gy + gz * gz) * one_over cp.

  (** Coordinates of element n of a (num x 3) matrix, relative to the
      observation point: extra_src/das.cc 329-331. *)
  Definition elem_rel (G : buf) (num n : Z) (xo yo zo : N) : res (N * N * N) :=
    do gx <- buf_get G n;
    do gy <- buf_get G (n + 1 * num)%Z;
    do gz <- buf_get G (n + 2 * num)%Z;
    Ok (gx - xo, gy - yo, gz - zo).

  (** extra_src/das.cc 307-357 (DAS::das_saft_serial). *)
  Definition das_saft_serial (Y : buf) (len : Z) (G : buf) (num : Z) (xo yo zo dt delay cp : N)
    (lvl : ErrorLevel) : res ist :=
    do c <- for_ctl num (fun n_tr s =>
      do g <- elem_rel G num n_tr xo yo zo;
      let '(gx, gy, gz) := g in
      let t_tr := travel cp gx gy gz in
      let t_tr := t_tr + delay_ms delay in
      let t_dp := #2 * t_tr in
      das_put Y len (n_tr * len)%Z lvl (t_dp * Fs_khz dt) s) (#0, err_none);
    Ok (finish c).

  (** extra_src/das.cc 366-427 (DAS::das_tfm_serial).  The A-scan pointer y_p
      is advanced once per inner iteration, so it points at A-scan
      n_t*num_r + n_r. *)
  Definition das_tfm_serial (Y : buf) (len : Z) (Gt : buf) (num_t : Z) (Gr : buf) (num_r : Z)
    (xo yo zo dt delay cp : N) (lvl : ErrorLevel) : res ist :=
    do c <- for_ctl num_t (fun n_t s =>
      do g <- elem_rel Gt num_t n_t xo yo zo;
      let '(gx, gy, gz) := g in
      let t_t := travel cp gx gy gz in
      let t_t := t_t + delay_ms delay in
      for_ctl num_r (fun n_r s =>
        do g <- elem_rel Gr num_r n_r xo yo zo;
        let '(gx, gy, gz) := g in
        let t_r := travel cp gx gy gz in
        let t_dp := t_t + t_r in
        das_put Y len ((n_t * num_r + n_r) * len)%Z lvl (t_dp * Fs_khz dt) s) s) (#0, err_none);
    Ok (finish c).

  (** Offset to a stripe [lo,hi]: zero inside, else the distance to the
      nearer edge; extra_src/das.cc 476-484. *)
  Definition stripe (lo hi o : N) : N :=
    if (lo <=? o) && (o <=? hi) then #0
    else if o <? lo then lo - o else hi - o.

  (** Stripe extents as the code reads them, extra_src/das.cc 463-466 and
      560-563.  (num_cols is used to index the row matrix and num_rows to
      index the column matrix.) *)
  Definition rca_edges (G_col : buf) (num_cols : Z) (G_row : buf) (num_rows : Z)
    : res (N * N * N * N) :=
    do y_min <- buf_get G_row (0 + 1 * num_cols)%Z;
    do y_max <- buf_get G_row (num_cols - 1 + 1 * num_cols)%Z;
    do x_min <- buf_get G_col 0%Z;
    do x_max <- buf_get G_col (num_rows - 1)%Z;
    Ok (y_min, y_max, x_min, x_max).

  (** Travel time of a column: x from the element, y from the stripe, z from
      the element; extra_src/das.cc 473-488. *)
  Definition col_travel (G_col : buf) (num_cols n_c : Z) (y_min y_max xo yo zo cp : N) : res N :=
    do gx <- buf_get G_col n_c;
    do gz <- buf_get G_col (n_c + 2 * num_cols)%Z;
    Ok (travel cp (gx - xo) (stripe y_min y_max yo) (gz - zo)).
  (** Travel time of a row, extra_src/das.cc 493-506. *)
  Definition row_travel (G_row : buf) (num_rows n_r : Z) (x_min x_max xo yo zo cp : N) : res N :=
    do gy <- buf_get G_row (n_r + 1 * num_rows)%Z;
    do gz <- buf_get G_row (n_r + 2 * num_rows)%Z;
    Ok (travel cp (stripe x_min x_max xo) (gy - yo) (gz - zo)).

  (** extra_src/das.cc 438-529 (DAS::das_rca_serial_coltx). *)
  Definition das_rca_serial_coltx (Y : buf) (len : Z) (G_col : buf) (num_cols : Z) (G_row : buf)
    (num_rows : Z) (xo yo zo dt delay cp : N) (lvl : ErrorLevel) : res ist :=
    do e <- rca_edges G_col num_cols G_row num_rows;
    let '(y_min, y_max, x_min, x_max) := e in
    do c <- for_ctl num_cols (fun n_c s =>
      do t_c <- col_travel G_col num_cols n_c y_min y_max xo yo zo cp;
      let t_c := t_c + delay_ms delay in
      for_ctl num_rows (fun n_r s =>
        do t_r <- row_travel G_row num_rows n_r x_min x_max xo yo zo cp;
        let t_dp := t_c + t_r in
        das_put Y len ((n_c * num_rows + n_r) * len)%Z lvl (t_dp * Fs_khz dt) s) s) (#0, err_none);
    Ok (finish c).

  (** extra_src/das.cc 534-626 (DAS::das_rca_serial_rowtx). *)
  Definition das_rca_serial_rowtx (Y : buf) (len : Z) (G_col : buf) (num_cols : Z) (G_row : buf)
    (num_rows : Z) (xo yo zo dt delay cp : N) (lvl : ErrorLevel) : res ist :=
    do e <- rca_edges G_col num_cols G_row num_rows;
    let '(y_min, y_max, x_min, x_max) := e in
    do c <- for_ctl num_rows (fun n_r s =>
      do t_r <- row_travel G_row num_rows n_r x_min x_max xo yo zo cp;
      for_ctl num_cols (fun n_c s =>
        do t_c <- col_travel G_col num_cols n_c y_min y_max xo yo zo cp;
        let t_c := t_c + delay_ms delay in
        let t_dp := t_c + t_r in
        das_put Y len ((n_r * num_cols + n_c) * len)%Z lvl (t_dp * Fs_khz dt) s) s) (#0, err_none);
    Ok (finish c).

  (** ** The driver *)

  (** A DAS object together with the arguments of DAS::das,
      extra_src/das.cc 35-52 and 200-206. *)
  Record das_job := {
    d_type : DASType; d_len : Z; d_No : Z; d_num_t : Z; d_num_r : Z;
    d_Y : buf; d_Ro : buf; d_Gt : buf; d_Gr : buf;
    d_dt : N; d_delay_type : DelayType; d_delay : buf; d_cp : N; d_lvl : ErrorLevel
  }.

  (** extra_src/das.cc 209-213: SAFT is forced when there are no receivers. *)
  Definition das_method (J : das_job) : DASType :=
    if (d_num_r J =? 0)%Z then das_saft else d_type J.

  (** One iteration of the thread function, extra_src/das.cc 125-172.  The
      accumulator is the reference Im[no]; only this iteration uses Im[no], so
      it is written once at the end. *)
  Definition das_value (J : das_job) (no : Z) : res ist :=
    do xo <- buf_get (d_Ro J) no;
    do yo <- buf_get (d_Ro J) (no + 1 * d_No J)%Z;
    do zo <- buf_get (d_Ro J) (no + 2 * d_No J)%Z;
    do dlay <- (match d_delay_type J with
                | delay_single => buf_get (d_delay J) 0%Z
                | delay_multiple => buf_get (d_delay J) no
                end);
    match das_method J with
    | das_saft => das_saft_serial (d_Y J) (d_len J) (d_Gt J) (d_num_t J)
                    xo yo zo (d_dt J) dlay (d_cp J) (d_lvl J)
    | das_tfm => das_tfm_serial (d_Y J) (d_len J) (d_Gt J) (d_num_t J) (d_Gr J) (d_num_r J)
                    xo yo zo (d_dt J) dlay (d_cp J) (d_lvl J)
    | das_rca_coltx => das_rca_serial_coltx (d_Y J) (d_len J) (d_Gt J) (d_num_t J) (d_Gr J) (d_num_r J)
                    xo yo zo (d_dt J) dlay (d_cp J) (d_lvl J)
    | das_rca_rowtx => das_rca_serial_rowtx (d_Y J) (d_len J) (d_Gt J) (d_num_t J) (d_Gr J) (d_num_r J)
                    xo yo zo (d_dt J) dlay (d_cp J) (d_lvl J)
    end.
  Definition das_point (J : das_job) (no : Z) (Im : buf) : res (buf * SIRError) :=
    do s <- das_value J no;
    let '(im, err) := s in
    do Im' <- buf_upd Im no (fun _ => im);
    Ok (Im', err).

  (** extra_src/das.cc 200-298 (DAS::das), with the flag set by the gateway
      (set_running, e.g. extra_src/oct_das.cc 504).  The thread function,
      extra_src/das.cc 125-189, has the control structure of the SIR thread
      functions, so the same machine is used; the work split and the worker
      count are the same text too (das.cc 219-240, 250-251). *)
  Definition das_call (J : das_job) (nthreads : Z) (sch : list event) (Im : buf)
    : res (option (buf * SIRError * bool)) :=
    do s <- gsteps (das_point J) (init (d_No J) nthreads Im) sch;
    if all_done s
    then Ok (Some (g_H s, (if (1 <? nthreads)%Z then join_any (g_threads s) else err_none), g_running s))
    else Ok None.

  (** ** Object reuse *)

  (** The fields of a DAS object that size its resources, include/das.h. *)
  Record das_obj := { o_type : DASType; o_len : Z; o_No : Z; o_num_t : Z; o_num_r : Z; o_gpu : bool }.
  Definition DASType_eqb (a b : DASType) : bool :=
    match a, b with
    | das_saft, das_saft | das_tfm, das_tfm
    | das_rca_coltx, das_rca_coltx | das_rca_rowtx, das_rca_rowtx => true
    | _, _ => false
    end.
  (** include/das.h 77-94 (DAS::das_setup_has_changed). *)
  Definition das_setup_has_changed (o : das_obj) (t : DASType) (len No nt nr : Z) (gpu : bool) : bool :=
    negb (DASType_eqb t (o_type o)) || negb (len =? o_len o)%Z || negb (No =? o_No o)%Z ||
    negb (nt =? o_num_t o)%Z || negb (nr =? o_num_r o)%Z || negb (eqb (o_gpu o) gpu).
  (** Constructor of the build without OpenCL, extra_src/das.cc 35-52:
      m_use_gpu = false whatever was asked for. *)
  Definition das_new_cpu (t : DASType) (len No nt nr : Z) (gpu : bool) : das_obj :=
    {| o_type := t; o_len := len; o_No := No; o_num_t := nt; o_num_r := nr; o_gpu := false |}.
  (** Gateway logic, extra_src/oct_das.cc 487-503: (rebuilt?, object used). *)
  Definition das_reuse (old : option das_obj) (t : DASType) (len No nt nr : Z) (gpu : bool)
    : bool * das_obj :=
    match old with
    | Some o => if das_setup_has_changed o t len No nt nr gpu
                then (true, das_new_cpu t len No nt nr gpu) else (false, o)
    | None => (true, das_new_cpu t len No nt nr gpu)
    end.

  (** ** Uniform grids *)

  (** include/das_uni.h 71-79: (dream_idx_type)((max - min)/pitch + 1.0). *)
  Definition uni_count (lo pitch hi : N) : res Z :=
    to_idx K (ntrunc ((hi - lo) / pitch + #1)).
  (** Position n of the grid, opencl/das_uni_double.cl 41-43, 58. *)
  Definition uni_pos (lo pitch : N) (n : Z) : N := lo + #n * pitch.
  (** Linear index to subscripts (nx, ny, nz): y runs fastest, then z, then x;
      opencl/das_uni_double.cl 32-39. *)
  Definition uni_sub (Nx Ny Nz no : Z) : Z * Z * Z :=
    let y_quot := (no / Ny)%Z in
    let ny := (no - y_quot * Ny)%Z in
    let z_quot := (y_quot / Nz)%Z in
    let nz := (y_quot - z_quot * Nz)%Z in
    let x_quot := (z_quot / Nx)%Z in
    let nx := (z_quot - x_quot * Nx)%Z in
    (nx, ny, nz).

  (** ** OpenCL kernels *)

  (** (int) x in OpenCL C: 32 bits, undefined if the value does not fit. *)
  Definition to_int (z : option Z) : res Z :=
    match z with
    | Some z => if ((-2^31 <=? z) && (z <? 2^31))%Z then Ok z else UB UB_cast
    | None => UB UB_cast
    end.

  (** The kernels skip samples outside the record without an error:
      opencl/das_double.cl 45-49 and opencl/das_uni_double.cl 66-69. *)
  Definition cl_put (Y : buf) (len off : Z) (arg : N) (im : N) : res N :=
    do k <- to_int (ntrunc arg);
    if (k <? len)%Z && (0 <=? k)%Z then do y <- buf_get Y (off + k)%Z; Ok (im + y) else Ok im.

  (** The rows' stripe offset in the kernels, opencl/das_double.cl 165-172
      (the columns' one is [stripe]). *)
  Definition stripe_cl (lo hi o : N) : N :=
    if (o <? lo) || (hi <? o) then (if o <? lo then lo - o else hi - o) else #0.
  Definition row_travel_cl (G_row : buf) (num_rows n_r : Z) (x_min x_max xo yo zo cp : N) : res N :=
    do gy <- buf_get G_row (n_r + 1 * num_rows)%Z;
    do gz <- buf_get G_row (n_r + 2 * num_rows)%Z;
    Ok (travel cp (stripe_cl x_min x_max xo) (gy - yo) (gz - zo)).

  (** opencl/das_double.cl: the four kernels, one work item.  native_sqrt is
      taken to be the square root. *)
  Definition cl_saft (Y : buf) (len : Z) (G : buf) (num : Z) (xo yo zo dt delay cp : N) : res N :=
    for_loop num (fun n_tr im =>
      do g <- elem_rel G num n_tr xo yo zo;
      let '(gx, gy, gz) := g in
      let t_tr := travel cp gx gy gz + delay_ms delay in
      cl_put Y len (n_tr * len)%Z (#2 * t_tr * Fs_khz dt) im) #0.
  Definition cl_tfm (Y : buf) (len : Z) (Gt : buf) (num_t : Z) (Gr : buf) (num_r : Z)
    (xo yo zo dt delay cp : N) : res N :=
    for_loop num_t (fun n_t im =>
      do g <- elem_rel Gt num_t n_t xo yo zo;
      let '(gx, gy, gz) := g in
      let t_t := travel cp gx gy gz + delay_ms delay in
      for_loop num_r (fun n_r im =>
        do g <- elem_rel Gr num_r n_r xo yo zo;
        let '(gx, gy, gz) := g in
        let t_r := travel cp gx gy gz in
        cl_put Y len ((n_t * num_r + n_r) * len)%Z ((t_t + t_r) * Fs_khz dt) im) im) #0.
  Definition cl_rca_coltx (Y : buf) (len : Z) (G_col : buf) (num_cols : Z) (G_row : buf)
    (num_rows : Z) (xo yo zo dt delay cp : N) : res N :=
    do e <- rca_edges G_col num_cols G_row num_rows;
    let '(y_min, y_max, x_min, x_max) := e in
    for_loop num_cols (fun n_c im =>
      do t_c <- col_travel G_col num_cols n_c y_min y_max xo yo zo cp;
      let t_c := t_c + delay_ms delay in
      for_loop num_rows (fun n_r im =>
        do t_r <- row_travel_cl G_row num_rows n_r x_min x_max xo yo zo cp;
        cl_put Y len ((n_c * num_rows + n_r) * len)%Z ((t_c + t_r) * Fs_khz dt) im) im) #0.
  Definition cl_rca_rowtx (Y : buf) (len : Z) (G_col : buf) (num_cols : Z) (G_row : buf)
    (num_rows : Z) (xo yo zo dt delay cp : N) : res N :=
    do e <- rca_edges G_col num_cols G_row num_rows;
    let '(y_min, y_max, x_min, x_max) := e in
    for_loop num_rows (fun n_r im =>
      do t_r <- row_travel_cl G_row num_rows n_r x_min x_max xo yo zo cp;
      for_loop num_cols (fun n_c im =>
        do t_c <- col_travel G_col num_cols n_c y_min y_max xo yo zo cp;
        let t_c := t_c + delay_ms delay in
        cl_put Y len ((n_r * num_cols + n_c) * len)%Z ((t_c + t_r) * Fs_khz dt) im) im) #0.

  (** opencl/cl_das.cc 62-158 (DAS::cl_das): one work item per image point, in
      work groups of 64.  OpenCL 1.2 refuses to run a kernel whose global size
      is not a multiple of the work group size; the error is printed and the
      result buffer is read back all the same ([junk]: whatever the device
      memory contained).  The gateways pass delay[0]
      (extra_src/oct_das.cc 520-523).  The SAFT kernel is chosen by the DAS type
      alone (include/das.h 108-111), where the number of receivers is set to 0
      too. *)
  Definition cl_value (J : das_job) (no : Z) : res N :=
    do xo <- buf_get (d_Ro J) no;
    do yo <- buf_get (d_Ro J) (no + 1 * d_No J)%Z;
    do zo <- buf_get (d_Ro J) (no + 2 * d_No J)%Z;
    do dlay <- buf_get (d_delay J) 0%Z;
    match d_type J with
    | das_saft => cl_saft (d_Y J) (d_len J) (d_Gt J) (d_num_t J) xo yo zo (d_dt J) dlay (d_cp J)
    | das_tfm => cl_tfm (d_Y J) (d_len J) (d_Gt J) (d_num_t J) (d_Gr J) (d_num_r J)
                   xo yo zo (d_dt J) dlay (d_cp J)
    | das_rca_coltx => cl_rca_coltx (d_Y J) (d_len J) (d_Gt J) (d_num_t J) (d_Gr J) (d_num_r J)
                   xo yo zo (d_dt J) dlay (d_cp J)
    | das_rca_rowtx => cl_rca_rowtx (d_Y J) (d_len J) (d_Gt J) (d_num_t J) (d_Gr J) (d_num_r J)
                   xo yo zo (d_dt J) dlay (d_cp J)
    end.
  Definition cl_das (J : das_job) (junk : buf) : res buf :=
    if (d_No J mod 64 =? 0)%Z
    then for_loop (d_No J) (fun no Im => do im <- cl_value J no; buf_upd Im no (fun _ => im)) junk
    else Ok junk.

  (** travel time to (x,0,0), opencl/das_uni_double.cl 61-63. *)
  Definition uni_travel (cp gx yo zo : N) : N := nsqrt (gx * gx + yo * yo + zo * zo) * one_over cp.

  (** int num = (int) ((max - min)/pitch + 1.0), opencl/das_uni_double.cl 23-28. *)
  Definition uni_count_cl (lo pitch hi : N) : res Z := to_int (ntrunc ((hi - lo) / pitch + #1)).

  (** The image point of work item [no], opencl/das_uni_double.cl 25-43.  A
      work item only exists if the image has points, so Ny, Nz, Nx are not 0. *)
  Definition uni_at (rx ry rz : N * N * N) (no : Z) : res (N * N * N) :=
    let '(x0, dx, x1) := rx in let '(y0, dy, y1) := ry in let '(z0, dz, z1) := rz in
    do Nx <- uni_count_cl x0 dx x1;
    do Ny <- uni_count_cl y0 dy y1;
    do Nz <- uni_count_cl z0 dz z1;
    let '(nx, ny, nz) := uni_sub Nx Ny Nz no in
    Ok (uni_pos x0 dx nx, uni_pos y0 dy ny, uni_pos z0 dz nz).

  (** opencl/das_uni_double.cl 9-77 (das_uni_saft), one work item at
      (xo,yo,zo). *)
  Definition uni_saft (Y : buf) (len : Z) (min_tr pitch max_tr xo yo zo dt delay cp : N) : res N :=
    do num <- uni_count_cl min_tr pitch max_tr;
    for_loop num (fun n im =>
      let gx := uni_pos min_tr pitch n - xo in
      let t_tr := uni_travel cp gx yo zo + delay_ms delay in
      cl_put Y len (n * len)%Z (#2 * t_tr * Fs_khz dt) im) #0.

  (** opencl/das_uni_double.cl 79-163 (das_uni_tfm). *)
  Definition uni_tfm (Y : buf) (len : Z) (min_t pitch_t max_t min_r pitch_r max_r xo yo zo dt delay cp : N)
    : res N :=
    do num_t <- uni_count_cl min_t pitch_t max_t;
    do num_r <- uni_count_cl min_r pitch_r max_r;
    for_loop num_t (fun n_t im =>
      let t_t := uni_travel cp (uni_pos min_t pitch_t n_t - xo) yo zo + delay_ms delay in
      for_loop num_r (fun n_r im =>
        let t_r := uni_travel cp (uni_pos min_r pitch_r n_r - xo) yo zo in
        cl_put Y len ((n_t * num_r + n_r) * len)%Z ((t_t + t_r) * Fs_khz dt) im) im) #0.

  (** opencl/das_uni_double.cl 166-280 and 283-395 (das_uni_rca_coltx/rowtx):
      the stripes run from min to max of the other direction. *)
  Definition uni_rca_coltx (Y : buf) (len : Z) (min_c pitch_c max_c min_r pitch_r max_r xo yo zo dt delay cp : N)
    : res N :=
    do num_c <- uni_count_cl min_c pitch_c max_c;
    do num_r <- uni_count_cl min_r pitch_r max_r;
    for_loop num_c (fun n_c im =>
      let t_c := uni_travel cp (uni_pos min_c pitch_c n_c - xo) (stripe min_r max_r yo) zo + delay_ms delay in
      for_loop num_r (fun n_r im =>
        let t_r := uni_travel cp (stripe_cl min_c max_c xo) (uni_pos min_r pitch_r n_r - yo) zo in
        cl_put Y len ((n_c * num_r + n_r) * len)%Z ((t_c + t_r) * Fs_khz dt) im) im) #0.
  Definition uni_rca_rowtx (Y : buf) (len : Z) (min_c pitch_c max_c min_r pitch_r max_r xo yo zo dt delay cp : N)
    : res N :=
    do num_c <- uni_count_cl min_c pitch_c max_c;
    do num_r <- uni_count_cl min_r pitch_r max_r;
    for_loop num_r (fun n_r im =>
      let t_r := uni_travel cp (stripe_cl min_c max_c xo) (uni_pos min_r pitch_r n_r - yo) zo + delay_ms delay in
      for_loop num_c (fun n_c im =>
        let t_c := uni_travel cp (uni_pos min_c pitch_c n_c - xo) (stripe min_r max_r yo) zo in
        cl_put Y len ((n_r * num_c + n_c) * len)%Z ((t_c + t_r) * Fs_khz dt) im) im) #0.

  (** The whole kernel call of one work item. *)
  Definition uni_value (t : DASType) (Y : buf) (len : Z) (gt gr rx ry rz : N * N * N) (dt delay cp : N) (no : Z) : res N :=
    do o <- uni_at rx ry rz no;
    let '(xo, yo, zo) := o in
    let '(t0, pt, t1) := gt in let '(r0, pr, r1) := gr in
    match t with
    | das_saft => uni_saft Y len t0 pt t1 xo yo zo dt delay cp
    | das_tfm => uni_tfm Y len t0 pt t1 r0 pr r1 xo yo zo dt delay cp
    | das_rca_coltx => uni_rca_coltx Y len t0 pt t1 r0 pr r1 xo yo zo dt delay cp
    | das_rca_rowtx => uni_rca_rowtx Y len t0 pt t1 r0 pr r1 xo yo zo dt delay cp
    end.

  (** Size bookkeeping of the uniform object: include/das_uni.h 62-87 (after
      the constructor) and 325-353. *)
  Record uni_obj := { u_type : DASType; u_len : Z; u_No : Z; u_num_t : Z; u_num_r : Z }.
  Definition uni_sizes (gt gr rx ry rz : N * N * N) : res (Z * Z * Z) :=
    let cnt (g : N * N * N) := let '(lo, p, hi) := g in uni_count lo p hi in
    do nt <- cnt gt; do nr <- cnt gr;
    do Nx <- cnt rx; do Ny <- cnt ry; do Nz <- cnt rz;
    Ok (nt, nr, (Nx * Ny * Nz)%Z).
  Definition uni_new (t : DASType) (len : Z) (gt gr rx ry rz : N * N * N) : res uni_obj :=
    do s <- uni_sizes gt gr rx ry rz;
    let '(nt, nr, No) := s in
    Ok {| u_type := t; u_len := len; u_No := No; u_num_t := nt;
          u_num_r := if DASType_eqb t das_saft then 0%Z else nr |}.
  Definition uni_setup_has_changed (o : uni_obj) (t : DASType) (len : Z) (gt gr rx ry rz : N * N * N) : res bool :=
    do s <- uni_sizes gt gr rx ry rz;
    let '(nt, nr, No) := s in
    Ok (negb (DASType_eqb t (u_type o)) || negb (len =? u_len o)%Z || negb (No =? u_No o)%Z ||
        negb (nt =? u_num_t o)%Z || negb (nr =? u_num_r o)%Z).
End Das.
Arguments das_job : clear implicits.
