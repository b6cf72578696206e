(** ModelSir.v - the single observation point ("serial") SIR functions of the
    single-element transducers, and the attenuation filter. *)
From Verif Require Import Base.

(** include/dream.h 42-47 *)
Inductive SIRError := err_none | err_ignore_oob | err_warn_oob | err_oob.
(** include/dream.h 49-55 *)
Inductive ErrorLevel := lvl_none | lvl_ignore | lvl_warn | lvl_stop | lvl_parallel_stop.
(** include/dream.h 57-60 *)
Inductive DelayType := delay_single | delay_multiple.
(** include/dream.h 62-71 *)
Inductive FocusMet := foc_none | foc_x | foc_negx | foc_y | foc_negy | foc_xy | foc_x_y | foc_ud.
(** include/dream.h 73-78 *)
Inductive SteerMet := steer_none | steer_x | steer_y | steer_xy.
(** include/dream.h 80-89 *)
Inductive ApodMet := apod_triangle | apod_gauss | apod_raised | apod_hann | apod_hamming
                   | apod_simply | apod_clamped | apod_ud.

Definition SIRError_eqb (a b : SIRError) : bool :=
  match a, b with
  | err_none, err_none | err_ignore_oob, err_ignore_oob
  | err_warn_oob, err_warn_oob | err_oob, err_oob => true
  | _, _ => false
  end.
Definition FocusMet_is_ud (f : FocusMet) : bool :=
  match f with foc_ud => true | _ => false end.

(** src/dream_error.cc 40-76 (dream_out_of_bounds_err).  The printed message
    is not modelled; [lvl_none] is the default: branch. *)
Definition dream_out_of_bounds_err (lvl : ErrorLevel) : SIRError :=
  match lvl with
  | lvl_ignore => err_ignore_oob
  | lvl_warn => err_warn_oob
  | lvl_stop | lvl_parallel_stop => err_oob
  | lvl_none => err_none
  end.

Section Sir.
  Context {N : Num} (K : idx_kind).
  Local Open Scope num_scope.
  Local Notation buf := (list N).
  Local Notation st := (buf * SIRError)%type.

  (** for (i = 0; i < nt; i++) h[i] = 0.0; with h = &H[base]:
      src/dreamline.cc 279-281, src/dreamcirc_f.cc 296-298,
      src/dreamrect_f.cc 299-301, src/dreamsphere.cc 291-293,
      src/dream_arr_rect.cc (attenuated) 255-257. *)
  Definition clear_h (base nt : Z) (h : buf) : res buf :=
    for_loop nt (fun i h => buf_upd h (base + i)%Z (fun _ => #0)) h.

  (** h[it] += ai, with h = &H[base] (e.g. src/dreamrect.cc 316). *)
  Definition emit_plain (base : Z) (it : Z) (r ai : N) (h : buf) : res buf :=
    buf_upd h (base + it)%Z (fun x => x + ai).

  (** ** Attenuation, src/attenuation.cc 71-140.

      [c2r] is the complex-to-real inverse FFT with 1/len normalisation
      (include/fft.h FFT::ifft), an external library call.  The spectrum is
      the list of its (re, im) pairs. *)
  Record att_plan := { att_len : Z; att_dt : N; att_alpha : N;
                       att_c2r : list (N * N) -> buf }.

  (** src/attenuation.cc 88-127: one bin, k >= 1.  Decimal constants are
      written as exact quotients. *)
  Definition att_bin (p : att_plan) (r : N) (it : Z) (k : Z) : N * N :=
    let alpha := att_alpha p / ((#8686 / #1000) * #10000) in
    let dt := att_dt p * (#1 / #1000000) in
    let Fs := #1 / dt in
    let dw := #2 * npi / #(att_len p) in
    let t := #it * dt in
    let r := r * (#1 / #1000) in
    let a1 := dt * (#95 / #100) / npi in
    let w_n := #k * dw in
    let w := w_n * Fs in
    let x1 := nexp ((- r) * alpha * w / (#2 * npi)) in
    let b := nlog (#1 / (a1 * w)) in
    let ph := (- w) * r * alpha / (npi * npi) * b - t * w in
    (x1 * ncos ph, x1 * nsin ph).

  (** src/attenuation.cc 100-127: xc[0] = 1; for k = 1 .. len/2:
      xc[k] = (re,im), xc[len-k] = (re,-im). *)
  Definition att_spectrum (p : att_plan) (r : N) (it : Z) (xc0 : list (N * N))
    : res (list (N * N)) :=
    do xc <- buf_upd xc0 0 (fun _ => (#1, #0));
    for_loop (att_len p / 2) (fun i xc =>
      let k := (i + 1)%Z in
      let '(re, im) := att_bin p r it k in
      do xc <- buf_upd xc k (fun _ => (re, im));
      buf_upd xc (att_len p - k)%Z (fun _ => (re, - im))) xc.

  (** src/attenuation.cc 71-140 (Attenuation::att with element = 0, the only
      way the SIR functions call it).  The work buffer xc_vec has length len
      and its previous contents are irrelevant: every bin is rewritten (this
      is proved, see C23_work_buffer). *)
  Definition emit_att (p : att_plan) (base : Z) (it : Z) (r ai : N) (h : buf) : res buf :=
    do xc <- att_spectrum p r it (repeat (#0, #0) (Z.to_nat (att_len p)));
    let x := att_c2r p xc in
    for_loop (att_len p) (fun i h =>
      do xi <- buf_get x i;
      buf_upd h (base + i)%Z (fun y => y + ai * xi)) h.

  (** Choice made by the thread functions (att == nullptr or not), e.g.
      src/dreamrect.cc 127-143. *)
  Definition emit (att : option att_plan) (base it : Z) (r ai : N) (h : buf) : res buf :=
    match att with
    | None => emit_plain base it r ai h
    | Some p => emit_att p base it r ai h
    end.

  (** ** The body of the scan loops

      All *_serial functions end their loop body with the same statements:
      compute the sample index, accumulate if 0 <= it < nt, else record the
      error and bail out on "stop".  src/dreamrect.cc 312-330,
      src/dreamline.cc 296-313, src/dreamcirc.cc 326-345,
      src/dreamcirc_f.cc 327-346, src/dreamrect_f.cc 322-341,
      src/dreamsphere.cc 319-338, src/dreamcylind.cc 326-344.

      [by_level]: the attenuated dreamrect_f tests the error level instead of
      the error code, src/dreamrect_f.cc 411-413. *)
  Record contrib := { c_r : N; c_ai : N; c_arg : N }.

  Definition bail (by_level : bool) (lvl : ErrorLevel) (err : SIRError) : bool :=
    if by_level then
      match lvl with lvl_stop | lvl_parallel_stop => true | _ => false end
    else SIRError_eqb err err_oob.

  Definition put (by_level : bool) (att : option att_plan) (lvl : ErrorLevel) (nt base : Z)
    (c : contrib) (s : st) : res (ctl st st) :=
    let '(h, err) := s in
    do it <- to_idx K (nrint (c_arg c));
    if (it <? nt)%Z && (0 <=? it)%Z then
      do h' <- emit att base it (c_r c) (c_ai c) h;
      Ok (Go (h', err))
    else
      let err' := dream_out_of_bounds_err lvl in
      if bail by_level lvl err' then Ok (Ret (h, err')) else Ok (Go (h, err')).

  (** x = x0; while (x <= xmax) { pt(x); x += dx; } *)
  Definition scan {S A} (fuel : nat) (x0 xmax dx : N) (pt : N -> S -> res (ctl S A)) (s : S)
    : res (ctl S A) :=
    do r <- while fuel (fun '(x, _) => x <=? xmax)
         (fun '(x, s) =>
            do c <- pt x s;
            match c with Go s' => Ok (Go (x + dx, s')) | Ret a => Ok (Ret a) end)
         (x0, s);
    match r with Go (_, s') => Ok (Go s') | Ret a => Ok (Ret a) end.

  (** What distinguishes the transducers: the loop bounds and the expressions
      for distance, amplitude and (unrounded) sample index. *)
  Record row := { row_x0 : N; row_xmax : N; row_dx : N }.
  Record scanner := {
    sc_clear : bool;                       (* zeroes its nt samples first *)
    sc_by_level : bool;                    (* see [bail] *)
    sc_outer : option row;                 (* outer loop; None: single row *)
    sc_row : N -> row;                     (* inner loop for a given outer variable *)
    sc_pt : N -> N -> contrib              (* outer variable, inner variable *)
  }.

  Definition run_loops (fuel : nat) (S : scanner) (pt : contrib -> st -> res (ctl st st)) (s : st)
    : res (ctl st st) :=
    let inner y s :=
      let w := sc_row S y in
      scan fuel (row_x0 w) (row_xmax w) (row_dx w) (fun x => pt (sc_pt S y x)) s in
    match sc_outer S with
    | None => inner #0 s
    | Some o => scan fuel (row_x0 o) (row_xmax o) (row_dx o) inner s
    end.

  Definition run_scanner (fuel : nat) (S : scanner) (att : option att_plan) (lvl : ErrorLevel)
    (nt base : Z) (h : buf) : res st :=
    do h <- (if sc_clear S then clear_h base nt h else Ok h);
    do r <- run_loops fuel S (put (sc_by_level S) att lvl nt base) (h, err_none);
    match r with Go s => Ok s | Ret s => Ok s end.

  (** Sampling and material parameters, common to all functions. *)
  Record samp := { dx : N; dy : N; dt : N; nt : Z; vel : N; cp : N }.

  (** r * 1000.0/cp: propagation time in microseconds. *)
  Definition tof (q : samp) (r : N) : N := r * #1000 / cp q.

  (** ai = weight * v * ds / (2*M_PI * r); ai /= dt; ai *= 1000.0;
      src/dreamrect.cc 306-309, src/dreamcirc.cc 319-321. *)
  Definition amp_w (q : samp) (weight ds r : N) : N :=
    weight * vel q * ds / (#2 * npi * r) / dt q * #1000.
  (** The same without weight: src/dreamline.cc 289-291, src/dreamcirc_f.cc
      323-325, src/dreamrect_f.cc 318-320, src/dreamsphere.cc 315-317. *)
  Definition amp (q : samp) (ds r : N) : N :=
    vel q * ds / (#2 * npi * r) / dt q * #1000.

  (** src/dreamrect.cc 274-335 and 337-400 (attenuated: identical but for the
      accumulation). *)
  Definition rect_scanner (q : samp) (a b : N) (delay weight xo yo zo : N) : scanner :=
    let xsmin := (- a) / #2 in let xsmax := a / #2 in
    let ysmin := (- b) / #2 in let ysmax := b / #2 in
    let ds := dx q * dy q in
    let rz := zo in
    {| sc_clear := false; sc_by_level := false;
       sc_outer := Some {| row_x0 := ysmin + dy q / #2; row_xmax := ysmax; row_dx := dy q |};
       sc_row := fun ys => {| row_x0 := xsmin + dx q / #2; row_xmax := xsmax; row_dx := dx q |};
       sc_pt := fun ys xs =>
         let ry := yo - ys in
         let rx := xo - xs in
         let r := nsqrt (rx*rx + ry*ry + rz*rz) in
         {| c_r := r; c_ai := amp_w q weight ds r; c_arg := (tof q r - delay) / dt q |} |}.

  (** src/dreamrect_f.cc 429-481 (focus_delay_rect) *)
  Definition focus_delay_rect (foc : FocusMet) (focal xs ys x_max y_max r_max c : N) : N :=
    match foc with
    | foc_x =>
      let rmax := nsqrt (x_max*x_max + focal*focal) in
      let diff := rmax - nsqrt (xs*xs + focal*focal) in diff * #1000 / c
    | foc_y =>
      let rmax := nsqrt (y_max*y_max + focal*focal) in
      let diff := rmax - nsqrt (ys*ys + focal*focal) in diff * #1000 / c
    | foc_xy =>
      let rmax := nsqrt (r_max*r_max + focal*focal) in
      let diff := rmax - nsqrt (xs*xs + ys*ys + focal*focal) in diff * #1000 / c
    | foc_x_y =>
      let rmax := nsqrt (r_max*r_max + focal*focal) in
      let delay_x := nsqrt (xs*xs + focal*focal) in
      let delay_y := nsqrt (ys*ys + focal*focal) in
      let diff := rmax - (delay_x + delay_y) in diff * #1000 / c
    | foc_none | foc_negx | foc_negy | foc_ud => #0
    end.

  (** src/dreamcirc_f.cc 437-489 (focus_delay_circ) *)
  Definition focus_delay_circ (foc : FocusMet) (focal xs ys ramax c : N) : N :=
    let rmax := nsqrt (ramax*ramax + focal*focal) in
    match foc with
    | foc_x => let diff := rmax - nsqrt (xs*xs + focal*focal) in diff * #1000 / c
    | foc_y => let diff := rmax - nsqrt (ys*ys + focal*focal) in diff * #1000 / c
    | foc_xy => let diff := rmax - nsqrt (xs*xs + ys*ys + focal*focal) in diff * #1000 / c
    | foc_x_y =>
      let delay_x := nsqrt (xs*xs + focal*focal) in
      let delay_y := nsqrt (ys*ys + focal*focal) in
      let diff := rmax - (delay_x + delay_y) in diff * #1000 / c
    | foc_none | foc_negx | foc_negy | foc_ud => #0
    end.

  (** src/dreamrect_f.cc 278-348 and 350-421 *)
  Definition rect_f_scanner (q : samp) (a b : N) (foc : FocusMet) (focal : N)
    (attenuated : bool) (delay xo yo zo : N) : scanner :=
    let xsmin := (- a) / #2 in let xsmax := a / #2 in
    let ysmin := (- b) / #2 in let ysmax := b / #2 in
    let ds := dx q * dy q in
    let c := nsqrt (a*a + b*b) in
    {| sc_clear := true; sc_by_level := attenuated;
       sc_outer := Some {| row_x0 := ysmin + dy q / #2; row_xmax := ysmax; row_dx := dy q |};
       sc_row := fun ys => {| row_x0 := xsmin + dx q / #2; row_xmax := xsmax; row_dx := dx q |};
       sc_pt := fun ys xs =>
         let ry := yo - ys in
         let rx := xo - xs in
         let r := nsqrt (rx*rx + ry*ry + zo*zo) in
         let foc_delay := focus_delay_rect foc focal xs ys a b c (cp q) in
         {| c_r := r; c_ai := amp q ds r;
            c_arg := (tof q r - delay + foc_delay) / dt q |} |}.

  (** src/dreamcirc.cc 286-352 and 354-421 *)
  Definition circ_scanner (q : samp) (R : N) (delay weight xo yo zo : N) : scanner :=
    let ds := dx q * dy q in
    let ysmin := - R in let ysmax := R in
    {| sc_clear := false; sc_by_level := false;
       sc_outer := Some {| row_x0 := ysmin + dy q / #2; row_xmax := ysmax; row_dx := dy q |};
       sc_row := fun ys =>
         let rxs := nsqrt (R*R - ys*ys) in
         {| row_x0 := (- rxs) + dx q / #2; row_xmax := rxs; row_dx := dx q |};
       sc_pt := fun ys xs =>
         let ry := yo - ys in
         let rx := xo - xs in
         let r := nsqrt (rx*rx + ry*ry + zo*zo) in
         {| c_r := r; c_ai := amp_w q weight ds r; c_arg := (tof q r - delay) / dt q |} |}.

  (** src/dreamcirc_f.cc 278-353 and 355-429 *)
  Definition circ_f_scanner (q : samp) (R : N) (foc : FocusMet) (focal : N)
    (delay xo yo zo : N) : scanner :=
    let ds := dx q * dy q in
    let ysmin := - R in let ysmax := R in
    {| sc_clear := true; sc_by_level := false;
       sc_outer := Some {| row_x0 := ysmin + dy q / #2; row_xmax := ysmax; row_dx := dy q |};
       sc_row := fun ys =>
         let rxs := nsqrt (R*R - ys*ys) in
         {| row_x0 := (- rxs) + dx q / #2; row_xmax := rxs; row_dx := dx q |};
       sc_pt := fun ys xs =>
         let ry := yo - ys in
         let rx := xo - xs in
         let r := nsqrt (rx*rx + ry*ry + zo*zo) in
         let foc_delay := focus_delay_circ foc focal xs ys R (cp q) in
         {| c_r := r; c_ai := amp q ds r;
            c_arg := (tof q r - delay + foc_delay) / dt q |} |}.

  (** src/dreamline.cc 262-318 and 320-379 *)
  Definition line_scanner (q : samp) (a : N) (delay xo yo zo : N) : scanner :=
    let xsmax := a / #2 in let xsmin := (- a) / #2 in
    let ds := dx q * dy q in
    {| sc_clear := true; sc_by_level := false;
       sc_outer := None;
       sc_row := fun _ => {| row_x0 := xsmin + dx q / #2; row_xmax := xsmax; row_dx := dx q |};
       sc_pt := fun _ xs =>
         let r := nsqrt ((xo-xs)*(xo-xs) + yo*yo + zo*zo) in
         {| c_r := r; c_ai := amp q ds r; c_arg := (tof q r - delay) / dt q |} |}.

  (** src/dreamsphere.cc 427-441 (sphere_f, concave) *)
  Definition sphere_f (xs ys Rcurv xo yo zo : N) : N :=
    let zs := Rcurv - nsqrt (Rcurv*Rcurv - xs*xs - ys*ys) in
    let rx := xo - xs in let ry := yo - ys in let rz := zo - zs in
    nsqrt (rx*rx + ry*ry + rz*rz).
  (** src/dreamsphere.cc 449-463 (sphere_d, convex) *)
  Definition sphere_d (xs ys Rcurv xo yo zo : N) : N :=
    let zs := Rcurv - nsqrt (Rcurv*Rcurv - xs*xs - ys*ys) in
    let rx := xo - xs in let ry := yo - ys in let rz := zo + zs in
    nsqrt (rx*rx + ry*ry + rz*rz).

  (** src/dreamsphere.cc 273-345 and 347-419 *)
  Definition sphere_scanner (q : samp) (R Rcurv : N) (delay xo yo zo : N) : scanner :=
    let ds := dx q * dy q in
    let ysmin := - R in let ysmax := R in
    {| sc_clear := true; sc_by_level := false;
       sc_outer := Some {| row_x0 := ysmin + dy q / #2; row_xmax := ysmax; row_dx := dy q |};
       sc_row := fun ys =>
         let rs := nsqrt (R*R - ys*ys) in
         {| row_x0 := (- rs) + dx q / #2; row_xmax := rs; row_dx := dx q |};
       sc_pt := fun ys xs =>
         let r := if #0 <=? Rcurv then sphere_f xs ys Rcurv xo yo zo
                  else sphere_d xs ys (- Rcurv) xo yo zo in
         {| c_r := r; c_ai := amp q ds r; c_arg := (tof q r - delay) / dt q |} |}.

  (** src/dreamcylind.cc 442-484 (cylind_f; du = 1.0, the disabled checks are
      comments in the source) *)
  Definition cylind_f (xs ys Rcurv xo yo zo : N) : N :=
    let zs := Rcurv - nsqrt (Rcurv*Rcurv - ys*ys) in
    let rx := xo - xs in let ry := yo - ys in let rz := zo - zs in
    nsqrt (rx*rx + ry*ry + rz*rz).
  (** src/dreamcylind.cc 492-517 (cylind_d; du = 1.0) *)
  Definition cylind_d (xs ys Rcurv xo yo zo : N) : N :=
    let zs := Rcurv - nsqrt (Rcurv*Rcurv - ys*ys) in
    let rx := xo - xs in let ry := yo - ys in let rz := zo + zs in
    nsqrt (rx*rx + ry*ry + rz*rz).

  (** src/dreamcylind.cc 275-353 and 355-434.  The outer loop variable is the
      angle phi; ys is recomputed from it at every step.  The test b > 2|Rcurv|
      (line 288) only prints a message and is not modelled. *)
  Definition cylind_scanner (q : samp) (a b Rcurv : N) (delay weight xo yo zo : N) : scanner :=
    let b := b / #2 in
    let z_Rcurv := nabs Rcurv - nsqrt (Rcurv*Rcurv - b*b) in
    let xsmin := (- a) / #2 in let xsmax := a / #2 in
    let phi := #2 * natan (b / (nabs Rcurv - z_Rcurv)) in
    let phi_min := (- phi) / #2 in let phi_max := phi / #2 in
    let dphi := nasin (dy q / nabs Rcurv) in
    let ds := nabs Rcurv * dx q * dphi in
    let du := #1 in
    {| sc_clear := false; sc_by_level := false;
       sc_outer := Some {| row_x0 := phi_min + dphi / #2; row_xmax := phi_max; row_dx := dphi |};
       sc_row := fun phi => {| row_x0 := xsmin + dx q / #2; row_xmax := xsmax; row_dx := dx q |};
       sc_pt := fun phi xs =>
         let ys := nabs Rcurv * nsin phi in
         let r := if #0 <=? Rcurv then cylind_f xs ys Rcurv xo yo zo
                  else cylind_d xs ys (nabs Rcurv) xo yo zo in
         {| c_r := r;
            c_ai := weight * vel q * ds * du / (#2 * npi * r) / dt q * #1000;
            c_arg := (tof q r - delay) / dt q |} |}.
End Sir.
Arguments att_plan : clear implicits.
Arguments contrib : clear implicits.
Arguments row : clear implicits.
Arguments scanner : clear implicits.
Arguments samp : clear implicits.
