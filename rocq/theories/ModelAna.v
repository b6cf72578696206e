(** ModelAna.v - the analytic responses: circ_sir, scirc_sir, rect_sir
    (extra_src/), their thread functions, and the OpenCL rect_sir.

    The three serial functions return no error code. *)
From Verif Require Import Base ModelSir ModelArr ModelSmp.

Section Ana.
  Context {N : Num}.
  Local Open Scope num_scope.
  Local Notation buf := (list N).
  Local Notation st := (buf * SIRError)%type.

  (** for (it=0; it<nt; it++) h[it] = f(it, h[it]), with h = &H[base]. *)
  Definition fill (base nt : Z) (f : Z -> N -> N) (H : buf) : res buf :=
    for_loop nt (fun it H => buf_upd H (base + it)%Z (f it)) H.

  (** t = (((double) it) * dt + delay)/1.0e6;
      extra_src/circ_sir.cc 69, rect_sir.cc 406, scirc_sir.cc 81. *)
  Definition t_at (dt delay : N) (it : Z) : N := (#it * dt + delay) / #1000000.

  (** ** circ_sir, extra_src/circ_sir.cc *)

  (** (cp*t*cp*t - zo*zo + r_cyl*r_cyl - r*r) / (2.0*r_cyl*sqrt(cp*t*cp*t-zo*zo)),
      circ_sir.cc 80 and 93, scirc_sir.cc 287-288. *)
  Definition circ_arg (zo r r_cyl cp t : N) : N :=
    (cp*t*cp*t - zo*zo + r_cyl*r_cyl - r*r) / (#2 * r_cyl * nsqrt (cp*t*cp*t - zo*zo)).

  (** The value stored in h[it], circ_sir.cc 71-99.  If every comparison fails
      (NaN) h[it] keeps the value [h0] it had before. *)
  Definition circ_sir_at (zo r r_cyl Rprim R v cp t h0 : N) : N :=
    if r_cyl <? r then
      if cp*t <? zo then #0
      else if (zo <=? cp*t) && (cp*t <? Rprim) then v * cp
      else if (Rprim <=? cp*t) && (cp*t <? R) then v * cp / npi * nacos (circ_arg zo r r_cyl cp t)
      else if R <=? cp*t then #0
      else h0
    else
      if cp*t <? Rprim then #0
      else if (Rprim <=? cp*t) && (cp*t <? R) then v * cp / npi * nacos (circ_arg zo r r_cyl cp t)
      else if R <=? cp*t then #0
      else h0.

  (** circ_sir.cc 38-103. *)
  Definition circ_sir (xo_i yo_i zo_i r_i dt : N) (nt : Z) (delay v cp : N) (base : Z) (H : buf) : res buf :=
    let xo := xo_i / #1000 in let yo := yo_i / #1000 in let zo := zo_i / #1000 in let r := r_i / #1000 in
    do H <- clear_h base nt H;
    let r_cyl := nsqrt (xo*xo + yo*yo) in
    let Rprim := nsqrt (zo*zo + (r - r_cyl)*(r - r_cyl)) in
    let R := nsqrt (zo*zo + (r + r_cyl)*(r + r_cyl)) in
    fill base nt (fun it => circ_sir_at zo r r_cyl Rprim R v cp (t_at dt delay it)) H.

  (** ** scirc_sir, extra_src/scirc_sir.cc *)

  (** One branch of acos_acos, scirc_sir.cc 250-258: a NaN gives the initial
      0.0. *)
  Definition acos_clamp (c : N) : N :=
    if (- #1 <=? c) && (c <=? #1) then nacos c
    else if c <? - #1 then npi
    else #0.
  (** acos_acos, scirc_sir.cc 246-271. *)
  Definition acos_acos (c1 c2 : N) : N := acos_clamp c1 + acos_clamp c2.

  (** trapets_int, scirc_sir.cc 277-296. *)
  Definition trapets_int (t1 t2 zo r r_cyl cp : N) (int_len : Z) : N :=
    let dt := (t2 - t1) / #int_len in
    snd (Nat.iter (Z.to_nat int_len)
      (fun '(t, y) =>
        let c1 := circ_arg zo r r_cyl cp t in
        let c2 := circ_arg zo r r_cyl cp (t + dt) in
        (t + dt, y + acos_acos c1 c2 / #2 * dt))
      (t1, #0)).

  (** The value of h[it] before the division by dt, scirc_sir.cc 89-232; [h0] is
      the value h[it] has before. *)
  Definition scirc_sir_at (zo r r_cyl Rprim R v cp : N) (int_len : Z) (t1 t2 h0 : N) : N :=
    let trap a b := trapets_int a b zo r r_cyl cp int_len in
    let add h a b := if Rprim <? R then h + v * cp / npi * trap a b else h in
    if r_cyl <? r then
      if (cp*t1 <? zo) && (cp*t2 <? zo) then #0
      else if (cp*t1 <? zo) && (zo <=? cp*t2) && (cp*t2 <? Rprim) then v * cp * (t2 - zo/cp)
      else if (cp*t1 <? zo) && (Rprim <=? cp*t2) && (cp*t2 <? R) then
        add (#0 + v * cp * (Rprim - zo) / cp) (Rprim/cp) t2
      else if (cp*t1 <? zo) && (R <=? cp*t2) then
        add (v * cp * (Rprim - zo) / cp) (Rprim/cp) (R/cp)
      else if (zo <=? cp*t1) && (cp*t2 <? Rprim) then v * cp * (t2 - t1)
      else if (zo <=? cp*t1) && (cp*t1 <? Rprim) && (Rprim <=? cp*t2) && (cp*t2 <? R) then
        add (v * cp * (Rprim/cp - t1)) (Rprim/cp) t2
      else if (zo <=? cp*t1) && (cp*t1 <? Rprim) && (R <=? cp*t2) then
        add (v * cp * (Rprim/cp - t1)) (Rprim/cp) (R/cp)
      else if (Rprim <=? cp*t1) && (cp*t2 <? R) then add h0 t1 t2
      else if (Rprim <=? cp*t1) && (cp*t1 <? R) && (R <=? cp*t2) then add h0 t1 (R/cp)
      else if R <? cp*t1 then #0
      else h0
    else
      if cp*t2 <? Rprim then #0
      else if (cp*t1 <? Rprim) && (Rprim <=? cp*t2) && (cp*t2 <? R) then add h0 (Rprim/cp) t2
      else if (cp*t1 <? Rprim) && (R <=? cp*t2) then add h0 (Rprim/cp) (R/cp)
      else if (Rprim <=? cp*t1) && (cp*t2 <? R) then add h0 t1 t2
      else if (Rprim <=? cp*t1) && (cp*t1 <? R) && (R <=? cp*t2) then add h0 t1 (R/cp)
      else if R <=? cp*t1 then #0
      else h0.

  (** The sampling interval, scirc_sir.cc 80-87. *)
  Definition scirc_t1 (dt delay : N) (it : Z) : N :=
    let t1 := t_at dt delay it - dt / #1000000 / #2 in
    if t1 <? #0 then #0 else t1.
  Definition scirc_t2 (dt delay : N) (it : Z) : N :=
    t_at dt delay it + dt / #1000000 - dt / #1000000 / #2.

  (** scirc_sir.cc 48-239. *)
  Definition scirc_sir (xo_i yo_i zo_i r_i dt : N) (nt : Z) (delay v cp : N) (int_len : Z)
    (base : Z) (H : buf) : res buf :=
    let xo := xo_i / #1000 in let yo := yo_i / #1000 in let zo := zo_i / #1000 in let r := r_i / #1000 in
    do H <- clear_h base nt H;
    let r_cyl := nsqrt (xo*xo + yo*yo) in
    let Rprim := nsqrt (zo*zo + (r - r_cyl)*(r - r_cyl)) in
    let R := nsqrt (zo*zo + (r + r_cyl)*(r + r_cyl)) in
    fill base nt (fun it h0 =>
      scirc_sir_at zo r r_cyl Rprim R v cp int_len (scirc_t1 dt delay it) (scirc_t2 dt delay it) h0
      / (dt / #1000000)) H.

  (** ** rect_sir, extra_src/rect_sir.cc *)

  (** g_k, s_k, l_k of the sub-rectangle k; all four are kept from one k to
      the next if no condition holds.  rect_sir.cc 269-395. *)
  Definition sub_rect (xo yo a b : N) (k : Z) (p : N * N * N) : N * N * N :=
    let in_a := xo <=? a / #2 in let out_a := a / #2 <? xo in
    let in_b := yo <=? b / #2 in let out_b := b / #2 <? yo in
    let p :=                              (* inside the aperture, 269-297 *)
      if in_a && in_b then
        match k with
        | 1%Z => (#1, nabs (a/#2 - xo), nabs (b/#2 - yo))
        | 2%Z => (#1, nabs (xo + a/#2), nabs (b/#2 - yo))
        | 3%Z => (#1, nabs (xo + a/#2), nabs (yo + b/#2))
        | 4%Z => (#1, nabs (a/#2 - xo), nabs (b/#2 - yo))
        | _ => let '(g, s, l) := p in (#1, s, l)
        end
      else p in
    let p :=                              (* inside a/2 but outside b/2, 299-330 *)
      if in_a && out_b then
        match k with
        | 1%Z => (- #1, nabs (a/#2 - xo), nabs (yo - b/#2))
        | 2%Z => (- #1, nabs (a/#2 + xo), nabs (yo - b/#2))
        | 3%Z => (#1, nabs (a/#2 + xo), nabs (b/#2 + yo))
        | 4%Z => (#1, nabs (a/#2 - xo), nabs (b/#2 + yo))
        | _ => p
        end
      else p in
    let p :=                              (* inside b/2 but outside a/2, 332-363 *)
      if out_a && in_b then
        match k with
        | 1%Z => (- #1, nabs (xo - a/#2), nabs (b/#2 - yo))
        | 2%Z => (#1, nabs (a/#2 + xo), nabs (b/#2 - yo))
        | 3%Z => (#1, nabs (a/#2 + xo), nabs (b/#2 + yo))
        | 4%Z => (- #1, nabs (xo - a/#2), nabs (b/#2 + yo))
        | _ => p
        end
      else p in
                                          (* outside both, 365-395 *)
    if out_a && out_b then
      match k with
      | 1%Z => (#1, nabs (xo - a/#2), nabs (yo - b/#2))
      | 2%Z => (- #1, nabs (a/#2 + xo), nabs (yo - b/#2))
      | 3%Z => (#1, nabs (a/#2 + xo), nabs (b/#2 + yo))
      | 4%Z => (- #1, nabs (xo - a/#2), nabs (yo + b/#2))
      | _ => p
      end
    else p.

  (** a_k at time t, rect_sir.cc 397-416. *)
  Definition corner (zo s_k l_k cp t : N) : N :=
    let t_z := zo / cp in
    let tau_1 := t_z in
    let tau_2 := nsqrt (zo*zo + s_k*s_k) / cp in
    let tau_3 := nsqrt (zo*zo + l_k*l_k) / cp in
    let tau_4 := nsqrt (zo*zo + l_k*l_k + s_k*s_k) / cp in
    let a_k := #0 in
    let a_k := if (tau_1 <=? t) && (t <=? tau_4) then a_k + cp / #4 else a_k in
    let a_k := if (tau_2 <=? t) && (t <=? tau_4)
               then a_k - cp / (#2 * npi) * nacos (s_k / (cp * nsqrt (t*t - t_z*t_z))) else a_k in
    if (tau_3 <=? t) && (t <=? tau_4)
    then a_k - cp / (#2 * npi) * nacos (l_k / (cp * nsqrt (t*t - t_z*t_z))) else a_k.

  (** RectSir::rect_sir_serial, rect_sir.cc 239-424.  The normal velocity v is
      a parameter that is not used. *)
  Definition rect_sir (xo_i yo_i zo_i a_i b_i dt : N) (nt : Z) (delay v cp : N)
    (base : Z) (H : buf) : res buf :=
    let xo := nabs xo_i / #1000 in let yo := nabs yo_i / #1000 in let zo := zo_i / #1000 in
    let a := a_i / #1000 in let b := b_i / #1000 in
    do H <- clear_h base nt H;
    do r <- for_from 1 4 (fun k '(p, H) =>
      let p := sub_rect xo yo a b k p in
      let '(g_k, s_k, l_k) := p in
      do H <- fill base nt (fun it x => x + g_k * corner zo s_k l_k cp (t_at dt delay it)) H;
      Ok (p, H)) ((#0, #0, #0), H);
    Ok (snd r).

  (** ** The threaded calls: extra_src/oct_circ_sir.cc 77-138,
      oct_scirc_sir.cc 75-136, rect_sir.cc 71-131. *)
  Inductive analytic :=
  | ACirc (r : N)
  | ASCirc (r : N) (int_len : Z)
  | ARect (a b : N).

  Record ajob := {
    a_T : analytic; a_dt : N; a_nt : Z; a_v : N; a_cp : N;
    a_No : Z; a_Ro : buf; a_delay_type : DelayType; a_delay : buf
  }.

  Definition ana_serial (T : analytic) (dt : N) (nt : Z) (v cp xo yo zo delay : N) (base : Z) (H : buf) : res buf :=
    match T with
    | ACirc r => circ_sir xo yo zo r dt nt delay v cp base H
    | ASCirc r n => scirc_sir xo yo zo r dt nt delay v cp n base H
    | ARect a b => rect_sir xo yo zo a b dt nt delay v cp base H
    end.

  (** One observation point; there is no error code, so the common thread
      machine (ModelSmp.thread_step) runs with err_none. *)
  Definition ana_point (J : ajob) (n : Z) (H : buf) : res st :=
    do xo <- buf_get (a_Ro J) n;
    do yo <- buf_get (a_Ro J) (n + 1 * a_No J)%Z;
    do zo <- buf_get (a_Ro J) (n + 2 * a_No J)%Z;
    do dlay <- (match a_delay_type J with
                | delay_single => buf_get (a_delay J) 0
                | delay_multiple => buf_get (a_delay J) n
                end);
    do H <- ana_serial (a_T J) (a_dt J) (a_nt J) (a_v J) (a_cp J) xo yo zo dlay (n * a_nt J) H;
    Ok (H, err_none).

  (** The call: extra_src/oct_circ_sir.cc 358-430, oct_scirc_sir.cc 375-447,
      rect_sir.cc 139-227.  The result is the matrix and whether the flag is
      still up. *)
  Definition ana_call (J : ajob) (nthreads : Z) (sch : list event) (H : buf) : res (option (buf * bool)) :=
    do s <- gsteps (ana_point J) (init (a_No J) nthreads H) sch;
    if all_done s then Ok (Some (g_H s, g_running s)) else Ok None.

  (** Worker count: circ_sir and rect_sir use [num_threads]
      (oct_circ_sir.cc 311-328, rect_sir.cc 158-175); scirc_sir does not look at
      DREAM_NUM_THREADS (oct_scirc_sir.cc 334-343). *)
  Definition ana_threads (T : analytic) (hw : Z) (env : option Z) (No : Z) : Z :=
    match T with
    | ASCirc _ _ => num_threads hw None No
    | _ => num_threads hw env No
    end.

  (** ** OpenCL rect_sir, opencl/rect_sir.cl 1-199: the same sub-rectangles; a
      contribution is only added if it is positive; one delay.  native_sqrt is
      taken to be sqrt.  (cp_2pi = cp/(2 pi) is computed once, which is the
      same value.) *)
  Definition rect_sir_cl (xo_i yo_i zo_i a_i b_i dt : N) (nt : Z) (delay v cp : N)
    (base : Z) (H : buf) : res buf :=
    do H <- clear_h base nt H;
    let xo := nabs xo_i / #1000 in let yo := nabs yo_i / #1000 in let zo := zo_i / #1000 in
    let a := a_i / #1000 in let b := b_i / #1000 in
    do r <- for_from 1 4 (fun k '(p, H) =>
      let p := sub_rect xo yo a b k p in
      let '(g_k, s_k, l_k) := p in
      do H <- fill base nt (fun it x =>
        let a_k := corner zo s_k l_k cp (t_at dt delay it) in
        if #0 <? a_k then x + g_k * a_k else x) H;
      Ok (p, H)) ((#0, #0, #0), H);
    Ok (snd r).

  (** The work items in the order of the list, opencl/rect_sir.cl 12-20. *)
  Definition rs_item (J : ajob) (no : Z) (H : buf) : res buf :=
    do delay <- buf_get (a_delay J) 0;
    do xo <- buf_get (a_Ro J) no;
    do yo <- buf_get (a_Ro J) (no + a_No J * 1)%Z;
    do zo <- buf_get (a_Ro J) (no + a_No J * 2)%Z;
    match a_T J with
    | ARect a b => rect_sir_cl xo yo zo a b (a_dt J) (a_nt J) delay (a_v J) (a_cp J) (0 + a_nt J * no)%Z H
    | _ => Ok H
    end.
  Fixpoint rs_items (J : ajob) (items : list Z) (H : buf) : res buf :=
    match items with
    | [] => Ok H
    | no :: items' => do H' <- rs_item J no H; rs_items J items' H'
    end.
  (** opencl/cl_rect_sir.cc 38-225; as [ModelGpu.cl_sir]. *)
  Definition rs_gpu (J : ajob) (items : list Z) (junk : buf) : res buf :=
    if (a_No J mod 64 =? 0)%Z then rs_items J items junk else Ok junk.
End Ana.
Arguments analytic : clear implicits.
Arguments ajob : clear implicits.
