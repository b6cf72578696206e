(** ModelFine.v - the threaded calls at the granularity of single memory
    accesses.

    ModelSmp executes one observation point as one atomic step.  Here a worker
    is a program that makes one access (one load or one store of one element)
    to the shared result array per step; the other workers and CTRL-C can
    intervene between any two accesses. *)
From Verif Require Import Base ModelSir ModelArr ModelSmp ModelDas ModelConv.

(** ** Programs that access the array h = &H[base] *)
Inductive prog (V A : Type) : Type :=
| Done (a : A)
| Fail (u : ub)                            (* undefined behaviour outside the shared array *)
| Spin                                     (* loop budget used up *)
| Read (i : Z) (k : V -> prog V A)         (* x = h[i] *)
| Write (i : Z) (v : V) (k : prog V A).    (* h[i] = v *)
Arguments Done {V A} a. Arguments Fail {V A} u. Arguments Spin {V A}.
Arguments Read {V A} i k. Arguments Write {V A} i v k.

Fixpoint pbind {V A B} (m : prog V A) (f : A -> prog V B) : prog V B :=
  match m with
  | Done a => f a
  | Fail u => Fail u
  | Spin => Spin
  | Read i k => Read i (fun x => pbind (k x) f)
  | Write i v k => Write i v (pbind k f)
  end.
Notation "'pdo' x <- m ; k" := (pbind m (fun x => k))
  (at level 200, x pattern, m at level 100, k at level 200).

(** A computation that does not touch the shared array. *)
Definition pure {V A} (r : res A) : prog V A :=
  match r with Ok a => Done a | UB u => Fail u | Diverge => Spin end.

(** Loops, as in Base. *)
Fixpoint pwhile {V S A} (fuel : nat) (cond : S -> bool) (body : S -> prog V (ctl S A)) (s : S)
  {struct fuel} : prog V (ctl S A) :=
  if cond s then
    match fuel with
    | O => Spin
    | Datatypes.S f =>
      pdo c <- body s;
      match c with Go s' => pwhile f cond body s' | Ret a => Done (Ret a) end
    end
  else Done (Go s).
Fixpoint pfor_from {V S} (i : Z) (n : nat) (body : Z -> S -> prog V S) (s : S) : prog V S :=
  match n with
  | O => Done s
  | Datatypes.S n' => pdo s' <- body i s; pfor_from (i + 1) n' body s'
  end.
Definition pfor {V S} (n : Z) (body : Z -> S -> prog V S) (s : S) : prog V S :=
  pfor_from 0 (Z.to_nat n) body s.
Fixpoint pfor_ctl_from {V S A} (i : Z) (n : nat) (body : Z -> S -> prog V (ctl S A)) (s : S)
  : prog V (ctl S A) :=
  match n with
  | O => Done (Go s)
  | Datatypes.S n' =>
    pdo c <- body i s;
    match c with Go s' => pfor_ctl_from (i + 1) n' body s' | Ret a => Done (Ret a) end
  end.
Definition pfor_ctl {V S A} (n : Z) (body : Z -> S -> prog V (ctl S A)) (s : S) : prog V (ctl S A) :=
  pfor_ctl_from 0 (Z.to_nat n) body s.

(** ** The machine

    The thread function, e.g. src/dreamrect.cc 79-161, now with its program
    counter inside the serial function ([FRun]). *)
Section Machine.
  Context {N : Num}.
  Local Notation buf := (list N).
  Inductive fpc :=
  | FHead                                  (* for (n = start; n < stop; n++) *)
  | FRun (p : prog N SIRError)             (* rest of the serial function *)
  | FFlag (err : SIRError) | FCheck | FDone.
  Record fthread := { f_pc : fpc; f_n : Z; f_stop : Z; f_err : SIRError }.
  Record fstate := { f_H : buf; f_running : bool; f_threads : list fthread }.

  (** [nt]: samples per column; [P n]: the program of observation point n. *)
  Definition fthread_step (nt : Z) (P : Z -> prog N SIRError) (H : buf) (running : bool) (t : fthread)
    : res (buf * bool * fthread) :=
    let go pc err := {| f_pc := pc; f_n := f_n t; f_stop := f_stop t; f_err := err |} in
    match f_pc t with
    | FHead =>
      if f_n t <? f_stop t then Ok (H, running, go (FRun (P (f_n t))) (f_err t))
      else Ok (H, running, go FDone (f_err t))
    | FRun (Read i k) =>
      do x <- buf_get H (f_n t * nt + i);
      Ok (H, running, go (FRun (k x)) (f_err t))
    | FRun (Write i v k) =>
      do H' <- buf_upd H (f_n t * nt + i) (fun _ => v);
      Ok (H', running, go (FRun k) (f_err t))
    | FRun (Done err) =>
      (* if (err != none) D->err = err; *)
      Ok (H, running, go (FFlag err) (if SIRError_eqb err err_none then f_err t else err))
    | FRun (Fail u) => UB u
    | FRun Spin => Diverge
    | FFlag err => Ok (H, (if SIRError_eqb err err_oob then false else running), go FCheck (f_err t))
    | FCheck =>
      if running then
        Ok (H, running, {| f_pc := FHead; f_n := f_n t + 1; f_stop := f_stop t; f_err := f_err t |})
      else Ok (H, running, go FDone (f_err t))
    | FDone => Ok (H, running, t)
    end.

  Definition fstep (nt : Z) (P : Z -> prog N SIRError) (s : fstate) (e : event) : res fstate :=
    match e with
    | CtrlC => Ok {| f_H := f_H s; f_running := false; f_threads := f_threads s |}
    | Run i =>
      match nth_error (f_threads s) i with
      | None => Ok s
      | Some t =>
        do r <- fthread_step nt P (f_H s) (f_running s) t;
        let '(H', run', t') := r in
        Ok {| f_H := H'; f_running := run'; f_threads := upd (f_threads s) i (fun _ => t') |}
      end
    end.
  Fixpoint fsteps (nt : Z) (P : Z -> prog N SIRError) (s : fstate) (sch : list event) : res fstate :=
    match sch with
    | [] => Ok s
    | e :: sch' => do s' <- fstep nt P s e; fsteps nt P s' sch'
    end.

  (** src/dreamrect.cc 181, 218-250 *)
  Definition finit_thread (No nthreads : Z) (t : nat) : fthread :=
    {| f_pc := FHead; f_n := part_start (Z.of_nat t) No nthreads;
       f_stop := part_stop (Z.of_nat t) No nthreads; f_err := err_none |}.
  Definition finit (No nthreads : Z) (H : buf) : fstate :=
    {| f_H := H; f_running := true;
       f_threads := map (finit_thread No nthreads) (seq 0 (Z.to_nat nthreads)) |}.
  Definition f_is_done (t : fthread) : bool := match f_pc t with FDone => true | _ => false end.
  Definition f_all_done (s : fstate) : bool := forallb f_is_done (f_threads s).
  (** The errors the workers have left, in the form the join loop of ModelSmp reads. *)
  Definition f_result (t : fthread) : thread :=
    {| t_pc := PDone; t_n := f_n t; t_stop := f_stop t; t_err := f_err t |}.
End Machine.

(** ** The serial functions as programs *)
Section Serial.
  Context {N : Num} (K : idx_kind).
  Local Open Scope num_scope.
  Local Notation buf := (list N).

  (** src/dreamline.cc 279-281 *)
  Definition p_clear (nt : Z) : prog N unit := pfor nt (fun i _ => Write i #0 (Done tt)) tt.
  (** h[i] += d: a load and a store. *)
  Definition p_add (i : Z) (d : N) : prog N unit := Read i (fun x => Write i (x + d) (Done tt)).
  (** src/attenuation.cc 71-140; the spectrum and its transform are in the worker's own buffers. *)
  Definition p_emit_att (p : att_plan N) (it : Z) (r ai : N) : prog N unit :=
    pdo xc <- pure (att_spectrum p r it (repeat (#0, #0) (Z.to_nat (att_len p))));
    let x := att_c2r p xc in
    pfor (att_len p) (fun i _ => pdo xi <- pure (buf_get x i); p_add i (ai * xi)) tt.
  Definition p_emit (att : option (att_plan N)) (it : Z) (r ai : N) : prog N unit :=
    match att with None => p_add it ai | Some p => p_emit_att p it r ai end.
  (** src/dreamrect.cc 312-330 *)
  Definition p_put (by_level : bool) (att : option (att_plan N)) (lvl : ErrorLevel) (nt : Z)
    (c : contrib N) (err : SIRError) : prog N (ctl SIRError SIRError) :=
    pdo it <- pure (to_idx K (nrint (c_arg c)));
    if (it <? nt)%Z && (0 <=? it)%Z then
      pdo _ <- p_emit att it (c_r c) (c_ai c);
      Done (Go err)
    else
      let err' := dream_out_of_bounds_err lvl in
      if bail by_level lvl err' then Done (Ret err') else Done (Go err').
  Definition p_scan {S A} (fuel : nat) (x0 xmax dx : N) (pt : N -> S -> prog N (ctl S A)) (s : S)
    : prog N (ctl S A) :=
    pdo r <- pwhile fuel (fun '(x, _) => x <=? xmax)
         (fun '(x, s) =>
            pdo c <- pt x s;
            match c with Go s' => Done (Go (x + dx, s')) | Ret a => Done (Ret a) end)
         (x0, s);
    match r with Go (_, s') => Done (Go s') | Ret a => Done (Ret a) end.
  Definition p_run_loops (fuel : nat) (S : scanner N)
    (pt : contrib N -> SIRError -> prog N (ctl SIRError SIRError)) (s : SIRError)
    : prog N (ctl SIRError SIRError) :=
    let inner y s :=
      let w := sc_row S y in
      p_scan fuel (row_x0 w) (row_xmax w) (row_dx w) (fun x => pt (sc_pt S y x)) s in
    match sc_outer S with
    | None => inner #0 s
    | Some o => p_scan fuel (row_x0 o) (row_xmax o) (row_dx o) inner s
    end.
  (** src/dreamrect.cc 274-335 and its siblings, cf. ModelSir.run_scanner *)
  Definition p_run_scanner (fuel : nat) (S : scanner N) (att : option (att_plan N)) (lvl : ErrorLevel)
    (nt : Z) : prog N SIRError :=
    pdo _ <- (if sc_clear S then p_clear nt else Done tt);
    pdo r <- p_run_loops fuel S (p_put (sc_by_level S) att lvl nt) err_none;
    match r with Go e => Done e | Ret e => Done e end.

  (** src/dream_arr_rect.cc 209-244, cf. ModelArr.arr_elems *)
  Fixpoint p_arr_elems (p : arr_par N) (c x_max y_max r_max : N) (xo yo zo delay : N)
    (elem : N -> N -> N -> N -> N -> prog N SIRError) (n : Z) (left : nat) (err : SIRError)
    : prog N SIRError :=
    match left with
    | O => Done err
    | S left' =>
      pdo d <- pure (elem_delays p c x_max y_max r_max n);
      let '(foc_delay, steer_delay, weight) := d in
      pdo gxn <- pure (gx p n); pdo gyn <- pure (gy p n); pdo gzn <- pure (gz p n);
      pdo e' <- elem (xo - gxn) (yo - gyn) (zo - gzn) (delay - foc_delay - steer_delay) weight;
      if SIRError_eqb e' err_oob then Done e'
      else p_arr_elems p c x_max y_max r_max xo yo zo delay elem (n + 1) left' e'
    end.
  (** src/dream_arr_rect.cc 190-244 and 246-305 *)
  Definition p_arr_serial (clear_first : bool) (nt : Z) (p : arr_par N) (c : N) (xo yo zo delay : N)
    (elem : N -> N -> N -> N -> N -> prog N SIRError) : prog N SIRError :=
    pdo _ <- (if clear_first then p_clear nt else Done tt);
    pdo m <- pure (max_dim_arr p);
    let '(x_max, y_max, r_max) := m in
    p_arr_elems p c x_max y_max r_max xo yo zo delay elem 0 (Z.to_nat (num_elements p)) err_none.

  (** src/dream_arr_annu.cc 455-480; buf[] is the worker's own. *)
  Definition p_superpos_annular (h_ring : buf) (nt : Z) (weight foc_delay : N) (n : Z) (dt : N)
    : prog N unit :=
    let b0 := repeat #0 (Z.to_nat (2 * nt)) in
    pdo d <- pure (to_idx K (nrint (foc_delay / dt)));
    let delay_idx := (d + 1)%Z in
    pdo b <- pure (for_loop nt (fun i b =>
      if (delay_idx <? nt)%Z then
        do x <- buf_get h_ring (i + n*nt)%Z;
        buf_upd b (i + delay_idx)%Z (fun _ => x)
      else Ok b) b0);
    pfor nt (fun i _ => pdo x <- pure (buf_get b i); p_add i (weight * x)) tt.
  (** src/dream_arr_annu.cc 182-356; h_disc, h_ring and ring_radii are the worker's own. *)
  Definition p_annu_serial (nt : Z) (p : annu_par N) (dt c : N)
    (disc : N -> Z -> buf -> res (buf * SIRError)) : prog N SIRError :=
    let num_radii := Z.of_nat (length (Gr p)) in
    let num_elements := ((num_radii + 1) / 2)%Z in
    pdo _ <- p_clear nt;
    pdo r <- pure (annu_discs (Gr p) nt disc 0 (length (Gr p))
              (repeat #0 (Z.to_nat (nt * num_radii)), err_none));
    match r with
    | Ret (_, err) => Done err
    | Go (h_disc, err) =>
      pdo ring <- pure (annular_disc_radii (Gr p));
      pdo ring_r_max <- pure (buf_get ring (num_elements - 1)%Z);
      pdo _ <- pfor num_elements (fun n h_ring =>
        pdo fo <- pure (if FocusMet_is_ud (an_foc_met p) then buf_get (an_focal p) n
                  else buf_get (an_focal p) 0);
        pdo rr <- pure (buf_get ring n);
        let foc_delay := focusing_annular (an_foc_met p) fo rr ring_r_max c in
        pdo weight <- pure (if an_do_apod p
                      then apodization_annular (an_apod_met p) n (an_apod p) rr ring_r_max (an_apod_par p)
                      else Ok #1);
        pdo h_ring <- pure (resp_annular h_disc h_ring nt n);
        pdo _ <- p_superpos_annular h_ring nt weight foc_delay n dt;
        Done h_ring) (repeat #0 (Z.to_nat (nt * num_elements)));
      Done err
    end.

  (** The *_serial functions, cf. ModelArr.serial *)
  Definition p_serial (fuel : nat) (T : transducer N) (q : samp N) (att : option (att_plan N))
    (lvl : ErrorLevel) (xo yo zo delay : N) : prog N SIRError :=
    match T with
    | TRect a b => p_run_scanner fuel (rect_scanner q a b delay #1 xo yo zo) att lvl (nt q)
    | TRectF a b foc fo =>
      p_run_scanner fuel (rect_f_scanner q a b foc fo (attenuated att) delay xo yo zo) att lvl (nt q)
    | TCirc R => p_run_scanner fuel (circ_scanner q R delay #1 xo yo zo) att lvl (nt q)
    | TCircF R foc fo => p_run_scanner fuel (circ_f_scanner q R foc fo delay xo yo zo) att lvl (nt q)
    | TLine a => p_run_scanner fuel (line_scanner q a delay xo yo zo) att lvl (nt q)
    | TSphere R Rcurv => p_run_scanner fuel (sphere_scanner q R Rcurv delay xo yo zo) att lvl (nt q)
    | TCylind a b Rcurv => p_run_scanner fuel (cylind_scanner q a b Rcurv delay #1 xo yo zo) att lvl (nt q)
    | TArrRect a b p =>
      p_arr_serial (attenuated att) (nt q) p (cp q) xo yo zo delay
        (fun x y z d w => p_run_scanner fuel (rect_scanner q a b d w x y z) att lvl (nt q))
    | TArrCirc R p =>
      p_arr_serial (attenuated att) (nt q) p (cp q) xo yo zo delay
        (fun x y z d w => p_run_scanner fuel (circ_scanner q R d w x y z) att lvl (nt q))
    | TArrCylind a b Rcurv p =>
      p_arr_serial false (nt q) p (cp q) xo yo zo delay
        (fun x y z d w => p_run_scanner fuel (cylind_scanner q a b Rcurv d w x y z) att lvl (nt q))
    | TArrAnnu p =>
      p_annu_serial (nt q) p (dt q) (cp q)
        (fun R n hd => run_scanner K fuel (circ_scanner q R delay #1 xo yo zo) att lvl (nt q) (n * nt q) hd)
    end.

  (** src/dreamrect.cc 103-143; Ro and delay are only read. *)
  Definition p_point (J : job N) (n : Z) : prog N SIRError :=
    pdo xo <- pure (buf_get (j_Ro J) n);
    pdo yo <- pure (buf_get (j_Ro J) (n + 1 * j_No J)%Z);
    pdo zo <- pure (buf_get (j_Ro J) (n + 2 * j_No J)%Z);
    pdo dlay <- pure (match j_delay_type J with
                      | delay_single => buf_get (j_delay J) 0
                      | delay_multiple => buf_get (j_delay J) n
                      end);
    p_serial (j_fuel J) (j_T J) (j_q J) (j_att J) (j_lvl J) xo yo zo dlay.

  (** A complete call, one memory access at a time. *)
  Definition fine_call (J : job N) (nthreads : Z) (sch : list event) (H : buf)
    : res (option (buf * SIRError * bool)) :=
    do s <- fsteps (nt (j_q J)) (p_point J) (finit (j_No J) nthreads H) sch;
    if f_all_done s
    then Ok (Some (f_H s, call_status (j_T J) nthreads (map f_result (f_threads s)), f_running s))
    else Ok None.
End Serial.

(** ** Delay-and-sum: Im[no] is a reference to the shared image, extra_src/das.cc
    125-189, 307-626 *)
Section Das.
  Context {N : Num} (K : idx_kind).
  Local Open Scope num_scope.
  Local Notation buf := (list N).

  (** im += Y[...] for an index inside the A-scan, extra_src/das.cc 337-353 *)
  Definition p_das_put (Y : buf) (len off : Z) (lvl : ErrorLevel) (arg : N) (err : SIRError)
    : prog N (ctl SIRError SIRError) :=
    pdo k <- pure (to_idx K (ntrunc arg));
    if (k <? len)%Z && (0 <=? k)%Z then
      pdo y <- pure (buf_get Y (off + k)%Z);
      pdo _ <- p_add 0 y;
      Done (Go err)
    else
      let err' := dream_out_of_bounds_err lvl in
      if SIRError_eqb err' err_oob then Done (Ret err') else Done (Go err').
  Definition p_finish (c : ctl SIRError SIRError) : prog N SIRError :=
    match c with Go e => Done e | Ret e => Done e end.

  (** extra_src/das.cc 307-357 *)
  Definition p_das_saft (Y : buf) (len : Z) (G : buf) (num : Z) (xo yo zo dt delay cp : N)
    (lvl : ErrorLevel) : prog N SIRError :=
    Write 0 #0
    (pdo c <- pfor_ctl num (fun n_tr err =>
      pdo g <- pure (elem_rel G num n_tr xo yo zo);
      let '(gx, gy, gz) := g in
      let t_tr := travel cp gx gy gz in
      let t_tr := t_tr + delay_ms delay in
      let t_dp := #2 * t_tr in
      p_das_put Y len (n_tr * len)%Z lvl (t_dp * Fs_khz dt) err) err_none;
    p_finish c).
  (** extra_src/das.cc 366-427 *)
  Definition p_das_tfm (Y : buf) (len : Z) (Gt : buf) (num_t : Z) (Gr : buf) (num_r : Z)
    (xo yo zo dt delay cp : N) (lvl : ErrorLevel) : prog N SIRError :=
    Write 0 #0
    (pdo c <- pfor_ctl num_t (fun n_t err =>
      pdo g <- pure (elem_rel Gt num_t n_t xo yo zo);
      let '(gx, gy, gz) := g in
      let t_t := travel cp gx gy gz in
      let t_t := t_t + delay_ms delay in
      pfor_ctl num_r (fun n_r err =>
        pdo g <- pure (elem_rel Gr num_r n_r xo yo zo);
        let '(gx, gy, gz) := g in
        let t_r := travel cp gx gy gz in
        let t_dp := t_t + t_r in
        p_das_put Y len ((n_t * num_r + n_r) * len)%Z lvl (t_dp * Fs_khz dt) err) err) err_none;
    p_finish c).
  (** extra_src/das.cc 438-529 *)
  Definition p_das_rca_coltx (Y : buf) (len : Z) (G_col : buf) (num_cols : Z) (G_row : buf)
    (num_rows : Z) (xo yo zo dt delay cp : N) (lvl : ErrorLevel) : prog N SIRError :=
    Write 0 #0
    (pdo e <- pure (rca_edges G_col num_cols G_row num_rows);
    let '(y_min, y_max, x_min, x_max) := e in
    pdo c <- pfor_ctl num_cols (fun n_c err =>
      pdo t_c <- pure (col_travel G_col num_cols n_c y_min y_max xo yo zo cp);
      let t_c := t_c + delay_ms delay in
      pfor_ctl num_rows (fun n_r err =>
        pdo t_r <- pure (row_travel G_row num_rows n_r x_min x_max xo yo zo cp);
        let t_dp := t_c + t_r in
        p_das_put Y len ((n_c * num_rows + n_r) * len)%Z lvl (t_dp * Fs_khz dt) err) err) err_none;
    p_finish c).
  (** extra_src/das.cc 534-626 *)
  Definition p_das_rca_rowtx (Y : buf) (len : Z) (G_col : buf) (num_cols : Z) (G_row : buf)
    (num_rows : Z) (xo yo zo dt delay cp : N) (lvl : ErrorLevel) : prog N SIRError :=
    Write 0 #0
    (pdo e <- pure (rca_edges G_col num_cols G_row num_rows);
    let '(y_min, y_max, x_min, x_max) := e in
    pdo c <- pfor_ctl num_rows (fun n_r err =>
      pdo t_r <- pure (row_travel G_row num_rows n_r x_min x_max xo yo zo cp);
      pfor_ctl num_cols (fun n_c err =>
        pdo t_c <- pure (col_travel G_col num_cols n_c y_min y_max xo yo zo cp);
        let t_c := t_c + delay_ms delay in
        let t_dp := t_c + t_r in
        p_das_put Y len ((n_r * num_cols + n_c) * len)%Z lvl (t_dp * Fs_khz dt) err) err) err_none;
    p_finish c).

  (** extra_src/das.cc 125-172 *)
  Definition p_das_point (J : das_job N) (no : Z) : prog N SIRError :=
    pdo xo <- pure (buf_get (d_Ro J) no);
    pdo yo <- pure (buf_get (d_Ro J) (no + 1 * d_No J)%Z);
    pdo zo <- pure (buf_get (d_Ro J) (no + 2 * d_No J)%Z);
    pdo dlay <- pure (match d_delay_type J with
                      | delay_single => buf_get (d_delay J) 0%Z
                      | delay_multiple => buf_get (d_delay J) no
                      end);
    match das_method J with
    | das_saft => p_das_saft (d_Y J) (d_len J) (d_Gt J) (d_num_t J)
                    xo yo zo (d_dt J) dlay (d_cp J) (d_lvl J)
    | das_tfm => p_das_tfm (d_Y J) (d_len J) (d_Gt J) (d_num_t J) (d_Gr J) (d_num_r J)
                    xo yo zo (d_dt J) dlay (d_cp J) (d_lvl J)
    | das_rca_coltx => p_das_rca_coltx (d_Y J) (d_len J) (d_Gt J) (d_num_t J) (d_Gr J) (d_num_r J)
                    xo yo zo (d_dt J) dlay (d_cp J) (d_lvl J)
    | das_rca_rowtx => p_das_rca_rowtx (d_Y J) (d_len J) (d_Gt J) (d_num_t J) (d_Gr J) (d_num_r J)
                    xo yo zo (d_dt J) dlay (d_cp J) (d_lvl J)
    end.
  Definition fine_das_call (J : das_job N) (nthreads : Z) (sch : list event) (Im : buf)
    : res (option (buf * SIRError * bool)) :=
    do s <- fsteps 1 (p_das_point J) (finit (d_No J) nthreads Im) sch;
    if f_all_done s
    then Ok (Some (f_H s, (if (1 <? nthreads)%Z then join_any (map f_result (f_threads s)) else err_none),
                   f_running s))
    else Ok None.
End Das.

(** ** Convolution: the workers write columns of Y (Y is not an input, see
    C57 for that case) *)
Section Conv.
  Context {N : Num}.
  Local Open Scope num_scope.
  Local Notation buf := (list N).

  (** extra_src/conv.cc 33-78 *)
  Definition p_conv (x : buf) (xo nx : Z) (y : buf) (yo ny : Z) (mode : ConvMode) : prog N unit :=
    pdo _ <- (match mode with
              | cm_equ => pfor (nx + ny - 1) (fun i _ => Write i #0 (Done tt)) tt
              | _ => Done tt
              end);
    pfor nx (fun i _ =>
      pfor ny (fun j _ =>
        pdo xi <- pure (buf_get x (xo + i)%Z);
        pdo yj <- pure (buf_get y (yo + j)%Z);
        Read (i + j)%Z (fun v =>
        Write (i + j)%Z (match mode with cm_neg => v - xi * yj | _ => v + xi * yj end) (Done tt))) tt) tt.
  (** extra_src/oct_conv_p.cc 78-100 *)
  Definition p_conv_point (M : mats N) (mode : ConvMode) (n : Z) : prog N SIRError :=
    let AM := m_AM M in let BM := m_BM M in
    pdo _ <- (if (1 <? m_BN M)%Z
              then p_conv (m_A M) (n * AM) AM (m_B M) (n * BM) BM mode
              else p_conv (m_A M) (n * AM) AM (m_B M) 0 BM mode);
    Done err_none.

  (** extra_src/fftconv.cc 84-112 *)
  Definition p_store (mode : ConvMode) (len : Z) (c : buf) : prog N unit :=
    pfor len (fun n _ =>
      pdo cn <- pure (buf_get c n);
      match mode with
      | cm_sum => p_add n cn
      | cm_neg => Read n (fun v => Write n (v - cn) (Done tt))
      | cm_equ => Write n cn (Done tt)
      end) tt.
  (** extra_src/fftconv.cc 32-112: the result c is computed in the worker's
      own arrays, then stored. *)
  Definition p_fftconv (p : fft_plan N) (x : buf) (xo nx : Z) (y : buf) (yo ny : Z) (mode : ConvMode)
    (s : scratch N) : prog N unit :=
    let fft_len := (nx + ny - 1)%Z in
    pdo a <- pure (copy_in x xo nx (s_a s));
    pdo a <- pure (zero_pad nx fft_len a);
    pdo b <- pure (copy_in y yo ny (s_b s));
    pdo b <- pure (zero_pad ny fft_len b);
    pdo af <- pure (fft p a (s_af s));
    pdo bf <- pure (fft p b (s_bf s));
    pdo cf <- pure (for_loop fft_len (fun n cf =>
               do u <- buf_get af n; do v <- buf_get bf n; buf_upd cf n (fun _ => cmul u v)) (s_cf s));
    pdo r <- pure (ifft p cf (s_c s));
    let '(cf, c) := r in
    p_store mode fft_len c.
  (** extra_src/fftconv_p.cc 77-146 *)
  Definition p_fftconv_point (p : fft_plan N) (M : mats N) (mode : ConvMode) (scr : Z -> scratch N) (n : Z)
    : prog N SIRError :=
    let AM := m_AM M in let BM := m_BM M in
    pdo _ <- (if (1 <? m_BN M)%Z
              then p_fftconv p (m_A M) (n * AM) AM (m_B M) (n * BM) BM mode (scr n)
              else p_fftconv p (m_A M) (n * AM) AM (m_B M) 0 BM mode (scr n));
    Done err_none.

  (** A call with No columns of len samples. *)
  Definition fine_cols_call (len : Z) (P : Z -> prog N SIRError) (No nthreads : Z) (sch : list event) (Y : buf)
    : res (option (buf * bool)) :=
    do s <- fsteps len P (finit No nthreads Y) sch;
    if f_all_done s then Ok (Some (f_H s, f_running s)) else Ok None.
End Conv.
