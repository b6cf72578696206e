(** ModelSmp.v - the multi-threaded drivers: work split, worker count, thread
    function as a small-step machine, scheduler, join. *)
From Verif Require Import Base ModelSir ModelArr.

(** ** Worker count, src/dreamrect.cc 183-203 (same text in every driver).

    [hw] = std::thread::hardware_concurrency() (0 if unknown), [env] = the
    value of DREAM_NUM_THREADS after std::stoul and conversion to
    dream_idx_type (None: unset; a non-numeric value throws and is not
    modelled). *)
Definition num_threads (hw : Z) (env : option Z) (No : Z) : Z :=
  let nthreads := match env with
                  | Some e => if e <? hw then e else hw
                  | None => hw
                  end in
  let nthreads := if No <? nthreads then No else nthreads in
  if nthreads <? 1 then 1 else nthreads.

(** ** Work split, src/dreamrect.cc 220-221. All operands are non-negative, so
    C++'s truncating division is Z division. *)
Definition part_start (t No nthreads : Z) : Z := t * No / nthreads.
Definition part_stop (t No nthreads : Z) : Z := (t + 1) * No / nthreads.

Section Smp.
  Context {N : Num} (K : idx_kind).
  Local Notation buf := (list N).
  Local Notation st := (buf * SIRError)%type.

  (** One iteration of the thread function's loop: the arguments of point n
      (Ro is No x 3 column major) and the call of the serial function on
      &h[n*nt]; src/dreamrect.cc 103-143. *)
  Record job := {
    j_fuel : nat; j_T : transducer N; j_q : samp N; j_att : option (att_plan N);
    j_lvl : ErrorLevel; j_No : Z; j_Ro : buf; j_delay_type : DelayType; j_delay : buf
  }.
  Definition point (J : job) (n : Z) (H : buf) : res st :=
    do xo <- buf_get (j_Ro J) n;
    do yo <- buf_get (j_Ro J) (n + 1 * j_No J);
    do zo <- buf_get (j_Ro J) (n + 2 * j_No J);
    do dlay <- (match j_delay_type J with
                | delay_single => buf_get (j_delay J) 0
                | delay_multiple => buf_get (j_delay J) n
                end);
    serial K (j_fuel J) (j_T J) (j_q J) (j_att J) (j_lvl J) xo yo zo dlay (n * nt (j_q J)) H.

  (** ** The thread function as a state machine, src/dreamrect.cc 79-161.

      One observation point is one atomic step: the serial functions read and
      write no shared location but their own column (proved, see C03), so
      finer interleavings commute to this one. *)
  Inductive pc := PHead | PFlag (err : SIRError) | PCheck | PDone.
  Record thread := { t_pc : pc; t_n : Z; t_stop : Z; t_err : SIRError }.
  Record gstate := { g_H : buf; g_running : bool; g_threads : list thread }.

  Definition thread_step (pt : Z -> buf -> res st) (H : buf) (running : bool) (t : thread)
    : res (buf * bool * thread) :=
    match t_pc t with
    | PHead =>
      if t_n t <? t_stop t then
        do s <- pt (t_n t) H;
        let '(H', err) := s in
        (* if (err != none) D->err = err; *)
        let e := if SIRError_eqb err err_none then t_err t else err in
        Ok (H', running, {| t_pc := PFlag err; t_n := t_n t; t_stop := t_stop t; t_err := e |})
      else Ok (H, running, {| t_pc := PDone; t_n := t_n t; t_stop := t_stop t; t_err := t_err t |})
    | PFlag err =>
      (* if (err == out_of_bounds) running = false; *)
      Ok (H, (if SIRError_eqb err err_oob then false else running),
          {| t_pc := PCheck; t_n := t_n t; t_stop := t_stop t; t_err := t_err t |})
    | PCheck =>
      (* if (!running) return; n++ *)
      if running then
        Ok (H, running, {| t_pc := PHead; t_n := t_n t + 1; t_stop := t_stop t; t_err := t_err t |})
      else
        Ok (H, running, {| t_pc := PDone; t_n := t_n t; t_stop := t_stop t; t_err := t_err t |})
    | PDone => Ok (H, running, t)
    end.

  (** A schedule is a list of events: a worker makes one step, or CTRL-C
      arrives (Rect::abort, or the OCTAVE_QUIT handler, clears the flag). *)
  Inductive event := Run (i : nat) | CtrlC.

  Definition gstep (pt : Z -> buf -> res st) (s : gstate) (e : event) : res gstate :=
    match e with
    | CtrlC => Ok {| g_H := g_H s; g_running := false; g_threads := g_threads s |}
    | Run i =>
      match nth_error (g_threads s) i with
      | None => Ok s
      | Some t =>
        do r <- thread_step pt (g_H s) (g_running s) t;
        let '(H', run', t') := r in
        Ok {| g_H := H'; g_running := run'; g_threads := upd (g_threads s) i (fun _ => t') |}
      end
    end.

  Fixpoint gsteps (pt : Z -> buf -> res st) (s : gstate) (sch : list event) : res gstate :=
    match sch with
    | [] => Ok s
    | e :: sch' => do s' <- gstep pt s e; gsteps pt s' sch'
    end.

  (** src/dreamrect.cc 181, 218-250: running = true and the initial worker
      states. *)
  Definition init_thread (No nthreads : Z) (t : nat) : thread :=
    {| t_pc := PHead; t_n := part_start (Z.of_nat t) No nthreads;
       t_stop := part_stop (Z.of_nat t) No nthreads; t_err := err_none |}.
  Definition init (No nthreads : Z) (H : buf) : gstate :=
    {| g_H := H; g_running := true;
       g_threads := map (init_thread No nthreads) (seq 0 (Z.to_nat nthreads)) |}.

  Definition is_done (t : thread) : bool := match t_pc t with PDone => true | _ => false end.
  Definition all_done (s : gstate) : bool := forallb is_done (g_threads s).

  (** The join loops.  [join_any]: src/dreamrect.cc 253-264 and all others but
      dreamsphere; [join_sphere]: src/dreamsphere.cc 252-263. *)
  Definition join_any (ts : list thread) : SIRError :=
    fold_left (fun err t => if SIRError_eqb (t_err t) err_none then err else t_err t) ts err_none.
  Definition join_sphere (ts : list thread) : SIRError :=
    fold_left (fun err t => if SIRError_eqb err err_oob || SIRError_eqb (t_err t) err_oob
                            then err_oob else err) ts err_none.
  Definition is_sphere (T : transducer N) : bool := match T with TSphere _ _ => true | _ => false end.

  (** The status returned by the driver: the join loop only runs when more
      than one worker was started (src/dreamrect.cc 253). *)
  Definition call_status (T : transducer N) (nthreads : Z) (ts : list thread) : SIRError :=
    if 1 <? nthreads then (if is_sphere T then join_sphere ts else join_any ts) else err_none.

  (** A complete call under a given schedule: [Some (H, status, running)] if
      all workers have finished at the end of the schedule. *)
  Definition call (J : job) (nthreads : Z) (sch : list event) (H : buf)
    : res (option (buf * SIRError * bool)) :=
    do s <- gsteps (point J) (init (j_No J) nthreads H) sch;
    if all_done s then Ok (Some (g_H s, call_status (j_T J) nthreads (g_threads s), g_running s))
    else Ok None.
End Smp.
Arguments job : clear implicits.
