(** ModelWeak.v - the threaded calls on a machine that delays and reorders
    memory accesses.

    ModelFine executes every store at once.  The workers of DREAM share plain
    arrays of double (and, in some functions, a plain or volatile int as stop
    flag), and processors keep stores back: here each worker has a list of
    stores it has made and the memory has not yet received; they reach the
    memory later, in any order except that two stores to the same element
    keep theirs (more relaxed than the x86 store buffer, which keeps them all
    in order); a worker sees its own latest store or else the memory; and the
    stop flag may be read late.  The caller reads the arrays after
    std::thread::join, which waits for the stores.  Simplification: loads are
    not executed ahead of program order (no other worker stores to an element
    that a worker loads, C106), and elements are not torn. *)
From Verif Require Import Base ModelSir ModelArr ModelSmp ModelDas ModelFine.

Section Weak.
  Context {N : Num}.
  Local Notation buf := (list N).

  (** A worker (e.g. src/dreamrect.cc 79-161) with its stores under way,
      oldest first; [w_knows]: it has itself cleared the flag. *)
  Record wthread := { w_t : fthread (N:=N); w_buf : list (Z * N); w_knows : bool }.
  Record wstate := { w_H : buf; w_running : bool; w_threads : list wthread }.
  Inductive wevent :=
  | WRun (i : nat) (late : bool)     (* one step of worker i; late: it does not see the cleared flag yet *)
  | WReach (i k : nat)               (* store number k of worker i reaches the memory *)
  | WCtrlC.

  (** What a worker with stores [b] under way sees at a, where the memory holds v. *)
  Fixpoint seen (b : list (Z * N)) (a : Z) (v : N) : N :=
    match b with
    | [] => v
    | (a', v') :: b' => seen b' a (if (a =? a')%Z then v' else v)
    end.
  (** Take out store number k, if no older store to the same element is left. *)
  Fixpoint take_out (k : nat) (b : list (Z * N)) : option (Z * N * list (Z * N)) :=
    match b with
    | [] => None
    | (a, v) :: b' =>
      match k with
      | O => Some (a, v, b')
      | S k' =>
        match take_out k' b' with
        | Some (a', v', b'') => if (a' =? a)%Z then None else Some (a', v', (a, v) :: b'')
        | None => None
        end
      end
    end.

  (** src/dreamrect.cc 79-161, cf. ModelFine.fthread_step *)
  Definition wthread_step (nt : Z) (P : Z -> prog N SIRError) (H : buf) (running late : bool) (w : wthread)
    : res (bool * wthread) :=
    let t := w_t w in
    let go pc err := {| f_pc := pc; f_n := f_n t; f_stop := f_stop t; f_err := err |} in
    let keep t' := {| w_t := t'; w_buf := w_buf w; w_knows := w_knows w |} in
    match f_pc t with
    | FHead =>
      if f_n t <? f_stop t then Ok (running, keep (go (FRun (P (f_n t))) (f_err t)))
      else Ok (running, keep (go FDone (f_err t)))
    | FRun (Read i k) =>
      do x <- buf_get H (f_n t * nt + i);
      Ok (running, keep (go (FRun (k (seen (w_buf w) (f_n t * nt + i) x))) (f_err t)))
    | FRun (Write i v k) =>
      do _ <- buf_upd H (f_n t * nt + i) (fun _ => v);
      Ok (running, {| w_t := go (FRun k) (f_err t); w_buf := w_buf w ++ [((f_n t * nt + i)%Z, v)]; w_knows := w_knows w |})
    | FRun (Done err) =>
      Ok (running, keep (go (FFlag err) (if SIRError_eqb err err_none then f_err t else err)))
    | FRun (Fail u) => UB u
    | FRun Spin => Diverge
    | FFlag err =>
      if SIRError_eqb err err_oob
      then Ok (false, {| w_t := go FCheck (f_err t); w_buf := w_buf w; w_knows := true |})
      else Ok (running, keep (go FCheck (f_err t)))
    | FCheck =>
      if running || (late && negb (w_knows w)) then
        Ok (running, keep {| f_pc := FHead; f_n := f_n t + 1; f_stop := f_stop t; f_err := f_err t |})
      else Ok (running, keep (go FDone (f_err t)))
    | FDone => Ok (running, w)
    end.

  Definition wstep (nt : Z) (P : Z -> prog N SIRError) (s : wstate) (e : wevent) : res wstate :=
    match e with
    | WCtrlC => Ok {| w_H := w_H s; w_running := false; w_threads := w_threads s |}
    | WRun i late =>
      match nth_error (w_threads s) i with
      | None => Ok s
      | Some w =>
        do r <- wthread_step nt P (w_H s) (w_running s) late w;
        let '(run', w') := r in
        Ok {| w_H := w_H s; w_running := run'; w_threads := upd (w_threads s) i (fun _ => w') |}
      end
    | WReach i k =>
      match nth_error (w_threads s) i with
      | None => Ok s
      | Some w =>
        match take_out k (w_buf w) with
        | None => Ok s
        | Some (a, v, b) =>
          do H' <- buf_upd (w_H s) a (fun _ => v);
          Ok {| w_H := H'; w_running := w_running s;
                w_threads := upd (w_threads s) i (fun w => {| w_t := w_t w; w_buf := b; w_knows := w_knows w |}) |}
        end
      end
    end.
  Fixpoint wsteps (nt : Z) (P : Z -> prog N SIRError) (s : wstate) (sch : list wevent) : res wstate :=
    match sch with
    | [] => Ok s
    | e :: sch' => do s' <- wstep nt P s e; wsteps nt P s' sch'
    end.

  (** src/dreamrect.cc 181, 218-250 *)
  Definition winit (No nthreads : Z) (H : buf) : wstate :=
    {| w_H := H; w_running := true;
       w_threads := map (fun i => {| w_t := finit_thread No nthreads i; w_buf := []; w_knows := false |})
                        (seq 0 (Z.to_nat nthreads)) |}.
  (** Every worker can be joined: it has returned and its stores have reached the memory. *)
  Definition w_joined (w : wthread) : bool :=
    f_is_done (w_t w) && match w_buf w with [] => true | _ => false end.
  Definition w_all_joined (s : wstate) : bool := forallb w_joined (w_threads s).

  (** Convolution, copying, analytic responses, cf. ModelFine.fine_cols_call *)
  Definition weak_cols_call (len : Z) (P : Z -> prog N SIRError) (No nthreads : Z) (sch : list wevent) (Y : buf)
    : res (option (buf * bool)) :=
    do s <- wsteps len P (winit No nthreads Y) sch;
    if w_all_joined s then Ok (Some (w_H s, w_running s)) else Ok None.
  (** Transducers (src/dreamrect.cc 164-258), cf. ModelFine.fine_call *)
  Definition weak_call (K : idx_kind) (J : job N) (nthreads : Z) (sch : list wevent) (H : buf)
    : res (option (buf * SIRError * bool)) :=
    do s <- wsteps (nt (j_q J)) (p_point K J) (winit (j_No J) nthreads H) sch;
    if w_all_joined s
    then Ok (Some (w_H s, call_status (j_T J) nthreads (map f_result (map w_t (w_threads s))),
                   w_running s))
    else Ok None.
  (** extra_src/das.cc 175-303, cf. ModelFine.fine_das_call *)
  Definition weak_das_call (K : idx_kind) (J : das_job N) (nthreads : Z) (sch : list wevent) (Im : buf)
    : res (option (buf * SIRError * bool)) :=
    do s <- wsteps 1 (p_das_point K J) (winit (d_No J) nthreads Im) sch;
    if w_all_joined s
    then Ok (Some (w_H s, (if (1 <? nthreads)%Z then join_any (map f_result (map w_t (w_threads s))) else err_none),
                   w_running s))
    else Ok None.
End Weak.
