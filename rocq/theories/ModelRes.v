(** ModelRes.v - what the functions take from the system and when they give it
    back: the host functions that start the workers, and the workers.

    The model keeps the order of allocation, start, join and release and
    leaves out what is computed; a worker may stop after any of its points
    (CTRL-C, out of bounds with level stop), as the scheduler decides. *)
From Coq Require Import List ZArith Bool.
From Verif Require Import SpecRes.
Import ListNotations.

(** ** Programs *)
Inductive instr :=
| Do (d : deed)
| Start (i : nat)          (* threads[i] = std::thread(..) *)
| Wait (i : nat)           (* threads[i].join() *)
| Call (i : nat)           (* smp_..(&D[0]) in the caller's thread *)
| Back (i : nat).          (* .. and its return *)

Record host := {
  plans : nat;             (* FFTW plans created *)
  table : bool;            (* sum_fftconv's table H *)
  always : bool;           (* starts a thread even for a single worker *)
  vecs : nat;              (* work buffers of a worker *)
  temps : nat;             (* buffers of one point *)
  keeps : bool             (* returns before free(H) *)
}.
Definition threaded (h : host) (n : nat) : bool := always h || (1 <? n)%nat.

(** src/dreamrect.cc 194-271 (and the ten other SIR functions: the same
    statements), extra_src/das.cc 240-297, extra_src/rect_sir.cc 178-226,
    extra_src/oct_conv_p.cc 335-384, extra_src/oct_fftconv_p.cc 316, 511-570,
    extra_src/oct_fftconv_ola.cc 426, 627-682, extra_src/oct_sum_fftconv.cc 321,
    345, 499-574, and with always extra_src/oct_circ_sir.cc 364-405,
    oct_scirc_sir.cc, oct_copy_p.cc 297-338, oct_add_p.cc (and the MATLAB
    versions; the two buffers local to the FFT constructor are left out). For each worker D[i] is written and, joined, D[i].err is read
    (the conv and analytic functions read nothing: simplified to the same).
    No host function deletes the array of threads. *)
Definition before (h : host) : list instr :=
  (if table h then [Do (Take RTable)] else []) ++ repeat (Do (Take RPlan)) (plans h) ++ [Do (Take RData); Do (Take RArray)].
Definition begin_worker (h : host) (n i : nat) : list instr := [Do (Use RData); if threaded h n then Start i else Call i].
Definition end_worker (h : host) (n i : nat) : list instr := if threaded h n then [Wait i; Do (Use RData)] else [Back i].
Definition after (h : host) : list instr :=
  Do (Give RData) :: (if table h then if keeps h then [] else [Do (Give RTable)] else []).
Definition program (h : host) (n : nat) : list instr :=
  before h ++ flat_map (begin_worker h n) (seq 0 n) ++ flat_map (end_worker h n) (seq 0 n) ++ after h.

(** ** Workers: src/dreamrect.cc 75-152 (smp_dream_rect), extra_src/oct_fftconv_p.cc
    88-165 (smp_dream_fftconv) and the like: read D, take the work buffers
    (unique_ptr, FFTVec, FFTCVec: given back on every way out), then for each
    point read D and use the plans, the table and the buffers. *)
Inductive worker := Idle | Enter | Loop (k : nat) | Done.
Definition point (h : host) : list deed :=
  Use RData :: (if (0 <? plans h)%nat then [Use RPlan] else []) ++ (if table h then [Use RTable] else []) ++ (if (0 <? vecs h)%nat then [Use RWork] else [])
  ++ repeat (Take RTemp) (temps h) ++ repeat (Give RTemp) (temps h).
Definition enter (h : host) : list deed := Use RData :: repeat (Take RWork) (vecs h).
Definition leave (h : host) : list deed := repeat (Give RWork) (vecs h).
Definition worker_step (h : host) (points : nat) (w : worker) (bail : bool) : option (worker * list deed) :=
  match w with
  | Enter => Some (Loop points, enter h)
  | Loop O => Some (Done, leave h)
  | Loop (S k) => if bail then Some (Done, point h ++ leave h) else Some (Loop k, point h)
  | _ => None
  end.

(** ** All interleavings *)
Record state := { rest : list instr; workers : nat -> worker; log : list entry }.
Inductive move := Caller | Worker (i : nat) (bail : bool).
Definition set_worker (ws : nat -> worker) (i : nat) (w : worker) : nat -> worker := fun j => if Nat.eqb j i then w else ws j.
Definition step (h : host) (points : nat -> nat) (s : state) (m : move) : option state :=
  match m with
  | Caller =>
    match rest s with
    | [] => None
    | Do d :: r => Some {| rest := r; workers := workers s; log := log s ++ [(None, d)] |}
    | Start i :: r => Some {| rest := r; workers := set_worker (workers s) i Enter; log := log s ++ [(None, Spawn i)] |}
    | Call i :: r => Some {| rest := r; workers := set_worker (workers s) i Enter; log := log s |}
    | Wait i :: r =>
      match workers s i with
      | Done => Some {| rest := r; workers := workers s; log := log s ++ [(None, Join i)] |}
      | _ => None
      end
    | Back i :: r =>
      match workers s i with
      | Done => Some {| rest := r; workers := workers s; log := log s |}
      | _ => None
      end
    end
  | Worker i bail =>
    match worker_step h (points i) (workers s i) bail with
    | Some (w, ds) => Some {| rest := rest s; workers := set_worker (workers s) i w; log := log s ++ map (fun d => (Some i, d)) ds |}
    | None => None
    end
  end.
Fixpoint run (h : host) (points : nat -> nat) (s : state) (ms : list move) : option state :=
  match ms with
  | [] => Some s
  | m :: ms => match step h points s m with Some s' => run h points s' ms | None => None end
  end.
Definition initial (h : host) (n : nat) : state := {| rest := program h n; workers := fun _ => Idle; log := [] |}.
(** A call with n workers has returned. *)
Definition call_log (h : host) (n : nat) (points : nat -> nat) (ms : list move) : option (list entry) :=
  match run h points (initial h n) ms with
  | Some s => match rest s with [] => Some (log s) | _ => None end
  | None => None
  end.

(** ** The functions *)
Inductive routine := FSir (att : bool) | FAnnular (att : bool) (rings : nat) | FDas | FRectSir | FCircSir | FCopy
| FConv | FFftconv | FOla | FSum (ctrl_c : bool).
(** src/dreamrect.cc 194: the Attenuation object, with its FFT object and two
    plans (include/attenuation.h 37, include/fft.h 139-147; ~FFT() is default
    and destroys none), is made in every call, lossless or not; FFT work
    buffers: dreamrect.cc 94-99, dream_arr_annu.cc 105-110 and 204-206, 463;
    oct_fftconv_p.cc 98-106, oct_fftconv_ola.cc 96-110, oct_sum_fftconv.cc 96-104. *)
Definition host_of (r : routine) : host :=
  match r with
  | FSir att => {| plans := 2; table := false; always := false; vecs := if att then 2 else 0; temps := 0; keeps := false |}
  | FAnnular att rings => {| plans := 2; table := false; always := false; vecs := if att then 2 else 0; temps := 3 + rings; keeps := false |}
  | FDas | FRectSir | FConv => {| plans := 0; table := false; always := false; vecs := 0; temps := 0; keeps := false |}
  | FCircSir | FCopy => {| plans := 0; table := false; always := true; vecs := 0; temps := 0; keeps := false |}
  | FFftconv => {| plans := 2; table := false; always := false; vecs := 6; temps := 0; keeps := false |}
  | FOla => {| plans := 2; table := false; always := false; vecs := 8; temps := 0; keeps := false |}
  | FSum c => {| plans := 2; table := true; always := false; vecs := 6; temps := 0; keeps := c |}
  end.
