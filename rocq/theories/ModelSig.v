(** ModelSig.v - signal handling of the gateways.

    What is modelled: for every gateway, the order in which it checks its
    arguments, replaces the process's signal handlers, sets its "running" flag,
    computes, restores the handlers and looks at the flag; signals may be
    delivered between any two of these steps and while the computation runs.
    The computation itself (Work) is one step here: CTRL-C "during the
    computation" is a signal delivered while Work is the next step.  What the
    workers do when the flag goes down is in ModelSmp.v.

    Simplifications: std::signal has the glibc meaning (the handler stays
    installed after a delivery); one flag per library function (the flags are
    file-scope variables of separately loaded modules); SIG_ERR is not
    modelled; the OpenCL branch of das, dreamrect, dreamcirc and rect_sir,
    which neither sets nor tests the flag, is not modelled. *)
From Verif Require Import Base ModelGw.

Inductive signal := SigInt | SigAbrt | SigTerm.

(** The library functions (one loadable module each). *)
Inductive sfun := STr (f : func) | SDas | SDasUni | SRectSir | SCircSir | SScircSir
                | SCopy | SAdd | SConv | SFft | SOla | SSum.

(** What a signal does: what the host program (Octave, MATLAB, Python, Julia)
    had set up, or the library's handler, which lowers the flag of its
    function (X::abort, e.g. src/dreamrect.cc 40-43; sighandler, e.g.
    extra_src/oct_conv_p.cc 113-116). *)
Inductive handler := Host | Lib (f : sfun).

(** What a gateway does with a lowered flag. *)
Inductive verdict := VError | VPrint.

Inductive op :=
  | Test                (* argument checks, allocations, wisdom import: may end the call with an error *)
  | Take (s : signal)   (* old = std::signal(s, handler) *)
  | Give (s : signal)   (* std::signal(s, old) *)
  | Start               (* running = true *)
  | Work                (* the computation, threads joined *)
  | Verdict (v : verdict). (* if (!running) ... *)

(** The handlers are taken and restored in this order everywhere (e.g.
    extra_src/oct_conv_p.cc 284-294 and 390-400). *)
Definition take_all : list op := [Take SigTerm; Take SigAbrt; Take SigInt].
Definition give_all : list op := [Give SigTerm; Give SigAbrt; Give SigInt].

(** Which front ends have which function (oct/, mex/, extra_src/, python/src,
    julia/src). *)
Definition offered (fe : front) (f : sfun) : bool :=
  match f, fe with
  | STr _, _ | SDas, _ | SFft, _ => true
  | SConv, Python => false
  | SConv, _ => true
  | SAdd, Octave => true
  | SAdd, _ => false
  | _, (Octave | Matlab) => true
  | _, _ => false
  end.

(** The gateways, step by step.
    Transducers: oct/oct_dreamrect.cc 61-252 (checks, 227 std::signal, src/dreamrect.cc
    180 running = true, 252 test), and likewise in the other ten functions and
    in mex/, python/src, julia/src; oct_/mex_dream_arr_annu.cc install no handler.
    das: extra_src/oct_das.cc 504-555, mex_das.cc 360-411, python/include/py_das.hpp
    206-235, julia/include/jl_das.hpp 211-240 (SIGABRT only).
    das_uni: extra_src/oct_das_uni.cc, mex_das_uni.cc (no handler, no flag).
    rect_sir: extra_src/oct_rect_sir.cc 227-251, rect_sir.cc 151, mex_rect_sir.cc 113-128.
    circ_sir, scirc_sir: extra_src/oct_circ_sir.cc 344-425, mex_circ_sir.cc 260-342,
    oct_scirc_sir.cc 359-442, mex_scirc_sir.cc 275-358 (no checks after the handlers).
    copy_p, add_p: extra_src/oct_copy_p.cc 278-358, mex_copy_p.cc 224-303, oct_add_p.cc 280-360.
    conv_p: extra_src/oct_conv_p.cc 284-405, mex_conv_p.cc 275-360, julia/src/jl_conv_p.cc 190-283.
    fftconv_p: extra_src/oct_fftconv_p.cc 446-591, mex_fftconv_p.cc 387-523,
    julia/src/jl_fftconv_p.cc 252-346, python/include/py_fftconv_p.hpp 60-86 with
    extra_src/fftconv_p.cc 341 (no handler).
    fftconv_ola: extra_src/oct_fftconv_ola.cc 564-703, mex_fftconv_ola.cc 500-629.
    sum_fftconv: extra_src/oct_sum_fftconv.cc 431-, mex_sum_fftconv.cc 325-453. *)
Definition script (fe : front) (f : sfun) : list op :=
  match f with
  | STr FArrAnnu =>
    match fe with
    | Octave | Matlab => [Test; Start; Work; Verdict VError]
    | _ => [Test; Take SigInt; Start; Work; Verdict VError]
    end
  | STr _ => [Test; Take SigInt; Start; Work; Verdict VError]
  | SDas => [Test; Start; Take SigAbrt; Work; Verdict VError]
  | SDasUni => [Test; Work]
  | SRectSir => [Test; Take SigAbrt; Start; Work;
                 Verdict (match fe with Matlab => VError | _ => VPrint end)]
  | SCircSir | SScircSir =>
    [Test] ++ take_all ++ [Start; Work] ++ give_all ++
    [Verdict (match fe with Matlab => VError | _ => VPrint end)]
  | SCopy | SAdd => [Test] ++ take_all ++ [Start; Test; Work] ++ give_all ++ [Verdict VError]
  | SConv =>
    match fe with
    | Octave => [Test] ++ take_all ++ [Test; Start; Test; Work] ++ give_all ++ [Verdict VPrint]
    | Matlab => [Test] ++ take_all ++ [Start; Test; Work] ++ give_all ++ [Verdict VError]
    | _ => [Test] ++ take_all ++ [Start; Test; Work] ++ give_all
    end
  | SFft =>
    match fe with
    | Octave | Matlab => [Test] ++ take_all ++ [Test; Start; Test; Work] ++ give_all ++ [Verdict VError]
    | Python => [Test; Start; Work]
    | Julia => [Test] ++ take_all ++ [Start; Test; Work] ++ give_all
    end
  | SOla => [Test] ++ take_all ++ [Test; Start; Work] ++ give_all ++ [Verdict VError]
  | SSum => [Test] ++ take_all ++ [Test; Start; Test; Work] ++ give_all ++
            [Verdict (match fe with Matlab => VError | _ => VPrint end)]
  end.

(** The library functions whose workers can lower the flag themselves: 'stop'
    error level (e.g. src/dreamrect.cc 116-123, 148; extra_src/das.cc 180). *)
Definition can_stop (f : sfun) : bool :=
  match f with STr _ | SDas => true | _ => false end.

(** The process: handler table, flags, and the signals the host has received. *)
Record proc := { tbl : signal -> handler; flag : sfun -> bool; host : list signal }.

Definition signal_eqb (a b : signal) : bool :=
  match a, b with SigInt, SigInt | SigAbrt, SigAbrt | SigTerm, SigTerm => true | _, _ => false end.
Definition sfun_dec (a b : sfun) : {a = b} + {a <> b}.
Proof. repeat decide equality. Defined.

Definition set_tbl (p : proc) (s : signal) (h : handler) : proc :=
  {| tbl := fun x => if signal_eqb x s then h else tbl p x; flag := flag p; host := host p |}.
Definition set_flag (p : proc) (f : sfun) (b : bool) : proc :=
  {| tbl := tbl p; flag := fun x => if sfun_dec x f then b else flag p x; host := host p |}.

(** Delivery of a signal. *)
Definition deliver (p : proc) (s : signal) : proc :=
  match tbl p s with
  | Host => {| tbl := tbl p; flag := flag p; host := s :: host p |}
  | Lib g => set_flag p g false
  end.

(** How a call ended: an error before or instead of computing, the CTRL-C (or
    out-of-bounds) error, a message printed and the matrix returned anyway, or
    an ordinary result. *)
Inductive ending := Refused | Failed | Printed | Normal.

(** One call: Next = the next step of the gateway; Fail = a check fails (only at
    Test); Oob = the workers stop by themselves (only at Work); Sig = a signal. *)
Inductive sev := Next | Fail | Oob | Sig (s : signal).

(** The saved handlers are the variables old_handler, old_handler_abrt and
    old_handler_keyint. *)
Fixpoint run_call (f : sfun) (ops : list op) (saved : signal -> handler) (pr : bool) (p : proc)
    (evs : list sev) {struct evs} : option (proc * ending) :=
  match evs with
  | [] => None
  | Sig s :: r => run_call f ops saved pr (deliver p s) r
  | Fail :: r =>
    match ops, r with
    | Test :: _, [] => Some (p, Refused)
    | _, _ => None
    end
  | Oob :: r =>
    match ops with
    | Work :: o => if can_stop f then run_call f o saved pr (set_flag p f false) r else None
    | _ => None
    end
  | Next :: r =>
    match ops with
    | [] => match r with [] => Some (p, if pr then Printed else Normal) | _ => None end
    | (Test | Work) :: o => run_call f o saved pr p r
    | Take s :: o =>
      run_call f o (fun x => if signal_eqb x s then tbl p s else saved x) pr (set_tbl p s (Lib f)) r
    | Give s :: o => run_call f o saved pr (set_tbl p s (saved s)) r
    | Start :: o => run_call f o saved pr (set_flag p f true) r
    | Verdict v :: o =>
      if flag p f then run_call f o saved pr p r else
      match v with
      | VPrint => run_call f o saved true p r
      | VError => match r with [] => Some (p, Failed) | _ => None end
      end
    end
  end.

Definition call (fe : front) (f : sfun) (p : proc) (evs : list sev) : option (proc * ending) :=
  run_call f (script fe f) (fun _ => Host) false p evs.

(** The steps of the gateway still to come after evs. *)
Fixpoint to_come (ops : list op) (evs : list sev) : list op :=
  match evs, ops with
  | Sig _ :: r, _ => to_come ops r
  | _ :: r, _ :: o => to_come o r
  | _, _ => ops
  end.

(** A session in one front end: calls, and signals that arrive while no
    library function runs. *)
Inductive sact := ACall (f : sfun) (evs : list sev) | AIdle (s : signal).

Fixpoint session (fe : front) (p : proc) (acts : list sact) : option proc :=
  match acts with
  | [] => Some p
  | AIdle s :: r => session fe (deliver p s) r
  | ACall f evs :: r =>
    if offered fe f then
      match call fe f p evs with Some (p', _) => session fe p' r | None => None end
    else None
  end.

(** A process in which no library function has run. *)
Definition fresh : proc := {| tbl := fun _ => Host; flag := fun _ => false; host := [] |}.
