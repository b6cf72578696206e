(** SpecSig.v - vocabulary for the signal properties C81-C83. *)
From Verif Require Import Base ModelGw ModelSig.

(** How many times the host program has received CTRL-C. *)
Definition ctrl_c_seen (p : proc) : nat := length (filter (signal_eqb SigInt) (host p)).

(** The same course of events with the user never pressing CTRL-C. *)
Definition without_ctrl_c (evs : list sev) : list sev :=
  filter (fun e => match e with Sig SigInt => false | _ => true end) evs.

Definition presses (evs : list sev) : nat :=
  length (filter (fun e => match e with Sig SigInt => true | _ => false end) evs).

(** The eleven transducer functions except the annular array in Octave and
    MATLAB. *)
Definition transducer_call (fe : front) (f : sfun) : Prop :=
  exists t, f = STr t /\ (t = FArrAnnu -> fe = Python \/ fe = Julia).

(** The functions that copy, add or convolve, and circ_sir and scirc_sir. *)
Definition tidy_functions : list sfun := [SCircSir; SScircSir; SCopy; SAdd; SConv; SFft; SOla; SSum].

(** The gateway is computing: the workers run after these events. *)
Definition computing (fe : front) (f : sfun) (evs : list sev) : Prop :=
  exists o, to_come (script fe f) evs = Work :: o.

(** The process at a point inside a call: after the events evs. *)
Fixpoint proc_at (f : sfun) (ops : list op) (saved : signal -> handler) (p : proc) (evs : list sev) : proc :=
  match evs, ops with
  | Sig s :: r, _ => proc_at f ops saved (deliver p s) r
  | _ :: r, Take s :: o => proc_at f o (fun x => if signal_eqb x s then tbl p s else saved x) (set_tbl p s (Lib f)) r
  | _ :: r, Give s :: o => proc_at f o saved (set_tbl p s (saved s)) r
  | _ :: r, Start :: o => proc_at f o saved (set_flag p f true) r
  | Oob :: r, Work :: o => proc_at f o saved (set_flag p f false) r
  | _ :: r, _ :: o => proc_at f o saved p r
  | _, _ => p
  end.
Definition inside (fe : front) (f : sfun) (p : proc) (evs : list sev) : proc := proc_at f (script fe f) (fun _ => Host) p evs.

(** A call during which nothing happens: n steps. *)
Definition undisturbed (n : nat) : list sev := repeat Next n.
