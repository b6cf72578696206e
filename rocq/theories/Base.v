(** Base.v - outcome monad, machine numbers, checked buffers, C++ loops.

    Everything here is the vocabulary in which the C++ code of DREAM is
    written down; no proofs live in this file. *)
From Coq Require Export List ZArith Bool Lia.
Export ListNotations.
Open Scope Z_scope.

(** ** Outcomes

    A C++ call either returns normally, runs into undefined behaviour, or
    does not return within the loop budget ([Diverge], see [while]). *)
Inductive ub : Type :=
| UB_oob_read      (* read outside an array *)
| UB_oob_write     (* write outside an array *)
| UB_cast.         (* floating point -> dream_idx_type conversion of a value that does not fit *)

Inductive res (A : Type) : Type :=
| Ok (a : A)
| UB (u : ub)
| Diverge.
Arguments Ok {A} a.
Arguments UB {A} u.
Arguments Diverge {A}.

Definition bind {A B} (m : res A) (f : A -> res B) : res B :=
  match m with Ok a => f a | UB u => UB u | Diverge => Diverge end.
Notation "'do' x <- m ; k" := (bind m (fun x => k))
  (at level 200, x pattern, m at level 100, k at level 200).

(** ** Machine numbers

    The C++ code computes with [double].  The model is parametric in the
    number system: every operation the code uses is a field.  It is
    instantiated with the reals (NumR.v, "exact arithmetic") and with the
    kernel's binary64 floats (NumF.v, IEEE 754).  Statements proved for an
    arbitrary [Num] hold for any behaviour of the floating point unit. *)
Record Num : Type := mkNum {
  car :> Type;
  nadd : car -> car -> car;
  nsub : car -> car -> car;
  nmul : car -> car -> car;
  ndiv : car -> car -> car;
  nopp : car -> car;
  nabs : car -> car;                 (* std::fabs *)
  nsqrt : car -> car;                (* std::sqrt *)
  nsin : car -> car;  ncos : car -> car;  natan : car -> car;
  nasin : car -> car; nacos : car -> car;
  nexp : car -> car;  nlog : car -> car;
  npi : car;                         (* M_PI *)
  neps : car;                        (* std::numeric_limits<double>::epsilon() *)
  nofZ : Z -> car;                   (* integer literal / integer -> double *)
  nle : car -> car -> bool;          (* <=, false on NaN *)
  nlt : car -> car -> bool;          (* <,  false on NaN *)
  nrint : car -> option Z;           (* std::rint, None for NaN and infinities *)
  ntrunc : car -> option Z           (* truncation towards 0, None for NaN and infinities *)
}.
Arguments nadd {n}. Arguments nsub {n}. Arguments nmul {n}. Arguments ndiv {n}.
Arguments nopp {n}. Arguments nabs {n}. Arguments nsqrt {n}. Arguments nsin {n}.
Arguments ncos {n}. Arguments natan {n}. Arguments nasin {n}. Arguments nacos {n}.
Arguments nexp {n}. Arguments nlog {n}. Arguments npi {n}. Arguments neps {n}.
Arguments nofZ {n}. Arguments nle {n}. Arguments nlt {n}. Arguments nrint {n}.
Arguments ntrunc {n}.

Declare Scope num_scope.
Delimit Scope num_scope with num.
Infix "+" := nadd : num_scope.
Infix "-" := nsub : num_scope.
Infix "*" := nmul : num_scope.
Infix "/" := ndiv : num_scope.
Notation "- x" := (nopp x) : num_scope.
Notation "x <=? y" := (nle x y) : num_scope.
Notation "x <? y" := (nlt x y) : num_scope.
Notation "# z" := (nofZ z) (at level 1, format "# z") : num_scope.

(** ** Build configuration

    [dream_idx_type] is a signed 64 bit type in the Octave and Python builds
    and an unsigned 64 bit type ([size_t]/[mwSize]) in the MATLAB and Julia
    builds: include/dream.h 37-75. *)
Inductive idx_kind := SignedIdx | UnsignedIdx.

(** (dream_idx_type) x for a floating point x whose integral value is [z]
    ([None]: NaN or infinity).  C++ [conv.fpint]: undefined unless the value
    fits in the destination type. *)
Definition to_idx (k : idx_kind) (z : option Z) : res Z :=
  match z with
  | None => UB UB_cast
  | Some z =>
    match k with
    | SignedIdx => if (-2^63 <=? z) && (z <? 2^63) then Ok z else UB UB_cast
    | UnsignedIdx => if (0 <=? z) && (z <? 2^64) then Ok z else UB UB_cast
    end
  end.

(** ** Buffers: a C array is the list of its elements; every access is
    checked and an access outside is undefined behaviour. *)
Section Buffers.
  Context {A : Type}.

  Fixpoint upd (h : list A) (k : nat) (f : A -> A) : list A :=
    match h, k with
    | [], _ => []
    | x :: t, O => f x :: t
    | x :: t, S k' => x :: upd t k' f
    end.

  Definition in_range (h : list A) (k : Z) : bool :=
    (0 <=? k) && (k <? Z.of_nat (length h)).

  (** h[k] = f(h[k]) *)
  Definition buf_upd (h : list A) (k : Z) (f : A -> A) : res (list A) :=
    if in_range h k then Ok (upd h (Z.to_nat k) f) else UB UB_oob_write.

  (** x = h[k] *)
  Definition buf_get (h : list A) (k : Z) : res A :=
    if in_range h k then
      match nth_error h (Z.to_nat k) with Some x => Ok x | None => UB UB_oob_read end
    else UB UB_oob_read.
End Buffers.

(** ** Loops *)

(** Result of a loop body: go on with the loop, or [return] from the
    enclosing function. *)
Inductive ctl (S A : Type) : Type :=
| Go (s : S)
| Ret (a : A).
Arguments Go {S A} s.
Arguments Ret {S A} a.

(** while (cond) { body }, with an iteration budget: [Diverge] when the
    budget is used up while the condition still holds. *)
Fixpoint while {S A} (fuel : nat) (cond : S -> bool) (body : S -> res (ctl S A))
  (s : S) {struct fuel} : res (ctl S A) :=
  if cond s then
    match fuel with
    | O => Diverge
    | Datatypes.S f =>
      match body s with
      | Ok (Go s') => while f cond body s'
      | Ok (Ret a) => Ok (Ret a)
      | UB u => UB u
      | Diverge => Diverge
      end
    end
  else Ok (Go s).

(** for (i = 0; i < n; i++) { body } with the loop index passed to the body. *)
Fixpoint for_from {S} (i : Z) (n : nat) (body : Z -> S -> res S) (s : S) : res S :=
  match n with
  | O => Ok s
  | Datatypes.S n' => do s' <- body i s; for_from (i + 1) n' body s'
  end.
Definition for_loop {S} (n : Z) (body : Z -> S -> res S) (s : S) : res S :=
  for_from 0 (Z.to_nat n) body s.
