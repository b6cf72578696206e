(** SpecSir.v - what a single-element SIR function is supposed to do with the
    source points it visits, independent of its loops. *)
From Verif Require Import Base ModelSir.

Section Spec.
  Context {N : Num}.
  Local Open Scope num_scope.
  Local Notation buf := (list N).

  (** x, x+d, x+2d, ... as long as the value is <= xmax; [None] if there are
      more than [fuel] of them. *)
  Fixpoint grid (fuel : nat) (x xmax d : N) : option (list N) :=
    if x <=? xmax then
      match fuel with
      | O => None
      | S f => match grid f (x + d) xmax d with Some l => Some (x :: l) | None => None end
      end
    else Some [].

  Fixpoint concat_opt {A} (l : list (option (list A))) : option (list A) :=
    match l with
    | [] => Some []
    | None :: _ => None
    | Some a :: r => match concat_opt r with Some b => Some (a ++ b) | None => None end
    end.

  (** The source points of a transducer in visiting order. *)
  Definition source_row (fuel : nat) (Sc : scanner N) (y : N) : option (list (contrib N)) :=
    let w := sc_row Sc y in
    match grid fuel (row_x0 w) (row_xmax w) (row_dx w) with
    | Some xs => Some (map (sc_pt Sc y) xs)
    | None => None
    end.
  Definition source_points (fuel : nat) (Sc : scanner N) : option (list (contrib N)) :=
    match sc_outer Sc with
    | None => source_row fuel Sc #0
    | Some o =>
      match grid fuel (row_x0 o) (row_xmax o) (row_dx o) with
      | Some ys => concat_opt (map (source_row fuel Sc) ys)
      | None => None
      end
    end.

  (** The sample a source point arrives at. *)
  Definition sample_of (c : contrib N) : option Z := nrint (c_arg c).

  (** All sample numbers are representable in dream_idx_type. *)
  Definition representable (K : idx_kind) (l : list (contrib N)) : Prop :=
    Forall (fun c => exists z, sample_of c = Some z /\
      match K with SignedIdx => -2^63 <= z < 2^63 | UnsignedIdx => 0 <= z < 2^64 end) l.

  Definition in_window (nt : Z) (c : contrib N) : bool :=
    match sample_of c with Some z => ((0 <=? z) && (z <? nt))%Z | None => false end.

  (** Lossless accumulation: every source point inside the window adds its
      amplitude to its sample, in order. *)
  Definition accumulate (nt : Z) (l : list (contrib N)) (h : buf) : buf :=
    fold_left (fun h c =>
      match sample_of c with
      | Some z => if in_window nt c then upd h (Z.to_nat z) (fun x => x + c_ai c) else h
      | None => h
      end) l h.

  (** The part of the list before the first point outside the window. *)
  Fixpoint before_first_out (nt : Z) (l : list (contrib N)) : list (contrib N) :=
    match l with
    | [] => []
    | c :: r => if in_window nt c then c :: before_first_out nt r else []
    end.

  Definition all_in (nt : Z) (l : list (contrib N)) : bool := forallb (in_window nt) l.

  (** nt zeros. *)
  Definition zeros (nt : Z) : buf := repeat #0 (Z.to_nat nt).
End Spec.

(** The source points a single-element transducer visits, in visiting order
    ([None]: more than [fuel] rows or points per row, or an array). *)
From Verif Require Import ModelArr.
Section Visit.
  Context {N : Num}.
  Definition scanner_of_T (T : transducer N) (q : samp N) (att : bool) (xo yo zo delay : N)
    : option (scanner N) :=
    match T with
    | TRect a b => Some (rect_scanner q a b delay (nofZ 1) xo yo zo)
    | TRectF a b foc fo => Some (rect_f_scanner q a b foc fo att delay xo yo zo)
    | TCirc R => Some (circ_scanner q R delay (nofZ 1) xo yo zo)
    | TCircF R foc fo => Some (circ_f_scanner q R foc fo delay xo yo zo)
    | TLine a => Some (line_scanner q a delay xo yo zo)
    | TSphere R Rcurv => Some (sphere_scanner q R Rcurv delay xo yo zo)
    | TCylind a b Rcurv => Some (cylind_scanner q a b Rcurv delay (nofZ 1) xo yo zo)
    | _ => None
    end.
  Definition visited (fuel : nat) (T : transducer N) (q : samp N) (xo yo zo delay : N)
    : option (list (contrib N)) :=
    match scanner_of_T T q false xo yo zo delay with
    | Some Sc => source_points fuel Sc
    | None => None
    end.

  (** dreamrect, dreamcirc and dreamcylind add to what the output holds, the
      others clear it first. *)
  Definition adds_up (T : transducer N) : bool :=
    match T with TRect _ _ | TCirc _ | TCylind _ _ _ => true | _ => false end.
  Definition start (T : transducer N) (nt : Z) (h : list N) : list N :=
    if adds_up T then h else zeros nt.
End Visit.
