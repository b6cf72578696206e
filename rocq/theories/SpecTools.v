(** SpecTools.v - what dream_apodwin and dream_att promise. *)
From Coq Require Strings.String.
Import Coq.Strings.String.StringSyntax.
From Coq Require Import Reals List ZArith Bool.
From Verif Require Import Base ModelSir ModelArr ModelSmp NumR SpecRayleigh SpecArr SpecDft SpecAtt SpecSmp ModelGw SpecGwR ModelTools.
Import ListNotations.
Local Open Scope string_scope.
Open Scope R_scope.

(** The windows by name. *)
Definition named (s : string) (par : R) (w : apo) : Prop :=
  (s = "triangle" /\ w = ATriangle) \/ (s = "gauss" /\ w = AGauss par) \/ (s = "raised" /\ w = ARaised par) \/
  (s = "hann" /\ w = AHann) \/ (s = "hamming" /\ w = AHamming) \/ (s = "simply" /\ w = ASimply) \/
  (s = "clamped" /\ w = AClamped).

(** The line array whose weights dream_apodwin computes: num elements with
    pitch 2/num from x = 1 downwards. *)
Definition apos (num n : nat) : R := 1 - 2 * INR n / INR num.
Definition line_array (num : nat) (w : apo) : array :=
  {| ar_pos := map (fun n => {| p_x := apos num n; p_y := 0; p_z := 0 |}) (seq 0 num);
     ar_focus := FNone; ar_steer := SNone; ar_apo := w |}.

(** A real scalar argument, held in any way. *)
Definition scalar (v : value EN) (x : R) : Prop := exists st, v = VNum st 1 1 (exact [x]).
(** A vector of two real numbers. *)
Definition two (v : value EN) (x y : R) : Prop := exists st m n, v = VNum st m n (exact [x; y]) /\ ((m = 2 /\ n = 1) \/ (m = 1 /\ n = 2))%Z.

(** dream_att: distance to the origin, travel time in samples after the start
    of the record. *)
Definition range (o : pos) : R := sqrt (p_x o ^2 + p_y o ^2 + p_z o ^2).
Definition flight (cp dt delay : R) (o : pos) : R := (1000 * range o / cp - delay) / dt.
(** The sample where dream_att puts the arrival. *)
Definition att_index (cp dt delay : R) (o : pos) : Z := Ztruncr (flight cp dt delay o + 1).
(** The index fits the type it is cast to. *)
Definition att_fits (fe : front) (z : Z) : Prop :=
  match fe with Octave => (-2^31 <= z < 2^31)%Z | _ => (0 <= z < 2^64)%Z end.
(** The delay argument: one for all or one per observation point. *)
Definition delays (v : value EN) (num : nat) (dl : list R) : Prop :=
  exists st m n, v = VNum st m n (exact dl) /\ (m * n = Z.of_nat (length dl))%Z /\ (length dl = 1%nat \/ length dl = num).
Definition delay_of (dl : list R) (n : nat) : R := if Nat.eqb (length dl) 1 then nth 0 dl 0 else nth n dl 0.
(** The observation points: an N x 3 matrix. *)
Definition points (v : value EN) (ps : list pos) : Prop :=
  exists st, v = VNum st (Z.of_nat (length ps)) 3 (exact (coords ps)).
