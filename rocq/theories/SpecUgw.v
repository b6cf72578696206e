(** SpecUgw.v - the documented interface of das_uni (help text of
    extra_src/oct_das_uni.cc 49-126). *)
From Coq Require Strings.String.
Import Coq.Strings.String.StringSyntax.
From Coq Require Import Reals.
From Verif Require Import Base ModelSir ModelArr ModelSmp ModelDas NumR SpecSmp SpecDas ModelGw SpecGw ModelDgw SpecDgw ModelUgw.
Local Open Scope Z_scope.

(** What the user sees of a call: everything but the objects kept. *)
Definition usees {N : Num} (r : res (uoutcome N * uni_st)) : res (uoutcome N) := do x <- r; Ok (fst x).

(** A session: calls (number of outputs, device memory contents, arguments),
    one after another; it ends in the objects kept, unless a call is
    undefined. *)
Fixpoint uni_session {N : Num} (fe : front) (s : uni_st) (h : list (Z * list N * list (darg N))) : res uni_st :=
  match h with
  | [] => Ok s
  | (nlhs, junk, args) :: h' => do r <- uni_gateway fe nlhs junk s args; uni_session fe (snd r) h'
  end.

Section Spec.
  Context {N : Num}.
  Local Notation triple := (N * N * N)%type.
  Definition umat (c : cls) (st : storage) (m n : Z) (d : list N) : darg N := {| g_cls := c; g_val := VNum st m n d |}.
  Definition entries (g : triple) : list N := let '(a, b, d) := g in [a; b; d].

  (** das_uni(Y,gt,gr,Ro,dt,delay,cp,method), all in one precision [c]:
      Y is len x ny; gt and gr are 3-element vectors and Ro is 3 x 3, however
      Octave holds them; [delays] has one entry or one per image point and is
      held as a matrix of its own (Octave). *)
  Definition uni_args (fe : front) (c : cls) (t : DASType) (len ny : Z) (Y : list N) (gt gr gx gy gz : triple)
    (dt : N) (delays : list N) (cp : N) (No : Z) (args : list (darg N)) : Prop :=
    exists s st1 m1 n1 st2 m2 n2 st3 st4 sd md nd st6,
      (fe = Octave \/ fe = Matlab) /\ (c = CDouble \/ c = CSingle) /\
      args = [umat c Full len ny Y; umat c st1 m1 n1 (entries gt); umat c st2 m2 n2 (entries gr);
              umat c st3 3 3 (let '(x0, dx, x1) := gx in let '(y0, dy, y1) := gy in let '(z0, dz, z1) := gz in
                              [x0; y0; z0; dx; dy; dz; x1; y1; z1]);
              umat c st4 1 1 [dt]; umat c sd md nd delays; umat c st6 1 1 [cp]; dtext s] /\
      In (s, t) das_doc /\ m1 * n1 = 3 /\ m2 * n2 = 3 /\
      md * nd = Z.of_nat (length delays) /\ (md * nd = 1 \/ md * nd = No) /\ (fe = Octave -> sd = Full).
End Spec.

(** The buffers on the device hold the data and the image: fewer than 2^31
    bytes each. *)
Definition device_fits (c : cls) (n : Z) : Prop := 0 < n * elem_size c < 2^31.
